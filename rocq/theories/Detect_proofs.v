From Coq Require Import ZArith QArith Qround List String Bool Lia Lqa Permutation ZifyBool.
From Verif Require Import Base Arr Median Detect_model Detect_spec.
Import ListNotations.
Local Open Scope string_scope.
Local Open Scope Z_scope.

Ltac Zify.zify_post_hook ::= Z.div_mod_to_equations.

(** * Box sizes *)
Inductive zsorted : list Z -> Prop :=
| zs_nil : zsorted []
| zs_one : forall a, zsorted [a]
| zs_cons : forall a b l, a < b -> zsorted (b :: l) -> zsorted (a :: b :: l).

Lemma zsorted_tail : forall a l, zsorted (a :: l) -> zsorted l.
Proof. intros a l H. inversion H; subst; [constructor|assumption]. Qed.

Lemma zsorted_lt : forall l a x, zsorted (a :: l) -> In x l -> a < x.
Proof.
  induction l as [|b l IH]; intros a x H Hx; [destruct Hx|].
  inversion H; subst. destruct Hx as [<-|Hx]; [assumption|].
  assert (b < x) by now apply IH. lia.
Qed.

Lemma zsorted_build : forall a l, (forall x, In x l -> a < x) -> zsorted l -> zsorted (a :: l).
Proof.
  intros a l H Hs. destruct l as [|b l]; constructor; [|assumption]. apply H. now left.
Qed.

Lemma filter_zsorted : forall p l, zsorted l -> zsorted (filter p l).
Proof.
  induction l as [|a l IH]; intro H; simpl; [constructor|].
  specialize (IH (zsorted_tail _ _ H)).
  destruct (p a); [|assumption].
  apply zsorted_build; [|assumption].
  intros x Hx. apply filter_In in Hx. now apply (zsorted_lt l).
Qed.

Lemma zsorted_app_one : forall l m, zsorted l -> (forall x, In x l -> x < m) -> zsorted (l ++ [m])%list.
Proof.
  induction l as [|a l IH]; intros m Hs H; simpl; [constructor|].
  apply zsorted_build.
  - intros x Hx. apply in_app_iff in Hx. destruct Hx as [Hx|[<-|[]]].
    + now apply (zsorted_lt l).
    + apply H. now left.
  - apply IH; [now apply zsorted_tail with a|]. intros; apply H; now right.
Qed.

Lemma digitize_spec : forall bins x, zsorted bins -> (exists b, In b bins /\ x <= b) ->
  exists b, nth_error bins (digitize_right x bins) = Some b /\ x <= b /\ In b bins /\
            forall s, In s bins -> x <= s -> b <= s.
Proof.
  induction bins as [|a bins IH]; intros x Hs [b [Hb Hx]]; [destruct Hb|].
  simpl. destruct (Z.ltb_spec a x) as [Hlt|Hge].
  - destruct Hb as [<-|Hb]; [lia|].
    destruct (IH x) as [b' [E [H1 [H2 H3]]]].
    + now apply zsorted_tail with a.
    + now exists b.
    + exists b'. simpl. repeat split; try assumption; [now right|].
      intros s [<-|Hs'] Hxs; [lia|now apply H3].
  - exists a. simpl. repeat split; [lia|now left|].
    intros s [<-|Hs'] Hxs; [lia|]. assert (a < s) by now apply (zsorted_lt bins). lia.
Qed.

Lemma allowed_sorted : zsorted ALLOWED_BOX_SIZES.
Proof. unfold ALLOWED_BOX_SIZES. repeat (constructor; [lia|]). constructor. Qed.

Lemma allowed_fast : forall s, In s ALLOWED_BOX_SIZES <-> fast_size s.
Proof.
  intro s. unfold fast_size. split.
  - intro H. unfold ALLOWED_BOX_SIZES in H.
    repeat (destruct H as [<-|H];
      [split; [lia|first [exists 0; split; [lia|]; vm_compute; auto; fail | exists 1; split; [lia|]; vm_compute; auto; fail
        | exists 2; split; [lia|]; vm_compute; auto; fail | exists 3; split; [lia|]; vm_compute; auto; fail
        | exists 4; split; [lia|]; vm_compute; auto; fail | exists 5; split; [lia|]; vm_compute; auto; fail
        | exists 6; split; [lia|]; vm_compute; auto; fail | exists 7; split; [lia|]; vm_compute; auto; fail
        | exists 8; split; [lia|]; vm_compute; auto; fail | exists 9; split; [lia|]; vm_compute; auto; fail
        | exists 10; split; [lia|]; vm_compute; auto; fail | exists 11; split; [lia|]; vm_compute; auto; fail
        | exists 12; split; [lia|]; vm_compute; auto; fail ]]|]).
    destruct H.
  - intros (B & k & K & H).
    assert (k <= 12).
    { destruct (Z_le_gt_dec k 12) as [|G]; [assumption|exfalso].
      assert (2 ^ 13 <= 2 ^ k) by (apply Z.pow_le_mono_r; lia). change (2 ^ 13) with 8192 in *. lia. }
    assert (C : k = 0 \/ k = 1 \/ k = 2 \/ k = 3 \/ k = 4 \/ k = 5 \/ k = 6 \/ k = 7 \/ k = 8 \/ k = 9 \/ k = 10 \/ k = 11 \/ k = 12) by lia.
    unfold ALLOWED_BOX_SIZES.
    repeat (destruct C as [->|C]; [cbv in H; destruct H as [->| ->]; cbn [In]; lia|]). subst k. cbv in H. destruct H as [->| ->]; cbn [In]; lia.
Qed.

Lemma allowed_pos : forall s, In s ALLOWED_BOX_SIZES -> 2 <= s.
Proof. intros s H. simpl in H. intuition lia. Qed.

Lemma last_in : forall (l : list Z) d, l <> [] -> In (last l d) l.
Proof.
  induction l as [|a l IH]; intros d H; [contradiction|].
  destruct l as [|b l]; [now left|]. right. apply IH. discriminate.
Qed.

Lemma last_max : forall l a, zsorted (a :: l) -> forall x, In x (a :: l) -> x <= last (a :: l) 0.
Proof.
  induction l as [|b l IH]; intros a H x Hx.
  - destruct Hx as [<-|[]]. simpl. lia.
  - change (last (a :: b :: l) 0) with (last (b :: l) 0).
    inversion H; subst. destruct Hx as [<-|Hx].
    + assert (b <= last (b :: l) 0) by (apply IH; [assumption|now left]). lia.
    + now apply IH.
Qed.

Lemma box_bins_spec : forall mc, 0 < min_box_size mc <= max_box_size mc ->
  zsorted (box_bins mc) /\
  (forall s, In s (box_bins mc) <-> s = 0 \/ permitted mc s).
Proof.
  intros mc Hm. unfold box_bins.
  set (fl := filter _ ALLOWED_BOX_SIZES).
  assert (Hfl : forall s, In s fl <-> fast_size s /\ min_box_size mc <= s <= max_box_size mc).
  { intro s. unfold fl. rewrite filter_In, andb_true_iff, !Z.leb_le, allowed_fast. tauto. }
  assert (Hs0 : zsorted (0 :: fl)).
  { apply zsorted_build.
    - intros x Hx. apply Hfl in Hx. destruct Hx as [Hx _]. apply allowed_fast, allowed_pos in Hx. lia.
    - apply filter_zsorted. apply allowed_sorted. }
  clearbody fl. Opaque ALLOWED_BOX_SIZES.
  destruct (Z.eqb_spec (last (0 :: fl) 0) (max_box_size mc)) as [E|E].
  - split; [assumption|]. intro s. unfold permitted. split.
    + intros [<-|H]; [now left|]. right. left. apply Hfl. exact H.
    + intros [->|[H| ->]]; [now left|right; apply Hfl; exact H|].
      rewrite <- E. apply last_in. discriminate.
  - split.
    + apply zsorted_app_one; [assumption|]. intros x Hx.
      destruct (Z.eq_dec x (max_box_size mc)) as [Ex|Nx].
      * exfalso. pose proof (last_max _ _ Hs0 x Hx).
        pose proof (last_in (0 :: fl) 0 ltac:(discriminate)) as Hl.
        destruct Hl as [Hl|Hl].
        -- subst x. lia.
        -- apply Hfl in Hl. lia.
      * destruct Hx as [<-|Hx]; [lia|]. apply Hfl in Hx. lia.
    + intro s. rewrite in_app_iff. simpl. unfold permitted. rewrite Hfl. intuition.
Qed.

Lemma assign_box_size_spec : forall mc size, 0 < min_box_size mc <= max_box_size mc ->
  exists b, assign_box_size mc size = Ok b /\
    min_box_size mc <= b <= max_box_size mc /\
    smallest_permitted mc (zclip (min_box_size mc) (max_box_size mc) size) b.
Proof.
  intros mc size Hm. unfold assign_box_size.
  destruct (box_bins_spec mc Hm) as [Hs Hin].
  set (want := zclip _ _ size).
  assert (Hw : min_box_size mc <= want <= max_box_size mc) by (unfold want, zclip; lia).
  destruct (digitize_spec (box_bins mc) want Hs) as [b [E [H1 [H2 H3]]]].
  { exists (max_box_size mc). split; [|lia]. apply Hin. right. now right. }
  rewrite E. exists b. split; [reflexivity|].
  apply Hin in H2. destruct H2 as [->|H2]; [lia|].
  assert (b <= max_box_size mc).
  { apply H3; [|lia]. apply Hin. right. now right. }
  split; [lia|]. split; [assumption|]. split; [assumption|].
  intros s Hp Hws. apply H3; [|assumption]. apply Hin. now right.
Qed.

Lemma smallest_fits : forall mc size b, 0 < min_box_size mc <= max_box_size mc ->
  smallest_permitted mc (zclip (min_box_size mc) (max_box_size mc) size) b ->
  size <= max_box_size mc -> size <= b.
Proof. intros mc size b Hm [_ [H _]] Hs. unfold zclip in H. lia. Qed.

Lemma get_box_sizes_ok : forall ff mc cat boxes, 0 < min_box_size mc <= max_box_size mc ->
  get_box_sizes ff mc cat = Ok boxes ->
  List.length boxes = List.length cat /\
  forall i o b, nth_error cat i = Some o -> nth_error boxes i = Some b ->
    exists want, requested_size ff mc o = Ok want /\
      min_box_size mc <= b <= max_box_size mc /\
      smallest_permitted mc (zclip (min_box_size mc) (max_box_size mc) want) b /\
      (want <= max_box_size mc -> want <= b).
Proof.
  intros ff mc cat boxes Hm H.
  assert (H' : omap (fun o => do s <- requested_size ff mc o; assign_box_size mc s) cat = Ok boxes).
  { unfold get_box_sizes in H. destruct cat; [inversion H; reflexivity|assumption]. }
  split; [now apply omap_ok_length in H'|].
  apply omap_ok_Forall2 in H'. clear H.
  induction H' as [|o b cat boxes E HF IH]; intros i o' b' Ho Hb.
  - destruct i; discriminate.
  - destruct i as [|i]; simpl in Ho, Hb.
    + inversion Ho; inversion Hb; subst o' b'.
      destruct (requested_size ff mc o) as [want|] eqn:Er; simpl in E; [|discriminate].
      exists want. split; [reflexivity|].
      destruct (assign_box_size_spec mc want Hm) as [b2 [E2 [H2 H3]]].
      rewrite E in E2. inversion E2; subst b2. split; [assumption|]. split; [assumption|].
      now apply smallest_fits.
    + now apply (IH i).
Qed.

Lemma get_box_sizes_total : forall ff mc cat, 0 < min_box_size mc <= max_box_size mc ->
  (box_type mc = "sigma_size" \/ box_type mc = "iso_radius") ->
  exists boxes, get_box_sizes ff mc cat = Ok boxes.
Proof.
  intros ff mc cat Hm Ht.
  assert (H : exists boxes, omap (fun o => do s <- requested_size ff mc o; assign_box_size mc s) cat = Ok boxes).
  { induction cat as [|o cat [bs IH]]; simpl; [eexists; reflexivity|].
    assert (Hr : exists w, requested_size ff mc o = Ok w).
    { unfold requested_size. destruct Ht as [-> | ->]; simpl; eexists; reflexivity. }
    destruct Hr as [w ->]. simpl.
    destruct (assign_box_size_spec mc w Hm) as [b [-> _]]. simpl. rewrite IH. simpl.
    eexists; reflexivity. }
  destruct H as [bs H]. exists bs. unfold get_box_sizes. destruct cat; assumption.
Qed.

Lemma get_box_sizes_bad_type : forall ff mc o cat,
  box_type mc <> "sigma_size" -> box_type mc <> "iso_radius" ->
  get_box_sizes ff mc (o :: cat) = Raise ValueError.
Proof.
  intros ff mc o cat H1 H2. simpl. unfold requested_size.
  apply String.eqb_neq in H1. apply String.eqb_neq in H2. now rewrite H1, H2.
Qed.

(** The two kinds of requested size, in terms of what they must cover. *)
Lemma qtrunc_nonneg : forall q, (0 <= q)%Q -> qtrunc q = Qfloor q.
Proof.
  intros [n d] H. unfold qtrunc, Qfloor; simpl. unfold Qle in H; simpl in H.
  apply Z.quot_div_nonneg; lia.
Qed.

Lemma qtrunc_part : forall q, integer_part q (qtrunc q).
Proof.
  intro q. split; intro H.
  - rewrite (qtrunc_nonneg q H). split; [apply Qfloor_le|]. pose proof (Qlt_floor q) as L. rewrite inject_Z_plus in L. exact L.
  - destruct q as [n d]. unfold qtrunc, Qle, Qlt, Qminus, Qplus, Qopp, inject_Z in *. cbn [Qnum Qden] in *.
    assert (Hn : n <= 0) by lia. pose proof (Z.quot_rem' n (Zpos d)) as E. set (r := Z.rem n (Zpos d)) in *.
    assert (B : - Zpos d < r <= 0) by (apply Z.rem_bound_pos_neg; lia). rewrite ?Pos.mul_1_l, ?Z.mul_1_r.
    split; nia.
Qed.

Lemma requested_sigma_wanted : forall ff mc o want, box_type mc = "sigma_size" ->
  requested_size ff mc o = Ok want -> wanted_sigma ff mc o want.
Proof.
  intros ff mc o want Ht H. unfold requested_size in H. rewrite Ht in H. cbn [String.eqb Ascii.eqb Bool.eqb] in H.
  apply Ok_inj in H. subst want. exists (get_sigma_size ff mc o). unfold sigma_extent.
  assert (E : exists d, get_sigma_size ff mc o = 2 * Qceiling d /\
      d = (d_flux_radius o * 2 / ff * sigma_fac mc * (1 + (1 - d_b o / d_a o)))%Q) by (eexists; split; reflexivity).
  destruct E as (d & E & D). rewrite <- D. rewrite E. split; [apply Z.even_spec; eexists; reflexivity|].
  rewrite inject_Z_mult. change (inject_Z 2) with 2%Q. pose proof (Qle_ceiling d) as U. pose proof (Qceiling_lt d) as L.
  assert (E2 : (inject_Z (Qceiling d - 1) == inject_Z (Qceiling d) - 1)%Q) by (unfold Z.sub; rewrite inject_Z_plus; change (inject_Z (Z.opp 1)) with (-1 # 1)%Q; lra).
  rewrite E2 in L. split; [lra|]. split; [lra|]. lia.
Qed.

Lemma requested_iso_wanted : forall ff mc o want, box_type mc = "iso_radius" ->
  requested_size ff mc o = Ok want -> wanted_iso mc o want.
Proof.
  intros ff mc o want Ht H. unfold requested_size in H. rewrite Ht in H. cbn [String.eqb Ascii.eqb Bool.eqb] in H.
  apply Ok_inj in H. subst want.
  exists (if Qle_bool (d_iso_radius o) (rad_min mc) then rad_min mc else d_iso_radius o). split; [|apply qtrunc_part].
  destruct (Qle_bool (d_iso_radius o) (rad_min mc)) eqn:E.
  - apply Qle_bool_iff in E. split; [lra|]. split; [lra|]. left. reflexivity.
  - split; [|split; [lra|right; reflexivity]].
    destruct (Qlt_le_dec (d_iso_radius o) (rad_min mc)) as [Hl|]; [|assumption].
    apply Qlt_le_weak in Hl. apply Qle_bool_iff in Hl. congruence.
Qed.

Lemma requested_wanted : forall ff mc o want, requested_size ff mc o = Ok want -> wanted_size ff mc o want.
Proof.
  intros ff mc o want H. destruct (String.eqb (box_type mc) "sigma_size") eqn:E1.
  - apply String.eqb_eq in E1. left. split; [exact E1|]. exact (requested_sigma_wanted ff mc o want E1 H).
  - destruct (String.eqb (box_type mc) "iso_radius") eqn:E2.
    + apply String.eqb_eq in E2. right. split; [exact E2|]. exact (requested_iso_wanted ff mc o want E2 H).
    + unfold requested_size in H. rewrite E1, E2 in H. discriminate H.
Qed.

(** The size asked for, and with it the stamp size, is determined. *)
Lemma integer_part_unique : forall q q' n n', (q == q')%Q -> integer_part q n -> integer_part q' n' -> n = n'.
Proof.
  intros q q' n n' E [P N] [P' N'].
  assert (A : (inject_Z n < inject_Z n' + 1)%Q /\ (inject_Z n' < inject_Z n + 1)%Q).
  { destruct (Qlt_le_dec q 0) as [L|L].
    - destruct (N (Qlt_le_weak _ _ L)) as [a b]. destruct N' as [a' b']; [lra|]. split; lra.
    - destruct (P L) as [a b]. destruct P' as [a' b']; [lra|]. split; lra. }
  destruct A as [A B]. change 1%Q with (inject_Z 1) in A, B. rewrite <- inject_Z_plus, <- Zlt_Qlt in A, B. lia.
Qed.

Lemma wanted_unique : forall ff mc o w w', wanted_size ff mc o w -> wanted_size ff mc o w' -> w = w'.
Proof.
  intros ff mc o w w' [[T W]|[T W]] [[T' W']|[T' W']]; try (rewrite T in T'; discriminate T').
  - destruct W as (e & E & A & B & ->). destruct W' as (e' & E' & A' & B' & ->).
    assert (X : e = e'); [|rewrite X; reflexivity].
    assert (C : (inject_Z e < inject_Z e' + 2)%Q) by lra. assert (D : (inject_Z e' < inject_Z e + 2)%Q) by lra.
    change 2%Q with (inject_Z 2) in C, D. rewrite <- inject_Z_plus, <- Zlt_Qlt in C, D.
    apply Z.even_spec in E, E'. destruct E as [k ->]. destruct E' as [k' ->]. lia.
  - destruct W as (r & (A & B & C) & I). destruct W' as (r' & (A' & B' & C') & I').
    refine (integer_part_unique _ _ w w' _ I I'). assert (E : (r == r')%Q) by (destruct C, C'; lra).
    unfold iso_extent. rewrite E. reflexivity.
Qed.

Lemma smallest_unique : forall mc w b b', smallest_permitted mc w b -> smallest_permitted mc w b' -> b = b'.
Proof. intros mc w b b' (P & W & M) (P' & W' & M'). pose proof (M b' P' W'). pose proof (M' b P W). lia. Qed.

Lemma get_box_sizes_wanted : forall ff mc cat boxes, 0 < min_box_size mc <= max_box_size mc ->
  get_box_sizes ff mc cat = Ok boxes ->
  List.length boxes = List.length cat /\
  forall i o b, nth_error cat i = Some o -> nth_error boxes i = Some b ->
    exists want, wanted_size ff mc o want /\
      min_box_size mc <= b <= max_box_size mc /\
      smallest_permitted mc (into_range mc want) b /\
      (want <= max_box_size mc -> want <= b).
Proof.
  intros ff mc cat boxes Hm H. destruct (get_box_sizes_ok ff mc cat boxes Hm H) as [L F]. split; [exact L|].
  intros i o b Ho Hb. destruct (F i o b Ho Hb) as (want & R & X). exists want.
  split; [exact (requested_wanted ff mc o want R)|exact X].
Qed.

(** * Stamps *)
Lemma norm_bound_in : forall n x, 0 <= x <= n -> norm_bound n x = x.
Proof. intros. unfold norm_bound. destruct (Z.ltb_spec x 0); lia. Qed.

Lemma clipped_boxes_spec : forall dim start b, 0 <= dim -> 0 <= b -> - b <= start <= dim ->
  get_clipped_boxes dim start b =
  ((Z.max 0 start, Z.min (start + b) dim), (Z.max 0 (- start), Z.min b (dim - start))).
Proof.
  intros dim start b Hd Hb Hs. unfold get_clipped_boxes.
  destruct (Z.ltb_spec start 0), (Z.ltb_spec (dim - (start + b)) 0);
    (f_equal; f_equal; lia).
Qed.

Lemma nth_error_image_types : forall t, existsb (String.eqb t) image_types = true <-> In t image_types.
Proof.
  intro t. rewrite existsb_exists. split.
  - intros [x [Hx E]]. apply String.eqb_eq in E. now subst.
  - intro H. exists t. split; [assumption|apply String.eqb_refl].
Qed.

Lemma default_fill : forall t, In t image_types ->
  DEFAULT_IMAGE_VALUES t = Some (plane_fill t) /\ String.eqb t "psf" = false.
Proof.
  intros t H. simpl in H. destruct H as [<-|[<-|[<-|[<-|[<-|[]]]]]]; split; reflexivity.
Qed.

Lemma get_cutout_ok : forall m iobj t e,
  nth_error (m_cat m) iobj = Some e -> In t image_types ->
  let im := m_plane m t in
  0 <= nr im -> 0 <= nc im -> 0 <= e_box e ->
  - e_box e <= e_srow e <= nr im -> - e_box e <= e_scol e <= nc im ->
  exists s, get_cutout m iobj t = Ok s /\ nr s = e_box e /\ nc s = e_box e /\
    forall i j, 0 <= i < e_box e -> 0 <= j < e_box e ->
      px s i j = stamp_pixel im (plane_fill t) (e_srow e) (e_scol e) i j.
Proof.
  intros m iobj t e He Ht im Hr Hc Hb Hsr Hsc. unfold get_cutout. rewrite He.
  destruct (default_fill t Ht) as [Hfill Hpsf]. rewrite Hpsf.
  apply nth_error_image_types in Ht. rewrite Ht. fold im.
  rewrite (clipped_boxes_spec (nr im) (e_srow e) (e_box e)) by assumption.
  rewrite (clipped_boxes_spec (nc im) (e_scol e) (e_box e)) by assumption.
  destruct (Z.ltb_spec (e_box e) 0) as [|_]; [lia|].
  rewrite Hfill. unfold assign_slice. cbn [nr nc px ifill slice].
  unfold slice_len, slice_lo.
  rewrite !norm_bound_in by lia.
  set (sr := e_srow e) in *. set (sc := e_scol e) in *. set (b := e_box e) in *.
  assert (E1 : Z.max 0 (Z.min (sr + b) (nr im) - Z.max 0 sr)
             = Z.max 0 (Z.min b (nr im - sr) - Z.max 0 (- sr))) by lia.
  assert (E2 : Z.max 0 (Z.min (sc + b) (nc im) - Z.max 0 sc)
             = Z.max 0 (Z.min b (nc im - sc) - Z.max 0 (- sc))) by lia.
  rewrite E1, E2. unfold bcast_ok. rewrite !Z.eqb_refl. simpl.
  eexists. split; [reflexivity|]. cbn [nr nc px]. split; [reflexivity|]. split; [reflexivity|].
  intros i j Hi Hj. unfold stamp_pixel, insideb.
  destruct ((0 <=? sr + i) && (sr + i <? nr im) && (0 <=? sc + j) && (sc + j <? nc im)) eqn:Ein.
  - rewrite !andb_true_iff, !Z.leb_le, !Z.ltb_lt in Ein.
    match goal with |- (if ?c then _ else _) = _ => assert (Hc' : c = true) end.
    { rewrite !andb_true_iff, !Z.leb_le, !Z.ltb_lt. lia. }
    rewrite Hc'. f_equal; lia.
  - match goal with |- (if ?c then _ else _) = _ => assert (Hc' : c = false) end.
    { apply not_true_is_false. rewrite !andb_true_iff, !Z.leb_le, !Z.ltb_lt.
      intro X. apply not_true_iff_false in Ein. apply Ein.
      rewrite !andb_true_iff, !Z.leb_le, !Z.ltb_lt. lia. }
    rewrite Hc'. reflexivity.
Qed.

Lemma get_cutout_far : forall m iobj t e,
  nth_error (m_cat m) iobj = Some e -> In t image_types ->
  let im := m_plane m t in
  0 <= nr im -> 0 < e_box e ->
  nr im < e_srow e < nr im + e_box e ->
  get_cutout m iobj t = Raise ValueError.
Proof.
  intros m iobj t e He Ht im Hr Hb Hs. unfold get_cutout. rewrite He.
  destruct (default_fill t Ht) as [Hfill Hpsf]. rewrite Hpsf.
  apply nth_error_image_types in Ht. rewrite Ht. fold im.
  assert (E : get_clipped_boxes (nr im) (e_srow e) (e_box e) =
     ((e_srow e, nr im), (0, nr im - e_srow e))).
  { unfold get_clipped_boxes. destruct (Z.ltb_spec (e_srow e) 0); [lia|].
    destruct (Z.ltb_spec (nr im - (e_srow e + e_box e)) 0); [|lia]. f_equal. f_equal. lia. }
  rewrite E. destruct (get_clipped_boxes (nc im) (e_scol e) (e_box e)) as [[oc0 oc1] [c0 c1]].
  destruct (Z.ltb_spec (e_box e) 0); [reflexivity|].
  rewrite Hfill. unfold assign_slice. cbn [nr nc px ifill slice].
  unfold slice_len at 1 2, bcast_ok at 1, norm_bound.
  destruct (Z.ltb_spec (nr im) 0); [lia|].
  destruct (Z.ltb_spec (e_srow e) 0); [lia|].
  destruct (Z.ltb_spec (nr im - e_srow e) 0); [|lia].
  destruct (Z.ltb_spec 0 0); [lia|].
  replace (Z.max 0 (Z.min (nr im) (nr im) - Z.min (e_srow e) (nr im))) with 0 by lia.
  destruct (Z.eqb_spec 0 (Z.max 0 (Z.max 0 (nr im - e_srow e + e_box e) - Z.min 0 (e_box e)))); [lia|].
  reflexivity.
Qed.

(** Positions *)
Lemma qtrunc_bounds : forall q n, (0 <= q)%Q -> (q < inject_Z n)%Q ->
  0 <= qtrunc q < n /\ (inject_Z (qtrunc q) <= q)%Q /\ (q < inject_Z (qtrunc q) + 1)%Q.
Proof.
  intros q n H0 Hn. rewrite qtrunc_nonneg by assumption.
  assert (Hf : (inject_Z (Qfloor q) <= q)%Q) by apply Qfloor_le.
  assert (Hl : (q < inject_Z (Qfloor q + 1))%Q) by apply Qlt_floor.
  split; [split|split].
  - change 0 with (Qfloor 0). now apply Qfloor_resp_le.
  - rewrite Zlt_Qlt. lra.
  - assumption.
  - rewrite inject_Z_plus in Hl. exact Hl.
Qed.

Lemma make_entry_anchor : forall nrow ncol id num y x box,
  pos_in nrow ncol y x -> 2 <= box ->
  let e := make_entry nrow ncol id num y x box in
  (0 <= e_srow e <= qtrunc y /\ qtrunc y < e_erow e <= nrow /\ qtrunc y < e_srow e + box) /\
  (0 <= e_scol e <= qtrunc x /\ qtrunc x < e_ecol e <= ncol /\ qtrunc x < e_scol e + box) /\
  (e_crow e + inject_Z (e_srow e) == y)%Q /\ (e_ccol e + inject_Z (e_scol e) == x)%Q /\
  ((0 <= e_crow e)%Q /\ (e_crow e < inject_Z box)%Q) /\
  ((0 <= e_ccol e)%Q /\ (e_ccol e < inject_Z box)%Q) /\
  e_box e = box /\ e_row e = y /\ e_col e = x /\
  e_erow e - e_srow e <= box /\ e_ecol e - e_scol e <= box.
Proof.
  intros nrow ncol id num y x box [Hy0 [Hy1 [Hx0 Hx1]]] Hb e.
  destruct (qtrunc_bounds y nrow Hy0 Hy1) as [Ty [Ty1 Ty2]].
  destruct (qtrunc_bounds x ncol Hx0 Hx1) as [Tx [Tx1 Tx2]].
  unfold e, make_entry; cbn [e_srow e_scol e_erow e_ecol e_crow e_ccol e_box e_row e_col].
  set (sr := Z.max (qtrunc y - box / 2 + 1) 0).
  set (sc := Z.max (qtrunc x - box / 2 + 1) 0).
  assert (Hsr : 0 <= sr <= qtrunc y /\ qtrunc y < sr + box) by (unfold sr; lia).
  assert (Hsc : 0 <= sc <= qtrunc x /\ qtrunc x < sc + box) by (unfold sc; lia).
  assert (Qr : (inject_Z sr <= inject_Z (qtrunc y))%Q) by (rewrite <- Zle_Qle; lia).
  assert (Qc : (inject_Z sc <= inject_Z (qtrunc x))%Q) by (rewrite <- Zle_Qle; lia).
  assert (Br : (inject_Z (qtrunc y) + 1 <= inject_Z sr + inject_Z box)%Q).
  { rewrite <- inject_Z_plus. change 1%Q with (inject_Z 1). rewrite <- inject_Z_plus.
    rewrite <- Zle_Qle. lia. }
  assert (Bc : (inject_Z (qtrunc x) + 1 <= inject_Z sc + inject_Z box)%Q).
  { rewrite <- inject_Z_plus. change 1%Q with (inject_Z 1). rewrite <- inject_Z_plus.
    rewrite <- Zle_Qle. lia. }
  repeat split; try lia; try lra; try (unfold sr; lia); try (unfold sc; lia).
Qed.

(** Away from the low edges, even stamps are centred. *)
Lemma make_entry_centered : forall nrow ncol id num y x box,
  pos_in nrow ncol y x -> 2 <= box ->
  box / 2 - 1 <= qtrunc y -> box / 2 - 1 <= qtrunc x ->
  centered box (make_entry nrow ncol id num y x box).
Proof.
  intros nrow ncol id num y x box [Hy0 [Hy1 [Hx0 Hx1]]] Hb Hy Hx.
  destruct (qtrunc_bounds y nrow Hy0 Hy1) as [Ty [Ty1 Ty2]].
  destruct (qtrunc_bounds x ncol Hx0 Hx1) as [Tx [Tx1 Tx2]].
  unfold centered, make_entry; cbn [e_crow e_ccol].
  replace (Z.max (qtrunc y - box / 2 + 1) 0) with (qtrunc y - box / 2 + 1) by lia.
  replace (Z.max (qtrunc x - box / 2 + 1) 0) with (qtrunc x - box / 2 + 1) by lia.
  unfold Z.sub. rewrite !inject_Z_plus, !inject_Z_opp. change (inject_Z 1) with 1%Q.
  repeat split; lra.
Qed.

(** Near a low edge they are not: the stamp is shifted. *)
Lemma make_entry_not_centered : forall nrow ncol id num y x box,
  pos_in nrow ncol y x -> 2 <= box -> qtrunc y < box / 2 - 1 ->
  ~ centered box (make_entry nrow ncol id num y x box).
Proof.
  intros nrow ncol id num y x box [Hy0 [Hy1 [Hx0 Hx1]]] Hb Hy [H1 _].
  destruct (qtrunc_bounds y nrow Hy0 Hy1) as [Ty [Ty1 Ty2]].
  revert H1. unfold make_entry; cbn [e_crow].
  replace (Z.max (qtrunc y - box / 2 + 1) 0) with 0 by lia.
  change (inject_Z 0) with 0%Q.
  assert (inject_Z (qtrunc y) + 1 <= inject_Z (box / 2) - 1)%Q.
  { change 1%Q with (inject_Z 1). unfold Qminus. rewrite <- inject_Z_opp, <- !inject_Z_plus.
    rewrite <- Zle_Qle. lia. }
  lra.
Qed.

Lemma number_from_nth : forall A (l : list A) k i,
  nth_error (number_from k l) i =
  match nth_error l i with Some a => Some (k + Z.of_nat i, a) | None => None end.
Proof.
  induction l as [|a l IH]; intros k i; simpl.
  - destruct i; reflexivity.
  - destruct i as [|i]; simpl.
    + do 2 f_equal. lia.
    + rewrite IH. destruct (nth_error l i); [|reflexivity]. do 2 f_equal. lia.
Qed.

Lemma catalog_medsify_nth : forall nrow ncol objs i y x b,
  nth_error objs i = Some (y, x, b) ->
  nth_error (catalog_medsify nrow ncol objs None) i =
  Some (make_entry nrow ncol (Z.of_nat i) (Z.of_nat i + 1) y x b).
Proof.
  intros nrow ncol objs i y x b H. unfold catalog_medsify.
  rewrite nth_error_map, number_from_nth, H. reflexivity.
Qed.

(** Stamps of a catalogue of in-image positions. *)
Lemma catalog_stamp : forall planes psf objs nrow ncol i y x b t,
  nth_error objs i = Some (y, x, b) -> pos_in nrow ncol y x -> 2 <= b ->
  In t image_types -> nr (planes t) = nrow -> nc (planes t) = ncol ->
  let m := mkMedsI planes psf (catalog_medsify nrow ncol objs None) in
  let e := make_entry nrow ncol (Z.of_nat i) (Z.of_nat i + 1) y x b in
  exists s, get_cutout m i t = Ok s /\ nr s = b /\ nc s = b /\
    (forall k l, 0 <= k < b -> 0 <= l < b ->
       px s k l = stamp_pixel (planes t) (plane_fill t) (e_srow e) (e_scol e) k l) /\
    px s (qtrunc y - e_srow e) (qtrunc x - e_scol e) = px (planes t) (qtrunc y) (qtrunc x).
Proof.
  intros planes psf objs nrow ncol i y x b t Hi Hp Hb Ht Hnr Hnc m e.
  destruct (make_entry_anchor nrow ncol (Z.of_nat i) (Z.of_nat i + 1) y x b Hp Hb)
    as [A [B [_ [_ [_ [_ [Ebox _]]]]]]]. fold e in A, B, Ebox.
  destruct Hp as [Hy0 [Hy1 [Hx0 Hx1]]].
  destruct (qtrunc_bounds y nrow Hy0 Hy1) as [Ty _].
  destruct (qtrunc_bounds x ncol Hx0 Hx1) as [Tx _].
  destruct (get_cutout_ok m i t e) as [s [E [E1 [E2 E3]]]].
  - simpl. now apply catalog_medsify_nth.
  - assumption.
  - simpl. lia.
  - simpl. lia.
  - lia.
  - simpl. lia.
  - simpl. lia.
  - exists s. rewrite Ebox in *. repeat split; try assumption.
    rewrite E3 by lia. unfold stamp_pixel.
    replace (e_srow e + (qtrunc y - e_srow e)) with (qtrunc y) by lia.
    replace (e_scol e + (qtrunc x - e_scol e)) with (qtrunc x) by lia.
    assert (Hins : insideb (m_plane m t) (qtrunc y) (qtrunc x) = true).
    { apply insideb_spec. unfold inside. simpl. lia. }
    rewrite Hins. reflexivity.
Qed.

(** EDGE bit. *)
Lemma catalog_edge : forall planes psf objs nrow ncol i y x b,
  nth_error objs i = Some (y, x, b) -> pos_in nrow ncol y x -> 2 <= b ->
  nr (planes "bmask") = nrow -> nc (planes "bmask") = ncol ->
  (forall k l, inside (planes "bmask") k l ->
     exists z, px (planes "bmask") k l = I z /\ Z.land z BMASK_EDGE = 0) ->
  let m := mkMedsI planes psf (catalog_medsify nrow ncol objs None) in
  let e := make_entry nrow ncol (Z.of_nat i) (Z.of_nat i + 1) y x b in
  exists s, get_cutout m i "bmask" = Ok s /\
    forall k l, 0 <= k < b -> 0 <= l < b ->
      exists z, px s k l = I z /\
      (Z.land z BMASK_EDGE <> 0 <->
       ~ (0 <= e_srow e + k < nrow /\ 0 <= e_scol e + l < ncol)).
Proof.
  intros planes psf objs nrow ncol i y x b Hi Hp Hb Hnr Hnc Hbm m e.
  destruct (catalog_stamp planes psf objs nrow ncol i y x b "bmask" Hi Hp Hb)
    as [s [E [E1 [E2 [E3 _]]]]]; [simpl; tauto|assumption|assumption|].
  exists s. split; [assumption|]. intros k l Hk Hl. rewrite E3 by assumption.
  unfold stamp_pixel. fold e.
  destruct (insideb (planes "bmask") (e_srow e + k) (e_scol e + l)) eqn:Ein.
  - apply insideb_spec in Ein. destruct (Hbm _ _ Ein) as [z [Ez Lz]].
    exists z. split; [assumption|]. unfold inside in Ein. rewrite Hnr, Hnc in Ein.
    split; [intro X; contradiction|]. intro X. now contradiction X.
  - exists (2 ^ 30). split; [reflexivity|]. split; [|intros _; discriminate].
    intros _ X. apply not_true_iff_false in Ein. apply Ein. apply insideb_spec.
    unfold inside. now rewrite Hnr, Hnc.
Qed.

(** * Detection image *)
Lemma Qle_bool_false : forall x y, Qle_bool x y = false <-> (y < x)%Q.
Proof.
  intros x y. split; intro H.
  - destruct (Qlt_le_dec y x) as [|Hle]; [assumption|].
    apply Qle_bool_iff in Hle. congruence.
  - apply not_true_is_false. intro E. apply Qle_bool_iff in E. lra.
Qed.

Lemma positive_weights_pos : forall b w, In w (positive_weights b) -> (0 < w)%Q.
Proof.
  intros b w H. unfold positive_weights in H. apply filter_In in H. destruct H as [_ H].
  apply negb_true_iff in H. now apply Qle_bool_false.
Qed.

Lemma in_pixels : forall A (im : img A) a, In a (pixels im) <-> exists i j, inside im i j /\ px im i j = a.
Proof.
  intros A im a. unfold pixels. rewrite in_map_iff. split.
  - intros [[i j] [E H]]. apply in_coords in H. exists i, j. split; [exact H|exact E].
  - intros [i [j [H E]]]. exists (i, j). split; [exact E|]. apply in_coords. exact H.
Qed.

Lemma usable_positive : forall b, usable b <-> positive_weights b <> [].
Proof.
  intro b. unfold usable, positive_weights. split.
  - intros [i [j [Hin Hp]]] E.
    assert (H : In (px (b_weight b) i j) (filter (fun w => negb (Qle_bool w 0)) (pixels (b_weight b)))).
    { apply filter_In. split; [apply in_pixels; exists i, j; tauto|].
      apply negb_true_iff. now apply Qle_bool_false. }
    rewrite E in H. destruct H.
  - intro Hne. destruct (filter _ _) as [|w l] eqn:E; [contradiction|].
    assert (H : In w (filter (fun w => negb (Qle_bool w 0)) (pixels (b_weight b)))) by (rewrite E; now left).
    apply filter_In in H. destruct H as [H Hp]. apply in_pixels in H.
    destruct H as [i [j [Hin Ew]]]. exists i, j. split; [assumption|].
    rewrite Ew. apply negb_true_iff in Hp. now apply Qle_bool_false.
Qed.

Definition med (b : band) : Q := match qmedian (positive_weights b) with Some m => m | None => 0%Q end.

Lemma med_pos : forall b, usable b -> (0 < med b)%Q /\ qmedian (positive_weights b) = Some (med b).
Proof.
  intros b H. apply usable_positive in H. unfold med.
  destruct (qmedian (positive_weights b)) as [m|] eqn:E.
  - split; [|reflexivity]. apply (qmedian_pos (positive_weights b)); [|assumption].
    intros; now apply (positive_weights_pos b).
  - apply qmedian_none in E. contradiction.
Qed.

Lemma oall_image_var : forall bands, (forall b, In b bands -> usable b) ->
  oall (map image_var bands) = Some (map (fun b => 1 / med b)%Q bands).
Proof.
  induction bands as [|b bands IH]; intro H; simpl; [reflexivity|].
  unfold image_var at 1. destruct (med_pos b) as [_ ->]; [apply H; now left|].
  rewrite IH by (intros; apply H; now right). reflexivity.
Qed.

Lemma oall_image_var_none : forall bands b, In b bands -> ~ usable b ->
  oall (map image_var bands) = None.
Proof.
  induction bands as [|a bands IH]; intros b Hb Hu; [destruct Hb|]. simpl.
  destruct Hb as [->|Hb].
  - unfold image_var. destruct (qmedian (positive_weights b)) eqn:E; [|reflexivity].
    exfalso. apply Hu. apply usable_positive. intro E0. rewrite E0 in E. discriminate.
  - rewrite (IH b Hb Hu). now destruct (image_var a).
Qed.

Definition detw (b : band) : Q := (1 / (1 / med b))%Q.
Definition detwsum (bands : list band) : Q := qsum (map detw bands).

Lemma detw_med : forall b, usable b -> (detw b == med b)%Q.
Proof. intros b H. unfold detw. destruct (med_pos b H). field. lra. Qed.

Lemma combine_map_self : forall A B (f : A -> B) l, combine l (map f l) = map (fun x => (x, f x)) l.
Proof. induction l as [|a l IH]; simpl; [reflexivity|]. now rewrite IH. Qed.

Lemma set_detim_val : forall nodet bands, bands <> [] -> (forall b, In b bands -> usable b) ->
  exists detim mask, set_detim nodet bands = Some (detim, detwsum bands, mask) /\
    (forall b, In b bands -> same_shape bands ->
       nr detim = nr (b_image b) /\ nc detim = nc (b_image b) /\
       nr mask = nr (b_image b) /\ nc mask = nc (b_image b)) /\
    (forall i j, (px detim i j ==
       qsum (map (fun b => detw b * px (b_image b) i j) bands) / detwsum bands)%Q) /\
    (forall i j, px mask i j = true <->
       exists b bm, In b bands /\ b_bmask b = Some bm /\ Z.land (px bm i j) nodet <> 0).
Proof.
  intros nodet bands Hne Hu. unfold set_detim.
  destruct bands as [|b0 bands0] eqn:Eb; [contradiction|]. rewrite <- Eb in *.
  rewrite oall_image_var by assumption. rewrite !map_map.
  eexists. eexists. split; [reflexivity|]. split; [|split].
  - intros b Hb Hsh. cbn [nr nc].
    destruct (Hsh b0 b) as [E1 E2]; [rewrite Eb; now left|assumption|]. now repeat split.
  - intros i j. cbn [px]. fold (detw). rewrite combine_map_self.
    assert (Hpos : (0 < detwsum bands)%Q).
    { unfold detwsum. apply qsum_pos; [rewrite Eb; discriminate|].
      intros x Hx. apply in_map_iff in Hx. destruct Hx as [b [<- Hb]].
      destruct (med_pos b (Hu b Hb)). rewrite detw_med by now apply Hu. assumption. }
    rewrite (fold_left_qsum _ (fun bw : band * Q => (px (b_image (fst bw)) i j * snd bw)%Q)).
    rewrite map_map. cbn [fst snd].
    fold (detwsum bands).
    assert (ER : (qsum (map (fun b : band => (detw b * px (b_image b) i j)%Q) bands) / detwsum bands
      == / detwsum bands * qsum (map (fun b : band => (detw b * px (b_image b) i j)%Q) bands))%Q)
      by (unfold Qdiv; ring).
    rewrite ER, <- qsum_map_mult, Qplus_0_l.
    apply qsum_map_ext. intros b Hb. unfold detw. unfold Qdiv. ring.
  - intros i j. cbn [px].
    assert (G : forall l acc, fold_left (fun acc b => match b_bmask b with
              | Some bm => acc || negb (Z.land (px bm i j) nodet =? 0)
              | None => acc end) l acc = true <->
              acc = true \/ exists b bm, In b l /\ b_bmask b = Some bm /\ Z.land (px bm i j) nodet <> 0).
    { induction l as [|b l IH]; intro acc; simpl.
      - split; [tauto|]. intros [H|[b [bm [[] _]]]]; assumption.
      - rewrite IH. destruct (b_bmask b) as [bm|] eqn:Ebm.
        + rewrite orb_true_iff, negb_true_iff, Z.eqb_neq. split.
          * intros [[H|H]|[b' [bm' [H1 H2]]]]; [tauto| |].
            -- right. exists b, bm. tauto.
            -- right. exists b', bm'. tauto.
          * intros [H|[b' [bm' [[<-|H1] H2]]]]; [tauto| |].
            -- rewrite Ebm in H2. destruct H2 as [E H2]. inversion E; subst. tauto.
            -- right. exists b', bm'. tauto.
        + split.
          * intros [H|[b' [bm' [H1 H2]]]]; [tauto|]. right. exists b', bm'. tauto.
          * intros [H|[b' [bm' [[<-|H1] H2]]]]; [tauto| |].
            -- rewrite Ebm in H2. destruct H2; discriminate.
            -- right. exists b', bm'. tauto. }
    rewrite G. split; [intros [H|H]; [discriminate|assumption]|tauto].
Qed.

Lemma detwsum_meds : forall bands, (forall b, In b bands -> usable b) ->
  (detwsum bands == qsum (map med bands))%Q.
Proof.
  intros bands Hu. unfold detwsum. apply qsum_map_ext. intros b Hb. apply detw_med. now apply Hu.
Qed.

Lemma detwsum_pos : forall bands, bands <> [] -> (forall b, In b bands -> usable b) ->
  (0 < detwsum bands)%Q.
Proof.
  intros bands Hne Hu. rewrite detwsum_meds by assumption. apply qsum_pos.
  - destruct bands; [contradiction|discriminate].
  - intros x Hx. apply in_map_iff in Hx. destruct Hx as [b [<- Hb]]. now apply med_pos, Hu.
Qed.

Lemma detim_convex : forall nodet bands detim w mask lo hi i j,
  bands <> [] -> (forall b, In b bands -> usable b) ->
  set_detim nodet bands = Some (detim, w, mask) ->
  (forall b, In b bands -> lo <= px (b_image b) i j /\ px (b_image b) i j <= hi)%Q ->
  (lo <= px detim i j /\ px detim i j <= hi)%Q.
Proof.
  intros nodet bands detim w mask lo hi i j Hne Hu H Hb.
  destruct (set_detim_val nodet bands Hne Hu) as [d [m [E [_ [Hd _]]]]].
  rewrite E in H. inversion H; subst. rewrite Hd.
  apply (weighted_mean_bounds _ detw (fun b => px (b_image b) i j)).
  - intros b Hin. rewrite detw_med by now apply Hu. apply Qlt_le_weak. now apply med_pos, Hu.
  - intros b Hin _. now apply Hb.
  - now apply detwsum_pos.
Qed.

(** Scaling. *)
Lemma positive_weights_scale : forall c b, (0 < c)%Q ->
  positive_weights (scale_weights c b) = map (Qmult c) (positive_weights b).
Proof.
  intros c b Hc. unfold positive_weights, scale_weights; simpl.
  assert (E : pixels (imap (Qmult c) (b_weight b)) = map (Qmult c) (pixels (b_weight b))).
  { unfold pixels, imap; simpl. now rewrite map_map. }
  rewrite E. clear E. induction (pixels (b_weight b)) as [|w l IH]; simpl; [reflexivity|].
  assert (Ew : Qle_bool (c * w) 0 = Qle_bool w 0).
  { destruct (Qle_bool w 0) eqn:E0.
    - apply Qle_bool_iff in E0. apply Qle_bool_iff. nra.
    - apply Qle_bool_false in E0. apply Qle_bool_false. nra. }
  rewrite Ew. destruct (Qle_bool w 0); simpl; now rewrite IH.
Qed.

Lemma scale_usable : forall c b, (0 < c)%Q -> usable b -> usable (scale_weights c b).
Proof.
  intros c b Hc [i [j [Hin Hp]]]. exists i, j. split; [exact Hin|]. simpl. nra.
Qed.

Lemma med_scale : forall c b, (0 < c)%Q -> usable b -> (med (scale_weights c b) == c * med b)%Q.
Proof.
  intros c b Hc Hu. destruct (med_pos b Hu) as [_ E].
  unfold med at 1. rewrite positive_weights_scale by assumption.
  destruct (qmedian_scale c _ _ Hc E) as [m' [-> Em]]. exact Em.
Qed.

Lemma detim_scale : forall c nodet bands, (0 < c)%Q -> bands <> [] ->
  (forall b, In b bands -> usable b) ->
  exists d w m d' w' m',
    set_detim nodet bands = Some (d, w, m) /\
    set_detim nodet (map (scale_weights c) bands) = Some (d', w', m') /\
    (forall i j, (px d' i j == px d i j)%Q) /\ (w' == c * w)%Q.
Proof.
  intros c nodet bands Hc Hne Hu.
  destruct (set_detim_val nodet bands Hne Hu) as [d [m [E [_ [Hd _]]]]].
  assert (Hu' : forall b, In b (map (scale_weights c) bands) -> usable b).
  { intros b Hb. apply in_map_iff in Hb. destruct Hb as [b' [<- Hb']].
    apply scale_usable; [assumption|]. now apply Hu. }
  assert (Hne' : map (scale_weights c) bands <> []) by (destruct bands; [contradiction|discriminate]).
  destruct (set_detim_val nodet (map (scale_weights c) bands) Hne' Hu') as [d' [m' [E' [_ [Hd' _]]]]].
  exists d, (detwsum bands), m, d', (detwsum (map (scale_weights c) bands)), m'.
  assert (Ews : (detwsum (map (scale_weights c) bands) == c * detwsum bands)%Q).
  { unfold detwsum. rewrite map_map. rewrite <- qsum_map_mult. apply qsum_map_ext.
    intros b Hb. rewrite !detw_med by (try apply scale_usable; try apply Hu; assumption).
    apply med_scale; [assumption|now apply Hu]. }
  split; [assumption|]. split; [assumption|]. split; [|assumption].
  intros i j. rewrite Hd, Hd', Ews. rewrite map_map. simpl.
  assert (En : (qsum (map (fun x => detw (scale_weights c x) * px (b_image x) i j) bands)
               == c * qsum (map (fun b => detw b * px (b_image b) i j) bands))%Q).
  { rewrite <- qsum_map_mult. apply qsum_map_ext. intros b Hb.
    rewrite !detw_med by (try apply scale_usable; try apply Hu; assumption).
    rewrite med_scale by (try apply Hu; assumption). ring. }
  rewrite En. pose proof (detwsum_pos bands Hne Hu). field. lra.
Qed.

(** * Masked fraction *)
Lemma measure_mfrac_nobox : forall mf bm g near y x box, box <= 0 ->
  measure_mfrac_one mf bm g near y x box = Ok (MNum 1).
Proof. intros. unfold measure_mfrac_one. destruct (Z.ltb_spec 0 box); [lia|reflexivity]. Qed.

Lemma weighted_sums_ok : forall g near st good l,
  filter (fun ij => good (fst ij) (snd ij)) (coords (nr st) (nc st)) = l -> l <> [] ->
  weighted_sums g near st good =
  Ok (qsum (map (fun ij => g (fst ij) (snd ij) * px st (fst ij) (snd ij))%Q
              (filter (fun ij => near (fst ij) (snd ij)) l)),
      qsum (map (fun ij => g (fst ij) (snd ij)) (filter (fun ij => near (fst ij) (snd ij)) l))).
Proof.
  intros g near st good l E Hne. unfold weighted_sums. rewrite E.
  destruct l; [contradiction|reflexivity].
Qed.

Lemma measure_mfrac_val : forall mf bm g near y x box,
  pos_in (nr mf) (nc mf) y x -> 2 <= box -> nr bm = nr mf -> nc bm = nc mf ->
  (forall k l, inside bm k l -> Z.land (px bm k l) BMASK_EDGE = 0) ->
  let e := make_entry (nr mf) (nc mf) 0 1 y x box in
  let pix := filter (fun ij => insideb mf (e_srow e + fst ij) (e_scol e + snd ij)) (coords box box) in
  let used := filter (fun ij => near (fst ij) (snd ij)) pix in
  let w := fun ij : Z * Z => g (fst ij) (snd ij) in
  let v := fun ij : Z * Z => px mf (e_srow e + fst ij) (e_scol e + snd ij) in
  measure_mfrac_one mf bm g near y x box =
    (if Qeq_bool (qsum (map w used)) 0 then Ok MNan
     else Ok (MNum (qsum (map (fun ij => w ij * v ij)%Q used) / qsum (map w used))%Q)).
Proof.
  intros mf bm g near y x box Hp Hb Hr Hc Hbm e pix used w v.
  unfold measure_mfrac_one. destruct (Z.ltb_spec 0 box) as [_|]; [|lia].
  set (planes := fun t => if String.eqb t "bmask" then imap I bm else imap F mf).
  destruct (catalog_stamp planes (imap F mf) [(y, x, box)] (nr mf) (nc mf) 0 y x box "image"
     eq_refl Hp Hb ltac:(simpl; tauto) eq_refl eq_refl) as [s [E [E1 [E2 [E3 Ecen]]]]].
  destruct (catalog_stamp planes (imap F mf) [(y, x, box)] (nr mf) (nc mf) 0 y x box "bmask"
     eq_refl Hp Hb ltac:(simpl; tauto) Hr Hc) as [sb [B [B1 [B2 [B3 _]]]]].
  change (make_entry (nr mf) (nc mf) (Z.of_nat 0) (Z.of_nat 0 + 1) y x box) with e in *.
  rewrite E, B. cbn [obind].
  assert (Ef : filter (fun ij => Z.land (num_z (px sb (fst ij) (snd ij))) BMASK_EDGE =? 0)
                 (coords (nr (imap num_q s)) (nc (imap num_q s))) = pix).
  { unfold pix. cbn [nr nc imap]. rewrite E1, E2.
    apply filter_ext_in. intros [k l] Hkl. apply in_coords in Hkl. cbn [fst snd].
    rewrite B3 by lia. unfold stamp_pixel.
    assert (Ei : insideb (planes "bmask") (e_srow e + k) (e_scol e + l)
               = insideb mf (e_srow e + k) (e_scol e + l)).
    { unfold insideb, planes; simpl. now rewrite Hr, Hc. }
    rewrite Ei. destruct (insideb mf (e_srow e + k) (e_scol e + l)) eqn:Ein.
    - simpl. apply Z.eqb_eq. apply Hbm. apply insideb_spec in Ein. unfold inside in *.
      now rewrite Hr, Hc.
    - reflexivity. }
  assert (Hne : pix <> []).
  { intro Epix.
    destruct (make_entry_anchor (nr mf) (nc mf) 0 1 y x box Hp Hb) as [A [A' _]].
    fold e in A, A'.
    destruct Hp as [Hy0 [Hy1 [Hx0 Hx1]]].
    destruct (qtrunc_bounds y _ Hy0 Hy1) as [Ty _]. destruct (qtrunc_bounds x _ Hx0 Hx1) as [Tx _].
    assert (Hin : In (qtrunc y - e_srow e, qtrunc x - e_scol e) pix).
    { unfold pix. apply filter_In. split; [apply in_coords; lia|]. cbn [fst snd].
      apply insideb_spec. unfold inside. lia. }
    rewrite Epix in Hin. destruct Hin. }
  rewrite (weighted_sums_ok g near (imap num_q s) _ pix Ef Hne).
  fold used. change (map (fun ij : Z * Z => g (fst ij) (snd ij)) used) with (map w used).
  assert (En : map (fun ij => (g (fst ij) (snd ij) * px (imap num_q s) (fst ij) (snd ij))%Q) used
             = map (fun ij => (w ij * v ij)%Q) used).
  { apply map_ext_in. intros [k l] Hkl. unfold used in Hkl.
    apply filter_In in Hkl. destruct Hkl as [Hkl _]. unfold pix in Hkl.
    apply filter_In in Hkl. destruct Hkl as [Hkl Hins]. apply in_coords in Hkl.
    cbn [fst snd] in *. unfold w, v. cbn [fst snd px imap]. rewrite E3 by lia.
    unfold stamp_pixel.
    assert (Ei : insideb (planes "image") (e_srow e + k) (e_scol e + l) = true) by exact Hins.
    rewrite Ei. reflexivity. }
  rewrite En. reflexivity.
Qed.

(** ** Statements in specification form *)
Lemma count_occ_filter : forall (p : Q -> bool) l v, p v = true ->
  count_occ Qdec (filter p l) v = count_occ Qdec l v.
Proof.
  induction l as [|a l IH]; intros v Hv; simpl; [reflexivity|].
  destruct (Qdec a v) as [->|N].
  - rewrite Hv. simpl. destruct (Qdec v v); [|contradiction]. now rewrite IH.
  - destruct (p a); simpl; [destruct (Qdec a v); [contradiction|]|]; now apply IH.
Qed.

Lemma meds_spec : forall bands, (forall b, In b bands -> usable b) ->
  median_weights bands (map med bands).
Proof.
  induction bands as [|b bands IH]; intro Hu; simpl; constructor.
  - exists (positive_weights b). split; [|split].
    + apply qmedian_is_median. apply med_pos. apply Hu. now left.
    + intro v. unfold positive_weights. rewrite filter_In, negb_true_iff, Qle_bool_false. tauto.
    + intros v Hv. unfold positive_weights in *. apply filter_In in Hv.
      now apply count_occ_filter.
  - apply IH. intros; apply Hu; now right.
Qed.

Lemma set_detim_spec : forall nodet bands, bands <> [] -> (forall b, In b bands -> usable b) ->
  exists detim wsum mask ws, set_detim nodet bands = Some (detim, wsum, mask) /\
    median_weights bands ws /\ (forall w, In w ws -> 0 < w)%Q /\
    (wsum == qsum ws)%Q /\
    (forall i j, px detim i j == mean_at bands ws i j)%Q /\
    (forall i j, px mask i j = true <->
       exists b bm, In b bands /\ b_bmask b = Some bm /\ Z.land (px bm i j) nodet <> 0).
Proof.
  intros nodet bands Hne Hu.
  destruct (set_detim_val nodet bands Hne Hu) as [d [m [E [_ [Hd Hm]]]]].
  exists d, (detwsum bands), m, (map med bands).
  split; [assumption|]. split; [now apply meds_spec|]. split; [|split; [now apply detwsum_meds|split]].
  - intros w Hw. apply in_map_iff in Hw. destruct Hw as [b [<- Hb]]. now apply med_pos, Hu.
  - intros i j. rewrite Hd. unfold mean_at. rewrite combine_map_self, map_map. cbn [fst snd].
    rewrite detwsum_meds by assumption.
    assert (En : (qsum (map (fun b => detw b * px (b_image b) i j) bands)
      == qsum (map (fun b => med b * px (b_image b) i j) bands))%Q).
    { apply qsum_map_ext. intros b Hb. rewrite detw_med by now apply Hu. reflexivity. }
    now rewrite En.
  - assumption.
Qed.

Lemma set_detim_shape : forall nodet bands d w m b, same_shape bands -> In b bands ->
  set_detim nodet bands = Some (d, w, m) ->
  nr d = nr (b_image b) /\ nc d = nc (b_image b) /\ nr m = nr (b_image b) /\ nc m = nc (b_image b).
Proof.
  intros nodet bands d w m b Hsh Hb H. unfold set_detim in H.
  destruct bands as [|b0 bands0]; [discriminate|].
  destruct (oall _); [|discriminate]. apply Some_inj in H. inversion H; subst. cbn [nr nc].
  destruct (Hsh b0 b) as [E1 E2]; [now left|assumption|]. now repeat split.
Qed.

Lemma set_detim_unusable : forall nodet bands b, In b bands -> ~ usable b ->
  set_detim nodet bands = None.
Proof.
  intros nodet bands b Hb Hu. unfold set_detim. destruct bands as [|b0 l]; [reflexivity|].
  now rewrite (oall_image_var_none _ b Hb Hu).
Qed.

Lemma filter_filter : forall A (p q : A -> bool) l,
  filter p (filter q l) = filter (fun x => p x && q x) l.
Proof.
  induction l as [|a l IH]; simpl; [reflexivity|].
  destruct (q a) eqn:Eq; simpl.
  - rewrite andb_true_r. destruct (p a); now rewrite IH.
  - rewrite andb_false_r. apply IH.
Qed.

Lemma qsum_le_member : forall A (w : A -> Q) l a, (forall x, In x l -> 0 <= w x)%Q -> In a l ->
  (w a <= qsum (map w l))%Q.
Proof.
  induction l as [|b l IH]; intros a Hw Ha; [destruct Ha|]. simpl.
  assert (0 <= qsum (map w l))%Q.
  { apply qsum_nonneg. intros x Hx. apply in_map_iff in Hx. destruct Hx as [y [<- Hy]].
    apply Hw. now right. }
  assert (0 <= w b)%Q by (apply Hw; now left).
  destruct Ha as [<-|Ha]; [lra|].
  assert (w a <= qsum (map w l))%Q by (apply IH; [intros; apply Hw; now right|assumption]). lra.
Qed.

Lemma measure_mfrac_spec : forall mf bm g near y x box,
  pos_in (nr mf) (nc mf) y x -> 2 <= box -> nr bm = nr mf -> nc bm = nc mf ->
  (forall k l, inside bm k l -> Z.land (px bm k l) BMASK_EDGE = 0) ->
  (forall i j, near i j = true -> 0 < g i j)%Q ->
  let e := make_entry (nr mf) (nc mf) 0 1 y x box in
  near (qtrunc y - e_srow e) (qtrunc x - e_scol e) = true ->
  let ap := aperture mf near (e_srow e) (e_scol e) box in
  exists q, measure_mfrac_one mf bm g near y x box = Ok (MNum q) /\
    (0 < qsum (map (fun ij => g (fst ij) (snd ij)) ap))%Q /\
    (q == qsum (map (fun ij => g (fst ij) (snd ij) * px mf (e_srow e + fst ij) (e_scol e + snd ij)) ap)
         / qsum (map (fun ij => g (fst ij) (snd ij)) ap))%Q /\
    forall lo hi, (forall i j, inside mf i j -> lo <= px mf i j /\ px mf i j <= hi)%Q ->
      (lo <= q /\ q <= hi)%Q.
Proof.
  intros mf bm g near y x box Hp Hb Hr Hc Hbm Hg e Hnear ap.
  pose proof (measure_mfrac_val mf bm g near y x box Hp Hb Hr Hc Hbm) as H. cbv zeta in H.
  fold e in H. rewrite filter_filter in H. fold (aperture mf near (e_srow e) (e_scol e) box) in H.
  fold ap in H.
  assert (Hap : forall a, In a ap -> (0 < g (fst a) (snd a))%Q /\
                 inside mf (e_srow e + fst a) (e_scol e + snd a)).
  { intros a Ha. unfold ap, aperture in Ha. apply filter_In in Ha. destruct Ha as [_ Ha].
    apply andb_true_iff in Ha. destruct Ha as [H1 H2]. split; [now apply Hg|].
    now apply insideb_spec in H2. }
  assert (Hin : In (qtrunc y - e_srow e, qtrunc x - e_scol e) ap).
  { destruct (make_entry_anchor (nr mf) (nc mf) 0 1 y x box Hp Hb) as [A [A' _]].
    fold e in A, A'. destruct Hp as [Hy0 [Hy1 [Hx0 Hx1]]].
    destruct (qtrunc_bounds y _ Hy0 Hy1) as [Ty _]. destruct (qtrunc_bounds x _ Hx0 Hx1) as [Tx _].
    unfold ap, aperture. apply filter_In. split; [apply in_coords; lia|]. cbn [fst snd].
    rewrite Hnear. simpl. apply insideb_spec. unfold inside. lia. }
  set (w := fun ij : Z * Z => g (fst ij) (snd ij)) in *.
  assert (Hpos : (0 < qsum (map w ap))%Q).
  { pose proof (qsum_le_member _ w ap _ (fun a Ha => Qlt_le_weak _ _ (proj1 (Hap a Ha))) Hin).
    pose proof (proj1 (Hap _ Hin)). unfold w in *. cbn [fst snd] in *. lra. }
  assert (Ez : Qeq_bool (qsum (map w ap)) 0 = false).
  { apply not_true_is_false. intro E. apply Qeq_bool_iff in E. lra. }
  rewrite Ez in H. eexists. split; [exact H|]. split; [assumption|]. split; [reflexivity|].
  intros lo hi Hlh.
  apply (weighted_mean_bounds _ w (fun ij => px mf (e_srow e + fst ij) (e_scol e + snd ij))).
  - intros a Ha. apply Qlt_le_weak. now apply Hap.
  - intros a Ha _. apply Hlh. now apply Hap.
  - assumption.
Qed.

Lemma measure_mfrac_rows : forall mf bm objs out, measure_mfrac mf bm objs = Ok out ->
  List.length out = List.length objs /\
  forall i y x b g near, nth_error objs i = Some (y, x, b, (g, near)) ->
    exists v, nth_error out i = Some v /\ measure_mfrac_one mf bm g near y x b = Ok v.
Proof.
  intros mf bm objs out H. split; [now apply omap_ok_length in H|].
  apply omap_ok_Forall2 in H. induction H as [|o v objs out E HF IH]; intros i y x b g near Hi.
  - destruct i; discriminate.
  - destruct i as [|i]; simpl in Hi.
    + apply Some_inj in Hi. subst o. exists v. split; [reflexivity|assumption].
    + simpl. now apply IH.
Qed.

(** All the pixels of the stamp flagged: the failed measurement gives 1. *)
Lemma measure_mfrac_flagged : forall mf bm g near y x box,
  pos_in (nr mf) (nc mf) y x -> 2 <= box -> nr bm = nr mf -> nc bm = nc mf ->
  (forall k l, inside bm k l -> Z.land (px bm k l) BMASK_EDGE <> 0) ->
  measure_mfrac_one mf bm g near y x box = Ok (MNum 1).
Proof.
  intros mf bm g near y x box Hp Hb Hr Hc Hbm.
  unfold measure_mfrac_one. destruct (Z.ltb_spec 0 box) as [_|]; [|lia].
  set (planes := fun t => if String.eqb t "bmask" then imap I bm else imap F mf).
  destruct (catalog_stamp planes (imap F mf) [(y, x, box)] (nr mf) (nc mf) 0 y x box "image"
     eq_refl Hp Hb ltac:(simpl; tauto) eq_refl eq_refl) as [s [E [E1 [E2 [E3 Ecen]]]]].
  destruct (catalog_stamp planes (imap F mf) [(y, x, box)] (nr mf) (nc mf) 0 y x box "bmask"
     eq_refl Hp Hb ltac:(simpl; tauto) Hr Hc) as [sb [B [B1 [B2 [B3 _]]]]].
  set (e := make_entry (nr mf) (nc mf) (Z.of_nat 0) (Z.of_nat 0 + 1) y x box) in *.
  rewrite E, B. cbn [obind].
  assert (Ef : filter (fun ij => Z.land (num_z (px sb (fst ij) (snd ij))) BMASK_EDGE =? 0)
                 (coords (nr (imap num_q s)) (nc (imap num_q s))) = []).
  { cbn [nr nc imap]. rewrite E1, E2.
    rewrite (filter_ext_in _ (fun _ => false)); [induction (coords box box); auto|].
    intros [k l] Hkl. apply in_coords in Hkl. cbn [fst snd].
    rewrite B3 by lia. unfold stamp_pixel. destruct (insideb (planes "bmask") (e_srow e + k) (e_scol e + l)) eqn:Ein.
    - simpl. apply Z.eqb_neq. apply Hbm. apply insideb_spec in Ein. exact Ein.
    - reflexivity. }
  unfold weighted_sums. rewrite Ef. reflexivity.
Qed.

(** One catalogue entry per object, in order, with its own numbers. *)
Lemma catalog_numbers : forall nrow ncol objs number,
  (forall ns, number = Some ns -> List.length ns = List.length objs) ->
  let cat := catalog_medsify nrow ncol objs number in
  List.length cat = List.length objs /\
  forall i y x b, nth_error objs i = Some (y, x, b) ->
    exists e, nth_error cat i = Some e /\ e_row e = y /\ e_col e = x /\ e_box e = b /\
      e_id e = e_number e - 1 /\
      match number with
      | None => e_number e = Z.of_nat i + 1
      | Some ns => nth_error ns i = Some (e_number e)
      end.
Proof.
  intros nrow ncol objs number HL cat. unfold cat, catalog_medsify. destruct number as [ns|].
  - specialize (HL ns eq_refl). split; [rewrite map_length, combine_length; lia|].
    intros i y x b H. rewrite nth_error_map. 
    assert (C : forall (l1 : list Z) (l2 : list (Q * Q * Z)) i a c, nth_error l1 i = Some a -> nth_error l2 i = Some c -> nth_error (combine l1 l2) i = Some (a, c)).
    { induction l1 as [|a1 l1 IH]; intros [|c2 l2] [|k] a c A1 A2; try discriminate; cbn in *; [congruence|]. now apply IH. }
    destruct (nth_error ns i) as [n|] eqn:N.
    + rewrite (C ns objs i n (y, x, b) N H). cbn [option_map]. eexists. split; [reflexivity|]. unfold make_entry; cbn. repeat split; auto.
    + apply nth_error_None in N. assert (i < List.length objs)%nat by (apply nth_error_Some; congruence). lia.
  - split.
    + rewrite map_length. assert (L : forall A (l : list A) k, List.length (number_from k l) = List.length l) by (induction l; intros; cbn; auto). apply L.
    + intros i y x b H. rewrite nth_error_map, number_from_nth, H. cbn [option_map]. eexists. split; [reflexivity|]. unfold make_entry; cbn. repeat split; lia.
Qed.

Lemma catalog_nth : forall nrow ncol objs number i y x b,
  (forall ns, number = Some ns -> List.length ns = List.length objs) ->
  nth_error objs i = Some (y, x, b) ->
  exists n, nth_error (catalog_medsify nrow ncol objs number) i = Some (make_entry nrow ncol (n - 1) n y x b).
Proof.
  intros nrow ncol objs number i y x b HL H. unfold catalog_medsify. destruct number as [ns|].
  - specialize (HL ns eq_refl).
    assert (C : forall (l1 : list Z) (l2 : list (Q * Q * Z)) i a c, nth_error l1 i = Some a -> nth_error l2 i = Some c -> nth_error (combine l1 l2) i = Some (a, c)).
    { induction l1 as [|a1 l1 IH]; intros [|c2 l2] [|k] a c A1 A2; try discriminate; cbn in *; [congruence|]. now apply IH. }
    destruct (nth_error ns i) as [n|] eqn:N.
    + exists n. rewrite nth_error_map, (C ns objs i n (y, x, b) N H). reflexivity.
    + apply nth_error_None in N. assert (i < List.length objs)%nat by (apply nth_error_Some; congruence). lia.
  - exists (Z.of_nat i + 1). rewrite nth_error_map, number_from_nth, H. cbn [option_map].
    now replace (Z.of_nat i + 1 - 1) with (0 + Z.of_nat i) by lia.
Qed.

Lemma make_entry_not_centered_col : forall nrow ncol id num y x box,
  pos_in nrow ncol y x -> 2 <= box -> qtrunc x < box / 2 - 1 ->
  ~ centered box (make_entry nrow ncol id num y x box).
Proof.
  intros nrow ncol id num y x box [Hy0 [Hy1 [Hx0 Hx1]]] Hb Hx [_ [_ [H1 _]]].
  destruct (qtrunc_bounds x ncol Hx0 Hx1) as [Tx [Tx1 Tx2]].
  revert H1. unfold make_entry; cbn [e_ccol].
  replace (Z.max (qtrunc x - box / 2 + 1) 0) with 0 by lia.
  change (inject_Z 0) with 0%Q.
  assert (inject_Z (qtrunc x) + 1 <= inject_Z (box / 2) - 1)%Q.
  { change 1%Q with (inject_Z 1). unfold Qminus. rewrite <- inject_Z_opp, <- !inject_Z_plus.
    rewrite <- Zle_Qle. lia. }
  lra.
Qed.

(** All of the entry of an object. *)
Lemma catalog_anchor : forall nrow ncol objs number i y x b,
  (forall ns, number = Some ns -> List.length ns = List.length objs) ->
  nth_error objs i = Some (y, x, b) -> pos_in nrow ncol y x -> 2 <= b ->
  exists e, nth_error (catalog_medsify nrow ncol objs number) i = Some e /\
    (e_srow e = first_pixel y b /\ e_scol e = first_pixel x b) /\
    (0 <= e_srow e <= qtrunc y /\ qtrunc y < e_erow e <= nrow /\ qtrunc y < e_srow e + b) /\
    (0 <= e_scol e <= qtrunc x /\ qtrunc x < e_ecol e <= ncol /\ qtrunc x < e_scol e + b) /\
    (e_crow e + inject_Z (e_srow e) == y)%Q /\ (e_ccol e + inject_Z (e_scol e) == x)%Q /\
    ((0 <= e_crow e)%Q /\ (e_crow e < inject_Z b)%Q) /\
    ((0 <= e_ccol e)%Q /\ (e_ccol e < inject_Z b)%Q) /\
    e_box e = b /\ e_row e = y /\ e_col e = x /\
    e_erow e - e_srow e <= b /\ e_ecol e - e_scol e <= b.
Proof.
  intros nrow ncol objs number i y x b HL H P B. destruct (catalog_nth nrow ncol objs number i y x b HL H) as [n E].
  exists (make_entry nrow ncol (n - 1) n y x b). split; [exact E|]. split; [split; reflexivity|].
  exact (make_entry_anchor nrow ncol (n - 1) n y x b P B).
Qed.

Lemma run_sep_ok : forall ff mc nrow ncol objs cat,
  2 <= min_box_size mc <= max_box_size mc -> (forall o, In o objs -> pos_in nrow ncol (d_y o) (d_x o)) ->
  run_sep_catalog ff mc nrow ncol objs = Ok cat ->
  List.length cat = List.length objs /\
  forall i o, nth_error objs i = Some o -> exists e, nth_error cat i = Some e /\
    e_id e = Z.of_nat i /\ e_number e = Z.of_nat i + 1 /\ stamp_around nrow ncol (d_y o) (d_x o) (e_box e) e /\
    exists want, wanted_size ff mc o want /\ smallest_permitted mc (into_range mc want) (e_box e).
Proof.
  intros ff mc nrow ncol objs cat Hm Hp H. unfold run_sep_catalog in H.
  destruct (get_box_sizes ff mc objs) as [boxes|] eqn:E; cbn [obind] in H; [|discriminate H].
  destruct (get_box_sizes_wanted ff mc objs boxes) as [L Hw]; [lia|exact E|].
  apply Ok_inj in H. subst cat. split.
  - rewrite map_length. assert (N : forall A k (l : list A), List.length (number_from k l) = List.length l) by (intros A k l; revert k; induction l as [|a l IH]; intros k; cbn [number_from List.length]; [reflexivity|rewrite IH; reflexivity]).
    rewrite N, combine_length. lia.
  - intros i o Hi. destruct (nth_error boxes i) as [b|] eqn:Eb.
    2:{ apply nth_error_None in Eb. assert (i < List.length objs)%nat by (apply nth_error_Some; congruence). lia. }
    assert (C : nth_error (combine objs boxes) i = Some (o, b)).
    { clear - Hi Eb. revert i boxes Hi Eb. induction objs as [|a l IH]; intros i boxes Hi Eb; [destruct i; discriminate Hi|].
      destruct boxes as [|b0 bs]; [destruct i; discriminate Eb|]. destruct i as [|i]; cbn [nth_error combine] in *; [congruence|exact (IH i bs Hi Eb)]. }
    rewrite nth_error_map, number_from_nth, C. cbn [option_map]. eexists. split; [reflexivity|].
    destruct (Hw i o b Hi Eb) as (want & W1 & W2 & W3 & _).
    assert (B : 2 <= b) by lia. pose proof (Hp o (nth_error_In _ _ Hi)) as P.
    destruct (make_entry_anchor nrow ncol (0 + Z.of_nat i) (0 + Z.of_nat i + 1) (d_y o) (d_x o) b P B) as (A1 & A2 & A3 & A4 & _).
    split; [reflexivity|]. split; [cbn [make_entry e_number]; lia|]. split; [|exists want; split; [exact W1|exact W3]].
    split; [reflexivity|]. split; [reflexivity|]. split; [reflexivity|]. split; [reflexivity|]. split; [reflexivity|].
    split; [exact A1|]. split; [exact A2|]. split; [exact A3|exact A4].
Qed.

Lemma catalog_centered : forall nrow ncol objs number i y x b,
  (forall ns, number = Some ns -> List.length ns = List.length objs) ->
  nth_error objs i = Some (y, x, b) -> pos_in nrow ncol y x -> 2 <= b ->
  exists e, nth_error (catalog_medsify nrow ncol objs number) i = Some e /\
    (centered b e <-> b / 2 - 1 <= qtrunc y /\ b / 2 - 1 <= qtrunc x).
Proof.
  intros nrow ncol objs number i y x b HL H P B. destruct (catalog_nth nrow ncol objs number i y x b HL H) as [n E].
  exists (make_entry nrow ncol (n - 1) n y x b). split; [exact E|]. split.
  - intro C. split.
    + destruct (Z.le_gt_cases (b / 2 - 1) (qtrunc y)) as [L|L]; [exact L|]. now apply make_entry_not_centered in C.
    + destruct (Z.le_gt_cases (b / 2 - 1) (qtrunc x)) as [L|L]; [exact L|]. now apply make_entry_not_centered_col in C.
  - intros [L1 L2]. now apply make_entry_centered.
Qed.

(** The masked fraction of all objects. *)
Lemma measure_mfrac_all : forall mf bm objs, nr bm = nr mf -> nc bm = nc mf ->
  (forall y x b a, In (y, x, b, a) objs -> b <= 0 \/ (2 <= b /\ pos_in (nr mf) (nc mf) y x)) ->
  (forall y x b g near, In (y, x, b, (g, near)) objs -> forall i j, near i j = true -> 0 < g i j)%Q ->
  (forall y x b g near, In (y, x, b, (g, near)) objs -> 0 < b -> near (qtrunc y - first_pixel y b) (qtrunc x - first_pixel x b) = true) ->
  (forall k l, inside bm k l -> Z.land (px bm k l) (2 ^ 30) = 0) ->
  exists out, measure_mfrac mf bm objs = Ok out /\
  Forall2 (fun o v => match o with (y, x, b, (g, near)) =>
    (b <= 0 -> v = MNum 1) /\
    (0 < b -> let ap := aperture mf near (first_pixel y b) (first_pixel x b) b in
       exists q, v = MNum q /\
       (0 < qsum (map (fun ij => g (fst ij) (snd ij)) ap))%Q /\
       (q == qsum (map (fun ij => g (fst ij) (snd ij) * px mf (first_pixel y b + fst ij) (first_pixel x b + snd ij)) ap)
             / qsum (map (fun ij => g (fst ij) (snd ij)) ap))%Q /\
       forall lo hi, (forall i j, inside mf i j -> lo <= px mf i j /\ px mf i j <= hi)%Q -> (lo <= q /\ q <= hi)%Q)
    end) objs out.
Proof.
  intros mf bm objs E1 E2 HP Hg Hn Hb. unfold measure_mfrac. induction objs as [|[[[y x] b] [g near]] objs IH].
  - exists []. split; [reflexivity|constructor].
  - destruct IH as (out & Eo & F).
    { intros y0 x0 b0 a0 I0. apply (HP y0 x0 b0 a0). now right. }
    { intros y0 x0 b0 g0 n0 I0. apply (Hg y0 x0 b0 g0 n0). now right. }
    { intros y0 x0 b0 g0 n0 I0. apply (Hn y0 x0 b0 g0 n0). now right. }
    cbn [omap]. destruct (HP y x b (g, near) (or_introl eq_refl)) as [L|[L P]].
    + rewrite (measure_mfrac_nobox mf bm g near y x b L). cbn [obind]. rewrite Eo. cbn [obind]. exists (MNum 1 :: out).
      split; [reflexivity|]. constructor; [|exact F]. split; [reflexivity|lia].
    + destruct (measure_mfrac_spec mf bm g near y x b P L E1 E2 Hb (Hg y x b g near (or_introl eq_refl))
        (Hn y x b g near (or_introl eq_refl) ltac:(lia))) as (q & Eq & R).
      rewrite Eq. cbn [obind]. rewrite Eo. cbn [obind]. exists (MNum q :: out).
      split; [reflexivity|]. constructor; [|exact F]. split; [lia|]. intros _. exists q. split; [reflexivity|exact R].
Qed.
