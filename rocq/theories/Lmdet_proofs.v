From Coq Require Import ZArith QArith Qround List String Bool Lia Lqa Permutation Morphisms Permutation.
From Verif Require Import Base Arr Median Flags_model Lmdet_model Lmdet_spec.
Import ListNotations.
Local Open Scope Z_scope.

(** ** Nearest pixel *)
Lemma nearest_spec : forall q, pixel_of q (nearest q).
Proof.
  intro q. unfold pixel_of, nearest.
  pose proof (Qfloor_le (q + (1#2))) as A. pose proof (Qlt_floor (q + (1#2))) as B.
  rewrite inject_Z_plus in B. change (inject_Z 1) with 1%Q in B. split; lra.
Qed.
Lemma pixel_of_unique : forall q i j, pixel_of q i -> pixel_of q j -> i = j.
Proof.
  intros q i j [A B] [C D].
  assert (i < j + 1). { assert (inject_Z i < inject_Z (j+1))%Q by (rewrite inject_Z_plus; change (inject_Z 1) with 1%Q; lra).
    now rewrite <- Zlt_Qlt in H. }
  assert (j < i + 1).
  { assert (inject_Z j < inject_Z (i+1))%Q by (rewrite inject_Z_plus; change (inject_Z 1) with 1%Q; lra).
    now rewrite <- Zlt_Qlt in H0. }
  lia.
Qed.
Lemma pixel_of_nearest : forall q i, pixel_of q i -> i = nearest q.
Proof. intros. eapply pixel_of_unique; [eassumption|apply nearest_spec]. Qed.

(** ** Or masks *)
Lemma ofold_or : forall l m om, ofold or_into l m = Ok om ->
  nr om = nr m /\ nc om = nc m /\ Forall (fun x => nr x = nr m /\ nc x = nc m) l /\
  forall i j b, 0 <= b -> (Z.testbit (px om i j) b = true <->
    Z.testbit (px m i j) b = true \/ exists x, In x l /\ Z.testbit (px x i j) b = true).
Proof.
  induction l as [|x l IH]; intros m om H; cbn [ofold] in H.
  - apply Ok_inj in H. subst. repeat split; auto. intros [H1|[x [[] _]]]. assumption.
  - unfold or_into in H at 1. destruct ((nr m =? nr x) && (nc m =? nc x)) eqn:E; [|discriminate].
    cbn [obind] in H. apply andb_true_iff in E. rewrite !Z.eqb_eq in E. destruct E as [E1 E2].
    destruct (IH _ _ H) as (A & B & C & D). cbn [imap2 nr nc px] in *.
    split; [assumption|]. split; [assumption|]. split.
    + constructor; [split; congruence|]. eapply Forall_impl; [|exact C]. cbn. auto.
    + intros i j b Hb. rewrite D by assumption. rewrite Z.lor_spec, orb_true_iff. split.
      * intros [[X|X]|[y [Y1 Y2]]]; [now left|right; exists x; split; [now left|assumption]|].
        right. exists y. split; [now right|assumption].
      * intros [X|[y [[Y|Y1] Y2]]]; [now left; left| |].
        -- subst. now left; right.
        -- right. now exists y.
Qed.

Lemma np_get_inside : forall A (im : img A) i j, inside im i j -> np_get im i j = Ok (px im i j).
Proof.
  intros A im i j H. unfold np_get. pose proof H as [H1 H2].
  rewrite (proj2 (Z.ltb_ge i 0)), (proj2 (Z.ltb_ge j 0)) by lia.
  now rewrite (proj2 (insideb_spec _ _ _ _) H).
Qed.

(** ** Sums over a rectangle *)
Lemma coords_nodup : forall r c, NoDup (coords r c).
Proof.
  intros r c. unfold coords. generalize (zrange_nodup r). generalize (zrange r) as l.
  induction l as [|x l IH]; intro N; cbn [flat_map]; [constructor|].
  inversion N; subst.
  assert (D : forall (a b : list (Z*Z)), NoDup a -> NoDup b -> (forall y, In y a -> ~ In y b) -> NoDup (a ++ b)).
  { induction a as [|y a IHa]; intros b Na Nb Hd; cbn; [assumption|]. inversion Na; subst.
    constructor.
    - rewrite in_app_iff. intros [X|X]; [contradiction|]. eapply Hd; [now left|exact X].
    - apply IHa; auto. intros z Hz. apply Hd. now right. }
  apply D.
  - apply FinFun.Injective_map_NoDup; [intros a b E; now inversion E|apply zrange_nodup].
  - auto.
  - intros [a b] Ha Hb. apply in_map_iff in Ha. destruct Ha as [j [E _]]. inversion E; subst.
    apply in_flat_map in Hb. destruct Hb as [y [Hy Hm]]. apply in_map_iff in Hm. destruct Hm as [k [Ek _]].
    inversion Ek; subst. contradiction.
Qed.
Lemma NoDup_filter' : forall A (f : A -> bool) l, NoDup l -> NoDup (filter f l).
Proof. intros. now apply NoDup_filter. Qed.

Lemma rect_sum : forall (f : Z * Z -> Q) R C r0 r1 c0 c1 ci cj rad,
  (forall i, 0 <= i < R -> (Z.abs (i - ci) <= rad <-> r0 <= i < r1)) ->
  (forall j, 0 <= j < C -> (Z.abs (j - cj) <= rad <-> c0 <= j < c1)) ->
  0 <= r0 -> r1 <= R -> 0 <= c0 -> c1 <= C ->
  (qsum (map (fun ij => f (fst ij + r0, snd ij + c0)%Z) (coords (r1 - r0) (c1 - c0)))
   == qsum (map f (box_pixels R C ci cj rad)))%Q.
Proof.
  intros f R C r0 r1 c0 c1 ci cj rad HR HC A1 A2 B1 B2.
  rewrite <- (map_map (fun ij => (fst ij + r0, snd ij + c0)) f).
  apply qsum_perm. apply Permutation_map. apply NoDup_Permutation.
  - apply FinFun.Injective_map_NoDup; [|apply coords_nodup].
    intros [a b] [c d] E. inversion E. f_equal; lia.
  - apply NoDup_filter. apply coords_nodup.
  - intros [i j]. rewrite in_map_iff. unfold box_pixels. rewrite filter_In, in_coords, andb_true_iff, !Z.leb_le.
    cbn [fst snd]. split.
    + intros [[a b] [E I]]. cbn [fst snd] in E. inversion E; subst. apply in_coords in I.
      specialize (HR (a + r0) ltac:(lia)). specialize (HC (b + c0) ltac:(lia)). intuition lia.
    + intros [[I1 I2] [J1 J2]]. exists (i - r0, j - c0). cbn [fst snd]. split; [f_equal; lia|].
      apply in_coords. specialize (HR i I1). specialize (HC j I2). intuition lia.
Qed.

(** ** The weighted mean of a stamp *)
Lemma weighted_mean_Some : forall W im cr cc v, weight_ok W -> weighted_mean W im cr cc = Some v ->
  let w ij := W (inject_Z (fst ij) - cr)%Q (inject_Z (snd ij) - cc)%Q in
  let cs := coords (nr im) (nc im) in
  (0 < qsum (map w cs))%Q /\ (v * qsum (map w cs) == qsum (map (fun ij => w ij * px im (fst ij) (snd ij)) cs))%Q.
Proof.
  intros W im cr cc v [W0 _] H w cs. unfold weighted_mean in H. fold w in H. fold cs in H.
  destruct (Qeq_bool (qsum (map w cs)) 0) eqn:E; [discriminate|]. apply Some_inj in H.
  assert (N : ~ (qsum (map w cs) == 0)%Q) by (intro X; apply Qeq_bool_iff in X; congruence).
  assert (P : (0 <= qsum (map w cs))%Q).
  { apply qsum_nonneg. intros x Hx. apply in_map_iff in Hx. destruct Hx as [y [<- _]]. apply W0. }
  split; [lra|]. rewrite <- H. rewrite Qmult_comm. apply Qmult_div_r. exact N.
Qed.

(** The value of [weighted_mfrac] when the slice is a rectangle of the image. *)
Lemma slice_nr : forall A (m : img A) a b c d, 0 <= a -> a <= b -> b <= nr m -> nr (slice m a b c d) = b - a.
Proof.
  intros. unfold slice, slice_len, norm_bound. cbn [nr].
  rewrite (proj2 (Z.ltb_ge b 0)), (proj2 (Z.ltb_ge a 0)) by lia. lia.
Qed.
Lemma slice_nc : forall A (m : img A) a b c d, 0 <= c -> c <= d -> d <= nc m -> nc (slice m a b c d) = d - c.
Proof.
  intros. unfold slice, slice_len, norm_bound. cbn [nc].
  rewrite (proj2 (Z.ltb_ge d 0)), (proj2 (Z.ltb_ge c 0)) by lia. lia.
Qed.
Lemma slice_px : forall A (m : img A) a b c d i j, 0 <= a <= nr m -> 0 <= c <= nc m ->
  px (slice m a b c d) i j = px m (i + a) (j + c).
Proof.
  intros. unfold slice, slice_lo, norm_bound. cbn [px].
  rewrite (proj2 (Z.ltb_ge a 0)), (proj2 (Z.ltb_ge c 0)) by lia. f_equal; lia.
Qed.

Section Mfrac.
Variables (W : Q -> Q -> Q) (HW : weight_ok W).

(** rows [r0, r1) and columns [c0, c1); the stamp's centre (cr, cc) is at
    (row, col) of the image *)
Lemma mean_of_rect : forall (m : img Q) r0 r1 c0 c1 ci cj rad row col cr cc v,
  (forall i, 0 <= i < nr m -> (Z.abs (i - ci) <= rad <-> r0 <= i < r1)) ->
  (forall j, 0 <= j < nc m -> (Z.abs (j - cj) <= rad <-> c0 <= j < c1)) ->
  0 <= r0 -> r0 <= r1 -> r1 <= nr m -> 0 <= c0 -> c0 <= c1 -> c1 <= nc m ->
  (cr == row - inject_Z r0)%Q -> (cc == col - inject_Z c0)%Q ->
  pixel_of row ci -> pixel_of col cj ->
  weighted_mean W (slice m r0 r1 c0 c1) cr cc = Some v -> is_mean_around W m rad row col v.
Proof.
  intros m r0 r1 c0 c1 ci cj rad row col cr cc v HR HC A1 A2 A3 B1 B2 B3 E1 E2 P1 P2 H.
  apply weighted_mean_Some in H; [|assumption]. cbn zeta in H.
  rewrite slice_nr, slice_nc in H by lia. destruct H as [Hp He].
  destruct HW as [W0 WE].
  set (f := fun ij : Z * Z => W (inject_Z (fst ij) - row)%Q (inject_Z (snd ij) - col)%Q).
  set (g := fun ij : Z * Z => (f ij * px m (fst ij) (snd ij))%Q).
  assert (X1 : (qsum (map (fun ij : Z * Z => W (inject_Z (fst ij) - cr) (inject_Z (snd ij) - cc)) (coords (r1 - r0) (c1 - c0)))
     == qsum (map f (box_pixels (nr m) (nc m) ci cj rad)))%Q).
  { rewrite <- (rect_sum f _ _ r0 r1 c0 c1) by assumption.
    apply qsum_map_ext. intros [i j] _. unfold f. cbn [fst snd]. apply WE; rewrite inject_Z_plus; [rewrite E1|rewrite E2]; ring. }
  assert (X2 : (qsum (map (fun ij : Z * Z => W (inject_Z (fst ij) - cr) (inject_Z (snd ij) - cc) * px (slice m r0 r1 c0 c1) (fst ij) (snd ij))
                 (coords (r1 - r0) (c1 - c0)))
     == qsum (map g (box_pixels (nr m) (nc m) ci cj rad)))%Q).
  { rewrite <- (rect_sum g _ _ r0 r1 c0 c1) by assumption.
    apply qsum_map_ext. intros [i j] _. unfold g, f. cbn [fst snd]. rewrite slice_px by lia.
    rewrite (WE (inject_Z i - cr)%Q (inject_Z (i + r0) - row)%Q (inject_Z j - cc)%Q (inject_Z (j + c0) - col)%Q);
      [reflexivity| |]; rewrite inject_Z_plus; [rewrite E1|rewrite E2]; ring. }
  intros ci' cj' P1' P2'.
  rewrite (pixel_of_unique _ _ _ P1' P1), (pixel_of_unique _ _ _ P2' P2). cbn zeta.
  fold f. fold g. split.
  - rewrite <- X1. exact Hp.
  - rewrite <- X1, <- X2. exact He.
Qed.

Lemma interior_bounds : forall n c rad, 0 <= rad -> rad <= c -> c + rad < n ->
  forall i, 0 <= i < n -> (Z.abs (i - c) <= rad <-> Z.max 0 (c - rad) <= i < c + rad + 1).
Proof. intros. lia. Qed.

Lemma inject_pixel : forall z : Z, pixel_of (inject_Z z) z.
Proof. intro z. unfold pixel_of. split; lra. Qed.

(** For a position in pixel (iy, ix) whose box is inside the image both ways
    round, the value is the mean around pixel (ix, iy). *)
Lemma weighted_mfrac_swapped : forall rad m x y ix iy v, 0 <= rad -> pixel_of x ix -> pixel_of y iy ->
  rad <= ix -> rad <= iy -> ix + rad < Z.min (nr m) (nc m) -> iy + rad < Z.min (nr m) (nc m) ->
  weighted_mfrac W rad m x y = Some v ->
  is_mean_around W m rad (inject_Z ix + (y - inject_Z iy)) (inject_Z iy + (x - inject_Z ix)) v.
Proof.
  intros rad m x y ix iy v Hr Px Py Hx Hy Lx Ly H. unfold weighted_mfrac in H.
  rewrite <- (pixel_of_nearest x ix), <- (pixel_of_nearest y iy) in H by assumption.
  rewrite (Z.min_r (nc m) (ix + rad + 1)), (Z.min_r (nr m) (iy + rad + 1)) in H by lia.
  rewrite (Z.max_r 0 (ix - rad)), (Z.max_r 0 (iy - rad)) in H by lia.
  cbv zeta in H. rewrite slice_nr, slice_nc in H by lia.
  destruct ((ix + rad + 1 - (ix - rad)) * (iy + rad + 1 - (iy - rad)) =? 0) eqn:E; [apply Z.eqb_eq in E; nia|].
  eapply (mean_of_rect m (ix - rad) (ix + rad + 1) (iy - rad) (iy + rad + 1) ix iy rad); try exact H; try lia.
  - unfold Z.sub. rewrite !inject_Z_plus, !inject_Z_opp. ring.
  - unfold Z.sub. rewrite !inject_Z_plus, !inject_Z_opp. ring.
  - unfold pixel_of in *. lra.
  - unfold pixel_of in *. lra.
Qed.

(** On the diagonal of a square map the value is right. *)
Lemma weighted_mfrac_diag : forall rad m p v, 0 <= rad -> nr m = nc m ->
  (exists i, pixel_of p i /\ 0 <= i < nr m) ->
  weighted_mfrac W rad m p p = Some v -> is_mean_around W m rad p p v.
Proof.
  intros rad m p v Hr Sq [i [Pi Ii]] H. unfold weighted_mfrac in H.
  rewrite <- (pixel_of_nearest p i) in H by assumption. cbv zeta in H. rewrite Sq in H.
  set (a := Z.max 0 (i - rad)) in *. set (b := Z.min (nc m) (i + rad + 1)) in *.
  assert (a <= b) by (unfold a, b; lia).
  rewrite slice_nr, slice_nc in H by (unfold a, b in *; lia).
  destruct ((b - a) * (b - a) =? 0) eqn:E; [apply Z.eqb_eq in E; unfold a, b in *; nia|].
  eapply (mean_of_rect m a b a b i i rad); try exact H; try (unfold a, b in *; lia); try assumption; reflexivity.
Qed.

Lemma weighted_mean_range : forall im cr cc v lo hi, weighted_mean W im cr cc = Some v ->
  (forall i j, inside im i j -> (lo <= px im i j)%Q /\ (px im i j <= hi)%Q) -> (lo <= v)%Q /\ (v <= hi)%Q.
Proof.
  intros im cr cc v lo hi H B. pose proof H as H'. apply weighted_mean_Some in H'; [|assumption]. cbn zeta in H'.
  destruct H' as [Hp _]. unfold weighted_mean in H.
  destruct (Qeq_bool _ 0) in H; [discriminate|]. apply Some_inj in H. subst v.
  apply weighted_mean_bounds with (w := fun ij => W (inject_Z (fst ij) - cr)%Q (inject_Z (snd ij) - cc)%Q)
    (v := fun ij => px im (fst ij) (snd ij)).
  - intros. apply HW.
  - intros [i j] Hin _. apply in_coords in Hin. apply B. exact Hin.
  - exact Hp.
Qed.
Lemma slice_inside : forall A (m : img A) a b c d i j, 0 <= nr m -> 0 <= nc m -> inside (slice m a b c d) i j ->
  exists i' j', inside m i' j' /\ px (slice m a b c d) i j = px m i' j'.
Proof.
  intros A m a b c d i j N1 N2 [H1 H2]. unfold slice in *. cbn [nr nc px] in *.
  exists (i + slice_lo (nr m) a), (j + slice_lo (nc m) c). split; [|reflexivity].
  unfold inside, slice_len, slice_lo, norm_bound in *.
  destruct (a <? 0) eqn:E1, (b <? 0) eqn:E2, (c <? 0) eqn:E3, (d <? 0) eqn:E4;
    rewrite ?Z.ltb_lt, ?Z.ltb_ge in *; lia.
Qed.
Lemma weighted_mfrac_range : forall rad m x y v lo hi, 0 <= nr m -> 0 <= nc m -> weighted_mfrac W rad m x y = Some v ->
  (forall i j, inside m i j -> (lo <= px m i j)%Q /\ (px m i j <= hi)%Q) ->
  (v == 1)%Q \/ ((lo <= v)%Q /\ (v <= hi)%Q).
Proof.
  intros rad m x y v lo hi N1 N2 H B. unfold weighted_mfrac in H. cbv zeta in H.
  destruct (_ =? 0) in H; [left; apply Some_inj in H; subst; reflexivity|]. right.
  eapply weighted_mean_range; [exact H|]. intros i j I. apply slice_inside in I; [|assumption|assumption].
  destruct I as (i' & j' & I' & E). rewrite E. now apply B.
Qed.
End Mfrac.

(** ** The band average of masked fractions *)
Lemma band_wgt_pos : forall v w, band_wgt v = Ok w ->
  exists m, is_median m (good_vars v) /\ (0 < m)%Q /\ w = (1 / m)%Q /\ (0 < w)%Q.
Proof.
  intros v w H. unfold band_wgt in H. destruct (qmedian (good_vars v)) as [m|] eqn:E; [|discriminate].
  apply Ok_inj in H. exists m.
  assert (P : (0 < m)%Q).
  { eapply qmedian_pos; [|exact E]. intros x Hx. unfold good_vars in Hx. apply in_flat_map in Hx.
    destruct Hx as [[q|] [_ Hx]]; [|destruct Hx]. destruct (Qle_bool q 0) eqn:Eq; [destruct Hx|].
    destruct Hx as [<-|[]]. apply Qnot_le_lt. intro L. apply Qle_bool_iff in L. congruence. }
  split; [now apply qmedian_is_median|]. split; [assumption|]. split; [now symmetry|].
  rewrite <- H. apply Qlt_shift_div_l; [assumption|lra].
Qed.

Lemma good_vars_split : forall v, exists rest, Permutation (pixels v) (map Some (good_vars v) ++ rest) /\
  (forall q, In q (good_vars v) -> 0 < q)%Q /\ (forall x, In x rest -> x = None \/ exists q, x = Some q /\ (q <= 0)%Q).
Proof.
  intro v. unfold good_vars. induction (pixels v) as [|x l (rest & P & G & R)]; cbn [flat_map].
  - exists []. split; [constructor|]. split; intros q [].
  - destruct x as [q|].
    + destruct (Qle_bool q 0) eqn:E.
      * exists (Some q :: rest). cbn [app]. split; [|split; [exact G|]].
        { apply Permutation_cons_app. exact P. }
        { intros x [<-|Hx]; [right; exists q; split; [reflexivity|now apply Qle_bool_iff]|now apply R]. }
      * exists rest. cbn [app map]. split; [now constructor|]. split; [|exact R].
        intros x [<-|Hx]; [|now apply G]. apply Qnot_le_lt. intro L. apply Qle_bool_iff in L. congruence.
    + exists (None :: rest). cbn [app]. split; [|split; [exact G|]].
      { apply Permutation_cons_app. exact P. }
      { intros x [<-|Hx]; [now left|now apply R]. }
Qed.

Definition wpairs (l : list (img (option Q) * img Q)) (ws : list Q) : list (Q * img Q) := combine ws (map snd l).

Lemma sum_mfracs_spec : forall l acc a ws, sum_mfracs l acc = Ok (Some a, ws) ->
  List.length ws = List.length l /\
  Forall2 (fun vm w => band_wgt (fst vm) = Ok w) l ws /\
  match acc with
  | None => l <> [] /\ (forall m, In m (map snd l) -> nr m = nr a /\ nc m = nc a) /\
      forall i j, (px a i j == qsum (map (fun wm => fst wm * px (snd wm) i j) (wpairs l ws)))%Q
  | Some b => nr b = nr a /\ nc b = nc a /\ (forall m, In m (map snd l) -> nr m = nr a /\ nc m = nc a) /\
      forall i j, (px a i j == px b i j + qsum (map (fun wm => fst wm * px (snd wm) i j) (wpairs l ws)))%Q
  end.
Proof.
  induction l as [|[v m] l IH]; intros acc a ws H; cbn [sum_mfracs] in H.
  - apply Ok_inj in H. apply pair_equal_spec in H. destruct H as [-> <-]. cbn. repeat split; auto; try contradiction.
    intros. unfold wpairs; cbn. ring.
  - destruct (band_wgt v) as [w|] eqn:Ew; cbn [obind] in H; [|discriminate].
    destruct (match acc with None => Ok (scale w m) | Some a0 => add_img a0 (scale w m) end) as [b|] eqn:Eb; cbn [obind] in H; [|discriminate].
    destruct (sum_mfracs l (Some b)) as [[a' ws']|] eqn:Es; cbn [obind fst snd] in H; [|discriminate].
    apply Ok_inj in H. apply pair_equal_spec in H. destruct H as [-> <-].
    destruct (IH (Some b) a ws' Es) as (L & F & N1 & N2 & M & P).
    split; [cbn; congruence|]. split; [constructor; assumption|].
    destruct acc as [c|].
    + unfold add_img in Eb. destruct ((nr c =? nr (scale w m)) && (nc c =? nc (scale w m))) eqn:E; [|discriminate].
      apply andb_true_iff in E. rewrite !Z.eqb_eq in E. destruct E as [E1 E2]. cbn [scale imap nr nc] in E1, E2.
      apply Ok_inj in Eb. subst b. cbn [imap2 nr nc] in N1, N2.
      split; [assumption|]. split; [assumption|]. split.
      * cbn [map]. intros x [<-|Hx]; [cbn; split; congruence|]. apply M. exact Hx.
      * intros i j. rewrite P. unfold wpairs. cbn [imap2 scale imap px combine map fst snd qsum fold_right].
        fold (qsum (map (fun wm : Q * img Q => fst wm * px (snd wm) i j)%Q (combine ws' (map snd l)))). ring.
    + apply Ok_inj in Eb. subst b. cbn [scale imap nr nc] in N1, N2.
      split; [discriminate|]. split.
      * cbn [map]. intros x [<-|Hx]; [cbn; split; congruence|]. apply M. exact Hx.
      * intros i j. rewrite P. unfold wpairs. cbn [imap2 scale imap px combine map fst snd qsum fold_right].
        fold (qsum (map (fun wm : Q * img Q => fst wm * px (snd wm) i j)%Q (combine ws' (map snd l)))). ring.
Qed.

Lemma get_mfrac_spec : forall vars ms m ws, get_mfrac_mbexp vars (Some ms) = Ok (m, ws) ->
  List.length vars = List.length ms ->
  Forall2 median_weight vars ws /\
  (0 < qsum ws)%Q /\
  (forall x, In x ms -> nr x = nr m /\ nc x = nc m) /\
  forall i j, (px m i j * qsum ws == qsum (map (fun wm => fst wm * px (snd wm) i j) (combine ws ms)))%Q.
Proof.
  intros vars ms m ws H L. unfold get_mfrac_mbexp in H.
  destruct (sum_mfracs (combine vars ms) None) as [[a ws']|] eqn:E; cbn [obind fst snd] in H; [|discriminate].
  destruct a as [a|]; [|discriminate]. apply Ok_inj in H. apply pair_equal_spec in H. destruct H as [<- <-].
  destruct (sum_mfracs_spec _ _ _ _ E) as (L' & F & N & M & P). unfold wpairs in *.
  assert (Es : map snd (combine vars ms) = ms).
  { clear -L. revert ms L. induction vars as [|v vs IH]; destruct ms as [|m ms]; intros; try discriminate; cbn; [reflexivity|].
    f_equal. apply IH. now inversion L. }
  rewrite Es in *.
  assert (F' : Forall2 (fun v w => exists med, is_median med (good_vars v) /\ (0 < med)%Q /\ (w == 1 / med)%Q /\ (0 < w)%Q) vars ws').
  { clear -F L. revert ms ws' L F. induction vars as [|v vs IH]; destruct ms as [|m ms]; intros ws L F; try discriminate.
    - cbn in F. inversion F. constructor.
    - cbn [combine] in F. inversion F as [|? w ? ws0 E1 E2]; subst. constructor.
      + apply band_wgt_pos in E1. destruct E1 as (md & A & B & C & D). exists md. cbn [fst] in *. subst w. repeat split; try reflexivity; assumption || apply A.
      + apply (IH ms); [now inversion L|assumption]. }
  split.
  { eapply Forall2_impl || idtac. clear -F'. induction F' as [|v w vs ws (md & A & B & C & D) F IH]; constructor; [|assumption].
    destruct (good_vars_split v) as (rest & P & G & R). exists (good_vars v), rest, md. split; [exact P|]. split; [exact G|].
    split; [exact R|]. split; [exact A|]. split; [exact B|exact C]. }
  assert (NE : ws' <> []).
  { intro X. subst ws'. apply N. destruct (combine vars ms); [reflexivity|discriminate]. }
  assert (PS : (0 < qsum ws')%Q).
  { apply qsum_pos; [assumption|]. clear -F'. induction F' as [|v w vs ws (md & A & B & C & D) F IH]; intros x Hx; [destruct Hx|].
    destruct Hx as [<-|Hx]; [assumption|now apply IH]. }
  split; [assumption|]. split; [exact M|].
  intros i j. cbn [imap px]. rewrite P. field. lra.
Qed.

(** ** The original PSF *)
Lemma psf_loop_cases : forall shear (l : list (Z * outcome psffit * Q)) s, Forall (fun x : Z * outcome psffit * Q => match snd (fst x) with Raise e => e = BootPSFFailure \/ e = GMixFatalError | Ok _ => True end) l ->
  (exists x, In x l /\ psf_failed (snd (fst x))) ->
  exists s' e, psf_loop shear l s = (s', Raise e) /\ (e = BootPSFFailure \/ e = GMixFatalError).
Proof.
  intros shear. induction l as [|[[ib f] w] l IH]; intros s F [x [I X]]; [destruct I|].
  inversion F as [|? ? F1 F2]; subst. cbn [psf_loop].
  destruct f as [f|e].
  - destruct (pf_flags f =? 0) eqn:E; cbn [negb].
    + apply IH; [assumption|]. exists x. split; [|assumption]. destruct I as [<-|I]; [|assumption].
      cbn in X. apply Z.eqb_eq in E. contradiction.
    + exists s, BootPSFFailure. auto.
  - exists s, e. cbn in F1. auto.
Qed.

Lemma failed_in : forall (fits : list (outcome psffit)) (wgts : list Q), zlen wgts = zlen fits ->
  forall f, In f fits -> exists x, In x (combine (combine (zrange (zlen fits)) fits) wgts) /\ snd (fst x) = f.
Proof.
  intros fits wgts L f I.
  assert (G : forall (fits : list (outcome psffit)) (ws : list Q) (zs : list Z), List.length ws = List.length fits -> List.length zs = List.length fits ->
     In f fits -> exists x, In x (combine (combine zs fits) ws) /\ snd (fst x) = f).
  { clear. induction fits as [|g fits IH]; intros [|w ws] [|z zs] L1 L2 I; try discriminate; [destruct I| ].
    cbn [combine]. destruct I as [->|I].
    - exists ((z, f), w). split; [now left|reflexivity].
    - destruct (IH ws zs ltac:(now inversion L1) ltac:(now inversion L2) I) as (x & Ix & Ex).
      exists x. split; [now right|assumption]. }
  apply G; [unfold zlen in L; lia| |assumption].
  unfold zrange. rewrite zrange2_length. unfold zlen. lia.
Qed.

Lemma combine_fits_Forall : forall (P : outcome psffit -> Prop) (fits : list (outcome psffit)) (zs : list Z) (ws : list Q),
  Forall P fits -> Forall (fun x : Z * outcome psffit * Q => P (snd (fst x))) (combine (combine zs fits) ws).
Proof.
  intros P. induction fits as [|f fits IH]; intros zs ws F; destruct zs; cbn [combine]; try constructor.
  destruct ws; constructor; inversion F; subst; cbn; auto.
Qed.

Lemma fit_original_failure : forall to_g shear fits wgts,
  zlen wgts = zlen fits -> (exists f, In f fits /\ psf_failed f) ->
  (forall e, In (Raise e) fits -> e = BootPSFFailure \/ e = GMixFatalError) ->
  fit_original_psfs to_g shear fits wgts = Raise AssertionError \/
  fit_original_psfs to_g shear fits wgts = Raise UnboundLocalError.
Proof.
  intros to_g shear fits wgts L [f [I X]] O. unfold fit_original_psfs.
  rewrite (proj2 (Z.eqb_eq _ _) L). cbn [negb].
  destruct (failed_in fits wgts L f I) as (x & Ix & Ex).
  destruct (psf_loop_cases shear (combine (combine (zrange (zlen fits)) fits) wgts) psums0) as (s' & e & E & Ee).
  - apply (combine_fits_Forall (fun f => match f with Raise e => e = BootPSFFailure \/ e = GMixFatalError | Ok _ => True end)).
    apply Forall_forall. intros [g|e] Hg; [exact Logic.I|now apply O].
  - exists x. split; [assumption|]. now rewrite Ex.
  - rewrite E. destruct Ee as [->| ->]; cbn [obind]; destruct (ps_navg s' =? zlen shear); cbn; auto.
Qed.

Lemma fit_original_ok_flags : forall to_g shear fits wgts p,
  fit_original_psfs to_g shear fits wgts = Ok p -> st_flags p = 0 /\ st_perband p = true.
Proof.
  intros to_g shear fits wgts p H. unfold fit_original_psfs in H.
  destruct (negb (zlen wgts =? zlen fits)); [discriminate|].
  destruct (psf_loop _ _ _) as [s r].
  destruct r as [u|e].
  - destruct (Qle_bool (ps_w s) 0); [discriminate|].
    destruct (to_g _ _) as [[g1 g2]|]; cbn [obind] in H; destruct (ps_navg s =? zlen shear); cbn [negb] in H; try discriminate.
    apply Ok_inj in H. subst p. split; reflexivity.
  - destruct e; cbn [obind] in H; try discriminate; destruct (ps_navg s =? zlen shear); discriminate.
Qed.

(** All fits good. *)
Definition term (shear : list Z) (q : psffit -> Q) (x : Z * psffit * Q) : Q :=
  (if existsb (Z.eqb (fst (fst x))) shear then q (snd (fst x)) * snd x else 0)%Q.
Definition lift_fits (l : list (Z * psffit * Q)) : list (Z * outcome psffit * Q) :=
  map (fun x => (fst (fst x), Ok (snd (fst x)), snd x)) l.
Lemma psf_loop_good : forall shear l s,
  Forall (fun x : Z * psffit * Q => pf_flags (snd (fst x)) = 0) l ->
  exists s', psf_loop shear (lift_fits l) s = (s', Ok tt) /\
   ps_navg s' = ps_navg s + zlen (filter (fun x => existsb (Z.eqb (fst (fst x))) shear) l) /\
   (ps_w s' == ps_w s + qsum (map (term shear (fun _ => 1%Q)) l))%Q /\
   (ps_e1 s' == ps_e1 s + qsum (map (term shear pf_e1) l))%Q /\
   (ps_e2 s' == ps_e2 s + qsum (map (term shear pf_e2) l))%Q /\
   (ps_T s' == ps_T s + qsum (map (term shear pf_T) l))%Q.
Proof.
  intros shear. induction l as [|[[ib f] w] l IH]; intros s F.
  - exists s. cbn. repeat split; try ring.
  - inversion F as [|? ? F1 F2]; subst. cbn [fst snd] in F1.
    unfold lift_fits. cbn [map psf_loop fst snd]. rewrite F1. cbn [Z.eqb negb].
    destruct (IH (if existsb (Z.eqb ib) shear then psf_add s w f else s) F2) as (s' & E & A & B & C & D & G).
    exists s'. split; [exact E|].
    cbn [filter fst snd map]. unfold term at 1 3 5 7. cbn [fst snd].
    destruct (existsb (Z.eqb ib) shear); cbn [qsum fold_right psf_add ps_navg ps_w ps_e1 ps_e2 ps_T] in *;
      unfold qsum in *; (split; [unfold zlen in *; cbn [List.length]; lia|]); rewrite B, C, D, G; repeat split; ring.
Qed.

Lemma map_filter : forall A B (f : A -> B) (p : B -> bool) l, map f (filter (fun x => p (f x)) l) = filter p (map f l).
Proof. induction l as [|x l IH]; cbn; [reflexivity|]. destruct (p (f x)); cbn; now rewrite IH. Qed.
Lemma map_fst_combine : forall A B (a : list A) (b : list B), List.length a = List.length b -> map fst (combine a b) = a.
Proof. induction a; destruct b; cbn; intros; try discriminate; [reflexivity|]. f_equal. apply IHa. now inversion H. Qed.

Lemma shear_count : forall (shear : list Z) (fs : list psffit) (ws : list Q),
  NoDup shear -> (forall i, In i shear -> 0 <= i < zlen fs) -> zlen ws = zlen fs ->
  zlen (filter (fun x : Z * psffit * Q => existsb (Z.eqb (fst (fst x))) shear) (combine (combine (zrange (zlen fs)) fs) ws)) = zlen shear.
Proof.
  intros shear fs ws N R L. unfold zlen at 1.
  assert (LZ : List.length (zrange (zlen fs)) = List.length fs) by (unfold zrange; rewrite zrange2_length; unfold zlen; lia).
  rewrite <- (map_length (fun x : Z * psffit * Q => fst (fst x))).
  rewrite (map_filter _ _ (fun x : Z * psffit * Q => fst (fst x)) (fun i => existsb (Z.eqb i) shear)).
  rewrite <- (map_map fst fst). rewrite map_fst_combine by (rewrite combine_length, LZ; unfold zlen in L; lia).
  rewrite map_fst_combine by exact LZ.
  unfold zlen at 2. f_equal. apply Permutation_length. apply NoDup_Permutation.
  - apply NoDup_filter. apply zrange_nodup.
  - assumption.
  - intro i. rewrite filter_In, in_zrange, existsb_exists. split.
    + intros [_ [y [Iy E]]]. apply Z.eqb_eq in E. now subst.
    + intro I. split; [now apply R|]. exists i. split; [assumption|apply Z.eqb_refl].
Qed.

Lemma lift_combine : forall (fs : list psffit) (zs : list Z) (ws : list Q),
  combine (combine zs (map Ok fs)) ws = lift_fits (combine (combine zs fs) ws).
Proof.
  unfold lift_fits. induction fs as [|f fs IH]; destruct zs; cbn [map combine]; try reflexivity.
  destruct ws; cbn [combine map fst snd]; [reflexivity|]. now rewrite IH.
Qed.

Lemma fit_original_success : forall to_g shear fs wgts,
  zlen wgts = zlen fs -> NoDup shear -> (forall i, In i shear -> 0 <= i < zlen fs) ->
  (forall f, In f fs -> pf_flags f = 0) ->
  (0 < sum_over shear (fun _ => 1) fs wgts)%Q ->
  (forall a b, exists g, to_g a b = Some g) ->
  exists p, fit_original_psfs to_g shear (map Ok fs) wgts = Ok p /\
    st_flags p = 0 /\ st_navg p = zlen shear /\ st_perband p = true /\
    (st_e1 p * sum_over shear (fun _ => 1) fs wgts == sum_over shear pf_e1 fs wgts)%Q /\
    (st_e2 p * sum_over shear (fun _ => 1) fs wgts == sum_over shear pf_e2 fs wgts)%Q /\
    (st_T p * sum_over shear (fun _ => 1) fs wgts == sum_over shear pf_T fs wgts)%Q /\
    to_g (st_e1 p) (st_e2 p) = Some (st_g1 p, st_g2 p).
Proof.
  intros to_g shear fs wgts L N R F P G. unfold fit_original_psfs.
  assert (LM : zlen (map (@Ok psffit) fs) = zlen fs) by (unfold zlen; now rewrite map_length).
  rewrite LM, (proj2 (Z.eqb_eq _ _) L). cbn [negb]. rewrite lift_combine.
  destruct (psf_loop_good shear (combine (combine (zrange (zlen fs)) fs) wgts) psums0) as (s & E & A & B & C & D & T).
  { apply Forall_forall. intros [[z f] w] I. cbn. apply F. apply in_combine_l in I. now apply in_combine_r in I. }
  rewrite E. cbn [psums0 ps_navg ps_w ps_e1 ps_e2 ps_T] in *. rewrite (shear_count shear fs wgts N R L) in A.
  set (S1 := sum_over shear (fun _ => 1%Q) fs wgts) in *.
  assert (B' : (ps_w s == S1)%Q) by (rewrite B; unfold S1, sum_over; apply Qplus_0_l).
  assert (Q0 : Qle_bool (ps_w s) 0 = false).
  { destruct (Qle_bool (ps_w s) 0) eqn:X; [|reflexivity]. apply Qle_bool_iff in X. rewrite B' in X. lra. }
  rewrite Q0. cbv zeta. destruct (G (ps_e1 s / ps_w s)%Q (ps_e2 s / ps_w s)%Q) as [[g1 g2] Eg]. rewrite Eg. cbn [obind].
  rewrite A. rewrite Z.add_0_l, Z.eqb_refl. cbn [negb].
  eexists. split; [reflexivity|]. cbn [st_flags st_navg st_perband st_e1 st_e2 st_T st_g1 st_g2].
  assert (NZ : ~ (S1 == 0)%Q) by lra.
  repeat split; try assumption.
  - rewrite B', C. unfold sum_over. fold (term shear pf_e1). change (fun x : Z * psffit * Q => (if existsb (Z.eqb (fst (fst x))) shear then pf_e1 (snd (fst x)) * snd x else 0)%Q) with (term shear pf_e1). field. exact NZ.
  - rewrite B', D. unfold sum_over. change (fun x : Z * psffit * Q => (if existsb (Z.eqb (fst (fst x))) shear then pf_e2 (snd (fst x)) * snd x else 0)%Q) with (term shear pf_e2). field. exact NZ.
  - rewrite B', T. unfold sum_over. change (fun x : Z * psffit * Q => (if existsb (Z.eqb (fst (fst x))) shear then pf_T (snd (fst x)) * snd x else 0)%Q) with (term shear pf_T). field. exact NZ.
Qed.

(** ** Ormask column *)
Lemma add_ormask_spec : forall om res res', add_ormask om res = Ok res' ->
  Forall2 (fun x x' => np_get om (nearest (local_row x)) (nearest (local_col x)) = Ok (l_ormask x') /\ x' = with_ormask x (l_ormask x')) res res'.
Proof.
  intros om res res' H. unfold add_ormask in H. apply omap_ok_Forall2 in H.
  induction H as [|x x' l l' E F IH]; constructor; [|assumption].
  destruct (np_get om _ _) as [v|]; cbn [obind] in E; [|discriminate]. apply Ok_inj in E. subst x'. cbn. auto.
Qed.

Lemma own_pixel_nearest : forall x i j, own_pixel x i j -> i = nearest (local_row x) /\ j = nearest (local_col x).
Proof. intros x i j [A B]. split; now apply pixel_of_nearest. Qed.

Lemma combine_ormasks_bits : forall dims ormasks om, combine_ormasks dims ormasks = Ok om ->
  forall i j b, 0 <= b -> (Z.testbit (px om i j) b = true <->
    exists ms m, ormasks = Some ms /\ In m ms /\ Z.testbit (px m i j) b = true).
Proof.
  intros dims [[|m ms]|] om H i j b Hb; cbn [combine_ormasks] in H; [discriminate| |].
  - destruct (ofold_or _ _ _ H) as (_ & _ & _ & D). rewrite D by assumption. split.
    + intros [X|[y [Y1 Y2]]]; [exists (m :: ms), m|exists (m :: ms), y]; repeat split; auto; [now left|now right].
    + intros (ms' & m' & E & I & T). apply Some_inj in E. subst ms'. destruct I as [<-|I]; [now left|].
      right. now exists m'.
  - apply Ok_inj in H. subst. cbn [ifill px]. rewrite Z.testbit_0_l. split; [discriminate|].
    intros (ms & m & E & _). discriminate.
Qed.

Definition position_inside {A} (om : img A) (x : lrow) : Prop := exists i j, own_pixel x i j /\ inside om i j.
Lemma add_ormask_total : forall om res, Forall (position_inside om) res -> exists res', add_ormask om res = Ok res'.
Proof.
  intros om res F. unfold add_ormask. induction F as [|x l (i & j & O & I) F (r & IH)]; cbn [omap]; [now exists []|].
  destruct (own_pixel_nearest _ _ _ O) as [<- <-]. rewrite np_get_inside by assumption. cbn [obind].
  rewrite IH. cbn [obind]. eexists. reflexivity.
Qed.

(** ** The whole run *)
Lemma add_mfrac_Forall2 : forall W rad m res,
  Forall2 (fun x x' => same_object x x' /\ l_ormask x' = l_ormask x /\ exists v, x' = with_mfrac x v /\
    (v = Some 0%Q /\ (forall p, In p (pixels m) -> (p <= 0)%Q) \/ v = weighted_mfrac W rad m (local_col x) (local_row x))) res (add_mfrac W rad m res).
Proof.
  intros W rad m res. unfold add_mfrac.
  destruct (existsb (fun v => negb (Qle_bool v 0)) (pixels m)) eqn:E.
  - induction res as [|x res IH]; cbn [map]; constructor; [|assumption].
    split; [repeat split|]. split; [reflexivity|]. eexists. split; [reflexivity|]. now right.
  - induction res as [|x res IH]; cbn [map]; constructor; [|assumption].
    split; [repeat split|]. split; [reflexivity|]. eexists. split; [reflexivity|]. left. split; [reflexivity|].
    intros p Ip. destruct (Qle_bool p 0) eqn:X; [now apply Qle_bool_iff|].
    exfalso. assert (existsb (fun v => negb (Qle_bool v 0)) (pixels m) = true); [|congruence].
    apply existsb_exists. exists p. split; [assumption|]. now rewrite X.
Qed.

Lemma add_mfrac_exact : forall W rad m res,
  Forall2 (fun x x' => exists v, x' = with_mfrac x v /\
    (v = Some 0%Q /\ (forall p, In p (pixels m) -> (p <= 0)%Q) \/
     v = weighted_mfrac W rad m (local_col x) (local_row x) /\ exists p, In p (pixels m) /\ (0 < p)%Q)) res (add_mfrac W rad m res).
Proof.
  intros W rad m res. unfold add_mfrac.
  destruct (existsb (fun v => negb (Qle_bool v 0)) (pixels m)) eqn:E.
  - assert (X : exists p, In p (pixels m) /\ (0 < p)%Q).
    { apply existsb_exists in E. destruct E as (p & I & N). exists p. split; [exact I|]. destruct (Qlt_le_dec 0 p) as [L|L]; [exact L|].
      apply Qle_bool_iff in L. rewrite L in N. discriminate. }
    induction res as [|x res IH]; cbn [map]; constructor; [|assumption]. eexists. split; [reflexivity|]. now right.
  - induction res as [|x res IH]; cbn [map]; constructor; [|assumption].
    eexists. split; [reflexivity|]. left. split; [reflexivity|].
    intros p Ip. destruct (Qle_bool p 0) eqn:X; [now apply Qle_bool_iff|].
    exfalso. assert (existsb (fun v => negb (Qle_bool v 0)) (pixels m) = true); [|congruence].
    apply existsb_exists. exists p. split; [assumption|]. now rewrite X.
Qed.

(** What a finished row is, given the raw row. *)
Definition annotated (d : drun) (om : img Z) (mf : img Q) (p : psfstats) (x x' : lrow) : Prop :=
  same_object x x' /\
  np_get om (nearest (local_row x)) (nearest (local_col x)) = Ok (l_ormask x') /\
  (l_mfrac x' = Some 0%Q /\ (forall q, In q (pixels mf) -> (q <= 0)%Q) \/
   l_mfrac x' = weighted_mfrac (d_W d) (d_rad d) mf (local_col x) (local_row x) /\ exists q, In q (pixels mf) /\ (0 < q)%Q) /\
  l_psfrec x' = Some (psfrec_of p).

Lemma annotate_spec : forall d om mf p res res', annotate d om mf p res = Ok res' ->
  Forall2 (annotated d om mf p) res res'.
Proof.
  intros d om mf p res res' H. unfold annotate in H.
  destruct (add_ormask om (add_mfrac (d_W d) (d_rad d) mf res)) as [r|] eqn:E; cbn [obind] in H; [|discriminate].
  apply Ok_inj in H. subst res'. apply add_ormask_spec in E.
  pose proof (add_mfrac_exact (d_W d) (d_rad d) mf res) as M.
  revert r E. induction M as [|x y l l' (v & -> & V) M IH]; intros r E; inversion E; subst; cbn [add_original_psf map]; constructor.
  - destruct H1 as [N ->]. unfold annotated. cbn. cbn in N. repeat split; try assumption.
  - now apply IH.
Qed.

Lemma task_run_spec : forall d tabs p, task_run d = Ok (tabs, p) ->
  exists om mf ws mcal,
    combine_ormasks (d_dims d) (d_ormasks d) = Ok om /\
    get_mfrac_mbexp (d_vars d) (d_mfracs d) = Ok (mf, ws) /\
    fit_original_psfs (d_to_g d) (d_shear d) (d_psffits d) ws = Ok p /\
    d_metacal d = Ok mcal /\
    Forall2 (fun sm t => fst t = fst sm /\
      match d_measure d (snd sm), snd t with
      | Ok None, None => True
      | Ok (Some rows), Some rows' => Forall2 (annotated d om mf p) rows rows'
      | _, _ => False
      end) mcal tabs.
Proof.
  intros d tabs p H. unfold task_run in H.
  destruct (combine_ormasks _ _) as [om|] eqn:E1; cbn [obind] in H; [|discriminate].
  destruct (get_mfrac_mbexp _ _) as [[mf ws]|] eqn:E2; cbn [obind fst snd] in H; [|discriminate].
  destruct (d_sky d) as [u|]; cbn [obind] in H; [|discriminate].
  destruct (fit_original_psfs _ _ _ _) as [p'|] eqn:E3; cbn [obind] in H; [|discriminate].
  destruct (d_metacal d) as [mcal|] eqn:E4; cbn [obind] in H; [|discriminate].
  destruct (omap _ mcal) as [tabs'|] eqn:E5; cbn [obind] in H; [|discriminate].
  apply Ok_inj in H. apply pair_equal_spec in H. destruct H as [-> ->].
  exists om, mf, ws, mcal. do 4 (split; [assumption || reflexivity|]).
  apply omap_ok_Forall2 in E5. clear E4. induction E5 as [|sm t l l' E F IH]; constructor; [|assumption].
  destruct (d_measure d (snd sm)) as [[rows|]|]; cbn [obind] in E; [| |discriminate].
  - destruct (annotate d om mf p rows) as [rows'|] eqn:A; cbn [obind] in E; [|discriminate].
    apply Ok_inj in E. subst t. cbn. split; [reflexivity|]. now apply annotate_spec.
  - apply Ok_inj in E. subst t. cbn. auto.
Qed.

Lemma task_run_no_mfrac : forall d, d_mfracs d = None -> (exists om, combine_ormasks (d_dims d) (d_ormasks d) = Ok om) ->
  task_run d = Raise TypeError.
Proof. intros d N [om E]. unfold task_run. rewrite E, N. reflexivity. Qed.

(** ** Masks without bits *)
Lemma ofold_or_total : forall l m, (forall x, In x l -> nr x = nr m /\ nc x = nc m) -> exists om, ofold or_into l m = Ok om.
Proof.
  induction l as [|x l IH]; intros m H; cbn [ofold]; [now exists m|].
  destruct (H x (or_introl eq_refl)) as [A B]. unfold or_into at 1. rewrite A, B, !Z.eqb_refl. cbn [andb obind].
  apply IH. intros y I. cbn. exact (H y (or_intror I)).
Qed.

Lemma add_ormask_same : forall om om' res, nr om = nr om' -> nc om = nc om' ->
  (forall i j, inside om i j -> px om i j = px om' i j) -> add_ormask om res = add_ormask om' res.
Proof.
  intros om om' res A B C. unfold add_ormask. induction res as [|x res IH]; cbn [omap]; [reflexivity|]. rewrite IH.
  replace (np_get om (nearest (local_row x)) (nearest (local_col x))) with (np_get om' (nearest (local_row x)) (nearest (local_col x))); [reflexivity|].
  unfold np_get. rewrite <- A, <- B. set (i := if _ <? 0 then _ else _). set (j := if nearest (local_col x) <? 0 then _ else _).
  replace (insideb om' i j) with (insideb om i j) by (unfold insideb; now rewrite A, B).
  destruct (insideb om i j) eqn:E; [|reflexivity]. apply insideb_spec in E. now rewrite C.
Qed.

Lemma task_run_zero_masks : forall d ms, ms <> [] ->
  (forall m, In m ms -> nr m = fst (d_dims d) /\ nc m = snd (d_dims d) /\ forall i j, inside m i j -> px m i j = 0) ->
  task_run (with_ormasks d None) = task_run (with_ormasks d (Some ms)).
Proof.
  intros d ms N H. unfold task_run. cbn.
  destruct ms as [|m ms]; [congruence|].
  assert (S : forall x, In x ms -> nr x = nr m /\ nc x = nc m).
  { intros x I. destruct (H x (or_intror I)) as (A & B & _). destruct (H m (or_introl eq_refl)) as (A' & B' & _). split; congruence. }
  destruct (ofold_or_total ms m S) as [om E]. rewrite E. cbn [obind].
  destruct (ofold_or _ _ _ E) as (A & B & _ & D). destruct (H m (or_introl eq_refl)) as (A' & B' & Z0).
  assert (X : forall mf p rows, annotate (with_ormasks d None) (ifill (fst (d_dims d)) (snd (d_dims d)) 0) mf p rows
    = annotate (with_ormasks d (Some (m :: ms))) om mf p rows).
  { intros. unfold annotate. cbn. rewrite (add_ormask_same (ifill (fst (d_dims d)) (snd (d_dims d)) 0) om); [reflexivity| | |].
    - cbn. congruence.
    - cbn. congruence.
    - intros i j I. cbn. apply Z.bits_inj'. intros b Hb. rewrite Z.bits_0. symmetry. apply not_true_is_false. rewrite D by assumption.
      assert (Ix : forall x, In x (m :: ms) -> inside x i j).
      { intros x J. destruct (H x J) as (P & Q & _). unfold inside in *. cbn in I. now rewrite P, Q. }
      intros [T|(x & J & T)].
      + rewrite Z0, Z.bits_0 in T by (apply Ix; now left). discriminate.
      + destruct (H x (or_intror J)) as (_ & _ & Zx). rewrite Zx, Z.bits_0 in T by (apply Ix; now right). discriminate. }
  destruct (get_mfrac_mbexp _ _) as [[mf ws]|]; cbn [obind fst snd]; [|reflexivity].
  destruct (d_sky d); cbn [obind]; [|reflexivity].
  destruct (fit_original_psfs _ _ _ _) as [p|]; cbn [obind]; [|reflexivity].
  destruct (d_metacal d) as [mcal|]; cbn [obind]; [|reflexivity].
  match goal with |- (do t <- omap ?f mcal; _) = (do t <- omap ?g mcal; _) => assert (G : omap f mcal = omap g mcal) end.
  { clear -X. induction mcal as [|a l IH]; cbn [omap]; [reflexivity|]. rewrite IH.
    destruct (d_measure d (snd a)) as [[rows|]|]; cbn [obind]; [|reflexivity|reflexivity]. now rewrite X. }
  now rewrite G.
Qed.
