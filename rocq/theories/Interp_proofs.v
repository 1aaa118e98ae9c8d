From Coq Require Import ZArith QArith List String Bool Lia Sorted Permutation.
From Verif Require Import Base Arr Interp_model Interp_spec.
Import ListNotations.
Local Open Scope Z_scope.

(** * Coordinates in row-major order *)
Lemma zrange2_sorted : forall lo hi, StronglySorted Z.lt (zrange2 lo hi).
Proof.
  intros lo hi. remember (Z.to_nat (hi - lo)) as n eqn:E. revert lo E.
  induction n as [|n IH]; intros lo E.
  - rewrite zrange2_empty by lia. constructor.
  - rewrite zrange2_cons by lia. constructor; [apply IH; lia|].
    apply Forall_forall. intros x Hx. apply in_zrange2 in Hx. lia.
Qed.

Lemma SS_app : forall A (R : A -> A -> Prop) l1 l2, StronglySorted R l1 -> StronglySorted R l2 ->
  (forall a b, In a l1 -> In b l2 -> R a b) -> StronglySorted R (l1 ++ l2).
Proof.
  induction l1 as [|a l1 IH]; intros l2 H1 H2 H; simpl; [assumption|].
  inversion H1; subst. constructor.
  - apply IH; try assumption. intros; apply H; [now right|assumption].
  - apply Forall_app. split; [assumption|]. apply Forall_forall. intros b Hb.
    apply H; [now left|assumption].
Qed.

Lemma grid_sorted : forall cs rs, StronglySorted Z.lt rs -> StronglySorted Z.lt cs ->
  StronglySorted before (flat_map (fun i => map (fun j => (i, j)) cs) rs).
Proof.
  induction rs as [|r rs IH]; intros Hr Hc; simpl; [constructor|].
  inversion Hr; subst. apply SS_app.
  - clear -Hc. induction Hc as [|c cs Hs IH Hf]; simpl; constructor; [assumption|].
    apply Forall_forall. intros p Hp. apply in_map_iff in Hp. destruct Hp as [c' [<- Hc']].
    rewrite Forall_forall in Hf. right. simpl. split; [reflexivity|now apply Hf].
  - now apply IH.
  - intros a b Ha Hb. apply in_map_iff in Ha. destruct Ha as [j [<- _]].
    apply in_flat_map in Hb. destruct Hb as [r' [Hr' Hb]]. apply in_map_iff in Hb.
    destruct Hb as [j' [<- _]]. left. simpl. rewrite Forall_forall in H2. now apply H2.
Qed.

Lemma coords_sorted : forall r c, StronglySorted before (coords r c).
Proof. intros. apply grid_sorted; apply zrange2_sorted. Qed.

Lemma SS_filter : forall A (R : A -> A -> Prop) p l, StronglySorted R l -> StronglySorted R (filter p l).
Proof.
  induction 1 as [|a l Hs IH Hf]; simpl; [constructor|]. destruct (p a); [|assumption].
  constructor; [assumption|]. apply Forall_forall. intros x Hx. apply filter_In in Hx.
  rewrite Forall_forall in Hf. now apply Hf.
Qed.

Lemma before_irrefl : forall p, ~ before p p.
Proof. intros p [H|[_ H]]; lia. Qed.

Lemma SS_before_nodup : forall l, StronglySorted before l -> NoDup l.
Proof.
  induction 1 as [|a l Hs IH Hf]; constructor; [|assumption].
  intro Hin. rewrite Forall_forall in Hf. exact (before_irrefl _ (Hf _ Hin)).
Qed.

Definition badpix (m : img bool) : list (Z * Z) :=
  filter (fun ij => px m (fst ij) (snd ij)) (coords (nr m) (nc m)).

Lemma badpix_listing : forall m, row_major_listing (bad_at m) (badpix m).
Proof.
  intro m. split; [apply SS_filter, coords_sorted|]. intros [i j]. unfold badpix, bad_at.
  rewrite filter_In, in_coords. reflexivity.
Qed.

Lemma badpix_nodup : forall m, NoDup (badpix m).
Proof. intro. apply SS_before_nodup. apply badpix_listing. Qed.

Lemma number_bad_count : forall m n, number_bad m n -> n = count_bad m.
Proof.
  intros m n (l & N & H & ->). unfold count_bad, zlen. fold (badpix m). f_equal.
  apply Permutation_length, NoDup_Permutation; [exact N|apply badpix_nodup|].
  intro p. rewrite H. symmetry. apply (proj2 (badpix_listing m)).
Qed.

Lemma number_bad_exists : forall m, number_bad m (count_bad m).
Proof.
  intro m. exists (badpix m). split; [apply badpix_nodup|]. split; [apply (proj2 (badpix_listing m))|reflexivity].
Qed.

(** * Windows *)
Lemma in_window_pixels : forall nrows ncols row col b p,
  0 <= row < nrows -> 0 <= col < ncols ->
  In p (window_pixels nrows ncols row col b) <->
  (0 <= fst p < nrows /\ 0 <= snd p < ncols /\ within b p (row, col)).
Proof.
  intros nrows ncols row col b [i j] Hr Hc. unfold window_pixels, window, within. cbn [fst snd].
  set (r0 := if row - b <? 0 then 0 else row - b).
  set (r1 := if row + b >? nrows - 1 then nrows - 1 else row + b).
  set (c0 := if col - b <? 0 then 0 else col - b).
  set (c1 := if col + b >? ncols - 1 then ncols - 1 else col + b).
  assert (Hr0 : r0 = Z.max 0 (row - b)) by (unfold r0; destruct (Z.ltb_spec (row - b) 0); lia).
  assert (Hr1 : r1 = Z.min (nrows - 1) (row + b))
    by (unfold r1; rewrite Z.gtb_ltb; destruct (Z.ltb_spec (nrows - 1) (row + b)); lia).
  assert (Hc0 : c0 = Z.max 0 (col - b)) by (unfold c0; destruct (Z.ltb_spec (col - b) 0); lia).
  assert (Hc1 : c1 = Z.min (ncols - 1) (col + b))
    by (unfold c1; rewrite Z.gtb_ltb; destruct (Z.ltb_spec (ncols - 1) (col + b)); lia).
  rewrite in_flat_map. split.
  - intros [x [Hx H]]. apply in_map_iff in H. destruct H as [y [E Hy]].
    inversion E; subst x y. apply in_zrange2 in Hx. apply in_zrange2 in Hy. lia.
  - intros H. exists i. split; [apply in_zrange2; lia|]. apply in_map_iff. exists j.
    split; [reflexivity|apply in_zrange2; lia].
Qed.

Lemma grid_length : forall (cs rs : list Z),
  List.length (flat_map (fun i => map (fun j => (i, j)) cs) rs) = (List.length rs * List.length cs)%nat.
Proof.
  induction rs as [|r rs IH]; simpl; [reflexivity|]. rewrite app_length, map_length, IH. reflexivity.
Qed.

Lemma window_length : forall nrows ncols row col b,
  0 <= row < nrows -> 0 <= col < ncols -> 0 <= b ->
  zlen (window_pixels nrows ncols row col b) <= (2 * b + 1) ^ 2.
Proof.
  intros nrows ncols row col b Hr Hc Hb. unfold window_pixels, window, zlen.
  rewrite grid_length, !zrange2_length.
  set (r0 := if row - b <? 0 then 0 else row - b).
  set (r1 := if row + b >? nrows - 1 then nrows - 1 else row + b).
  set (c0 := if col - b <? 0 then 0 else col - b).
  set (c1 := if col + b >? ncols - 1 then ncols - 1 else col + b).
  assert (H1 : Z.of_nat (Z.to_nat (r1 + 1 - r0)) <= 2 * b + 1).
  { unfold r0, r1. rewrite Z.gtb_ltb.
    destruct (Z.ltb_spec (row - b) 0); destruct (Z.ltb_spec (nrows - 1) (row + b)); lia. }
  assert (H2 : Z.of_nat (Z.to_nat (c1 + 1 - c0)) <= 2 * b + 1).
  { unfold c0, c1. rewrite Z.gtb_ltb.
    destruct (Z.ltb_spec (col - b) 0); destruct (Z.ltb_spec (ncols - 1) (col + b)); lia. }
  rewrite Nat2Z.inj_mul. rewrite Z.pow_2_r.
  apply Z.mul_le_mono_nonneg; lia.
Qed.

(** * The scan *)
Definition is_good (m : img bool) (p : Z * Z) : bool := negb (px m (fst p) (snd p)).

Lemma filter_length_le : forall A (f : A -> bool) l, (List.length (filter f l) <= List.length l)%nat.
Proof. induction l as [|a l IH]; simpl; [lia|]. destruct (f a); simpl; lia. Qed.

Lemma add_good_fold : forall m ngood win st,
  zlen (s_good st) + zlen (filter (is_good m) win) <= ngood ->
  ofold (add_good m ngood) win st =
  Ok (mkScan (s_bad st) (s_iso st)
       (s_good st ++ map (flat_index m) (filter (is_good m) win))%list).
Proof.
  induction win as [|p win IH]; intros st H; cbn [ofold filter map].
  - rewrite app_nil_r. destruct st; reflexivity.
  - cbn [filter] in H. unfold is_good at 1 in H. unfold is_good at 1. unfold add_good at 1.
    destruct (px m (fst p) (snd p)) eqn:Ep; cbn [negb obind] in *.
    + now apply IH.
    + unfold zlen in H. cbn [List.length] in H.
      destruct (Z.eqb_spec (zlen (s_good st)) ngood) as [E|N]; [unfold zlen in E; lia|].
      cbn [obind]. rewrite IH.
      * cbn [s_bad s_iso s_good map]. rewrite <- app_assoc. reflexivity.
      * cbn [s_good]. unfold zlen. rewrite app_length. cbn [List.length]. lia.
Qed.

Lemma no_good_fold : forall m l acc,
  fold_left (fun ng p => if negb (px m (fst p) (snd p)) then false else ng) l acc
  = acc && forallb (fun p => px m (fst p) (snd p)) l.
Proof.
  induction l as [|p l IH]; intro acc; simpl; [now rewrite andb_true_r|].
  rewrite IH. destruct (px m (fst p) (snd p)), acc; reflexivity.
Qed.

Definition iso_flag (m : img bool) (b : Z) (p : Z * Z) : bool :=
  forallb (fun q => px m (fst q) (snd q)) (window_pixels (nr m) (nc m) (fst p) (snd p) b).
Definition good_list (m : img bool) (b : Z) (p : Z * Z) : list Z :=
  map (flat_index m) (filter (is_good m) (window_pixels (nr m) (nc m) (fst p) (snd p) b)).

Definition scan_result (m : img bool) (buff iso_buff : Z) (bads : list (Z * Z)) : scan_state :=
  mkScan (map (flat_index m) bads) (map (iso_flag m iso_buff) bads)
         (flat_map (good_list m buff) bads).

Lemma zlen_flat_le : forall A B (f : A -> list B) l c,
  (forall a, In a l -> zlen (f a) <= c) -> zlen (flat_map f l) <= zlen l * c.
Proof.
  induction l as [|a l IH]; intros c H; unfold zlen in *; cbn [flat_map List.length]; [lia|].
  rewrite app_length, Nat2Z.inj_succ, Nat2Z.inj_add. assert (H1 := H a (or_introl eq_refl)).
  assert (H2 : Z.of_nat (List.length (flat_map f l)) <= Z.of_nat (List.length l) * c)
    by (apply IH; intros; apply H; now right). nia.
Qed.

Lemma good_list_len : forall m b p, bad_at m p -> 0 <= b -> zlen (good_list m b p) <= (2 * b + 1) ^ 2.
Proof.
  intros m b p [[H1 H2] _] Hb. unfold good_list, zlen. rewrite map_length.
  pose proof (filter_length_le _ (is_good m) (window_pixels (nr m) (nc m) (fst p) (snd p) b)).
  pose proof (window_length _ _ _ _ b H1 H2 Hb). unfold zlen in *. lia.
Qed.

Lemma filter_app_len : forall A (f : A -> bool) l1 l2,
  zlen (filter f (l1 ++ l2)) = zlen (filter f l1) + zlen (filter f l2).
Proof. intros. unfold zlen. rewrite filter_app, app_length. lia. Qed.

Lemma scan_fold : forall m buff iso_buff, 0 <= buff ->
  forall l1 l2, coords (nr m) (nc m) = (l1 ++ l2)%list ->
  let ngood := count_bad m * (2 * buff + 1) ^ 2 in
  let isbad := fun ij : Z * Z => px m (fst ij) (snd ij) in
  ofold (scan_pixel m ngood buff iso_buff) l1 (mkScan [] [] []) =
  Ok (scan_result m buff iso_buff (filter isbad l1)).
Proof.
  intros m buff iso_buff Hb l1. induction l1 as [|p l1 IH] using rev_ind; intros l2 E ngood isbad.
  - reflexivity.
  - rewrite ofold_app. rewrite <- app_assoc in E. specialize (IH _ E). cbv zeta in IH. fold ngood isbad in IH.
    rewrite IH. cbn [obind ofold].
    fold isbad. rewrite filter_app. cbn [filter].
    assert (Hp : inside m (fst p) (snd p)).
    { assert (Hin : In p (coords (nr m) (nc m))) by (rewrite E; apply in_or_app; right; now left).
      destruct p as [i j]. now apply in_coords in Hin. }
    assert (Hcount : zlen (filter isbad l1) + (if isbad p then 1 else 0) <= count_bad m).
    { unfold count_bad. fold isbad. rewrite E, filter_app_len. cbn [app filter]. unfold zlen.
      destruct (isbad p); cbn [List.length]; rewrite ?Nat2Z.inj_succ; lia. }
    unfold scan_pixel. fold (isbad p). destruct (isbad p) eqn:Ep.
    2:{ cbn [obind]. now rewrite app_nil_r. }
    assert (Hpos : 1 <= (2 * buff + 1) ^ 2) by (rewrite Z.pow_2_r; nia).
    assert (Hlt : zlen (filter isbad l1) < ngood).
    { unfold ngood. set (K := (2 * buff + 1) ^ 2) in *. set (a := zlen (filter isbad l1)) in *.
      assert (Ha : 0 <= a) by (unfold a, zlen; lia). nia. }
    cbn [s_bad s_iso s_good scan_result].
    destruct (Z.geb_spec (zlen (map (flat_index m) (filter isbad l1))) ngood) as [Hge|_].
    { unfold zlen in Hge, Hlt. rewrite map_length in Hge. lia. }
    rewrite no_good_fold. cbn [andb].
    assert (Ewin : (if negb (buff =? iso_buff) then window_pixels (nr m) (nc m) (fst p) (snd p) buff
                    else window_pixels (nr m) (nc m) (fst p) (snd p) iso_buff)
                   = window_pixels (nr m) (nc m) (fst p) (snd p) buff).
    { destruct (Z.eqb_spec buff iso_buff) as [->|]; reflexivity. }
    rewrite Ewin. rewrite add_good_fold.
    + cbn [obind s_bad s_iso s_good]. unfold scan_result. rewrite !map_app, flat_map_app.
      cbn [map flat_map]. rewrite app_nil_r. reflexivity.
    + cbn [s_good].
      assert (H1 : zlen (flat_map (good_list m buff) (filter isbad l1))
                   <= zlen (filter isbad l1) * (2 * buff + 1) ^ 2).
      { apply zlen_flat_le. intros a Ha. apply good_list_len; [|assumption].
        apply filter_In in Ha. destruct Ha as [Ha Hbad]. split; [|assumption].
        assert (Hin : In a (coords (nr m) (nc m))) by (rewrite E; apply in_or_app; now left).
        destruct a as [i j]. now apply in_coords in Hin. }
      assert (H2 : zlen (filter (is_good m) (window_pixels (nr m) (nc m) (fst p) (snd p) buff))
                   <= (2 * buff + 1) ^ 2).
      { pose proof (good_list_len m buff p (conj Hp Ep) Hb) as H. unfold good_list, zlen in H.
        rewrite map_length in H. exact H. }
      unfold ngood. set (K := (2 * buff + 1) ^ 2) in *. set (a := zlen (filter isbad l1)) in *. nia.
Qed.

Lemma scan_ok : forall m buff iso_buff, 0 <= buff ->
  get_nearby_good_pixels m (count_bad m) buff iso_buff = Ok (scan_result m buff iso_buff (badpix m)).
Proof.
  intros m buff iso_buff Hb. unfold get_nearby_good_pixels.
  apply (scan_fold m buff iso_buff Hb _ []). now rewrite app_nil_r.
Qed.

Lemma iso_flag_spec : forall m b p, bad_at m p -> (iso_flag m b p = true <-> isolated m b p).
Proof.
  intros m b p [Hin Hp]. unfold iso_flag, isolated. rewrite forallb_forall. destruct Hin as [H1 H2]. split.
  - intro H. split; [split; [split; assumption|assumption]|].
    intros q [[Hq1 Hq2] Hq] Hw.
    assert (Hi : In q (window_pixels (nr m) (nc m) (fst p) (snd p) b)).
    { apply in_window_pixels; try assumption. repeat split; try apply Hq1; try apply Hq2; apply Hw. }
    apply H in Hi. congruence.
  - intros [_ H] q Hq. apply in_window_pixels in Hq; try assumption. destruct Hq as [Hq1 [Hq2 Hw]].
    destruct (px m (fst q) (snd q)) eqn:E; [reflexivity|]. exfalso.
    apply (H q); [split; [split; assumption|assumption]|].
    unfold within in *. cbn [fst snd] in Hw. assumption.
Qed.

(** numpy.unique *)
Lemma in_zins : forall x l y, In y (zins x l) <-> y = x \/ In y l.
Proof.
  induction l as [|a l IH]; intro y; simpl; [intuition congruence|].
  destruct (Z.ltb_spec x a); [simpl; intuition congruence|].
  destruct (Z.eqb_spec x a); [subst; simpl; intuition congruence|].
  simpl. rewrite IH. intuition congruence.
Qed.

Lemma in_zunique : forall l y, In y (zunique l) <-> In y l.
Proof. induction l as [|a l IH]; intro y; simpl; [tauto|]. rewrite in_zins, IH. intuition congruence. Qed.

Lemma zins_sorted : forall x l, StronglySorted Z.lt l -> StronglySorted Z.lt (zins x l).
Proof.
  induction 1 as [|a l Hs IH Hf]; simpl; [repeat constructor|].
  destruct (Z.ltb_spec x a).
  - constructor; [now constructor|]. constructor; [assumption|].
    eapply Forall_impl; [|exact Hf]. intros; cbv beta in *. lia.
  - destruct (Z.eqb_spec x a); [now constructor|]. constructor; [assumption|].
    apply Forall_forall. intros y Hy. apply in_zins in Hy. destruct Hy as [->|Hy]; [lia|].
    rewrite Forall_forall in Hf. now apply Hf.
Qed.

Lemma zunique_sorted : forall l, StronglySorted Z.lt (zunique l).
Proof. induction l as [|a l IH]; simpl; [constructor|]. now apply zins_sorted. Qed.

Lemma zunique_nodup : forall l, NoDup (zunique l).
Proof.
  intro l. pose proof (zunique_sorted l) as H. induction H as [|a r Hs IH Hf]; constructor; [|assumption].
  intro Hin. rewrite Forall_forall in Hf. specialize (Hf _ Hin). lia.
Qed.

Lemma in_good_list : forall m b p z, bad_at m p ->
  (In z (good_list m b p) <-> exists q, good_at m q /\ within b q p /\ z = flat_index m q).
Proof.
  intros m b p z [[H1 H2] Hp]. unfold good_list. rewrite in_map_iff. split.
  - intros [q [<- Hq]]. apply filter_In in Hq. destruct Hq as [Hq Hg].
    apply in_window_pixels in Hq; try assumption. destruct Hq as [Hq1 [Hq2 Hw]].
    exists q. split; [|split; [|reflexivity]].
    + split; [split; assumption|]. unfold is_good in Hg. now apply negb_true_iff in Hg.
    + exact Hw.
  - intros [q [[[Hq1 Hq2] Hg] [Hw ->]]]. exists q. split; [reflexivity|]. apply filter_In. split.
    + apply in_window_pixels; try assumption. split; [assumption|]. split; [assumption|]. exact Hw.
    + unfold is_good. now rewrite Hg.
Qed.

Lemma in_good : forall m b z,
  In z (flat_map (good_list m b) (badpix m)) <-> exists q, good_near m b q /\ z = flat_index m q.
Proof.
  intros m b z. rewrite in_flat_map. split.
  - intros [p [Hp Hz]]. apply (proj2 (badpix_listing m)) in Hp.
    apply in_good_list in Hz; [|assumption]. destruct Hz as [q [Hg [Hw ->]]].
    exists q. split; [|reflexivity]. split; [assumption|]. now exists p.
  - intros [q [[Hg [p [Hp Hw]]] ->]]. exists p. split; [now apply (proj2 (badpix_listing m))|].
    apply in_good_list; [assumption|]. exists q. tauto.
Qed.

Lemma unravel_flat : forall m p, inside m (fst p) (snd p) -> unravel (nc m) (flat_index m p) = p.
Proof.
  intros m [i j] [Hi Hj]. unfold unravel, flat_index. cbn [fst snd] in *. f_equal.
  - rewrite Z.add_comm, Z.div_add by lia. rewrite Z.div_small by lia. lia.
  - rewrite Z.add_comm, Z_mod_plus_full. now apply Z.mod_small.
Qed.

Lemma search_spec : forall m buff iso_buff, 0 <= buff ->
  exists st bads, get_nearby_good_pixels m (count_bad m) buff iso_buff = Ok st /\
    row_major_listing (bad_at m) bads /\
    s_bad st = map (flat_index m) bads /\
    Forall2 (fun p b => b = true <-> isolated m iso_buff p) bads (s_iso st) /\
    NoDup (zunique (s_good st)) /\
    (forall z, In z (zunique (s_good st)) <-> exists q, good_near m buff q /\ z = flat_index m q).
Proof.
  intros m buff iso_buff Hb. exists (scan_result m buff iso_buff (badpix m)), (badpix m).
  split; [now apply scan_ok|]. split; [apply badpix_listing|]. split; [reflexivity|]. split.
  - cbn [s_iso scan_result].
    assert (H : forall p, In p (badpix m) -> bad_at m p) by (intro; apply badpix_listing).
    induction (badpix m) as [|p l IH]; simpl; constructor.
    + apply iso_flag_spec. apply H. now left.
    + apply IH. intros; apply H; now right.
  - split; [apply zunique_nodup|]. intro z. rewrite in_zunique. apply in_good.
Qed.

(** * Element assignment *)
Lemma coord_eqb_spec : forall a b, coord_eqb a b = true <-> a = b.
Proof.
  intros [a1 a2] [b1 b2]. unfold coord_eqb. cbn [fst snd].
  rewrite andb_true_iff, !Z.eqb_eq. split; [intros [-> ->]; reflexivity|]. intro H. inversion H. tauto.
Qed.

Lemma assign_at_shape : forall A cs vals (im : img A),
  nr (assign_at im cs vals) = nr im /\ nc (assign_at im cs vals) = nc im.
Proof.
  unfold assign_at. intros A cs vals im. remember (combine cs vals) as l. clear Heql.
  revert im. induction l as [|p l IH]; intro im; simpl; [tauto|].
  destruct (IH (mkImg (nr im) (nc im) (fun i j => if coord_eqb (fst p) (i, j) then snd p else px im i j)))
    as [-> ->]. simpl. tauto.
Qed.

Lemma assign_at_other : forall A cs vals (im : img A) i j, ~ In (i, j) cs ->
  px (assign_at im cs vals) i j = px im i j.
Proof.
  unfold assign_at. intros A. induction cs as [|c cs IH]; intros vals im i j H; simpl; [reflexivity|].
  destruct vals as [|v vals]; simpl; [reflexivity|]. rewrite IH by (intro X; apply H; now right).
  cbn [px]. destruct (coord_eqb c (i, j)) eqn:E; [|reflexivity].
  apply coord_eqb_spec in E. exfalso. apply H. now left.
Qed.

Lemma assign_at_hit : forall A cs vals (im : img A) k i j v, NoDup cs ->
  nth_error cs k = Some (i, j) -> nth_error vals k = Some v ->
  px (assign_at im cs vals) i j = v.
Proof.
  intros A cs. induction cs as [|c cs IH]; intros vals im k i j v Hn Hc Hv.
  - destruct k; discriminate.
  - inversion Hn; subst. destruct vals as [|v0 vals]; [destruct k; discriminate|].
    destruct k as [|k]; simpl in Hc, Hv.
    + apply Some_inj in Hc. apply Some_inj in Hv. subst c v0.
      change (px (assign_at (mkImg (nr im) (nc im) (fun i0 j0 => if coord_eqb (i, j) (i0, j0) then v else px im i0 j0)) cs vals) i j = v).
      rewrite assign_at_other by assumption. cbn [px].
      assert (E : coord_eqb (i, j) (i, j) = true) by now apply coord_eqb_spec. now rewrite E.
    + change (px (assign_at (mkImg (nr im) (nc im) (fun i0 j0 => if coord_eqb c (i0, j0) then v0 else px im i0 j0)) cs vals) i j = v).
      now apply IH with k.
Qed.

Lemma assign_mask_map : forall A (im : img A) mask f,
  exists out, assign_mask im mask (map f (badpix mask)) = Ok out /\
    nr out = nr im /\ nc out = nc im /\
    forall i j, inside mask i j ->
      px out i j = if px mask i j then f (i, j) else px im i j.
Proof.
  intros A im mask f. unfold assign_mask. fold (badpix mask).
  rewrite map_length, Nat.eqb_refl. eexists. split; [reflexivity|].
  destruct (assign_at_shape A (badpix mask) (map f (badpix mask)) im) as [E1 E2].
  split; [assumption|]. split; [assumption|]. intros i j Hin.
  destruct (px mask i j) eqn:Ep.
  - assert (Hb : In (i, j) (badpix mask)) by (apply badpix_listing; split; assumption).
    apply In_nth_error in Hb. destruct Hb as [k Hk].
    apply assign_at_hit with k; [apply badpix_nodup|assumption|].
    now rewrite nth_error_map, Hk.
  - apply assign_at_other. intro Hb. apply badpix_listing in Hb. destruct Hb as [_ Hb].
    simpl in Hb. congruence.
Qed.

(** * The two paths of the interpolation *)
Lemma map_unravel_bad : forall m,
  map (unravel (nc m)) (map (flat_index m) (badpix m)) = badpix m.
Proof.
  intro m. rewrite map_map. rewrite <- (map_id (badpix m)) at 2. apply map_ext_in.
  intros p Hp. apply unravel_flat. apply badpix_listing in Hp. apply Hp.
Qed.

Lemma unravel_good_in : forall m buff p,
  In p (map (unravel (nc m)) (zunique (flat_map (good_list m buff) (badpix m)))) <-> good_near m buff p.
Proof.
  intros m buff p. rewrite in_map_iff. split.
  - intros [z [<- Hz]]. rewrite in_zunique in Hz. apply in_good in Hz. destruct Hz as [q [Hq ->]].
    rewrite unravel_flat; [assumption|apply Hq].
  - intro H. exists (flat_index m p). split; [apply unravel_flat; apply H|].
    rewrite in_zunique. apply in_good. now exists p.
Qed.

Lemma unravel_good_nodup : forall m buff,
  NoDup (map (unravel (nc m)) (zunique (flat_map (good_list m buff) (badpix m)))).
Proof.
  intros m buff. set (l := zunique _).
  assert (Hl : forall z, In z l -> exists q, inside m (fst q) (snd q) /\ z = flat_index m q).
  { intros z Hz. unfold l in Hz. rewrite in_zunique in Hz. apply in_good in Hz.
    destruct Hz as [q [Hq ->]]. exists q. split; [apply Hq|reflexivity]. }
  assert (Hn : NoDup l) by apply zunique_nodup. clearbody l.
  induction Hn as [|z l Hz Hn IH]; simpl; constructor.
  - intro H. apply in_map_iff in H. destruct H as [z' [E Hz']]. apply Hz.
    destruct (Hl z (or_introl eq_refl)) as [q [Hq ->]].
    destruct (Hl z' (or_intror Hz')) as [q' [Hq' ->]].
    rewrite !unravel_flat in E by assumption. now subst.
  - apply IH. intros; apply Hl; now right.
Qed.

(** The points are in row-major order. *)
Lemma flat_before : forall m p q, inside m (fst p) (snd p) -> inside m (fst q) (snd q) ->
  flat_index m p < flat_index m q -> before p q.
Proof.
  intros m [pi pj] [qi qj] [Hp1 Hp2] [Hq1 Hq2] H. unfold flat_index, before in *. cbn [fst snd] in *.
  destruct (Z.lt_trichotomy pi qi) as [L|[E|L]]; [left; exact L|right; subst; split; [reflexivity|lia]|exfalso; nia].
Qed.
Lemma points_listing : forall m buff,
  row_major_listing (good_near m buff) (map (unravel (nc m)) (zunique (flat_map (good_list m buff) (badpix m)))).
Proof.
  intros m buff. split; [|intro p; apply unravel_good_in]. set (l := zunique _).
  assert (Hl : forall z, In z l -> exists q, inside m (fst q) (snd q) /\ z = flat_index m q).
  { intros z Hz. unfold l in Hz. rewrite in_zunique in Hz. apply in_good in Hz.
    destruct Hz as [q [Hq ->]]. exists q. split; [apply Hq|reflexivity]. }
  assert (Hn : StronglySorted Z.lt l) by apply zunique_sorted. clearbody l.
  induction Hn as [|z l Hs IH Hf]; cbn [map]; constructor; [apply IH; intros; apply Hl; now right|].
  rewrite Forall_forall in *. intros x Hx. apply in_map_iff in Hx. destruct Hx as [z' [<- Hz']]. specialize (Hf z' Hz').
  destruct (Hl z (or_introl eq_refl)) as [q [Hq ->]]. destruct (Hl z' (or_intror Hz')) as [q' [Hq' ->]].
  rewrite !unravel_flat by assumption. exact (flat_before m q q' Hq Hq' Hf).
Qed.

(** select aligned with flags computed from the elements *)
Lemma select_filter : forall A (f : A -> bool) l, select l (map f l) = filter f l.
Proof. induction l as [|a l IH]; simpl; [reflexivity|]. destruct (f a); now rewrite IH. Qed.

Lemma existsb_iso : forall m b l, existsb (fun x => x) (map (iso_flag m b) l) = false ->
  filter (iso_flag m b) l = [].
Proof.
  induction l as [|p l IH]; simpl; intro H; [reflexivity|].
  apply orb_false_iff in H. destruct H as [-> H]. now apply IH.
Qed.

Definition isopix (m : img bool) (b : Z) : list (Z * Z) := filter (iso_flag m b) (badpix m).

Lemma isopix_listing : forall m b, row_major_listing (isolated m b) (isopix m b).
Proof.
  intros m b. split; [apply SS_filter, badpix_listing|]. intro p. unfold isopix. rewrite filter_In. split.
  - intros [H1 H2]. apply badpix_listing in H1. now apply iso_flag_spec.
  - intros H. pose proof (proj1 H) as Hb. split; [now apply badpix_listing|]. now apply iso_flag_spec.
Qed.

(** The mask after marking isolated pixels as ok. *)
Definition unmask (m : img bool) (b : Z) : img bool :=
  assign_at m (isopix m b) (map (fun _ => false) (isopix m b)).

Definition coord_dec : forall a b : Z * Z, {a = b} + {a <> b}.
Proof. intros [a b] [c d]. destruct (Z.eq_dec a c), (Z.eq_dec b d); [left|right|right|right]; congruence. Defined.

Lemma unmask_px : forall m b i j, inside m i j ->
  px (unmask m b) i j = px m i j && negb (if in_dec coord_dec (i, j) (isopix m b) then true else false).
Proof.
  intros m b i j Hin. unfold unmask. destruct (in_dec coord_dec (i, j) (isopix m b)) as [Hi|Hn].
  - apply In_nth_error in Hi. destruct Hi as [k Hk].
    rewrite (assign_at_hit _ _ _ _ k i j false).
    + now rewrite andb_false_r.
    + apply SS_before_nodup. apply isopix_listing.
    + assumption.
    + now rewrite nth_error_map, Hk.
  - rewrite assign_at_other by assumption. now rewrite andb_true_r.
Qed.

Lemma unmask_bad : forall m b p, bad_at (unmask m b) p <-> bad_at m p /\ ~ isolated m b p.
Proof.
  intros m b [i j]. unfold bad_at at 1. cbn [fst snd].
  destruct (assign_at_shape _ (isopix m b) (map (fun _ => false) (isopix m b)) m) as [E1 E2].
  fold (unmask m b) in E1, E2.
  assert (Hin : inside (unmask m b) i j <-> inside m i j) by (unfold inside; rewrite E1, E2; tauto).
  rewrite Hin. split.
  - intros [Hi Hp]. rewrite unmask_px in Hp by assumption. apply andb_true_iff in Hp.
    destruct Hp as [Hp Hn]. split; [split; assumption|]. intro Hiso.
    apply isopix_listing in Hiso.
    destruct (in_dec coord_dec (i, j) (isopix m b)); [discriminate|contradiction].
  - intros [[Hi Hp] Hn]. split; [assumption|]. rewrite unmask_px by assumption.
    cbn [fst snd] in Hp. rewrite Hp. destruct (in_dec coord_dec (i, j) (isopix m b)) as [Hx|]; [|reflexivity].
    apply isopix_listing in Hx. contradiction.
Qed.

(** The interpolated result: [m] is the effective bad mask, [base] the image
    whose pixels the interpolator sees. *)
Definition interp_result {A} (build : list ((Z * Z) * A) -> outcome ((Z * Z) -> A))
    (m : img bool) (base : img A) (buff : Z) : outcome (option (img A)) :=
  do f <- build (map (fun p => (p, px base (fst p) (snd p)))
                   (map (unravel (nc m)) (zunique (flat_map (good_list m buff) (badpix m)))));
  do out <- assign_mask base m (map f (badpix m));
  Ok (Some out).

Lemma interpolate_unfold : forall A W build (image : img A) m maxfrac buff fill (weight : option W) rng iso_buff,
  0 <= buff ->
  interpolate_image_at_mask build image m maxfrac buff fill weight rng iso_buff =
  if Qle_bool (inject_Z (count_bad m) / inject_Z (nr m * nc m)) maxfrac
     && (count_bad m <? nr m * nc m) then
    if fill then
      match rng with
      | None => Raise RuntimeError
      | Some normal => match weight with
        | None => Raise RuntimeError
        | Some w =>
          match isopix m iso_buff with
          | [] => interp_result build m image buff
          | _ => interp_result build (unmask m iso_buff)
                   (assign_at image (isopix m iso_buff) (normal (List.length (isopix m iso_buff)) w)) buff
          end
        end
      end
    else interp_result build m image buff
  else Ok None.
Proof.
  intros A W build image m maxfrac buff fill weight rng iso_buff Hb.
  unfold interpolate_image_at_mask.
  destruct (_ && _); [|reflexivity].
  rewrite scan_ok by assumption. cbn [obind s_good s_bad s_iso scan_result].
  rewrite map_unravel_bad, select_filter. fold (isopix m iso_buff).
  destruct fill; [|reflexivity].
  destruct rng as [normal|]; [|reflexivity]. destruct weight as [w|]; [|reflexivity].
  destruct (existsb (fun b => b) (map (iso_flag m iso_buff) (badpix m))) eqn:Ex.
  - destruct (isopix m iso_buff) as [|p0 l0] eqn:Eiso.
    { exfalso. apply existsb_exists in Ex. destruct Ex as [b [Hb' ->]].
      apply in_map_iff in Hb'. destruct Hb' as [p [Hp1 Hp2]].
      assert (Hin : In p (isopix m iso_buff)) by (apply filter_In; tauto).
      rewrite Eiso in Hin. destruct Hin. }
    rewrite <- Eiso. fold (unmask m iso_buff).
    rewrite scan_ok by assumption. cbn [obind s_good s_bad s_iso scan_result].
    destruct (assign_at_shape _ (isopix m iso_buff) (map (fun _ => false) (isopix m iso_buff)) m) as [E1 E2].
    fold (unmask m iso_buff) in E1, E2.
    unfold interp_result. rewrite <- E2. rewrite map_unravel_bad. reflexivity.
  - apply existsb_iso in Ex. fold (isopix m iso_buff) in Ex. rewrite Ex. reflexivity.
Qed.

Lemma interp_result_ok : forall A build m (base : img A) buff res,
  interp_result build m base buff = Ok res ->
  exists pts f out, res = Some out /\ build pts = Ok f /\
    nr out = nr base /\ nc out = nc base /\
    NoDup (map fst pts) /\
    (forall p v, In (p, v) pts <-> good_near m buff p /\ v = px base (fst p) (snd p)) /\
    (forall i j, inside m i j -> px out i j = if px m i j then f (i, j) else px base i j).
Proof.
  intros A build m base buff res H. unfold interp_result in H.
  set (pts := map (fun p => (p, px base (fst p) (snd p))) _) in H.
  destruct (build pts) as [f|] eqn:Ef; cbn [obind] in H; [|discriminate].
  destruct (assign_mask_map A base m f) as [out [E [E1 [E2 E3]]]].
  rewrite E in H. cbn [obind] in H. apply Ok_inj in H. subst res.
  exists pts, f, out. split; [reflexivity|]. split; [assumption|]. split; [assumption|].
  split; [assumption|]. split; [|split; [|assumption]].
  - unfold pts. rewrite map_map. cbn [fst]. rewrite map_id. apply unravel_good_nodup.
  - intros p v. unfold pts. rewrite in_map_iff. split.
    + intros [q [E' Hq]]. inversion E'; subst q v. apply unravel_good_in in Hq. tauto.
    + intros [Hp ->]. exists p. split; [reflexivity|]. now apply unravel_good_in.
Qed.

(** Without noise filling. *)
Lemma interpolate_plain : forall A W build (image : img A) m maxfrac buff (weight : option W) rng iso_buff res,
  0 <= buff ->
  interpolate_image_at_mask build image m maxfrac buff false weight rng iso_buff = Ok (Some res) ->
  exists pts f, build pts = Ok f /\ nr res = nr image /\ nc res = nc image /\
    NoDup (map fst pts) /\
    (forall p v, In (p, v) pts <-> good_near m buff p /\ v = px image (fst p) (snd p)) /\
    (forall p, good_at m p -> px res (fst p) (snd p) = px image (fst p) (snd p)) /\
    (forall p, bad_at m p -> px res (fst p) (snd p) = f p).
Proof.
  intros A W build image m maxfrac buff weight rng iso_buff res Hb H.
  rewrite interpolate_unfold in H by assumption.
  destruct (_ && _); [|discriminate].
  apply interp_result_ok in H. destruct H as [pts [f [out [E [Ef [E1 [E2 [Hn [Hp Hv]]]]]]]]].
  apply Some_inj in E. subst out. exists pts, f. repeat (split; [assumption|]). split.
  - intros [i j] [Hin Hx]. cbn [fst snd] in *. rewrite Hv by assumption. now rewrite Hx.
  - intros [i j] [Hin Hx]. cbn [fst snd] in *. rewrite Hv by assumption. now rewrite Hx.
Qed.

(** With noise filling. *)
Lemma interpolate_fill : forall A W build (image : img A) m maxfrac buff (w : W) normal iso_buff res,
  0 <= buff ->
  (forall n, List.length (normal n w) = n) ->
  interpolate_image_at_mask build image m maxfrac buff true (Some w) (Some normal) iso_buff = Ok (Some res) ->
  exists isos pts f, row_major_listing (isolated m iso_buff) isos /\
    build pts = Ok f /\ nr res = nr image /\ nc res = nc image /\
    NoDup (map fst pts) /\
    (forall p v, In (p, v) pts <->
        ((good_at m p \/ isolated m iso_buff p) /\
         (exists q, bad_at m q /\ ~ isolated m iso_buff q /\ within buff p q)) /\
        v = px res (fst p) (snd p)) /\
    (forall p, good_at m p -> px res (fst p) (snd p) = px image (fst p) (snd p)) /\
    (forall p, bad_at m p -> ~ isolated m iso_buff p -> px res (fst p) (snd p) = f p) /\
    (forall k p, nth_error isos k = Some p ->
       nth_error (normal (List.length isos) w) k = Some (px res (fst p) (snd p))).
Proof.
  intros A W build image m maxfrac buff w normal iso_buff res Hb Hlen H.
  rewrite interpolate_unfold in H by assumption.
  destruct (_ && _); [|discriminate].
  exists (isopix m iso_buff).
  destruct (isopix m iso_buff) as [|p0 l0] eqn:Eiso.
  - assert (Hno : forall p, ~ isolated m iso_buff p).
    { intros p Hp. apply isopix_listing in Hp. rewrite Eiso in Hp. destruct Hp. }
    apply interp_result_ok in H. destruct H as [pts [f [out [E [Ef [E1 [E2 [Hn [Hp Hv]]]]]]]]].
    apply Some_inj in E. subst out. exists pts, f.
    assert (Hg : forall p, good_at m p -> px res (fst p) (snd p) = px image (fst p) (snd p)).
    { intros [i j] [Hin Hx]. cbn [fst snd] in *. rewrite Hv by assumption. now rewrite Hx. }
    split; [rewrite <- Eiso; apply isopix_listing|]. repeat (split; [assumption|]).
    split; [|split; [assumption|split]].
    + intros p v. rewrite Hp. unfold good_near. split.
      * intros [[Hgp [q [Hq1 Hq2]]] ->]. rewrite Hg by assumption. repeat split; try tauto.
        exists q. split; [assumption|]. split; [apply Hno|assumption].
      * intros [[[Hgp|Hi] [q [Hq1 [_ Hq2]]]] ->]; [|now apply Hno in Hi].
        rewrite Hg by assumption. split; [|reflexivity]. split; [assumption|]. now exists q.
    + intros [i j] [Hin Hx] _. cbn [fst snd] in *. rewrite Hv by assumption. now rewrite Hx.
    + intros k p Hk. destruct k; discriminate.
  - rewrite <- Eiso in *.
    set (isos := isopix m iso_buff) in *.
    set (vals := normal (List.length isos) w) in *.
    assert (S1 : nr (unmask m iso_buff) = nr m) by exact (proj1 (assign_at_shape _ _ _ _)).
    assert (S2 : nc (unmask m iso_buff) = nc m) by exact (proj2 (assign_at_shape _ _ _ _)).
    destruct (assign_at_shape _ isos vals image) as [T1 T2].
    apply interp_result_ok in H. destruct H as [pts [f [out [E [Ef [E1 [E2 [Hn [Hp Hv]]]]]]]]].
    apply Some_inj in E. subst out. exists pts, f. rewrite T1 in E1. rewrite T2 in E2.
    assert (Hins : forall i j, inside (unmask m iso_buff) i j <-> inside m i j)
      by (intros; unfold inside; rewrite S1, S2; tauto).
    assert (Hgood2 : forall p, good_at (unmask m iso_buff) p <-> good_at m p \/ isolated m iso_buff p).
    { intros [i j]. pose proof (unmask_bad m iso_buff (i, j)) as Hub. unfold bad_at at 1 in Hub.
      unfold good_at. cbn [fst snd] in *. rewrite Hins in *. split.
      - intros [Hin Hx]. destruct (px m i j) eqn:Em; [|tauto]. right.
        destruct (iso_flag m iso_buff (i, j)) eqn:Ei.
        + apply iso_flag_spec; [split; assumption|assumption].
        + exfalso. assert (X : inside m i j /\ px (unmask m iso_buff) i j = true).
          { apply Hub. split; [split; assumption|]. intro X. apply iso_flag_spec in X; [congruence|split; assumption]. }
          destruct X; congruence.
      - intros [[Hin Hx]|Hi].
        + split; [assumption|]. destruct (px (unmask m iso_buff) i j) eqn:Eu; [|reflexivity].
          assert (X : bad_at m (i, j) /\ ~ isolated m iso_buff (i, j)) by (apply Hub; tauto).
          destruct X as [[_ X] _]. cbn [fst snd] in X. congruence.
        + pose proof (proj1 (proj1 Hi)) as Hin. cbn [fst snd] in Hin. split; [assumption|].
          destruct (px (unmask m iso_buff) i j) eqn:Eu; [|reflexivity].
          assert (X : bad_at m (i, j) /\ ~ isolated m iso_buff (i, j)) by (apply Hub; tauto).
          now destruct X. }
    assert (Hval : forall p, good_at (unmask m iso_buff) p ->
              px res (fst p) (snd p) = px (assign_at image isos vals) (fst p) (snd p)).
    { intros [i j] [Hin Hx]. cbn [fst snd] in *. rewrite Hv by assumption. now rewrite Hx. }
    split; [apply isopix_listing|]. repeat (split; [assumption|]).
    split; [|split; [|split]].
    + intros p v. rewrite Hp. unfold good_near. rewrite Hgood2. split.
      * intros [[Hg [q [Hq Hw]]] ->]. rewrite Hval by now apply Hgood2.
        split; [|reflexivity]. split; [assumption|]. exists q. apply unmask_bad in Hq. tauto.
      * intros [[Hg [q [Hq1 [Hq2 Hw]]]] ->]. rewrite Hval by now apply Hgood2.
        split; [|reflexivity]. split; [assumption|]. exists q. split; [|assumption].
        now apply unmask_bad.
    + intros p Hg. rewrite Hval by (apply Hgood2; now left).
      destruct p as [i j]. cbn [fst snd]. apply assign_at_other. intro X.
      apply isopix_listing in X. destruct X as [[_ X] _]. destruct Hg as [_ Hg].
      cbn [fst snd] in *. congruence.
    + intros [i j] Hbad Hni. pose proof (proj2 (unmask_bad m iso_buff (i, j)) (conj Hbad Hni)) as [Hin Hx].
      cbn [fst snd] in *. rewrite Hv by assumption. now rewrite Hx.
    + intros k [i j] Hk. rewrite Hval.
      2:{ apply Hgood2. right. apply isopix_listing. now apply nth_error_In with k. }
      assert (Hex : exists v, nth_error vals k = Some v).
      { destruct (nth_error vals k) eqn:Ev; [eauto|]. apply nth_error_None in Ev.
        unfold vals in Ev. rewrite Hlen in Ev.
        assert (k < List.length isos)%nat by (apply nth_error_Some; congruence). lia. }
      destruct Hex as [v Hv']. rewrite Hv'. f_equal. symmetry. cbn [fst snd].
      apply assign_at_hit with k; [|assumption|assumption].
      apply SS_before_nodup. apply isopix_listing.
Qed.

(** When nothing is returned. *)
Lemma interpolate_none : forall A W build (image : img A) m maxfrac buff fill (weight : option W) rng iso_buff,
  0 <= buff -> 0 <= nr m -> 0 <= nc m ->
  (interpolate_image_at_mask build image m maxfrac buff fill weight rng iso_buff = Ok None <->
   (maxfrac < inject_Z (count_bad m) / inject_Z (nr m * nc m))%Q \/
   (forall p, inside m (fst p) (snd p) -> bad_at m p)).
Proof.
  intros A W build image m maxfrac buff fill weight rng iso_buff Hb Hr Hc.
  rewrite interpolate_unfold by assumption.
  assert (Hcount : count_bad m <? nr m * nc m = true <-> exists p, good_at m p).
  { rewrite Z.ltb_lt. unfold count_bad.
    assert (Hlen : zlen (coords (nr m) (nc m)) = nr m * nc m).
    { unfold coords, zlen. rewrite grid_length. unfold zrange. rewrite !zrange2_length.
      rewrite Nat2Z.inj_mul. rewrite !Z2Nat.id by lia. f_equal; lia. }
    rewrite <- Hlen. split.
    - intro H. destruct (existsb (fun p => negb (px m (fst p) (snd p))) (coords (nr m) (nc m))) eqn:E.
      + apply existsb_exists in E. destruct E as [p [Hp Hx]]. exists p. split.
        * destruct p. now apply in_coords in Hp.
        * now apply negb_true_iff in Hx.
      + exfalso. assert (Hall : filter (fun ij => px m (fst ij) (snd ij)) (coords (nr m) (nc m)) = coords (nr m) (nc m)).
        { clear H Hlen. induction (coords (nr m) (nc m)) as [|a l IH]; simpl in *; [reflexivity|].
          apply orb_false_iff in E. destruct E as [E1 E2]. apply negb_false_iff in E1. rewrite E1.
          now rewrite IH. }
        rewrite Hall in H. lia.
    - intros [p [Hin Hx]]. assert (Hp : In p (coords (nr m) (nc m))) by (destruct p; now apply in_coords).
      clear Hlen. induction (coords (nr m) (nc m)) as [|a l IH]; [destruct Hp|]. unfold zlen in *. simpl.
      destruct Hp as [<-|Hp].
      + rewrite Hx. pose proof (filter_length_le _ (fun ij => px m (fst ij) (snd ij)) l). simpl. lia.
      + specialize (IH Hp). destruct (px m (fst a) (snd a)); simpl; lia. }
  set (fr := (inject_Z (count_bad m) / inject_Z (nr m * nc m))%Q).
  assert (Hnever : forall x, (if fill then match rng with
      | None => Raise RuntimeError
      | Some normal => match weight with
        | None => Raise RuntimeError
        | Some w => match isopix m iso_buff with
          | [] => interp_result build m image buff
          | _ => interp_result build (unmask m iso_buff)
                   (assign_at image (isopix m iso_buff) (normal (List.length (isopix m iso_buff)) w)) buff
          end end end else interp_result build m image buff) = Ok x -> x <> None).
  { intros x Hx Hn. subst x.
    assert (Hi : forall m' b', interp_result build m' b' buff <> @Ok (option (img A)) None).
    { intros m' b' X. apply interp_result_ok in X. destruct X as [? [? [? [X _]]]]. discriminate. }
    destruct fill; [|now apply Hi in Hx].
    destruct rng; [|discriminate]. destruct weight; [|discriminate].
    destruct (isopix m iso_buff); now apply Hi in Hx. }
  destruct (Qle_bool fr maxfrac) eqn:Ef; cbn [andb].
  - apply Qle_bool_iff in Ef. destruct (count_bad m <? nr m * nc m) eqn:Ec.
    + split; [intro X; exfalso; exact (Hnever _ X eq_refl)|].
      intros [X|X].
      * exfalso. apply Qlt_not_le in X. contradiction.
      * exfalso. destruct (proj1 Hcount eq_refl) as [p [Hin Hx]]. destruct (X p Hin) as [_ Hb']. congruence.
    + split; [intros _|reflexivity]. right. intros p Hin. split; [assumption|].
      destruct (px m (fst p) (snd p)) eqn:Ep; [reflexivity|]. exfalso.
      assert (X : false = true) by (apply Hcount; exists p; split; assumption). discriminate.
  - split; [|reflexivity]. intros _. left. apply Qnot_le_lt. intro X. apply Qle_bool_iff in X. congruence.
Qed.

(** Missing generator or weight with noise filling. *)
Lemma interpolate_needs_rng : forall A W build (image : img A) m maxfrac buff (weight : option W) rng iso_buff,
  0 <= buff -> (rng = None \/ weight = None) ->
  interpolate_image_at_mask build image m maxfrac buff true weight rng iso_buff = Ok None \/
  interpolate_image_at_mask build image m maxfrac buff true weight rng iso_buff = Raise RuntimeError.
Proof.
  intros A W build image m maxfrac buff weight rng iso_buff Hb H.
  rewrite interpolate_unfold by assumption. destruct (_ && _); [|now left]. right.
  destruct H as [-> | ->]; [reflexivity|]. now destruct rng.
Qed.

(** * C23: a bad pixel next to a good pixel always exists *)
Lemma line_change : forall (f : Z -> bool) n a b, 0 <= a < n -> 0 <= b < n ->
  f a = true -> f b = false ->
  exists c d, 0 <= c < n /\ 0 <= d < n /\ Z.abs (c - d) <= 1 /\ f c = true /\ f d = false.
Proof.
  intros f n a b Ha Hb Hfa Hfb.
  assert (G : forall k a b, Z.to_nat (Z.abs (a - b)) = k -> 0 <= a < n -> 0 <= b < n ->
     f a = true -> f b = false ->
     exists c d, 0 <= c < n /\ 0 <= d < n /\ Z.abs (c - d) <= 1 /\ f c = true /\ f d = false).
  { clear a b Ha Hb Hfa Hfb. induction k as [|k IH]; intros a b Hk Ha Hb Hfa Hfb.
    - assert (a = b) by lia. subst. congruence.
    - set (a' := if a <? b then a + 1 else a - 1).
      assert (Ha' : 0 <= a' < n /\ Z.to_nat (Z.abs (a' - b)) = k /\ Z.abs (a - a') <= 1).
      { unfold a'. destruct (Z.ltb_spec a b); lia. }
      destruct Ha' as [H1 [H2 H3]]. destruct (f a') eqn:E.
      + now apply (IH a' b).
      + exists a, a'. repeat split; try assumption; lia. }
  now apply (G _ a b eq_refl).
Qed.

Lemma boundary_exists : forall m p q, bad_at m p -> good_at m q ->
  exists b g, bad_at m b /\ good_at m g /\ within 1 g b.
Proof.
  intros m [pi pj] [qi qj] [[Hp1 Hp2] Hp] [[Hq1 Hq2] Hq]. cbn [fst snd] in *.
  destruct (px m qi pj) eqn:Ec.
  - destruct (line_change (fun c => px m qi c) (nc m) pj qj Hp2 Hq2 Ec Hq) as [c [d [Hc [Hd [Hcd [H1 H2]]]]]].
    exists (qi, c), (qi, d). unfold bad_at, good_at, inside, within. cbn [fst snd].
    repeat split; try assumption; lia.
  - destruct (line_change (fun r => px m r pj) (nr m) pi qi Hp1 Hq1 Hp Ec) as [c [d [Hc [Hd [Hcd [H1 H2]]]]]].
    exists (c, pj), (d, pj). unfold bad_at, good_at, inside, within. cbn [fst snd].
    repeat split; try assumption; lia.
Qed.

Lemma fill_leaves_points : forall A W build (image : img A) m maxfrac buff (w : W) normal iso_buff p q,
  1 <= buff -> 1 <= iso_buff -> (forall n, List.length (normal n w) = n) ->
  bad_at m p -> good_at m q ->
  forall res, interpolate_image_at_mask build image m maxfrac buff true (Some w) (Some normal) iso_buff = Ok (Some res) ->
  exists pts f g v b, build pts = Ok f /\ In (g, v) pts /\ good_at m g /\ v = px image (fst g) (snd g) /\
     bad_at m b /\ ~ isolated m iso_buff b /\ px res (fst b) (snd b) = f b.
Proof.
  intros A W build image m maxfrac buff w normal iso_buff p q Hb Hi Hlen Hp Hq res H.
  destruct (boundary_exists m p q Hp Hq) as [b [g [Hbad [Hgood Hw]]]].
  assert (Hni : ~ isolated m iso_buff b).
  { intros [_ X]. apply (X g Hgood). unfold within in *. lia. }
  apply interpolate_fill in H; [|lia|assumption].
  destruct H as [isos [pts [f [_ [Ef [_ [_ [_ [Hpts [Hg [Hbd _]]]]]]]]]]].
  exists pts, f, g, (px image (fst g) (snd g)), b. split; [assumption|]. split.
  - apply Hpts. split; [|symmetry; now apply Hg]. split; [now left|]. exists b.
    split; [assumption|]. split; [assumption|]. unfold within in *. lia.
  - repeat (split; [assumption || reflexivity|]). now apply Hbd.
Qed.

Lemma interp_result_total : forall A build m (base : img A) buff,
  (forall pts, pts <> [] -> exists f, build pts = Ok f) ->
  (exists p, good_near m buff p) -> exists out, interp_result build m base buff = Ok (Some out).
Proof.
  intros A build m base buff Hbuild [p Hp]. unfold interp_result.
  set (pts := map (fun p => (p, px base (fst p) (snd p))) _).
  assert (Hne : pts <> []).
  { intro E. apply unravel_good_in in Hp. unfold pts in E. apply map_eq_nil in E. rewrite E in Hp. destruct Hp. }
  destruct (Hbuild pts Hne) as [f ->]. cbn [obind].
  destruct (assign_mask_map A base m f) as [out [-> _]]. cbn [obind]. now exists out.
Qed.

(** The interpolator is never given an empty set of points. *)
Lemma interpolate_total : forall A W build (image : img A) m maxfrac buff fill (w : W) normal iso_buff p q,
  1 <= buff -> 1 <= iso_buff ->
  (forall pts, pts <> [] -> exists f, build pts = Ok f) ->
  bad_at m p -> good_at m q ->
  (inject_Z (count_bad m) / inject_Z (nr m * nc m) <= maxfrac)%Q ->
  exists res, interpolate_image_at_mask build image m maxfrac buff fill (Some w) (Some normal) iso_buff
              = Ok (Some res).
Proof.
  intros A W build image m maxfrac buff fill w normal iso_buff p q Hb Hi Hbuild Hp Hq Hf.
  destruct (boundary_exists m p q Hp Hq) as [b [g [Hbad [Hgood Hw]]]].
  assert (Hni : ~ isolated m iso_buff b).
  { intros [_ X]. apply (X g Hgood). unfold within in *. lia. }
  assert (Hn : interpolate_image_at_mask build image m maxfrac buff fill (Some w) (Some normal) iso_buff <> Ok None).
  { intro X. apply interpolate_none in X; [|lia| |].
    - destruct X as [X|X]; [now apply Qlt_not_le in X|].
      destruct (X q (proj1 Hq)) as [_ Y]. destruct Hq. congruence.
    - destruct Hq as [[Y1 Y2] _]. lia.
    - destruct Hq as [[Y1 Y2] _]. lia. }
  rewrite interpolate_unfold in * by lia.
  destruct (_ && _); [|now contradiction Hn].
  assert (Hm : exists p, good_near m buff p).
  { exists g. split; [assumption|]. exists b. split; [assumption|]. unfold within in *. lia. }
  destruct fill; [|now apply interp_result_total].
  destruct (isopix m iso_buff) as [|p0 l0] eqn:Eiso; [now apply interp_result_total|].
  rewrite <- Eiso. apply interp_result_total; [assumption|].
  assert (S1 : nr (unmask m iso_buff) = nr m) by exact (proj1 (assign_at_shape _ _ _ _)).
  assert (S2 : nc (unmask m iso_buff) = nc m) by exact (proj2 (assign_at_shape _ _ _ _)).
  exists g. split.
  - destruct Hgood as [Hin Hx]. split; [unfold inside in *; rewrite S1, S2; exact Hin|].
    destruct g as [gi gj]. cbn [fst snd] in *. rewrite unmask_px by assumption. now rewrite Hx.
  - exists b. split; [now apply unmask_bad|]. unfold within in *. lia.
Qed.
