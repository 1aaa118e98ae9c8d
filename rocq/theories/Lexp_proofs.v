From Coq Require Import ZArith QArith List String Bool Lia Lqa Permutation Sorted.
From Verif Require Import Base Arr Median Lexp_model Lexp_spec.
Import ListNotations.
Local Open Scope string_scope.
Local Open Scope Z_scope.

(** ** C54 *)
Lemma set_all_same : forall A (d s : img A), nr s = nr d -> nc s = nc d -> 0 <= nr d -> 0 <= nc d ->
  exists r, set_all d s = Ok r /\ img_eq r s.
Proof.
  intros A d s R C R0 C0. unfold set_all, assign_slice, slice_len, slice_lo.
  assert (N : forall n, 0 <= n -> norm_bound n 0 = 0 /\ norm_bound n n = n).
  { intros n H. unfold norm_bound. destruct (n <? 0) eqn:E; cbn; lia. }
  destruct (N _ R0) as [-> ->]. destruct (N _ C0) as [-> ->]. rewrite !Z.sub_0_r, !Z.max_r by assumption.
  unfold bcast_ok. rewrite R, C, !Z.eqb_refl. cbn [orb andb]. eexists. split; [reflexivity|].
  unfold img_eq, inside. cbn [nr nc px]. repeat split; auto. intros i j [I J].
  destruct (_ && _) eqn:E; [now rewrite !Z.sub_0_r|].
  rewrite <- not_true_iff_false in E. destruct E. rewrite !andb_true_iff, !Z.leb_le, !Z.ltb_lt. lia.
Qed.

Lemma obs2exp_existing : forall o e name cp m,
  obs_shape o -> exp_shape e -> nr (e_image e) = nr (o_image o) -> nc (e_image e) = nc (o_image o) ->
  mask_plane o name = Some m ->
  exists e', obs2exp o (Some e) name cp = Ok e' /\
    img_eq (e_image e') (o_image o) /\ img_eq (e_mask e') m /\
    nr (e_var e') = nr (o_image o) /\ nc (e_var e') = nc (o_image o) /\
    (forall i j, inside (o_image o) i j ->
       px (e_var e') i j = if Qle_bool (px (o_weight o) i j) 0 then None else Some (1 / px (o_weight o) i j)%Q) /\
    e_psf e' = (if cp then Some (fun _ _ => op_image (o_psf o)) else e_psf e) /\
    e_wcs e' = e_wcs e /\ e_x0 e' = e_x0 e /\ e_y0 e' = e_y0 e.
Proof.
  intros o e name cp m (OW & OB & OO) (EV & EM & R0 & C0) R C M. unfold obs2exp.
  destruct (set_all_same _ (e_image e) (o_image o)) as (im & -> & IM); try lia. cbn [obind].
  assert (MM : mask_of o name = Ok m /\ nr m = nr (o_image o) /\ nc m = nc (o_image o)).
  { unfold mask_plane in M. unfold mask_of. destruct (String.eqb name "bmask"); [rewrite M; split; [reflexivity|]; now apply OB|].
    destruct (String.eqb name "ormask"); [rewrite M; split; [reflexivity|]; now apply OO|discriminate]. }
  destruct MM as (-> & MR & MC). cbn [obind].
  destruct (set_all_same _ (e_mask e) m) as (mk & -> & IMK); try lia. cbn [obind].
  eexists. split; [reflexivity|]. cbn [e_image e_var e_mask e_psf e_wcs e_x0 e_y0 nr nc px].
  split; [exact IM|]. split; [exact IMK|]. split; [lia|]. split; [lia|]. split; [|auto].
  intros i j [I J]. assert (IN : insideb (o_weight o) i j = true) by (apply insideb_spec; unfold inside; lia).
  rewrite IN. cbn [andb]. destruct (Qle_bool _ _); reflexivity.
Qed.

Lemma mask_choice : forall name (m z : img Z) (P : string -> Prop), name = "bmask" \/ name = "ormask" ->
  exists b o, (if String.eqb name "ormask" then Ok (z, m) else if String.eqb name "bmask" then Ok (m, z) else Raise RuntimeError) = Ok (b, o) /\
    forall im w n j p, mask_plane (mkLobs im w (Some b) (Some o) n j p) name = Some m /\
                 mask_plane (mkLobs im w (Some b) (Some o) n j p) (other_plane name) = Some z.
Proof. intros name m z P [-> | ->]; do 2 eexists; (split; [reflexivity|]); split; reflexivity. Qed.

Lemma inv_inv : forall q, (0 < q)%Q -> (1 / (1 / q) == q)%Q.
Proof. intros q H. field. intros E. rewrite E in H. now apply Qlt_irrefl in H. Qed.
Lemma inv_pos : forall q, (0 < q)%Q -> (0 < 1 / q)%Q.
Proof. intros q H. unfold Qdiv. rewrite Qmult_1_l. now apply Qinv_lt_0_compat. Qed.
Lemma Qle_bool_false : forall a b, Qle_bool a b = false <-> (b < a)%Q.
Proof.
  intros a b. split.
  - intros H. destruct (Qlt_le_dec b a) as [L|L]; [exact L|]. apply Qle_bool_iff in L. congruence.
  - intros H. apply not_true_iff_false. intros E. apply Qle_bool_iff in E. apply Qlt_not_le in H. contradiction.
Qed.

Lemma roundtrip : forall W o e name m, obs_shape o -> exp_shape e ->
  nr (e_image e) = nr (o_image o) -> nc (e_image e) = nc (o_image o) ->
  e_wcs e <> None -> odd_square (op_image (o_psf o)) = true -> mask_plane o name = Some m ->
  exists e' o', obs2exp o (Some e) name true = Ok e' /\ exp2obs W e' name = Ok o' /\
    img_eq (o_image o') (o_image o) /\
    (forall i j, inside (o_image o) i j ->
       (0 < px (o_weight o) i j -> px (o_weight o') i j == px (o_weight o) i j)%Q /\
       (px (o_weight o) i j <= 0 -> px (o_weight o') i j == 0)%Q) /\
    (exists m', mask_plane o' name = Some m' /\ img_eq m' m) /\
    op_image (o_psf o') = op_image (o_psf o).
Proof.
  intros W o e name m OS ES R C WC PS M.
  destruct (obs2exp_existing o e name true m OS ES R C M) as (e' & -> & IM & MK & VR & VC & V & P & WE & X0 & Y0).
  exists e'. unfold exp2obs. destruct (get_integer_center e') as [cx cy]. unfold get_jacobian. rewrite WE.
  destruct (e_wcs e) as [w|]; [|contradiction]. cbn [some_or_attr obind]. rewrite P. cbn [some_or_attr obind]. rewrite PS. cbn [negb].
  assert (N : name = "bmask" \/ name = "ormask").
  { unfold mask_plane in M. destruct (String.eqb_spec name "bmask"); auto. destruct (String.eqb_spec name "ormask"); auto. discriminate. }
  destruct (mask_choice name (e_mask e') (imap (fun _ => 0) (e_mask e')) (fun _ => True) N) as (b & oo & -> & MP).
  cbn [obind fst snd]. eexists. split; [reflexivity|]. split; [reflexivity|]. cbn [o_image o_weight o_psf op_image].
  split; [exact IM|]. split; [|split; [|reflexivity]].
  - intros i j IN. unfold weight_of_var, imap. cbn [px]. rewrite (V i j IN). split; intros H.
    + apply Qle_bool_false in H as H'. rewrite H'. cbn [vpos vinv].
      pose proof (inv_pos _ H) as IP. apply Qle_bool_false in IP. rewrite IP. cbn [negb]. now apply inv_inv.
    + apply Qle_bool_iff in H. rewrite H. cbn. reflexivity.
  - exists (e_mask e'). split; [apply MP|exact MK].
Qed.

Lemma roundtrip_reverse : forall W e name o cp, exp_shape e -> exp2obs W e name = Ok o ->
  exists e', obs2exp o (Some e) name cp = Ok e' /\ img_eq (e_image e') (e_image e) /\ img_eq (e_mask e') (e_mask e) /\
    forall i j, inside (e_image e) i j ->
      match px (e_var e) i j with
      | Some q => if Qle_bool q 0 then px (e_var e') i j = None else exists q', px (e_var e') i j = Some q' /\ (q' == q)%Q
      | None => px (e_var e') i j = None
      end.
Proof.
  intros W e name o cp ES H. unfold exp2obs in H. destruct (get_integer_center e) as [cx cy].
  destruct (get_jacobian _ _ _ _) as [jac|]; [|discriminate]. cbn [obind] in H.
  destruct (e_psf e) as [draw|]; [|discriminate]. cbn [some_or_attr obind] in H.
  destruct (negb _); [discriminate|].
  assert (N : name = "bmask" \/ name = "ormask").
  { destruct (String.eqb_spec name "ormask"); auto. destruct (String.eqb_spec name "bmask"); auto. cbn in H. discriminate. }
  destruct (mask_choice name (e_mask e) (imap (fun _ => 0) (e_mask e)) (fun _ => True) N) as (b & oo & E & MP).
  rewrite E in H. cbn [obind fst snd] in H. apply Ok_inj in H. subst o.
  set (o := mkLobs _ _ _ _ _ _ _). destruct ES as (EV & EM & R0 & C0).
  assert (BO : nr b = nr (e_image e) /\ nc b = nc (e_image e) /\ nr oo = nr (e_image e) /\ nc oo = nc (e_image e)).
  { destruct N as [-> | ->]; cbn in E; apply Ok_inj, pair_equal_spec in E; destruct E as [<- <-]; cbn; tauto. }
  assert (OS : obs_shape o).
  { unfold obs_shape, o. cbn. split; [exact EV|]. split; intros m [= <-]; tauto. }
  destruct (obs2exp_existing o e name cp (e_mask e) OS (conj EV (conj EM (conj R0 C0))) eq_refl eq_refl) as (e' & -> & IM & MK & _ & _ & V & _).
  { apply MP. }
  exists e'. split; [reflexivity|]. split; [exact IM|]. split; [exact MK|]. intros i j IN. rewrite (V i j IN).
  change (px (o_weight o) i j) with (if vpos (px (e_var e) i j) then vinv (px (e_var e) i j) else 0%Q).
  destruct (px (e_var e) i j) as [q|]; cbn [vpos vinv]; [|reflexivity].
  destruct (Qle_bool q 0) eqn:Q0; cbn [negb]; [reflexivity|]. apply Qle_bool_false in Q0. pose proof (inv_pos _ Q0) as IP.
  apply Qle_bool_false in IP. rewrite IP. eexists. split; [reflexivity|]. now apply inv_inv.
Qed.

(** ** medians *)
Lemma finite_all : forall l : list evar, (forall v, In v l -> v <> None) -> List.length (finite_of l) = List.length l.
Proof.
  induction l as [|[q|] l IH]; intros H; cbn; [reflexivity| |exfalso; apply (H None); [now left|reflexivity]].
  f_equal. apply IH. intros; apply H; now right.
Qed.
Lemma ext_median_finite : forall l : list evar, l <> [] -> (forall v, In v l -> v <> None) ->
  exists m m', ext_median l = Some (Some m) /\ qmedian (finite_of l) = Some m' /\ (m == m')%Q.
Proof.
  intros l N F. unfold ext_median, qmedian. pose proof (finite_all l F) as L. pose proof (qsort_length (finite_of l)) as QL.
  rewrite QL, L. destruct (List.length l) as [|n] eqn:EL; [destruct l; [contradiction|discriminate]|].
  cbn [Nat.eqb]. replace (S n - 1)%nat with n by lia.
  assert (B1 : (Nat.div2 n < S n)%nat) by (destruct n; [cbn; lia|pose proof (Nat.lt_div2 (S n)); lia]).
  assert (B2 : (Nat.div2 (S n) < S n)%nat) by (apply Nat.lt_div2; lia).
  rewrite (nth_error_nth' (qsort (finite_of l)) 0%Q (n := Nat.div2 n)) by lia.
  rewrite (nth_error_nth' (qsort (finite_of l)) 0%Q (n := Nat.div2 (S n))) by lia.
  rewrite <- !Nat.div2_div. destruct (Nat.odd (S n)) eqn:O; (do 2 eexists; split; [reflexivity|]; split; [reflexivity|]).
  - apply Nat.odd_spec in O. destruct O as [k K]. assert (n = 2 * k)%nat by lia. subst n.
    rewrite Nat.div2_double. replace (S (2 * k)) with (S (2 * k)) by lia. rewrite Nat.div2_succ_double. field.
  - assert (E : Nat.even (S n) = true) by (rewrite <- Nat.negb_odd, O; reflexivity). apply Nat.even_spec in E. destruct E as [k K].
    assert (KK : exists k', k = S k') by (destruct k; [lia|eauto]). destruct KK as [k' ->].
    assert (n = S (2 * k'))%nat by lia. subst n. rewrite Nat.div2_succ_double. rewrite K, Nat.div2_double.
    replace (S k' - 1)%nat with k' by lia. reflexivity.
Qed.

Lemma good_variances_finite : forall e, good_variances e = finite_of (filter vpos (pixels (e_var e))).
Proof.
  intros e. unfold good_variances. induction (pixels (e_var e)) as [|[q|] l IH]; cbn; [reflexivity| |exact IH].
  destruct (Qle_bool q 0); cbn; now rewrite IH.
Qed.
Lemma good_variances_pos : forall e q, In q (good_variances e) -> (0 < q)%Q.
Proof.
  intros e q H. unfold good_variances in H. apply in_flat_map in H. destruct H as ([v|] & _ & I); [|contradiction].
  destruct (Qle_bool v 0) eqn:E; [contradiction|]. destruct I as [<-|[]]. now apply Qle_bool_false.
Qed.

Lemma vpos_good : forall e i j, vpos (px (e_var e) i j) = true <-> good e i j.
Proof.
  intros e i j. unfold good, vpos. destruct (px (e_var e) i j) as [q|]; [|tauto]. rewrite negb_true_iff. split.
  - apply Qle_bool_false.
  - apply Qle_bool_false.
Qed.
Lemma goodw_vpos : forall i j e w, goodw i j (e, w) = if vpos (px (e_var e) i j) then w else 0%Q.
Proof.
  intros i j e w. unfold goodw, vpos. cbn [fst snd]. destruct (px (e_var e) i j) as [q|]; [|reflexivity].
  destruct (Qlt_le_dec 0 q) as [L|L]; [apply Qle_bool_false in L|apply Qle_bool_iff in L]; now rewrite L.
Qed.
Lemma inverse_variance_vpos : forall e i j, inverse_variance e i j = goodw i j (e, vinv (px (e_var e) i j)).
Proof. intros e i j. unfold inverse_variance, goodw. cbn [fst snd]. destruct (px (e_var e) i j); reflexivity. Qed.

Lemma finite_perm : forall B (f : list evar), Permutation (map (fun v => match v with Some q => q | None => B end) f)
  (finite_of f ++ repeat B (List.length f - List.length (finite_of f))).
Proof.
  intro B. assert (L : forall f : list evar, (List.length (finite_of f) <= List.length f)%nat).
  { induction f as [|[q|] f IH]; unfold finite_of in *; cbn [flat_map app List.length]; lia. }
  induction f as [|[q|] f IH]; cbn [map finite_of flat_map app List.length]; [constructor| |]; fold (finite_of f).
  - cbn [Nat.sub]. now constructor.
  - specialize (L f). replace (S (List.length f) - List.length (finite_of f))%nat with (S (List.length f - List.length (finite_of f))) by lia.
    cbn [repeat]. rewrite IH. apply Permutation_middle.
Qed.
Lemma sorted_app : forall l r, StronglySorted Qle l -> StronglySorted Qle r -> (forall a b, In a l -> In b r -> (a <= b)%Q) -> StronglySorted Qle (l ++ r).
Proof.
  induction l as [|x l IH]; intros r Sl Sr H; cbn; [exact Sr|]. inversion Sl as [|x' l' S1 F1]; subst. constructor.
  - apply IH; [exact S1|exact Sr|]. intros a b Ia Ib. apply H; [now right|exact Ib].
  - apply Forall_app. split; [exact F1|]. apply Forall_forall. intros b Ib. apply H; [now left|exact Ib].
Qed.
Lemma sorted_repeat : forall B k, StronglySorted Qle (repeat B k).
Proof.
  intros B k. induction k as [|k IH]; cbn; constructor; [exact IH|]. apply Forall_forall. intros b I. apply repeat_spec in I. subst b. apply Qle_refl.
Qed.
Lemma ext_median_capped : forall f m B, ext_median f = Some (Some m) -> (forall q, In q (finite_of f) -> (q <= B)%Q) ->
  is_median m (map (fun v => match v with Some q => q | None => B end) f).
Proof.
  intros f m B H Hb. unfold ext_median in H. destruct (List.length f) as [|n] eqn:En; [discriminate|].
  destruct (nth_error (qsort (finite_of f)) (Nat.div2 (S n - 1))) as [a|] eqn:Ea; [|discriminate].
  destruct (nth_error (qsort (finite_of f)) (Nat.div2 (S n))) as [b|] eqn:Eb; [|discriminate].
  do 2 apply Some_inj in H. subst m.
  set (k := (List.length f - List.length (finite_of f))%nat).
  assert (P : Permutation (map (fun v => match v with Some q => q | None => B end) f) (qsort (finite_of f) ++ repeat B k)).
  { rewrite (finite_perm B f). fold k. apply Permutation_app; [apply qsort_perm|reflexivity]. }
  exists (qsort (finite_of f) ++ repeat B k)%list. split; [exact P|]. split; [|split].
  - apply sorted_app; [apply qsort_sorted|apply sorted_repeat|]. intros x y Ix Iy. apply repeat_spec in Iy. subst y. apply Hb.
    apply (Permutation_in _ (Permutation_sym (qsort_perm _))). exact Ix.
  - destruct f; [discriminate En|discriminate].
  - apply Permutation_length in P. rewrite map_length in P.
    assert (Ls : List.length (qsort (finite_of f) ++ repeat B k)%list = S n) by (rewrite <- P; exact En). rewrite Ls, <- !Nat.div2_div.
    assert (La := proj1 (nth_error_Some (qsort (finite_of f)) (Nat.div2 (S n - 1))) ltac:(congruence)).
    assert (Lb := proj1 (nth_error_Some (qsort (finite_of f)) (Nat.div2 (S n))) ltac:(congruence)).
    rewrite !app_nth1 by assumption. rewrite (nth_error_nth _ _ _ Ea), (nth_error_nth _ _ _ Eb). reflexivity.
Qed.
Lemma positive_variances_map : forall B e, positive_variances B e =
  map (fun v => match v with Some q => q | None => B end) (filter vpos (pixels (e_var e))).
Proof.
  intros B e. unfold positive_variances. induction (pixels (e_var e)) as [|[q|] l IH]; cbn; [reflexivity| |]; [|now rewrite IH].
  destruct (Qle_bool q 0); cbn; now rewrite IH.
Qed.

(** ** Weights that are all zero *)
Lemma finite_of_good : forall l, List.length (finite_of (filter vpos l)) =
  List.length (filter finite_positive l).
Proof.
  unfold finite_of. induction l as [|[q|] l IH]; cbn; [reflexivity| |].
  - destruct (Qle_bool q 0); cbn; [assumption|]. now rewrite IH.
  - assumption.
Qed.
Lemma filter_vpos_length : forall l, List.length (filter vpos l) =
  (List.length (filter finite_positive l) +
   List.length (filter infinite l))%nat.
Proof.
  induction l as [|[q|] l IH]; cbn; [reflexivity| |].
  - destruct (Qle_bool q 0); cbn; [assumption|]. now rewrite IH.
  - rewrite IH. lia.
Qed.
Lemma finite_of_pos : forall l q, In q (finite_of (filter vpos l)) -> (0 < q)%Q.
Proof.
  intros l q I. unfold finite_of in I. apply in_flat_map in I. destruct I as ([v|] & I & J); cbn in J; [|contradiction].
  destruct J as [->|[]]. apply filter_In in I. destruct I as [_ V]. cbn in V.
  destruct (Qle_bool q 0) eqn:E; [discriminate|]. now apply Qle_bool_false.
Qed.

Definition const_weight (l : list evar) : Q := match ext_median (filter vpos l) with None => 0%Q | Some m => vinv m end.
Lemma const_weight_zero : forall l, (const_weight l <= 0)%Q <-> unusable l.
Proof.
  intro l. unfold const_weight, unusable, ext_median. set (f := filter vpos l).
  pose proof (filter_vpos_length l) as LN. fold f in LN. rewrite <- finite_of_good in LN |- *. fold f in LN |- *.
  pose proof (qsort_length (finite_of f)) as LS.
  destruct (List.length f) as [|n] eqn:En.
  - split; [intros _; lia|intros _; discriminate].
  - destruct (nth_error (qsort (finite_of f)) (Nat.div2 (S n - 1))) as [a|] eqn:Ea;
    [destruct (nth_error (qsort (finite_of f)) (Nat.div2 (S n))) as [b|] eqn:Eb|].
    + assert (B : (Nat.div2 (S n) < List.length (finite_of f))%nat) by (rewrite <- LS; apply nth_error_Some; congruence).
      rewrite Nat.div2_div in B.
      assert (Pa : (0 < a)%Q) by (apply (finite_of_pos l); apply (Permutation_in _ (Permutation_sym (qsort_perm _))); eapply nth_error_In; exact Ea).
      assert (Pb : (0 < b)%Q) by (apply (finite_of_pos l); apply (Permutation_in _ (Permutation_sym (qsort_perm _))); eapply nth_error_In; exact Eb).
      cbn [vinv]. split.
      * intro H. exfalso. apply (Qle_not_lt _ _ H). unfold Qdiv. rewrite Qmult_1_l. apply Qinv_lt_0_compat.
        apply Qlt_shift_div_l; [reflexivity|]. rewrite Qmult_0_l. setoid_replace 0%Q with (0 + 0)%Q by ring. now apply Qplus_lt_le_compat; [|apply Qlt_le_weak].
      * intro H. exfalso. pose proof (Nat.div_mod (S n) 2). pose proof (Nat.mod_upper_bound (S n) 2). lia.
    + assert (B : ~ (Nat.div2 (S n) < List.length (finite_of f))%nat) by (rewrite <- LS; intro H; apply nth_error_Some in H; congruence).
      rewrite Nat.div2_div in B. cbn [vinv]. split; [|intros _; discriminate]. intros _.
      pose proof (Nat.div_mod (S n) 2). pose proof (Nat.mod_upper_bound (S n) 2). lia.
    + assert (B : ~ (Nat.div2 (S n - 1) < List.length (finite_of f))%nat) by (rewrite <- LS; intro H; apply nth_error_Some in H; congruence).
      rewrite Nat.div2_div in B. cbn [vinv]. split; [|intros _; discriminate]. intros _.
      pose proof (Nat.div_mod (S n - 1) 2). pose proof (Nat.mod_upper_bound (S n - 1) 2). lia.
Qed.


Lemma pixels_in : forall A (im : img A) x, In x (pixels im) -> exists i j, inside im i j /\ px im i j = x.
Proof.
  intros A im x H. unfold pixels in H. apply in_map_iff in H. destruct H as ([i j] & <- & I). apply in_coords in I.
  exists i, j. split; [exact I|reflexivity].
Qed.
Lemma pixels_at : forall A (im : img A) i j, inside im i j -> In (px im i j) (pixels im).
Proof. intros A im i j H. unfold pixels. apply in_map_iff. exists (i, j). split; [reflexivity|]. now apply in_coords. Qed.
Lemma some_good_nil : forall e, some_good e <-> filter vpos (pixels (e_var e)) <> [].
Proof.
  intro e. split.
  - intros (i & j & I & G) E. apply vpos_good in G. assert (X : In (px (e_var e) i j) (filter vpos (pixels (e_var e)))).
    { apply filter_In. split; [now apply pixels_at|exact G]. }
    rewrite E in X. destruct X.
  - intro N. destruct (filter vpos (pixels (e_var e))) as [|v l] eqn:E; [contradiction|].
    assert (X : In v (filter vpos (pixels (e_var e)))) by (rewrite E; now left). apply filter_In in X. destruct X as [X V].
    apply pixels_in in X. destruct X as (i & j & I & <-). exists i, j. split; [exact I|]. now apply vpos_good.
Qed.
Lemma band_weight_some : forall e, band_weight e = None <-> ~ some_good e.
Proof.
  intro e. rewrite some_good_nil. unfold band_weight, ext_median. destruct (filter vpos (pixels (e_var e))) as [|v l]; cbn [List.length].
  - split; [intros _ H; now apply H|reflexivity].
  - split; [destruct (nth_error _ _); [destruct (nth_error _ _)|]; discriminate|]. intro H. exfalso. apply H. discriminate.
Qed.
Lemma band_weight_const : forall e w, band_weight e = Some w -> w = const_weight (pixels (e_var e)).
Proof. intros e w H. unfold band_weight in H. unfold const_weight. destruct (ext_median _); [|discriminate]. now apply Some_inj in H. Qed.
Lemma const_weight_spec : forall e, inverse_median_variance e (const_weight (pixels (e_var e))) /\ (0 <= const_weight (pixels (e_var e)))%Q /\
  ((0 < const_weight (pixels (e_var e)))%Q <-> ~ unusable (pixels (e_var e))).
Proof.
  intro e. set (l := pixels (e_var e)).
  assert (Z := const_weight_zero l).
  assert (Pos : forall m, ext_median (filter vpos l) = Some (Some m) -> (0 < m)%Q).
  { intros m H. unfold ext_median in H. destruct (List.length (filter vpos l)); [discriminate|].
    destruct (nth_error (qsort _) (Nat.div2 (S n - 1))) as [a|] eqn:Ea; [|discriminate].
    destruct (nth_error (qsort _) (Nat.div2 (S n))) as [b|] eqn:Eb; [|discriminate]. do 2 apply Some_inj in H. subst m.
    assert (Pa : (0 < a)%Q) by (apply (finite_of_pos l); apply (Permutation_in _ (Permutation_sym (qsort_perm _))); eapply nth_error_In; exact Ea).
    assert (Pb : (0 < b)%Q) by (apply (finite_of_pos l); apply (Permutation_in _ (Permutation_sym (qsort_perm _))); eapply nth_error_In; exact Eb).
    apply Qlt_shift_div_l; [reflexivity|]. rewrite Qmult_0_l. setoid_replace 0%Q with (0 + 0)%Q by ring. now apply Qplus_lt_le_compat; [|apply Qlt_le_weak]. }
  assert (NN : (0 <= const_weight l)%Q).
  { unfold const_weight. destruct (ext_median (filter vpos l)) as [[m|]|] eqn:E; cbn [vinv]; try apply Qle_refl.
    apply Qlt_le_weak, inv_pos. now apply Pos. }
  assert (LT : (0 < const_weight l)%Q <-> ~ unusable l).
  { rewrite <- Z. split; [intros A B; apply (Qlt_irrefl 0); eapply Qlt_le_trans; eassumption|]. intro A. destruct (Qlt_le_dec 0 (const_weight l)); [assumption|contradiction]. }
  split; [|split; [exact NN|exact LT]]. split.
  - intro U. apply Z in U. now apply Qle_antisym.
  - intro U. assert (G := proj2 LT U). unfold const_weight in *. destruct (ext_median (filter vpos l)) as [[m|]|] eqn:E; cbn [vinv] in *.
    + exists m. split; [now apply Pos|]. split; [reflexivity|]. intros B HB. rewrite positive_variances_map. apply ext_median_capped; [exact E|].
      intros q I. apply HB. rewrite good_variances_finite. exact I.
    + now apply Qlt_irrefl in G.
    + now apply Qlt_irrefl in G.
Qed.
Lemma bw_spec : forall e, some_good e -> band_weight e = Some (bw e) /\ inverse_median_variance e (bw e) /\ (0 <= bw e)%Q /\ ((0 < bw e)%Q <-> ~ unusable (pixels (e_var e))).
Proof.
  intros e G. assert (N : band_weight e <> None) by (rewrite band_weight_some; tauto). unfold bw. destruct (band_weight e) as [w|] eqn:E; [|contradiction].
  split; [reflexivity|]. rewrite (band_weight_const e w E). apply const_weight_spec.
Qed.

(** ** C55 *)
Lemma sum_image_px : forall es r c i j,
  (px (sum_image es r c) i j == qsum (map (fun e => goodw i j (e, bw e) * px (e_image e) i j) es))%Q.
Proof.
  intros es r c i j. unfold sum_image.
  assert (G : forall acc, (px (fold_left (fun acc e => mkImg r c (fun i j => if vpos (px (e_var e) i j) then (px acc i j + px (e_image e) i j * bw e)%Q else px acc i j)) es acc) i j
     == px acc i j + qsum (map (fun e => goodw i j (e, bw e) * px (e_image e) i j) es))%Q).
  { induction es as [|e es IH]; intros acc; cbn [fold_left map qsum fold_right]; [ring|]. rewrite IH. cbn [px].
    rewrite goodw_vpos. destruct (vpos _); fold (qsum (map (fun e0 => goodw i j (e0, bw e0) * px (e_image e0) i j)%Q es)); ring. }
  rewrite G. cbn. ring.
Qed.
Lemma sum_image_size : forall es r c, nr (sum_image es r c) = r /\ nc (sum_image es r c) = c.
Proof.
  intros es r c. unfold sum_image.
  assert (G : forall acc, nr acc = r /\ nc acc = c -> let im := fold_left (fun acc e => mkImg r c (fun i j => if vpos (px (e_var e) i j) then (px acc i j + px (e_image e) i j * bw e)%Q else px acc i j)) es acc in nr im = r /\ nc im = c).
  { induction es as [|e es IH]; intros acc A; cbn; [auto|]. apply IH. auto. }
  apply G. auto.
Qed.
Lemma sum_weight_px : forall es r c i j,
  (px (sum_weight es r c) i j == qsum (map (fun e => goodw i j (e, vinv (px (e_var e) i j))) es))%Q.
Proof.
  intros es r c i j. unfold sum_weight.
  assert (G : forall acc, (px (fold_left (fun acc e => mkImg r c (fun i j => if vpos (px (e_var e) i j) then (px acc i j + vinv (px (e_var e) i j))%Q else px acc i j)) es acc) i j
     == px acc i j + qsum (map (fun e => goodw i j (e, vinv (px (e_var e) i j))) es))%Q).
  { induction es as [|e es IH]; intros acc; cbn [fold_left map qsum fold_right]; [ring|]. rewrite IH. cbn [px].
    rewrite goodw_vpos. destruct (vpos _); fold (qsum (map (fun e0 => goodw i j (e0, vinv (px (e_var e0) i j))) es)); ring. }
  rewrite G. cbn. ring.
Qed.
Lemma or_masks_px : forall es m i j b, Z.testbit (px (or_masks es m) i j) b =
  Z.testbit (px m i j) b || existsb (fun e => Z.testbit (px (e_mask e) i j) b) es.
Proof.
  unfold or_masks. induction es as [|e es IH]; intros m i j b; cbn [fold_left existsb]; [now rewrite orb_false_r|].
  rewrite IH. unfold imap2. cbn [px]. rewrite Z.lor_spec. now rewrite orb_assoc.
Qed.

Lemma Forall2_weaken : forall A B (P Q : A -> B -> Prop) l m, (forall a b, P a b -> Q a b) -> Forall2 P l m -> Forall2 Q l m.
Proof. intros A B P Q l m H F. induction F; constructor; auto. Qed.
Lemma omap_all_ok : forall A B (f : A -> outcome B) l, (forall a, In a l -> exists b, f a = Ok b) -> exists r, omap f l = Ok r.
Proof.
  induction l as [|a l IH]; intros H; cbn; [eauto|]. destruct (H a (or_introl eq_refl)) as [b ->]. cbn.
  destruct IH as [r ->]; [intros; apply H; now right|]. cbn. eauto.
Qed.

Lemma qsum_pos_one : forall l, (forall x, In x l -> (0 <= x)%Q) -> (exists x, In x l /\ (0 < x)%Q) -> (0 < qsum l)%Q.
Proof.
  induction l as [|a l IH]; intros N (x & I & P); [destruct I|]. change (qsum (a :: l)) with (a + qsum l)%Q.
  assert (Na := N a (or_introl eq_refl)). assert (Nl : forall y, In y l -> (0 <= y)%Q) by (intros; apply N; now right).
  assert (NS : (0 <= qsum l)%Q) by (apply qsum_nonneg; exact Nl).
  setoid_replace 0%Q with (0 + 0)%Q by ring. destruct I as [<-|I].
  - now apply Qplus_lt_le_compat.
  - rewrite (Qplus_comm a). apply Qplus_lt_le_compat; [|exact Na]. apply IH; eauto.
Qed.
Lemma usable_sum : forall es, usable es -> (0 < qsum (map bw es))%Q.
Proof.
  intros es [G (e & I & U)]. apply qsum_pos_one.
  - intros x J. apply in_map_iff in J. destruct J as (e' & <- & J). apply (bw_spec e' (G e' J)).
  - exists (bw e). split; [now apply in_map|]. now apply (bw_spec e (G e I)).
Qed.

(** What coadd_exposures returns for compatible exposures that all have a
    positive variance somewhere. *)
Lemma coadd_ok : forall es, es <> [] -> compatible es ->
  usable es ->
  exists co psfs, coadd_exposures es = Ok (Some co) /\ Forall2 (fun e p => psf_at_center e = Ok p) es psfs /\
    (forall i j, px (c_image co) i j = Some (px (sum_image es (nr (c_image co)) (nc (c_image co))) i j * (1 / qsum (map bw es)))%Q) /\
    (forall e, In e es -> nr (c_image co) = nr (e_image e) /\ nc (c_image co) = nc (e_image e)) /\
    (forall i j, px (c_var co) i j = let w := px (sum_weight es (nr (c_image co)) (nc (c_image co))) i j in
       if negb (Qle_bool w 0) then Some (1 / w)%Q else None) /\
    (forall i j b, Z.testbit (px (c_mask co) i j) b = existsb (fun e => Z.testbit (px (e_mask e) i j) b) es) /\
    (0 < qsum (map bw es))%Q.
Proof.
  intros es N (r & c & p & CO) G. destruct es as [|e0 es']; [contradiction|]. set (es := e0 :: es') in *.
  unfold coadd_exposures. fold es. cbn [fst]. destruct (CO e0 (or_introl eq_refl)) as (R0 & C0 & d0 & D0 & P0).
  change (match es with [] => Ok None | e :: _ => _ end) with
    (do p0 <- psf_at_center e0;
    do psfs <- omap (fun e => do p <- psf_at_center e;
                              if same_size (e_image e) (e_image e0) && same_size p p0 then Ok p else Raise ValueError) es;
    let isnan := existsb (fun e => match band_weight e with None => true | _ => false end) es in
    let wsum := qsum (map bw es) in
    if negb isnan && Qle_bool wsum 0 then Ok None
    else
      let num {A B} (im : img A) (f : A -> B) : img (option B) := imap (fun v => if isnan then None else Some (f v)) im in
      let sw := sum_weight es (nr (e_image e0)) (nc (e_image e0)) in
      Ok (Some (mkCo
        (num (sum_image es (nr (e_image e0)) (nc (e_image e0))) (fun v => (v * (1 / wsum))%Q))
        (imap (fun w => if negb (Qle_bool w 0) then Some (1 / w)%Q else None) sw)
        (or_masks es (e_mask e0))
        (num (normalize (sum_psf (combine psfs (map bw es)) (nr p0) (nc p0))) (fun v => v))
        (e_wcs e0) (e_x0 e0) (e_y0 e0)))).
  assert (PS : exists p0, psf_at_center e0 = Ok p0 /\ nr p0 = p /\ nc p0 = p).
  { unfold psf_at_center. rewrite D0. cbn. eexists. split; [reflexivity|]. apply P0. }
  destruct PS as (p0 & E0 & PR & PC). rewrite E0. cbn [obind].
  match goal with |- context [omap ?f es] => destruct (omap_all_ok _ _ f es) as [psfs PSE] end.
  { intros e I. destruct (CO e I) as (R & C & d & D & PD). unfold psf_at_center. rewrite D. cbn [some_or_attr obind].
    unfold same_size. rewrite R, C, R0, C0, PR, PC. destruct (PD ((inject_Z c - 1) / 2)%Q ((inject_Z r - 1) / 2)%Q) as [-> ->].
    rewrite !Z.eqb_refl. cbn. eauto. }
  rewrite PSE. cbn [obind].
  assert (NN : existsb (fun e => match band_weight e with None => true | _ => false end) es = false).
  { apply not_true_iff_false. intros E. apply existsb_exists in E. destruct E as (e & I & E).
    destruct (bw_spec e (proj1 G e I)) as (W & _). rewrite W in E. discriminate. }
  rewrite NN. assert (WS : (0 < qsum (map bw es))%Q).
  { exact (usable_sum es G). }
  apply Qle_bool_false in WS as WS'. rewrite WS'. cbn [negb andb].
  eexists. exists psfs. split; [reflexivity|]. cbn [c_image c_var c_mask]. unfold imap. cbn [px nr nc].
  destruct (sum_image_size es (nr (e_image e0)) (nc (e_image e0))) as [SR SC]. rewrite SR, SC.
  split; [|split; [|split; [|split; [|split]]]].
  - apply omap_ok_Forall2 in PSE. revert PSE. apply Forall2_weaken. intros x y H.
    destruct (psf_at_center x) as [q|]; cbn in H; [|discriminate]. destruct (_ && _); [exact H|discriminate].
  - reflexivity.
  - intros e I. destruct (CO e I) as (R & C & _). lia.
  - reflexivity.
  - intros i j b. rewrite or_masks_px. cbn [existsb es]. now destruct (Z.testbit (px (e_mask e0) i j) b).
  - exact WS.
Qed.

(** The weights, as a list with their specification. *)
Lemma weights_spec : forall es, usable es ->
  Forall2 inverse_median_variance es (map bw es) /\ (forall w, In w (map bw es) -> (0 <= w)%Q) /\ (0 < qsum (map bw es))%Q.
Proof.
  intros es U. split; [|split; [|now apply usable_sum]].
  - destruct U as [G _]. induction es as [|e es IH]; cbn; constructor.
    + apply (bw_spec e (G e (or_introl eq_refl))).
    + apply IH. intros; apply G; now right.
  - intros w I. apply in_map_iff in I. destruct I as (e & <- & I). apply (bw_spec e (proj1 U e I)).
Qed.
Lemma combine_map_bw : forall A (f : exposure * Q -> A) es, map f (combine es (map bw es)) = map (fun e => f (e, bw e)) es.
Proof. intros A f es. induction es as [|e es IH]; cbn; [reflexivity|]. now rewrite IH. Qed.

Lemma coadd_pixel : forall es, es <> [] -> compatible es ->
  usable es ->
  exists co ws, coadd_exposures es = Ok (Some co) /\
    Forall2 inverse_median_variance es ws /\ ((forall w, In w ws -> (0 <= w)%Q) /\ (0 < qsum ws)%Q) /\
    forall i j, exists v, px (c_image co) i j = Some v /\
      (v * qsum ws == qsum (map (fun ew => goodw i j ew * px (e_image (fst ew)) i j) (combine es ws)))%Q.
Proof.
  intros es N C G. destruct (coadd_ok es N C G) as (co & psfs & E & _ & IM & _ & _ & _ & WS). exists co, (map bw es).
  destruct (weights_spec es G) as [W1 W2]. split; [exact E|]. split; [exact W1|]. split; [exact W2|].
  intros i j. eexists. split; [apply IM|]. rewrite combine_map_bw. cbn [fst]. rewrite sum_image_px. field.
  intros Z. rewrite Z in WS. now apply Qlt_irrefl in WS.
Qed.

Lemma coadd_masks_var : forall es, es <> [] -> compatible es ->
  usable es ->
  exists co, coadd_exposures es = Ok (Some co) /\
    (forall i j b, Z.testbit (px (c_mask co) i j) b = true <-> exists e, In e es /\ Z.testbit (px (e_mask e) i j) b = true) /\
    (forall i j, let ivar := qsum (map (fun e => inverse_variance e i j) es) in
       ((0 < ivar)%Q -> exists v, px (c_var co) i j = Some v /\ (v * ivar == 1)%Q) /\
       ((ivar <= 0)%Q -> px (c_var co) i j = None)).
Proof.
  intros es N C G. destruct (coadd_ok es N C G) as (co & psfs & E & _ & _ & _ & V & M & _). exists co. split; [exact E|]. split.
  - intros i j b. rewrite M. apply existsb_exists.
  - intros i j ivar. rewrite V. cbv zeta. pose proof (sum_weight_px es (nr (c_image co)) (nc (c_image co)) i j) as S.
    rewrite (map_ext _ (fun e => inverse_variance e i j)) in S by (intro; now rewrite inverse_variance_vpos). fold ivar in S.
    split; intros H.
    + assert (H' : (0 < px (sum_weight es (nr (c_image co)) (nc (c_image co))) i j)%Q) by (rewrite S; exact H).
      apply Qle_bool_false in H' as H2. rewrite H2. cbn [negb]. eexists. split; [reflexivity|]. rewrite <- S. field.
      intros Z. rewrite Z in H'. now apply Qlt_irrefl in H'.
    + rewrite <- S in H. apply Qle_bool_iff in H. now rewrite H.
Qed.

(** All bands good at a pixel: the weighted mean. *)
Lemma coadd_all_good : forall es, es <> [] -> compatible es ->
  usable es ->
  exists co ws, coadd_exposures es = Ok (Some co) /\ Forall2 inverse_median_variance es ws /\
    forall i j, (forall e, In e es -> good e i j) ->
      exists v, px (c_image co) i j = Some v /\
        (v == qsum (map (fun ew => snd ew * px (e_image (fst ew)) i j) (combine es ws)) / qsum ws)%Q /\
        forall lo hi, (forall e, In e es -> lo <= px (e_image e) i j <= hi)%Q -> (lo <= v <= hi)%Q.
Proof.
  intros es N C G. destruct (coadd_pixel es N C G) as (co & ws & E & W1 & [W2 WS] & P). exists co, ws. split; [exact E|]. split; [exact W1|].
  intros i j GD. destruct (P i j) as (v & V & EQ). exists v. split; [exact V|].
  assert (L : List.length ws = List.length es) by (clear -W1; induction W1; cbn; congruence).
  assert (NZ : ~ (qsum ws == 0)%Q) by (intros Z; rewrite Z in WS; now apply Qlt_irrefl in WS).
  assert (EQ2 : (v * qsum ws == qsum (map (fun ew => snd ew * px (e_image (fst ew)) i j) (combine es ws)))%Q).
  { rewrite EQ. apply qsum_map_ext. intros [e w] I. cbn [fst snd]. pose proof (in_combine_l _ _ _ _ I) as I1.
    rewrite goodw_vpos, (proj2 (vpos_good e i j) (GD e I1)). reflexivity. }
  assert (SW : (qsum ws == qsum (map snd (combine es ws)))%Q).
  { clear -L. revert es L. induction ws as [|w ws IH]; intros [|e es] L; cbn; try reflexivity; try discriminate.
    fold (qsum ws). fold (qsum (map snd (combine es ws))). apply Qplus_comp; [reflexivity|]. apply IH. cbn in L. lia. }
  split.
  - rewrite <- EQ2. field. exact NZ.
  - intros lo hi B.
    assert (BL : (lo * qsum ws <= v * qsum ws)%Q).
    { rewrite EQ2, SW, <- qsum_map_mult. apply qsum_map_le. intros [e w] I. cbn [fst snd]. pose proof (in_combine_l _ _ _ _ I) as I1.
      pose proof (W2 w (in_combine_r _ _ _ _ I)) as WP. rewrite Qmult_comm. rewrite (Qmult_comm w lo), (Qmult_comm w). 
      apply Qmult_le_compat_r; [apply (B e I1)|exact WP]. }
    assert (BH : (v * qsum ws <= hi * qsum ws)%Q).
    { rewrite EQ2, SW, <- qsum_map_mult. apply qsum_map_le. intros [e w] I. cbn [fst snd]. pose proof (in_combine_l _ _ _ _ I) as I1.
      pose proof (W2 w (in_combine_r _ _ _ _ I)) as WP. rewrite (Qmult_comm w).
      apply Qmult_le_compat_r; [apply (B e I1)|exact WP]. }
    split; eapply Qmult_lt_0_le_reg_r; eauto.
Qed.

Lemma coadd_none : forall es, compatible es -> (coadd_exposures es = Ok None <-> es = [] \/ forall e, In e es -> some_good e /\ unusable (pixels (e_var e))).
Proof.
  intros es C. destruct es as [|e0 es']; [cbn; tauto|]. set (es := e0 :: es') in *.
  assert (D : forall e, {some_good e} + {~ some_good e}).
  { intro e. destruct (filter vpos (pixels (e_var e))) as [|v l] eqn:E.
    - right. rewrite some_good_nil, E. congruence.
    - left. rewrite some_good_nil, E. discriminate. }
  assert (NN : existsb (fun e => match band_weight e with None => true | _ => false end) es = false <-> forall e, In e es -> some_good e).
  { rewrite <- not_true_iff_false, existsb_exists. split.
    - intros H e I. destruct (D e) as [G|G]; [exact G|]. exfalso. apply H. exists e. split; [exact I|]. apply band_weight_some in G. now rewrite G.
    - intros H (e & I & E). destruct (bw_spec e (H e I)) as (W & _). rewrite W in E. discriminate. }
  assert (WS : (forall e, In e es -> some_good e) -> ((qsum (map bw es) <= 0)%Q <-> forall e, In e es -> unusable (pixels (e_var e)))).
  { intro G. split.
    - intros H e I. destruct (bw_spec e (G e I)) as (_ & _ & _ & B). destruct (le_dec (List.length (filter finite_positive (pixels (e_var e)))) (List.length (filter infinite (pixels (e_var e))))) as [U|U]; [exact U|].
      exfalso. assert (P : (0 < qsum (map bw es))%Q) by (apply usable_sum; split; [exact G|eauto]).
      apply (Qlt_irrefl 0). eapply Qlt_le_trans; eassumption.
    - intros H. assert (Z : forall l, (forall e, In e l -> some_good e /\ unusable (pixels (e_var e))) -> (qsum (map bw l) == 0)%Q).
      { induction l as [|e l IH]; intro K; [reflexivity|]. change (qsum (map bw (e :: l))) with (bw e + qsum (map bw l))%Q.
        rewrite IH by (intros; apply K; now right). destruct (K e (or_introl eq_refl)) as [G1 U]. destruct (bw_spec e G1) as (_ & (Z & _) & _).
        rewrite (Z U). ring. }
      rewrite Z by auto. apply Qle_refl. }
  destruct C as (r & c & p & CO). destruct (CO e0 (or_introl eq_refl)) as (R0 & C0 & d0 & D0 & P0).
  unfold coadd_exposures. unfold es at 1.
  assert (PS : exists p0, psf_at_center e0 = Ok p0 /\ nr p0 = p /\ nc p0 = p).
  { unfold psf_at_center. rewrite D0. cbn. eexists. split; [reflexivity|]. apply P0. }
  destruct PS as (p0 & E0 & PR & PC). rewrite E0. cbn [obind].
  match goal with |- context [omap ?f es] => destruct (omap_all_ok _ _ f es) as [psfs PSE] end.
  { intros e I. destruct (CO e I) as (R & C & d & D' & PD). unfold psf_at_center. rewrite D'. cbn [some_or_attr obind].
    unfold same_size. rewrite R, C, R0, C0, PR, PC. destruct (PD ((inject_Z c - 1) / 2)%Q ((inject_Z r - 1) / 2)%Q) as [-> ->].
    rewrite !Z.eqb_refl. cbn. eauto. }
  rewrite PSE. cbn [obind]. destruct (existsb _ es) eqn:X; cbn [negb andb].
  - split; [discriminate|]. intros [H|H]; [discriminate|]. assert (Y := proj2 NN (fun e I => proj1 (H e I))). discriminate.
  - assert (G := proj1 NN eq_refl). destruct (Qle_bool (qsum (map bw es)) 0) eqn:Q.
    + split; [intros _; right; intros e I; split; [now apply G|]; apply Qle_bool_iff in Q; exact (proj1 (WS G) Q e I)|reflexivity].
    + split; [discriminate|]. intros [H|H]; [discriminate|]. assert (Y := proj2 (WS G) (fun e I => proj2 (H e I))).
      apply Qle_bool_iff in Y. congruence.
Qed.
Lemma coadd_nan : forall es e, compatible es -> In e es -> ~ some_good e ->
  exists co, coadd_exposures es = Ok (Some co) /\ forall i j, px (c_image co) i j = None /\ px (c_psf co) i j = None.
Proof.
  intros es eb (r & c & p & CO) Ib NG. destruct es as [|e0 es']; [destruct Ib|]. set (es := e0 :: es') in *.
  destruct (CO e0 (or_introl eq_refl)) as (R0 & C0 & d0 & D0 & P0). unfold coadd_exposures. unfold es at 1.
  assert (PS : exists p0, psf_at_center e0 = Ok p0 /\ nr p0 = p /\ nc p0 = p).
  { unfold psf_at_center. rewrite D0. cbn. eexists. split; [reflexivity|]. apply P0. }
  destruct PS as (p0 & E0 & PR & PC). rewrite E0. cbn [obind].
  match goal with |- context [omap ?f es] => destruct (omap_all_ok _ _ f es) as [psfs PSE] end.
  { intros e I. destruct (CO e I) as (R & C & d & D' & PD). unfold psf_at_center. rewrite D'. cbn [some_or_attr obind].
    unfold same_size. rewrite R, C, R0, C0, PR, PC. destruct (PD ((inject_Z c - 1) / 2)%Q ((inject_Z r - 1) / 2)%Q) as [-> ->].
    rewrite !Z.eqb_refl. cbn. eauto. }
  rewrite PSE. cbn [obind].
  assert (X : existsb (fun e => match band_weight e with None => true | _ => false end) es = true).
  { apply existsb_exists. exists eb. split; [exact Ib|]. apply band_weight_some in NG. now rewrite NG. }
  rewrite X. cbn [negb andb]. eexists. split; [reflexivity|]. intros i j. split; reflexivity.
Qed.

(** Constant variances. *)
Lemma median_constant : forall e v m, (forall q, In q (good_variances e) -> (q == v)%Q) -> good_variances e <> [] ->
  qmedian (good_variances e) = Some m -> (m == v)%Q.
Proof.
  intros e v m A N Q. destruct (qmedian_bounds (good_variances e) m v v) as [L U]; auto.
  - intros x I. rewrite (A x I). split; apply Qle_refl.
  - apply Qle_antisym; assumption.
Qed.
Lemma bw_constant : forall e v, some_good e -> (forall x, In x (pixels (e_var e)) -> x = Some v) -> (0 < v)%Q -> (bw e == 1 / v)%Q.
Proof.
  intros e v G A P. destruct (bw_spec e G) as (_ & (_ & S) & _).
  assert (F : good_variances e = map (fun _ => v) (pixels (e_var e))).
  { unfold good_variances. apply Qle_bool_false in P. revert A. generalize (pixels (e_var e)). induction l as [|x l IH]; intro A; [reflexivity|].
    cbn [flat_map map]. rewrite (A x (or_introl eq_refl)), P. cbn [app]. f_equal. apply IH. intros; apply A; now right. }
  destruct S as (m & Pm & -> & Md).
  - unfold unusable. destruct G as (i & j & I & _). assert (I' := pixels_at _ _ _ _ I). revert A I'. generalize (pixels (e_var e)). intros l A I'.
    assert (E1 : filter infinite l = []).
    { destruct (filter infinite l) as [|y r] eqn:E; [reflexivity|]. assert (Y : In y (filter infinite l)) by (rewrite E; now left).
      apply filter_In in Y. destruct Y as [Y1 Y2]. rewrite (A y Y1) in Y2. discriminate. }
    assert (E2 : In (px (e_var e) i j) (filter finite_positive l)).
    { apply filter_In. split; [exact I'|]. rewrite (A _ I'). cbn. apply Qle_bool_false in P. now rewrite P. }
    rewrite E1. cbn [List.length]. destruct (filter finite_positive l); [destruct E2|cbn [List.length]; lia].
  - assert (Md' : is_median m (map (fun _ => v) (pixels (e_var e)))).
    { specialize (Md v). rewrite F in Md. unfold positive_variances in Md.
      replace (flat_map _ (pixels (e_var e))) with (map (fun _ : evar => v) (pixels (e_var e))) in Md.
      - apply Md. intros q I. apply in_map_iff in I. destruct I as (_ & <- & _). apply Qle_refl.
      - apply Qle_bool_false in P. revert A. generalize (pixels (e_var e)). induction l as [|x l IH]; intro A; [reflexivity|].
        cbn [flat_map map]. rewrite (A x (or_introl eq_refl)), P. cbn [app]. f_equal. apply IH. intros; apply A; now right. }
    destruct Md' as (s & Ps & _ & N & Em).
    assert (Each : forall k, (k < List.length s)%nat -> nth k s 0%Q = v).
    { intros k Hk. assert (I : In (nth k s 0%Q) s) by now apply nth_In. apply (Permutation_in _ (Permutation_sym Ps)) in I.
      apply in_map_iff in I. destruct I as (_ & <- & _). reflexivity. }
    assert (Ls : (0 < List.length s)%nat) by (apply Permutation_length in Ps; destruct (map _ _); [contradiction|cbn in Ps; lia]).
    rewrite !Each in Em.
    + rewrite Em. setoid_replace ((v + v) / 2)%Q with v by field. reflexivity.
    + apply Nat.div_lt; lia.
    + apply Nat.div_lt_upper_bound; lia.
Qed.
Lemma constant_good : forall e v, constant_variance e v -> (forall x, In x (pixels (e_var e)) -> x = Some v) /\
  ((exists i j, inside (e_var e) i j) -> some_good e /\ ~ unusable (pixels (e_var e))).
Proof.
  intros e v [P C]. assert (A : forall x, In x (pixels (e_var e)) -> x = Some v).
  { intros x I. apply pixels_in in I. destruct I as (i & j & IN & <-). now apply C. }
  split; [exact A|]. intros (i & j & IN). assert (G : some_good e) by (exists i, j; split; [exact IN|]; unfold good; now rewrite (C i j IN)).
  split; [exact G|]. apply (bw_spec e G). rewrite (bw_constant e v G A P). now apply inv_pos.
Qed.

Lemma coadd_constant : forall es r c, es <> [] -> compatible es -> 0 < r -> 0 < c ->
  (forall e, In e es -> nr (e_var e) = r /\ nc (e_var e) = c /\ exists v, constant_variance e v) ->
  exists co ws, coadd_exposures es = Ok (Some co) /\ Forall2 inverse_median_variance es ws /\
    forall i j, 0 <= i < r -> 0 <= j < c -> exists v, px (c_var co) i j = Some v /\
      (v * (qsum ws * qsum ws) == qsum (map (fun ew => snd ew * snd ew * match px (e_var (fst ew)) i j with Some q => q | None => 0 end) (combine es ws)))%Q.
Proof.
  intros es r c N C R0 C0 K.
  assert (G0 : forall e, In e es -> some_good e /\ ~ unusable (pixels (e_var e))).
  { intros e I. destruct (K e I) as (R & Cc & v & CV). apply (constant_good e v CV). exists 0, 0. unfold inside. lia. }
  assert (G : usable es).
  { split; [intros e I; apply (G0 e I)|]. destruct es as [|e0 es']; [contradiction|]. exists e0. split; [now left|]. apply G0. now left. }
  destruct (coadd_masks_var es N C G) as (co & E & _ & V). exists co, (map bw es).
  destruct (weights_spec es G) as (W1 & W2 & WS). split; [exact E|]. split; [exact W1|]. intros i j Hi Hj. destruct (V i j) as [VP _].
  assert (BW : forall e, In e es -> exists v, (0 < v)%Q /\ px (e_var e) i j = Some v /\ (bw e == 1 / v)%Q).
  { intros e I. destruct (K e I) as (R & Cc & v & CV). destruct (constant_good e v CV) as (A & B). exists v.
    destruct CV as [P CV]. split; [exact P|]. split; [apply CV; unfold inside; lia|]. apply bw_constant; auto. apply (G0 e I). }
  set (ivar := qsum (map (fun e => inverse_variance e i j) es)) in VP.
  assert (IV : (ivar == qsum (map bw es))%Q).
  { unfold ivar. apply qsum_map_ext. intros e I. destruct (BW e I) as (v & P & X & W). rewrite W. unfold inverse_variance. rewrite X.
    destruct (Qlt_le_dec 0 v) as [_|L]; [reflexivity|]. exfalso. apply (Qlt_irrefl 0). eapply Qlt_le_trans; eassumption. }
  destruct VP as (v & V1 & V2); [rewrite IV; exact WS|]. exists v. split; [exact V1|]. rewrite combine_map_bw. cbn [fst snd].
  rewrite IV in V2. assert (S2 : (qsum (map (fun e => bw e * bw e * match px (e_var e) i j with Some q => q | None => 0 end) es) == qsum (map bw es))%Q).
  { apply qsum_map_ext. intros e I. destruct (BW e I) as (q & P & X & W). rewrite X, W. field. intros Z. rewrite Z in P. now apply Qlt_irrefl in P. }
  rewrite S2, Qmult_assoc, V2. ring.
Qed.

(** ** C69 *)
Lemma extract_obs_zero_iff : forall W e sky peak cen,
  extract_obs W e sky peak cen = Raise (OtherError 1) <-> unusable (pixels (e_var e)).
Proof.
  intros W e sky peak cen. rewrite <- const_weight_zero. unfold extract_obs.
  assert (A : forallb (fun w => Qle_bool w 0) (pixels (extract_weight e)) = true <-> (const_weight (pixels (e_var e)) <= 0)%Q).
  { rewrite forallb_forall. split.
    - intro H. destruct (pixels (e_var e)) as [|v l] eqn:E; [unfold const_weight; cbn; discriminate|].
      assert (I : In v (pixels (e_var e))) by (rewrite E; now left). apply pixels_in in I. destruct I as (i & j & IN & _).
      specialize (H (px (extract_weight e) i j)). cbn [extract_weight imap px] in H. rewrite <- E. unfold const_weight.
      apply Qle_bool_iff. apply H. apply (pixels_at Q (extract_weight e) i j). exact IN.
    - intros H x I. apply pixels_in in I. destruct I as (i & j & _ & <-). apply Qle_bool_iff. exact H. }
  destruct (forallb _ _) eqn:F.
  - split; [intros _; now apply A|reflexivity].
  - split; [|intro H; apply A in H; discriminate]. intro H. exfalso.
    destruct (match sky with Some p => _ | None => _ end) as [x y]. destruct (get_jacobian _ _ _ _) eqn:J; cbn [obind] in H.
    + destruct (some_or_attr (e_psf e)) as [d|ex] eqn:D; cbn [obind] in H; [destruct (negb _); discriminate|].
      unfold some_or_attr in D. destruct (e_psf e); [discriminate|]. congruence.
    + unfold get_jacobian in J. destruct (e_wcs e); cbn in J; [discriminate|]. congruence.
Qed.
Lemma extract_weight_px : forall W e sky peak cen o, extract_obs W e sky peak cen = Ok o ->
  exists w, inverse_median_variance e w /\ (0 < w)%Q /\ forall i j, px (o_weight o) i j = w.
Proof.
  intros W e sky peak cen o H. exists (const_weight (pixels (e_var e))). destruct (const_weight_spec e) as (S & _ & P). split; [exact S|].
  split.
  - apply P. intro U. apply (extract_obs_zero_iff W e sky peak cen) in U. congruence.
  - unfold extract_obs in H. destruct (forallb _ _); [discriminate|]. destruct (get_jacobian _ _ _ _); cbn [obind] in H; [|discriminate].
    destruct (some_or_attr _); cbn [obind] in H; [|discriminate]. destruct (negb _); [discriminate|]. apply Ok_inj in H. subst o. reflexivity.
Qed.

(** ** C70 *)
Lemma jacobian_area : forall W e x y j, get_jacobian W e x y = Ok j ->
  exists wcs, e_wcs e = Some wcs /\ let m := W wcs x y in
  (dudx j * dvdy j - dudy j * dvdx j == - (m00 m * m11 m - m01 m * m10 m))%Q /\
  (j_row j == y - inject_Z (e_y0 e))%Q /\ (j_col j == x - inject_Z (e_x0 e))%Q.
Proof.
  intros W e x y j H. unfold get_jacobian in H. destruct (e_wcs e) as [w|]; [|discriminate]. cbn [some_or_attr obind] in H.
  apply Ok_inj in H. subst j. exists w. cbn. repeat split; ring.
Qed.
Lemma integer_center_in : forall e, 0 < nr (e_image e) -> 0 < nc (e_image e) ->
  let '(x, y) := get_integer_center e in
  x - e_x0 e = nc (e_image e) / 2 /\ y - e_y0 e = nr (e_image e) / 2 /\
  e_x0 e <= x < e_x0 e + nc (e_image e) /\ e_y0 e <= y < e_y0 e + nr (e_image e).
Proof. intros e R C. unfold get_integer_center. Z.div_mod_to_equations. lia. Qed.

(** ** C71 *)
Lemma mset_same : forall h p f, nth_error (mset h p f) p = option_map f (nth_error h p).
Proof. induction h as [|x h IH]; intros [|p] f; cbn; auto. Qed.
Lemma mset_other : forall h p q f, p <> q -> nth_error (mset h p f) q = nth_error h q.
Proof. induction h as [|x h IH]; intros [|p] [|q] f N; cbn; auto; try congruence. Qed.
Lemma mset3_other : forall h e n f q, ~ In q [e; n; f] ->
  nth_error (mset (mset (mset h e zero_mask) n zero_mask) f zero_mask) q = nth_error h q.
Proof. intros h e n f q N. cbn in N. rewrite !mset_other by tauto. reflexivity. Qed.
Lemma zero_zero : forall m, zero_mask (zero_mask m) = zero_mask m.
Proof. reflexivity. Qed.
Lemma mset_zero_stays : forall h p q m, nth_error h q = Some (zero_mask m) -> nth_error (mset h p zero_mask) q = Some (zero_mask m).
Proof.
  intros h p q m H. destruct (Nat.eq_dec p q) as [->|N]; [rewrite mset_same, H; reflexivity|]. now rewrite mset_other.
Qed.
Lemma mset3_named : forall h e n f q m, In q [e; n; f] -> nth_error h q = Some m ->
  nth_error (mset (mset (mset h e zero_mask) n zero_mask) f zero_mask) q = Some (zero_mask m).
Proof.
  assert (S : forall h p q m, nth_error h q = Some m \/ nth_error h q = Some (zero_mask m) ->
     nth_error (mset h p zero_mask) q = Some m \/ nth_error (mset h p zero_mask) q = Some (zero_mask m)).
  { intros h p q m [H|H]; [|right; now apply mset_zero_stays]. destruct (Nat.eq_dec p q) as [->|N]; [right; now rewrite mset_same, H|left; now rewrite mset_other]. }
  assert (D : forall h q m, nth_error h q = Some m \/ nth_error h q = Some (zero_mask m) -> nth_error (mset h q zero_mask) q = Some (zero_mask m)).
  { intros h q m [H|H]; rewrite mset_same, H; reflexivity. }
  intros h e n f q m [<-|[<-|[<-|[]]]] H.
  - apply mset_zero_stays, mset_zero_stays, D. auto.
  - apply mset_zero_stays, D, S. auto.
  - apply D, S, S. auto.
Qed.
Lemma extract_masks_ok : forall bands h h' ms, extract_masks h bands = Ok (h', ms) ->
  (forall q, ~ In q (flat_map addresses bands) -> nth_error h' q = nth_error h q) /\
  (forall q m, In q (flat_map addresses bands) -> nth_error h q = Some m -> nth_error h' q = Some (zero_mask m)) /\
  (NoDup (flat_map addresses bands) -> Forall2 (fun b m => nth_error h (fst (fst b)) = Some m) bands ms).
Proof.
  induction bands as [|[[e n] f] bands IH]; intros h h' ms H; cbn [extract_masks] in H.
  - apply Ok_inj, pair_equal_spec in H. destruct H as [<- <-]. repeat split; auto; intros; contradiction.
  - destruct (nth_error h e) as [m0|] eqn:E; [|discriminate]. set (h1 := mset _ _ _) in H.
    destruct (extract_masks h1 bands) as [[h2 ms2]|] eqn:R; [|discriminate]. cbn [obind fst snd] in H.
    apply Ok_inj, pair_equal_spec in H. destruct H as [-> <-]. destruct (IH h1 h' ms2 R) as (A & B & C).
    cbn [flat_map addresses]. split; [|split].
    + intros q N. rewrite in_app_iff in N. rewrite A by tauto. apply mset3_other. tauto.
    + intros q m I Q. rewrite in_app_iff in I. destruct (in_dec Nat.eq_dec q (flat_map addresses bands)) as [J|J].
      * destruct (in_dec Nat.eq_dec q [e; n; f]) as [K|K].
        -- rewrite <- (zero_zero m). apply B; [exact J|]. now apply mset3_named.
        -- apply B; [exact J|]. unfold h1. rewrite mset3_other by exact K. exact Q.
      * rewrite A by exact J. apply mset3_named; [tauto|exact Q].
    + intros ND. assert (ND2 : NoDup (flat_map addresses bands)) by (do 3 (cbn in ND; inversion ND as [|? ? _ ND']; subst; clear ND; rename ND' into ND); exact ND).
      constructor; [exact E|]. specialize (C ND2).
      assert (DJ : forall b, In b bands -> ~ In (fst (fst b)) [e; n; f]).
      { intros [[e' n'] f'] I J. cbn [fst] in J.
        assert (I2 : In e' (flat_map addresses bands)) by (apply in_flat_map; exists (e', n', f'); split; [exact I|now left]).
        cbn in ND. inversion ND as [|? ? N1 ND1]; subst. inversion ND1 as [|? ? N2 ND3]; subst. inversion ND3 as [|? ? N3 _]; subst.
        destruct J as [<-|[<-|[<-|[]]]]; [apply N1; right; right; exact I2|apply N2; right; exact I2|apply N3; exact I2]. }
      clear -C DJ. induction C as [|b m bs ms Hb C IHC]; constructor.
      * rewrite <- Hb. symmetry. apply mset3_other. apply DJ. now left.
      * apply IHC. intros; apply DJ; now right.
Qed.

(** ** C72 *)
Lemma coadd_mbobs_px : forall os co, coadd_mbobs os = Ok co -> (forall o, In o os -> obs_weight o <> None) ->
  (forall w, In w (map obs_w os) -> (0 < w)%Q) /\
  forall i j, (exists v, px (co_image co) i j = Some v /\
       (v * qsum (map obs_w os) == qsum (map (fun o => obs_w o * px (o_image o) i j) os))%Q) /\
    (px (co_weight co) i j == qsum (map (fun o => px (o_weight o) i j) os))%Q.
Proof.
  intros os co H NN. destruct os as [|o0 os']; [discriminate|]. set (os := o0 :: os') in *.
  assert (WP : forall w, In w (map obs_w os) -> (0 < w)%Q).
  { intros w I. apply in_map_iff in I. destruct I as (o & <- & I). specialize (NN o I). unfold obs_w. destruct (obs_weight o) as [w|] eqn:E; [|contradiction].
    unfold obs_weight in E. apply qmedian_pos in E; [exact E|]. intros x X. apply filter_In in X. destruct X as [_ X]. apply Qle_bool_false. now destruct (Qle_bool x 0). }
  split; [exact WP|].
  assert (WS : (0 < qsum (map obs_w os))%Q) by (apply qsum_pos; [discriminate|exact WP]).
  unfold coadd_mbobs in H. unfold os in H. fold os in H. destruct (negb _); [discriminate|].
  assert (N : existsb (fun o => match obs_weight o with None => true | _ => false end) os = false).
  { apply not_true_iff_false. intros E. apply existsb_exists in E. destruct E as (o & I & E). specialize (NN o I). destruct (obs_weight o); [discriminate|contradiction]. }
  rewrite N in H. apply Ok_inj in H. subst co. intros i j. cbn [co_image co_weight]. split.
  - eexists. split; [reflexivity|].
    assert (G : forall l acc, (px (fold_left (fun acc o => imap2 (fun a v => (a + v * obs_w o)%Q) acc (o_image o)) l acc) i j
       == px acc i j + qsum (map (fun o => obs_w o * px (o_image o) i j) l))%Q).
    { induction l as [|o l IH]; intros acc; cbn [fold_left map qsum fold_right]; [ring|]. rewrite IH. unfold imap2. cbn [px].
      fold (qsum (map (fun o0 => obs_w o0 * px (o_image o0) i j)%Q l)). ring. }
    rewrite G. unfold ifill. cbn [px]. field. intros Z. rewrite Z in WS. now apply Qlt_irrefl in WS.
  - assert (G : forall l acc, (px (fold_left (fun acc o => imap2 Qplus acc (o_weight o)) l acc) i j
       == px acc i j + qsum (map (fun o => px (o_weight o) i j) l))%Q).
    { induction l as [|o l IH]; intros acc; cbn [fold_left map qsum fold_right]; [ring|]. rewrite IH. unfold imap2. cbn [px].
      fold (qsum (map (fun o0 => px (o_weight o0) i j) l)). ring. }
    rewrite G. unfold ifill. cbn [px]. ring.
Qed.

(** ** The psf of a coadd *)
Lemma sum_psf_px : forall ps r c i j,
  (px (sum_psf ps r c) i j == qsum (map (fun pw => snd pw * px (fst pw) i j) ps))%Q.
Proof.
  intros ps r c i j. unfold sum_psf.
  assert (G : forall l acc, (px (fold_left (fun acc p => imap2 (fun a v => (a + v * snd p)%Q) acc (fst p)) l acc) i j
     == px acc i j + qsum (map (fun pw => snd pw * px (fst pw) i j) l))%Q).
  { induction l as [|p l IH]; intros acc; cbn [fold_left map qsum fold_right]; [ring|]. rewrite IH. unfold imap2. cbn [px].
    fold (qsum (map (fun pw : img Q * Q => snd pw * px (fst pw) i j)%Q l)). ring. }
  rewrite G. unfold ifill. cbn [px]. ring.
Qed.
Lemma sum_psf_size : forall ps r c, nr (sum_psf ps r c) = r /\ nc (sum_psf ps r c) = c.
Proof.
  intros ps r c. unfold sum_psf.
  assert (G : forall l acc, nr (fold_left (fun acc p => imap2 (fun a v => (a + v * snd p)%Q) acc (fst p)) l acc) = nr acc /\
    nc (fold_left (fun acc p => imap2 (fun a v => (a + v * snd p)%Q) acc (fst p)) l acc) = nc acc).
  { induction l as [|p l IH]; intros acc; cbn [fold_left]; [auto|]. destruct (IH (imap2 (fun a v => (a + v * snd p)%Q) acc (fst p))) as [A B].
    rewrite A, B. split; reflexivity. }
  apply G.
Qed.
Lemma qsum_exchange : forall A B (f : A -> B -> Q) l m,
  (qsum (map (fun a => qsum (map (fun b => f a b) m)) l) == qsum (map (fun b => qsum (map (fun a => f a b) l)) m))%Q.
Proof.
  intros A B f l m. induction l as [|a l IH].
  - cbn [map]. assert (Z : (qsum (map (fun b : B => 0) m) == 0)%Q).
    { clear. induction m as [|b m IH]; [reflexivity|]. cbn [map qsum fold_right]. fold (qsum (map (fun b : B => 0%Q) m)). rewrite IH. reflexivity. }
    symmetry. exact Z.
  - cbn [map]. change (qsum (?x :: ?y)) with (x + qsum y)%Q. rewrite IH.
    rewrite <- (qsum_map_plus B (fun b => f a b) (fun b => qsum (map (fun a0 => f a0 b) l)) m). reflexivity.
Qed.
Lemma psf_coadd_ok : forall psfs ws r c,
  psfs <> [] -> List.length psfs = List.length ws -> (forall p, In p psfs -> nr p = r /\ nc p = c) ->
  ((forall w, In w ws -> (0 <= w)%Q) /\ (0 < qsum ws)%Q) -> psf_coadd psfs ws (imap (fun v => Some v) (normalize (sum_psf (combine psfs ws) r c))).
Proof.
  intros psfs ws r c NE L SZ [WN WS]. set (S := sum_psf (combine psfs ws) r c). destruct (sum_psf_size (combine psfs ws) r c) as [SR SC].
  fold S in SR, SC. exists (1 / qsum (pixels S))%Q, (normalize S). split; [reflexivity|]. split; [reflexivity|].
  split; [intros p I; unfold normalize, imap; cbn [nr nc]; rewrite SR, SC; now apply SZ|]. split.
  { intros i j. split; [reflexivity|]. unfold normalize, imap. cbn [px]. unfold weighted_psf. rewrite <- (sum_psf_px (combine psfs ws) r c i j).
    fold S. ring. }
  intros POS.
  assert (TP : (0 < qsum (pixels S))%Q).
  { unfold pixels. rewrite SR, SC.
    rewrite (qsum_map_ext _ _ (fun ij => qsum (map (fun pw : img Q * Q => snd pw * px (fst pw) (fst ij) (snd ij))%Q (combine psfs ws))) (coords r c))
      by (intros ij _; apply sum_psf_px).
    rewrite (qsum_exchange _ _ (fun (ij : Z * Z) (pw : img Q * Q) => snd pw * px (fst pw) (fst ij) (snd ij))%Q).
    assert (WP : exists p w, In (p, w) (combine psfs ws) /\ (0 < w)%Q).
    { clear -L WN WS. revert psfs L. induction ws as [|w ws IH]; intros [|p psfs] L; try discriminate.
      destruct (Qlt_le_dec 0 w) as [P|P]; [exists p, w; split; [now left|exact P]|].
      destruct (IH (fun x I => WN x (or_intror I))) with (psfs := psfs) as (p' & w' & I & P'); [|cbn in L; lia|exists p', w'; split; [now right|exact P']].
      change (qsum (w :: ws)) with (w + qsum ws)%Q in WS. eapply Qlt_le_trans; [exact WS|]. setoid_replace (qsum ws) with (0 + qsum ws)%Q at 2 by ring.
      apply Qplus_le_compat; [exact P|apply Qle_refl]. }
    apply qsum_pos_one.
    - intros x I. apply in_map_iff in I. destruct I as ([p w] & <- & I). cbn [fst snd].
      pose proof (in_combine_l _ _ _ _ I) as Ip. pose proof (in_combine_r _ _ _ _ I) as Iw.
      rewrite (qsum_map_mult _ (fun ij : Z * Z => px p (fst ij) (snd ij)) w). destruct (SZ p Ip) as [Rp Cp].
      assert (K := POS p Ip). unfold pixels in K. rewrite Rp, Cp in K.
      apply Qmult_le_0_compat; [now apply WN|now apply Qlt_le_weak].
    - destruct WP as (p & w & I & P). eexists. split; [apply in_map_iff; exists (p, w); split; [reflexivity|exact I]|]. cbn [fst snd].
      pose proof (in_combine_l _ _ _ _ I) as Ip.
      rewrite (qsum_map_mult _ (fun ij : Z * Z => px p (fst ij) (snd ij)) w). destruct (SZ p Ip) as [Rp Cp].
      assert (K := POS p Ip). unfold pixels in K. rewrite Rp, Cp in K.
      rewrite <- (Qmult_0_l 0). apply Qmult_lt_compat_nonneg; split; auto using Qle_refl. }
  assert (E : (qsum (pixels (normalize S)) == (1 / qsum (pixels S)) * qsum (pixels S))%Q).
  { unfold normalize. set (k := (1 / qsum (pixels S))%Q). unfold pixels, imap. cbn [nr nc px].
    rewrite (qsum_map_ext _ _ (fun ij => k * px S (fst ij) (snd ij))%Q) by (intros; ring).
    rewrite (qsum_map_mult _ (fun ij : Z * Z => px S (fst ij) (snd ij)) k). reflexivity. }
  rewrite E. field. intros Z. rewrite Z in TP. now apply Qlt_irrefl in TP.
Qed.

Lemma coadd_psf_ok : forall es, es <> [] -> compatible es ->
  usable es ->
  exists co psfs ws, coadd_exposures es = Ok (Some co) /\ Forall2 inverse_median_variance es ws /\
    Forall2 (fun e p => exists draw, e_psf e = Some draw /\
       p = draw ((inject_Z (nc (e_image e)) - 1) / 2)%Q ((inject_Z (nr (e_image e)) - 1) / 2)%Q) es psfs /\
    psf_coadd psfs ws (c_psf co) /\ (forall e0, hd_error es = Some e0 -> c_wcs co = e_wcs e0 /\ c_x0 co = e_x0 e0 /\ c_y0 co = e_y0 e0).
Proof.
  intros es N C G. destruct (coadd_ok es N C G) as (co & psfs0 & E & _ & _ & _ & _ & _ & WS). destruct (weights_spec es G) as (W1 & W2 & _).
  pose proof E as E'. unfold coadd_exposures in E'. destruct es as [|e0 es']; [contradiction|]. set (es := e0 :: es') in *.
  destruct (psf_at_center e0) as [p0|] eqn:P0; cbn [obind] in E'; [|discriminate].
  match type of E' with context [omap ?f es] => destruct (omap f es) as [psfs|] eqn:PS end; cbn [obind] in E'; [|discriminate].
  assert (NN : existsb (fun e => match band_weight e with None => true | _ => false end) es = false).
  { apply not_true_iff_false. intros X. apply existsb_exists in X. destruct X as (e & I & X).
    destruct (bw_spec e (proj1 G e I)) as (W & _). rewrite W in X. discriminate. }
  rewrite NN in E'. apply Qle_bool_false in WS as WS'. rewrite WS' in E'. cbn [negb andb] in E'.
  apply Ok_inj, Some_inj in E'. exists co, psfs, (map bw es). split; [exact E|]. split; [exact W1|].
  apply omap_ok_Forall2 in PS.
  assert (PS2 : Forall2 (fun e p => psf_at_center e = Ok p /\ nr p = nr p0 /\ nc p = nc p0) es psfs).
  { revert PS. apply Forall2_weaken. intros e p H. destruct (psf_at_center e) as [q|]; cbn [obind] in H; [|discriminate].
    destruct (same_size (e_image e) (e_image e0) && same_size q p0) eqn:SS; [|discriminate]. apply Ok_inj in H. subst q.
    split; [reflexivity|]. apply andb_true_iff in SS. destruct SS as [_ SS]. unfold same_size in SS. apply andb_true_iff in SS.
    rewrite !Z.eqb_eq in SS. exact SS. }
  split.
  { revert PS2. apply Forall2_weaken. intros e p [H _]. unfold psf_at_center in H. destruct (e_psf e) as [d|]; cbn [some_or_attr obind] in H; [|discriminate].
    apply Ok_inj in H. exists d. split; [reflexivity|]. now symmetry. }
  split.
  - subst co. cbn [c_psf]. apply psf_coadd_ok.
    + intros X. subst psfs. inversion PS2.
    + rewrite map_length. clear - PS2. induction PS2; cbn [List.length]; congruence.
    + intros p I. clear - PS2 I. induction PS2 as [|e q l m [_ H] _ IH]; [destruct I|]. destruct I as [<-|I]; auto.
    + split; [exact W2|exact WS].
  - intros e1 H. cbn [hd_error es] in H. apply Some_inj in H. subst e1. subst co. repeat split; reflexivity.
Qed.

Lemma coadd_mbobs_psf : forall os co, coadd_mbobs os = Ok co -> (forall o, In o os -> obs_weight o <> None) ->
  psf_coadd (map (fun o => op_image (o_psf o)) os) (map obs_w os) (co_psf co) /\
  (forall os' o, os = (os' ++ [o])%list -> co_jac co = o_jac o).
Proof.
  intros os co H NN. destruct os as [|o0 os']; [discriminate|]. set (os := o0 :: os') in *.
  assert (WP : forall w, In w (map obs_w os) -> (0 < w)%Q).
  { intros w I. apply in_map_iff in I. destruct I as (o & <- & I). specialize (NN o I). unfold obs_w. destruct (obs_weight o) as [w|] eqn:E; [|contradiction].
    unfold obs_weight in E. apply qmedian_pos in E; [exact E|]. intros x X. apply filter_In in X. destruct X as [_ X]. apply Qle_bool_false. now destruct (Qle_bool x 0). }
  unfold coadd_mbobs in H. unfold os in H. fold os in H. destruct (negb _) eqn:SS; [discriminate|].
  assert (N : existsb (fun o => match obs_weight o with None => true | _ => false end) os = false).
  { apply not_true_iff_false. intros E. apply existsb_exists in E. destruct E as (o & I & E). specialize (NN o I). destruct (obs_weight o); [discriminate|contradiction]. }
  rewrite N in H. apply Ok_inj in H. subst co. cbn [co_psf co_jac]. split.
  - assert (C : forall l : list lobs, combine (map (fun o => op_image (o_psf o)) l) (map obs_w l) = map (fun o => (op_image (o_psf o), obs_w o)) l).
    { induction l as [|o l IH]; [reflexivity|]. cbn [map combine]. now rewrite IH. }
    rewrite <- C. apply psf_coadd_ok; [discriminate | now rewrite !map_length | | split; [intros w Iw; apply Qlt_le_weak; auto|apply qsum_pos; [discriminate|exact WP]]].
    intros p I. apply in_map_iff in I. destruct I as (o & <- & I). apply negb_false_iff in SS. rewrite forallb_forall in SS.
    specialize (SS o I). apply andb_true_iff in SS. destruct SS as [_ SS]. unfold same_size in SS. apply andb_true_iff in SS. now rewrite !Z.eqb_eq in SS.
  - intros l o E. rewrite E. now rewrite last_last.
Qed.

Lemma positive_weight_ok : forall o, some_positive_weight o -> obs_weight o <> None /\ median_weight o (obs_w o).
Proof.
  intros o (i & j & I & P). unfold obs_w, median_weight. destruct (obs_weight o) as [w|] eqn:E.
  - split; [discriminate|]. apply qmedian_is_median. exact E.
  - exfalso. unfold obs_weight in E. apply qmedian_none in E.
    assert (X : In (px (o_weight o) i j) (filter (fun w => negb (Qle_bool w 0)) (pixels (o_weight o)))).
    { apply filter_In. split; [now apply pixels_at|]. apply Qle_bool_false in P. now rewrite P. }
    rewrite E in X. destruct X.
Qed.
Lemma coadd_mbobs_size : forall os co o, coadd_mbobs os = Ok co -> In o os ->
  nr (co_image co) = nr (o_image o) /\ nc (co_image co) = nc (o_image o) /\ nr (co_weight co) = nr (o_image o) /\ nc (co_weight co) = nc (o_image o).
Proof.
  intros [|o0 os'] co o H I; [destruct I|]. set (os := o0 :: os') in *. unfold coadd_mbobs in H. unfold os in H. fold os in H.
  destruct (negb _) eqn:SS; [discriminate|]. apply negb_false_iff in SS. rewrite forallb_forall in SS. specialize (SS o I).
  apply andb_true_iff in SS. destruct SS as [SS _]. unfold same_size in SS. apply andb_true_iff in SS. rewrite !Z.eqb_eq in SS. destruct SS as [S1 S2].
  assert (G : forall (f : lobs -> Q -> Q -> Q) (g : lobs -> img Q) l acc, nr (fold_left (fun acc o => imap2 (f o) acc (g o)) l acc) = nr acc /\
    nc (fold_left (fun acc o => imap2 (f o) acc (g o)) l acc) = nc acc).
  { intros f g. induction l as [|x l IH]; intro acc; cbn [fold_left]; [auto|]. destruct (IH (imap2 (f x) acc (g x))) as [A B]. rewrite A, B. auto. }
  apply Ok_inj in H. subst co. cbn [co_image co_weight imap nr nc]. rewrite S1, S2.
  destruct (G (fun o a v => (a + v * obs_w o)%Q) o_image os (ifill (nr (o_image o0)) (nc (o_image o0)) 0%Q)) as [A B].
  destruct (G (fun _ => Qplus) o_weight os (ifill (nr (o_image o0)) (nc (o_image o0)) 0%Q)) as [C D]. rewrite A, B, C, D. cbn. auto.
Qed.
Lemma medians_ok : forall os, (forall o, In o os -> some_positive_weight o) -> Forall2 median_weight os (map obs_w os).
Proof.
  induction os as [|o os IH]; intro H; constructor; [apply positive_weight_ok, H; now left|]. apply IH. intros x I. apply H. now right.
Qed.
Lemma combine_obs_w : forall (f : lobs -> Q) (os : list lobs), map (fun ow => (snd ow * f (fst ow))%Q) (combine os (map obs_w os)) = map (fun o => (obs_w o * f o)%Q) os.
Proof. intros f. induction os as [|o os IH]; [reflexivity|]. cbn [map combine fst snd]. now rewrite IH. Qed.

(** ** The psf observation *)
Lemma qmax_spec : forall l m, In m l -> (forall x, In x l -> (x <= m)%Q) -> (qmax l == m)%Q.
Proof.
  intros l m I U. unfold qmax. set (d := hd 0%Q l). assert (Hd : (d <= m)%Q) by (destruct l; [destruct I|apply U; now left]).
  clearbody d. assert (G : forall l', (forall x, In x l' -> In x l) ->
     (fold_right (fun a b => if Qle_bool b a then a else b) d l' <= m)%Q /\
     forall x, In x l' -> (x <= fold_right (fun a b => if Qle_bool b a then a else b) d l')%Q).
  { induction l' as [|a l' IH]; intros S; cbn [fold_right]; [split; [exact Hd|intros x []]|].
    destruct IH as [A B]; [intros; apply S; now right|]. destruct (Qle_bool _ a) eqn:E.
    - split; [apply U, S; now left|]. apply Qle_bool_iff in E. intros x [<-|X]; [apply Qle_refl|]. eapply Qle_trans; [apply B, X|exact E].
    - apply Qle_bool_false in E. split; [exact A|]. intros x [<-|X]; [now apply Qlt_le_weak|now apply B]. }
  destruct (G l (fun _ h => h)) as [A B]. apply Qle_antisym; [exact A|now apply B].
Qed.
Lemma psf_observation_ok : forall jac im, psf_observation jac im (mkOpsf im (psf_weight (1 # 10000) im) (canonical_center jac im)).
Proof.
  intros jac im. unfold psf_observation. cbn [op_image op_weight op_jac canonical_center j_row j_col dudx dudy dvdx dvdy].
  repeat (split; [reflexivity|]). intros i j m I M P U k l. unfold psf_weight, imap. cbn [px].
  rewrite (qmax_spec (pixels im) m).
  - field. intros Z. rewrite Z in P. now apply Qlt_irrefl in P.
  - rewrite <- M. now apply pixels_at.
  - intros x X. apply pixels_in in X. destruct X as (a & b & Iab & <-). now apply U.
Qed.

Lemma exp2obs_planes : forall W e name o, exp2obs W e name = Ok o ->
  let x := inject_Z (fst (get_integer_center e)) in let y := inject_Z (snd (get_integer_center e)) in
  exists draw, e_psf e = Some draw /\ get_jacobian W e x y = Ok (o_jac o) /\ o_image o = e_image e /\
    psf_observation (o_jac o) (draw x y) (o_psf o) /\ nr (draw x y) = nc (draw x y) /\ Z.odd (nr (draw x y)) = true /\
    mask_plane o name = Some (e_mask e) /\
    (exists z, mask_plane o (other_plane name) = Some z /\ forall i j, px z i j = 0) /\ o_noise o = None.
Proof.
  intros W e name o H. unfold exp2obs in H. destruct (get_integer_center e) as [cx cy]. cbn [fst snd].
  destruct (get_jacobian W e _ _) as [jac|]; cbn [obind] in H; [|discriminate].
  destruct (e_psf e) as [draw|]; cbn [some_or_attr obind] in H; [|discriminate].
  destruct (odd_square (draw (inject_Z cx) (inject_Z cy))) eqn:OS; cbn [negb] in H; [|discriminate].
  unfold odd_square in OS. apply andb_true_iff in OS. destruct OS as [O1 O2]. apply Z.eqb_eq in O1. apply negb_true_iff, Z.eqb_neq in O2.
  destruct (String.eqb name "ormask") eqn:N1; [|destruct (String.eqb name "bmask") eqn:N2; [|discriminate]];
    cbn [obind fst snd] in H; apply Ok_inj in H; subst o; cbn [o_jac o_image o_psf o_noise o_bmask o_ormask];
    exists draw; (split; [reflexivity|]); (split; [reflexivity|]); (split; [reflexivity|]);
    (split; [apply psf_observation_ok|]); (split; [exact O1|]);
    (split; [destruct (Z.odd (nr (draw (inject_Z cx) (inject_Z cy)))) eqn:ZO; [reflexivity|]; rewrite Zmod_odd, ZO in O2; contradiction|]);
    apply String.eqb_eq in N1 || apply String.eqb_eq in N2; subst name;
    (split; [reflexivity|]); (split; [eexists; split; [reflexivity|]; reflexivity|reflexivity]).
Qed.

Lemma extract_obs_planes : forall W e sky peak cen o, extract_obs W e sky peak cen = Ok o ->
  exists draw, e_psf e = Some draw /\
    (forall x y, sky = Some (x, y) -> get_jacobian W e x y = Ok (o_jac o)) /\
    (sky = None -> get_jacobian W e (inject_Z (fst peak)) (inject_Z (snd peak)) = Ok (o_jac o)) /\
    o_image o = e_image e /\ o_bmask o = Some (e_mask e) /\
    psf_observation (o_jac o) (draw (fst cen) (snd cen)) (o_psf o) /\
    nr (draw (fst cen) (snd cen)) = nc (draw (fst cen) (snd cen)) /\ Z.odd (nr (draw (fst cen) (snd cen))) = true.
Proof.
  intros W e sky peak cen o H. unfold extract_obs in H. destruct (forallb _ _); [discriminate|].
  destruct (get_jacobian W e _ _) as [jac|] eqn:J; cbn [obind] in H; [|discriminate].
  destruct (e_psf e) as [draw|]; cbn [some_or_attr obind] in H; [|discriminate].
  destruct (odd_square (draw (fst cen) (snd cen))) eqn:OS; cbn [negb] in H; [|discriminate].
  unfold odd_square in OS. apply andb_true_iff in OS. destruct OS as [O1 O2]. apply Z.eqb_eq in O1. apply negb_true_iff, Z.eqb_neq in O2.
  apply Ok_inj in H. subst o. cbn [o_jac o_image o_psf o_bmask]. exists draw. split; [reflexivity|].
  split; [intros x y ->; exact J|]. split; [intros ->; exact J|]. split; [reflexivity|]. split; [reflexivity|].
  split; [apply psf_observation_ok|]. split; [exact O1|].
  destruct (Z.odd (nr (draw (fst cen) (snd cen)))) eqn:ZO; [reflexivity|]; rewrite Zmod_odd, ZO in O2; contradiction.
Qed.
