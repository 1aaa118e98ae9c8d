From Coq Require Import ZArith QArith Qround List String Bool Lia Lqa Permutation.
From Verif Require Import Base Arr Median Flags_model Order_spec Order_proofs Scale_spec.
From Verif Require Detect_model Detect_spec Detect_proofs Summ_model Summ_spec Summ_proofs
  Coadd_model Coadd_spec Coadd_proofs Lexp_model Lexp_spec Lexp_proofs Lmdet_model Lmdet_spec Lmdet_proofs.
Import ListNotations.
Local Open Scope Z_scope.

Lemma Qle_bool_times : forall c w, (0 < c)%Q -> Qle_bool (c * w) 0 = Qle_bool w 0.
Proof.
  intros c w Hc. destruct (Qle_bool w 0) eqn:E0.
  - apply Qle_bool_iff in E0. apply Qle_bool_iff. nra.
  - apply Detect_proofs.Qle_bool_false in E0. apply Detect_proofs.Qle_bool_false. nra.
Qed.
Lemma Qeq_bool_times : forall c w w', (0 < c)%Q -> (w' == c * w)%Q -> Qeq_bool w' 0 = Qeq_bool w 0.
Proof.
  intros c w w' Hc H. apply eq_true_iff_eq. rewrite !Qeq_bool_iff, H. split; intro E; [|rewrite E; ring].
  apply Qmult_integral in E. destruct E; [lra|assumption].
Qed.
Lemma filter_positive_times : forall c l, (0 < c)%Q ->
  filter (fun w => negb (Qle_bool w 0)) (map (Qmult c) l) = map (Qmult c) (filter (fun w => negb (Qle_bool w 0)) l).
Proof.
  intros c l Hc. induction l as [|w l IH]; cbn [map filter]; [reflexivity|]. rewrite Qle_bool_times by assumption.
  destruct (negb (Qle_bool w 0)); cbn [map]; now rewrite IH.
Qed.
Lemma qmedian_times : forall c l, (0 < c)%Q ->
  match qmedian l, qmedian (map (Qmult c) l) with
  | Some m, Some m' => (m' == c * m)%Q
  | None, None => True
  | _, _ => False
  end.
Proof.
  intros c l Hc. destruct (qmedian l) as [m|] eqn:E.
  - destruct (qmedian_scale c l m Hc E) as (m' & -> & H). exact H.
  - apply qmedian_none in E. subst l. exact Logic.I.
Qed.

(** ** The coadd of the shear bands *)
Section Coadds.
Import Coadd_model Coadd_spec Coadd_proofs.
Variable c : Q.
Hypothesis Hc : (0 < c)%Q.
Let sc := fobs_weights c.

Lemma py_index_map : forall A B (f : A -> B) l i, py_index (map f l) i = do a <- py_index l i; Ok (f a).
Proof.
  intros A B f l i. unfold py_index, zlen. rewrite map_length.
  destruct (_ && _); [|reflexivity]. rewrite nth_error_map. destruct (nth_error l _); reflexivity.
Qed.
Lemma band_obs_map : forall mb b, band_obs (map (map sc) mb) b = do o <- band_obs mb b; Ok (sc o).
Proof.
  intros mb b. unfold band_obs. rewrite py_index_map. destruct (py_index mb b) as [l|]; cbn [obind]; [|reflexivity]. apply py_index_map.
Qed.
Lemma all_consistent_map : forall mb fo r, all_consistent (map (map sc) mb) (sc fo) r = all_consistent mb fo r.
Proof.
  intros mb fo. induction r as [|b r IH]; cbn [all_consistent]; [reflexivity|]. rewrite band_obs_map.
  destruct (band_obs mb b) as [o|]; cbn [obind]; [|reflexivity]. change (consistent (sc fo) (sc o)) with (consistent fo o).
  now rewrite IH.
Qed.
Lemma omap_band_map : forall mb l, omap (band_obs (map (map sc) mb)) l = do os <- omap (band_obs mb) l; Ok (map sc os).
Proof.
  intros mb. induction l as [|b l IH]; cbn [omap]; [reflexivity|]. rewrite band_obs_map.
  destruct (band_obs mb b) as [o|]; cbn [obind]; [|reflexivity]. rewrite IH. destruct (omap (band_obs mb) l); reflexivity.
Qed.
Lemma cw_times : forall o, (cw (sc o) == c * cw o)%Q.
Proof.
  intro o. unfold cw, positive_of. change (f_weight (sc o)) with (imap (Qmult c) (f_weight o)).
  rewrite Summ_proofs.pixels_scale. unfold qpos. rewrite filter_positive_times by exact Hc.
  pose proof (qmedian_times c (filter (fun q => negb (Qle_bool q 0)) (pixels (f_weight o))) Hc) as H.
  destruct (qmedian (filter _ _)), (qmedian (map _ _)); try contradiction; [exact H|ring].
Qed.
Lemma coadd_weights_times : forall obs,
  (coadd_weights obs = None /\ coadd_weights (map sc obs) = None) \/
  (coadd_weights obs = Some (map cw obs) /\ coadd_weights (map sc obs) = Some (map cw (map sc obs)) /\ forall o, In o obs -> (0 < cw o)%Q).
Proof.
  intros obs.
  assert (HP : forall o, has_positive (f_weight (sc o)) <-> has_positive (f_weight o)).
  { intro o. unfold has_positive. change (f_weight (sc o)) with (imap (Qmult c) (f_weight o)).
    split; intros (i & j & I & P); exists i, j; split; try exact I; cbn [imap px] in *; nra. }
  destruct (coadd_weights obs) as [ws|] eqn:E.
  - destruct (coadd_weights (map sc obs)) as [ws'|] eqn:E'.
    + right. rewrite <- (coadd_weights_map _ _ E), <- (coadd_weights_map _ _ E'). split; [reflexivity|]. split; [reflexivity|].
      intros o I. destruct (coadd_weights_ok _ _ E) as [_ W]. apply W. rewrite (coadd_weights_map _ _ E). now apply in_map.
    + exfalso. apply coadd_weights_none in E'. destruct E' as (o & I & N). apply in_map_iff in I. destruct I as (o' & <- & I).
      assert (X : coadd_weights obs = None) by (apply coadd_weights_none; exists o'; split; [exact I|]; intro H; apply N; now apply HP). congruence.
  - left. split; [reflexivity|]. apply coadd_weights_none in E. destruct E as (o & I & N). apply coadd_weights_none. exists (sc o).
    split; [now apply in_map|]. intro H. apply N. now apply HP.
Qed.
Lemma wsum_cw_times : forall obs, (qsum (map cw (map sc obs)) == c * qsum (map cw obs))%Q.
Proof. intro obs. rewrite map_map, <- qsum_map_mult. apply qsum_map_ext. intros o _. apply cw_times. Qed.
Lemma frac_times : forall obs o, (0 < qsum (map cw obs))%Q ->
  (cw (sc o) / qsum (map cw (map sc obs)) == cw o / qsum (map cw obs))%Q.
Proof. intros obs o H. rewrite wsum_cw_times, cw_times. field. split; lra. Qed.

Lemma wsum_times : forall get obs sh, (forall o, get (sc o) = get o) -> (0 < qsum (map cw obs))%Q ->
  same_real (wsum_plane sh get (combine obs (normalized (map cw obs))))
            (wsum_plane sh get (combine (map sc obs) (normalized (map cw (map sc obs))))).
Proof.
  intros get obs sh G P.
  destruct (wsum_plane_val get (combine obs (normalized (map cw obs))) sh) as (R1 & C1 & V1).
  destruct (wsum_plane_val get (combine (map sc obs) (normalized (map cw (map sc obs)))) sh) as (R2 & C2 & V2).
  split; [congruence|]. split; [congruence|]. intros i j. rewrite V1, V2, !combine_normalized, !map_map. cbn [fst snd].
  apply qsum_map_ext. intros o _. rewrite G. rewrite <- (frac_times obs o P). now rewrite map_map.
Qed.
Lemma or_times : forall get obs sh, (forall o, get (sc o) = get o) -> same_int (or_plane sh get obs) (or_plane sh get (map sc obs)).
Proof.
  intros get obs sh G. destruct (or_plane_val get obs sh) as (R1 & C1 & V1). destruct (or_plane_val get (map sc obs) sh) as (R2 & C2 & V2).
  split; [congruence|]. split; [congruence|]. intros i j. apply Z.bits_inj'. intros n _. apply eq_true_iff_eq. rewrite V1, V2.
  split.
  - intros (o & p & I & E & T). exists (sc o), p. rewrite G. split; [now apply in_map|auto].
  - intros (o & p & I & E & T). apply in_map_iff in I. destruct I as (o' & <- & I). rewrite G in E. exists o', p. auto.
Qed.
Lemma count_times : forall A (get : fobs -> option A) obs, (forall o, get (sc o) = get o) -> count_plane get (map sc obs) = count_plane get obs.
Proof.
  intros A get obs G. unfold count_plane, zlen. f_equal. induction obs as [|o l IH]; cbn [map filter]; [reflexivity|]. rewrite G.
  destruct (get o); cbn [List.length]; now rewrite IH.
Qed.
Lemma weight_times : forall obs sh sh', (0 < qsum (map cw obs))%Q -> nr sh = nr sh' -> nc sh = nc sh' ->
  times c (coadd_weight sh (combine obs (normalized (map cw obs))))
          (coadd_weight sh' (combine (map sc obs) (normalized (map cw (map sc obs))))).
Proof.
  intros obs sh sh' P R C. split; [exact R|]. split; [exact C|]. intros i j. unfold coadd_weight. cbn [px].
  rewrite !combine_normalized, !map_map. cbn [fst snd].
  set (l := map (fun o => (px (f_weight o) i j, cw o / qsum (map cw obs))%Q) obs).
  set (l' := map (fun o => (px (f_weight (sc o)) i j, cw (sc o) / qsum (map (fun o => cw (sc o)) obs))%Q) obs).
  assert (Z : existsb (fun x => Qeq_bool (fst x) 0) l = existsb (fun x => Qeq_bool (fst x) 0) l').
  { unfold l, l'. rewrite !existsb_map. cbn [fst]. generalize obs. clear -Hc. induction obs as [|o r IH]; cbn [existsb]; [reflexivity|].
    rewrite IH. f_equal. symmetry. apply (Qeq_bool_times c); [exact Hc|reflexivity]. }
  destruct (existsb (fun x => Qeq_bool (fst x) 0) l') eqn:E.
  - rewrite !fold_var_zero by assumption. cbn [inv_var]. ring.
  - destruct (fold_var_sum l 0%Q Z) as (v & -> & V). destruct (fold_var_sum l' 0%Q E) as (v' & -> & V'). cbn [inv_var].
    assert (VV : (v == c * v')%Q).
    { rewrite V, V'. unfold l, l'. rewrite !map_map. cbn [fst snd].
      rewrite !Qplus_0_l. rewrite <- qsum_map_mult. apply qsum_map_ext. intros o I.
      assert (F : (cw (sc o) / qsum (map (fun o => cw (sc o)) obs) == cw o / qsum (map cw obs))%Q).
      { rewrite <- (frac_times obs o P). now rewrite map_map. }
      rewrite F. change (px (f_weight (sc o)) i j) with (c * px (f_weight o) i j)%Q.
      assert (N : ~ (px (f_weight o) i j == 0)%Q).
      { intro X. apply Qeq_bool_iff in X. assert (Y : existsb (fun x => Qeq_bool (fst x) 0) l = true).
        { apply existsb_exists. eexists. split; [unfold l; apply in_map_iff; exists o; split; [reflexivity|exact I]|exact X]. } congruence. }
      field. split; [lra|]. split; [exact N|lra]. }
    rewrite (Qeq_bool_times c v' v Hc VV). destruct (Qeq_bool v' 0) eqn:E1; [ring|]. apply Qeq_bool_neq in E1.
    rewrite VV. field. split; [exact E1|lra].
Qed.
Lemma all_pixels_times : forall a b, times c a b ->
  all_pixels (fun w => Qeq_bool w 0) b = all_pixels (fun w => Qeq_bool w 0) a.
Proof.
  intros a b (R & C & V). apply eq_true_iff_eq. rewrite !all_pixels_spec. unfold inside. rewrite R, C.
  split; intros H i j I; specialize (H i j I); [rewrite <- H; symmetry|rewrite <- H]; apply (Qeq_bool_times c); auto.
Qed.
Lemma coadd_many_times : forall obs fo fp, obs <> [] -> coadd_times c (coadd_many obs fo fp) (coadd_many (map sc obs) (sc fo) fp).
Proof.
  intros obs fo fp NE. unfold coadd_many.
  destruct (coadd_weights_times obs) as [[-> ->]|(-> & -> & POS)]; [split; [reflexivity|exact Logic.I]|].
  assert (P : (0 < qsum (map cw obs))%Q).
  { apply qsum_pos; [destruct obs; [contradiction|discriminate]|]. intros w I. apply in_map_iff in I. destruct I as (o & <- & I). auto. }
  pose proof (weight_times obs (f_weight fo) (f_weight (sc fo)) P eq_refl eq_refl) as SW.
  pose proof (wsum_times psf_image_of obs (p_image fp) (fun _ => eq_refl) P) as SP.
  rewrite (all_pixels_times _ _ SW). destruct (all_pixels _ _); [split; [reflexivity|exact Logic.I]|].
  rewrite (count_times _ f_mfrac obs (fun _ => eq_refl)), (count_times _ f_noise obs (fun _ => eq_refl)),
    (count_times _ f_bmask obs (fun _ => eq_refl)), (count_times _ f_ormask obs (fun _ => eq_refl)).
  replace (zlen (map sc obs)) with (zlen obs) by (unfold zlen; now rewrite map_length).
  destruct (negb _); [split; [reflexivity|exact Logic.I]|]. split; [reflexivity|].
  cbn [same_opt fst]. unfold obs_times. cbn [f_image f_weight f_jac f_psf f_mfrac f_noise f_bmask f_ormask].
  split; [now apply (wsum_times (fun o => Some (f_image o)))|]. split; [exact SW|]. split; [reflexivity|]. split.
  { cbn [same_opt]. unfold same_psf. cbn [p_image p_weight p_jac]. split; [exact SP|]. split; [|reflexivity].
    pose proof (squares_order _ _ SP) as SQ. destruct SP as (A & B & V). split; [exact A|]. split; [exact B|]. intros i j. cbn [imap px]. now rewrite SQ. }
  split; [destruct (0 <? _); [now apply wsum_times|exact Logic.I]|].
  split; [destruct (0 <? _); [now apply wsum_times|exact Logic.I]|].
  split; [destruct (0 <? _); [now apply or_times|exact Logic.I]|].
  destruct (0 <? _); [now apply or_times|exact Logic.I].
Qed.
Lemma obs_times_sc : forall o, obs_times c o (sc o).
Proof.
  intro o. unfold obs_times.
  split; [apply same_real_refl|]. split; [split; [reflexivity|]; split; [reflexivity|]; intros; reflexivity|]. split; [reflexivity|].
  split; [apply same_opt_refl; intro; repeat split; try apply same_real_refl|].
  split; [apply same_opt_refl, same_real_refl|]. split; [apply same_opt_refl, same_real_refl|].
  split; apply same_opt_refl, same_int_refl.
Qed.
Lemma coadd_obs_times : forall mb sb,
  same_outcome (coadd_times c) (make_coadd_obs mb sb) (make_coadd_obs (map (map sc) mb) sb).
Proof.
  intros mb sb. unfold make_coadd_obs. replace (zlen (map (map sc) mb)) with (zlen mb) by (unfold zlen; now rewrite map_length).
  assert (S1 : forall s, same_outcome (coadd_times c) (do o <- band_obs mb s; Ok (Some o, 0)) (do o <- band_obs (map (map sc) mb) s; Ok (Some o, 0))).
  { intro s. rewrite band_obs_map. destruct (band_obs mb s) as [o|]; cbn [obind same_outcome]; [|reflexivity]. split; [reflexivity|apply obs_times_sc]. }
  assert (BAD : coadd_times c (None, flag_value INCONSISTENT_BANDS) (None, flag_value INCONSISTENT_BANDS)) by (split; [reflexivity|exact Logic.I]).
  destruct (zlen mb =? 1).
  { destruct (py_index sb 0) as [s0|]; cbn [obind]; [|reflexivity]. destruct (s0 =? 0); [apply S1|exact BAD]. }
  assert (M : forall s0, sb <> [] -> same_outcome (coadd_times c)
    (do fo <- band_obs mb s0; do ok <- all_consistent mb fo (tl sb);
     if negb ok then Ok (None, flag_value INCONSISTENT_BANDS)
     else do obs <- omap (band_obs mb) sb; match f_psf fo with None => Raise AttributeError | Some fp => Ok (coadd_many obs fo fp) end)
    (do fo <- band_obs (map (map sc) mb) s0; do ok <- all_consistent (map (map sc) mb) fo (tl sb);
     if negb ok then Ok (None, flag_value INCONSISTENT_BANDS)
     else do obs <- omap (band_obs (map (map sc) mb)) sb; match f_psf fo with None => Raise AttributeError | Some fp => Ok (coadd_many obs fo fp) end)).
  { intros s0 NE. rewrite band_obs_map. destruct (band_obs mb s0) as [fo|]; cbn [obind]; [|reflexivity].
    rewrite all_consistent_map. destruct (all_consistent mb fo (tl sb)) as [ok|]; cbn [obind]; [|reflexivity].
    destruct (negb ok); [exact BAD|]. rewrite omap_band_map. destruct (omap (band_obs mb) sb) as [os|] eqn:EO; cbn [obind]; [|reflexivity].
    change (f_psf (sc fo)) with (f_psf fo). destruct (f_psf fo); cbn [same_outcome]; [|reflexivity]. apply coadd_many_times.
    intro X. subst os. destruct sb; [contradiction|]. cbn [omap] in EO. destruct (band_obs mb z); cbn [obind] in EO; [|discriminate].
    destruct (omap (band_obs mb) sb); cbn [obind] in EO; discriminate. }
  destruct sb as [|s [|s1 sb]].
  - reflexivity.
  - destruct (s <? zlen mb); [apply S1|exact BAD].
  - destruct (existsb _ (s :: s1 :: sb)); [exact BAD|]. destruct (py_index (s :: s1 :: sb) 0) as [s0|]; cbn [obind]; [|reflexivity].
    apply M. discriminate.
Qed.
End Coadds.

(** ** Coadds of exposures and of observations (lsst) *)
Section Exposures.
Import Lexp_model Lexp_spec Lexp_proofs.
Variable c : Q.
Hypothesis Hc : (0 < c)%Q.
Let se := exp_weights c.
Let sv := fun v : evar => match v with Some q => Some (1 / c * q)%Q | None => None end.

Lemma k_pos : (0 < 1 / c)%Q.
Proof. apply Qlt_shift_div_l; lra. Qed.
Lemma inv_times : forall m, (1 / (1 / c * m) == c * (1 / m))%Q.
Proof.
  intro m. destruct (Qeq_dec m 0) as [E|E].
  - rewrite E. unfold Qdiv. assert (A : (/ (1 * / c * 0) == 0)%Q) by (rewrite Qmult_0_r; reflexivity). rewrite A. assert (B : (/ 0 == 0)%Q) by reflexivity. rewrite B. ring.
  - field. split; [exact E|lra].
Qed.
Lemma vpos_sv : forall v, vpos (sv v) = vpos v.
Proof. intros [q|]; cbn [sv vpos]; [|reflexivity]. f_equal. apply Qle_bool_times. exact k_pos. Qed.
Lemma vinv_sv : forall v, (vinv (sv v) == c * vinv v)%Q.
Proof. intros [q|]; cbn [sv vinv]; [apply inv_times|ring]. Qed.
Lemma finite_of_sv : forall l, finite_of (map sv l) = map (Qmult (1 / c)) (finite_of l).
Proof. unfold finite_of. induction l as [|[q|] l IH]; cbn [map flat_map sv app]; [reflexivity| |]; now rewrite IH. Qed.
Lemma filter_vpos_sv : forall l, filter vpos (map sv l) = map sv (filter vpos l).
Proof. induction l as [|v l IH]; cbn [map filter]; [reflexivity|]. rewrite vpos_sv. destruct (vpos v); cbn [map]; now rewrite IH. Qed.
Lemma ext_median_sv : forall l, same_opt (fun a b => (vinv b == c * vinv a)%Q) (ext_median l) (ext_median (map sv l)).
Proof.
  intro l. unfold ext_median. rewrite finite_of_sv, map_length, qsort_scale by exact k_pos.
  destruct (List.length l) as [|n]; [exact Logic.I|]. rewrite !nth_error_map.
  destruct (nth_error (qsort (finite_of l)) (Nat.div2 (S n - 1))) as [a|], (nth_error (qsort (finite_of l)) (Nat.div2 (S n))) as [b|];
    cbn [option_map same_opt vinv]; try ring.
  assert (E : ((1 / c * a + 1 / c * b) / 2 == 1 / c * ((a + b) / 2))%Q) by (field; lra). rewrite E. apply inv_times.
Qed.
Lemma band_weight_se : forall e, same_opt (fun a b => (b == c * a)%Q) (band_weight e) (band_weight (se e)).
Proof.
  intro e. unfold band_weight. change (pixels (e_var (se e))) with (pixels (imap sv (e_var e))).
  assert (E : pixels (imap sv (e_var e)) = map sv (pixels (e_var e))) by (unfold pixels, imap; cbn [nr nc px]; now rewrite map_map).
  rewrite E, filter_vpos_sv. pose proof (ext_median_sv (filter vpos (pixels (e_var e)))) as H.
  destruct (ext_median (filter vpos (pixels (e_var e)))), (ext_median (map sv _)); cbn [same_opt] in *; auto.
Qed.
Lemma bw_se : forall e, (bw (se e) == c * bw e)%Q.
Proof. intro e. unfold bw. pose proof (band_weight_se e) as H. destruct (band_weight e), (band_weight (se e)); cbn [same_opt] in H; try contradiction; [exact H|ring]. Qed.
Lemma wsum_se : forall es, (qsum (map bw (map se es)) == c * qsum (map bw es))%Q.
Proof. intro es. rewrite map_map, <- qsum_map_mult. apply qsum_map_ext. intros e _. apply bw_se. Qed.
Lemma isnan_se : forall es, existsb (fun e => match band_weight e with None => true | _ => false end) (map se es) =
  existsb (fun e => match band_weight e with None => true | _ => false end) es.
Proof.
  induction es as [|e es IH]; cbn [map existsb]; [reflexivity|]. rewrite IH. f_equal. pose proof (band_weight_se e) as H.
  destruct (band_weight e), (band_weight (se e)); cbn [same_opt] in H; try contradiction; reflexivity.
Qed.
Lemma goodw_se : forall i j e w, goodw i j (se e, w) = goodw i j (e, w).
Proof. intros i j e w. rewrite !goodw_vpos. change (px (e_var (se e)) i j) with (sv (px (e_var e) i j)). now rewrite vpos_sv. Qed.
Lemma goodw_mul : forall i j e k w, (goodw i j (e, k * w) == k * goodw i j (e, w))%Q.
Proof. intros i j e k w. rewrite !goodw_vpos. destruct (vpos _); [reflexivity|ring]. Qed.
Lemma goodw_ext : forall i j e w w', (w == w')%Q -> (goodw i j (e, w) == goodw i j (e, w'))%Q.
Proof. intros i j e w w' H. rewrite !goodw_vpos. destruct (vpos _); [exact H|reflexivity]. Qed.
Lemma omap_se : forall p0 e0 l,
  omap (fun e => do p <- psf_at_center e; if same_size (e_image e) (e_image (se e0)) && same_size p p0 then Ok p else Raise ValueError) (map se l) =
  omap (fun e => do p <- psf_at_center e; if same_size (e_image e) (e_image e0) && same_size p (p0 : img Q) then Ok p else Raise ValueError) l.
Proof. intros p0 e0. induction l as [|e l IH]; cbn [map omap]; [reflexivity|]. rewrite IH. reflexivity. Qed.
Lemma or_masks_se : forall es m, or_masks (map se es) m = or_masks es m.
Proof. unfold or_masks. induction es as [|e es IH]; intro m; cbn [map fold_left]; [reflexivity|]. apply IH. Qed.
Lemma normalize_times : forall a b, times c a b -> same_real (normalize a) (normalize b).
Proof.
  intros a b (R & C & V). split; [exact R|]. split; [exact C|]. intros i j. unfold normalize. cbn [imap px].
  assert (S : (qsum (pixels b) == c * qsum (pixels a))%Q).
  { unfold pixels. rewrite R, C, <- qsum_map_mult. apply qsum_map_ext. intros [x y] _. apply V. }
  rewrite V, S. set (s := qsum (pixels a)). destruct (Qeq_dec s 0) as [E|E].
  - rewrite E. unfold Qdiv. assert (A : (/ (c * 0) == 0)%Q) by (rewrite Qmult_0_r; reflexivity). rewrite A. assert (B : (/ 0 == 0)%Q) by reflexivity. rewrite B. ring.
  - field. split; [exact E|lra].
Qed.

Lemma exposures_times : forall es, same_outcome (same_opt (coadded_times c)) (coadd_exposures es) (coadd_exposures (map se es)).
Proof.
  intros [|e0 r]; [exact Logic.I|]. cbn [map]. unfold coadd_exposures. change (psf_at_center (se e0)) with (psf_at_center e0).
  destruct (psf_at_center e0) as [p0|]; cbn [obind]; [|reflexivity].
  change (se e0 :: map se r) with (map se (e0 :: r)). rewrite omap_se.
  destruct (omap _ (e0 :: r)) as [psfs|]; cbn [obind]; [|reflexivity]. rewrite isnan_se.
  set (isnan := existsb _ (e0 :: r)). pose proof (wsum_se (e0 :: r)) as W.
  assert (L : Qle_bool (qsum (map bw (map se (e0 :: r)))) 0 = Qle_bool (qsum (map bw (e0 :: r))) 0).
  { rewrite (Qle_bool_proper _ _ W). now apply Qle_bool_times. }
  rewrite L. destruct (negb isnan && _); [exact Logic.I|]. cbn [same_outcome same_opt]. unfold coadded_times.
  cbn [c_image c_var c_mask c_psf c_wcs c_x0 c_y0]. change (e_image (se e0)) with (e_image e0). change (e_mask (se e0)) with (e_mask e0).
  split; [|split; [|split; [|split]]].
  - destruct (sum_image_size (e0 :: r) (nr (e_image e0)) (nc (e_image e0))) as [A B].
    destruct (sum_image_size (map se (e0 :: r)) (nr (e_image e0)) (nc (e_image e0))) as [A' B'].
    split; [cbn [imap nr]; congruence|]. split; [cbn [imap nc]; congruence|]. intros i j. cbn [imap px].
    destruct isnan; [exact Logic.I|]. cbn [same_opt]. rewrite !sum_image_px, W, map_map.
    assert (S : (qsum (map (fun x => goodw i j (se x, bw (se x)) * px (e_image (se x)) i j) (e0 :: r)) == c * qsum (map (fun e => goodw i j (e, bw e) * px (e_image e) i j) (e0 :: r)))%Q).
    { rewrite <- qsum_map_mult. apply qsum_map_ext. intros e _. rewrite goodw_se, (goodw_ext i j e _ _ (bw_se e)), goodw_mul. change (e_image (se e)) with (e_image e). ring. }
    rewrite S. set (s := qsum (map bw (e0 :: r))). set (q := qsum _). destruct (Qeq_dec s 0) as [E|E].
    + rewrite E. unfold Qdiv. assert (X : (/ (c * 0) == 0)%Q) by (rewrite Qmult_0_r; reflexivity). rewrite X. assert (Y : (/ 0 == 0)%Q) by reflexivity. rewrite Y. ring.
    + field. split; [exact E|lra].
  - destruct (sum_weight_size (e0 :: r) (nr (e_image e0)) (nc (e_image e0))) as [A B].
    destruct (sum_weight_size (map se (e0 :: r)) (nr (e_image e0)) (nc (e_image e0))) as [A' B'].
    split; [cbn [imap nr]; congruence|]. split; [cbn [imap nc]; congruence|]. intros i j. cbn [imap px].
    assert (V : (px (sum_weight (map se (e0 :: r)) (nr (e_image e0)) (nc (e_image e0))) i j == c * px (sum_weight (e0 :: r) (nr (e_image e0)) (nc (e_image e0))) i j)%Q).
    { rewrite !sum_weight_px, map_map, <- qsum_map_mult. apply qsum_map_ext. intros e _. rewrite goodw_se, <- goodw_mul. apply goodw_ext.
      change (px (e_var (se e)) i j) with (sv (px (e_var e) i j)). apply vinv_sv. }
    rewrite (Qle_bool_proper _ _ V), Qle_bool_times by exact Hc. set (w := px (sum_weight (e0 :: r) _ _) i j) in *.
    destruct (Qle_bool w 0) eqn:E; [exact Logic.I|]. apply Detect_proofs.Qle_bool_false in E. cbn [negb same_opt]. rewrite V. field. split; lra.
  - rewrite or_masks_se. apply same_int_refl.
  - apply (num_order (fun v => v) (fun v => v)); [|auto]. apply normalize_times.
    destruct (sum_psf_size (combine psfs (map bw (e0 :: r))) (nr p0) (nc p0)) as [A B].
    destruct (sum_psf_size (combine psfs (map bw (map se (e0 :: r)))) (nr p0) (nc p0)) as [A' B'].
    split; [congruence|]. split; [congruence|]. intros i j. rewrite !sum_psf_px. rewrite <- qsum_map_mult. rewrite map_map.
    generalize (e0 :: r). intro es. generalize psfs. clear -Hc sv se. induction es as [|e es IH]; intros [|p ps]; cbn [map combine qsum fold_right fst snd]; try reflexivity.
    fold (qsum (map (fun pw : img Q * Q => snd pw * px (fst pw) i j)%Q (combine ps (map (fun x => bw (se x)) es)))).
    fold (qsum (map (fun x : img Q * Q => c * (snd x * px (fst x) i j))%Q (combine ps (map bw es)))). rewrite IH, bw_se. ring.
  - repeat split.
Qed.

Let so := lobs_weights c.
Lemma obs_weight_so : forall o, same_opt (fun a b => (b == c * a)%Q) (obs_weight o) (obs_weight (so o)).
Proof.
  intro o. unfold obs_weight. change (o_weight (so o)) with (imap (Qmult c) (o_weight o)). rewrite Summ_proofs.pixels_scale, filter_positive_times by exact Hc.
  pose proof (qmedian_times c (filter (fun w => negb (Qle_bool w 0)) (pixels (o_weight o))) Hc) as H.
  destruct (qmedian (filter _ _)), (qmedian (map _ _)); cbn [same_opt]; auto.
Qed.
Lemma obs_w_so : forall o, (obs_w (so o) == c * obs_w o)%Q.
Proof. intro o. unfold obs_w. pose proof (obs_weight_so o) as H. destruct (obs_weight o), (obs_weight (so o)); cbn [same_opt] in H; try contradiction; [exact H|ring]. Qed.
Lemma fold_times : forall (f : lobs -> img Q) (h h' : lobs -> Q -> Q -> Q) k,
  (forall o a a' v, (a' == k * a)%Q -> (h' (so o) a' v == k * h o a v)%Q) -> (forall o, f (so o) = f o) ->
  forall l acc acc', times k acc acc' ->
  times k (fold_left (fun acc o => imap2 (h o) acc (f o)) l acc) (fold_left (fun acc o => imap2 (h' o) acc (f o)) (map so l) acc').
Proof.
  intros f h h' k H F. induction l as [|o l IH]; intros acc acc' (R & C & V); cbn [map fold_left]; [split; auto|].
  apply IH. split; [exact R|]. split; [exact C|]. intros i j. cbn [imap2 px]. rewrite F. now apply H.
Qed.
Lemma fold_weights : forall l acc acc', times c acc acc' ->
  times c (fold_left (fun acc o => imap2 Qplus acc (o_weight o)) l acc) (fold_left (fun acc o => imap2 Qplus acc (o_weight o)) (map so l) acc').
Proof.
  induction l as [|o l IH]; intros acc acc' (R & C & V); cbn [map fold_left]; [split; auto|].
  apply IH. split; [exact R|]. split; [exact C|]. intros i j. cbn [imap2 px]. change (px (o_weight (so o)) i j) with (c * px (o_weight o) i j)%Q.
  rewrite V. ring.
Qed.
Lemma mbobs_times : forall os, same_outcome (coaddobs_times c) (coadd_mbobs os) (coadd_mbobs (map so os)).
Proof.
  intros [|o0 r]; [reflexivity|]. cbn [map]. unfold coadd_mbobs. change (so o0 :: map so r) with (map so (o0 :: r)).
  assert (F : forallb (fun o => same_size (o_image o) (o_image (so o0)) && same_size (op_image (o_psf o)) (op_image (o_psf (so o0)))) (map so (o0 :: r)) =
    forallb (fun o => same_size (o_image o) (o_image o0) && same_size (op_image (o_psf o)) (op_image (o_psf o0))) (o0 :: r)).
  { generalize (o0 :: r). induction l as [|o l IH]; cbn [map forallb]; [reflexivity|]. now rewrite IH. }
  rewrite F. destruct (negb _); [reflexivity|]. cbn [same_outcome].
  assert (N : existsb (fun o => match obs_weight o with None => true | _ => false end) (map so (o0 :: r)) = existsb (fun o => match obs_weight o with None => true | _ => false end) (o0 :: r)).
  { generalize (o0 :: r). induction l as [|o l IH]; cbn [map existsb]; [reflexivity|]. rewrite IH. f_equal. pose proof (obs_weight_so o) as H.
    destruct (obs_weight o), (obs_weight (so o)); cbn [same_opt] in H; try contradiction; reflexivity. }
  rewrite N. set (isnan := existsb _ (o0 :: r)).
  assert (W : (qsum (map obs_w (map so (o0 :: r))) == c * qsum (map obs_w (o0 :: r)))%Q).
  { rewrite map_map, <- qsum_map_mult. apply qsum_map_ext. intros o _. apply obs_w_so. }
  assert (Z : forall k, times k (ifill (nr (o_image o0)) (nc (o_image o0)) 0%Q) (ifill (nr (o_image (so o0))) (nc (o_image (so o0))) 0%Q)).
  { intro k. split; [reflexivity|]. split; [reflexivity|]. intros i j. cbn [ifill px]. ring. }
  unfold coaddobs_times. cbn [co_image co_weight co_psf co_jac]. split; [|split; [|split]].
  - pose proof (fold_times o_image (fun o a v => (a + v * obs_w o)%Q) (fun o a v => (a + v * obs_w o)%Q) c) as G.
    destruct (G (fun o a a' v E => ltac:(cbv beta; rewrite E, obs_w_so; ring)) (fun _ => eq_refl) (o0 :: r) _ _ (Z c)) as (R & C & V).
    split; [exact R|]. split; [exact C|]. intros i j. cbn [imap px]. destruct isnan; [exact Logic.I|]. cbn [same_opt]. rewrite V, W.
    set (s := qsum (map obs_w (o0 :: r))). destruct (Qeq_dec s 0) as [E|E].
    + rewrite E. unfold Qdiv. assert (X : (/ (c * 0) == 0)%Q) by (rewrite Qmult_0_r; reflexivity). rewrite X. assert (Y : (/ 0 == 0)%Q) by reflexivity. rewrite Y. ring.
    + field. split; [exact E|lra].
  - apply fold_weights. apply Z.
  - apply (num_order (fun v => v) (fun v => v)); [|auto]. apply normalize_times.
    change (op_image (o_psf (so o0))) with (op_image (o_psf o0)). set (p0 := op_image (o_psf o0)).
    destruct (sum_psf_size (map (fun o => (op_image (o_psf o), obs_w o)) (o0 :: r)) (nr p0) (nc p0)) as [A B].
    destruct (sum_psf_size (map (fun o => (op_image (o_psf o), obs_w o)) (map so (o0 :: r))) (nr p0) (nc p0)) as [A' B'].
    split; [congruence|]. split; [congruence|]. intros i j. rewrite !sum_psf_px, !map_map. cbn [fst snd]. rewrite <- qsum_map_mult.
    apply qsum_map_ext. intros o _. rewrite obs_w_so. change (o_psf (so o)) with (o_psf o). ring.
  - clear. assert (L : forall l d, o_jac (last l d) = o_jac (last (map so l) (so d))).
    { induction l as [|o [|o' l] IH]; intro d; [reflexivity|reflexivity|]. cbn [map last] in *. apply IH. }
    apply (L (o0 :: r) o0).
Qed.
End Exposures.

(** ** Images are linear in the input images *)
Lemma qsum_linear : forall A (w x y : A -> Q) c d l,
  (qsum (map (fun t => w t * (c * x t + d * y t)) l) == c * qsum (map (fun t => w t * x t) l) + d * qsum (map (fun t => w t * y t) l))%Q.
Proof.
  intros A w x y c d l. rewrite <- !qsum_map_mult, <- qsum_map_plus. apply qsum_map_ext. intros t _. ring.
Qed.
Lemma fold_left_map : forall A B C (f : C -> B -> C) (g : A -> B) l a, fold_left f (map g l) a = fold_left (fun a x => f a (g x)) l a.
Proof. intros A B C f g. induction l as [|x l IH]; intro a; cbn [map fold_left]; [reflexivity|apply IH]. Qed.
Lemma sized_combo : forall c d x y, sized x (combo c d x y).
Proof. intros. split; reflexivity. Qed.

Section DetLinear.
Import Detect_model.
Let hb (g : band * img Q -> img Q) (t : band * img Q) : band := band_image (fst t) (g t).
Lemma detim_fold : forall g ts ws a i j,
  (fold_left (fun acc bw => (acc + px (b_image (fst bw)) i j * snd bw)%Q) (combine (map (hb g) ts) ws) a ==
   a + qsum (map (fun tw => snd tw * px (g (fst tw)) i j) (combine ts ws)))%Q.
Proof.
  intros g. induction ts as [|t ts IH]; intros [|w ws] a i j; [unfold qsum; cbn; ring|unfold qsum; cbn; ring|unfold qsum; cbn; ring|].
  cbn [map combine fold_left]. rewrite IH. cbn [fst snd]. change (b_image (hb g t)) with (g t).
  change (qsum ((w * px (g t) i j)%Q :: map (fun tw => (snd tw * px (g (fst tw)) i j)%Q) (combine ts ws)))
    with (w * px (g t) i j + qsum (map (fun tw => snd tw * px (g (fst tw)) i j) (combine ts ws)))%Q. ring.
Qed.
Lemma image_var_hb : forall g ts, map image_var (map (hb g) ts) = map image_var (map fst ts).
Proof. intros g ts. rewrite !map_map. apply map_ext. reflexivity. Qed.
Lemma detim_linear : forall nodet c d (ts : list (band * img Q)),
  (forall t, In t ts -> sized (b_image (fst t)) (snd t)) ->
  three_opt (linear_detection c d)
    (set_detim nodet (map fst ts))
    (set_detim nodet (map (fun t => band_image (fst t) (snd t)) ts))
    (set_detim nodet (map (fun t => band_image (fst t) (combo c d (b_image (fst t)) (snd t))) ts)).
Proof.
  intros nodet c d ts S.
  change (map (fun t => band_image (fst t) (snd t)) ts) with (map (hb snd) ts).
  set (g3 := fun t : band * img Q => combo c d (b_image (fst t)) (snd t)).
  change (map (fun t => band_image (fst t) (combo c d (b_image (fst t)) (snd t))) ts) with (map (hb g3) ts).
  assert (E1 : map fst ts = map (hb (fun t => b_image (fst t))) ts).
  { apply map_ext. intros [b y]. destruct b. reflexivity. }
  set (g1 := fun t : band * img Q => b_image (fst t)) in *.
  destruct ts as [|t0 r] eqn:ET; [exact Logic.I|]. rewrite <- ET in *.
  assert (F : forall g, set_detim nodet (map (hb g) ts) =
    match oall (map image_var (map fst ts)) with
    | None => None
    | Some vars =>
      let weights := map (fun v => (1 / v)%Q) vars in
      let wsum := qsum weights in
      Some (mkImg (nr (g t0)) (nc (g t0)) (fun i j => fold_left (fun acc bw => (acc + px (b_image (fst bw)) i j * snd bw)%Q) (combine (map (hb g) ts) (map (fun w => (w / wsum)%Q) weights)) 0%Q),
            wsum, mkImg (nr (g t0)) (nc (g t0)) (fun i j => fold_left (fun acc b => match b_bmask b with Some bm => acc || negb (Z.land (px bm i j) nodet =? 0) | None => acc end) (map (hb g) ts) false))
    end).
  { intro g. rewrite <- (image_var_hb g ts). subst ts. reflexivity. }
  rewrite E1, !F. destruct (oall _) as [vars|]; [|exact Logic.I]. cbv zeta. cbn [three_opt].
  set (wsum := qsum _). set (ws := map (fun w => (w / wsum)%Q) _).
  destruct (S t0) as [Sr Sc]; [subst ts; now left|].
  unfold linear_detection. cbn [fst snd]. split; [|split; [reflexivity|split; [reflexivity|split]]].
  - split; [reflexivity|]. split; [reflexivity|]. intros i j. cbn [px]. rewrite !detim_fold.
    assert (Q3 : (qsum (map (fun tw => snd tw * px (g3 (fst tw)) i j) (combine ts ws)) ==
      c * qsum (map (fun tw => snd tw * px (g1 (fst tw)) i j) (combine ts ws)) + d * qsum (map (fun tw => snd tw * px (snd (fst tw)) i j) (combine ts ws)))%Q).
    { unfold g3, g1, combo. cbn [imap2 px].
      exact (qsum_linear _ (fun tw : (band * img Q) * Q => snd tw) (fun tw => px (b_image (fst (fst tw))) i j) (fun tw => px (snd (fst tw)) i j) c d (combine ts ws)). }
    rewrite Q3. ring.
  - split; [reflexivity|]. split; [reflexivity|]. intros i j. cbn [px]. now rewrite !fold_left_map.
  - split; [symmetry; exact Sr|]. split; [symmetry; exact Sc|]. intros i j. cbn [px]. now rewrite !fold_left_map.
Qed.
End DetLinear.

Section CoaddLinear.
Import Coadd_model Coadd_spec Coadd_proofs.
Local Notation T := (fobs * img Q)%type.
Let ho (g : T -> img Q) (t : T) : fobs := fobs_image (fst t) (g t).
Definition tobs (mb : list (list T)) (b : Z) : outcome T := do l <- py_index mb b; py_index l 0.
Inductive plan_of := PFlag (k : Z) | POne (t : T) | PMany (ts : list T) (t0 : T) (fp : psfobs).
Fixpoint tconsistent (mb : list (list T)) (fo : T) (rest : list Z) : outcome bool :=
  match rest with
  | [] => Ok true
  | b :: r => do o <- tobs mb b; if consistent (fst fo) (fst o) then tconsistent mb fo r else Ok false
  end.
Definition coadd_plan (mb : list (list T)) (sb : list Z) : outcome plan_of :=
  let nbands := zlen mb in
  if nbands =? 1 then
    do s0 <- py_index sb 0;
    if s0 =? 0 then (do o <- tobs mb 0; Ok (POne o)) else Ok (PFlag (flag_value INCONSISTENT_BANDS))
  else match sb with
  | [s] => if s <? nbands then (do o <- tobs mb s; Ok (POne o)) else Ok (PFlag (flag_value INCONSISTENT_BANDS))
  | _ =>
    if existsb (fun s => nbands <=? s) sb then Ok (PFlag (flag_value INCONSISTENT_BANDS))
    else
      do s0 <- py_index sb 0;
      do fo <- tobs mb s0;
      do ok <- tconsistent mb fo (tl sb);
      if negb ok then Ok (PFlag (flag_value INCONSISTENT_BANDS))
      else
        do obs <- omap (tobs mb) sb;
        match f_psf (fst fo) with None => Raise AttributeError | Some fp => Ok (PMany obs fo fp) end
  end.
Definition finish (g : T -> img Q) (p : plan_of) : coadd_result :=
  match p with
  | PFlag k => (None, k)
  | POne t => (Some (ho g t), 0)
  | PMany ts t0 fp => coadd_many (map (ho g) ts) (ho g t0) fp
  end.
Lemma tobs_map : forall g mb b, band_obs (map (map (ho g)) mb) b = do t <- tobs mb b; Ok (ho g t).
Proof.
  intros g mb b. unfold band_obs, tobs. rewrite py_index_map. destruct (py_index mb b) as [l|]; cbn [obind]; [|reflexivity]. apply py_index_map.
Qed.
Lemma py_index_In : forall A (l : list A) i a, py_index l i = Ok a -> In a l.
Proof.
  intros A l i a H. unfold py_index in H. destruct (_ && _); [|discriminate]. destruct (nth_error l _) eqn:E; [|discriminate].
  apply Ok_inj in H. subst. now apply nth_error_In in E.
Qed.
Lemma tobs_In : forall mb b t, tobs mb b = Ok t -> exists l, In l mb /\ In t l.
Proof.
  intros mb b t H. unfold tobs in H. destruct (py_index mb b) as [l|] eqn:E; [|discriminate]. cbn [obind] in H. exists l.
  split; [exact (py_index_In _ _ _ _ E)|exact (py_index_In _ _ _ _ H)].
Qed.
Lemma consistent_ho : forall g a b, sized (f_image (fst a)) (g a) -> sized (f_image (fst b)) (g b) ->
  consistent (ho g a) (ho g b) = consistent (fst a) (fst b).
Proof.
  intros g a b [A1 A2] [B1 B2]. unfold consistent, same_dims. cbn [ho fobs_image f_jac f_image f_psf]. now rewrite A1, A2, B1, B2.
Qed.
Lemma tconsistent_map : forall g mb fo r, (forall l t, In l mb -> In t l -> sized (f_image (fst t)) (g t)) -> sized (f_image (fst fo)) (g fo) ->
  all_consistent (map (map (ho g)) mb) (ho g fo) r = tconsistent mb fo r.
Proof.
  intros g mb fo r S S0. induction r as [|b r IH]; cbn [all_consistent tconsistent]; [reflexivity|]. rewrite tobs_map.
  destruct (tobs mb b) as [t|] eqn:E; cbn [obind]; [|reflexivity]. destruct (tobs_In _ _ _ E) as (l & I1 & I2).
  rewrite (consistent_ho g fo t S0 (S _ _ I1 I2)). now rewrite IH.
Qed.
Lemma omap_tobs : forall g mb l, omap (band_obs (map (map (ho g)) mb)) l = do os <- omap (tobs mb) l; Ok (map (ho g) os).
Proof.
  intros g mb. induction l as [|b l IH]; cbn [omap]; [reflexivity|]. rewrite tobs_map.
  destruct (tobs mb b) as [o|]; cbn [obind]; [|reflexivity]. rewrite IH. destruct (omap (tobs mb) l); reflexivity.
Qed.
Lemma coadd_planned : forall g mb sb, (forall l t, In l mb -> In t l -> sized (f_image (fst t)) (g t)) ->
  make_coadd_obs (map (map (ho g)) mb) sb = do p <- coadd_plan mb sb; Ok (finish g p).
Proof.
  intros g mb sb S. unfold make_coadd_obs, coadd_plan. cbv zeta. replace (zlen (map (map (ho g)) mb)) with (zlen mb) by (unfold zlen; now rewrite map_length).
  assert (ONE : forall s, (do o <- band_obs (map (map (ho g)) mb) s; Ok (Some o, 0)) = (do p <- (do o <- tobs mb s; Ok (POne o)); Ok (finish g p))).
  { intro s. rewrite tobs_map. destruct (tobs mb s); reflexivity. }
  assert (M : forall s0, (do fo <- band_obs (map (map (ho g)) mb) s0; do ok <- all_consistent (map (map (ho g)) mb) fo (tl sb);
      if negb ok then Ok (None, flag_value INCONSISTENT_BANDS)
      else do obs <- omap (band_obs (map (map (ho g)) mb)) sb; match f_psf fo with None => Raise AttributeError | Some fp => Ok (coadd_many obs fo fp) end) =
    (do p <- (do fo <- tobs mb s0; do ok <- tconsistent mb fo (tl sb);
      if negb ok then Ok (PFlag (flag_value INCONSISTENT_BANDS))
      else do obs <- omap (tobs mb) sb; match f_psf (fst fo) with None => Raise AttributeError | Some fp => Ok (PMany obs fo fp) end); Ok (finish g p))).
  { intro s0. rewrite tobs_map. destruct (tobs mb s0) as [t0|] eqn:E; cbn [obind]; [|reflexivity]. destruct (tobs_In _ _ _ E) as (l & I1 & I2).
    rewrite (tconsistent_map g mb t0 (tl sb) S (S _ _ I1 I2)). destruct (tconsistent mb t0 (tl sb)) as [ok|]; cbn [obind]; [|reflexivity].
    destruct (negb ok); [reflexivity|]. rewrite omap_tobs. destruct (omap (tobs mb) sb); cbn [obind]; [|reflexivity].
    change (f_psf (ho g t0)) with (f_psf (fst t0)). destruct (f_psf (fst t0)); reflexivity. }
  destruct (zlen mb =? 1).
  { destruct (py_index sb 0) as [s0|]; cbn [obind]; [|reflexivity]. destruct (s0 =? 0); [apply ONE|reflexivity]. }
  destruct sb as [|s [|s' sb']].
  - destruct (existsb _ _); [reflexivity|]. destruct (py_index [] 0) as [s0|]; cbn [obind]; [apply M|reflexivity].
  - destruct (s <? zlen mb); [apply ONE|reflexivity].
  - destruct (existsb _ _); [reflexivity|]. destruct (py_index (s :: s' :: sb') 0) as [s0|]; cbn [obind]; [apply M|reflexivity].
Qed.
Lemma plan_in : forall mb sb p, coadd_plan mb sb = Ok p ->
  match p with PMany ts t0 fp => exists l, In l mb /\ In t0 l | POne t => exists l, In l mb /\ In t l | _ => True end.
Proof.
  intros mb sb p. unfold coadd_plan. cbv zeta.
  assert (ONE : forall s, (do o <- tobs mb s; Ok (POne o)) = Ok p -> match p with PMany ts t0 fp => exists l, In l mb /\ In t0 l | POne t => exists l, In l mb /\ In t l | _ => True end).
  { intros s H. destruct (tobs mb s) as [t|] eqn:E; cbn [obind] in H; [|discriminate]. apply Ok_inj in H. subst p. exact (tobs_In _ _ _ E). }
  assert (M : forall s0, (do fo <- tobs mb s0; do ok <- tconsistent mb fo (tl sb);
      if negb ok then Ok (PFlag (flag_value INCONSISTENT_BANDS))
      else do obs <- omap (tobs mb) sb; match f_psf (fst fo) with None => Raise AttributeError | Some fp => Ok (PMany obs fo fp) end) = Ok p ->
      match p with PMany ts t0 fp => exists l, In l mb /\ In t0 l | POne t => exists l, In l mb /\ In t l | _ => True end).
  { intros s0 H. destruct (tobs mb s0) as [t|] eqn:E; cbn [obind] in H; [|discriminate]. destruct (tconsistent _ _ _) as [ok|]; cbn [obind] in H; [|discriminate].
    destruct (negb ok); [apply Ok_inj in H; subst p; exact Logic.I|]. destruct (omap _ _) as [ts|]; cbn [obind] in H; [|discriminate].
    destruct (f_psf (fst t)); [|discriminate]. apply Ok_inj in H. subst p. exact (tobs_In _ _ _ E). }
  assert (FL : Ok (PFlag (flag_value INCONSISTENT_BANDS)) = Ok p -> match p with PMany ts t0 fp => exists l, In l mb /\ In t0 l | POne t => exists l, In l mb /\ In t l | _ => True end).
  { intro H. apply Ok_inj in H. subst p. exact Logic.I. }
  destruct (zlen mb =? 1).
  { destruct (py_index sb 0) as [s0|]; cbn [obind]; [|discriminate]. destruct (s0 =? 0); [apply ONE|exact FL]. }
  destruct sb as [|s [|s' sb']].
  - destruct (existsb _ _); [exact FL|]. destruct (py_index [] 0) as [s0|]; cbn [obind]; [apply M|discriminate].
  - destruct (s <? zlen mb); [apply ONE|exact FL].
  - destruct (existsb _ _); [exact FL|]. destruct (py_index (s :: s' :: sb') 0) as [s0|]; cbn [obind]; [apply M|discriminate].
Qed.

Lemma weights_ho : forall g ts, coadd_weights (map (ho g) ts) = coadd_weights (map fst ts).
Proof. intros g. induction ts as [|t ts IH]; cbn [map coadd_weights]; [reflexivity|]. now rewrite IH. Qed.
Lemma count_ho : forall g A (get : fobs -> option A) ts, (forall t, get (ho g t) = get (fst t)) -> count_plane get (map (ho g) ts) = count_plane get (map fst ts).
Proof.
  intros g A get ts G. unfold count_plane, zlen. f_equal. induction ts as [|t ts IH]; cbn [map filter]; [reflexivity|]. rewrite G.
  destruct (get (fst t)); cbn [List.length]; now rewrite IH.
Qed.
Lemma wsum_ho : forall g get ts ws sh sh', (forall t, get (ho g t) = get (fst t)) -> nr sh = nr sh' -> nc sh = nc sh' ->
  wsum_plane sh get (combine (map (ho g) ts) ws) = wsum_plane sh' get (combine (map fst ts) ws).
Proof.
  intros g get ts ws sh sh' G R C. unfold wsum_plane. rewrite R, C. generalize (ifill (nr sh') (nc sh') 0%Q). revert ws.
  induction ts as [|t ts IH]; intros [|w ws] acc; cbn [map combine fold_left]; try reflexivity. cbn [fst snd]. rewrite G. apply IH.
Qed.
Lemma or_ho : forall g get ts sh sh', (forall t, get (ho g t) = get (fst t)) -> nr sh = nr sh' -> nc sh = nc sh' ->
  or_plane sh get (map (ho g) ts) = or_plane sh' get (map fst ts).
Proof.
  intros g get ts sh sh' G R C. unfold or_plane. rewrite R, C. generalize (ifill (nr sh') (nc sh') 0).
  induction ts as [|t ts IH]; intro acc; cbn [map fold_left]; [reflexivity|]. rewrite G. apply IH.
Qed.
Lemma weight_ho : forall g ts ws sh, same_real (coadd_weight sh (combine (map (ho g) ts) ws)) (coadd_weight sh (combine (map fst ts) ws)).
Proof.
  intros g ts ws sh. split; [reflexivity|]. split; [reflexivity|]. intros i j. unfold coadd_weight. cbn [px].
  assert (E : map (fun x => (px (f_weight (fst x)) i j, snd x)) (combine (map (ho g) ts) ws) = map (fun x => (px (f_weight (fst x)) i j, snd x)) (combine (map fst ts) ws)).
  { revert ws. induction ts as [|t ts IH]; intros [|w ws]; cbn [map combine]; try reflexivity. now rewrite IH. }
  now rewrite E.
Qed.
Lemma all_zero_same : forall a b, same_real a b -> all_pixels (fun w => Qeq_bool w 0) a = all_pixels (fun w => Qeq_bool w 0) b.
Proof.
  intros a b (R & C & V). apply eq_true_iff_eq. rewrite !all_pixels_spec. unfold inside. rewrite R, C.
  split; intros H i j I; specialize (H i j I); apply Qeq_bool_iff; apply Qeq_bool_iff in H; [rewrite <- V|rewrite V]; exact H.
Qed.
Lemma image_ho : forall g ts ws sh,
  nr (wsum_plane sh (fun o => Some (f_image o)) (combine (map (ho g) ts) ws)) = nr sh /\
  nc (wsum_plane sh (fun o => Some (f_image o)) (combine (map (ho g) ts) ws)) = nc sh /\
  forall i j, (px (wsum_plane sh (fun o => Some (f_image o)) (combine (map (ho g) ts) ws)) i j ==
    qsum (map (fun tw => snd tw * px (g (fst tw)) i j) (combine ts ws)))%Q.
Proof.
  intros g ts ws sh. destruct (wsum_plane_val (fun o => Some (f_image o)) (combine (map (ho g) ts) ws) sh) as (R & C & V).
  split; [exact R|]. split; [exact C|]. intros i j. rewrite V.
  assert (E : map (fun x => snd x * px (f_image (fst x)) i j)%Q (combine (map (ho g) ts) ws) = map (fun tw => snd tw * px (g (fst tw)) i j)%Q (combine ts ws)).
  { clear. revert ws. induction ts as [|t ts IH]; intros [|w ws]; cbn [map combine]; try reflexivity. now rewrite IH. }
  now rewrite E.
Qed.
(** The coadd of many bands with the images replaced, against the coadd of the
    first components. *)
Lemma many_ho : forall g ts t0 fp, sized (f_image (fst t0)) (g t0) ->
  snd (coadd_many (map fst ts) (fst t0) fp) = snd (coadd_many (map (ho g) ts) (ho g t0) fp) /\
  same_opt (fun a b => obs_but_image a b /\ sized (f_image (fst t0)) (f_image b) /\
      exists ws, coadd_weights (map fst ts) = Some ws /\
        forall i j, (px (f_image b) i j == qsum (map (fun tw => snd tw * px (g (fst tw)) i j) (combine ts (normalized ws))))%Q)
    (fst (coadd_many (map fst ts) (fst t0) fp)) (fst (coadd_many (map (ho g) ts) (ho g t0) fp)).
Proof.
  intros g ts t0 fp [Sr Sc]. unfold coadd_many. rewrite weights_ho. destruct (coadd_weights (map fst ts)) as [ws|]; [|split; [reflexivity|exact Logic.I]].
  change (f_weight (ho g t0)) with (f_weight (fst t0)). change (f_image (ho g t0)) with (g t0). change (f_jac (ho g t0)) with (f_jac (fst t0)).
  pose proof (weight_ho g ts (normalized ws) (f_weight (fst t0))) as SW. rewrite (all_zero_same _ _ SW).
  destruct (all_pixels _ _); [split; [reflexivity|exact Logic.I]|].
  rewrite (count_ho g _ f_mfrac ts (fun _ => eq_refl)), (count_ho g _ f_noise ts (fun _ => eq_refl)),
    (count_ho g _ f_bmask ts (fun _ => eq_refl)), (count_ho g _ f_ormask ts (fun _ => eq_refl)).
  replace (zlen (map (ho g) ts)) with (zlen (map fst ts)) by (unfold zlen; now rewrite !map_length).
  destruct (negb _); [split; [reflexivity|exact Logic.I]|]. split; [reflexivity|]. cbn [fst same_opt].
  rewrite (wsum_ho g psf_image_of ts _ (p_image fp) (p_image fp) (fun _ => eq_refl) eq_refl eq_refl).
  rewrite (wsum_ho g f_mfrac ts _ (g t0) (f_image (fst t0)) (fun _ => eq_refl) (eq_sym Sr) (eq_sym Sc)).
  rewrite (wsum_ho g f_noise ts _ (g t0) (f_image (fst t0)) (fun _ => eq_refl) (eq_sym Sr) (eq_sym Sc)).
  rewrite (or_ho g f_bmask ts (g t0) (f_image (fst t0)) (fun _ => eq_refl) (eq_sym Sr) (eq_sym Sc)).
  rewrite (or_ho g f_ormask ts (g t0) (f_image (fst t0)) (fun _ => eq_refl) (eq_sym Sr) (eq_sym Sc)).
  destruct (image_ho g ts (normalized ws) (g t0)) as (R & C & V). split; [|split].
  - unfold obs_but_image. cbn [f_weight f_jac f_psf f_mfrac f_noise f_bmask f_ormask]. split.
    { destruct SW as (A & B & D). split; [symmetry; exact A|]. split; [symmetry; exact B|]. intros i j. symmetry. apply D. }
    split; [reflexivity|]. split; [apply same_opt_refl; intro; repeat split; try apply same_real_refl|].
    split; [apply same_opt_refl, same_real_refl|]. split; [apply same_opt_refl, same_real_refl|].
    split; apply same_opt_refl, same_int_refl.
  - unfold sized. cbn [f_image]. rewrite R, C. auto.
  - exists ws. split; [reflexivity|exact V].
Qed.
Lemma obs_but_sym : forall a b, obs_but_image a b -> obs_but_image b a.
Proof.
  assert (SR : forall a b, same_real a b -> same_real b a).
  { intros a b (A & B & D). split; [symmetry; exact A|]. split; [symmetry; exact B|]. intros i j. symmetry. apply D. }
  assert (SI : forall a b, same_int a b -> same_int b a).
  { intros a b (A & B & D). split; [symmetry; exact A|]. split; [symmetry; exact B|]. intros i j. symmetry. apply D. }
  assert (SO : forall A (R : A -> A -> Prop), (forall a b, R a b -> R b a) -> forall x y, same_opt R x y -> same_opt R y x).
  { intros A R H [x|] [y|] K; cbn [same_opt] in *; auto. }
  intros a b (H1 & H2 & H3 & H4 & H5 & H6 & H7). unfold obs_but_image. repeat split; auto; try (apply SR; assumption).
  apply (SO _ same_psf); [|exact H3]. intros p q (P1 & P2 & P3). unfold same_psf. auto.
Qed.
Lemma obs_but_trans : forall a b o, obs_but_image a b -> obs_but_image b o -> obs_but_image a o.
Proof.
  assert (SR : forall a b o, same_real a b -> same_real b o -> same_real a o).
  { intros a b o (A & B & D) (A' & B' & D'). split; [congruence|]. split; [congruence|]. intros i j. rewrite D. apply D'. }
  assert (SI : forall a b o, same_int a b -> same_int b o -> same_int a o).
  { intros a b o (A & B & D) (A' & B' & D'). split; [congruence|]. split; [congruence|]. intros i j. rewrite D. apply D'. }
  assert (SO : forall A (R : A -> A -> Prop), (forall a b o, R a b -> R b o -> R a o) -> forall x y z, same_opt R x y -> same_opt R y z -> same_opt R x z).
  { intros A R H [x|] [y|] [z|] K L; cbn [same_opt] in *; try contradiction; eauto. }
  intros a b o (H1 & H2 & H3 & H4 & H5 & H6 & H7) (K1 & K2 & K3 & K4 & K5 & K6 & K7). unfold obs_but_image.
  split; [eapply SR; eauto|]. split; [congruence|]. split.
  { apply (SO _ same_psf) with (y := f_psf b); auto. intros p q r (P1 & P2 & P3) (Q1 & Q2 & Q3). unfold same_psf.
    split; [eapply SR; eauto|]. split; [eapply SR; eauto|congruence]. }
  split; [eapply SO; eauto|]. split; [eapply SO; eauto|]. split; eapply SO; eauto.
Qed.
Lemma obs_but_refl : forall o im, obs_but_image o (fobs_image o im).
Proof.
  intros o im. unfold obs_but_image. split; [apply same_real_refl|]. split; [reflexivity|]. split; [apply same_opt_refl; intro; repeat split; try apply same_real_refl|].
  split; [apply same_opt_refl, same_real_refl|]. split; [apply same_opt_refl, same_real_refl|]. split; apply same_opt_refl, same_int_refl.
Qed.
Lemma coadd_linear : forall c d (mb : list (list T)) sb,
  (forall l t, In l mb -> In t l -> sized (f_image (fst t)) (snd t)) ->
  three (linear_coadd c d)
    (make_coadd_obs (map (map fst) mb) sb)
    (make_coadd_obs (map (map (fun t => fobs_image (fst t) (snd t))) mb) sb)
    (make_coadd_obs (map (map (fun t => fobs_image (fst t) (combo c d (f_image (fst t)) (snd t)))) mb) sb).
Proof.
  intros c d mb sb S.
  set (g3 := fun t : T => combo c d (f_image (fst t)) (snd t)).
  change (map (map (fun t => fobs_image (fst t) (snd t))) mb) with (map (map (ho snd)) mb).
  change (map (map (fun t => fobs_image (fst t) (combo c d (f_image (fst t)) (snd t)))) mb) with (map (map (ho g3)) mb).
  set (g1 := fun t : T => f_image (fst t)).
  assert (E0 : forall t, ho g1 t = fst t) by (intros [o y]; destruct o; reflexivity).
  assert (E1 : map (map fst) mb = map (map (ho g1)) mb).
  { apply map_ext. intro l. apply map_ext. intro t. now rewrite E0. }
  rewrite E1, !coadd_planned; [|intros; now apply sized_combo|exact S|intros; split; reflexivity].
  destruct (coadd_plan mb sb) as [p|] eqn:P; cbn [obind three]; [|split; reflexivity].
  pose proof (plan_in _ _ _ P) as IN. destruct p as [k|t|ts t0 fp]; cbn [finish].
  - split; [reflexivity|]. split; [reflexivity|exact Logic.I].
  - split; [reflexivity|]. split; [reflexivity|]. cbn [fst three_opt]. split; [|split].
    + split; [reflexivity|]. split; [reflexivity|]. intros i j. reflexivity.
    + rewrite E0. apply obs_but_refl.
    + apply (obs_but_trans _ (fst t)); [apply obs_but_sym|]; apply obs_but_refl.
  - destruct IN as (l & I1 & I2). assert (EE : map (ho g1) ts = map fst ts) by (apply map_ext; exact E0). rewrite EE, E0.
    destruct (many_ho snd ts t0 fp (S _ _ I1 I2)) as [N2 M2].
    destruct (many_ho g3 ts t0 fp (sized_combo c d _ _)) as [N3 M3].
    destruct (many_ho g1 ts t0 fp (conj eq_refl eq_refl)) as [_ M1]. rewrite EE, E0 in M1.
    split; [congruence|]. split; [congruence|].
    destruct (fst (coadd_many (map fst ts) (fst t0) fp)) as [a|], (fst (coadd_many (map (ho snd) ts) _ fp)) as [b|], (fst (coadd_many (map (ho g3) ts) _ fp)) as [o|];
      cbn [same_opt three_opt] in *; try contradiction; [|exact Logic.I].
    destruct M1 as (_ & (S1 & S1') & ws & W & V1). destruct M2 as (B2 & _ & ws2 & W2 & V2). destruct M3 as (B3 & (S3 & S3') & ws3 & W3 & V3).
    assert (ws2 = ws) by congruence. assert (ws3 = ws) by congruence. subst ws2 ws3. split; [|split].
    + split; [congruence|]. split; [congruence|]. intros i j. rewrite V1, V2, V3. unfold g3, g1, combo. cbn [imap2 px].
      exact (qsum_linear _ (fun tw : T * Q => snd tw) (fun tw => px (f_image (fst (fst tw))) i j) (fun tw => px (snd (fst tw)) i j) c d _).
    + exact B3.
    + apply (obs_but_trans _ a); [apply obs_but_sym; exact B2|exact B3].
Qed.
End CoaddLinear.

Section ExpLinear.
Import Lexp_model Lexp_spec Lexp_proofs.
Local Notation T := (exposure * img Q)%type.
Let he (g : T -> img Q) (t : T) : exposure := exp_image (fst t) (g t).
Lemma psf_he : forall g t, sized (e_image (fst t)) (g t) -> psf_at_center (he g t) = psf_at_center (fst t).
Proof. intros g t [R C]. unfold psf_at_center. cbn [he exp_image e_image e_psf]. now rewrite R, C. Qed.
Lemma omap_he : forall g p0 t0 ts, sized (e_image (fst t0)) (g t0) -> (forall t, In t ts -> sized (e_image (fst t)) (g t)) ->
  omap (fun e => do p <- psf_at_center e; if same_size (e_image e) (e_image (he g t0)) && same_size p (p0 : img Q) then Ok p else Raise ValueError) (map (he g) ts) =
  omap (fun e => do p <- psf_at_center e; if same_size (e_image e) (e_image (fst t0)) && same_size p p0 then Ok p else Raise ValueError) (map fst ts).
Proof.
  intros g p0 t0 ts [R0 C0]. induction ts as [|t ts IH]; intro S; cbn [map omap]; [reflexivity|].
  rewrite IH by (intros; apply S; now right). rewrite (psf_he g t) by (apply S; now left). destruct (S t (or_introl eq_refl)) as [R C].
  assert (E : same_size (e_image (he g t)) (e_image (he g t0)) = same_size (e_image (fst t)) (e_image (fst t0))).
  { unfold same_size. cbn [he exp_image e_image]. now rewrite R, C, R0, C0. }
  now rewrite E.
Qed.
Definition exp_nan (ts : list T) : bool := existsb (fun t => match band_weight (fst t) with None => true | _ => false end) ts.
Definition exp_sum (g : T -> img Q) (ts : list T) (i j : Z) : Q :=
  (qsum (map (fun t => goodw i j (fst t, bw (fst t)) * px (g t) i j) ts) * (1 / qsum (map (fun t => bw (fst t)) ts)))%Q.
Lemma exposures_he : forall g t0 r (ts := t0 :: r), (forall t, In t ts -> sized (e_image (fst t)) (g t)) ->
  match coadd_exposures (map fst ts), coadd_exposures (map (he g) ts) with
  | Ok (Some a), Ok (Some b) => same_but_image a b /\ nr (c_image b) = nr (e_image (fst t0)) /\ nc (c_image b) = nc (e_image (fst t0)) /\
      forall i j, same_opt Qeq (px (c_image b) i j) (if exp_nan ts then None else Some (exp_sum g ts i j))
  | Ok None, Ok None => True
  | Raise e, Raise e' => e = e'
  | _, _ => False
  end.
Proof.
  intros g t0 r ts S. pose proof (S t0 (or_introl eq_refl)) as S0. destruct S0 as [R0 C0]. 
  change (map fst ts) with (fst t0 :: map fst r). change (map (he g) ts) with (he g t0 :: map (he g) r). unfold coadd_exposures.
  change (fst t0 :: map fst r) with (map fst ts). change (he g t0 :: map (he g) r) with (map (he g) ts).
  rewrite (psf_he g t0) by (split; assumption). destruct (psf_at_center (fst t0)) as [p0|]; cbn [obind]; [|exact eq_refl].
  rewrite omap_he by (auto; split; assumption). destruct (omap _ (map fst ts)) as [psfs|]; cbn [obind]; [|exact eq_refl].
  assert (N1 : existsb (fun e => match band_weight e with None => true | _ => false end) (map fst ts) = exp_nan ts) by (unfold exp_nan; now rewrite existsb_map).
  assert (N2 : existsb (fun e => match band_weight e with None => true | _ => false end) (map (he g) ts) = exp_nan ts) by (unfold exp_nan; now rewrite existsb_map).
  rewrite N1, N2. assert (B : map bw (map (he g) ts) = map bw (map fst ts)) by (rewrite !map_map; apply map_ext; reflexivity). rewrite B.
  destruct (negb (exp_nan ts) && _); [exact Logic.I|].
  change (e_image (he g t0)) with (g t0). rewrite <- R0, <- C0.
  unfold same_but_image. cbn [c_var c_mask c_psf c_wcs c_x0 c_y0 c_image]. split; [|split; [|split]].
  - repeat split; [|]; unfold sum_weight, or_masks; now rewrite !fold_left_map.
  - cbn [imap nr]. apply sum_image_size.
  - cbn [imap nc]. apply sum_image_size.
  - intros i j. cbn [imap px]. destruct (exp_nan ts); [exact Logic.I|]. cbn [same_opt]. rewrite sum_image_px, map_map. unfold exp_sum.
    rewrite map_map. reflexivity.
Qed.
Lemma exposures_linear : forall c d (ts : list T), (forall t, In t ts -> sized (e_image (fst t)) (snd t)) ->
  three (three_opt (linear_coadded c d))
    (coadd_exposures (map fst ts))
    (coadd_exposures (map (fun t => exp_image (fst t) (snd t)) ts))
    (coadd_exposures (map (fun t => exp_image (fst t) (combo c d (e_image (fst t)) (snd t))) ts)).
Proof.
  intros c d ts S. destruct ts as [|t0 r]; [exact Logic.I|].
  set (g3 := fun t : T => combo c d (e_image (fst t)) (snd t)). set (g1 := fun t : T => e_image (fst t)).
  pose proof (exposures_he g1 t0 r (fun _ _ => conj eq_refl eq_refl)) as H1.
  pose proof (exposures_he snd t0 r S) as H2.
  pose proof (exposures_he g3 t0 r (fun t _ => sized_combo c d (e_image (fst t)) (snd t))) as H3. cbv zeta in H1, H2, H3.
  assert (E1 : map (he g1) (t0 :: r) = map fst (t0 :: r)) by (apply map_ext; intros [e y]; destruct e; reflexivity). rewrite E1 in H1.
  change (map (he snd) (t0 :: r)) with (map (fun t => exp_image (fst t) (snd t)) (t0 :: r)) in H2.
  change (map (he g3) (t0 :: r)) with (map (fun t => exp_image (fst t) (combo c d (e_image (fst t)) (snd t))) (t0 :: r)) in H3.
  destruct (coadd_exposures (map fst (t0 :: r))) as [[a|]|], (coadd_exposures (map (fun t => exp_image (fst t) (snd t)) (t0 :: r))) as [[b|]|],
    (coadd_exposures (map (fun t => exp_image (fst t) (combo c d (e_image (fst t)) (snd t))) (t0 :: r))) as [[o|]|];
    try contradiction; cbn [three three_opt]; [|exact Logic.I|subst; split; reflexivity].
  destruct H1 as (_ & R1 & C1 & V1). destruct H2 as (B2 & R2 & C2 & V2). destruct H3 as (B3 & R3 & C3 & V3). split; [|split].
  - split; [congruence|]. split; [congruence|]. intros i j. specialize (V1 i j). specialize (V2 i j). specialize (V3 i j).
    destruct (exp_nan (t0 :: r)), (px (c_image a) i j) as [u|], (px (c_image b) i j) as [v|], (px (c_image o) i j) as [w|]; cbn [same_opt] in *; try contradiction; [exact Logic.I|].
    rewrite V1, V2, V3. unfold exp_sum, g3, g1, combo. cbn [imap2 px]. rewrite qsum_linear. ring.
  - exact B3.
  - unfold same_but_image in *. intuition congruence.
Qed.

Local Notation U := (lobs * img Q)%type.
Let hl (g : U -> img Q) (t : U) : lobs := lobs_image (fst t) (g t).
Definition obs_nan (ts : list U) : bool := existsb (fun t => match obs_weight (fst t) with None => true | _ => false end) ts.
Definition obs_sum (g : U -> img Q) (ts : list U) (i j : Z) : Q :=
  (qsum (map (fun t => obs_w (fst t) * px (g t) i j) ts) * (1 / qsum (map (fun t => obs_w (fst t)) ts)))%Q.
Lemma obs_fold : forall (g : U -> img Q) (ts : list U) acc,
  let im := fold_left (fun acc t => imap2 (fun a v => (a + v * obs_w (fst t))%Q) acc (g t)) ts acc in
  nr im = nr acc /\ nc im = nc acc /\ forall i j, (px im i j == px acc i j + qsum (map (fun t => obs_w (fst t) * px (g t) i j) ts))%Q.
Proof.
  intros g. induction ts as [|t ts IH]; intro acc; cbn [fold_left map].
  - repeat split. intros i j. unfold qsum. cbn. ring.
  - destruct (IH (imap2 (fun a v => (a + v * obs_w (fst t))%Q) acc (g t))) as (R & C & V). cbv zeta.
    split; [exact R|]. split; [exact C|]. intros i j. rewrite V. cbn [imap2 px].
    change (qsum ((obs_w (fst t) * px (g t) i j)%Q :: map (fun t => (obs_w (fst t) * px (g t) i j)%Q) ts))
      with (obs_w (fst t) * px (g t) i j + qsum (map (fun t => obs_w (fst t) * px (g t) i j) ts))%Q. ring.
Qed.
Lemma last_map : forall A B (f : A -> B) l d, last (map f l) (f d) = f (last l d).
Proof. intros A B f. induction l as [|a [|b l] IH]; intro d; [reflexivity|reflexivity|]. change (last (map f (b :: l)) (f d) = f (last (b :: l) d)). apply IH. Qed.
Lemma mbobs_hl : forall g t0 r (ts := t0 :: r), (forall t, In t ts -> sized (o_image (fst t)) (g t)) ->
  match coadd_mbobs (map fst ts), coadd_mbobs (map (hl g) ts) with
  | Ok a, Ok b => co_weight a = co_weight b /\ co_psf a = co_psf b /\ co_jac a = co_jac b /\
      nr (co_image b) = nr (o_image (fst t0)) /\ nc (co_image b) = nc (o_image (fst t0)) /\
      forall i j, same_opt Qeq (px (co_image b) i j) (if obs_nan ts then None else Some (obs_sum g ts i j))
  | Raise e, Raise e' => e = e'
  | _, _ => False
  end.
Proof.
  intros g t0 r ts S. pose proof (S t0 (or_introl eq_refl)) as S0. destruct S0 as [R0 C0]. 
  change (map fst ts) with (fst t0 :: map fst r). change (map (hl g) ts) with (hl g t0 :: map (hl g) r). unfold coadd_mbobs.
  change (fst t0 :: map fst r) with (map fst ts). change (hl g t0 :: map (hl g) r) with (map (hl g) ts).
  change (op_image (o_psf (hl g t0))) with (op_image (o_psf (fst t0))). change (o_image (hl g t0)) with (g t0).
  assert (F : forallb (fun o => same_size (o_image o) (g t0) && same_size (op_image (o_psf o)) (op_image (o_psf (fst t0)))) (map (hl g) ts) =
    forallb (fun o => same_size (o_image o) (o_image (fst t0)) && same_size (op_image (o_psf o)) (op_image (o_psf (fst t0)))) (map fst ts)).
  { clear -S R0 C0. induction ts as [|t l IH]; cbn [map forallb]; [reflexivity|]. rewrite IH by (intros; apply S; now right).
    destruct (S t (or_introl eq_refl)) as [R C]. f_equal. f_equal. unfold same_size. cbn [hl lobs_image o_image]. now rewrite R, C, R0, C0. }
  rewrite F. destruct (negb _); [exact eq_refl|].
  assert (N1 : existsb (fun e => match obs_weight e with None => true | _ => false end) (map fst ts) = obs_nan ts) by (unfold obs_nan; now rewrite existsb_map).
  assert (N2 : existsb (fun e => match obs_weight e with None => true | _ => false end) (map (hl g) ts) = obs_nan ts) by (unfold obs_nan; now rewrite existsb_map).
  rewrite N1, N2. assert (B : map obs_w (map (hl g) ts) = map obs_w (map fst ts)) by (rewrite !map_map; apply map_ext; reflexivity). rewrite B.
  rewrite <- R0, <- C0. cbn [co_weight co_psf co_jac co_image]. split; [now rewrite !fold_left_map|]. split; [now rewrite !map_map|].
  split; [rewrite (last_map _ _ (hl g) ts t0), (last_map _ _ fst ts t0); reflexivity|].
  destruct (obs_fold g ts (ifill (nr (o_image (fst t0))) (nc (o_image (fst t0))) 0%Q)) as (R & C & V). rewrite fold_left_map.
  split; [exact R|]. split; [exact C|]. intros i j. cbn [imap px]. destruct (obs_nan ts); [exact Logic.I|]. cbn [same_opt]. eapply Qeq_trans; [apply Qmult_comp; [exact (V i j)|reflexivity]|].
  unfold obs_sum. rewrite map_map. cbn [ifill px]. ring.
Qed.
Lemma mbobs_linear : forall c d (ts : list U), (forall t, In t ts -> sized (o_image (fst t)) (snd t)) ->
  three (linear_coaddobs c d)
    (coadd_mbobs (map fst ts))
    (coadd_mbobs (map (fun t => lobs_image (fst t) (snd t)) ts))
    (coadd_mbobs (map (fun t => lobs_image (fst t) (combo c d (o_image (fst t)) (snd t))) ts)).
Proof.
  intros c d ts S. destruct ts as [|t0 r]; [split; reflexivity|].
  set (g3 := fun t : U => combo c d (o_image (fst t)) (snd t)). set (g1 := fun t : U => o_image (fst t)).
  pose proof (mbobs_hl g1 t0 r (fun _ _ => conj eq_refl eq_refl)) as H1.
  pose proof (mbobs_hl snd t0 r S) as H2.
  pose proof (mbobs_hl g3 t0 r (fun t _ => sized_combo c d (o_image (fst t)) (snd t))) as H3. cbv zeta in H1, H2, H3.
  assert (E1 : map (hl g1) (t0 :: r) = map fst (t0 :: r)) by (apply map_ext; intros [e y]; destruct e; reflexivity). rewrite E1 in H1.
  change (map (hl snd) (t0 :: r)) with (map (fun t => lobs_image (fst t) (snd t)) (t0 :: r)) in H2.
  change (map (hl g3) (t0 :: r)) with (map (fun t => lobs_image (fst t) (combo c d (o_image (fst t)) (snd t))) (t0 :: r)) in H3.
  destruct (coadd_mbobs (map fst (t0 :: r))) as [a|], (coadd_mbobs (map (fun t => lobs_image (fst t) (snd t)) (t0 :: r))) as [b|],
    (coadd_mbobs (map (fun t => lobs_image (fst t) (combo c d (o_image (fst t)) (snd t))) (t0 :: r))) as [o|];
    try contradiction; cbn [three]; [|subst; split; reflexivity].
  destruct H1 as (_ & _ & _ & R1 & C1 & V1). destruct H2 as (W2 & P2 & J2 & R2 & C2 & V2). destruct H3 as (W3 & P3 & J3 & R3 & C3 & V3). split.
  - split; [congruence|]. split; [congruence|]. intros i j. specialize (V1 i j). specialize (V2 i j). specialize (V3 i j).
    destruct (obs_nan (t0 :: r)), (px (co_image a) i j) as [u|], (px (co_image b) i j) as [v|], (px (co_image o) i j) as [w|]; cbn [same_opt] in *; try contradiction; [exact Logic.I|].
    rewrite V1, V2, V3. unfold obs_sum, g3, g1, combo. cbn [imap2 px]. rewrite qsum_linear. ring.
  - intuition congruence.
Qed.
End ExpLinear.

Section TaskTimes.
Import Lmdet_model.
Variable c : Q.
Hypothesis Hc : (0 < c)%Q.
Lemma good_vars_times : forall v, good_vars (variances c v) = map (Qmult (1 / c)) (good_vars v).
Proof.
  intro v. unfold good_vars. assert (E : pixels (variances c v) = map (fun v : option Q => match v with Some q => Some (1 / c * q)%Q | None => None end) (pixels v)).
  { unfold pixels, variances, imap. cbn [nr nc px]. now rewrite map_map. }
  rewrite E. clear E. induction (pixels v) as [|[q|] l IH]; cbn [map flat_map app]; [reflexivity| |exact IH].
  rewrite Qle_bool_times by (apply k_pos; exact Hc). destruct (Qle_bool q 0); cbn [app map]; now rewrite IH.
Qed.
Lemma band_wgt_times : forall v, same_outcome (fun a b => (b == c * a)%Q) (band_wgt v) (band_wgt (variances c v)).
Proof.
  intro v. unfold band_wgt. rewrite good_vars_times. pose proof (qmedian_times (1 / c) (good_vars v) (k_pos c Hc)) as H.
  destruct (qmedian (good_vars v)), (qmedian (map _ _)); cbn [same_outcome]; try contradiction; [|reflexivity].
  rewrite H. apply inv_times. exact Hc.
Qed.
Lemma sum_mfracs_times : forall l acc acc', same_opt (times c) acc acc' ->
  same_outcome (fun a b => same_opt (times c) (fst a) (fst b) /\ (qsum (snd b) == c * qsum (snd a))%Q /\ Forall2 (fun w w' => w' == c * w)%Q (snd a) (snd b))
    (sum_mfracs l acc) (sum_mfracs (map (fun vm => (variances c (fst vm), snd vm)) l) acc').
Proof.
  induction l as [|[v m] l IH]; intros acc acc' H; cbn [map sum_mfracs fst snd].
  - cbn [same_outcome fst snd]. split; [exact H|]. split; [unfold qsum; cbn; ring|constructor].
  - pose proof (band_wgt_times v) as B. destruct (band_wgt v) as [w|], (band_wgt (variances c v)) as [w'|]; cbn [same_outcome] in B; try contradiction; [|exact B].
    cbn [obind].
    assert (SC : times c (scale w m) (scale w' m)).
    { split; [reflexivity|]. split; [reflexivity|]. intros i j. cbn [scale imap px]. rewrite B. ring. }
    assert (A : same_outcome (times c) (match acc with None => Ok (scale w m) | Some a => add_img a (scale w m) end)
                                       (match acc' with None => Ok (scale w' m) | Some a => add_img a (scale w' m) end)).
    { destruct acc as [a|], acc' as [a'|]; cbn [same_opt] in H; try contradiction; [|exact SC]. destruct H as (R & C & V). destruct SC as (R' & C' & V').
      unfold add_img. cbn [scale imap nr nc]. rewrite R, C. destruct (_ && _); [|reflexivity]. split; [exact R|]. split; [exact C|].
      intros i j. cbn [imap2 px]. rewrite V, V'. ring. }
    destruct (match acc with None => Ok (scale w m) | Some a => add_img a (scale w m) end) as [a|], (match acc' with None => Ok (scale w' m) | Some a => add_img a (scale w' m) end) as [a'|];
      cbn [same_outcome] in A; try contradiction; [|exact A].
    cbn [obind]. specialize (IH (Some a) (Some a') A).
    destruct (sum_mfracs l (Some a)) as [s|], (sum_mfracs _ (Some a')) as [s'|]; cbn [same_outcome] in IH; try contradiction; [|exact IH].
    cbn [obind same_outcome fst snd]. destruct IH as (I1 & I2 & I3). split; [exact I1|]. split; [|constructor; auto].
    change (qsum (w' :: snd s')) with (w' + qsum (snd s'))%Q. change (qsum (w :: snd s)) with (w + qsum (snd s))%Q. rewrite I2, B. ring.
Qed.
Lemma combine_variances : forall A B C (f : A -> C) (vs : list A) (ms : list B), combine (map f vs) ms = map (fun vm => (f (fst vm), snd vm)) (combine vs ms).
Proof. intros A B C f. induction vs as [|v vs IH]; intros [|m ms]; cbn [map combine fst snd]; try reflexivity. now rewrite IH. Qed.
Lemma task_mfrac_times : forall vars mfracs,
  same_outcome (fun a b => same_real (fst a) (fst b) /\ Forall2 (fun w w' => w' == c * w)%Q (snd a) (snd b))
    (get_mfrac_mbexp vars mfracs) (get_mfrac_mbexp (map (variances c) vars) mfracs).
Proof.
  intros vars [ms|]; [|reflexivity]. unfold get_mfrac_mbexp. rewrite combine_variances.
  pose proof (sum_mfracs_times (combine vars ms) None None Logic.I) as H.
  destruct (sum_mfracs (combine vars ms) None) as [s|], (sum_mfracs (map _ _) None) as [s'|]; cbn [same_outcome] in H; try contradiction; [|exact H].
  cbn [obind]. destruct H as (H1 & H2 & H3). destruct (fst s) as [a|], (fst s') as [a'|]; cbn [same_opt] in H1; try contradiction; [|reflexivity].
  cbn [same_outcome fst snd]. split; [|exact H3]. destruct H1 as (R & C & V). split; [exact R|]. split; [exact C|]. intros i j. cbn [imap px]. rewrite V, H2.
  set (q := qsum (snd s)). destruct (Qeq_dec q 0) as [E|E].
  - rewrite E. unfold Qdiv. assert (X : (/ (c * 0) == 0)%Q) by (rewrite Qmult_0_r; reflexivity). rewrite X. assert (Y : (/ 0 == 0)%Q) by reflexivity. rewrite Y. ring.
  - field. split; [exact E|lra].
Qed.
End TaskTimes.
