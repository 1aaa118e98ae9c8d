(** C35-C41. *)
From Coq Require Import ZArith QArith Lqa Lia List String Bool Permutation.
From Verif Require Import Base Arr Median Flags_model Coadd_model Coadd_spec Wavg_model Wavg_spec Wavg_proofs.
Import ListNotations.
Local Open Scope string_scope.
Local Open Scope Z_scope.

(** ** A concrete setting for the examples *)
(** A make_mom_result: size and shape are the moment ratios, flag 8 for a
    moment 5 that is not positive. *)
Definition ex_mk (m : vec) (c : mat) : momresult :=
  mkMom (ndiv (m 2%nat) (m 4%nat)) (ndiv (m 3%nat) (m 4%nat)) (fun i j => c (i + 2)%nat (j + 2)%nat)
    (ndiv (m 4%nat) (m 5%nat)) (c 4%nat 4%nat) 0 (if ngt0 (m 5%nat) then 0 else 8) 0.
Lemma ex_mk_ext : mk_ext ex_mk.
Proof.
  intros m m' c c' Hm Hc. unfold ex_mk. cbn [mo_e1 mo_e2 mo_ecov mo_T mo_T_err mo_T_flags mo_flags mo_flux_flags].
  assert (ngt0 (m 5%nat) = ngt0 (m' 5%nat)) as ->.
  { pose proof (Hm 5%nat) as H. destruct (m 5%nat) as [a|], (m' 5%nat) as [b|]; cbn in *; try contradiction; auto.
    f_equal. apply Qle_bool_ext. exact H. }
  repeat split; try (apply ndiv_proper; apply Hm); try apply Hc. intros i j; apply Hc.
Qed.
Lemma ex_mk_size : mk_size ex_mk. Proof. intros m c _. reflexivity. Qed.
Lemma ex_mk_shape : mk_shape ex_mk. Proof. intros m c _. split; reflexivity. Qed.
Definition ex_sqrt (q : Q) : Q := q.
Lemma ex_sqrt_ext : sqrt_ext ex_sqrt. Proof. intros x y H. exact H. Qed.
Definition ex_toT (q : Q) : Q := q.
Definition ex_ng := mkNg 1 2 4.
Lemma ex_ng_ok : ng_ok ex_ng. Proof. split; discriminate. Qed.
(** Moments proportional to the total flux [q], with the unit covariance. *)
Definition ex_vec (q : Q) : vec := fun i =>
  Some (match i with 2%nat => q | 4%nat => (3 * q)%Q | 5%nat => q | _ => 0%Q end).
Definition ex_cov : mat := fun i j => Some (if Nat.eqb i j then 1 else 0)%Q.
Definition ex_fit (fl : Z) (q : Q) : fitres :=
  mkFit fl (Some (ex_vec q)) (Some ex_cov) None (Some (Some q)) (Some (Some 1%Q)) (Some 0).
Definition ex_obs (q : Q) : fobs :=
  mkFobs (ifill 1 1 q) (ifill 1 1 2%Q) 0 (Some (mkPsf (ifill 1 1 1%Q) (ifill 1 1 1%Q) 0)) None None
    (Some (ifill 1 1 0)) None.
(** A fitter whose moments are the flux of the stamp; a stamp with a negative
    flux gets fit flag 2. *)
Definition ex_ft : fitter :=
  mkFitter "wmom" (fun o => let q := px (f_image o) 0 0 in Ok (ex_fit (if Qle_bool q 0 then 2 else 0) q))
    (fun p => Ok (ex_fit 0 1%Q)).
Definition ex_run (mb : list (list fobs)) (sb : option (list Z)) (fw : Q) : outcome row :=
  fit_mbobs_wavg ex_ng ex_mk ex_toT ex_sqrt mb ex_ft 1 sb fw true.
Definition ex_mb : list (list fobs) := [[ex_obs 5]; [ex_obs 7]; [ex_obs 1]].

(** ** C35 *)
(** A zero flag means at least one shear band exists, and every existing shear
    band has data: a first observation with a positive weight and no forbidden
    mask bit, fits of object and PSF with moments, and a positive averaging
    weight. Missing: the success of the per band fits, see
    [C35_fit_success_refuted]. *)
Theorem C35_clean_flag_partial : forall ng mk to_T qsqrt mbobs ft bm sb fw sym r,
  fit_mbobs_wavg ng mk to_T qsqrt mbobs ft bm sb fw sym = Ok r -> o_flags r = 0 ->
  (exists b, 0 <= b < zlen mbobs /\ In b (the_shear_bands mbobs sb)) /\
  (forall b ol, 0 <= b -> In b (the_shear_bands mbobs sb) -> nth_error mbobs (Z.to_nat b) = Some ol ->
     usable_band ft bm sym ol).
Proof. exact wavg_clean. Qed.
Print Assumptions C35_clean_flag_partial.

(** In every band, shear band or not, the data passed the checks. *)
Theorem C35_every_band : forall ng mk to_T qsqrt mbobs ft bm sb fw sym r,
  fit_mbobs_wavg ng mk to_T qsqrt mbobs ft bm sb fw sym = Ok r -> o_flags r = 0 ->
  forall ol, In ol mbobs -> checked_band bm sym ol.
Proof. exact wavg_every_band. Qed.
Print Assumptions C35_every_band.

(** The same for any per band results: the shear bands contributed, with a
    positive total weight, and no band at all is flagged or missing. *)
Theorem C35_clean_combination : forall ng mk to_T qsqrt js sb fw r,
  combine_bands ng mk to_T qsqrt js sb fw = Ok r -> o_flags r = 0 ->
  (exists j, In j js /\ j_is j = true) /\
  (forall j, In j js -> j_is j = true -> contributed j) /\
  (forall j, In j js -> j_flags j = 0 /\ j_res j <> None) /\
  (0 < qsum (map fst (shear_fits js)))%Q.
Proof. exact clean_bands. Qed.
Print Assumptions C35_clean_combination.

(** Lists of different lengths, or no shear band, are flagged. *)
Theorem C35_inconsistent_lists : forall ng mk to_T qsqrt res psf issb wg fl sb fw r,
  combine_fit_results_wavg ng mk to_T qsqrt res psf issb wg fl sb fw = Ok r ->
  ~ (List.length psf = List.length res /\ List.length issb = List.length res /\
     List.length wg = List.length res /\ List.length fl = List.length res) \/ ~ In true issb ->
  (In true issb -> res <> [] -> has_flag (o_obj_flags r) (flag_value INCONSISTENT_BANDS)) /\
  (~ In true issb \/ res = [] -> has_flag (o_obj_flags r) (flag_value MISSING_BAND)).
Proof. exact combine_mismatch. Qed.
Print Assumptions C35_inconsistent_lists.

Example C35_example : exists r, ex_run ex_mb (Some [0; 1]) 0 = Ok r /\ o_flags r = 0.
Proof. eexists. split; [vm_compute; reflexivity | vm_compute; reflexivity]. Qed.

(** A flag 0 does not mean the fit of every shear band succeeded: here the fit
    of shear band 1 reports flag 2. *)
Theorem C35_fit_success_refuted : exists mb r o f,
  fit_mbobs_wavg ex_ng ex_mk ex_toT ex_sqrt mb ex_ft 1 None 0 true = Ok r /\ o_flags r = 0 /\
  nth_error mb 1 = Some [o] /\ k_go ex_ft o = Ok f /\ r_flags f <> 0.
Proof.
  exists [[ex_obs 5]; [ex_obs (-1)]]. do 3 eexists.
  split; [vm_compute; reflexivity|]. split; [vm_compute; reflexivity|]. split; [reflexivity|].
  split; [reflexivity|]. vm_compute. discriminate.
Qed.
Print Assumptions C35_fit_success_refuted.

(** ** C36 *)
Theorem C36_psf_failure_propagates : forall ng mk to_T qsqrt res psf issb wg fl sb fw r,
  combine_fit_results_wavg ng mk to_T qsqrt res psf issb wg fl sb fw = Ok r ->
  (o_psf_flags r <> 0 -> has_flag (o_obj_flags r) (flag_value PSF_FAILURE)) /\
  o_flags r = Z.lor (o_obj_flags r) (zor (o_band_flux_flags r)).
Proof. exact combine_flags. Qed.
Print Assumptions C36_psf_failure_propagates.
Example C36_example : exists r,
  combine_bands ex_ng ex_mk ex_toT ex_sqrt [mkBand 1 (Some (ex_fit 0 5)) None true 0] [0] 0 = Ok r /\ o_psf_flags r <> 0.
Proof. eexists. split; [vm_compute; reflexivity | vm_compute; discriminate]. Qed.

(** ** C37 *)
(** The columns are those of the weighted means of the normalised moments. *)
Theorem C37_weighted_means : forall ng mk to_T qsqrt js sb fw r,
  ng_ok ng -> mk_ext mk -> sqrt_ext qsqrt ->
  combine_bands ng mk to_T qsqrt js sb fw = Ok r -> o_obj_flags r = 0 ->
  let l := shear_fits js in
  let m := mk (fun i => wmean l (fun r => normalised r i)) (fun i j => wmean_var l (fun r => normalised_cov r i j)) in
  neqv (o_T r) (mo_T m) /\ neqv (o_T_err r) (mo_T_err m) /\ o_T_flags r = mo_T_flags m /\
  ((fw <= 0)%Q -> neqv (fst (o_g r)) (mo_e1 m) /\ neqv (snd (o_g r)) (mo_e2 m) /\ ceqv (o_g_cov r) (mo_ecov m)) /\
  exists v, neqv (wmean_var l flux_var_of) (Some v) /\ (0 < v)%Q /\
    neqv (o_s2n r) (ndiv (wmean l flux_of) (Some (qsqrt v))).
Proof. exact wavg_means. Qed.
Print Assumptions C37_weighted_means.

Theorem C37_scale_weights : forall ng mk to_T qsqrt c js sb fw r r', (0 < c)%Q ->
  mk_ext mk -> sqrt_ext qsqrt ->
  combine_bands ng mk to_T qsqrt js sb fw = Ok r ->
  combine_bands ng mk to_T qsqrt (map (scale_weight c) js) sb fw = Ok r' ->
  row_equiv r r' /\ o_flags r = o_flags r' /\ o_band_flux_flags r = o_band_flux_flags r' /\
  o_band_flux r = o_band_flux r' /\ o_band_flux_err r = o_band_flux_err r'.
Proof. exact combine_scale. Qed.
Print Assumptions C37_scale_weights.

Theorem C37_permute_bands : forall ng mk to_T qsqrt js js' sb fw r r',
  mk_ext mk -> sqrt_ext qsqrt -> Permutation js js' ->
  combine_bands ng mk to_T qsqrt js sb fw = Ok r -> combine_bands ng mk to_T qsqrt js' sb fw = Ok r' ->
  row_equiv r r' /\ o_flags r = o_flags r'.
Proof. exact combine_perm_flags. Qed.
Print Assumptions C37_permute_bands.

(** Only the shear bands matter: bands not used for shear may be changed, added
    or removed. *)
Theorem C37_other_bands : forall ng mk to_T qsqrt js js' sb fw r r',
  mk_ext mk -> sqrt_ext qsqrt -> Permutation (filter j_is js) (filter j_is js') ->
  combine_bands ng mk to_T qsqrt js sb fw = Ok r -> combine_bands ng mk to_T qsqrt js' sb fw = Ok r' ->
  row_equiv r r'.
Proof. exact combine_perm. Qed.
Print Assumptions C37_other_bands.

Theorem C37_one_band : forall ng mk to_T qsqrt js sb fw r j f,
  ng_ok ng -> mk_ext mk -> sqrt_ext qsqrt ->
  combine_bands ng mk to_T qsqrt js sb fw = Ok r -> o_obj_flags r = 0 ->
  filter j_is js = [j] -> j_res j = Some f ->
  let m := mk (normalised f) (normalised_cov f) in
  neqv (o_T r) (mo_T m) /\ neqv (o_T_err r) (mo_T_err m) /\ o_T_flags r = mo_T_flags m /\
  ((fw <= 0)%Q -> neqv (fst (o_g r)) (mo_e1 m) /\ neqv (snd (o_g r)) (mo_e2 m) /\ ceqv (o_g_cov r) (mo_ecov m)).
Proof. exact wavg_one_band. Qed.
Print Assumptions C37_one_band.

Definition ex_js : list band :=
  [mkBand 1 (Some (ex_fit 0 5)) (Some (ex_fit 0 1)) true 0; mkBand 3 (Some (ex_fit 0 9)) (Some (ex_fit 0 1)) true 0;
   mkBand 2 (Some (ex_fit 0 1)) (Some (ex_fit 0 1)) false 0].
Example C37_example : ng_ok ex_ng /\ mk_ext ex_mk /\ sqrt_ext ex_sqrt /\
  (exists r, combine_bands ex_ng ex_mk ex_toT ex_sqrt ex_js [0; 1] 0 = Ok r /\ o_obj_flags r = 0) /\
  (exists r', combine_bands ex_ng ex_mk ex_toT ex_sqrt (map (scale_weight 2) ex_js) [0; 1] 0 = Ok r') /\
  neqv (wmean (shear_fits ex_js) (fun r => normalised r 5%nat)) (Some 8%Q).
Proof.
  split; [apply ex_ng_ok|]. split; [apply ex_mk_ext|]. split; [apply ex_sqrt_ext|].
  split; [eexists; split; vm_compute; reflexivity|]. split; [eexists; vm_compute; reflexivity|]. reflexivity.
Qed.

(** ** C38 *)
Theorem C38_star_size_ratio : forall ng mk to_T qsqrt js sb fw r,
  mk_size mk -> combine_bands ng mk to_T qsqrt js sb fw = Ok r -> o_obj_flags r = 0 ->
  (forall j, In j js -> j_is j = true -> star_band j) ->
  neqv (o_psf_T r) (o_T r) /\
  (forall t, o_T r = Some t -> ~ (t == 0)%Q -> neqv (o_T_ratio r) (Some 1%Q)).
Proof. exact star_ratio. Qed.
Print Assumptions C38_star_size_ratio.
(** The shapes agree as well, without regularization. *)
Theorem C38_star_shape : forall ng mk to_T qsqrt js sb fw r, (fw <= 0)%Q ->
  mk_shape mk -> combine_bands ng mk to_T qsqrt js sb fw = Ok r -> o_obj_flags r = 0 ->
  (forall j, In j js -> j_is j = true -> star_band j) ->
  neqv (fst (o_psf_g r)) (fst (o_g r)) /\ neqv (snd (o_psf_g r)) (snd (o_g r)).
Proof. exact star_shape. Qed.
Print Assumptions C38_star_shape.

Example C38_example : (forall j, In j ex_js -> j_is j = true -> star_band j) /\ mk_size ex_mk /\ mk_shape ex_mk /\
  exists r t, combine_bands ex_ng ex_mk ex_toT ex_sqrt ex_js [0; 1] 0 = Ok r /\ o_obj_flags r = 0 /\
    o_T r = Some t /\ ~ (t == 0)%Q.
Proof.
  split.
  { assert (H : forall w q, (0 < q)%Q -> star_band (mkBand w (Some (ex_fit 0 q)) (Some (ex_fit 0 1)) true 0)).
    { intros w q Hq. exists (ex_fit 0 q), (ex_fit 0 1), (ex_vec q), (ex_vec 1), q.
      split; [reflexivity|]. split; [reflexivity|]. split; [reflexivity|]. split; [reflexivity|]. split; [exact Hq|].
      split.
      - intros i. exists (match i with 2%nat => 1%Q | 4%nat => (3 * 1)%Q | 5%nat => 1%Q | _ => 0%Q end). split; [reflexivity|].
        unfold ex_vec. cbn [neqv]. destruct i as [|[|[|[|[|[|i]]]]]]; ring.
      - split; [exists 1%Q; split; [reflexivity | discriminate]|]. left; split; reflexivity. }
    intros j [<-|[<-|[<-|[]]]] Hi; try discriminate Hi; apply H; reflexivity. }
  split; [apply ex_mk_size|]. split; [apply ex_mk_shape|].
  do 2 eexists. split; [vm_compute; reflexivity|]. split; [vm_compute; reflexivity|].
  split; [vm_compute; reflexivity|]. vm_compute. discriminate.
Qed.

(** ** C39 *)
(** Refuted for the weighted average fitter: shear band 5 of three bands is
    silently ignored. *)
Theorem C39_missing_shear_band_refuted : exists r,
  fit_mbobs_wavg ex_ng ex_mk ex_toT ex_sqrt ex_mb ex_ft 1 (Some [0; 5]) 0 true = Ok r /\
  o_flags r = 0 /\ o_shear_bands r = "05".
Proof. eexists. split; [vm_compute; reflexivity|]. split; vm_compute; reflexivity. Qed.
Print Assumptions C39_missing_shear_band_refuted.
(** What holds: it is reported when none of the shear bands exists. *)
Theorem C39_no_shear_band_partial : forall ng mk to_T qsqrt mbobs ft bm sb fw sym r,
  fit_mbobs_wavg ng mk to_T qsqrt mbobs ft bm (Some sb) fw sym = Ok r ->
  (forall b, In b sb -> ~ 0 <= b < zlen mbobs) ->
  has_flag (o_obj_flags r) (flag_value MISSING_BAND) /\ o_flags r <> 0.
Proof. exact wavg_no_shear_band. Qed.
Print Assumptions C39_no_shear_band_partial.
(** What happens otherwise: only the shear bands that exist are used. Requests that
    name the same existing bands give the same row, but for the label. *)
Theorem C39_ignored : forall ng mk to_T qsqrt mbobs ft bm sb sb' fw sym r,
  fit_mbobs_wavg ng mk to_T qsqrt mbobs ft bm (Some sb) fw sym = Ok r ->
  (List.length sb' <= 6)%nat -> (forall b, 0 <= b < zlen mbobs -> (In b sb <-> In b sb')) ->
  exists r', fit_mbobs_wavg ng mk to_T qsqrt mbobs ft bm (Some sb') fw sym = Ok r' /\ row_but_label r r' /\ o_shear_bands r' = band_label sb'.
Proof. exact wavg_ignores. Qed.
Print Assumptions C39_ignored.
Example C39_example : exists r, ex_run ex_mb (Some [7; 5]) 0 = Ok r.
Proof. eexists. vm_compute. reflexivity. Qed.

(** ** C40 *)
Theorem C40_label_refuted : exists a b, a <> b /\ (List.length a <= 6)%nat /\ (List.length b <= 6)%nat /\
  ~ Permutation a b /\ band_label a = band_label b.
Proof.
  exists [1; 2], [12]. repeat split; try (cbn; lia); try discriminate.
  intros H. apply Permutation_length in H. discriminate.
Qed.
Print Assumptions C40_label_refuted.
(** The label is cut after six characters, so that a band may not show at all. *)
Theorem C40_truncated_refuted : exists ra rb,
  ex_run (repeat [ex_obs 5] 14) (Some [10; 11; 12]) 0 = Ok ra /\ ex_run (repeat [ex_obs 5] 14) (Some [10; 11; 12; 13]) 0 = Ok rb /\
  o_shear_bands ra = o_shear_bands rb.
Proof. do 2 eexists. split; [vm_compute; reflexivity|]. split; vm_compute; reflexivity. Qed.
Print Assumptions C40_truncated_refuted.
(** For the weighted average fitter with band numbers 0 to 9 the label of the
    row determines the shear bands, up to their order, and conversely. *)
Theorem C40_label_partial : forall ng mk to_T qsqrt mb ft bm sb fw sym r mb' ft' bm' sb' fw' sym' r',
  fit_mbobs_wavg ng mk to_T qsqrt mb ft bm sb fw sym = Ok r ->
  fit_mbobs_wavg ng mk to_T qsqrt mb' ft' bm' sb' fw' sym' = Ok r' ->
  let l := the_shear_bands mb sb in let l' := the_shear_bands mb' sb' in
  (forall z, In z l -> 0 <= z <= 9) -> (forall z, In z l' -> 0 <= z <= 9) ->
  (o_shear_bands r = o_shear_bands r' <-> Permutation l l').
Proof.
  intros ng mk to_T qsqrt mb ft bm sb fw sym r mb' ft' bm' sb' fw' sym' r' H H' l l' Hd Hd'.
  destruct (wavg_label _ _ _ _ _ _ _ _ _ _ _ H) as [-> L]. destruct (wavg_label _ _ _ _ _ _ _ _ _ _ _ H') as [-> L'].
  apply label_digits; assumption.
Qed.
Print Assumptions C40_label_partial.
Example C40_example : exists r, ex_run ex_mb (Some [2; 0]) 0 = Ok r /\ o_shear_bands r = "02".
Proof. eexists. split; vm_compute; reflexivity. Qed.

(** ** C41 *)
(** Fluxes, sizes and the signal to noise do not depend on the regularization. *)
Theorem C41_flux_and_size_unchanged : forall ng mk to_T qsqrt raw cov fl fv fw fw',
  let m := make_mom_res ng mk to_T qsqrt raw cov fl fv fw in
  let m' := make_mom_res ng mk to_T qsqrt raw cov fl fv fw' in
  m_flux m = m_flux m' /\ m_flux_err m = m_flux_err m' /\ m_s2n m = m_s2n m' /\
  m_T m = m_T m' /\ m_T_err m = m_T_err m' /\ m_T_flags m = m_T_flags m' /\ m_flux m = fl.
Proof. exact mom_res_flux. Qed.
Print Assumptions C41_flux_and_size_unchanged.
Theorem C41_zero_is_plain : forall ng mk to_T qsqrt raw cov fl fv fw, (fw <= 0)%Q ->
  let m := make_mom_res ng mk to_T qsqrt raw cov fl fv fw in
  m_e1 m = mo_e1 (mk raw cov) /\ m_e2 m = mo_e2 (mk raw cov) /\ m_ecov m = mo_ecov (mk raw cov).
Proof. exact mom_res_plain. Qed.
Print Assumptions C41_zero_is_plain.
(** With a positive regularization the shape is M/(T + T_reg), in terms of the
    moments M2/(M4 + T_reg M5); nan centroid moments do not spread. *)
Theorem C41_regularized_shape : forall ng mk to_T qsqrt raw cov fl fv fw, (0 < fw)%Q -> mk_shape mk ->
  (forall i, (2 <= i <= 5)%nat -> raw i <> None) ->
  let m := make_mom_res ng mk to_T qsqrt raw cov fl fv fw in
  m_flags m = 0 ->
  neqv (m_e1 m) (ndiv (raw 2%nat) (nadd (raw 4%nat) (nmul (Some (to_T fw)) (raw 5%nat)))) /\
  neqv (m_e2 m) (ndiv (raw 3%nat) (nadd (raw 4%nat) (nmul (Some (to_T fw)) (raw 5%nat)))).
Proof. exact reg_shape. Qed.
Print Assumptions C41_regularized_shape.
(** The moments and covariance behind it: only moment 4 changes, by T_reg times
    moment 5 (larger for positive flux), and the covariance is propagated. *)
Theorem C41_regularized_moments : forall ng mk to_T qsqrt raw cov fl fv fw, (0 < fw)%Q ->
  (forall i, (2 <= i <= 5)%nat -> raw i <> None) ->
  (forall i j, (i <= 5)%nat -> (j <= 5)%nat -> cov i j <> None) ->
  exists raw' cov', let m := make_mom_res ng mk to_T qsqrt raw cov fl fv fw in
  m_e1 m = mo_e1 (mk raw' cov') /\ m_e2 m = mo_e2 (mk raw' cov') /\ m_ecov m = mo_ecov (mk raw' cov') /\
  has_flag (m_flags m) (mo_flags (mk raw' cov')) /\
  (forall i, (i <= 5)%nat -> i <> 4%nat -> neqv (raw' i) (raw i)) /\
  neqv (raw' 4%nat) (nadd (raw 4%nat) (nmul (Some (to_T fw)) (raw 5%nat))) /\
  (forall a b t, raw 4%nat = Some a -> raw 5%nat = Some b -> raw' 4%nat = Some t -> (0 < b)%Q -> (0 < to_T fw)%Q -> (a < t)%Q) /\
  forall i j, (i <= 5)%nat -> (j <= 5)%nat ->
    let right k := if Nat.eqb j 4 then nadd (cov k 4%nat) (nmul (Some (to_T fw)) (cov k 5%nat)) else cov k j in
    neqv (cov' i j) (if Nat.eqb i 4 then nadd (right 4%nat) (nmul (Some (to_T fw)) (right 5%nat)) else right i).
Proof.
  intros ng mk to_T qsqrt raw cov fl fv fw Hf Hr Hc.
  exists (reg_moments (to_T fw) raw), (reg_cov (to_T fw) cov). cbv zeta.
  destruct (mom_res_reg ng mk to_T qsqrt raw cov fl fv fw Hf) as (R1 & R2 & R3 & R4).
  destruct (reg_moments_vals (to_T fw) raw Hr) as [V1 V2].
  split; [exact R1|]. split; [exact R2|]. split; [exact R3|]. split; [exact R4|]. split; [exact V1|]. split; [exact V2|].
  split; [|apply reg_cov_vals; exact Hc].
  intros a b t Ha Hb Ht Hb0 Ht0. rewrite Ha, Hb, Ht in V2. cbn in V2. rewrite V2. nra.
Qed.
Print Assumptions C41_regularized_moments.
(** A flux that is not positive and a variance that is not positive (or nan)
    always set their flag, and the flags of the plain moments are kept. *)
Theorem C41_flags : forall ng mk to_T qsqrt raw cov fl fv fw,
  let m := make_mom_res ng mk to_T qsqrt raw cov fl fv fw in
  (forall q, fl = Some q -> (q <= 0)%Q -> has_flag (m_flags m) (NONPOS_FLUX ng)) /\
  ((forall q, fv = Some q -> (q <= 0)%Q) ->
     has_flag (m_flags m) (NONPOS_VAR ng) /\ has_flag (m_flux_flags m) (NONPOS_VAR ng) /\
     m_flux_err m = None /\ m_s2n m = None) /\
  (forall q, fv = Some q -> (0 < q)%Q -> m_flux_err m = Some (qsqrt q) /\ m_s2n m = ndiv fl (Some (qsqrt q))) /\
  has_flag (m_flags m) (mo_flags (mk raw cov)).
Proof. exact mom_res_flags. Qed.
Print Assumptions C41_flags.
Example C41_example :
  let m := make_mom_res ex_ng ex_mk ex_toT ex_sqrt (ex_vec 6) ex_cov (Some 6%Q) (Some 1%Q) 1 in
  m_flags m = 0 /\ neqv (m_e1 m) (Some (1 # 4)%Q) /\ neqv (m_T m) (Some 3%Q) /\
  (forall i, (2 <= i <= 5)%nat -> ex_vec 6 i <> None) /\ (forall i j, (i <= 5)%nat -> (j <= 5)%nat -> ex_cov i j <> None).
Proof. repeat split; try (vm_compute; reflexivity); intros; discriminate. Qed.

(** ** C83 *)
(** A band that cannot be measured (no observation, no positive weight, a
    forbidden mask bit) gets the matching flag and nan fluxes, the row gets the
    flag, and if it is a shear band nothing is measured and both the object and
    the PSF carry the flag. *)
Theorem C83_band_problem : forall ng mk to_T qsqrt mbobs ft bm sb fw sym r b0 k ol fl,
  fit_mbobs_wavg ng mk to_T qsqrt mbobs ft bm sb fw sym = Ok r ->
  0 <= b0 < zlen mbobs -> In b0 (the_shear_bands mbobs sb) -> nth_error mbobs k = Some ol ->
  band_problem bm sym ol fl ->
  (exists v, band_cols r k None None v /\ has_flag v fl) /\ has_flag (o_flags r) fl /\
  (In (Z.of_nat k) (the_shear_bands mbobs sb) ->
     has_flag (o_obj_flags r) fl /\ has_flag (o_psf_flags r) fl /\ no_measurement r /\
     o_psf_g r = (None, None) /\ o_psf_T r = None).
Proof. exact wavg_problem. Qed.
Print Assumptions C83_band_problem.
(** A band without such a problem reports the flux, error and flag of its own
    fit, whether it is used for shear or not. *)
Theorem C83_band_fluxes : forall ng mk to_T qsqrt mbobs ft bm sb fw sym r b0 k o rest o',
  fit_mbobs_wavg ng mk to_T qsqrt mbobs ft bm sb fw sym = Ok r ->
  0 <= b0 < zlen mbobs -> In b0 (the_shear_bands mbobs sb) -> nth_error mbobs k = Some (o :: rest) ->
  (forall fl, ~ band_problem bm sym (o :: rest) fl) -> fitted_obs sym o o' ->
  exists fr, k_go ft o' = Ok fr /\
    match r_flux fr, r_flux_err fr, r_flux_flags fr with
    | Some x, Some e, Some v => band_cols r k x e v
    | _, _, _ => band_cols r k None None (flag_value NOMOMENTS_FAILURE)
    end.
Proof. exact wavg_band_fluxes. Qed.
Print Assumptions C83_band_fluxes.
(** The size ratio is the ratio of the size columns for a clean object, and nan
    whenever the PSF is flagged. *)
Theorem C83_size_ratio : forall ng mk to_T qsqrt res psf issb wg fl sb fw r,
  combine_fit_results_wavg ng mk to_T qsqrt res psf issb wg fl sb fw = Ok r ->
  (o_psf_flags r <> 0 -> o_T_ratio r = None) /\
  (o_obj_flags r = 0 -> o_T_ratio r = ndiv (o_T r) (o_psf_T r)).
Proof. exact combine_ratio. Qed.
Print Assumptions C83_size_ratio.
(** A PSF of zero flux, or an object fit of zero norm, is flagged. *)
Theorem C83_zero_norm : forall ng mk to_T qsqrt js sb fw r j p fr mp mo,
  combine_bands ng mk to_T qsqrt js sb fw = Ok r -> In j js -> j_is j = true ->
  j_res j = Some fr -> j_psf j = Some p -> r_mom fr = Some mo -> r_mom p = Some mp ->
  (exists q, mp 5%nat = Some q /\ (q == 0)%Q) \/
  (exists no np, r_norm fr = Some (Some no) /\ r_norm p = Some (Some np) /\ (no == 0)%Q) ->
  has_flag (o_psf_flags r) (flag_value ZERO_WEIGHTS) /\ has_flag (o_obj_flags r) (flag_value PSF_FAILURE).
Proof. exact zero_norm_flag. Qed.
Print Assumptions C83_zero_norm.
(** Adaptive moments through this function are for one band only. *)
Theorem C83_am_one_band : forall ng mk to_T qsqrt mbobs ft bm sb fw sym,
  k_kind ft = "am" -> List.length mbobs <> 1%nat ->
  fit_mbobs_wavg ng mk to_T qsqrt mbobs ft bm sb fw sym = Raise AssertionError.
Proof.
  intros ng mk to_T qsqrt mbobs ft bm sb fw sym Hk Hl. unfold fit_mbobs_wavg. rewrite Hk.
  apply Nat.eqb_neq in Hl. rewrite Hl. reflexivity.
Qed.
Print Assumptions C83_am_one_band.

(** Bands 0 to 3: fine, missing, without weight, with a masked pixel. *)
Definition ex_bad_mb : list (list fobs) :=
  [[ex_obs 5]; []; [mkFobs (ifill 1 1 5%Q) (ifill 1 1 0%Q) 0 None None None (Some (ifill 1 1 0)) None];
   [mkFobs (ifill 1 1 5%Q) (ifill 1 1 2%Q) 0 None None None (Some (ifill 1 1 3)) None]].
Example C83_example : (exists r, ex_run ex_bad_mb (Some [0]) 0 = Ok r /\ o_obj_flags r = 0 /\ o_flags r <> 0) /\
  (exists r, ex_run ex_bad_mb None 0 = Ok r) /\
  band_problem 1 true [] (flag_value MISSING_BAND) /\
  (forall o, In o (nth 2 ex_bad_mb []) -> band_problem 1 true [o] (flag_value ZERO_WEIGHTS)) /\
  (forall o, In o (nth 3 ex_bad_mb []) -> band_problem 1 true [o] (flag_value EDGE_HIT)) /\
  (forall fl, ~ band_problem 1 true [ex_obs 5] fl).
Proof.
  split; [eexists; split; [vm_compute; reflexivity|]; split; vm_compute; [reflexivity|discriminate]|].
  split; [eexists; vm_compute; reflexivity|]. split; [apply no_observation|].
  split.
  { intros o [<-|[]]. eapply no_weight; [vm_compute; reflexivity|]. intros (i & j & Hi & Hq).
    unfold inside in Hi. cbn [nr nc f_weight] in Hi. assert (i = 0) by lia. assert (j = 0) by lia. subst. vm_compute in Hq. discriminate. }
  split.
  { intros o [<-|[]]. eapply masked_pixel with (i := 0) (j := 0); [vm_compute; reflexivity | reflexivity | |].
    - unfold inside. cbn. lia.
    - vm_compute. discriminate. }
  intros fl H. inversion H as [|o rest o' Hf Hw|o rest o' b i j Hf Hb Hi Hm]; subst; unfold fitted_obs in Hf.
  - apply Hw. vm_compute in Hf. apply Ok_inj in Hf. subst o'. exists 0, 0. split; [unfold inside; cbn; lia|]. vm_compute. reflexivity.
  - vm_compute in Hf. apply Ok_inj in Hf. subst o'. apply Some_inj in Hb. subst b. apply Hm. reflexivity.
Qed.
