(** C39 (joint fitters), C44, C46 and C47. *)
From Coq Require Import ZArith QArith Lqa Lia List String Bool.
From Verif Require Import Base Arr Median Flags_model Coadd_model Coadd_spec Wavg_model Wavg_spec Joint_model Joint_spec Joint_proofs.
Import ListNotations.
Local Open Scope string_scope.
Local Open Scope Z_scope.

(** ** A concrete setting for the examples *)
Definition ex_obs (q w : Q) (b : Z) : fobs :=
  mkFobs (ifill 1 1 q) (ifill 1 1 w) 0 (Some (mkPsf (ifill 1 1 1%Q) (ifill 1 1 1%Q) 0)) None None
    (Some (ifill 1 1 b)) None.
Definition ex_ng := mkNg 1 2 4.
Definition ex_mb : list (list fobs) := [[ex_obs 5 2 0]; [ex_obs 7 4 0]; [ex_obs 1 2 0]].
(** The object fit reports one flux per stamp, and fails for a negative first
    flux; the PSF of the k-th stamp has size k+1. *)
Definition ex_boot (mb : list (list fobs)) : bootout :=
  let fl := map (fun o => px (f_image o) 0 0) (List.concat mb) in
  match fl with
  | [] => BootOther
  | q :: _ => BootOk (mkGauss (if Qle_bool q 0 then 4 else 0) (Some 10%Q) (Some q, Some 0%Q) (fun _ _ => Some 1%Q)
                        (Some 4%Q) (Some 1%Q) (map Some fl) (map (fun _ => Some 1%Q) fl))
                     (fun k => mkPsfres 0 (Some (inject_Z (Z.of_nat k) + 1)%Q) (Some 0%Q, Some 0%Q))
  end.
Definition ex_am : amres := mkAm 0 0 (Some 4%Q) (Some 1%Q) (Some 10%Q) (Some (1#10)%Q, Some 0%Q) (fun _ _ => Some 1%Q).
Definition ex_rp (p : psfobs) : outcome amres := Ok ex_am.
Definition ex_ro (o : fobs) : outcome amres := Ok ex_am.

(** ** C39, joint fitters *)
(** The Gaussian fitter flags an object when a requested shear band is beyond
    the last band. *)
Theorem C39_gauss_missing_band : forall ng boot mbobs bm sb coadd r b,
  fit_mbobs_gauss ng boot mbobs bm (Some sb) coadd = Ok r -> In b sb -> zlen mbobs <= b -> o_flags r <> 0.
Proof. exact gauss_missing_band. Qed.
Print Assumptions C39_gauss_missing_band.
Example C39_gauss_example : exists r, fit_mbobs_gauss ex_ng ex_boot ex_mb 1 (Some [0; 5]) false = Ok r /\ o_flags r <> 0.
Proof. eexists. split; [vm_compute; reflexivity | vm_compute; discriminate]. Qed.
(** So do adaptive moments, unless there is exactly one band. *)
Theorem C39_admom_missing_band_partial : forall ng rp ro mbobs bm sb sym r b,
  fit_mbobs_admom ng rp ro mbobs bm (Some sb) sym = Ok r -> zlen mbobs <> 1 -> In b sb -> zlen mbobs <= b -> o_flags r <> 0.
Proof. exact admom_missing_band. Qed.
Print Assumptions C39_admom_missing_band_partial.
Example C39_admom_example : exists r, fit_mbobs_admom ex_ng ex_rp ex_ro ex_mb 1 (Some [0; 5]) true = Ok r /\ o_flags r <> 0.
Proof. eexists. split; [vm_compute; reflexivity | vm_compute; discriminate]. Qed.
(** With one band the missing band 5 is ignored. *)
Theorem C39_admom_one_band_refuted : exists r,
  fit_mbobs_admom ex_ng ex_rp ex_ro [[ex_obs 5 2 0]] 1 (Some [0; 5]) true = Ok r /\ o_flags r = 0 /\ o_shear_bands r = "05".
Proof. eexists. split; [vm_compute; reflexivity|]. split; vm_compute; reflexivity. Qed.
Print Assumptions C39_admom_one_band_refuted.

(** ** C44 *)
(** A Gaussian fit row with flag 0: usable data in every band, no missing shear
    band, and the columns are those of an object fit and of PSF fits without
    flags. *)
Theorem C44_gauss_clean : forall ng boot mbobs bm sb coadd r, fit_mbobs_gauss ng boot mbobs bm sb coadd = Ok r ->
  o_flags r = 0 ->
  good_data bm mbobs /\ (forall s, In s (the_shear_bands mbobs sb) -> s < zlen mbobs) /\
  exists obs g p, fitted_stamps mbobs (the_shear_bands mbobs sb) coadd (map (fun o => [o]) obs) /\
    boot (map (fun o => [o]) obs) = BootOk g p /\ g_flags g = 0 /\
    (forall k, (k < List.length obs)%nat -> q_flags (p k) = 0) /\
    o_obj_flags r = 0 /\ o_T_flags r = 0 /\ o_psf_flags r = 0 /\
    o_s2n r = g_s2n g /\ o_g r = g_g g /\ o_g_cov r = g_gcov g /\ o_T r = g_T g /\ o_T_err r = g_T_err g /\
    o_T_ratio r = ndiv (g_T g) (o_psf_T r) /\
    (coadd = true -> o_psf_T r = q_T (p O) /\ o_psf_g r = q_g (p O)) /\
    (coadd = false -> exists ws, Forall2 (fun o w => positive_median (f_weight o) w) obs ws /\
       neqv (o_psf_T r) (band_mean (fun k => q_T (p k)) ws) /\
       neqv (fst (o_psf_g r)) (size_weighted_mean (fun k => fst (q_g (p k))) (fun k => q_T (p k)) ws) /\
       neqv (snd (o_psf_g r)) (size_weighted_mean (fun k => snd (q_g (p k))) (fun k => q_T (p k)) ws)).
Proof. exact gauss_clean. Qed.
Print Assumptions C44_gauss_clean.
Example C44_gauss_clean_example : exists r, fit_mbobs_gauss ex_ng ex_boot ex_mb 1 (Some [0; 1]) false = Ok r /\ o_flags r = 0 /\
  neqv (o_psf_T r) (Some (10 # 6)%Q).
Proof. eexists. split; [vm_compute; reflexivity|]. split; vm_compute; reflexivity. Qed.

(** Whatever the bootstrap of the shear bands' stamps does, a failure of the
    object fit leaves a flag and no object value, a failure of any PSF fit
    leaves a flag and no PSF value. *)
Theorem C44_gauss_failed : forall ng boot mbobs bm sb coadd r mb, fit_mbobs_gauss ng boot mbobs bm sb coadd = Ok r ->
  fitted_stamps mbobs (the_shear_bands mbobs sb) coadd mb ->
  (object_fit_failed (boot mb) -> o_flags r <> 0 /\ object_nan r) /\
  (psf_fit_failed (List.length mb) (boot mb) -> o_flags r <> 0 /\ psf_nan r).
Proof. exact gauss_failed. Qed.
Print Assumptions C44_gauss_failed.
Example C44_gauss_failed_example : let mb := [[ex_obs (-3) 2 0]; [ex_obs 7 4 0]] in
  exists r, fit_mbobs_gauss ex_ng ex_boot mb 1 None false = Ok r /\
  fitted_stamps mb (the_shear_bands mb None) false mb /\ object_fit_failed (ex_boot mb) /\
  ~ psf_fit_failed (List.length mb) (ex_boot mb).
Proof.
  cbv zeta. eexists. split; [vm_compute; reflexivity|]. split; [repeat constructor|]. split; [vm_compute; discriminate|].
  intros (k & _ & N). apply N. reflexivity.
Qed.

(** The fluxes of a clean Gaussian fit are in the columns of their bands; bands
    that were not fit have no flux and say so. *)
Theorem C44_gauss_flux : forall ng boot mbobs bm sb coadd r, fit_mbobs_gauss ng boot mbobs bm sb coadd = Ok r ->
  o_flags r = 0 -> (2 <= List.length mbobs)%nat ->
  let s := the_shear_bands mbobs sb in
  NoDup s -> (forall b, In b s -> 0 <= b) ->
  exists mb g p, fitted_stamps mbobs s coadd mb /\ boot mb = BootOk g p /\
  (forall i b, nth_error s i = Some b ->
     nth_error (o_band_flux r) (Z.to_nat b) = value_for (g_flux g) i /\
     nth_error (o_band_flux_err r) (Z.to_nat b) = value_for (g_flux_err g) i /\
     nth_error (o_band_flux_flags r) (Z.to_nat b) = Some 0) /\
  (forall k, (k < List.length mbobs)%nat -> ~ In (Z.of_nat k) s ->
     nth_error (o_band_flux r) k = Some None /\ nth_error (o_band_flux_err r) k = Some None /\
     nth_error (o_band_flux_flags r) k = Some (NO_ATTEMPT ng)).
Proof. exact gauss_flux. Qed.
Print Assumptions C44_gauss_flux.
Example C44_gauss_flux_example : exists r, fit_mbobs_gauss ex_ng ex_boot ex_mb 1 (Some [2; 0]) false = Ok r /\ o_flags r = 0 /\
  o_band_flux r = [Some 5%Q; None; Some 1%Q].
Proof. eexists. split; [vm_compute; reflexivity|]. split; vm_compute; reflexivity. Qed.

(** An adaptive moments row with flag 0. The size columns depend on their own
    flag. *)
Theorem C44_admom_clean : forall ng rp ro mbobs bm sb sym r, fit_mbobs_admom ng rp ro mbobs bm sb sym = Ok r ->
  o_flags r = 0 ->
  good_data bm mbobs /\ exists co so p pres gr,
    make_coadd_obs mbobs (the_shear_bands mbobs sb) = Ok (Some co, 0) /\ f_psf co = Some p /\
    (if sym then symmetrize_obs_weights co = Ok so else so = co) /\
    rp p = Ok pres /\ ro so = Ok gr /\ a_flags pres = 0 /\ a_flags gr = 0 /\
    o_psf_flags r = 0 /\ o_obj_flags r = 0 /\ o_T_flags r = a_T_flags gr /\
    o_psf_T r = a_T pres /\ o_psf_g r = a_e pres /\
    o_s2n r = a_s2n gr /\ o_g r = a_e gr /\ o_g_cov r = a_e_cov gr /\
    (a_T_flags gr = 0 -> o_T r = a_T gr /\ o_T_err r = a_T_err gr /\ o_T_ratio r = ndiv (a_T gr) (a_T pres)).
Proof. exact admom_clean. Qed.
Print Assumptions C44_admom_clean.
Example C44_admom_clean_example : exists r, fit_mbobs_admom ex_ng ex_rp ex_ro ex_mb 1 (Some [0; 1]) true = Ok r /\ o_flags r = 0.
Proof. eexists. split; vm_compute; reflexivity. Qed.

(** A PSF fit that raises or has a flag; an object fit that raises or has a
    flag; a size that was not measured. *)
Theorem C44_admom_failed : forall ng rp ro mbobs bm sb sym r co so, fit_mbobs_admom ng rp ro mbobs bm sb sym = Ok r ->
  make_coadd_obs mbobs (the_shear_bands mbobs sb) = Ok (Some co, 0) ->
  (if sym then symmetrize_obs_weights co = Ok so else so = co) ->
  ((forall p pres, f_psf co = Some p -> rp p = Ok pres -> a_flags pres <> 0) -> o_flags r <> 0 /\ psf_nan r) /\
  ((forall gr, ro so = Ok gr -> a_flags gr <> 0) ->
     o_flags r <> 0 /\ o_s2n r = None /\ o_g r = nan2 /\ forall i j, o_g_cov r i j = None) /\
  ((forall gr, ro so = Ok gr -> a_T_flags gr <> 0) -> o_T r = None /\ o_T_err r = None /\ o_T_ratio r = None).
Proof. exact admom_failed. Qed.
Print Assumptions C44_admom_failed.
Example C44_admom_failed_example : exists r co so,
  fit_mbobs_admom ex_ng ex_rp (fun _ => Raise ValueError) ex_mb 1 (Some [0; 1]) true = Ok r /\
  make_coadd_obs ex_mb [0; 1] = Ok (Some co, 0) /\ symmetrize_obs_weights co = Ok so /\ o_flags r <> 0.
Proof.
  do 3 eexists. split; [vm_compute; reflexivity|]. split; [vm_compute; reflexivity|].
  split; [vm_compute; reflexivity | vm_compute; discriminate].
Qed.
(** Adaptive moments never report a band flux. *)
Theorem C44_admom_no_flux : forall ng rp ro mbobs bm sb sym r, fit_mbobs_admom ng rp ro mbobs bm sb sym = Ok r ->
  Forall (eq None) (o_band_flux r) /\ Forall (eq None) (o_band_flux_err r) /\ Forall (eq (NO_ATTEMPT ng)) (o_band_flux_flags r).
Proof. exact admom_flux_untouched. Qed.
Print Assumptions C44_admom_no_flux.

(** ** C46 *)
Section Tables.
Context {A : Type} (eqb : A -> A -> bool) (zero : A) (eqb_ok : forall a b, eqb a b = true <-> a = b).
(** A combined table has the rows of every result, every column of every result
    with its values, and no others. For tables without rows the common column
    must be in every result. *)
Theorem C46_columns : forall (l : list (option (table A))) t, combine_fit_res eqb zero l = Ok (Some t) ->
  (forall r, In (Some r) l -> wf_table r) ->
  ((0 < t_n t)%nat \/ forall r, In (Some r) l -> has_column r "shear_bands") ->
  wf_table t /\ (forall r, In r l -> rows_of r = t_n t) /\
  (forall r c v, In (Some r) l -> column r c v -> column t c v) /\
  (forall c v, column t c v -> exists r, In (Some r) l /\ column r c v).
Proof. exact (combine_some eqb zero eqb_ok). Qed.
Theorem C46_nothing : forall (l : list (option (table A))),
  combine_fit_res eqb zero l = Ok None <-> l <> [] /\ forall r, In r l -> r = None.
Proof. exact (combine_none eqb zero). Qed.
Theorem C46_lengths_differ : forall (l : list (option (table A))) r r', In r l -> In r' l -> rows_of r <> rows_of r' ->
  combine_fit_res eqb zero l = Raise RuntimeError.
Proof. exact (combine_lengths eqb zero). Qed.
Theorem C46_disagreement : forall (l : list (option (table A))) r r' c v v', (forall q, In (Some q) l -> wf_table q) ->
  In (Some r) l -> In (Some r') l -> column r c v -> column r' c v' -> v <> v' ->
  exists e, combine_fit_res eqb zero l = Raise e.
Proof. exact (combine_disagree eqb zero eqb_ok). Qed.
(** A repeated column other than shear_bands is refused even if the values agree. *)
Theorem C46_repeated_column : forall l1 l2 l3 (r r' : table A) c, has_column r c -> has_column r' c -> c <> "shear_bands" ->
  exists e, combine_fit_res eqb zero (l1 ++ Some r :: l2 ++ Some r' :: l3) = Raise e.
Proof. exact (combine_repeated eqb zero). Qed.
(** Results that fit together are combined. *)
Theorem C46_succeeds : forall (l : list (option (table A))) n, l <> [] -> (forall r, In r l -> rows_of r = n) ->
  (forall r, In (Some r) l -> wf_table r /\ has_column r "shear_bands") ->
  (forall r r' v v', In (Some r) l -> In (Some r') l -> column r "shear_bands" v -> column r' "shear_bands" v' -> v = v') ->
  (forall l1 l2 l3 r r' c, l = (l1 ++ Some r :: l2 ++ Some r' :: l3)%list -> has_column r c -> has_column r' c -> c = "shear_bands") ->
  exists o, combine_fit_res eqb zero l = Ok o.
Proof. exact (combine_total eqb zero eqb_ok). Qed.
End Tables.
Print Assumptions C46_columns.
Print Assumptions C46_nothing.
Print Assumptions C46_lengths_differ.
Print Assumptions C46_disagreement.
Print Assumptions C46_repeated_column.
Print Assumptions C46_succeeds.
Definition ex_t1 : table Z := mkTable 2 [("am_flags", [0; 1]); ("shear_bands", [12; 12])].
Definition ex_t2 : table Z := mkTable 2 [("gauss_flags", [4; 0]); ("shear_bands", [12; 12])].
Definition ex_t3 : table Z := mkTable 2 [("gauss_flags", [4; 0]); ("shear_bands", [12; 1])].
Example C46_example :
  combine_fit_res Z.eqb 0 [Some ex_t1; Some ex_t2]
    = Ok (Some (mkTable 2 [("am_flags", [0; 1]); ("shear_bands", [12; 12]); ("gauss_flags", [4; 0])])) /\
  combine_fit_res Z.eqb 0 [Some ex_t1; Some ex_t3] = Raise RuntimeError /\
  combine_fit_res Z.eqb 0 [Some ex_t1; None] = Raise RuntimeError /\
  combine_fit_res Z.eqb 0 [Some ex_t1; Some ex_t1] = Raise ValueError /\
  combine_fit_res Z.eqb 0 [None; None] = Ok None /\ wf_table ex_t1.
Proof.
  repeat (split; [vm_compute; reflexivity|]). split.
  - cbn. repeat constructor; cbn; intuition discriminate.
  - intros c v [E|[E|[]]]; inversion E; reflexivity.
Qed.

(** ** C47 *)
Theorem C47_wavg_rows : forall ng mk to_T qsqrt l ft bm sb fw sym out,
  fit_mbobs_list_wavg ng mk to_T qsqrt l ft bm sb fw sym = Ok out ->
  (l = [] -> out = None) /\
  (l <> [] -> exists rows, out = Some rows /\
     Forall2 (fun m r => fit_mbobs_wavg ng mk to_T qsqrt m ft bm sb fw sym = Ok r) l rows).
Proof. intros ng mk to_T qsqrt l ft bm sb fw sym out H. exact (rows_single _ _ _ _ H). Qed.
Print Assumptions C47_wavg_rows.
Theorem C47_joint_rows : forall ng boot rp ro l name bm sb sym coadd out,
  fit_mbobs_list_joint ng boot rp ro l name bm sb sym coadd = Ok out ->
  (l = [] -> out = None) /\
  (l <> [] -> exists rows, out = Some rows /\
     Forall2 (fun m r => (name = "gauss" /\ fit_mbobs_gauss ng boot m bm sb coadd = Ok r) \/
                         ((name = "am" \/ name = "admom") /\ fit_mbobs_admom ng rp ro m bm sb sym = Ok r)) l rows).
Proof. exact list_joint. Qed.
Print Assumptions C47_joint_rows.
Theorem C47_joint_unknown_fitter : forall ng boot rp ro l name bm sb sym coadd,
  name <> "am" -> name <> "admom" -> name <> "gauss" ->
  fit_mbobs_list_joint ng boot rp ro l name bm sb sym coadd = Raise RuntimeError.
Proof. exact list_joint_unknown. Qed.
Print Assumptions C47_joint_unknown_fitter.
Example C47_example : exists r1 r2,
  fit_mbobs_list_joint ex_ng ex_boot ex_rp ex_ro [ex_mb; [[ex_obs (-1) 2 0]]] "gauss" 1 None true false = Ok (Some [r1; r2]) /\
  o_flags r1 = 0 /\ o_flags r2 <> 0.
Proof. do 2 eexists. split; [vm_compute; reflexivity|]. split; vm_compute; [reflexivity | discriminate]. Qed.
