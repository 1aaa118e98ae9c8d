(** C113. *)
From Coq Require Import ZArith QArith Lqa Lia List String Bool.
From Verif Require Import Base Arr Median Flags_model Coadd_model Coadd_spec Wavg_model Wavg_spec Joint_model Joint_spec Joint_props
  Wflag_spec Jflag_spec Jflag_proofs.
Import ListNotations.
Local Open Scope Z_scope.

(** ** C113: the flags of a joint fit have exactly these causes *)
(** The Gaussian fit. Problems of the data (or a shear band that does not exist)
    are all reported, together, and nothing is fit; so is a coadd that could not
    be made and a fit that raised. Otherwise the flags are those of the fits of
    the object and of the PSFs; each shear band has the flag of the fit for its
    flux, the other bands remain untried. *)
Theorem C113_gauss : forall ng boot mbobs bm sb coadd r, fit_mbobs_gauss ng boot mbobs bm sb coadd = Ok r ->
  let s := the_shear_bands mbobs sb in
  let problem f := data_problem bm mbobs f \/ band_beyond mbobs s f in
  ((exists f, problem f) -> not_tried ng r problem) /\
  ((forall f, ~ problem f) ->
   (forall cf, coadd = true -> make_coadd_obs mbobs s = Ok (None, cf) -> not_tried ng r (eq cf)) /\
   forall mb, fitted_stamps mbobs s coadd mb ->
     match boot mb with
     | BootPSF => not_tried ng r (eq (flag_value PSF_FAILURE))
     | BootOther => not_tried ng r (fun f => f = flag_value OBJ_FAILURE \/ f = flag_value PSF_FAILURE)
     | BootOk g p =>
       o_obj_flags r = g_flags g /\ o_T_flags r = g_flags g /\
       bits_from (o_psf_flags r) (fun f => exists k, (k < List.length mb)%nat /\ f = q_flags (p k)) /\
       bits_from (o_flags r) (fun f => f = g_flags g \/ exists k, (k < List.length mb)%nat /\ f = q_flags (p k)) /\
       forall k, (k < List.length mbobs)%nat ->
         (names_band (zlen mbobs) s k \/ List.length mbobs = 1%nat -> nth_error (o_band_flux_flags r) k = Some (g_flags g)) /\
         (~ names_band (zlen mbobs) s k -> List.length mbobs <> 1%nat -> nth_error (o_band_flux_flags r) k = Some (NO_ATTEMPT ng))
     end).
Proof. exact gauss_flags_exact. Qed.
Print Assumptions C113_gauss.
(** Adaptive moments. When the object fit raises, the flags say only that (the
    flags of the PSF are in their own column). *)
Theorem C113_admom : forall ng rp ro mbobs bm sb sym r, fit_mbobs_admom ng rp ro mbobs bm sb sym = Ok r ->
  let s := the_shear_bands mbobs sb in
  ((exists f, data_problem bm mbobs f) -> not_tried ng r (data_problem bm mbobs)) /\
  ((forall f, ~ data_problem bm mbobs f) ->
   (forall cf, make_coadd_obs mbobs s = Ok (None, cf) -> not_tried ng r (eq cf)) /\
   forall co, make_coadd_obs mbobs s = Ok (Some co, 0) ->
     ((forall p pres, f_psf co = Some p -> rp p <> Ok pres) -> not_tried ng r (eq (flag_value PSF_FAILURE))) /\
     forall p pres so, f_psf co = Some p -> rp p = Ok pres -> (if sym then symmetrize_obs_weights co = Ok so else so = co) ->
       o_psf_flags r = a_flags pres /\ (forall f, In f (o_band_flux_flags r) -> f = NO_ATTEMPT ng) /\
       match ro so with
       | Raise _ => o_flags r = flag_value OBJ_FAILURE /\ o_obj_flags r = NO_ATTEMPT ng /\ o_T_flags r = NO_ATTEMPT ng
       | Ok gr => o_flags r = Z.lor (a_flags pres) (a_flags gr) /\ o_obj_flags r = a_flags gr /\ o_T_flags r = a_T_flags gr
       end).
Proof. exact admom_flags_exact. Qed.
Print Assumptions C113_admom.

(** A missing band and a masked one, both reported; three good bands of which
    the first and (counted from the end) the last are fit. *)
Definition ex_bad_data : list (list fobs) := [[]; [ex_obs 7 4 1]; [ex_obs 1 2 0]].
Example C113_example :
  (exists r, fit_mbobs_gauss ex_ng ex_boot ex_bad_data 1 None false = Ok r /\
     o_flags r = Z.lor 1 (Z.lor (flag_value MISSING_BAND) (flag_value EDGE_HIT))) /\
  data_problem 1 ex_bad_data (flag_value EDGE_HIT) /\
  (exists r, fit_mbobs_gauss ex_ng ex_boot ex_mb 1 (Some [0; -1]) false = Ok r /\ o_band_flux_flags r = [0; 1; 0]) /\
  (forall f, ~ (data_problem 1 ex_mb f \/ band_beyond ex_mb [0; -1] f)) /\
  fitted_stamps ex_mb [0; -1] false [[ex_obs 5 2 0]; [ex_obs 1 2 0]] /\
  (exists r, fit_mbobs_admom ex_ng ex_rp ex_ro ex_bad_data 1 None true = Ok r) /\
  (exists r co so, fit_mbobs_admom ex_ng ex_rp (fun _ => Raise ValueError) ex_mb 1 (Some [0; 1]) true = Ok r /\
     o_flags r = flag_value OBJ_FAILURE /\ make_coadd_obs ex_mb [0; 1] = Ok (Some co, 0) /\ symmetrize_obs_weights co = Ok so).
Proof.
  split; [eexists; split; vm_compute; reflexivity|].
  split. { apply masked with (ex_obs 7 4 1) (ifill 1 1 1) 0 0; [right; left; reflexivity|reflexivity|vm_compute; repeat split; discriminate|vm_compute; discriminate]. }
  split; [eexists; split; vm_compute; reflexivity|].
  split.
  { assert (P : forall q w, (0 < w)%Q -> has_positive (f_weight (ex_obs q w 0))).
    { intros q w H. exists 0, 0. split; [vm_compute; repeat split; discriminate|exact H]. }
    intros f [[A|l A L|o A N|o m i j A B I D]|[_ (b & [<-|[<-|[]]] & Y)]].
    - destruct A as [A|[A|[A|[]]]]; discriminate.
    - destruct A as [<-|[<-|[<-|[]]]]; cbn in L; lia.
    - destruct A as [A|[A|[A|[]]]]; injection A as <-; apply N, P; reflexivity.
    - destruct A as [A|[A|[A|[]]]]; injection A as <-; cbn in B; injection B as <-; apply D; reflexivity.
    - vm_compute in Y. now apply Y.
    - vm_compute in Y. now apply Y. }
  split. { constructor; [reflexivity|]. constructor; [reflexivity|]. constructor. }
  split; [eexists; vm_compute; reflexivity|].
  do 3 eexists. split; [vm_compute; reflexivity|]. split; [reflexivity|]. split; vm_compute; reflexivity.
Qed.
