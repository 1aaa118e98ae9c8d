(** Specification vocabulary for C115 and C116: the fits in the table of the LSST
    measurement. *)
From Coq Require Import ZArith QArith List String Bool.
From Verif Require Import Base Arr Median Flags_model Dict Coadd_model Coadd_spec Wavg_model Wavg_spec Joint_model Joint_spec
  Wflag_spec Jflag_spec.
From Verif Require Lexp_model Lexp_spec Lmeas_model Lmeas_spec.
From Verif Require Import Lfit_model.
Import ListNotations.
Local Open Scope string_scope.
Local Open Scope Z_scope.

(** The flag columns of the two fits in a row of the table. *)
Definition gauss_flag_columns (r : Lmeas_model.row) (flags psf obj t : Z) (bands : list Z) : Prop :=
  sget "gauss_flags" r = Some (Lmeas_model.CInt flags) /\ sget "gauss_psf_flags" r = Some (Lmeas_model.CInt psf) /\
  sget "gauss_obj_flags" r = Some (Lmeas_model.CInt obj) /\ sget "gauss_T_flags" r = Some (Lmeas_model.CInt t) /\
  sget "gauss_band_flux_flags" r = Some (Lmeas_model.CInts bands).
Definition pgauss_flag_columns (r : Lmeas_model.row) (flags obj : Z) (bands : list Z) : Prop :=
  sget "pgauss_flags" r = Some (Lmeas_model.CInt flags) /\ sget "pgauss_obj_flags" r = Some (Lmeas_model.CInt obj) /\
  sget "pgauss_band_flux_flags" r = Some (Lmeas_model.CInts bands).

(** Nothing was fit: every flag is NO_ATTEMPT and every value is not a number. *)
Definition nothing_fit (ng : ngcodes) (r : Lmeas_model.row) : Prop :=
  forall c, In c (Lmeas_spec.gauss_columns ++ Lmeas_spec.pgauss_columns)%list -> c <> "shear_bands" ->
    sget c r = Some (if Lmeas_model.has_sub "flags" c then Lmeas_model.CInt (NO_ATTEMPT ng) else Lmeas_model.CNum None).

(** The stamps of the shear bands, in the order listed. *)
Definition shear_stamps (jid : Lexp_model.jacob -> Z) (obs : list Lexp_model.lobs) (sb : list Z) (mb : list (list fobs)) : Prop :=
  Forall2 (fun b ol => exists o, nth_error obs (Z.to_nat b) = Some o /\ ol = [stamp_of jid o]) sb mb.

(** The joint fit: its flag columns are the flags of the bootstrap of the
    stamps [mb] of the shear bands [sb] and nothing else. *)
Definition gauss_flags_of_fit (ng : ngcodes) (nband : nat) (sb : list Z) (mb : list (list fobs)) (fit : bootout) (r : Lmeas_model.row) : Prop :=
  exists flags psf obj t bands, gauss_flag_columns r flags psf obj t bands /\
    let unfit cause :=
      bits_from flags (fun f => f = NO_ATTEMPT ng \/ cause f) /\ psf = NO_ATTEMPT ng /\ obj = NO_ATTEMPT ng /\ t = NO_ATTEMPT ng /\
      forall f, In f bands -> f = NO_ATTEMPT ng in
    match fit with
    | BootPSF => unfit (fun f => f = flag_value PSF_FAILURE)
    | BootOther => unfit (fun f => f = flag_value OBJ_FAILURE \/ f = flag_value PSF_FAILURE)
    | BootOk g p =>
      obj = g_flags g /\ t = g_flags g /\
      bits_from psf (fun f => exists k, (k < List.length mb)%nat /\ f = q_flags (p k)) /\
      bits_from flags (fun f => f = g_flags g \/ exists k, (k < List.length mb)%nat /\ f = q_flags (p k)) /\
      forall k, (k < nband)%nat ->
        (In (Z.of_nat k) sb \/ nband = 1%nat -> nth_error bands k = Some (g_flags g)) /\
        (~ In (Z.of_nat k) sb -> nband <> 1%nat -> nth_error bands k = Some (NO_ATTEMPT ng))
    end.

(** One band of the averaged measurement: fit without any flag from its data,
    as a shear band, and weighted with the (constant) weight of its stamp. *)
Definition measured_band (ft : fitter) (jid : Lexp_model.jacob -> Z) (o : Lexp_model.lobs) (j : band) : Prop :=
  j_is j = true /\ j_flags j = 0 /\
  (exists fr, k_go ft (stamp_of jid o) = Ok fr /\ j_res j = Some fr) /\
  (exists p pr, f_psf (stamp_of jid o) = Some p /\ k_go_psf ft p = Ok pr /\ j_psf j = Some pr) /\
  exists w, (0 < w)%Q /\ (j_w j == w)%Q /\ forall i k, px (Lexp_model.o_weight o) i k = w.
Definition with_moments (j : band) : Prop := exists fr, j_res j = Some fr /\ has_moments fr.
Definition flux_flag (j : band) (v : Z) : Prop :=
  exists fr, j_res j = Some fr /\
    v = match r_flux fr, r_flux_err fr, r_flux_flags fr with
        | Some _, Some _, Some f => f
        | _, _, _ => flag_value NOMOMENTS_FAILURE
        end.
Definition pgauss_flags_of_fit (ng : ngcodes) (mk : vec -> mat -> momresult) (to_T : Q -> Q) (ft : fitter)
  (jid : Lexp_model.jacob -> Z) (obs : list Lexp_model.lobs) (r : Lmeas_model.row) : Prop :=
  exists js flags obj psf bands, Forall2 (measured_band ft jid) obs js /\ pgauss_flag_columns r flags obj bands /\
    bits_from flags (fun f => f = obj \/ In f bands) /\ Forall2 flux_flag js bands /\
    let failed_psf f := psf <> 0 /\ f = flag_value PSF_FAILURE in
    let l := shear_fits js in
    ((exists j, In j js /\ ~ with_moments j) -> bits_from obj (fun f => f = flag_value NOMOMENTS_FAILURE \/ failed_psf f)) /\
    ((forall j, In j js -> with_moments j) -> flags_of_values mk ->
     bits_from obj (fun f => moment_cause ng mk to_T 0 (fun i => wmean l (fun r => normalised r i))
                               (fun i k => wmean_var l (fun r => normalised_cov r i k)) (wmean l flux_of) (wmean_var l flux_var_of) f
                             \/ failed_psf f)) /\
    ((exists f, by_a_band psf_cause js f /\ f <> 0) -> bits_from psf (by_a_band psf_cause js)) /\
    ((forall f, by_a_band psf_cause js f -> f = 0) -> flags_of_values mk -> (forall j, In j js -> alike j) ->
     bits_from psf (moment_cause ng mk to_T 0 (psf_mean js) (psf_mean_cov js)
       (wmean (shear_psfs js) flux_of) (wmean_var (shear_psfs js) flux_var_of))).

(** ** C116: two sets of images that agree in the bands [sb] *)
Definition same_shear_bands (sb : list Z) (env env' : Lmeas_model.menv) : Prop :=
  List.length (Lmeas_model.m_bands env) = List.length (Lmeas_model.m_bands env') /\
  (forall b, In b sb -> nth_error (Lmeas_model.m_bands env) (Z.to_nat b) = nth_error (Lmeas_model.m_bands env') (Z.to_nat b)) /\
  (forall id, Lmeas_model.m_cen env id = Lmeas_model.m_cen env' id) /\
  (forall id, Lmeas_model.m_skypix env id = Lmeas_model.m_skypix env' id) /\
  Lmeas_model.m_W env = Lmeas_model.m_W env' /\ Lmeas_model.m_nanpos env = Lmeas_model.m_nanpos env' /\
  Lmeas_model.m_stamp_size env = Lmeas_model.m_stamp_size env' /\
  Lmeas_model.m_shear_bands env = Ok sb /\ Lmeas_model.m_shear_bands env' = Ok sb.
