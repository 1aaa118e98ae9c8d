(** Model of the two fits of metadetect/lsst/measure.py (lines 431-443): the
    stamps of a source given to the fitters of metadetect/fitting.py, and their
    results as columns. *)
From Coq Require Import ZArith QArith List String Bool.
From Verif Require Import Base Arr Median Flags_model Dict Coadd_model Wavg_model Joint_model.
From Verif Require Lexp_model Lmeas_model.
Import ListNotations.
Local Open Scope string_scope.
Local Open Scope Z_scope.

(** lsst/util.py:1000-1065: the observation made there, seen by the fitters. A
    jacobian is told apart by the number [jid] gives it. *)
Definition stamp_of (jid : Lexp_model.jacob -> Z) (o : Lexp_model.lobs) : fobs :=
  mkFobs (Lexp_model.o_image o) (Lexp_model.o_weight o) (jid (Lexp_model.o_jac o))
    (Some (mkPsf (Lexp_model.op_image (Lexp_model.o_psf o)) (Lexp_model.op_weight (Lexp_model.o_psf o))
             (jid (Lexp_model.op_jac (Lexp_model.o_psf o)))))
    None (Lexp_model.o_noise o) (Lexp_model.o_bmask o) (Lexp_model.o_ormask o).
(** mbobs_extractor.py:160-194: one list of one observation for each band. *)
Definition stamps_of (jid : Lexp_model.jacob -> Z) (obs : list Lexp_model.lobs) : list (list fobs) :=
  map (fun o => [stamp_of jid o]) obs.

(** fitting.py:1381-1411: the columns of a result, without their prefix. *)
Definition row_cells (r : row) : list (string * Lmeas_model.cell) :=
  [("flags", Lmeas_model.CInt (o_flags r)); ("psf_flags", Lmeas_model.CInt (o_psf_flags r));
   ("psf_g", Lmeas_model.CNums [fst (o_psf_g r); snd (o_psf_g r)]); ("psf_T", Lmeas_model.CNum (o_psf_T r));
   ("obj_flags", Lmeas_model.CInt (o_obj_flags r)); ("s2n", Lmeas_model.CNum (o_s2n r));
   ("g", Lmeas_model.CNums [fst (o_g r); snd (o_g r)]);
   ("g_cov", Lmeas_model.CNums [o_g_cov r 0 0; o_g_cov r 0 1; o_g_cov r 1 0; o_g_cov r 1 1]%nat);
   ("T", Lmeas_model.CNum (o_T r)); ("T_flags", Lmeas_model.CInt (o_T_flags r)); ("T_err", Lmeas_model.CNum (o_T_err r));
   ("T_ratio", Lmeas_model.CNum (o_T_ratio r));
   ("band_flux_flags", Lmeas_model.CInts (o_band_flux_flags r)); ("band_flux", Lmeas_model.CNums (o_band_flux r));
   ("band_flux_err", Lmeas_model.CNums (o_band_flux_err r))].
Definition fit_cells (model : string) (r : row) (name : string) : Lmeas_model.cell :=
  if String.eqb name "shear_bands" then Lmeas_model.CStr (o_shear_bands r)
  else match sget name (map (fun cv => (Lmeas_model.namer model (fst cv), snd cv)) (row_cells r)) with
       | Some v => v
       | None => Lmeas_model.CNum None
       end.

Section Fits.
(** [boot]: ngmix's bootstrap of the joint fit; [mk], [to_T], [qsqrt]: the moment
    routines; [ft]: the pgauss fitter. The random numbers they draw are the
    subject of Lrng_model. *)
Variables (ng : ngcodes) (boot : list (list fobs) -> bootout) (mk : vec -> mat -> momresult) (to_T qsqrt : Q -> Q)
  (ft : fitter) (jid : Lexp_model.jacob -> Z).

(** measure.py:431-437. *)
Definition lsst_gauss (sb : list Z) (obs : list Lexp_model.lobs) : outcome (string -> Lmeas_model.cell) :=
  do r <- fit_mbobs_gauss ng boot (stamps_of jid obs) 0 (Some sb) false; Ok (fit_cells "gauss" r).
(** measure.py:439-443; the defaults of fitting.py:758-765 are no shear bands
    given, fwhm_reg=0 and symmetrize=True. *)
Definition lsst_pgauss (obs : list Lexp_model.lobs) : outcome (string -> Lmeas_model.cell) :=
  do r <- fit_mbobs_wavg ng mk to_T qsqrt (stamps_of jid obs) ft 0 None 0 true; Ok (fit_cells "pgauss" r).

(** The surroundings of the measurement with these fits. *)
Definition with_fits (env : Lmeas_model.menv) : Lmeas_model.menv :=
  Lmeas_model.mkMenv (Lmeas_model.m_bands env) (Lmeas_model.m_detx0 env) (Lmeas_model.m_dety0 env) (Lmeas_model.m_detmask env)
    (Lmeas_model.m_cen env) (Lmeas_model.m_skypix env) (Lmeas_model.m_W env) (Lmeas_model.m_radec env)
    (fun obs => do sb <- Lmeas_model.m_shear_bands env; lsst_gauss sb obs) lsst_pgauss
    (Lmeas_model.m_nanpos env) (NO_ATTEMPT ng) (Lmeas_model.m_detected env)
    (Lmeas_model.m_stamp_size env) (Lmeas_model.m_shear_bands env).
(** measure.py:317-467 with the fitters of fitting.py. *)
Definition measure_fits (env : Lmeas_model.menv) (order : list Z -> list Z) (cat : list Lmeas_model.source)
  : outcome (option (list Lmeas_model.row)) :=
  Lmeas_model.measure (with_fits env) band_label order cat.
End Fits.
