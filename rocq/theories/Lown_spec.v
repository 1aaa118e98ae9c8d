(** Specification vocabulary for C134 and C135: the fit columns in the tables of
    the LSST functions. *)
From Coq Require Import ZArith QArith List String Bool.
From Verif Require Import Base Arr Median Flags_model Dict Coadd_model Wavg_model Joint_model Lutil_model Clean_spec Lfit_model Lfit_spec
  Lown_model.
From Verif Require Lexp_model Lmeas_model Lmeas_spec.
Import ListNotations.
Local Open Scope string_scope.
Local Open Scope Z_scope.

(** A cell that holds a number, or numbers only. *)
Definition num_cell (v : Lmeas_model.cell) : Prop :=
  match v with
  | Lmeas_model.CNum a => is_num a
  | Lmeas_model.CNums l => l <> [] /\ Forall is_num l
  | _ => False
  end.
(** If all of these flag columns are 0, these columns hold numbers. *)
Definition unflagged (r : Lmeas_model.row) (flags values : list string) : Prop :=
  (forall f, In f flags -> sget f r = Some (Lmeas_model.CInt 0)) ->
  forall c, In c values -> exists v, sget c r = Some v /\ num_cell v.
(** The same band by band. *)
Definition unflagged_bands (r : Lmeas_model.row) (flags : string) (values : list string) : Prop :=
  forall fl k, sget flags r = Some (Lmeas_model.CInts fl) -> nth_error fl k = Some 0 ->
  forall c, In c values -> exists l q, sget c r = Some (Lmeas_model.CNums l) /\ nth_error l k = Some (Some q).

(** One row. Its PSF flags are not kept for pgauss: the object's flags stand for
    them. *)
Definition row_numbers (r : Lmeas_model.row) : Prop :=
  unflagged r ["gauss_psf_flags"] ["gauss_psf_g"; "gauss_psf_T"] /\
  unflagged r ["gauss_obj_flags"] ["gauss_s2n"; "gauss_g"; "gauss_g_cov"] /\
  unflagged r ["gauss_T_flags"] ["gauss_T"; "gauss_T_err"] /\
  unflagged r ["gauss_psf_flags"; "gauss_T_flags"] ["gauss_T_ratio"] /\
  unflagged_bands r "gauss_band_flux_flags" ["gauss_band_flux"; "gauss_band_flux_err"] /\
  unflagged r ["pgauss_obj_flags"] ["pgauss_s2n"] /\
  unflagged r ["pgauss_T_flags"] ["pgauss_T"; "pgauss_T_err"] /\
  unflagged r ["pgauss_obj_flags"; "pgauss_T_flags"] ["pgauss_T_ratio"] /\
  unflagged_bands r "pgauss_band_flux_flags" ["pgauss_band_flux"; "pgauss_band_flux_err"].
(** The summary flags: without gauss_flags every value of the joint fit but the
    band fluxes is a number; without pgauss_flags every value of the averaged
    one. *)
Definition row_summary (r : Lmeas_model.row) : Prop :=
  unflagged r ["gauss_flags"] ["gauss_psf_g"; "gauss_psf_T"; "gauss_s2n"; "gauss_g"; "gauss_g_cov"; "gauss_T"; "gauss_T_err"; "gauss_T_ratio"] /\
  unflagged r ["pgauss_flags"] ["pgauss_s2n"; "pgauss_T"; "pgauss_T_err"; "pgauss_T_ratio"; "pgauss_band_flux"; "pgauss_band_flux_err"].

(** What is assumed of ngmix, as for C133. *)
Record honest_fits (F : fits) : Prop := mkHonestFits {
  hf_codes : NO_ATTEMPT (f_ng F) <> 0 /\ NONPOS_VAR (f_ng F) <> 0;
  hf_sqrt : forall v, (0 < v)%Q -> ~ (f_sqrt F v == 0)%Q;
  hf_moments : honest_moments (f_mk F);
  hf_sized : sized (f_mk F);
  hf_flux : forall fwhm o r, k_go (f_pgauss F fwhm) o = Ok r -> honest_flux r;
  hf_boot : honest_boot (f_boot F)
}.

(** Where the flags of a row come from: nothing was fit (the stamp flags say so),
    or the flags are exactly those of the two fits of the stamps [on]. *)
Definition flags_of_fits (F : fits) (fwhm : atom) (shear : list Z) (on : list Lexp_model.lobs -> Prop) (r : Lmeas_model.row) : Prop :=
  exists flags, sget "stamp_flags" r = Some (Lmeas_model.CInt flags) /\
    (flags <> 0 -> nothing_fit (f_ng F) r) /\
    (flags = 0 -> exists obs mb, on obs /\ shear_stamps (f_jid F) obs shear mb /\
       gauss_flags_of_fit (f_ng F) (List.length obs) shear mb (f_boot F mb) r /\
       pgauss_flags_of_fit (f_ng F) (f_mk F) (f_toT F) (f_pgauss F fwhm) (f_jid F) obs r).
