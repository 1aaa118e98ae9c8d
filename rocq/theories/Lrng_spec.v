(** Specification vocabulary for the random number generator in metadetect/lsst. *)
From Coq Require Import ZArith QArith Qcanon List String Bool.
From Verif Require Import Base Arr Median Dict Flags_model Lutil_model Lutil_spec Lexp_model Lthr_model Lmdet_model Lmeas_model Lmeas_spec
  Lphot_model Lrun_model Lrng_model.
Import ListNotations.
Local Open Scope string_scope.
Local Open Scope Z_scope.

(** The columns that hold drawn numbers: those of the Gaussian fit, and the shape
    and size of the original PSF. *)
Definition drawn_columns : list string :=
  ["gauss_flags"; "gauss_psf_flags"; "gauss_psf_g"; "gauss_psf_T"; "gauss_obj_flags"; "gauss_s2n"; "gauss_g"; "gauss_g_cov";
   "gauss_T"; "gauss_T_flags"; "gauss_T_err"; "gauss_T_ratio"; "gauss_band_flux_flags"; "gauss_band_flux"; "gauss_band_flux_err";
   "psfrec_g"; "psfrec_T"].
(** Rows and tables that have the same columns and are equal outside of those. *)
Definition same_but_drawn (r r' : row) : Prop :=
  skeys r = skeys r' /\ forall c, ~ In c drawn_columns -> sget c r = sget c r'.
Definition same_tables (t t' : option (list row)) : Prop :=
  match t, t' with
  | None, None => True
  | Some l, Some l' => Forall2 same_but_drawn l l'
  | _, _ => False
  end.
Definition same_entry (a b : entry) : Prop :=
  match a, b with
  | Table t, Table t' => same_tables t t'
  | PsfStats p, PsfStats p' => st_flags p = st_flags p' /\ st_navg p = st_navg p'
  | _, _ => False
  end.

Section S.
Context {G : Type}.

(** The Gaussian fit labels its row with the shear bands it was given
    (fitting.py:1374-1376). *)
Definition labels_bands (L : draws G) : Prop :=
  forall sb obs g obs' g' c c', fst (g_gauss L sb obs g) = Ok c -> fst (g_gauss L sb obs' g') = Ok c' -> c "shear_bands" = c' "shear_bands".
(** The state of the generator has no influence on the values. *)
Definition no_influence (L : draws G) (P : phot) : Prop :=
  (forall e g, fst (g_psf L e g) = ph_psffit P e) /\ (forall sb obs g, fst (g_gauss L sb obs g) = ph_gauss P sb obs).
End S.

(** The settings with other metacal types. *)
Definition with_types (s : settings) (types : list string) : settings :=
  mkSet (s_sky s) (s_thresh s) (s_deblender s) types (s_reconv s) (s_stamp s) (s_fwhm s) (s_shear s).
