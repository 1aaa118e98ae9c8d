(** Specification vocabulary for C114: the values of the integer columns. The
    flag and mask columns have dtype 'i4' (metadetect.py:630-641, 899, 920,
    fitting.py:582-584, 1384-1405, lsst/measure.py:504, 567-585,
    lsst/metadetect.py:465). *)
From Coq Require Import ZArith List String Bool.
From Verif Require Import Base Arr Summ_model Wavg_model.
Import ListNotations.
Local Open Scope Z_scope.

(** What a signed 32 bit integer can hold. *)
Definition fits_i4 (v : Z) : Prop := -2147483648 <= v <= 2147483647.
(** Flags: not negative either. *)
Definition flag_range (v : Z) : Prop := 0 <= v <= 2147483647.
(** Every pixel of a mask plane fits. *)
Definition plane_fits (m : img Z) : Prop := forall i j, inside m i j -> fits_i4 (px m i j).
(** All mask planes of some data. *)
Definition masks_fit {O} (sob : O -> sobs) (m : list (list O)) : Prop :=
  forall ol o, In ol m -> In o ol -> plane_fits (so_bmask (sob o)) /\ plane_fits (so_ormask (sob o)).
(** The flags ngmix has for an object that was not tried or has no positive flux
    or variance. *)
Definition codes_range (ng : ngcodes) : Prop :=
  flag_range (NO_ATTEMPT ng) /\ flag_range (NONPOS_FLUX ng) /\ flag_range (NONPOS_VAR ng).
(** Every flag column of a row of a fitter. *)
Definition row_range (r : row) : Prop :=
  flag_range (o_flags r) /\ flag_range (o_psf_flags r) /\ flag_range (o_obj_flags r) /\ flag_range (o_T_flags r) /\
  forall v, In v (o_band_flux_flags r) -> flag_range v.
