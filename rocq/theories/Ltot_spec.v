(** Specification vocabulary for C140: what the LSST measurement needs in order
    to return. *)
From Coq Require Import ZArith QArith List String Bool.
From Verif Require Import Base Arr Lutil_model Lexp_model Lmeas_model Lmeas_spec.
Import ListNotations.
Local Open Scope string_scope.
Local Open Scope Z_scope.

(** The exposures have pixels. *)
Definition has_pixels (bands : list exposure) : Prop :=
  match bands with [] => False | e :: _ => 0 < nr (e_image e) /\ 0 < nc (e_image e) end.
(** A band has a wcs and a PSF, whose images are squares with odd sides. *)
Definition has_wcs_psf (e : exposure) : Prop :=
  e_wcs e <> None /\ exists draw, e_psf e = Some draw /\ forall x y, nr (draw x y) = nc (draw x y) /\ nr (draw x y) mod 2 = 1.
(** Every source has a first peak, on the mask of the detection exposure. *)
Definition peaks_on_mask (env : menv) (cat : list source) : Prop :=
  forall s, In s cat -> exists x y, hd_error (s_peaks s) = Some (x, y) /\
    inside (m_detmask env) (y - m_dety0 env) (x - m_detx0 env).
(** The two fits return on the stamps of sources (their own failures are flags). *)
Definition fits_return (env : menv) : Prop :=
  forall s obs, source_mbobs env s = Ok obs -> (exists g, m_gauss env obs = Ok g) /\ exists p, m_pgauss env obs = Ok p.
Definition can_measure (env : menv) (cat : list source) : Prop :=
  catalogue cat /\ has_pixels (m_bands env) /\ (forall e, In e (m_bands env) -> has_wcs_psf e) /\ peaks_on_mask env cat /\ fits_return env /\
  exists sb, m_shear_bands env = Ok sb.
