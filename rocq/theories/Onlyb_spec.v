(** Specification vocabulary for C131: data that agree in some of the bands. *)
From Coq Require Import ZArith QArith List String Bool.
From Verif Require Import Base Arr Detect_spec Wavg_model Conf_model Mrun_model Mlocal_spec.
Import ListNotations.
Local Open Scope Z_scope.

(** Lists with one entry per band that agree in the bands [bs]. *)
Definition agree_in {A} (bs : list Z) (l l' : list A) : Prop :=
  List.length l = List.length l' /\
  forall k, In (Z.of_nat k) bs -> nth_error l k = nth_error l' k.

(** All columns that describe the object and its PSF as a whole: those that list
    one value per band, and the overall flags, are missing. *)
Definition same_object (r r' : row) : Prop :=
  o_psf_flags r = o_psf_flags r' /\ o_psf_g r = o_psf_g r' /\ o_psf_T r = o_psf_T r' /\
  o_obj_flags r = o_obj_flags r' /\ o_s2n r = o_s2n r' /\ o_g r = o_g r' /\ o_g_cov r = o_g_cov r' /\
  o_T r = o_T r' /\ o_T_flags r = o_T_flags r' /\ o_T_err r = o_T_err r' /\ o_T_ratio r = o_T_ratio r' /\
  o_shear_bands r = o_shear_bands r'.
(** Flux, its error and its flags in band [k]. *)
Definition same_flux (k : nat) (r r' : row) : Prop :=
  nth_error (o_band_flux r) k = nth_error (o_band_flux r') k /\
  nth_error (o_band_flux_err r) k = nth_error (o_band_flux_err r') k /\
  nth_error (o_band_flux_flags r) k = nth_error (o_band_flux_flags r') k.

(** Images of a run that agree in the bands [bs] under the stamp of size [b] of
    an object at (y, xx), like their segmentation maps. The other bands are free,
    but the jacobian and the size of the PSF image of the first band count for all
    bands. *)
Definition same_stamps_in (bs : list Z) (y xx : Q) (b : Z) (seg seg' : img Z) (m m' : mbo) : Prop :=
  List.length m = List.length m' /\
  (forall k ol ol', In (Z.of_nat k) bs -> nth_error m k = Some ol -> nth_error m' k = Some ol' ->
     exists o o', ol = [o] /\ ol' = [o'] /\ same_obs_under y xx b o o' /\
       nr seg = nr (ob_image o) /\ nc seg = nc (ob_image o)) /\
  (forall o0 o0' rest rest', m = [o0] :: rest -> m' = [o0'] :: rest' ->
     ob_jac o0 = ob_jac o0' /\ nr (ob_psf o0) = nr (ob_psf o0') /\ nc (ob_psf o0) = nc (ob_psf o0')) /\
  same_under y xx b seg seg'.

(** What two rows of fitter [f] with the shear bands [sb] have in common when the
    data of the bands [bs], out of [n], agree. Averaged moments: the columns of
    the object if all shear bands are among them, and the fluxes in each of them.
    Joint fits: everything, if all shear bands are among them and neither row has
    flags. *)
Definition fit_agrees (ng : ngcodes) (f : Conf_model.fitter) (sb bs : list Z) (n : nat) (u u' : row) : Prop :=
  (fi_wavg f = true -> incl sb bs -> same_object u u') /\
  (fi_wavg f = true -> forall k, In (Z.of_nat k) bs -> (k < n)%nat -> same_flux k u u') /\
  (fi_wavg f = false -> incl sb bs -> (forall b, In b sb -> 0 <= b) -> NO_ATTEMPT ng <> 0 -> o_flags u = 0 -> o_flags u' = 0 -> u = u').
