(** Specification vocabulary for C141: what run_metadetect needs in order to
    return. *)
From Coq Require Import ZArith QArith List String Bool.
From Verif Require Import Base Arr Median Dict Wavg_model Joint_model Lutil_model Lutil_spec Lexp_model Lexp_spec Lthr_model Lmdet_model Lmeas_model
  Lmeas_spec Lphot_model Lfit_model Lrun_model Lown_model.
From Verif Require Lsky_model.
Import ListNotations.
Local Open Scope string_scope.
Local Open Scope Z_scope.

(** ** The caller's exposures *)

(** An exposure with the corner (x0, y0) and [r] rows and [c] columns, with a wcs
    and a PSF whose images are [n] by [n]. *)
Definition plain (x0 y0 r c n : Z) (e : exposure) : Prop :=
  e_x0 e = x0 /\ e_y0 e = y0 /\ nr (e_image e) = r /\ nc (e_image e) = c /\ e_wcs e <> None /\
  exists draw, e_psf e = Some draw /\ forall x y, nr (draw x y) = n /\ nc (draw x y) = n.
(** Every band has a finite positive variance somewhere, and one of them more
    finite positive variances than infinite ones. *)
Definition some_variance (e : exposure) : Prop :=
  exists i j q, inside (e_var e) i j /\ px (e_var e) i j = Some q /\ (0 < q)%Q.
Definition variances_fine (bands : list exposure) : Prop :=
  (forall e, In e bands -> some_variance e) /\ exists e, In e bands /\ ~ unusable (pixels (e_var e)).
Definition of_size {A} (r c : Z) (m : img A) : Prop := nr m = r /\ nc m = c.
(** The masks: none are given, or at least one, of the size of the exposures. *)
Definition masks_fine (r c : Z) (ormasks : option (list (img Z))) : Prop :=
  match ormasks with None => True | Some l => l <> [] /\ forall m, In m l -> of_size r c m end.

(** ** Third party code *)
Section P.
Context (P : phot).

(** Where an object is: its centroid, or its peak where that is not a number. *)
Definition place (d : coadded) (s : source) : Q * Q :=
  match ph_cen P d (s_id s) with Some p => p | None => s_peakpos s end.
Definition within (x0 n : Z) (x : Q) : Prop := (inject_Z x0 - (1 # 2) <= x)%Q /\ (x < inject_Z (x0 + n) - (1 # 2))%Q.
(** Detection returns on every detection exposure of this corner and size: with
    nothing or a catalogue of sources with peaks on its mask. *)
Definition detection_returns (x0 y0 r c : Z) : Prop :=
  forall cfg d, c_x0 d = x0 -> c_y0 d = y0 -> of_size r c (c_image d) ->
    exists found, ph_detect P cfg d = Ok found /\ forall cat, found = Some cat -> catalogue cat /\
      forall s, In s cat -> exists x y, hd_error (s_peaks s) = Some (x, y) /\ inside (ph_detmask P cfg d) (y - y0) (x - x0).
(** ... and the objects are placed within the pixels of the exposure. *)
Definition placed_inside (x0 y0 r c : Z) : Prop :=
  forall cfg d cat s, c_x0 d = x0 -> c_y0 d = y0 -> of_size r c (c_image d) -> ph_detect P cfg d = Ok (Some cat) -> In s cat ->
    within x0 c (fst (place d s)) /\ within y0 r (snd (place d s)).
(** One band: detection runs on an exposure with the same corner and size. *)
Definition single_keeps : Prop :=
  forall e, c_x0 (ph_single P e) = e_x0 e /\ c_y0 (ph_single P e) = e_y0 e /\ of_size (nr (e_image e)) (nc (e_image e)) (c_image (ph_single P e)).
(** The fits of the PSFs of the original exposures succeed, and shapes convert. *)
Definition psfs_fit (bands : list exposure) : Prop :=
  (forall e, In e bands -> exists f, ph_psffit P e = Ok f /\ pf_flags f = 0) /\ forall a b, exists g, ph_to_g P a b = Some g.
End P.
(** The background and detection tasks of the sky subtraction return, or raise
    one of the two errors that the sky subtraction handles; the stack accepts the
    threshold. *)
Definition sky_tasks_return (P : phot) (thresh : atom) : Prop :=
  (exists c, snd (sky_config (ph_stack P) thresh None) = Ok c) /\
  (forall e x err, ph_back P e x <> inl (Lsky_model.OtherFailure err)) /\
  forall c e x m err, ph_skydetect P c e x <> (m, inl (Lsky_model.OtherFailure err)).
(** The third party parts of the fits return; a successful joint fit has a flux
    and an error for each band. *)
Definition fitters_return (F : fits) : Prop :=
  (forall mb g p, f_boot F mb = BootOk g p -> g_flags g = 0 ->
     List.length (g_flux g) = List.length mb /\ List.length (g_flux_err g) = List.length mb) /\
  forall fwhm, k_kind (f_pgauss F fwhm) <> "am" /\ (forall o, exists r, k_go (f_pgauss F fwhm) o = Ok r) /\
    forall p, exists r, k_go_psf (f_pgauss F fwhm) p = Ok r.

Section S.
Context {Prof : Type} (R : mrun Prof) (F : fits).
Let P := r_phot R.

(** galsim returns; what it draws has the size of the image it draws into. *)
Definition galsim_returns : Prop :=
  (forall s f, exists p, r_gaussian R s f = Ok p) /\ (forall k w f, exists p, r_target R k w f = Ok p) /\
  (forall im w k s p, exists m, r_draw R im w k s p = Ok m /\ of_size (nr im) (nc im) m) /\
  (forall p k w, of_size (nr k) (nc k) (r_drawpsf R p k w)).
(** The sky subtraction, if it is asked for, returns with the exposures [bands1]. *)
Definition sky_returns (s : settings) (bands bands1 : list exposure) : Prop :=
  (truthy (s_sky s) = true -> subtract_sky_mbexp P (s_thresh s) bands = (bands1, Ok tt)) /\ (truthy (s_sky s) = false -> bands1 = bands).
(** The configuration can be read and asks for bands that exist; the stack
    accepts the threshold and the deblender. *)
Definition config_fine (user : option items) (names : list string) (s : settings) : Prop :=
  read_config R user = Ok s /\ (forall l b, s_shear s = Some l -> In b l -> In b names) /\
  exists c, snd (detect_and_deblend_config (ph_stack P) (s_thresh s) (s_deblender s) None) = Ok c.

(** What a run needs, apart from detection and the deblender. *)
Definition run_basics (user : option items) (names : list string) (bands bands1 noise : list exposure) (ms : list (img Q))
    (ormasks : option (list (img Z))) (s : settings) (x0 y0 r c n : Z) : Prop :=
  config_fine user names s /\ sky_returns s bands bands1 /\
  NoDup names /\ List.length names = List.length bands /\ List.length noise = List.length bands /\ List.length ms = List.length bands /\
  1 <= zlen bands <= 6 /\ 0 < r /\ 0 < c /\ n mod 2 = 1 /\
  (forall e, In e bands -> plain x0 y0 r c n e) /\ (forall e, In e noise -> plain x0 y0 r c n e) /\
  variances_fine bands /\ (forall m, In m ms -> of_size r c m) /\ masks_fine r c ormasks /\
  psfs_fit P bands1 /\ galsim_returns /\ fitters_return F /\ single_keeps P.
(** Everything that a run with the SDSS deblender needs, except for the places of
    the objects. *)
Definition run_ready (user : option items) (names : list string) (bands bands1 noise : list exposure) (ms : list (img Q))
    (ormasks : option (list (img Z))) (s : settings) (x0 y0 r c n : Z) : Prop :=
  run_basics user names bands bands1 noise ms ormasks s x0 y0 r c n /\
  s_deblender s <> "scarlet" /\ detection_returns P x0 y0 r c /\ lists_set (ph_order P).
End S.
