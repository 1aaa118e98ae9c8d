(** Specification vocabulary for C139: what a run of do_metadetect needs in order
    to return. *)
From Coq Require Import ZArith QArith List String Bool.
From Verif Require Import Base Arr Median Detect_model Detect_spec Summ_model Coadd_model Wavg_model Joint_model Conf_model
  Mdet_model Mrun_model Mrun_spec.
Import ListNotations.
Local Open Scope string_scope.
Local Open Scope Z_scope.

(** ** The arguments *)

(** One to six different bands among the [n] given ones. *)
Definition good_bands (n : Z) (bands : list Z) : Prop :=
  bands <> [] /\ NoDup bands /\ (List.length bands <= 6)%nat /\ forall b, In b bands -> 0 <= b < n.
Definition known_box_type (mc : meds_config) : Prop := box_type mc = "sigma_size" \/ box_type mc = "iso_radius".

(** ** Third party code: it returns, or raises what the package handles *)

(** The source extractor returns, with a segmentation map like the image. *)
Definition sep_returns (x : third) : Prop :=
  (forall d, exists r, tp_sep x d = Ok r) /\
  (forall dim w mask objs seg, tp_sep x (Some (dim, w, mask)) = Ok (objs, seg) -> nr seg = nr dim /\ nc seg = nc dim).
(** The stamp reader returns when the planes it may ask for can be cut out as
    squares of the stamp size; observations it makes have a bit mask, a PSF and a
    square weight map. *)
Definition reader_returns (x : third) : Prop :=
  forall wt cut e j pc p,
    (forall t, In t ["image"; "weight"; "bmask"; "seg"] -> exists s, cut t = Ok s /\ nr s = e_box e /\ nc s = e_box e) ->
    exists l, tp_read x wt cut e j pc p = Ok l /\
      forall o, In o l -> f_bmask o <> None /\ f_psf o <> None /\ nr (f_weight o) = nc (f_weight o).
(** metacal returns or fails on a PSF. *)
Definition metacal_returns (x : third) : Prop :=
  forall m, (exists d, tp_metacal x m = Ok d) \/ tp_metacal x m = Raise BootPSFFailure.
(** A PSF fit without flags has a size and a shape. *)
Definition psf_complete (x : third) : Prop :=
  forall o, pr_flags (tp_psf x o) = 0 -> pr_T (tp_psf x o) <> None /\ (pr_e (tp_psf x o) <> None \/ pr_g (tp_psf x o) <> None).
(** The moments fitters return; the joint fit of some bands has a flux and an
    error for each of them. *)
Definition fitters_return (x : third) : Prop :=
  (forall f o, exists r, tp_go x f o = Ok r) /\ (forall f p, exists r, tp_go_psf x f p = Ok r) /\
  (forall mb g p, tp_boot x mb = BootOk g p -> g_flags g = 0 ->
     List.length (g_flux g) = List.length mb /\ List.length (g_flux_err g) = List.length mb).
(** The position can be unsheared for the requested types. *)
Definition unshear_returns (x : third) (c : settings) : Prop :=
  forall o t y xx, In t (st_types c) -> exists p, tp_unshear x o t y xx = Ok p.
Definition third_returns (x : third) (c : settings) : Prop :=
  sep_returns x /\ reader_returns x /\ metacal_returns x /\ psf_complete x /\ fitters_return x /\ unshear_returns x c.

(** ** Unsheared positions *)

(** The unsheared position of an object in the image lies less than half of the
    smallest stamp above the image. *)
Definition unsheared_near (x : third) (c : settings) (main : mbo) : Prop :=
  forall o0 rest t y xx r' c', main = [o0] :: rest -> In t (st_types c) ->
    pos_in (nr (ob_image o0)) (nc (ob_image o0)) y xx -> tp_unshear x o0 t y xx = Ok (r', c') ->
    (r' < inject_Z (nr (ob_image o0) + min_box_size (st_meds c) / 2))%Q /\
    (c' < inject_Z (nc (ob_image o0) + min_box_size (st_meds c) / 2))%Q.

(** A colour function that returns, and only keys it was given images for, with
    as many bands as the main images. *)
Definition colours_return (keyf : keyfun) (dep : colours) (main : mbo) : Prop :=
  (forall fl, exists key, keyf fl = Ok key /\ forall k, key = Some k -> dep k <> None) /\
  (forall k m, dep k = Some (Other m) -> zlen m = zlen main).
