(** Specification vocabulary for C121: what of the images an object's fits depend
    on. *)
From Coq Require Import ZArith QArith List String Bool.
From Verif Require Import Base Arr Median Detect_model Detect_spec Wavg_model Mdet_model Mrun_model Mrun_spec.
Import ListNotations.
Local Open Scope string_scope.
Local Open Scope Z_scope.

(** Two images with the same pixels; two cutouts that are the same image or the
    same error. *)
Definition same_pixels {A} (im im' : img A) : Prop :=
  nr im = nr im' /\ nc im = nc im' /\ forall i j, inside im i j -> px im i j = px im' i j.
Definition same_cutout (r r' : outcome (img Detect_model.num)) : Prop :=
  (exists s s', r = Ok s /\ r' = Ok s' /\ same_pixels s s') \/ (exists e, r = Raise e /\ r' = Raise e).

(** The stamp reader looks at the pixels of the cutouts, at the PSF image, and at
    the number, size and position of the object. *)
Definition same_entry (e e' : cat_entry) : Prop :=
  e_number e = e_number e' /\ e_box e = e_box e' /\ e_row e = e_row e' /\ e_col e = e_col e' /\
  e_srow e = e_srow e' /\ e_scol e = e_scol e' /\ e_crow e = e_crow e' /\ e_ccol e = e_ccol e'.
Definition reader_local (x : third) : Prop :=
  forall wt cut cut' e e' j pc p p', (forall t, same_cutout (cut t) (cut' t)) -> same_entry e e' -> same_pixels p p' ->
    tp_read x wt cut e j pc p = tp_read x wt cut' e' j pc p'.

(** The images agree where the stamp of size [b] of an object at (y, xx) lies. *)
Definition under_stamp (y xx : Q) (b i j : Z) : Prop :=
  first_pixel y b <= i < first_pixel y b + b /\ first_pixel xx b <= j < first_pixel xx b + b.
Definition same_under {A} (y xx : Q) (b : Z) (im im' : img A) : Prop :=
  nr im = nr im' /\ nc im = nc im' /\ forall i j, inside im i j -> under_stamp y xx b i j -> px im i j = px im' i j.
(** Image, weight, bit mask and noise of two observations agree under the stamp,
    and the observations have the same jacobian and PSF image. *)
Definition same_obs_under (y xx : Q) (b : Z) (o o' : obs) : Prop :=
  same_under y xx b (ob_image o) (ob_image o') /\ same_under y xx b (ob_weight o) (ob_weight o') /\
  same_under y xx b (ob_bmask o) (ob_bmask o') /\
  ((ob_noise o = None /\ ob_noise o' = None) \/
   (exists n n', ob_noise o = Some n /\ ob_noise o' = Some n' /\ same_under y xx b n n')) /\
  ob_jac o = ob_jac o' /\ same_pixels (ob_psf o) (ob_psf o').
(** The same in every band, and for the two segmentation maps, which have the
    size of the images. *)
Definition same_stamps (y xx : Q) (b : Z) (seg seg' : img Z) (m m' : mbo) : Prop :=
  Forall2 (fun ol ol' => exists o o', ol = [o] /\ ol' = [o'] /\ same_obs_under y xx b o o' /\
    nr seg = nr (ob_image o) /\ nc seg = nc (ob_image o)) m m' /\
  same_under y xx b seg seg'.
