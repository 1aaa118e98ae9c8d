(** Specification vocabulary for C138: the same sky on a pixel grid that starts
    elsewhere. *)
From Coq Require Import ZArith QArith List String Bool.
From Verif Require Import Base Arr Median Detect_model Detect_spec Wavg_model Mdet_model Mrun_model Mrun_spec Mlocal_spec.
Import ListNotations.
Local Open Scope string_scope.
Local Open Scope Z_scope.

(** The detection record of an object that is found [dr] rows and [dc] columns
    further on. *)
Definition moved_by (d : Z) (p p' : Q) : Prop := (p' == p + inject_Z d)%Q.
Definition moved_object (dr dc : Z) (o o' : detobj) : Prop :=
  moved_by dr (d_y o) (d_y o') /\ moved_by dc (d_x o) (d_x o') /\
  d_ymin o' = d_ymin o + dr /\ d_ymax o' = d_ymax o + dr /\ d_xmin o' = d_xmin o + dc /\ d_xmax o' = d_xmax o + dc /\
  d_a o' = d_a o /\ d_b o' = d_b o /\ d_flux_radius o' = d_flux_radius o /\ d_iso_radius o' = d_iso_radius o.

(** The rows (or columns) [s], ..., [s + b - 1] of a stamp of size [b] around
    coordinate [p], all in an image of [n] rows (or columns). *)
Definition fits_in (n : Z) (p : Q) (b : Z) : Prop :=
  (0 <= p)%Q /\ 0 <= qtrunc p - b / 2 + 1 /\ qtrunc p - b / 2 + 1 + b <= n.

(** The pixels under the stamp of an object at (y, xx) are found again, moved. *)
Definition moved_under {A} (dr dc : Z) (y xx : Q) (b : Z) (im im' : img A) : Prop :=
  forall i j, under_stamp y xx b i j -> px im' (i + dr) (j + dc) = px im i j.
Definition moved_obs (dr dc : Z) (y xx : Q) (b : Z) (o o' : obs) : Prop :=
  moved_under dr dc y xx b (ob_image o) (ob_image o') /\ moved_under dr dc y xx b (ob_weight o) (ob_weight o') /\
  moved_under dr dc y xx b (ob_bmask o) (ob_bmask o') /\
  ((ob_noise o = None /\ ob_noise o' = None) \/
   (exists n n', ob_noise o = Some n /\ ob_noise o' = Some n' /\ moved_under dr dc y xx b n n')) /\
  ob_jac o = ob_jac o' /\ same_pixels (ob_psf o) (ob_psf o').
(** In every band; the segmentation maps have the size of their images. *)
Definition moved_stamps (dr dc : Z) (y xx : Q) (b : Z) (seg seg' : img Z) (m m' : mbo) : Prop :=
  Forall2 (fun ol ol' => exists o o', ol = [o] /\ ol' = [o'] /\ moved_obs dr dc y xx b o o' /\
    nr seg = nr (ob_image o) /\ nc seg = nc (ob_image o) /\ nr seg' = nr (ob_image o') /\ nc seg' = nc (ob_image o')) m m' /\
  moved_under dr dc y xx b seg seg'.

(** The stamp reader looks at the pixels of the cutouts, at the PSF image, at the
    number and the size of the object and at its position in the stamp, not at
    its position in the image. *)
Definition reader_moves (x : third) : Prop :=
  forall wt cut cut' e e' j pc p p', (forall t, same_cutout (cut t) (cut' t)) ->
    e_number e = e_number e' -> e_box e = e_box e' -> (e_crow e == e_crow e')%Q -> (e_ccol e == e_ccol e')%Q ->
    same_pixels p p' -> tp_read x wt cut e j pc p = tp_read x wt cut' e' j pc p'.

(** What is the same and what moves. *)
Definition row_moved (dr dc : Z) (r r' : drow row) : Prop :=
  r_fits r' = r_fits r /\ moved_by dr (x_row (r_extra r)) (x_row (r_extra r')) /\ moved_by dc (x_col (r_extra r)) (x_col (r_extra r')).
