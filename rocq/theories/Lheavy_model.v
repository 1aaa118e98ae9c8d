(** Model of scarletModelToHeavy in metadetect/lsst/model_subtractor.py, and of the
    way ModelSubtractor makes the models of all sources of all blends with it. The
    pixels are exact numbers in canonical form. *)
From Coq Require Import ZArith QArith Qcanon List String Bool.
From Verif Require Import Base Dict Lutil_model Lsub_model.
Import ListNotations.
Local Open Scope string_scope.
Local Open Scope Z_scope.
Local Open Scope list_scope.

(** A plane: pixels by x and y. *)
Definition plane := Z -> Z -> Qc.
(** scarlet's Image.project onto a box: zero outside of the box. *)
Definition boxed (b : box) (m : plane) : plane := fun x y => if in_boxb b x y then m x y else 0%Qc.
Definition qcsum (l : list Qc) : Qc := fold_right Qcplus 0%Qc l.
(** A real space convolution with a kernel of half sizes [rw] and [rh]. *)
Definition convolution (rw rh : Z) (k : plane) (m : plane) : plane :=
  fun x y => qcsum (flat_map (fun j => map (fun i => (k i j * m (x - i)%Z (y - j)%Z)%Qc) (zrange2 (- rw) (rw + 1))) (zrange2 (- rh) (rh + 1))).

(** What is used of scarlet's Observation: the box, the bands, the shape of the
    images in psfs, and the kernel of convolve(mode="real") with its half sizes
    (x, y). *)
Record observation := mkObservation {
  ob_box : box; ob_bands : list string; ob_psf_shape : Z * Z; ob_half : Z * Z; ob_kernel : string -> plane
}.
(** And of a Source: its identifier, box and model; the box and the image of the
    flux weighted model. *)
Record source := mkSource {
  so_id : Z; so_box : box; so_model : string -> plane; so_flux_box : box; so_flux : string -> plane
}.
Definition grow2 (dw dh : Z) (b : box) : box :=
  match b with
  | None => None
  | Some b => norm_box (mkBox (bx0 b - dw) (by0 b - dh) (bx1 b + dw) (by1 b + dh))
  end.

(** model_subtractor.py:484-494: the box of the model. An empty scarlet box cannot
    grow out of nothing here; the stack never makes one. *)
Definition heavy_box (ob : observation) (s : source) (use_flux : bool) : box :=
  let dh := fst (ob_psf_shape ob) / 2 in
  let dw := snd (ob_psf_shape ob) / 2 in
  clip_box (if use_flux then so_flux_box s else grow2 dw dh (so_box s)) (ob_box ob).
(** model_subtractor.py:495-503: the model in that box. source.get_model() is an
    image on the box of the source. *)
Definition heavy_image (ob : observation) (s : source) (use_flux : bool) (band : string) : plane :=
  let overlap := heavy_box ob s use_flux in
  if use_flux then boxed overlap (boxed (so_flux_box s) (so_flux s band))
  else convolution (fst (ob_half ob)) (snd (ob_half ob)) (ob_kernel ob band) (boxed overlap (boxed (so_box s) (so_model s band))).
(** np.max over the bands *)
Definition qcmax2 (a b : Qc) : Qc := match (a ?= b)%Qc with Lt => b | _ => a end.
Definition qcmax (l : list Qc) : Qc := match l with [] => 0%Qc | a :: r => fold_left qcmax2 r a end.
(** model_subtractor.py:505-533: the pixels of the footprint are those where the
    largest value of all bands is not 0. np.max of an empty array is a
    ValueError. The peak that is added to the footprint is not used later. *)
Definition heavy_pixels (ob : observation) (s : source) (use_flux : bool) (band : string) : pixmap Qc :=
  fun x y =>
    if in_boxb (heavy_box ob s use_flux) x y
       && negb (Qc_eq_bool (qcmax (map (fun b => heavy_image ob s use_flux b x y) (ob_bands ob))) 0%Qc)
    then Some (heavy_image ob s use_flux band x y) else None.
Definition scarlet_model_to_heavy (ob : observation) (s : source) (use_flux : bool) : outcome (heavy Qc) :=
  match ob_bands ob, heavy_box ob s use_flux with
  | [], _ | _, None => Raise ValueError
  | [band], _ => Ok (HSingle Qc (heavy_pixels ob s use_flux band))
  | bands, _ => Ok (HMulti Qc (map (fun band => (band, heavy_pixels ob s use_flux band)) bands))
  end.

(** model_subtractor.py:417-449: the models of the sources of all blends, in order,
    as the list that Lsub_model takes; each blend has its own observation, made
    with the bands of the model data. In the code a source that cannot be found in
    the catalogue raises before its model is made; either way the constructor
    raises. *)
Definition blend := (observation * list source)%type.
Definition blend_sources (b : blend) : outcome (list (blend_source Qc)) :=
  omap (fun s => do _ <- scarlet_model_to_heavy (fst b) s false; Ok (mkBlend Qc (so_id s) (heavy_pixels (fst b) s false))) (snd b).
Definition scarlet_subtractor (mbands bands : list string) (ebox : box) (foot : Z -> option (box * list (Z * Z))) (blends : list blend)
    (orig : images Qc) : outcome (subtractor Qc) :=
  do l <- omap blend_sources blends;
  make_subtractor Qc Qcminus mbands bands ebox foot (List.concat l) orig.
