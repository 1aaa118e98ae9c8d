(** Floating point storage and arithmetic: the positions kept in single precision
    columns (detect.py, lsst/measure.py, metadetect.py) and the masked fraction
    averages, with every rounding of the code modelled.
    The IEEE formats are Flocq's FLT formats, rounding to nearest with ties to
    even, subnormal numbers included. Simplification: overflow to infinity and
    nan are not modelled (positions and weights are far from the largest number). *)
From Coq Require Import ZArith Reals List.
From Flocq Require Import Core.
Import ListNotations.
Local Open Scope R_scope.

(** A format: significand bits and minus the exponent of the least subnormal. *)
Record fmt := mkFmt { f_prec : positive; f_tiny : positive }.
(** numpy's f4 and f8 *)
Definition single : fmt := mkFmt 24 149.
Definition double : fmt := mkFmt 53 1074.
(** The number stored for the real number [x]. *)
Definition fl (f : fmt) (x : R) : R :=
  round radix2 (FLT_exp (Zneg (f_tiny f)) (Zpos (f_prec f))) ZnearestE x.

(** ** Stamp positions, one axis: detect.py:296-327 and 485-523, with the column
    types of detect.py:263-270 and 463-470: orig_row, cutout_row are f4,
    orig_start_row, orig_end_row are i8; f4 minus i8 is f8. [y] is the position
    given by the extractor or the caller. *)
Record axis := mkAxis { a_orig : R; a_start : Z; a_end : Z; a_cut : R }.
Definition axis_entry (dim : Z) (y : R) (box : Z) : axis :=
  let orig := fl single y in
  let half := (box / 2)%Z in
  let o := Ztrunc orig in
  let s := Z.max (o - half + 1) 0 in
  let e := Z.min (o + half + 1) dim in
  mkAxis orig s e (fl single (fl double (orig - IZR s))).

(** ** Mask lookups *)

(** lsst/metadetect.py:437-441, one axis: [pos] was stored in the f4 column
    (lsst/measure.py:572-573), [start] is the i4 column row0 or col0
    (lsst/measure.py:570-571); f4 minus i4 is f8. *)
Definition local_pixel (pos : R) (start : Z) : Z :=
  Zfloor (fl double (fl double (fl single pos - IZR start) + / 2)).

(** metadetect.py:880-890, one axis: [pos] was stored in the f4 column sx_row
    (metadetect.py:626-629); rint and clip are exact. *)
Definition clipped_pixel (pos : R) (dim : Z) : Z :=
  Z.min (Z.max (ZnearestE (fl single pos)) 0) (dim - 1).

(** ** Averages *)

(** a += x for each x, from 0. *)
Definition fsum (f : fmt) (l : list R) : R := fold_left (fun a x => fl f (a + x)) l 0.
(** The sum of w * v over the bands that have a value. *)
Definition fwsum (f : fmt) (l : list (R * option R)) : R :=
  fold_left (fun a wv => match snd wv with Some v => fl f (a + fl f (v * fst wv)) | None => a end) l 0.

(** metadetect.py:207-232 at one pixel: the weight of each band and its masked
    fraction there, None for a band without a map. Simplification: numpy's sum of
    fewer than eight numbers, from left to right. *)
Definition band_mean (f : fmt) (l : list (R * option R)) : R :=
  let w := fsum f (map fst l) in
  if Rlt_dec 0 w then fl f (fwsum f l / w) else 1.

(** lsst/metadetect.py:491-511 at one pixel: the same with a multiplication by the
    rounded reciprocal. Simplification: weights and maps have one precision. *)
Definition recip_mean (f : fmt) (l : list (R * R)) : R :=
  let w := fsum f (map fst l) in
  fl f (fwsum f (map (fun wv => (fst wv, Some (snd wv))) l) * fl f (1 / w)).

(** mfrac.py:74-80 and lsst/metadetect.py:419-428: sums[5] / wsum of ngmix's
    get_weighted_sums (third party), which adds weight and weight * value pixel by
    pixel. *)
Definition pixel_mean (f : fmt) (l : list (R * R)) : R :=
  fl f (fwsum f (map (fun wv => (fst wv, Some (snd wv))) l) / fsum f (map fst l)).

(** metadetect.py:660: np.mean of the pixels, stored in an f4 column. numpy adds
    in blocks: a sum in any order is a tree. *)
Inductive tree := Leaf (x : R) | Node (a b : tree).
Fixpoint leaves (t : tree) : list R :=
  match t with Leaf x => [x] | Node a b => leaves a ++ leaves b end.
Fixpoint tsum (f : fmt) (t : tree) : R :=
  match t with Leaf x => x | Node a b => fl f (tsum f a + tsum f b) end.
Definition image_mean (f : fmt) (t : tree) : R :=
  fl single (fl f (tsum f t / IZR (Z.of_nat (List.length (leaves t))))).
