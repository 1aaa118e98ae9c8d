(** Coadds and averages over bands at one pixel, with every rounding of the code
    modelled, on the formats of Fp_model. Overflow and nan are not modelled. *)
From Coq Require Import ZArith Reals List.
From Verif Require Import Fp_model.
Import ListNotations.
Local Open Scope R_scope.

(** acc = 0; acc += x for each x, in the order of the list: [fsum] of Fp_model. *)

(** Weights divided by their total [W], then image += weight*pixel (and the same
    with the factors swapped): detect.py:232-238, fitting.py:573, 598-600, 604 and 608. *)
Definition norm_mean (f : fmt) (W : R) (l : list (R * R)) : R :=
  fsum f (map (fun wv => fl f (snd wv * fl f (fst wv / W))) l).

(** detect.py:212-220 and 227-238, one pixel of the detection image: the median
    weight and the pixel of each band. The variance is 1/median, the weight
    1/variance. [order] is the order in which numpy's sum adds. *)
Definition det_weight (f : fmt) (m : R) : R := fl f (1 / fl f (1 / m)).
Definition det_pixel (f : fmt) (order : list R -> tree) (l : list (R * R)) : R :=
  let l' := map (fun mv => (det_weight f (fst mv), snd mv)) l in
  norm_mean f (tsum f (order (map fst l'))) l'.

(** detect.py:229-230, the noise of the detection image. *)
Definition det_noise (f : fmt) (order : list R -> tree) (medians : list R) : R :=
  fl f (sqrt (fl f (1 / tsum f (order (map (det_weight f) medians))))).

(** fitting.py:563-600, one pixel of the coadded image (psf_image, noise and mfrac
    are the same): the median weight and the pixel of each band. *)
Definition coadd_pixel (f : fmt) (order : list R -> tree) (l : list (R * R)) : R :=
  norm_mean f (tsum f (order (map fst l))) l.
(** fitting.py:601 and 620, one pixel of the coadded weight map, for positive
    weights: the median weight and the weight of the pixel of each band. *)
Definition coadd_weight (f : fmt) (order : list R -> tree) (l : list (R * R)) : R :=
  let W := tsum f (order (map fst l)) in
  fl f (1 / fsum f (map (fun wp => let q := fl f (fst wp / W) in fl f (fl f (q * q) / snd wp)) l)).

(** lsst/util.py:497-519, one pixel of coadd_exposures: the median variance of each
    band and its pixel, None where the variance is not positive. Simplification:
    one precision. *)
Definition task_pixel (f : fmt) (l : list (R * option R)) : R :=
  let l' := map (fun mv => (fl f (1 / fst mv), snd mv)) l in
  fl f (fwsum f l' * fl f (1 / fsum f (map fst l'))).

(** metadetect.py:839-862 and lsst/metadetect.py:579-628, the mean of a PSF
    quantity: [pixel_mean] of Fp_model, sum(w*v)/sum(w). *)
