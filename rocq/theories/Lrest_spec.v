(** Specification vocabulary for C91-C93. *)
From Coq Require Import ZArith QArith List String Bool.
From Verif Require Import Base Arr Median Dict Lutil_model Lutil_spec Lexp_model Lexp_spec Lmeas_model Lrest_model.
Import ListNotations.
Local Open Scope string_scope.
Local Open Scope Z_scope.

(** A pixel (x, y) of the sky plane lies in an exposure. *)
Definition in_exposure (e : exposure) (x y : Z) : Prop :=
  e_x0 e <= x < e_x0 e + nc (e_image e) /\ e_y0 e <= y < e_y0 e + nr (e_image e).
(** All bands cover the same pixels (as the stack demands of them). *)
Definition aligned (bands : list exposure) : Prop :=
  forall a b, In a bands -> In b bands ->
    e_x0 a = e_x0 b /\ e_y0 a = e_y0 b /\ nr (e_image a) = nr (e_image b) /\ nc (e_image a) = nc (e_image b).

(** The part of [e] whose lower left pixel is (x0, y0) and that has h rows and w
    columns. *)
Definition part_of (e : exposure) (x0 y0 h w : Z) (sub : exposure) : Prop :=
  e_x0 sub = x0 /\ e_y0 sub = y0 /\ e_psf sub = e_psf e /\ e_wcs sub = e_wcs e /\
  nr (e_image sub) = h /\ nc (e_image sub) = w /\ nr (e_var sub) = h /\ nc (e_var sub) = w /\
  nr (e_mask sub) = h /\ nc (e_mask sub) = w /\
  forall i j, px (e_image sub) i j = px (e_image e) (y0 + i - e_y0 e) (x0 + j - e_x0 e) /\
    px (e_var sub) i j = px (e_var e) (y0 + i - e_y0 e) (x0 + j - e_x0 e) /\
    px (e_mask sub) i j = px (e_mask e) (y0 + i - e_y0 e) (x0 + j - e_x0 e).
(** The observation of that part: its pixels, the constant weight of the part
    (C69), the jacobian centred on the position [at_] (x, y), the PSF at [cen]. *)
Definition part_observed (W : wcs_oracle) (at_ cen : Q * Q) (e : exposure) (x0 y0 h w : Z) (o : lobs) : Prop :=
  exists sub draw wcs, part_of e x0 y0 h w sub /\
    nr (o_image o) = h /\ nc (o_image o) = w /\
    (forall i j, px (o_image o) i j = px (e_image e) (y0 + i - e_y0 e) (x0 + j - e_x0 e)) /\
    (exists bm, o_bmask o = Some bm /\ nr bm = h /\ nc bm = w /\
       forall i j, px bm i j = px (e_mask e) (y0 + i - e_y0 e) (x0 + j - e_x0 e)) /\
    (exists wt, inverse_median_variance sub wt /\ (0 < wt)%Q /\ forall i j, px (o_weight o) i j = wt) /\
    e_wcs e = Some wcs /\
    o_jac o = mkJac (snd at_ - inject_Z y0) (fst at_ - inject_Z x0)
      (m11 (W wcs (fst at_) (snd at_))) (- m10 (W wcs (fst at_) (snd at_)))
      (m01 (W wcs (fst at_) (snd at_))) (- m00 (W wcs (fst at_) (snd at_))) /\
    e_psf e = Some draw /\ op_image (o_psf o) = draw (fst cen) (snd cen).

(** The box of the stamp: with [clip] the pixels of the exposures within k of the
    peak, otherwise all pixels within k. *)
Definition stamp_box (bands : list exposure) (x y k : Z) (clip : bool) (x0 y0 h w : Z) : Prop :=
  0 < h /\ 0 < w /\
  forall X Y, (x0 <= X < x0 + w /\ y0 <= Y < y0 + h) <->
    x - k <= X <= x + k /\ y - k <= Y <= y + k /\ (clip = true -> forall e, In e bands -> in_exposure e X Y).

(** C92: the settings seen by a detection: every entry of the caller except the
    threshold, the filter kernel as an array. *)
Definition settings_of (d d' : list (string * sxval)) : Prop :=
  forall k, sget k d' =
    if String.eqb k "detect_thresh" then None
    else if String.eqb k "filter_kernel" then match sget k d with Some (SSeq l) => Some (SArr l) | v => v end
    else sget k d.
