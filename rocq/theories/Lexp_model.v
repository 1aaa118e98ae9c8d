(** Model of metadetect/lsst/util.py: conversion between exposures and
    observations, coadds of exposures and of observations, stamp extraction.
    Exact rationals replace floats; a variance is a rational or +infinity
    (None). Not-a-number variances and images are not inputs of the model. *)
From Coq Require Import ZArith QArith List String Bool.
From Verif Require Import Base Arr Median.
Import ListNotations.
Local Open Scope string_scope.
Local Open Scope Z_scope.

Definition evar := option Q.
(** v > 0 *)
Definition vpos (v : evar) : bool := match v with None => true | Some q => negb (Qle_bool q 0) end.
(** 1/v for v > 0, 1/infinity = 0 *)
Definition vinv (v : evar) : Q := match v with None => 0%Q | Some q => (1 / q)%Q end.

(** A position (x, y) and a bounding box: inclusive x0, y0 and the size. *)
Record exposure := mkExp {
  e_x0 : Z; e_y0 : Z;
  e_image : img Q; e_var : img evar; e_mask : img Z;
  e_psf : option (Q -> Q -> img Q);   (* computeKernelImage at (x, y) *)
  e_wcs : option Z                    (* identity of the wcs object *)
}.
(** ngmix.Jacobian: centre (row, col) and derivatives. *)
Record jacob := mkJac { j_row : Q; j_col : Q; dudx : Q; dudy : Q; dvdx : Q; dvdy : Q }.
Record obspsf := mkOpsf { op_image : img Q; op_weight : img Q; op_jac : jacob }.
(** An ngmix.Observation: the planes used here. The noise plane and meta are
    there to say what happens to them. *)
Record lobs := mkLobs {
  o_image : img Q; o_weight : img Q; o_bmask : option (img Z); o_ormask : option (img Z);
  o_noise : option (img Q); o_jac : jacob; o_psf : obspsf
}.

(** a[:, :] = b, with numpy broadcasting. *)
Definition set_all {A} (dest src : img A) : outcome (img A) := assign_slice dest 0 (nr dest) 0 (nc dest) src.

(** ** util.py:669-729, obs2exp *)

(** A new exposure has no psf and no wcs. *)
Definition mask_of (o : lobs) (name : string) : outcome (img Z) :=
  let get m := match m with Some m => Ok m | None => Raise TypeError end in
  if String.eqb name "bmask" then get (o_bmask o)
  else if String.eqb name "ormask" then get (o_ormask o)
  else Raise RuntimeError.
Definition obs2exp (o : lobs) (exp : option exposure) (copy_mask_from : string) (copy_psf : bool) : outcome exposure :=
  let e := match exp with
           | Some e => e
           | None => let r := nr (o_image o) in let c := nc (o_image o) in
                     mkExp 0 0 (ifill r c 0%Q) (ifill r c (Some 0%Q)) (ifill r c 0) None None
           end in
  do im <- set_all (e_image e) (o_image o);
  do m <- mask_of o copy_mask_from;
  do mask <- set_all (e_mask e) m;
  let w := o_weight o in
  let var := mkImg (nr (e_var e)) (nc (e_var e))
    (fun i j => if insideb w i j && negb (Qle_bool (px w i j) 0) then Some (1 / px w i j)%Q else None) in
  Ok (mkExp (e_x0 e) (e_y0 e) im var mask
        (if copy_psf then Some (fun _ _ => op_image (o_psf o)) else e_psf e) (e_wcs e)).

(** ** util.py:825-890, get_jacobian and get_integer_center *)

(** The linear part of the pixel to sky map of a wcs at a position, in
    arcseconds: m00, m01, m10, m11. *)
Record mat2 := mkMat { m00 : Q; m01 : Q; m10 : Q; m11 : Q }.
Definition wcs_oracle := Z -> Q -> Q -> mat2.
(** A method of None is an AttributeError. *)
Definition some_or_attr {A} (o : option A) : outcome A := match o with Some a => Ok a | None => Raise AttributeError end.
Definition get_jacobian (W : wcs_oracle) (e : exposure) (x y : Q) : outcome jacob :=
  do wcs <- some_or_attr (e_wcs e);
  let m := W wcs x y in
  Ok (mkJac (y - inject_Z (e_y0 e)) (x - inject_Z (e_x0 e)) (m11 m) (- m10 m)%Q (m01 m) (- m00 m)%Q).
(** Point2I of the middle of the box rounds half up. *)
Definition get_integer_center (e : exposure) : Z * Z :=
  let x1 := e_x0 e + nc (e_image e) - 1 in
  let y1 := e_y0 e + nr (e_image e) - 1 in
  ((e_x0 e + x1 + 1) / 2, (e_y0 e + y1 + 1) / 2).

(** ** util.py:732-822, exp2obs *)

Definition qmax (l : list Q) : Q := fold_right (fun a b => if Qle_bool b a then a else b) (hd 0%Q l) l.
(** The pretend psf weight 1/(fac * max)^2; a psf image with maximum 0 is not
    treated specially (Q's 1/0 = 0 instead of infinity). *)
Definition psf_weight (fac : Q) (im : img Q) : img Q :=
  let err := (qmax (pixels im) * fac)%Q in imap (fun _ => (1 / (err * err))%Q) im.
Definition canonical_center (j : jacob) (im : img Q) : jacob :=
  mkJac ((inject_Z (nr im) - 1) / 2) ((inject_Z (nc im) - 1) / 2) (dudx j) (dudy j) (dvdx j) (dvdy j).
Definition odd_square {A} (im : img A) : bool := (nr im =? nc im) && negb (nr im mod 2 =? 0).
Definition weight_of_var (v : img evar) : img Q := imap (fun v => if vpos v then vinv v else 0%Q) v.
Definition exp2obs (W : wcs_oracle) (e : exposure) (copy_mask_to : string) : outcome lobs :=
  let '(cx, cy) := get_integer_center e in
  let x := inject_Z cx in let y := inject_Z cy in
  do jac <- get_jacobian W e x y;
  do draw <- some_or_attr (e_psf e);
  let psf := draw x y in
  if negb (odd_square psf) then Raise AssertionError
  else
    let zero := imap (fun _ => 0) (e_mask e) in
    do masks <- (if String.eqb copy_mask_to "ormask" then Ok (zero, e_mask e)
                 else if String.eqb copy_mask_to "bmask" then Ok (e_mask e, zero)
                 else Raise RuntimeError);
    Ok (mkLobs (e_image e) (weight_of_var (e_var e)) (Some (fst masks)) (Some (snd masks)) None jac
          (mkOpsf psf (psf_weight (1 # 10000) psf) (canonical_center jac psf))).

(** ** util.py:464-533, coadd_exposures *)

(** np.median of numbers that may be infinite: None when there are none (the
    result is then not a number), otherwise a number or infinity. *)
Definition finite_of (l : list evar) : list Q :=
  flat_map (fun v => match v with Some q => [q] | None => [] end) l.
Definition ext_median (l : list evar) : option evar :=
  let s := qsort (finite_of l) in
  let n := List.length l in
  match n with
  | O => None
  | _ =>
    match nth_error s (Nat.div2 (n - 1)), nth_error s (Nat.div2 n) with
    | Some a, Some b => Some (Some ((a + b) / 2)%Q)
    | _, _ => Some None
    end
  end.
(** 1/medvar of the positive variances: None is not a number. *)
Definition band_weight (e : exposure) : option Q :=
  match ext_median (filter vpos (pixels (e_var e))) with
  | None => None
  | Some m => Some (vinv m)
  end.

(** Sums of one plane over the exposures, starting from zero. A weight that is
    not a number counts as 0 here: it makes the image and the psf not a number
    everywhere, see [coadd_exposures]. *)
Definition bw (e : exposure) : Q := match band_weight e with Some w => w | None => 0%Q end.
Definition sum_image (es : list exposure) (r c : Z) : img Q :=
  fold_left (fun acc e =>
    mkImg r c (fun i j => if vpos (px (e_var e) i j) then (px acc i j + px (e_image e) i j * bw e)%Q else px acc i j))
    es (ifill r c 0%Q).
Definition sum_weight (es : list exposure) (r c : Z) : img Q :=
  fold_left (fun acc e =>
    mkImg r c (fun i j => if vpos (px (e_var e) i j) then (px acc i j + vinv (px (e_var e) i j))%Q else px acc i j))
    es (ifill r c 0%Q).
Definition sum_psf (ps : list (img Q * Q)) (r c : Z) : img Q :=
  fold_left (fun acc p => imap2 (fun a v => (a + v * snd p)%Q) acc (fst p)) ps (ifill r c 0%Q).
Definition or_masks (es : list exposure) (m0 : img Z) : img Z :=
  fold_left (fun acc e => imap2 Z.lor acc (e_mask e)) es m0.
Definition normalize (im : img Q) : img Q := imap (fun v => (v * (1 / qsum (pixels im)))%Q) im.

(** The centre of the image that is used for the psf does not include x0, y0. *)
Definition psf_at_center (e : exposure) : outcome (img Q) :=
  do draw <- some_or_attr (e_psf e);
  Ok (draw ((inject_Z (nc (e_image e)) - 1) / 2)%Q ((inject_Z (nr (e_image e)) - 1) / 2)%Q).

(** The result: pixels and psf pixels are None when not a number. *)
Record coadded := mkCo {
  c_image : img (option Q); c_var : img evar; c_mask : img Z; c_psf : img (option Q); c_wcs : option Z; c_x0 : Z; c_y0 : Z
}.
Definition same_size {A B} (a : img A) (b : img B) : bool := (nr a =? nr b) && (nc a =? nc b).
(** None: wsum <= 0, "found wsum <= 0". Exposures or psf images of different
    shapes are a ValueError (numpy would also repeat axes of length one; not
    modelled). A psf image whose sum is 0 is not treated specially. *)
Definition coadd_exposures (es : list exposure) : outcome (option coadded) :=
  match es with
  | [] => Ok None
  | e0 :: _ =>
    let r := nr (e_image e0) in let c := nc (e_image e0) in
    do p0 <- psf_at_center e0;
    do psfs <- omap (fun e => do p <- psf_at_center e;
                              if same_size (e_image e) (e_image e0) && same_size p p0 then Ok p else Raise ValueError) es;
      let isnan := existsb (fun e => match band_weight e with None => true | _ => false end) es in
      let wsum := qsum (map bw es) in
      if negb isnan && Qle_bool wsum 0 then Ok None
      else
        let num {A B} (im : img A) (f : A -> B) : img (option B) := imap (fun v => if isnan then None else Some (f v)) im in
        let sw := sum_weight es r c in
        Ok (Some (mkCo
          (num (sum_image es r c) (fun v => (v * (1 / wsum))%Q))
          (imap (fun w => if negb (Qle_bool w 0) then Some (1 / w)%Q else None) sw)
          (or_masks es (e_mask e0))
          (num (normalize (sum_psf (combine psfs (map bw es)) (nr p0) (nc p0))) (fun v => v))
          (e_wcs e0) (e_x0 e0) (e_y0 e0)))
  end.

(** ** util.py:556-622, coadd_mbobs: the first observation of each band. A band
    without positive weight makes everything not a number. An empty list is
    1.0/0.0, a ZeroDivisionError. *)
Definition obs_weight (o : lobs) : option Q := qmedian (filter (fun w => negb (Qle_bool w 0)) (pixels (o_weight o))).
Definition obs_w (o : lobs) : Q := match obs_weight o with Some w => w | None => 0%Q end.
Record coaddobs := mkCob { co_image : img (option Q); co_weight : img Q; co_psf : img (option Q); co_jac : jacob }.
Definition coadd_mbobs (os : list lobs) : outcome coaddobs :=
  match os with
  | [] => Raise ZeroDivisionError
  | o0 :: r =>
    let p0 := op_image (o_psf o0) in
    if negb (forallb (fun o => same_size (o_image o) (o_image o0) && same_size (op_image (o_psf o)) p0) os)
    then Raise ValueError
    else
      let isnan := existsb (fun o => match obs_weight o with None => true | _ => false end) os in
      let wsum := qsum (map obs_w os) in
      let num {A B} (im : img A) (f : A -> B) : img (option B) := imap (fun v => if isnan then None else Some (f v)) im in
      let zero := ifill (nr (o_image o0)) (nc (o_image o0)) 0%Q in
      Ok (mkCob
        (num (fold_left (fun acc o => imap2 (fun a v => (a + v * obs_w o)%Q) acc (o_image o)) os zero) (fun v => (v * (1 / wsum))%Q))
        (fold_left (fun acc o => imap2 Qplus acc (o_weight o)) os zero)
        (num (normalize (sum_psf (map (fun o => (op_image (o_psf o), obs_w o)) os) (nr p0) (nc p0))) (fun v => v))
        (o_jac (last os o0)))
  end.

(** ** util.py:1000-1065, 1081-1110, 1141-1174, extract_obs *)

(** The constant weight; 0 without positive variance. *)
Definition extract_weight (e : exposure) : img Q :=
  let w := match ext_median (filter vpos (pixels (e_var e))) with None => 0%Q | Some m => vinv m end in
  imap (fun _ => w) (e_var e).
(** [sky]: the position of the source from its sky coordinates, None when not a
    number; then the integer peak is used. [cen] is the centroid, at which the
    psf is drawn. InvalidParameterError of computeKernelImage is not modelled. *)
Definition extract_obs (W : wcs_oracle) (e : exposure) (sky : option (Q * Q)) (peak : Z * Z) (cen : Q * Q) : outcome lobs :=
  let wt := extract_weight e in
  if forallb (fun w => Qle_bool w 0) (pixels wt) then Raise (OtherError 1)   (* AllZeroWeightError *)
  else
    let at_ := match sky with Some p => p | None => (inject_Z (fst peak), inject_Z (snd peak)) end in
    do jac <- get_jacobian W e (fst at_) (snd at_);
    do draw <- some_or_attr (e_psf e);
    let psf := draw (fst cen) (snd cen) in
    if negb (odd_square psf) then Raise AssertionError
    else Ok (mkLobs (e_image e) wt (Some (e_mask e)) None None jac
               (mkOpsf psf (psf_weight (1 # 10000) psf) (canonical_center jac psf))).

(** ** util.py:946-997, extract_multiband_coadd_data: the masks *)

(** Mask arrays are objects; each band gives the addresses of the masks of its
    exposure, noise exposure and masked fraction exposure. *)
Definition masks := list (img Z).
Fixpoint mset (h : masks) (p : nat) (v : img Z -> img Z) : masks :=
  match h, p with
  | [], _ => []
  | x :: r, O => v x :: r
  | x :: r, S p' => x :: mset r p' v
  end.
Definition zero_mask (m : img Z) : img Z := imap (fun _ => 0) m.
Fixpoint extract_masks (h : masks) (bands : list (nat * nat * nat)) : outcome (masks * list (img Z)) :=
  match bands with
  | [] => Ok (h, [])
  | (e, n, f) :: rest =>
    match nth_error h e with
    | None => Raise (OtherError 0)
    | Some m =>
      let h' := mset (mset (mset h e zero_mask) n zero_mask) f zero_mask in
      do r <- extract_masks h' rest; Ok (fst r, m :: snd r)
    end
  end.
