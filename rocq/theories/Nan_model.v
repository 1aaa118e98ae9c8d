(** Coadds and the detection image on pixels that may be infinite or not a number:
    the arithmetic of the code on such values is modelled, with exact rationals
    for the finite ones. Other areas take finite pixels only. *)
From Coq Require Import ZArith QArith List Bool.
From Verif Require Import Base Arr Median.
From Verif Require Detect_model Coadd_model Lexp_model.
Import ListNotations.
Local Open Scope Z_scope.

(** IEEE 754 values: numbers, the infinities (true: the negative one) and nan.
    Simplifications: one zero; no overflow. *)
Inductive xnum := Fin (q : Q) | Inf (neg : bool) | NaN.
Definition qneg (q : Q) : bool := negb (Qle_bool 0 q).
Definition xadd (a b : xnum) : xnum :=
  match a, b with
  | NaN, _ | _, NaN => NaN
  | Fin p, Fin q => Fin (p + q)
  | Inf s, Inf t => if Bool.eqb s t then Inf s else NaN
  | Inf s, Fin _ | Fin _, Inf s => Inf s
  end.
Definition xmul (a b : xnum) : xnum :=
  match a, b with
  | NaN, _ | _, NaN => NaN
  | Fin p, Fin q => Fin (p * q)
  | Inf s, Inf t => Inf (xorb s t)
  | Inf s, Fin q | Fin q, Inf s => if Qeq_bool q 0 then NaN else Inf (xorb s (qneg q))
  end.
Definition xdiv (a b : xnum) : xnum :=
  match a, b with
  | NaN, _ | _, NaN => NaN
  | Fin p, Fin q => if Qeq_bool q 0 then (if Qeq_bool p 0 then NaN else Inf (qneg p)) else Fin (p / q)
  | Inf _, Inf _ => NaN
  | Inf s, Fin q => Inf (if Qeq_bool q 0 then s else xorb s (qneg q))
  | Fin _, Inf _ => Fin 0
  end.
(** x > 0 and np.isfinite(x) *)
Definition xpos (x : xnum) : bool :=
  match x with Fin q => negb (Qle_bool q 0) | Inf s => negb s | NaN => false end.
Definition xfin (x : xnum) : bool := match x with Fin _ => true | _ => false end.
Definition xsum (l : list xnum) : xnum := fold_left xadd l (Fin 0).
(** np.median of positive values, nan for none: [ext_median] of Lexp_model. *)
Definition xmedian (l : list xnum) : xnum :=
  match Lexp_model.ext_median (map (fun x => match x with Fin q => Some q | _ => None end) l) with
  | None => NaN
  | Some None => Inf false
  | Some (Some q) => Fin q
  end.
Definition one : xnum := Fin 1.

(** ** detect.py:212-238, the detection image. The image starts as 0 times the image
    of the first band. *)
Record xband := mkXb { xb_image : img xnum; xb_weight : img xnum }.
Definition xb_median (b : xband) : xnum := xmedian (filter xpos (pixels (xb_weight b))).
Definition x_detim (bands : list xband) : img xnum :=
  match bands with
  | [] => ifill 0 0 NaN
  | b0 :: _ =>
    let weights := map (fun b => xdiv one (xdiv one (xb_median b))) bands in
    let wsum := xsum weights in
    let normed := map (fun w => xdiv w wsum) weights in
    mkImg (nr (xb_image b0)) (nc (xb_image b0))
      (fun i j => fold_left (fun a bw => xadd a (xmul (px (xb_image (fst bw)) i j) (snd bw))) (combine bands normed)
                    (xmul (px (xb_image b0) i j) (Fin 0)))
  end.

(** ** fitting.py:563-622, the image and the weight of the coadd of observations. None:
    a band without positive weight, which is flagged (fitting.py:567-570). *)
Definition x_coadd (obs : list xband) : option (img xnum * img xnum) :=
  match obs with
  | [] => None
  | o0 :: _ =>
    if forallb (fun o => existsb xpos (pixels (xb_weight o))) obs then
      let weights := map xb_median obs in
      let wsum := xsum weights in
      let normed := map (fun w => xdiv w wsum) weights in
      let r := nr (xb_image o0) in let c := nc (xb_image o0) in
      let image := mkImg r c (fun i j => xsum (map (fun ow => xmul (snd ow) (px (xb_image (fst ow)) i j)) (combine obs normed))) in
      let weight := mkImg r c (fun i j =>
        let w := xdiv one (xsum (map (fun ow => xdiv (xmul (snd ow) (snd ow)) (px (xb_weight (fst ow)) i j)) (combine obs normed))) in
        if xfin w then w else Fin 0) in
      Some (image, weight)
    else None
  end.

(** ** lsst/util.py:477-526, the image and the variance of coadd_exposures; xb_weight is
    the variance here. None: wsum <= 0 (nan <= 0 is false). *)
Definition x_coadd_exposures (es : list xband) : option (img xnum * img xnum) :=
  match es with
  | [] => None
  | e0 :: _ =>
    let weights := map (fun e => xdiv one (xb_median e)) es in
    let wsum := xsum weights in
    let stop := match wsum with Fin q => Qle_bool q 0 | Inf s => s | NaN => false end in
    if stop then None
    else
      let fac := xdiv one wsum in
      let r := nr (xb_image e0) in let c := nc (xb_image e0) in
      let image := mkImg r c (fun i j =>
        xmul (fold_left (fun a ew => if xpos (px (xb_weight (fst ew)) i j)
                                     then xadd a (xmul (px (xb_image (fst ew)) i j) (snd ew)) else a)
                (combine es weights) (Fin 0)) fac) in
      let variance := mkImg r c (fun i j =>
        let w := fold_left (fun a e => if xpos (px (xb_weight e) i j) then xadd a (xdiv one (px (xb_weight e) i j)) else a) es (Fin 0) in
        if xpos w then xdiv one w else Inf false) in
      Some (image, variance)
  end.

(** ** lsst/metadetect.py:486-513, get_mfrac_mbexp: the variance and the masked fraction
    of each band. *)
Definition x_mfrac (bands : list xband) : outcome (img xnum) :=
  match bands with
  | [] => Raise ZeroDivisionError
  | b0 :: _ =>
    let good b := filter (fun v => xfin v && xpos v) (pixels (xb_weight b)) in
    if forallb (fun b => negb (zlen (good b) =? 0)) bands then
      let weights := map (fun b => xdiv one (xmedian (good b))) bands in
      let fac := xdiv one (xsum weights) in
      Ok (mkImg (nr (xb_image b0)) (nc (xb_image b0)) (fun i j =>
        xmul (xsum (map (fun bw => xmul (snd bw) (px (xb_image (fst bw)) i j)) (combine bands weights))) fac))
    else Raise ValueError
  end.
