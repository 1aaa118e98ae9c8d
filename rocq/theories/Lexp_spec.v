(** Specification vocabulary for C54, C55, C69-C72. *)
From Coq Require Import ZArith QArith List String Bool.
From Verif Require Import Base Arr Median Lexp_model.
Import ListNotations.
Local Open Scope Z_scope.

(** ** C54 *)
Definition mask_plane (o : lobs) (name : string) : option (img Z) :=
  if String.eqb name "bmask" then o_bmask o else if String.eqb name "ormask" then o_ormask o else None.
Definition other_plane (name : string) : string := if String.eqb name "bmask" then "ormask" else "bmask".
(** All planes have the shape of the image. *)
Definition obs_shape (o : lobs) : Prop :=
  let ok {A} (p : img A) := nr p = nr (o_image o) /\ nc p = nc (o_image o) in
  ok (o_weight o) /\ (forall m, o_bmask o = Some m -> ok m) /\ (forall m, o_ormask o = Some m -> ok m).
Definition exp_shape (e : exposure) : Prop :=
  let ok {A} (p : img A) := nr p = nr (e_image e) /\ nc p = nc (e_image e) in
  ok (e_var e) /\ ok (e_mask e) /\ 0 <= nr (e_image e) /\ 0 <= nc (e_image e).

(** ** C55, C69 *)
(** Variances that are finite and positive, at the pixels of an exposure. *)
Definition good_variances (e : exposure) : list Q :=
  flat_map (fun v => match v with Some q => if Qle_bool q 0 then [] else [q] | None => [] end) (pixels (e_var e)).
(** At least as many infinite variances as finite positive ones (in particular:
    none positive), so that the median of the positive ones is infinite or
    missing. *)
Definition finite_positive (v : evar) : bool := match v with Some q => negb (Qle_bool q 0) | None => false end.
Definition infinite (v : evar) : bool := match v with None => true | Some _ => false end.
Definition unusable (l : list evar) : Prop :=
  (List.length (filter finite_positive l) <= List.length (filter infinite l))%nat.
(** The positive variances, with [B] written for the infinite ones. *)
Definition positive_variances (B : Q) (e : exposure) : list Q :=
  flat_map (fun v => match v with Some q => if Qle_bool q 0 then [] else [q] | None => [B] end) (pixels (e_var e)).
(** The weight of a band: one over the median of its positive variances, where
    infinite ones are larger than all others; 0 if that median is infinite. *)
Definition inverse_median_variance (e : exposure) (w : Q) : Prop :=
  (unusable (pixels (e_var e)) -> (w == 0)%Q) /\
  (~ unusable (pixels (e_var e)) -> exists m, (0 < m)%Q /\ (w == 1 / m)%Q /\
     forall B, (forall q, In q (good_variances e) -> (q <= B)%Q) -> is_median m (positive_variances B e)).
(** A pixel is good in an exposure: its variance is positive (or infinite). *)
Definition good (e : exposure) (i j : Z) : Prop := match px (e_var e) i j with Some q => (0 < q)%Q | None => True end.
Definition goodw (i j : Z) (ew : exposure * Q) : Q :=
  match px (e_var (fst ew)) i j with Some q => if Qlt_le_dec 0 q then snd ew else 0%Q | None => snd ew end.
(** One over the variance of a good pixel; 0 for other and infinite variances. *)
Definition inverse_variance (e : exposure) (i j : Z) : Q :=
  match px (e_var e) i j with Some q => if Qlt_le_dec 0 q then (1 / q)%Q else 0%Q | None => 0%Q end.
(** Exposures with a good pixel each, one of which can be used. *)
Definition some_good (e : exposure) : Prop := exists i j, inside (e_var e) i j /\ good e i j.
Definition usable (es : list exposure) : Prop :=
  (forall e, In e es -> some_good e) /\ exists e, In e es /\ ~ unusable (pixels (e_var e)).
(** Exposures that can be coadded: the same size, a psf drawn with the same odd
    size everywhere. *)
Definition compatible (es : list exposure) : Prop :=
  exists r c p, forall e, In e es -> nr (e_image e) = r /\ nc (e_image e) = c /\
    exists draw, e_psf e = Some draw /\ forall x y, nr (draw x y) = p /\ nc (draw x y) = p.
(** The same positive variance at every pixel. *)
Definition constant_variance (e : exposure) (v : Q) : Prop := (0 < v)%Q /\ forall i j, inside (e_var e) i j -> px (e_var e) i j = Some v.

(** ** C71: the masks of the exposure, the noise exposure and the masked fraction
    exposure of a band *)
Definition addresses (b : nat * nat * nat) : list nat := let '(e, n, f) := b in [e; n; f].

(** ** The psf of a coadd (C55, C72): every pixel is the same multiple of the
    weighted sum of the psf images, and if these sum to something positive it
    sums to one. *)
Definition weighted_psf (psfs : list (img Q)) (ws : list Q) (i j : Z) : Q :=
  qsum (map (fun pw => snd pw * px (fst pw) i j)%Q (combine psfs ws)).
Definition psf_coadd (psfs : list (img Q)) (ws : list Q) (out : img (option Q)) : Prop :=
  exists c vals, nr out = nr vals /\ nc out = nc vals /\
    (forall p, In p psfs -> nr p = nr out /\ nc p = nc out) /\
    (forall i j, px out i j = Some (px vals i j) /\ (px vals i j == c * weighted_psf psfs ws i j)%Q) /\
    ((forall p, In p psfs -> (0 < qsum (pixels p))%Q) -> (qsum (pixels vals) == 1)%Q).

(** The weight of a band of observations: a median of its positive weights. *)
Definition median_weight (o : lobs) (w : Q) : Prop :=
  is_median w (filter (fun v => negb (Qle_bool v 0)) (pixels (o_weight o))).
Definition some_positive_weight (o : lobs) : Prop := exists i j, inside (o_weight o) i j /\ (0 < px (o_weight o) i j)%Q.

(** The psf observation made for a drawn psf image: centred in its array, with
    the scale of the image and one weight, (10000 / maximum)^2. *)
Definition psf_observation (jac : jacob) (im : img Q) (p : obspsf) : Prop :=
  op_image p = im /\
  (j_row (op_jac p) == (inject_Z (nr im) - 1) / 2)%Q /\ (j_col (op_jac p) == (inject_Z (nc im) - 1) / 2)%Q /\
  dudx (op_jac p) = dudx jac /\ dudy (op_jac p) = dudy jac /\ dvdx (op_jac p) = dvdx jac /\ dvdy (op_jac p) = dvdy jac /\
  nr (op_weight p) = nr im /\ nc (op_weight p) = nc im /\
  forall i j m, inside im i j -> px im i j = m -> (0 < m)%Q -> (forall k l, inside im k l -> (px im k l <= m)%Q) ->
    forall k l, (px (op_weight p) k l == 1 / ((m / 10000) * (m / 10000)))%Q.
