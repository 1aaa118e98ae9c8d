(** What C66 says, pixel by pixel. *)
From Coq Require Import ZArith Reals List String Bool.
From Verif Require Import Base Arr Dict Masking_model Masking_spec Lmask_model.
Import ListNotations.
Local Open Scope Z_scope.

Definition exp_shape (r c : Z) (e : exposure) : Prop :=
  has_shape r c (e_image e) /\ has_shape r c (e_var e) /\ has_shape r c (e_mask e).
(** All planes have the same shape; the bands are distinct; noise and masked
    fractions, where given, have every band. *)
Definition world_ok (r c : Z) (w : world) : Prop :=
  w_exp w <> [] /\ NoDup (skeys (w_exp w)) /\
  (forall b e, In (b, e) (w_exp w) -> exp_shape r c e) /\
  (forall d, w_noise w = Some d -> incl (skeys (w_exp w)) (skeys d) /\ NoDup (skeys d) /\ forall b e, In (b, e) d -> exp_shape r c e) /\
  (forall d, w_mfrac w = Some d -> incl (skeys (w_exp w)) (skeys d) /\ NoDup (skeys d) /\ forall b m, In (b, m) d -> has_shape r c m) /\
  (forall l, w_ormasks w = Some l -> forall m, In m l -> has_shape r c m).

(** One exposure: the image is multiplied by [a], the variance is infinite and
    the bit set exactly where a is below one, the bits [extra] are added, and
    nothing else changes. *)
Definition masked_exp (r c : Z) (a : Z -> Z -> R) (bit : Z) (extra : Z -> Z -> Z) (e e' : exposure) : Prop :=
  exp_shape r c e' /\
  forall i j, 0 <= i < r -> 0 <= j < c ->
    px (e_image e') i j = (px (e_image e) i j * a i j)%R /\
    ((a i j < 1)%R -> px (e_var e') i j = None /\ px (e_mask e') i j = Z.lor (Z.lor (px (e_mask e) i j) bit) (extra i j)) /\
    (~ (a i j < 1)%R -> px (e_var e') i j = px (e_var e) i j /\ px (e_mask e') i j = Z.lor (px (e_mask e) i j) (extra i j)).
Definition masked_mfrac (r c : Z) (a : Z -> Z -> R) (m m' : img R) : Prop :=
  has_shape r c m' /\
  forall i j, 0 <= i < r -> 0 <= j < c ->
    ((a i j < 1)%R -> px m' i j = 1%R) /\ (~ (a i j < 1)%R -> px m' i j = px m i j).
Definition masked_ormask (r c : Z) (a : Z -> Z -> R) (bit : Z) (extra : Z -> Z -> Z) (m m' : img Z) : Prop :=
  has_shape r c m' /\
  forall i j, 0 <= i < r -> 0 <= j < c ->
    ((a i j < 1)%R -> px m' i j = Z.lor (Z.lor (px m i j) bit) (extra i j)) /\
    (~ (a i j < 1)%R -> px m' i j = Z.lor (px m i j) (extra i j)).

(** Dictionaries with the same keys, the values of the given keys related by S,
    the others equal. *)
Definition dict_rel {V} (keys : list string) (S : V -> V -> Prop) (d d' : list (string * V)) : Prop :=
  skeys d' = skeys d /\
  (forall k v, In k keys -> sget k d = Some v -> exists v', sget k d' = Some v' /\ S v v') /\
  (forall k, ~ In k keys -> sget k d' = sget k d).
Definition opt_rel {V} (S : V -> V -> Prop) (d d' : option V) : Prop :=
  match d, d' with None, None => True | Some a, Some b => S a b | _, _ => False end.
Definition masked_world (r c : Z) (a : Z -> Z -> R) (bit : Z) (extra : Z -> Z -> Z) (w w' : world) : Prop :=
  let bands := skeys (w_exp w) in
  dict_rel bands (masked_exp r c a bit extra) (w_exp w) (w_exp w') /\
  opt_rel (dict_rel bands (masked_exp r c a bit extra)) (w_noise w) (w_noise w') /\
  opt_rel (dict_rel bands (masked_mfrac r c a)) (w_mfrac w) (w_mfrac w') /\
  opt_rel (Forall2 (masked_ormask r c a bit extra)) (w_ormasks w) (w_ormasks w').

(** The circle of a bright object in the exposure's own pixel coordinates. *)
Definition circle_of (wcs : R -> R -> R * R) (xy0 : Z * Z) (b : bright) : hole :=
  mkHole (fst (wcs (br_ra b) (br_dec b)) - IZR (fst xy0))%R (snd (wcs (br_ra b) (br_dec b)) - IZR (snd xy0))%R (br_rad b).
(** The pixel is less than [extra] pixels outside of some object's circle. *)
Definition within_circle (extra : R) (wcs : R -> R -> R * R) (xy0 : Z * Z) (info : list bright) (i j : Z) : Prop :=
  exists b, In b info /\ (dist (circle_of wcs xy0 b) i j < br_rad b + extra)%R.
