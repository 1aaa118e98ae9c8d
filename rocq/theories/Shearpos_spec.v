(** Specification vocabulary for C04-C06. *)
From Coq Require Import Reals List String.
From Verif Require Import Base Shearpos_model.
Import ListNotations.
Local Open Scope string_scope.
Local Open Scope R_scope.

(** The metacal types for which the image itself is sheared. *)
Definition sheared_types : list string := ["1p"; "1m"; "2p"; "2m"].

(** The metacal types for which the image is not sheared. *)
Definition unsheared_types : list string :=
  ["noshear"; "1p_psf"; "1m_psf"; "2p_psf"; "2m_psf"].

Definition image_center (dims : R * R) : R * R :=
  ((fst dims - 1) / 2, (snd dims - 1) / 2).

(** World coordinate offset (u, v) of a position from the image centre. *)
Definition world_offset (j : jacobian) (dims p : R * R) : R * R :=
  let (v, u) := get_vu j (fst p) (snd p) in
  let (vc, uc) := get_vu j (fst (image_center dims)) (snd (image_center dims)) in
  (u - uc, v - vc).

(** Stretch along the major axis of a unit-determinant shear of size g. *)
Definition stretch (g : R) : R := sqrt ((1 + g) / (1 - g)).

(** What a shear of the given type does to a world offset, from the definition
    of reduced shear: component 1 stretches along u and shrinks along v,
    component 2 does the same along the diagonals. *)
Definition sheared_offset (s : string) (g : R) (o o' : R * R) : Prop :=
  let k := stretch g in
  (s = "1p" -> fst o' = k * fst o /\ snd o' = snd o / k) /\
  (s = "1m" -> fst o' = fst o / k /\ snd o' = k * snd o) /\
  (s = "2p" -> fst o' + snd o' = k * (fst o + snd o) /\
               fst o' - snd o' = (fst o - snd o) / k) /\
  (s = "2m" -> fst o' + snd o' = (fst o + snd o) / k /\
               fst o' - snd o' = k * (fst o - snd o)).

(** Twice the oriented area of a triangle of pixel positions. *)
Definition area2 (p q r : R * R) : R :=
  (fst q - fst p) * (snd r - snd p) - (fst r - fst p) * (snd q - snd p).

(** The other sign of the same component. *)
Definition opposite (s : string) : string :=
  if String.eqb s "1p" then "1m" else if String.eqb s "1m" then "1p"
  else if String.eqb s "2p" then "2m" else if String.eqb s "2m" then "2p" else s.
