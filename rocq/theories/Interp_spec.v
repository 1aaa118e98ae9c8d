(** Specification vocabulary for C21-C23. *)
From Coq Require Import ZArith List Bool Sorted.
From Verif Require Import Base Arr.
Import ListNotations.
Local Open Scope Z_scope.

(** A pixel of the mask that is bad (True) or good (False). *)
Definition bad_at (m : img bool) (p : Z * Z) : Prop :=
  inside m (fst p) (snd p) /\ px m (fst p) (snd p) = true.
Definition good_at (m : img bool) (p : Z * Z) : Prop :=
  inside m (fst p) (snd p) /\ px m (fst p) (snd p) = false.

(** Chebyshev distance at most b. *)
Definition within (b : Z) (p q : Z * Z) : Prop :=
  Z.abs (fst p - fst q) <= b /\ Z.abs (snd p - snd q) <= b.

(** Good pixels in the buffer window of some bad pixel. *)
Definition good_near (m : img bool) (b : Z) (p : Z * Z) : Prop :=
  good_at m p /\ exists q, bad_at m q /\ within b p q.

(** Bad pixels with no good pixel in the isolation window. *)
Definition isolated (m : img bool) (b : Z) (p : Z * Z) : Prop :=
  bad_at m p /\ forall q, good_at m q -> ~ within b q p.

(** Row-major order, listings in that order, and the flat index. *)
Definition before (p q : Z * Z) : Prop :=
  fst p < fst q \/ (fst p = fst q /\ snd p < snd q).
Definition row_major_listing (P : Z * Z -> Prop) (l : list (Z * Z)) : Prop :=
  StronglySorted before l /\ forall p, In p l <-> P p.
Definition flat_index (m : img bool) (p : Z * Z) : Z := fst p * nc m + snd p.

(** The number of bad pixels. *)
Definition number_bad (m : img bool) (n : Z) : Prop :=
  exists l, NoDup l /\ (forall p, In p l <-> bad_at m p) /\ n = Z.of_nat (List.length l).
