(** Specification vocabulary for C110. *)
From Coq Require Import ZArith QArith List Bool.
From Verif Require Import Base Arr.
From Verif Require Lexp_model Lexp_spec.
Import ListNotations.
Local Open Scope Z_scope.

(** A call ends with a value, or with this exception. *)
Definition returns {A} (o : outcome A) : Prop := exists a, o = Ok a.
(** A band with one epoch. *)
Definition one_epoch {A} (obslist : list A) : Prop := exists o, obslist = [o].
Definition same_shape {A B} (a : img A) (b : img B) : Prop := nr a = nr b /\ nc a = nc b.
(** Element [n] of a list has [P] and all elements before it have [Q]. *)
Definition first_at {A} (P Q : nat -> A -> Prop) (l : list A) : Prop :=
  exists n a, nth_error l n = Some a /\ P n a /\ forall k b, (k < n)%nat -> nth_error l k = Some b -> Q k b.
(** A variance plane without a finite positive value; such a band, or one whose
    masked fraction does not have the shape of the first, cannot be used. *)
Definition no_variance (v : img (option Q)) : Prop := forall i j q, inside v i j -> px v i j = Some q -> (q <= 0)%Q.
Definition unusable_pair (shape : img Q) (vm : img (option Q) * img Q) : Prop := no_variance (fst vm) \/ ~ same_shape shape (snd vm).
(** Observations of the same size, with psf images of the same size. *)
Definition same_shapes (o o' : Lexp_model.lobs) : Prop :=
  same_shape (Lexp_model.o_image o) (Lexp_model.o_image o') /\
  same_shape (Lexp_model.op_image (Lexp_model.o_psf o)) (Lexp_model.op_image (Lexp_model.o_psf o')).
Definition odd_square_image (im : img Q) : Prop := nr im = nc im /\ Z.odd (nr im) = true.
