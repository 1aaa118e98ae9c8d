(** Specification vocabulary for C117-C119. *)
From Coq Require Import ZArith Reals List.
From Flocq Require Import Core.
From Verif Require Import Fp_model.
Local Open Scope R_scope.

(** The numbers of a format: significand times a power of two. *)
Definition number_of (f : fmt) (x : R) : Prop :=
  exists m e : Z, (Z.abs m < 2 ^ Zpos (f_prec f))%Z /\ (Zneg (f_tiny f) <= e)%Z /\ x = IZR m * bpow radix2 e.

(** [x] is a number of the format nearest to [y]. *)
Definition nearest_number (f : fmt) (y x : R) : Prop :=
  number_of f x /\ forall z, number_of f z -> Rabs (x - y) <= Rabs (z - y).

(** Pixel [n] covers the coordinate [x]: pixel centres are at integers. *)
Definition pixel_at (n : Z) (x : R) : Prop := IZR n - / 2 <= x < IZR n + / 2.

(** The weights are non-negative numbers of the format and the masked fractions,
    for the bands that have one, are fractions. *)
Definition weights_ok (f : fmt) (l : list (R * option R)) : Prop :=
  Forall (fun wv => number_of f (fst wv) /\ 0 <= fst wv /\
                    match snd wv with Some v => 0 <= v <= 1 | None => True end) l.
(** The same for a list in which every band or pixel has one. *)
Definition pairs_ok (f : fmt) (l : list (R * R)) : Prop :=
  Forall (fun wv => number_of f (fst wv) /\ 0 <= fst wv /\ 0 <= snd wv <= 1) l.

(** A format whose last place of 1 is a normal number: all IEEE formats. *)
Definition usual_format (f : fmt) : Prop := (2 <= Zpos (f_prec f) <= Zpos (f_tiny f))%Z.
(** A positive total weight with a normal reciprocal: up to 2^125 in single
    precision, 2^1021 in double. *)
Definition total_ok (f : fmt) (w : R) : Prop :=
  0 < w <= bpow radix2 (Zpos (f_tiny f) - Zpos (f_prec f)).
