(** Specification vocabulary for C126. *)
From Coq Require Import ZArith Reals List Permutation.
From Flocq Require Import Core.
From Verif Require Import Fp_model.
Import ListNotations.
Local Open Scope R_scope.

Definition rsum (l : list R) : R := fold_right Rplus 0 l.
(** The weighted mean; a band without a value counts in the weights only. *)
Definition value (o : option R) : R := match o with Some v => v | None => 0 end.
Definition exact_mean (l : list (R * option R)) : R :=
  rsum (map (fun wv => fst wv * value (snd wv)) l) / rsum (map fst l).
(** The same for the absolute values: the scale of the rounding errors. *)
Definition size_mean (l : list (R * option R)) : R :=
  rsum (map (fun wv => fst wv * Rabs (value (snd wv))) l) / rsum (map fst l).
Definition all (l : list (R * R)) : list (R * option R) := map (fun wv => (fst wv, Some (snd wv))) l.
(** The weights of the medians of the variances. *)
Definition inverse (l : list (R * option R)) : list (R * option R) := map (fun mv => (1 / fst mv, snd mv)) l.

(** Half the distance from 1 to the next number: 2^-24 and 2^-53. *)
Definition unit_roundoff (f : fmt) : R := bpow radix2 (- Zpos (f_prec f)).
(** The least positive number: 2^-149 and 2^-1074. *)
Definition least (f : fmt) : R := bpow radix2 (Zneg (f_tiny f)).
(** Within [k] roundings of a mean of [l], relative to the sizes of the values, and
    [a] times the least number. *)
Definition within (f : fmt) (k a : R) (l : list (R * option R)) (x : R) : Prop :=
  Rabs (x - exact_mean l) <= 2 * k * unit_roundoff f * size_mean l + a * least f.

(** A number of the format between 2^-b and 2^b. *)
Definition tame (f : fmt) (b : Z) (w : R) : Prop :=
  (exists m e : Z, (Z.abs m < 2 ^ Zpos (f_prec f))%Z /\ (Zneg (f_tiny f) <= e)%Z /\ w = IZR m * bpow radix2 e) /\
  bpow radix2 (- b) <= w <= bpow radix2 b.
(** One band or more, not so many that roundings pile up to one half, their weights
    tame for a [b] that leaves room above the least normal number. *)
Definition bands_ok {A} (f : fmt) (b : Z) (l : list (R * A)) : Prop :=
  l <> [] /\ (Z.of_nat (8 * List.length l + 16) <= 2 ^ Zpos (f_prec f))%Z /\
  (Z.of_nat (List.length l) <= 2 ^ b)%Z /\ (0 <= b)%Z /\ (4 * b + Zpos (f_prec f) <= Zpos (f_tiny f))%Z /\
  Forall (fun wv => tame f b (fst wv)) l.
(** numpy's order of summation: any. *)
Definition sums_all (order : list R -> tree) : Prop := forall l, l <> [] -> Permutation (leaves (order l)) l.
(** The variance of the weighted mean when the pixel of each band has the variance
    1/weight: weights of the bands and weights of the pixel. *)
Definition mean_var (l : list (R * R)) : R :=
  rsum (map (fun wp => fst wp * fst wp / snd wp) l) / (rsum (map fst l) * rsum (map fst l)).
