(** What C105 and C106 say: the model of a source, seen through the PSF. *)
From Coq Require Import ZArith QArith Qcanon List String Bool.
From Verif Require Import Base Dict Lutil_model Lsub_model Lsub_spec Lheavy_model.
Import ListNotations.
Local Open Scope Z_scope.

(** The complete model of a source: its values in its box, zero elsewhere,
    convolved with the kernel of the band. *)
Definition full_model_at (ob : observation) (s : source) (band : string) (x y : Z) : Qc :=
  convolution (fst (ob_half ob)) (snd (ob_half ob)) (ob_kernel ob band)
    (fun x y => if in_boxb (so_box s) x y then so_model s band x y else 0%Qc) x y.
(** The kernel is not larger than the images of the PSFs. *)
Definition kernel_fits (ob : observation) : Prop :=
  0 <= fst (ob_half ob) <= snd (ob_psf_shape ob) / 2 /\ 0 <= snd (ob_half ob) <= fst (ob_psf_shape ob) / 2.
(** The box of the source lies in the observation. *)
Definition inside (ob : observation) (s : source) : Prop := forall x y, in_box (so_box s) x y -> in_box (ob_box ob) x y.
(** No negative value in the model or the kernel. *)
Definition nonnegative (ob : observation) (s : source) : Prop :=
  (forall band i j, (0 <= ob_kernel ob band i j)%Qc) /\ (forall band x y, in_box (so_box s) x y -> (0 <= so_model s band x y)%Qc).
(** What a heavy footprint contributes to a pixel. *)
Definition contribution (p : option Qc) : Qc := match p with Some v => v | None => 0%Qc end.
(** The sources of all blends with the observation of their blend. *)
Definition all_sources (blends : list blend) : list (observation * source) :=
  flat_map (fun b => map (fun s => (fst b, s)) (snd b)) blends.
