(** Specification vocabulary for C107: results that agree. *)
From Coq Require Import ZArith QArith List Bool.
From Verif Require Import Base Arr Summ_model Coadd_model Lexp_model.
Import ListNotations.
Local Open Scope Z_scope.

(** Two arrays with the same shape and pixels related by [R]. *)
Definition same_array {A} (R : A -> A -> Prop) (a b : img A) : Prop :=
  nr a = nr b /\ nc a = nc b /\ forall i j, R (px a i j) (px b i j).
(** Numbers that may be not a number. *)
Definition same_opt {A} (R : A -> A -> Prop) (a b : option A) : Prop :=
  match a, b with Some x, Some y => R x y | None, None => True | _, _ => False end.
Definition same_real : img Q -> img Q -> Prop := same_array Qeq.
Definition same_int : img Z -> img Z -> Prop := same_array eq.
Definition same_bool : img bool -> img bool -> Prop := same_array eq.
Definition same_nan : img (option Q) -> img (option Q) -> Prop := same_array (same_opt Qeq).
(** Two outcomes: the same exception, or results that agree. *)
Definition same_outcome {A} (R : A -> A -> Prop) (a b : outcome A) : Prop :=
  match a, b with Ok x, Ok y => R x y | Raise e, Raise e' => e = e' | _, _ => False end.

(** Two observations that agree plane by plane. *)
Definition same_psf (p q : psfobs) : Prop :=
  same_real (p_image p) (p_image q) /\ same_real (p_weight p) (p_weight q) /\ p_jac p = p_jac q.
Definition same_obs (a b : fobs) : Prop :=
  same_real (f_image a) (f_image b) /\ same_real (f_weight a) (f_weight b) /\ f_jac a = f_jac b /\
  same_opt same_psf (f_psf a) (f_psf b) /\
  same_opt same_real (f_mfrac a) (f_mfrac b) /\ same_opt same_real (f_noise a) (f_noise b) /\
  same_opt same_int (f_bmask a) (f_bmask b) /\ same_opt same_int (f_ormask a) (f_ormask b).
Definition same_coadd (a b : coadd_result) : Prop := snd a = snd b /\ same_opt same_obs (fst a) (fst b).

(** Two coadded exposures with the same pixels. *)
Definition same_pixels (a b : coadded) : Prop :=
  same_nan (c_image a) (c_image b) /\ same_nan (c_var a) (c_var b) /\ same_int (c_mask a) (c_mask b) /\
  same_nan (c_psf a) (c_psf b).
Definition same_coaddobs (a b : coaddobs) : Prop :=
  same_nan (co_image a) (co_image b) /\ same_real (co_weight a) (co_weight b) /\ same_nan (co_psf a) (co_psf b).

(** The same averages of the psf. *)
Definition same_stats (a b : psf_stats) : Prop :=
  ps_flags a = ps_flags b /\ same_opt Qeq (ps_g1 a) (ps_g1 b) /\ same_opt Qeq (ps_g2 a) (ps_g2 b) /\
  same_opt Qeq (ps_T a) (ps_T b).
