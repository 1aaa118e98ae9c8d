(** Specification vocabulary for C127. *)
From Coq Require Import ZArith QArith List.
From Verif Require Import Base Arr Median Nan_model.
From Verif Require Detect_model Lexp_model.
Import ListNotations.
Local Open Scope Z_scope.

Definition finite (x : xnum) : Prop := exists q, x = Fin q.
(** [x] is the number [q]. *)
Definition is (x : xnum) (q : Q) : Prop := exists p, x = Fin p /\ (p == q)%Q.
Definition positive (x : xnum) : Prop := x = Inf false \/ exists q, x = Fin q /\ (0 < q)%Q.
(** The number, 0 for an infinity and for nan. *)
Definition clean (x : xnum) : Q := match x with Fin q => q | _ => 0%Q end.

(** A band with data: a positive weight somewhere, and no infinite weight. *)
Definition has_data (b : xband) : Prop :=
  (exists i j, inside (xb_weight b) i j /\ positive (px (xb_weight b) i j)) /\
  (forall i j, inside (xb_weight b) i j -> px (xb_weight b) i j <> Inf false).
(** The same band with finite pixels only. *)
Definition tidy (b : xband) : Detect_model.band :=
  Detect_model.mkBand (imap clean (xb_image b)) (imap clean (xb_weight b)) None.
(** A variance that is not a number or negative infinity is as good as 0. *)
Definition clean_var (x : xnum) : Lexp_model.evar :=
  match x with Fin q => Some q | Inf false => None | _ => Some 0%Q end.
(** [mask], [psf], [wcs] and the corner: the parts of the exposure [e]. *)
Definition tidy_exposure (e : Lexp_model.exposure) (b : xband) : Lexp_model.exposure :=
  Lexp_model.mkExp (Lexp_model.e_x0 e) (Lexp_model.e_y0 e) (imap clean (xb_image b)) (imap clean_var (xb_weight b))
    (Lexp_model.e_mask e) (Lexp_model.e_psf e) (Lexp_model.e_wcs e).
