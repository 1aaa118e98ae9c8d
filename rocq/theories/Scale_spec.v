(** Specification vocabulary for C108 and C109: results for scaled and for summed
    inputs. *)
From Coq Require Import ZArith QArith List Bool.
From Verif Require Import Base Arr Order_spec Detect_model Coadd_model Lexp_model.
Import ListNotations.
Local Open Scope Z_scope.

(** [b] is [c] times [a]. *)
Definition times (c : Q) (a b : img Q) : Prop :=
  nr a = nr b /\ nc a = nc b /\ forall i j, (px b i j == c * px a i j)%Q.
Definition times_nan (c : Q) (a b : img (option Q)) : Prop :=
  nr a = nr b /\ nc a = nc b /\ forall i j, same_opt (fun x y => (y == c * x)%Q) (px a i j) (px b i j).

(** The same input with weights [c] times larger (variances [c] times smaller,
    infinite ones stay infinite). *)
Definition fobs_weights (c : Q) (o : fobs) : fobs := with_weight o (imap (Qmult c) (f_weight o)).
Definition lobs_weights (c : Q) (o : lobs) : lobs :=
  mkLobs (o_image o) (imap (Qmult c) (o_weight o)) (o_bmask o) (o_ormask o) (o_noise o) (o_jac o) (o_psf o).
Definition variances (c : Q) (v : img (option Q)) : img (option Q) :=
  imap (fun v => match v with Some q => Some (1 / c * q)%Q | None => None end) v.
Definition exp_weights (c : Q) (e : exposure) : exposure :=
  mkExp (e_x0 e) (e_y0 e) (e_image e) (variances c (e_var e)) (e_mask e) (e_psf e) (e_wcs e).

(** Results that agree, but for weights [c] times larger. *)
Definition obs_times (c : Q) (a b : fobs) : Prop :=
  same_real (f_image a) (f_image b) /\ times c (f_weight a) (f_weight b) /\ f_jac a = f_jac b /\
  same_opt same_psf (f_psf a) (f_psf b) /\
  same_opt same_real (f_mfrac a) (f_mfrac b) /\ same_opt same_real (f_noise a) (f_noise b) /\
  same_opt same_int (f_bmask a) (f_bmask b) /\ same_opt same_int (f_ormask a) (f_ormask b).
Definition coadd_times (c : Q) (a b : coadd_result) : Prop := snd a = snd b /\ same_opt (obs_times c) (fst a) (fst b).
Definition coadded_times (c : Q) (a b : coadded) : Prop :=
  same_nan (c_image a) (c_image b) /\ times_nan (1 / c) (c_var a) (c_var b) /\ same_int (c_mask a) (c_mask b) /\
  same_nan (c_psf a) (c_psf b) /\ c_wcs a = c_wcs b /\ c_x0 a = c_x0 b /\ c_y0 a = c_y0 b.
Definition coaddobs_times (c : Q) (a b : coaddobs) : Prop :=
  same_nan (co_image a) (co_image b) /\ times c (co_weight a) (co_weight b) /\ same_nan (co_psf a) (co_psf b) /\
  co_jac a = co_jac b.

(** [b] is [c] times one array plus [d] times another. *)
Definition linear (c d : Q) (x y b : img Q) : Prop :=
  nr b = nr x /\ nc b = nc x /\ forall i j, (px b i j == c * px x i j + d * px y i j)%Q.
Definition linear_nan (c d : Q) (x y b : img (option Q)) : Prop :=
  nr b = nr x /\ nc b = nc x /\ forall i j,
    match px x i j, px y i j, px b i j with
    | Some u, Some v, Some w => (w == c * u + d * v)%Q
    | None, None, None => True
    | _, _, _ => False
    end.
Definition combo (c d : Q) (x y : img Q) : img Q := imap2 (fun u v => (c * u + d * v)%Q) x y.
(** Three runs that end alike: they raise the same exception or give results
    related by [R]. *)
Definition three {A} (R : A -> A -> A -> Prop) (x y z : outcome A) : Prop :=
  match x, y, z with
  | Ok a, Ok b, Ok c => R a b c
  | Raise e, Raise e', Raise e'' => e = e' /\ e' = e''
  | _, _, _ => False
  end.
Definition three_opt {A} (R : A -> A -> A -> Prop) (x y z : option A) : Prop :=
  match x, y, z with Some a, Some b, Some c => R a b c | None, None, None => True | _, _, _ => False end.
(** The same input with another image. *)
Definition band_image (b : band) (im : img Q) : band := mkBand im (b_weight b) (b_bmask b).
Definition exp_image (e : exposure) (im : img Q) : exposure :=
  mkExp (e_x0 e) (e_y0 e) im (e_var e) (e_mask e) (e_psf e) (e_wcs e).
Definition fobs_image (o : fobs) (im : img Q) : fobs :=
  mkFobs im (f_weight o) (f_jac o) (f_psf o) (f_mfrac o) (f_noise o) (f_bmask o) (f_ormask o).
Definition lobs_image (o : lobs) (im : img Q) : lobs :=
  mkLobs im (o_weight o) (o_bmask o) (o_ormask o) (o_noise o) (o_jac o) (o_psf o).
Definition sized (a b : img Q) : Prop := nr a = nr b /\ nc a = nc b.

(** Detection images of three runs: the third image is [c] times the first plus
    [d] times the second; the summed weight and the mask are the same. *)
Definition linear_detection (c d : Q) (x y z : img Q * Q * img bool) : Prop :=
  linear c d (fst (fst x)) (fst (fst y)) (fst (fst z)) /\
  (snd (fst x) == snd (fst z))%Q /\ (snd (fst y) == snd (fst z))%Q /\
  same_bool (snd x) (snd z) /\ same_bool (snd y) (snd z).
Definition obs_but_image (a b : fobs) : Prop :=
  same_real (f_weight a) (f_weight b) /\ f_jac a = f_jac b /\ same_opt same_psf (f_psf a) (f_psf b) /\
  same_opt same_real (f_mfrac a) (f_mfrac b) /\ same_opt same_real (f_noise a) (f_noise b) /\
  same_opt same_int (f_bmask a) (f_bmask b) /\ same_opt same_int (f_ormask a) (f_ormask b).
(** Coadds of three runs: linear images and everything else the same. *)
Definition linear_coadd (c d : Q) (x y z : coadd_result) : Prop :=
  snd x = snd z /\ snd y = snd z /\
  three_opt (fun a b o => linear c d (f_image a) (f_image b) (f_image o) /\
                          obs_but_image a o /\ obs_but_image b o) (fst x) (fst y) (fst z).
Definition same_but_image (a b : coadded) : Prop :=
  c_var a = c_var b /\ c_mask a = c_mask b /\ c_psf a = c_psf b /\ c_wcs a = c_wcs b /\ c_x0 a = c_x0 b /\ c_y0 a = c_y0 b.
Definition linear_coadded (c d : Q) (x y z : coadded) : Prop :=
  linear_nan c d (c_image x) (c_image y) (c_image z) /\ same_but_image x z /\ same_but_image y z.
Definition linear_coaddobs (c d : Q) (x y z : coaddobs) : Prop :=
  linear_nan c d (co_image x) (co_image y) (co_image z) /\
  co_weight x = co_weight z /\ co_weight y = co_weight z /\ co_psf x = co_psf z /\ co_psf y = co_psf z /\
  co_jac x = co_jac z /\ co_jac y = co_jac z.
