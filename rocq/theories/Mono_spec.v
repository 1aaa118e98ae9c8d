(** Specification vocabulary for C130: inputs with more masked. *)
From Coq Require Import ZArith QArith Reals List Bool String.
From Verif Require Import Base Arr.
From Verif Require Dict Detect_model Summ_model Coadd_model Lexp_model Masking_model Lmask_model Lmdet_model.
Import ListNotations.
Local Open Scope Z_scope.

(** Every bit of [a] is a bit of [b]. *)
Definition bits_in (a b : Z) : Prop := forall k, Z.testbit a k = true -> Z.testbit b k = true.
(** Planes of [r] rows and [c] columns, related pixel by pixel. *)
Definition shaped {A} (r c : Z) (m : img A) : Prop := nr m = r /\ nc m = c.
Definition grows {A} (le : A -> A -> Prop) (r c : Z) (m m' : img A) : Prop :=
  shaped r c m /\ shaped r c m' /\ forall i j, 0 <= i < r -> 0 <= j < c -> le (px m i j) (px m' i j).
(** Both missing, or both there and related. *)
Definition both {A} (R : A -> A -> Prop) (a b : option A) : Prop :=
  match a, b with Some x, Some y => R x y | None, None => True | _, _ => False end.
(** The same exception, or related results. *)
Definition outcomes {A} (R : A -> A -> Prop) (a b : outcome A) : Prop :=
  match a, b with Ok x, Ok y => R x y | Raise e, Raise e' => e = e' | _, _ => False end.

(** A band for detection: the same image and weights, more bits in the mask. *)
Definition more_band (r c : Z) (b b' : Detect_model.band) : Prop :=
  Detect_model.b_image b' = Detect_model.b_image b /\ Detect_model.b_weight b' = Detect_model.b_weight b /\
  shaped r c (Detect_model.b_image b) /\
  both (grows bits_in r c) (Detect_model.b_bmask b) (Detect_model.b_bmask b').
Definition more_detim (r c : Z) (a b : img Q * Q * img bool) : Prop :=
  grows eq r c (fst (fst a)) (fst (fst b)) /\ snd (fst b) = snd (fst a) /\ grows (fun x y => x = true -> y = true) r c (snd a) (snd b).
(** An observation: the same weights; more bits, larger masked fractions. *)
Definition more_sobs (r c : Z) (o o' : Summ_model.sobs) : Prop :=
  Summ_model.so_weight o' = Summ_model.so_weight o /\ shaped r c (Summ_model.so_weight o) /\
  both (grows Qle r c) (Summ_model.so_mfrac o) (Summ_model.so_mfrac o') /\
  grows bits_in r c (Summ_model.so_bmask o) (Summ_model.so_bmask o') /\ grows bits_in r c (Summ_model.so_ormask o) (Summ_model.so_ormask o').
(** The masked fraction of an object is not lower. *)
Definition mval_le (a b : Detect_model.mval) : Prop :=
  match a, b with Detect_model.MNum x, Detect_model.MNum y => (x <= y)%Q | Detect_model.MNan, Detect_model.MNan => True | _, _ => False end.

(** A stamp to be coadded, and the coadd. *)
Section Coadd.
Import Coadd_model.
Definition more_fobs (r c : Z) (o o' : fobs) : Prop :=
  f_image o' = f_image o /\ shaped r c (f_image o) /\ grows eq r c (f_weight o) (f_weight o') /\ f_jac o' = f_jac o /\ f_psf o' = f_psf o /\ f_noise o' = f_noise o /\
  both (grows Qle r c) (f_mfrac o) (f_mfrac o') /\ both (grows bits_in r c) (f_bmask o) (f_bmask o') /\ both (grows bits_in r c) (f_ormask o) (f_ormask o').
Definition more_coadd (r c : Z) (a b : option fobs * Z) : Prop := both (more_fobs r c) (fst a) (fst b) /\ snd b = snd a.
End Coadd.

(** An exposure with more bits in its mask, and the coadd. *)
Section Lexp.
Import Lexp_model.
Definition more_exp (r c : Z) (e e' : exposure) : Prop :=
  e_x0 e' = e_x0 e /\ e_y0 e' = e_y0 e /\ e_image e' = e_image e /\ e_var e' = e_var e /\ e_psf e' = e_psf e /\ e_wcs e' = e_wcs e /\
  grows bits_in r c (e_mask e) (e_mask e').
Definition more_coadded (r c : Z) (a b : coadded) : Prop :=
  c_image b = c_image a /\ c_var b = c_var a /\ c_psf b = c_psf a /\ c_wcs b = c_wcs a /\ c_x0 b = c_x0 a /\ c_y0 b = c_y0 a /\
  grows bits_in r c (c_mask a) (c_mask b).
End Lexp.

(** A row of the LSST table with more bits, or with a larger masked fraction (None is
    not a number). *)
Section Lmdet.
Import Lmdet_model.
Definition more_or_row (x y : lrow) : Prop := y = with_ormask x (l_ormask y) /\ bits_in (l_ormask x) (l_ormask y).
Definition more_mfrac_row (x y : lrow) : Prop :=
  y = with_mfrac x (l_mfrac y) /\ forall v v', l_mfrac x = Some v -> l_mfrac y = Some v' -> (v <= v')%Q.
(** Both; the tables of a run; a run with other masks and masked fractions. *)
Definition more_row (x y : lrow) : Prop :=
  y = with_ormask (with_mfrac x (l_mfrac y)) (l_ormask y) /\ bits_in (l_ormask x) (l_ormask y) /\
  forall v v', l_mfrac x = Some v -> l_mfrac y = Some v' -> (v <= v')%Q.
Definition more_table (a b : string * option (list lrow)) : Prop := fst b = fst a /\ both (Forall2 more_row) (snd a) (snd b).
Definition more_tables (a b : list (string * option (list lrow)) * psfstats) : Prop := Forall2 more_table (fst a) (fst b) /\ snd b = snd a.
Definition with_masks (d : drun) (ormasks : option (list (img Z))) (mfracs : option (list (img Q))) : drun :=
  mkDrun (d_dims d) ormasks (d_vars d) mfracs (d_sky d) (d_shear d) (d_psffits d) (d_to_g d) (d_metacal d) (d_measure d) (d_W d) (d_rad d).
End Lmdet.

(** What bright object masks leave: a weight that is the same or 0, at least the
    bits (apart from those of [except]), and at least the masked fraction. *)
Definition heavier (r c except : Z) (o o' : Masking_model.obs) : Prop :=
  forall i j, 0 <= i < r -> 0 <= j < c ->
    (px (Masking_model.o_weight o') i j = px (Masking_model.o_weight o) i j \/ px (Masking_model.o_weight o') i j = 0%R) /\
    bits_in (Z.ldiff (px (Masking_model.o_bmask o) i j) except) (px (Masking_model.o_bmask o') i j) /\
    both (fun m m' => (px m i j <= px m' i j)%R) (Masking_model.o_mfrac o) (Masking_model.o_mfrac o').
(** Masked fractions are fractions. *)
Definition fractions (r c : Z) (mbobs : list (list Masking_model.obs)) : Prop :=
  forall ol o m i j, In ol mbobs -> In o ol -> Masking_model.o_mfrac o = Some m -> 0 <= i < r -> 0 <= j < c -> (px m i j <= 1)%R.
(** The same for LSST exposures. *)
Definition heavier_exp (r c : Z) (e e' : Lmask_model.exposure) : Prop :=
  forall i j, 0 <= i < r -> 0 <= j < c ->
    (px (Lmask_model.e_var e') i j = px (Lmask_model.e_var e) i j \/ px (Lmask_model.e_var e') i j = None) /\
    bits_in (px (Lmask_model.e_mask e) i j) (px (Lmask_model.e_mask e') i j).
Definition in_each {V} (R : V -> V -> Prop) (bands : list string) (d d' : list (string * V)) : Prop :=
  forall b, In b bands -> exists e e', Dict.sget b d = Some e /\ Dict.sget b d' = Some e' /\ R e e'.
Definition heavier_world (r c : Z) (bands : list string) (w w' : Lmask_model.world) : Prop :=
  in_each (heavier_exp r c) bands (Lmask_model.w_exp w) (Lmask_model.w_exp w') /\
  both (in_each (heavier_exp r c) bands) (Lmask_model.w_noise w) (Lmask_model.w_noise w') /\
  both (in_each (grows Rle r c) bands) (Lmask_model.w_mfrac w) (Lmask_model.w_mfrac w') /\
  both (Forall2 (grows bits_in r c)) (Lmask_model.w_ormasks w) (Lmask_model.w_ormasks w').
