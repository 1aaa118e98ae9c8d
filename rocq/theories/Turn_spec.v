(** Specification vocabulary for C128: the same data with rows and columns
    exchanged. *)
From Coq Require Import ZArith QArith Reals List Bool String.
From Verif Require Import Base Arr.
From Verif Require Detect_model Summ_model Coadd_model Lexp_model Masking_model Lmask_model Shearpos_model Lmdet_model.
Import ListNotations.
Local Open Scope Z_scope.

(** numpy's [im.T]. *)
Definition tr {A} (im : img A) : img A := mkImg (nc im) (nr im) (fun i j => px im j i).
(** [b] is [a] with rows and columns exchanged, the pixels related by [R]. *)
Definition turned {A} (R : A -> A -> Prop) (a b : img A) : Prop :=
  nr b = nc a /\ nc b = nr a /\ forall i j, inside a i j -> R (px a i j) (px b j i).
(** A pair (row, column). *)
Definition swap {A B} (p : A * B) : B * A := (snd p, fst p).
(** Both missing, or both there and related. *)
Definition both {A} (R : A -> A -> Prop) (a b : option A) : Prop :=
  match a, b with Some x, Some y => R x y | None, None => True | _, _ => False end.
(** The same exception, or related results. *)
Definition outcomes {A} (R : A -> A -> Prop) (a b : outcome A) : Prop :=
  match a, b with Ok x, Ok y => R x y | Raise e, Raise e' => e = e' | _, _ => False end.

(** ** Detection *)
Section Detect.
Import Detect_model.
Definition tr_band (b : band) : band := mkBand (tr (b_image b)) (tr (b_weight b)) (option_map tr (b_bmask b)).
Definition tr_det (o : detobj) : detobj :=
  mkDet (d_y o) (d_x o) (d_ymin o) (d_ymax o) (d_xmin o) (d_xmax o) (d_a o) (d_b o) (d_flux_radius o) (d_iso_radius o).
Definition tr_entry (e : cat_entry) : cat_entry :=
  mkEntry (e_id e) (e_number e) (e_box e) (e_col e) (e_row e) (e_scol e) (e_srow e) (e_ecol e) (e_erow e) (e_ccol e) (e_crow e).
Definition tr_meds (m : meds) : meds := mkMedsI (fun t => tr (m_plane m t)) (tr (m_psf m)) (map tr_entry (m_cat m)).
(** The detection image, its weight and its mask. *)
Definition turned_detim (a b : img Q * Q * img bool) : Prop :=
  turned Qeq (fst (fst a)) (fst (fst b)) /\ (snd (fst a) == snd (fst b))%Q /\ turned eq (snd a) (snd b).
Definition same_mval (a b : mval) : Prop :=
  match a, b with MNum x, MNum y => (x == y)%Q | MNan, MNan => True | _, _ => False end.
End Detect.

(** ** Summaries *)
Definition tr_sobs (o : Summ_model.sobs) : Summ_model.sobs :=
  Summ_model.mkSobs (tr (Summ_model.so_weight o)) (option_map tr (Summ_model.so_mfrac o)) (tr (Summ_model.so_bmask o)) (tr (Summ_model.so_ormask o)).

(** ** Coadds of the bands of an object. [J] gives the jacobian with the two
    coordinates exchanged: different jacobians stay different. *)
Section Coadd.
Import Coadd_model.
Definition tr_psf (J : Z -> Z) (p : psfobs) : psfobs := mkPsf (tr (p_image p)) (tr (p_weight p)) (J (p_jac p)).
Definition tr_fobs (J : Z -> Z) (o : fobs) : fobs :=
  mkFobs (tr (f_image o)) (tr (f_weight o)) (J (f_jac o)) (option_map (tr_psf J) (f_psf o))
    (option_map tr (f_mfrac o)) (option_map tr (f_noise o)) (option_map tr (f_bmask o)) (option_map tr (f_ormask o)).
Definition turned_psf (J : Z -> Z) (p q : psfobs) : Prop :=
  turned Qeq (p_image p) (p_image q) /\ turned Qeq (p_weight p) (p_weight q) /\ p_jac q = J (p_jac p).
Definition turned_fobs (J : Z -> Z) (a b : fobs) : Prop :=
  turned Qeq (f_image a) (f_image b) /\ turned Qeq (f_weight a) (f_weight b) /\ f_jac b = J (f_jac a) /\
  both (turned_psf J) (f_psf a) (f_psf b) /\
  both (turned Qeq) (f_mfrac a) (f_mfrac b) /\ both (turned Qeq) (f_noise a) (f_noise b) /\
  both (turned eq) (f_bmask a) (f_bmask b) /\ both (turned eq) (f_ormask a) (f_ormask b).
Definition turned_coadd (J : Z -> Z) (a b : coadd_result) : Prop := snd a = snd b /\ both (turned_fobs J) (fst a) (fst b).
End Coadd.

(** ** Coadds of exposures. The psf at (x, y) is the old one at (y, x), turned. *)
Section Exposures.
Import Lexp_model.
Definition tr_exposure (e : exposure) : exposure :=
  mkExp (e_y0 e) (e_x0 e) (tr (e_image e)) (tr (e_var e)) (tr (e_mask e))
    (option_map (fun draw x y => tr (draw y x)) (e_psf e)) (e_wcs e).
Definition turned_coadded (a b : coadded) : Prop :=
  turned (both Qeq) (c_image a) (c_image b) /\ turned (both Qeq) (c_var a) (c_var b) /\ turned eq (c_mask a) (c_mask b) /\
  turned (both Qeq) (c_psf a) (c_psf b) /\ c_wcs b = c_wcs a /\ c_x0 b = c_y0 a /\ c_y0 b = c_x0 a.
End Exposures.

(** ** Masking *)
Section Masking.
Import Masking_model.
Definition tr_hole (h : hole) : hole := mkHole (h_y h) (h_x h) (h_r h).
Definition tr_obs (o : obs) : obs :=
  mkObs (tr (o_image o)) (tr (o_noise o)) (tr (o_weight o)) (tr (o_bmask o)) (option_map tr (o_mfrac o)) (o_ignore_zero_weight o).
Definition turned_obs (a b : obs) : Prop :=
  turned eq (o_image a) (o_image b) /\ turned eq (o_noise a) (o_noise b) /\ turned eq (o_weight a) (o_weight b) /\
  turned eq (o_bmask a) (o_bmask b) /\ both (turned eq) (o_mfrac a) (o_mfrac b) /\
  o_ignore_zero_weight a = o_ignore_zero_weight b.
End Masking.

(** ** Masking of the lsst code *)
Section Lmask.
Import Lmask_model.
Definition tr_lexp (e : exposure) : exposure := mkExp (tr (e_image e)) (tr (e_var e)) (tr (e_mask e)).
Definition tr_dict {V} (f : V -> V) (d : list (string * V)) : list (string * V) := map (fun kv => (fst kv, f (snd kv))) d.
Definition tr_world (w : world) : world :=
  mkWorld (tr_dict tr_lexp (w_exp w)) (option_map (tr_dict tr_lexp) (w_noise w)) (option_map (tr_dict tr) (w_mfrac w))
    (option_map (map tr) (w_ormasks w)).
Definition turned_lexp (a b : exposure) : Prop :=
  turned eq (e_image a) (e_image b) /\ turned eq (e_var a) (e_var b) /\ turned eq (e_mask a) (e_mask b).
Definition turned_dict {V} (R : V -> V -> Prop) (a b : list (string * V)) : Prop :=
  Forall2 (fun x y => fst x = fst y /\ R (snd x) (snd y)) a b.
Definition turned_world (a b : world) : Prop :=
  turned_dict turned_lexp (w_exp a) (w_exp b) /\ both (turned_dict turned_lexp) (w_noise a) (w_noise b) /\
  both (turned_dict (turned eq)) (w_mfrac a) (w_mfrac b) /\ both (Forall2 (turned eq)) (w_ormasks a) (w_ormasks b).
(** All planes have the shape of the first image. *)
Definition lexp_shape (r c : Z) (e : exposure) : Prop :=
  (nr (e_image e) = r /\ nc (e_image e) = c) /\ (nr (e_var e) = r /\ nc (e_var e) = c) /\ (nr (e_mask e) = r /\ nc (e_mask e) = c).
Definition world_shape (r c : Z) (w : world) : Prop :=
  Forall (fun kv => lexp_shape r c (snd kv)) (w_exp w) /\
  (forall d, w_noise w = Some d -> Forall (fun kv => lexp_shape r c (snd kv)) d) /\
  (forall d, w_mfrac w = Some d -> Forall (fun kv => nr (snd kv) = r /\ nc (snd kv) = c) d) /\
  (forall l, w_ormasks w = Some l -> Forall (fun m => nr m = r /\ nc m = c) l).
End Lmask.

(** ** Positions: the other sheared image, because exchanging the coordinates
    changes the sign of the first component of a shear. *)
Definition turned_type (s : string) : string :=
  if String.eqb s "1p" then "1m"%string else if String.eqb s "1m" then "1p"%string else s.

Section Positions.
Import Shearpos_model.
(** The jacobian with rows and columns, and the two sky directions, exchanged. *)
Definition tr_jac (j : jacobian) : jacobian := mkJac (col0 j) (row0 j) (dudcol j) (dudrow j) (dvdcol j) (dvdrow j).
End Positions.

(** ** Interpolation: an interpolator that only looks at the set of points with
    their values, and treats the two coordinates alike. *)
Definition even_handed {A} (build : list ((Z * Z) * A) -> outcome ((Z * Z) -> A)) : Prop :=
  forall pts pts' f f', NoDup (map fst pts) -> NoDup (map fst pts') -> (forall p v, In (p, v) pts <-> In (swap p, v) pts') ->
    build pts = Ok f -> build pts' = Ok f' -> forall p, f' (swap p) = f p.

(** ** Tables of the lsst task: one row with the coordinates exchanged *)
Definition tr_lrow (x : Lmdet_model.lrow) : Lmdet_model.lrow :=
  Lmdet_model.mkLrow (Lmdet_model.l_id x) (Lmdet_model.l_col x) (Lmdet_model.l_row x) (Lmdet_model.l_col0 x) (Lmdet_model.l_row0 x)
    (Lmdet_model.l_ormask x) (Lmdet_model.l_mfrac x) (Lmdet_model.l_psfrec x).
