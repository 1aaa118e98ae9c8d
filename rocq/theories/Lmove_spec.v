(** Specification vocabulary for C124 and C125: what of the exposures the LSST
    measurement of an object depends on. *)
From Coq Require Import ZArith QArith List String Bool.
From Verif Require Import Base Arr Dict Lutil_model Lexp_model Lmeas_model Lmeas_spec.
From Verif Require Lmdet_model.
Import ListNotations.
Local Open Scope string_scope.
Local Open Scope Z_scope.

(** Two values that are there or not together. *)
Definition both {A B} (R : A -> B -> Prop) (a : option A) (b : option B) : Prop :=
  match a, b with Some x, Some y => R x y | None, None => True | _, _ => False end.
(** Two outcomes: the same exception, or related values. *)
Definition alike {A B} (R : A -> B -> Prop) (a : outcome A) (b : outcome B) : Prop :=
  match a, b with Ok x, Ok y => R x y | Raise e, Raise e' => e = e' | _, _ => False end.

(** ** Shifting the pixel grid by [dx] columns and [dy] rows *)
Definition moved_q (d : Z) (x x' : Q) : Prop := (x' == x + inject_Z d)%Q.
Definition moved_pos (dx dy : Z) (p p' : Q * Q) : Prop := moved_q dx (fst p) (fst p') /\ moved_q dy (snd p) (snd p').
Definition moved_source (dx dy : Z) (s s' : source) : Prop :=
  s_id s' = s_id s /\ s_nchild s' = s_nchild s /\
  s_peaks s' = map (fun p => (fst p + dx, snd p + dy)) (s_peaks s) /\ moved_pos dx dy (s_peakpos s) (s_peakpos s').
(** Same pixels, as far as the array goes. *)
Definition same_img {A} (a b : img A) : Prop :=
  nr b = nr a /\ nc b = nc a /\ forall i j, inside a i j -> px b i j = px a i j.

(** The frame of a band (not its pixels): same size, shifted corner, and the wcs
    and the PSF of the shifted place. The PSF for a centroid that is not a number
    is the same too. *)
Definition moved_frame (dx dy : Z) (env env' : menv) (e e' : exposure) : Prop :=
  e_x0 e' = e_x0 e + dx /\ e_y0 e' = e_y0 e + dy /\
  nr (e_image e') = nr (e_image e) /\ nc (e_image e') = nc (e_image e) /\
  both (fun d d' => (forall p p', moved_pos dx dy p p' -> same_img (d (fst p) (snd p)) (d' (fst p') (snd p'))) /\
     same_img (d (fst (m_nanpos env)) (snd (m_nanpos env))) (d' (fst (m_nanpos env')) (snd (m_nanpos env')))) (e_psf e) (e_psf e') /\
  both (fun w w' => forall p p', moved_pos dx dy p p' -> m_W env w (fst p) (snd p) = m_W env' w' (fst p') (snd p')) (e_wcs e) (e_wcs e').

(** Observations that are the same to a fitter: the same pixels in every plane,
    the jacobian centred at the same numbers. *)
Definition same_jac (j j' : jacob) : Prop :=
  (j_row j' == j_row j)%Q /\ (j_col j' == j_col j)%Q /\
  dudx j' = dudx j /\ dudy j' = dudy j /\ dvdx j' = dvdx j /\ dvdy j' = dvdy j.
Definition same_obs (o o' : lobs) : Prop :=
  same_img (o_image o) (o_image o') /\ same_img (o_weight o) (o_weight o') /\
  both same_img (o_bmask o) (o_bmask o') /\ both same_img (o_ormask o) (o_ormask o') /\ both same_img (o_noise o) (o_noise o') /\
  same_jac (o_jac o) (o_jac o') /\
  same_img (op_image (o_psf o)) (op_image (o_psf o')) /\ same_img (op_weight (o_psf o)) (op_weight (o_psf o')) /\
  same_jac (op_jac (o_psf o)) (op_jac (o_psf o')).
(** The fitters look at nothing else. *)
Definition same_fit (f f' : list lobs -> outcome (string -> cell)) : Prop :=
  forall l l', Forall2 same_obs l l' -> alike (fun g g' => forall c, g' c = g c) (f l) (f' l').

(** Two measurements with the same settings in shifted frames. *)
Definition moved_setting (dx dy : Z) (env env' : menv) : Prop :=
  Forall2 (moved_frame dx dy env env') (m_bands env) (m_bands env') /\
  (forall c c', moved_pos dx dy c c' -> m_radec env' c' = m_radec env c) /\
  same_fit (m_gauss env) (m_gauss env') /\ same_fit (m_pgauss env) (m_pgauss env') /\
  m_no_attempt env' = m_no_attempt env /\ m_detected env' = m_detected env /\
  m_stamp_size env' = m_stamp_size env /\ m_shear_bands env' = m_shear_bands env.

(** ** The object *)

(** Pixel (i, j) of the exposure is in the square of half width [k] around (x, y). *)
Definition under (k x y : Z) (e : exposure) (i j : Z) : Prop :=
  inside (e_image e) i j /\ y - k <= e_y0 e + i <= y + k /\ x - k <= e_x0 e + j <= x + k.
(** Image, variance and mask agree there. *)
Definition same_under (k x y : Z) (e e' : exposure) : Prop :=
  forall i j, under k x y e i j ->
    px (e_image e') i j = px (e_image e) i j /\ px (e_var e') i j = px (e_var e) i j /\ px (e_mask e') i j = px (e_mask e) i j.
(** The stack gives the shifted positions for it, and every band is the same under
    its stamp. *)
Definition same_object (dx dy : Z) (env env' : menv) (s : source) : Prop :=
  both (moved_pos dx dy) (m_cen env (s_id s)) (m_cen env' (s_id s)) /\
  both (moved_pos dx dy) (m_skypix env (s_id s)) (m_skypix env' (s_id s)) /\
  forall x y, hd_error (s_peaks s) = Some (x, y) ->
    Forall2 (same_under (m_stamp_size env / 2) x y) (m_bands env) (m_bands env').

(** ** The row *)
Definition num_moved (d : Z) (c : string) (r r' : row) : Prop :=
  exists x x', sget c r = Some (CNum (Some x)) /\ sget c r' = Some (CNum (Some x')) /\ moved_q d x x'.
Definition int_moved (d : Z) (c : string) (r r' : row) : Prop :=
  exists z, sget c r = Some (CInt z) /\ sget c r' = Some (CInt (z + d)).
Definition num_same (c : string) (r r' : row) : Prop :=
  exists x x', sget c r = Some (CNum x) /\ sget c r' = Some (CNum x') /\ both (fun a b => b == a)%Q x x'.
(** The row of a shifted object: the two positions and the corner are shifted, the
    other columns are the same; bmask is not compared. *)
Definition moved_row (dx dy : Z) (r r' : row) : Prop :=
  skeys r' = skeys r /\
  num_moved dx "col" r r' /\ num_moved dy "row" r r' /\ int_moved dx "col0" r r' /\ int_moved dy "row0" r r' /\
  num_same "col_diff" r r' /\ num_same "row_diff" r r' /\
  forall c, ~ In c ["col"; "row"; "col0"; "row0"; "col_diff"; "row_diff"; "bmask"] -> sget c r' = sget c r.

(** ** Whole runs *)
Definition moved_object (dx dy : Z) (env env' : menv) (s s' : source) : Prop := moved_source dx dy s s' /\ same_object dx dy env env' s.
(** The mask of the detection exposure, shifted. *)
Definition moved_detection (dx dy : Z) (env env' : menv) : Prop :=
  m_detx0 env' = m_detx0 env + dx /\ m_dety0 env' = m_dety0 env + dy /\ same_img (m_detmask env) (m_detmask env').
Definition moved_row_mask (dx dy : Z) (r r' : row) : Prop := moved_row dx dy r r' /\ sget "bmask" r' = sget "bmask" r.

(** ** The columns added afterwards: or-mask, masked fraction, original PSF *)
Definition moved_lrow (dx dy : Z) (x x' : Lmdet_model.lrow) : Prop :=
  Lmdet_model.l_id x' = Lmdet_model.l_id x /\
  moved_q dy (Lmdet_model.l_row x) (Lmdet_model.l_row x') /\ moved_q dx (Lmdet_model.l_col x) (Lmdet_model.l_col x') /\
  Lmdet_model.l_row0 x' = Lmdet_model.l_row0 x + dy /\ Lmdet_model.l_col0 x' = Lmdet_model.l_col0 x + dx.
Definition same_added (x x' : Lmdet_model.lrow) : Prop :=
  Lmdet_model.l_ormask x' = Lmdet_model.l_ormask x /\ both (fun a b => b == a)%Q (Lmdet_model.l_mfrac x) (Lmdet_model.l_mfrac x') /\
  Lmdet_model.l_psfrec x' = Lmdet_model.l_psfrec x.
(** The weight of a pixel depends on the numbers only. *)
Definition weight_of_numbers (W : Q -> Q -> Q) : Prop := forall a b a' b', (a == a' -> b == b' -> W a b == W a' b')%Q.
