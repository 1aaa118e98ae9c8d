(** Specification vocabulary for the LSST measurement. *)
From Coq Require Import ZArith QArith List String Bool.
From Verif Require Import Base Arr Dict Flags_model Lutil_model Lutil_spec Lexp_model Lexp_spec Lmeas_model.
Import ListNotations.
Local Open Scope string_scope.
Local Open Scope Z_scope.

(** The columns of the table: those of the Gaussian fit, those of the pgauss
    measurement without shapes and PSF, and the rest. *)
Definition gauss_columns : list string :=
  ["gauss_flags"; "gauss_psf_flags"; "gauss_psf_g"; "gauss_psf_T"; "gauss_obj_flags"; "gauss_s2n"; "gauss_g"; "gauss_g_cov";
   "gauss_T"; "gauss_T_flags"; "gauss_T_err"; "gauss_T_ratio"; "gauss_band_flux_flags"; "gauss_band_flux"; "gauss_band_flux_err";
   "shear_bands"].
Definition pgauss_columns : list string :=
  ["pgauss_flags"; "pgauss_obj_flags"; "pgauss_s2n"; "pgauss_T"; "pgauss_T_flags"; "pgauss_T_err"; "pgauss_T_ratio";
   "pgauss_band_flux_flags"; "pgauss_band_flux"; "pgauss_band_flux_err"].
Definition position_columns : list string :=
  ["stamp_size"; "row0"; "col0"; "row"; "col"; "row_diff"; "col_diff"; "ra"; "dec"; "psfrec_flags"; "psfrec_navg"; "psfrec_g";
   "psfrec_T"; "bmask"; "ormask"; "mfrac"].
Definition all_columns : list string := (gauss_columns ++ ["stamp_flags"] ++ pgauss_columns ++ position_columns)%list.

(** The row carries the position of this source. *)
Definition at_position (env : menv) (s : source) (r : row) : Prop :=
  (exists x y, sget "col" r = Some (CNum (Some x)) /\ sget "row" r = Some (CNum (Some y)) /\
     (x, y) = match m_cen env (s_id s) with Some c => c | None => s_peakpos s end) /\
  (exists px py rest, s_peaks s = (px, py) :: rest /\
     match m_cen env (s_id s) with
     | Some (x, y) => sget "col_diff" r = Some (CNum (Some (x - inject_Z px)%Q)) /\
                      sget "row_diff" r = Some (CNum (Some (y - inject_Z py)%Q))
     | None => sget "col_diff" r = Some (CNum None) /\ sget "row_diff" r = Some (CNum None)
     end).
(** Its sky position is that of the centroid, when that is a number. *)
Definition at_sky (env : menv) (s : source) (r : row) : Prop :=
  forall c, m_cen env (s_id s) = Some c ->
    sget "ra" r = Some (CNum (Some (fst (m_radec env c)))) /\ sget "dec" r = Some (CNum (Some (snd (m_radec env c)))).
(** Its fit columns hold these results. *)
Definition has_fits (g p : string -> cell) (r : row) : Prop :=
  (forall c, In c gauss_columns -> sget c r = Some (g c)) /\ (forall c, In c pgauss_columns -> sget c r = Some (p c)).
(** Results of a measurement that was not attempted. *)
Definition not_attempted (env : menv) (r : row) : Prop :=
  forall c, In c (gauss_columns ++ pgauss_columns)%list -> c <> "shear_bands" ->
    sget c r = Some (if has_sub "flags" c then CInt (m_no_attempt env) else CNum None).

(** The pixels that the exposures cover: those of the first band (the bands of
    one multi-band exposure cover the same ones). *)
Definition covered (bands : list exposure) (x y : Z) : Prop :=
  match bands with
  | [] => False
  | e :: _ => e_x0 e <= x < e_x0 e + nc (e_image e) /\ e_y0 e <= y < e_y0 e + nr (e_image e)
  end.
(** The stamp: the square of half width stamp_size/2 around the first peak. *)
Definition stamp_inside (env : menv) (s : source) : Prop :=
  forall x y x' y', hd_error (s_peaks s) = Some (x, y) -> let k := m_stamp_size env / 2 in
    x - k <= x' <= x + k -> y - k <= y' <= y + k -> covered (m_bands env) x' y'.
Definition stamp_variances (k x y : Z) (e : exposure) : list evar :=
  map (fun ij => px (e_var e) (y - k + fst ij - e_y0 e) (x - k + snd ij - e_x0 e)) (coords (2 * k + 1) (2 * k + 1)).
(** Some band has no usable variance in the stamp. *)
Definition some_band_unusable (env : menv) (s : source) : Prop :=
  exists x y e, hd_error (s_peaks s) = Some (x, y) /\ In e (m_bands env) /\ unusable (stamp_variances (m_stamp_size env / 2) x y e).

(** The bands of one multi-band exposure: the same box. *)
Definition one_box (bands : list exposure) : Prop :=
  forall e e', In e bands -> In e' bands -> exp_box e = exp_box e'.
(** The corner of the exposures, as written in a row. *)
Definition at_corner (bands : list exposure) (r : row) : Prop :=
  match bands with
  | [] => False
  | e :: _ => sget "row0" r = Some (CInt (e_y0 e)) /\ sget "col0" r = Some (CInt (e_x0 e))
  end.
(** A catalogue: distinct ids, and a listing of a set lists its elements once. *)
Definition catalogue (cat : list source) : Prop := NoDup (map s_id cat).
Definition lists_set (order : list Z -> list Z) : Prop := forall l, NoDup l -> Permutation.Permutation (order l) l.
Definition childless (cat : list source) : list source := filter (fun s => s_nchild s =? 0) cat.

(** The value of the detection mask at the source's peak, without DETECTED. *)
Definition mask_at_peak (env : menv) (s : source) (v : Z) : Prop :=
  exists x y, hd_error (s_peaks s) = Some (x, y) /\ inside (m_detmask env) (y - m_dety0 env) (x - m_detx0 env) /\
    v = Z.land (px (m_detmask env) (y - m_dety0 env) (x - m_detx0 env)) (Z.lnot (m_detected env)).
(** The mask columns as they are: row n has the mask of the n-th source of the
    whole catalogue. *)
Definition masks_by_position (env : menv) (cat : list source) (rows : list row) : Prop :=
  forall n r, nth_error rows n = Some r -> exists s v, nth_error cat n = Some s /\ sget "bmask" r = Some (CInt v) /\ mask_at_peak env s v.
