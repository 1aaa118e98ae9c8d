(** Specification vocabulary for C84: the position, mask and PSF columns of the
    catalogue in terms of the observations. *)
From Coq Require Import ZArith QArith List String Bool.
From Verif Require Import Base Arr Median Flags_model Detect_model Summ_model Summ_spec Wavg_model Conf_model
  Mdet_model Mdet_spec.
Import ListNotations.
Local Open Scope Z_scope.

Section Spec.
Variables O SEG ST FL FR : Type.
Variable sob : O -> sobs.
Notation env := (env O SEG ST FL FR).

(** The observations for a colour key: the main ones without a key, otherwise
    those stored for the key. *)
Definition data_of (e : env) (key : option Z) (m : mb O) : Prop :=
  match key with
  | None => m = e_main e
  | Some k => exists keyf dep, e_color e = Some (keyf, dep) /\
      ((dep k = Some SameObject /\ m = e_main e) \/ dep k = Some (Other m))
  end.
(** The observations of the listed bands (negative indices count from the end);
    each band has exactly one. *)
Definition bands_of (m : mb O) (bands : list Z) (obs : list O) : Prop :=
  Forall2 (fun b o => py_index m b = Ok [o]) bands obs.
(** All images have pixels. *)
Definition has_pixels (m : mb O) : Prop := forall ol o, In ol m -> In o ol ->
  0 < nr (so_bmask (sob o)) /\ 0 < nc (so_bmask (sob o)) /\
  0 < nr (so_ormask (sob o)) /\ 0 < nc (so_ormask (sob o)).
Definition env_pixels (e : env) : Prop :=
  has_pixels (e_main e) /\
  forall keyf dep k m, e_color e = Some (keyf, dep) -> dep k = Some (Other m) -> has_pixels m.

(** Half sizes of the windows: a region counts when it is above 1; the "or" mask
    falls back on the one of the bit mask. *)
Definition bmask_window (e : env) (w : Z) : Prop :=
  (exists r, e_mask_region e = Some r /\ 1 < r /\ w = r) \/
  ((e_mask_region e = None \/ exists r, e_mask_region e = Some r /\ r <= 1) /\ w = 1).
Definition ormask_window (e : env) (w : Z) : Prop :=
  (exists r, e_ormask_region e = Some r /\ 1 < r /\ w = r) \/
  ((e_ormask_region e = None \/ exists r, e_ormask_region e = Some r /\ r <= 1) /\ bmask_window e w).

(** Value of a mask column at (row, col): a bit is set exactly when one of the
    observations has it in the window (the pixel itself for size 1) around the
    pixel nearest to the position. *)
Definition mask_column (plane : sobs -> img Z) (obs : list O) (w : Z) (row col : Q) (v : Z) : Prop :=
  exists o0 r c, In o0 obs /\
    nearest_pixel (nr (plane (sob o0))) row r /\ nearest_pixel (nc (plane (sob o0))) col c /\
    forall n, Z.testbit v n = true <->
      exists o, In o obs /\ window_bit (plane (sob o)) (if w <=? 1 then 0 else w) r c n.

(** The masked fraction column: 0 when no pixel of the combined image is
    positive, otherwise the measurement at the position on the image, with the
    bit mask of the first main observation. *)
Definition mfrac_column (e : env) (mf : img Q) (row col : Q) (box : Z) (v : mval) : Prop :=
  ((forall i j, inside mf i j -> (px mf i j <= 0)%Q) -> mval_eqv v (MNum 0)) /\
  ((exists i j, inside mf i j /\ (0 < px mf i j)%Q) ->
     exists ol o u, py_index (e_main e) 0 = Ok ol /\ py_index ol 0 = Ok o /\
       measure_mfrac_one mf (so_bmask (sob o)) (fst (e_aper e row col box)) (snd (e_aper e row col box)) row col box = Ok u /\
       mval_eqv v u).

(** The PSF columns from the PSF fits of the bands. *)
Definition psf_column (e : env) (m : mb O) (sb : list Z) (s : psf_stats) : Prop :=
  (snd (e_psf_fit e m) = Raise BootPSFFailure /\ s = mkStats (flag_value PSF_FAILURE) None None None) \/
  (snd (e_psf_fit e m) = Ok tt /\ exists psel s', Forall2 (fun b x => py_index (fst (e_psf_fit e m)) b = Ok x) sb psel /\
     get_psf_stats psel 0 = Ok s' /\ stats_eqv s s').

(** All added columns of one detection. *)
Definition columns (e : env) (key : option Z) (sb db : list Z) (t : string) (d : det) (x : extra) : Prop :=
  exists m obs mf wo wb,
    data_of e key m /\ bands_of m sb obs /\ obs <> [] /\
    get_mfrac (map (fun o => [sob o]) obs) = Ok mf /\ ormask_window e wo /\ bmask_window e wb /\
    x_row x = dc_y d /\ x_col x = dc_x d /\
    e_unshear e t (dc_y d) (dc_x d) = Ok (x_row_ns x, x_col_ns x) /\
    mask_column so_ormask obs wo (x_row x) (x_col x) (x_ormask x) /\
    mask_column so_ormask obs wo (x_row_ns x) (x_col_ns x) (x_ormask_ns x) /\
    mask_column so_bmask obs wb (x_row x) (x_col x) (x_bmask x) /\
    mask_column so_bmask obs wb (x_row_ns x) (x_col_ns x) (x_bmask_ns x) /\
    mfrac_column e mf (x_row x) (x_col x) (dc_box d) (x_mfrac x) /\
    mfrac_column e mf (x_row_ns x) (x_col_ns x) (dc_box d) (x_mfrac_ns x) /\
    (x_mfrac_img x == qsum (pixels mf) / inject_Z (zlen (pixels mf)))%Q /\
    psf_column e m sb (x_psf x) /\ x_det_bands x = band_label db.
End Spec.
Arguments data_of {O SEG ST FL FR}. Arguments bands_of {O}. Arguments has_pixels {O}. Arguments env_pixels {O SEG ST FL FR}.
Arguments bmask_window {O SEG ST FL FR}. Arguments ormask_window {O SEG ST FL FR}. Arguments mask_column {O}.
Arguments mfrac_column {O SEG ST FL FR}. Arguments psf_column {O SEG ST FL FR}. Arguments columns {O SEG ST FL FR}.
