(** Specification vocabulary for C132: the columns of the tables a user gets, by
    name, each with the value it shows for a row. *)
From Coq Require Import ZArith QArith List String Bool.
From Verif Require Import Base Arr Median Flags_model Detect_model Summ_model Coadd_model Wavg_model
  Joint_model Conf_model Mdet_model Mrun_model Mrun_spec Mtab_model.
Import ListNotations.
Local Open Scope string_scope.
Local Open Scope Z_scope.

Definition rowcell := drow row -> cell.
(** A value of the fit number [k] of a row. *)
Definition of_fit (k : nat) (g : row -> cell) : rowcell :=
  fun r => match nth_error (r_fits r) k with Some f => g f | None => CInt 0 end.
Definition of_extra (g : extra -> cell) : rowcell := fun r => g (r_extra r).

(** The columns of fitter number [k], whose prefix is [p]. *)
Definition fit_columns (k : nat) (p : string) : list (string * rowcell) :=
  [ (p ++ "_flags", of_fit k (fun r => CInt (o_flags r)));
    (p ++ "_psf_flags", of_fit k (fun r => CInt (o_psf_flags r)));
    (p ++ "_psf_g", of_fit k (fun r => CPair (o_psf_g r)));
    (p ++ "_psf_T", of_fit k (fun r => CNum (o_psf_T r)));
    (p ++ "_obj_flags", of_fit k (fun r => CInt (o_obj_flags r)));
    (p ++ "_s2n", of_fit k (fun r => CNum (o_s2n r)));
    (p ++ "_g", of_fit k (fun r => CPair (o_g r)));
    (p ++ "_g_cov", of_fit k (fun r => CMat (o_g_cov r)));
    (p ++ "_T", of_fit k (fun r => CNum (o_T r)));
    (p ++ "_T_flags", of_fit k (fun r => CInt (o_T_flags r)));
    (p ++ "_T_err", of_fit k (fun r => CNum (o_T_err r)));
    (p ++ "_T_ratio", of_fit k (fun r => CNum (o_T_ratio r)));
    (p ++ "_band_flux_flags", of_fit k (fun r => CInts (o_band_flux_flags r)));
    (p ++ "_band_flux", of_fit k (fun r => CNums (o_band_flux r)));
    (p ++ "_band_flux_err", of_fit k (fun r => CNums (o_band_flux_err r))) ].
(** The columns of the fitters from number [k] on. *)
Fixpoint more_columns (k : nat) (ps : list string) : list (string * rowcell) :=
  match ps with
  | [] => []
  | p :: r => (fit_columns k p ++ more_columns (S k) r)%list
  end.
(** The columns that belong to no fitter. *)
Definition common_columns : list (string * rowcell) :=
  [ ("sx_row", of_extra (fun x => CPos (x_row x)));
    ("sx_col", of_extra (fun x => CPos (x_col x)));
    ("sx_row_noshear", of_extra (fun x => CPos (x_row_ns x)));
    ("sx_col_noshear", of_extra (fun x => CPos (x_col_ns x)));
    ("ormask", of_extra (fun x => CInt (x_ormask x)));
    ("mfrac", of_extra (fun x => CFrac (x_mfrac x)));
    ("bmask", of_extra (fun x => CInt (x_bmask x)));
    ("mfrac_img", of_extra (fun x => CPos (x_mfrac_img x)));
    ("ormask_noshear", of_extra (fun x => CInt (x_ormask_ns x)));
    ("mfrac_noshear", of_extra (fun x => CFrac (x_mfrac_ns x)));
    ("bmask_noshear", of_extra (fun x => CInt (x_bmask_ns x)));
    ("det_bands", of_extra (fun x => CText (x_det_bands x)));
    ("psfrec_flags", of_extra (fun x => CInt (Summ_model.ps_flags (x_psf x))));
    ("psfrec_g", of_extra (fun x => CMean2 (Summ_model.ps_g1 (x_psf x), Summ_model.ps_g2 (x_psf x))));
    ("psfrec_T", of_extra (fun x => CMean (Summ_model.ps_T (x_psf x)))) ].
(** All columns for fitters with the given prefixes, in order. The shear bands are
    shown once, after the columns of the first fitter. *)
Definition all_columns (ps : list string) : list (string * rowcell) :=
  match ps with
  | [] => common_columns
  | p :: r => (fit_columns O p ++ [("shear_bands", of_fit O (fun r => CText (o_shear_bands r)))] ++
               more_columns 1%nat r ++ common_columns)%list
  end.

(** The table that shows the given rows. *)
Definition shown (ps : list string) (rows : list (drow row)) : tab :=
  mkTable (List.length rows) (map (fun ng => (fst ng, map (snd ng) rows)) (all_columns ps)).
Definition shown_result (ps : list string) (r : results row) : tables :=
  map (fun kv => (fst kv, option_map (shown ps) (snd kv))) r.

(** The main and all coloured observations have the same number of bands. *)
Definition same_bands (main : mbo) (dep : option colours) : Prop :=
  forall d k m, dep = Some d -> d k = Some (Other m) -> List.length m = List.length main.

(** Reading a table: the cell of a row in a named column. *)
Definition read (t : tab) (name : string) (i : nat) (v : cell) : Prop :=
  exists vs, In (name, vs) (t_cols t) /\ nth_error vs i = Some v.
