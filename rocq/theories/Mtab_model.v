(** The tables as the user sees them, with named columns: the row of a fit
    (metadetect/fitting.py:1381-1413), the stacked rows of a fitter (296-299,
    364-369, 751-755), the combination of the fitters (1443-1510, in
    Joint_model) and the columns added by _measure and _add_positions_and_psf
    (metadetect/metadetect.py:559-747). The values are those of Mrun_model, whose
    rows have no column names. *)
From Coq Require Import ZArith QArith List String Bool.
From Verif Require Import Base Arr Median Flags_model Naming_model Detect_model Summ_model Coadd_model Wavg_model
  Joint_model Conf_model Mdet_model Mrun_model.
Import ListNotations.
Local Open Scope string_scope.
Local Open Scope Z_scope.

(** The value of a field in one row. *)
Inductive cell :=
| CInt (z : Z) | CNum (v : Wavg_model.num) | CPair (v : Wavg_model.num * Wavg_model.num) | CMat (m : mat)
| CInts (l : list Z) | CNums (l : list Wavg_model.num) | CText (s : string) | CPos (q : Q) | CFrac (m : mval)
| CMean (v : option Q) | CMean2 (v : option Q * option Q).

(** What a dtype says of a field besides its name: the kind of value and, for
    the band columns, the number of bands. *)
Definition cell_type (c : cell) : string * nat :=
  match c with
  | CInt _ => ("i4", O) | CNum _ => ("f8", O) | CPair _ => ("f8", 2%nat) | CMat _ => ("f8", 4%nat)
  | CInts l => ("i4s", List.length l) | CNums l => ("f8s", List.length l)
  | CText _ => ("U6", O) | CPos _ => ("f4", O) | CFrac _ => ("f4", O)
  | CMean _ => ("f8", O) | CMean2 _ => ("f8", 2%nat)
  end.
Definition type_eqb (a b : string * nat) : bool := String.eqb (fst a) (fst b) && Nat.eqb (snd a) (snd b).
(** np.array_equal on text columns; no other column is compared. *)
Definition cell_eqb (a b : cell) : bool :=
  match a, b with CText s, CText t => String.eqb s t | _, _ => false end.

Definition tab := table cell.

(** fitting.py:1381-1412 and 1357-1378: the array of one row, its fields named by
    Namer(front=model) in the order of the dtype. Simplification: with one band
    the band columns are scalars, here lists of length one. *)
Definition row_table (model : string) (r : row) : tab :=
  let n := namer (Some model) None in
  mkTable 1
   [ (n "flags", [CInt (o_flags r)]);
     (n "psf_flags", [CInt (o_psf_flags r)]);
     (n "psf_g", [CPair (o_psf_g r)]);
     (n "psf_T", [CNum (o_psf_T r)]);
     (n "obj_flags", [CInt (o_obj_flags r)]);
     (n "s2n", [CNum (o_s2n r)]);
     (n "g", [CPair (o_g r)]);
     (n "g_cov", [CMat (o_g_cov r)]);
     (n "T", [CNum (o_T r)]);
     (n "T_flags", [CInt (o_T_flags r)]);
     (n "T_err", [CNum (o_T_err r)]);
     (n "T_ratio", [CNum (o_T_ratio r)]);
     (n "band_flux_flags", [CInts (o_band_flux_flags r)]);
     (n "band_flux", [CNums (o_band_flux r)]);
     (n "band_flux_err", [CNums (o_band_flux_err r)]);
     ("shear_bands", [CText (o_shear_bands r)]) ].

(** np.hstack on structured arrays that are not empty: an empty list is a
    ValueError; arrays of different dtypes are a TypeError. Simplification: numpy
    may convert between some dtypes that differ only in the sizes of numbers,
    which does not occur here. *)
Definition dtype (t : tab) : list (string * option (string * nat)) :=
  map (fun cv => (fst cv, option_map cell_type (hd_error (snd cv)))) (t_cols t).
Definition field_eqb (a b : string * option (string * nat)) : bool :=
  String.eqb (fst a) (fst b) &&
  match snd a, snd b with
  | Some s, Some t => type_eqb s t
  | None, None => true
  | _, _ => false
  end.
Definition append (a b : tab) : tab :=
  mkTable (t_n a + t_n b)
    (map (fun p => (fst (fst p), snd (fst p) ++ snd (snd p))%list) (combine (t_cols a) (t_cols b))).
Definition hstack (l : list tab) : outcome tab :=
  match l with
  | [] => Raise ValueError
  | a :: r =>
    if forallb (fun b => list_eqb field_eqb (dtype a) (dtype b)) r then Ok (fold_left append r a)
    else Raise TypeError
  end.

Section Run.
Variables (x : third) (c : settings).

(** fitting.py:203-299, 302-369, 703-755: the rows of all objects. *)
Definition fit_list_table (f : Conf_model.fitter) (sb : list Z) (stamps : list (list (list fobs))) : outcome (option tab) :=
  do rows <- omap (fit x c f sb) stamps;
  match rows with
  | [] => Ok None
  | _ => do t <- hstack (map (row_table (colname f)) rows); Ok (Some t)
  end.

(** esutil.numpy_util.add_fields: a field that is already there is a
    ValueError. The new columns are given with their values. *)
Definition add_fields (t : tab) (new : list (string * list cell)) : outcome tab :=
  if existsb (fun cv => existsb (String.eqb (fst cv)) (names t)) new then Raise ValueError
  else Ok (mkTable (t_n t) (t_cols t ++ new)%list).

(** metadetect.py:625-650 and 652-745: the added columns. *)
Definition new_columns (xs : list extra) : list (string * list cell) :=
  let col f := map f xs in
  [ ("sx_row", col (fun x => CPos (x_row x)));
    ("sx_col", col (fun x => CPos (x_col x)));
    ("sx_row_noshear", col (fun x => CPos (x_row_ns x)));
    ("sx_col_noshear", col (fun x => CPos (x_col_ns x)));
    ("ormask", col (fun x => CInt (x_ormask x)));
    ("mfrac", col (fun x => CFrac (x_mfrac x)));
    ("bmask", col (fun x => CInt (x_bmask x)));
    ("mfrac_img", col (fun x => CPos (x_mfrac_img x)));
    ("ormask_noshear", col (fun x => CInt (x_ormask_ns x)));
    ("mfrac_noshear", col (fun x => CFrac (x_mfrac_ns x)));
    ("bmask_noshear", col (fun x => CInt (x_bmask_ns x)));
    ("det_bands", col (fun x => CText (x_det_bands x))) ].
Definition psfrec_columns (xs : list extra) : list (string * list cell) :=
  [ ("psfrec_flags", map (fun x => CInt (Summ_model.ps_flags (x_psf x))) xs);
    ("psfrec_g", map (fun x => CMean2 (Summ_model.ps_g1 (x_psf x), Summ_model.ps_g2 (x_psf x))) xs);
    ("psfrec_T", map (fun x => CMean (Summ_model.ps_T (x_psf x))) xs) ].

Variable e : env obs (img Z) (list (list fobs)) (list Wavg_model.num) row.

(** metadetect.py:618-747. The check of add_fields does not depend on the values,
    so it is made before they are computed, as in the code. *)
Definition add_positions_table (cat : list det) (t : tab) (shear_str : string) (sm : summary) (det_bands : list Z)
  : outcome tab :=
  let known := existsb (String.eqb "psfrec_flags") (names t) in
  let added xs := (new_columns xs ++ (if known then [] else psfrec_columns xs))%list in
  do _ <- add_fields t (added []);
  if 6 <? zlen det_bands then Raise AssertionError
  else
    do xs <- omap (extra_of sob e shear_str sm det_bands) cat;
    do t1 <- add_fields t (added xs);
    (* the three psfrec columns are written whether they were there or not *)
    if known then
      Ok (mkTable (t_n t1) (fold_left (fun acc cv => put_col (fst cv) (snd cv) acc) (psfrec_columns xs) (t_cols t1)))
    else Ok t1.

(** metadetect.py:559-616. *)
Definition measure_table (cat : list det) (stamps : list (list (list fobs))) (shear_bands det_bands : list Z)
  (shear_str : string) (sm : summary) : outcome (option tab) :=
  do all_res <- omap (fun f => fit_list_table f shear_bands stamps) (e_fitters e);
  do res <- combine_fit_res cell_eqb (CInt 0) all_res;
  match res with
  | None => Ok None
  | Some t => do t <- add_positions_table cat t shear_str sm det_bands; Ok (Some t)
  end.

(** ** The driver, as in Mdet_model, with tables in place of lists of rows *)
Definition tables := list (string * option tab).

(** metadetect.py:408-429. *)
Definition go_bands_tables (shear_bands det_bands : list Z) (mcal : list (string * mbo)) : M obs row tables :=
  mbind (get_data sob e None shear_bands) (fun kd =>
  mmap (fun sm =>
    mbind (lift (do_detect e (snd sm) det_bands)) (fun cs =>
    mbind (lift (kd_summary kd)) (fun su =>
    mbind (lift (measure_table (fst cs) (snd cs) shear_bands det_bands (fst sm) su)) (fun r =>
    ret (fst sm, r))))) mcal).

(** metadetect.py:471-490. *)
Definition color_one_table (shear_bands det_bands : list Z) (shear_str : string) (dk : det * option Z)
  : M obs row (option tab) :=
  mbind (get_data sob e (snd dk) shear_bands) (fun kd =>
  mbind (lift (kd_mcal kd)) (fun mc =>
  match mc with
  | None => ret None     (* continue *)
  | Some dict =>
    mbind (lift (match assoc String.eqb shear_str dict with Some m => Ok m | None => Raise KeyError end)) (fun m =>
    mbind (lift (e_stamp e m None (fst dk))) (fun st =>
    mbind (lift (kd_summary kd)) (fun su =>
    lift (measure_table [fst dk] [st] shear_bands det_bands shear_str su))))
  end)).
(** The tables that are not None. *)
Fixpoint somes {A} (l : list (option A)) : list A :=
  match l with
  | [] => []
  | Some a :: r => a :: somes r
  | None :: r => somes r
  end.

(** metadetect.py:431-497. *)
Definition go_bands_color_tables (keyf : keyfun) (shear_bands det_bands : list Z) (mcal : list (string * mbo))
  : M obs row tables :=
  mmap (fun sm =>
    mbind (lift (match e_fitters e with
                 | [] => Raise IndexError
                 | f :: _ => if fi_wavg f then Ok f else Raise RuntimeError
                 end)) (fun f0 =>
    mbind (lift (do_detect e (snd sm) det_bands)) (fun cs =>
    mbind (lift (omap (e_flux e f0 shear_bands) (snd cs))) (fun fluxes =>
    match fluxes with
    | [] => ret (fst sm, None)
    | _ =>
      mbind (lift (omap keyf fluxes)) (fun keys =>
      mbind (mmap (color_one_table shear_bands det_bands (fst sm)) (combine (fst cs) keys)) (fun data =>
      match somes data with
      | [] => ret (fst sm, None)
      | l => mbind (lift (hstack l)) (fun t => ret (fst sm, Some t))
      end))
    end)))) mcal.

(** metadetect.py:380-404. *)
Definition add_all (all_res : list (string * list tab)) (res : tables) : list (string * list tab) :=
  fold_left (fun acc kv =>
    match snd kv with
    | None => acc
    | Some v => dput String.eqb (fst kv)
                  ((match assoc String.eqb (fst kv) acc with Some l => l | None => [] end) ++ [v])%list acc
    end) res all_res.
Definition finish_tables (all_res : list (string * list tab)) : outcome tables :=
  do stacked <- omap (fun kv => do t <- hstack (snd kv); Ok (fst kv, Some t)) all_res;
  Ok (fold_left (fun acc t => match assoc String.eqb t acc with
                              | Some _ => acc
                              | None => dput String.eqb t None acc
                              end) (e_types e) stacked).

(** metadetect.py:348-406. *)
Definition go_tables : M obs row (option tables) :=
  mbind (lift (get_mfrac (map (map sob) (e_main e)))) (fun mf =>
  if give_up sob e mf then ret None
  else
    mbind (get_data sob e None (zrange (zlen (e_main e)))) (fun kd =>
    mbind (lift (kd_mcal kd)) (fun mc =>
    match mc with
    | None => ret None
    | Some mcal =>
      mbind (mmap (fun sd => match e_color e with
                             | Some (keyf, _) => go_bands_color_tables keyf (fst sd) (snd sd) mcal
                             | None => go_bands_tables (fst sd) (snd sd) mcal
                             end) (combine (e_shear e) (e_det e))) (fun all =>
      mbind (lift (finish_tables (fold_left add_all all []))) (fun r => ret (Some r)))
    end))).
End Run.

(** metadetect.py:25-74 with the tables the user gets. *)
Definition do_metadetect_tables (x : third) (c : settings) (main : mbo) (shear_band_combs : option (list (list Z)))
  (keyf : option keyfun) (dep : option colours) (det_band_combs : det_arg) : outcome (option tables) :=
  do md <- construct (st_conf c) (zlen main) (has keyf) (has dep) shear_band_combs det_band_combs;
  fst (go_tables x c (environment x c md main (color_arg keyf dep)) init_state).
