(** Model of the joint fitters of metadetect/fitting.py (lines 31-493) and of
    combine_fit_res (lines 1443-1510). Numbers as in Wavg_model. *)
From Coq Require Import ZArith QArith List String Bool.
From Verif Require Import Base Arr Median Flags_model Coadd_model Wavg_model.
Import ListNotations.
Local Open Scope string_scope.
Local Open Scope Z_scope.

(** ** The flags set from the data of one object *)

(** fitting.py:71-88 (and 425-441): one band. A stamp without a bmask has no
    attribute to read. *)
Definition band_data_flags (bmask_flags : Z) (ol : list fobs) : outcome Z :=
  match ol with
  | [] => Ok (flag_value MISSING_BAND)
  | [o] =>
    let f := if any_pixel qpos (f_weight o) then 0 else flag_value ZERO_WEIGHTS in
    match f_bmask o with
    | None => Raise AttributeError
    | Some bm =>
      Ok (if any_pixel (fun v => negb (Z.land v bmask_flags =? 0)) bm
          then Z.lor f (flag_value EDGE_HIT) else f)
    end
  | _ => Ok (flag_value INCONSISTENT_BANDS)
  end.
Definition data_flags (bmask_flags : Z) (mbobs : list (list fobs)) : outcome Z :=
  ofold (fun f ol => do g <- band_data_flags bmask_flags ol; Ok (Z.lor f g)) mbobs 0.

Definition default_bands (mbobs : list (list fobs)) (shear_bands : option (list Z)) : list Z :=
  match shear_bands with Some l => l | None => zrange (zlen mbobs) end.

(** numpy [a[0, idx] = vals]: one value is broadcast, otherwise the lengths must
    agree; a later duplicate wins. *)
Fixpoint set_nth {A} (l : list A) (k : nat) (v : A) : list A :=
  match l, k with
  | [], _ => []
  | _ :: r, O => v :: r
  | x :: r, S k' => x :: set_nth r k' v
  end.
Definition set_at {A} (l : list A) (i : Z) (v : A) : outcome (list A) :=
  let j := if i <? 0 then i + zlen l else i in
  if (0 <=? j) && (j <? zlen l) then Ok (set_nth l (Z.to_nat j) v) else Raise IndexError.
Definition assign_at {A} (l : list A) (idx : list Z) (vals : list A) : outcome (list A) :=
  match vals with
  | [v] => ofold (fun l i => set_at l i v) idx l
  | _ => if Nat.eqb (List.length vals) (List.length idx)
         then ofold (fun l iv => set_at l (fst iv) (snd iv)) (combine idx vals) l
         else Raise ValueError
  end.
(** fitting.py:133-136, 145-150: a two dimensional column for more than one
    band, otherwise a scalar one. *)
Definition assign_bands {A} (nband : nat) (l : list A) (idx : list Z) (vals : list A) : outcome (list A) :=
  if Nat.leb nband 1 then
    match vals with [v] => Ok [v] | _ => Raise ValueError end
  else assign_at l idx vals.

(** ** fitting.py:31-196, fit_mbobs_gauss *)

(** The part of the ngmix fit results read: of the object, and of one PSF (its
    shape as returned by _extract_g, fitting.py:199-210, which converts "e" when
    there is no "g"). *)
Record gaussres := mkGauss {
  g_flags : Z; g_s2n : num; g_g : num * num; g_gcov : mat; g_T : num; g_T_err : num;
  g_flux : list num; g_flux_err : list num
}.
Record psfres := mkPsfres { q_flags : Z; q_T : num; q_g : num * num }.
(** What ngmix's bootstrap does on the stamps of the shear bands: raise
    BootPSFFailure or PSFFluxFailure, raise something else, or return the
    object's result and leave a result in each PSF (here by position). Building
    the default runners (fitting.py:107-118) is part of this call. *)
Inductive bootout : Type :=
| BootOk (g : gaussres) (p : nat -> psfres)
| BootPSF
| BootOther.

(** fitting.py:161-183: the PSF sums over the stamps. *)
Record psums := mkPsums { ps_flags : Z; ps_g1 : num; ps_g2 : num; ps_T : num; ps_w : Q }.
Definition psf_step (s : psums) (x : psfres * fobs) : psums :=
  let '(q, o) := x in
  let fl := Z.lor (ps_flags s) (q_flags q) in
  if q_flags q =? 0 then
    match qmedian (positive_of (f_weight o)) with
    | None => mkPsums (Z.lor fl (flag_value ZERO_WEIGHTS)) (ps_g1 s) (ps_g2 s) (ps_T s) (ps_w s)
    | Some w =>
      mkPsums fl
        (nadd (ps_g1 s) (nmul (nmul (fst (q_g q)) (Some w)) (q_T q)))
        (nadd (ps_g2 s) (nmul (nmul (snd (q_g q)) (Some w)) (q_T q)))
        (nadd (ps_T s) (nmul (q_T q) (Some w))) (ps_w s + w)%Q
    end
  else mkPsums fl (ps_g1 s) (ps_g2 s) (ps_T s) (ps_w s).
Definition psums0 : psums := mkPsums 0 (Some 0%Q) (Some 0%Q) (Some 0%Q) 0%Q.
(** Every obslist holds one stamp when this is reached; the stamps with the
    position of their band. *)
Definition stamps (mb : list (list fobs)) : list (nat * fobs) :=
  flat_map (fun ko => map (fun o => (fst ko, o)) (snd ko)) (combine (seq 0 (List.length mb)) mb).

(** fitting.py:154-189: PSF flags, T and g. *)
Definition psf_columns (d0 : row) (coadd : bool) (mb : list (list fobs)) (p : nat -> psfres)
  : Z * num * (num * num) :=
  if coadd then
    let q := p O in
    (q_flags q, if q_flags q =? 0 then q_T q else o_psf_T d0, if q_flags q =? 0 then q_g q else o_psf_g d0)
  else
    let s := fold_left psf_step (map (fun ko => (p (fst ko), snd ko)) (stamps mb)) psums0 in
    (ps_flags s,
     if ps_flags s =? 0 then ndiv (ps_T s) (Some (ps_w s)) else o_psf_T d0,
     if ps_flags s =? 0 then (ndiv (ps_g1 s) (ps_T s), ndiv (ps_g2 s) (ps_T s)) else o_psf_g d0).

Section Gauss.
Variables (ng : ngcodes) (boot : list (list fobs) -> bootout).

(** fitting.py:129-192: the row when the fit ran. *)
Definition gauss_row (d0 : row) (nband : nat) (sb : list Z) (coadd : bool) (mb : list (list fobs))
  (g : gaussres) (p : nat -> psfres) : outcome row :=
  do bff <- assign_bands nband (o_band_flux_flags d0) sb [g_flags g];
  let good := g_flags g =? 0 in
  do bf <- (if good then assign_bands nband (o_band_flux d0) sb (g_flux g) else Ok (o_band_flux d0));
  do be <- (if good then assign_bands nband (o_band_flux_err d0) sb (g_flux_err g) else Ok (o_band_flux_err d0));
  let '(pf, pT, pg) := psf_columns d0 coadd mb p in
  let T := if good then g_T g else o_T d0 in
  Ok (mkRow (Z.lor (g_flags g) pf) pf pg pT (g_flags g)
        (if good then g_s2n g else o_s2n d0) (if good then g_g g else o_g d0)
        (if good then g_gcov g else o_g_cov d0) T (g_flags g)
        (if good then g_T_err g else o_T_err d0)
        (if (pf =? 0) && good then ndiv T pT else o_T_ratio d0)
        bff bf be (o_shear_bands d0)).

(** fitting.py:194. *)
Definition add_flags (d0 : row) (flags : Z) : row :=
  mkRow (Z.lor (o_flags d0) flags) (o_psf_flags d0) (o_psf_g d0) (o_psf_T d0) (o_obj_flags d0)
    (o_s2n d0) (o_g d0) (o_g_cov d0) (o_T d0) (o_T_flags d0) (o_T_err d0) (o_T_ratio d0)
    (o_band_flux_flags d0) (o_band_flux d0) (o_band_flux_err d0) (o_shear_bands d0).

(** fitting.py:93-104: the stamps to fit, or flags. *)
Definition gauss_stamps (mbobs : list (list fobs)) (sb : list Z) (coadd : bool)
  : outcome (list (list fobs) + Z) :=
  if coadd then
    do c <- make_coadd_obs mbobs sb;
    match c with
    | (Some o, cf) => Ok (if cf =? 0 then inl [[o]] else inr cf)
    | (None, cf) => Ok (inr cf)
    end
  else do l <- omap (py_index mbobs) sb; Ok (inl l).

Definition fit_mbobs_gauss (mbobs : list (list fobs)) (bmask_flags : Z) (shear_bands : option (list Z))
  (coadd : bool) : outcome row :=
  let sb := default_bands mbobs shear_bands in
  do d0 <- get_wavg_output_struct ng (List.length mbobs) sb;
  do f0 <- data_flags bmask_flags mbobs;
  let f1 := if existsb (fun s => zlen mbobs <=? s) sb then Z.lor f0 (flag_value INCONSISTENT_BANDS) else f0 in
  if negb (f1 =? 0) then Ok (add_flags d0 f1)
  else
    do st <- gauss_stamps mbobs sb coadd;
    match st with
    | inr cf => Ok (add_flags d0 cf)
    | inl mb =>
      match boot mb with
      | BootPSF => Ok (add_flags d0 (flag_value PSF_FAILURE))
      | BootOther => Ok (add_flags d0 (Z.lor (flag_value OBJ_FAILURE) (flag_value PSF_FAILURE)))
      | BootOk g p => gauss_row d0 (List.length mbobs) sb coadd mb g p
      end
    end.
End Gauss.

(** ** fitting.py:383-493, fit_mbobs_admom *)

(** The part of an adaptive moments result read. *)
Record amres := mkAm {
  a_flags : Z; a_T_flags : Z; a_T : num; a_T_err : num; a_s2n : num; a_e : num * num; a_e_cov : mat
}.

Section Admom.
(** [run_psf], [run_obj]: runner.go on a PSF and on a stamp. *)
Variables (ng : ngcodes) (run_psf : psfobs -> outcome amres) (run_obj : fobs -> outcome amres).

(** fitting.py:448-459: None when the call raised (or there is no PSF). *)
Definition admom_psf (co : fobs) : option amres :=
  match f_psf co with
  | None => None
  | Some p => match run_psf p with Ok r => Some r | Raise _ => None end
  end.
(** fitting.py:452-485. *)
Definition admom_row (d0 : row) (co : fobs) (symmetrize : bool) (pres : amres) : outcome row :=
  let pok := a_flags pres =? 0 in
  let psf_g := if pok then a_e pres else o_psf_g d0 in
  let psf_T := if pok then a_T pres else o_psf_T d0 in
  do so <- (if symmetrize then symmetrize_obs_weights co else Ok co);
  match run_obj so with
  | Raise _ =>
    Ok (mkRow (flag_value OBJ_FAILURE) (a_flags pres) psf_g psf_T (o_obj_flags d0)
          (o_s2n d0) (o_g d0) (o_g_cov d0) (o_T d0) (o_T_flags d0) (o_T_err d0) (o_T_ratio d0)
          (o_band_flux_flags d0) (o_band_flux d0) (o_band_flux_err d0) (o_shear_bands d0))
  | Ok gr =>
    let tok := a_T_flags gr =? 0 in
    let ok := a_flags gr =? 0 in
    Ok (mkRow (Z.lor (a_flags pres) (a_flags gr)) (a_flags pres) psf_g psf_T (a_flags gr)
          (if ok then a_s2n gr else o_s2n d0) (if ok then a_e gr else o_g d0)
          (if ok then a_e_cov gr else o_g_cov d0)
          (if tok then a_T gr else o_T d0) (a_T_flags gr) (if tok then a_T_err gr else o_T_err d0)
          (if tok && pok then ndiv (a_T gr) psf_T else o_T_ratio d0)
          (o_band_flux_flags d0) (o_band_flux d0) (o_band_flux_err d0) (o_shear_bands d0))
  end.

Definition fit_mbobs_admom (mbobs : list (list fobs)) (bmask_flags : Z) (shear_bands : option (list Z))
  (symmetrize : bool) : outcome row :=
  let sb := default_bands mbobs shear_bands in
  do d0 <- get_wavg_output_struct ng (List.length mbobs) sb;
  do f0 <- data_flags bmask_flags mbobs;
  if negb (f0 =? 0) then Ok (add_flags d0 f0)
  else
    do c <- make_coadd_obs mbobs sb;
    match c with
    | (Some co, 0) =>
      match admom_psf co with
      | None => Ok (add_flags d0 (flag_value PSF_FAILURE))
      | Some pres => admom_row d0 co symmetrize pres
      end
    | (_, cf) => Ok (add_flags d0 cf)
    end.
End Admom.

(** ** fitting.py:302-369, fit_mbobs_list_joint. [boot], [run_psf] and [run_obj] are the
    runners made once for all objects; how the first object decides them is in
    Jrun_model. *)
Definition fit_mbobs_list_joint (ng : ngcodes) (boot : list (list fobs) -> bootout)
  (run_psf : psfobs -> outcome amres) (run_obj : fobs -> outcome amres)
  (mbobs_list : list (list (list fobs))) (fitter_name : string) (bmask_flags : Z)
  (shear_bands : option (list Z)) (symmetrize coadd : bool) : outcome (option (list row)) :=
  do fit <- (if String.eqb fitter_name "am" || String.eqb fitter_name "admom" then
               Ok (fun m => fit_mbobs_admom ng run_psf run_obj m bmask_flags shear_bands symmetrize)
             else if String.eqb fitter_name "gauss" then
               Ok (fun m => fit_mbobs_gauss ng boot m bmask_flags shear_bands coadd)
             else Raise RuntimeError);
  do rows <- omap fit mbobs_list;
  match rows with [] => Ok None | _ => Ok (Some rows) end.

(** ** fitting.py:1443-1510, combine_fit_res *)

(** A structured array: its number of rows and its columns, name and values.
    The column types are not modelled, values are of any type with an equality
    test (np.array_equal). *)
Record table (A : Type) := mkTable { t_n : nat; t_cols : list (string * list A) }.
Arguments mkTable {A}. Arguments t_n {A}. Arguments t_cols {A}.
Definition dupe_cols : list string := ["shear_bands"].
Definition is_dupe (c : string) : bool := existsb (String.eqb c) dupe_cols.
Definition names {A} (t : table A) : list string := map fst (t_cols t).

(** fitting.py:1463-1487: the number of objects and the columns. A column list
    is empty until the first result with columns. *)
Definition header_step {A} (s : option nat * list string) (r : option (table A))
  : outcome (option nat * list string) :=
  let '(nobj, dt) := s in
  match r with
  | Some t =>
    do n <- match nobj with
            | None => Ok (t_n t)
            | Some n => if Nat.eqb n (t_n t) then Ok n else Raise RuntimeError
            end;
    Ok (Some n, match dt with
                | [] => names t
                | _ => (dt ++ filter (fun c => negb (is_dupe c)) (names t))%list
                end)
  | None =>
    match nobj with
    | None => Ok (Some O, dt)
    | Some n => if Nat.eqb n 0 then Ok (Some n, dt) else Raise RuntimeError
    end
  end.
(** np.zeros with a dtype: a repeated field name is a ValueError. *)
Fixpoint nodupb (l : list string) : bool :=
  match l with [] => true | x :: r => negb (existsb (String.eqb x) r) && nodupb r end.
(** The values of a column; [zero] fills a new array. *)
Fixpoint get_col {A} (c : string) (cols : list (string * list A)) : option (list A) :=
  match cols with
  | [] => None
  | (d, v) :: r => if String.eqb c d then Some v else get_col c r
  end.
Fixpoint put_col {A} (c : string) (v : list A) (cols : list (string * list A)) : list (string * list A) :=
  match cols with
  | [] => []
  | (d, w) :: r => if String.eqb c d then (d, v) :: r else (d, w) :: put_col c v r
  end.
Fixpoint list_eqb {A} (eqb : A -> A -> bool) (a b : list A) : bool :=
  match a, b with
  | [], [] => true
  | x :: r, y :: s => eqb x y && list_eqb eqb r s
  | _, _ => false
  end.
(** fitting.py:1491-1502: one column of result number [i]. Writing or reading a
    field the array does not have is a ValueError. *)
Definition col_step {A} (eqb : A -> A -> bool) (first : bool) (acc : list (string * list A))
  (cv : string * list A) : outcome (list (string * list A)) :=
  let '(c, v) := cv in
  match get_col c acc with
  | None => Raise ValueError
  | Some w =>
    if is_dupe c && negb first then
      if list_eqb eqb w v then Ok acc else Raise RuntimeError
    else Ok (put_col c v acc)
  end.
(** [i] is the number of the result; a missing one has no dtype. *)
Fixpoint fill_cols {A} (eqb : A -> A -> bool) (first : bool) (all_res : list (option (table A)))
  (acc : list (string * list A)) : outcome (list (string * list A)) :=
  match all_res with
  | [] => Ok acc
  | None :: _ => Raise AttributeError
  | Some t :: r => do acc <- ofold (col_step eqb first) (t_cols t) acc; fill_cols eqb false r acc
  end.
Definition combine_fit_res {A} (eqb : A -> A -> bool) (zero : A) (all_res : list (option (table A)))
  : outcome (option (table A)) :=
  match all_res with
  | [r] => Ok r
  | _ =>
    do h <- ofold header_step all_res (None, []);
    match h with
    | (None, _) => Raise TypeError
    | (Some n, dt) =>
      if Nat.ltb 0 n then
        if nodupb dt then
          do cols <- fill_cols eqb true all_res (map (fun c => (c, repeat zero n)) dt);
          Ok (Some (mkTable n cols))
        else Raise ValueError
      else if existsb has all_res then
        if nodupb dt then Ok (Some (mkTable O (map (fun c => (c, [])) dt))) else Raise ValueError
      else Ok None
    end
  end.
