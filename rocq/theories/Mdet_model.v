(** Model of the driver of metadetect/metadetect.py: go (348-406), _go_bands
    (408-429), _go_bands_with_color (431-497), _get_mbobs_data and its caches
    (499-557), _measure (559-616), _add_positions_and_psf (618-747), _do_detect
    (749-783) and _get_all_metacal (785-825).

    Third party parts and parts modelled elsewhere are fields of the record
    [env]: deterministic functions that return a value or an exception. The
    random number generator is not modelled here (see Mrng_model): PSF fits,
    metacal and fits are functions of their inputs. The object's state is explicit: cache, log of
    computations, result. *)
From Coq Require Import ZArith QArith List String Bool.
From Verif Require Import Base Arr Median Flags_model Detect_model Summ_model Wavg_model Joint_model Conf_model.
Import ListNotations.
Local Open Scope string_scope.
Local Open Scope Z_scope.

(** ** Dictionaries *)
Fixpoint assoc {K V} (eqb : K -> K -> bool) (k : K) (l : list (K * V)) : option V :=
  match l with
  | [] => None
  | (k', v) :: r => if eqb k k' then Some v else assoc eqb k r
  end.
(** d[k] = v: replaces the value or adds the key at the end. *)
Fixpoint dput {K V} (eqb : K -> K -> bool) (k : K) (v : V) (l : list (K * V)) : list (K * V) :=
  match l with
  | [] => [(k, v)]
  | (k', w) :: r => if eqb k k' then (k', v) :: r else (k', w) :: dput eqb k v r
  end.
Definition key_eqb (a b : option Z) : bool :=
  match a, b with
  | None, None => true
  | Some x, Some y => x =? y
  | _, _ => false
  end.
Definition bands_eqb (a b : list Z) : bool := list_eqb Z.eqb a b.

(** ** Data *)

(** The columns of a detection read by the driver. *)
Record det := mkDetc { dc_x : Q; dc_y : Q; dc_box : Z; dc_number : Z }.

(** The columns added by _add_positions_and_psf (metadetect.py:625-650). *)
Record extra := mkExtra {
  x_row : Q; x_col : Q; x_row_ns : Q; x_col_ns : Q;
  x_ormask : Z; x_ormask_ns : Z; x_bmask : Z; x_bmask_ns : Z;
  x_mfrac : mval; x_mfrac_ns : mval; x_mfrac_img : Q;
  x_psf : psf_stats; x_det_bands : string
}.

Section Driver.
(** Observations, segmentation maps, object stamps, measured fluxes, the row
    one fitter gives for one object. *)
Variables O SEG ST FL FR : Type.
Variable sob : O -> sobs.

Definition mb := list (list O).

(** An entry of color_dep_mbobs: the main observations themselves (the `is`
    test at metadetect.py:510), or others. *)
Inductive cobs := SameObject | Other (m : mb).

Record env := mkEnv {
  e_main : mb;
  (** color_key_func and color_dep_mbobs; a colour key is an integer code. *)
  e_color : option ((FL -> outcome (option Z)) * (Z -> option cobs));
  (** fitting.fit_all_psfs: the stored PSF results, and how it ended. *)
  e_psf_fit : mb -> list (list pobs) * outcome unit;
  (** ngmix.metacal.get_all_metacal. *)
  e_metacal : mb -> outcome (list (string * mb));
  e_types : list string;
  e_nodet : Z;
  e_fitters : list fitter;
  e_shear : list (list Z);
  e_det : list (list Z);
  (** detect.MEDSifier: catalogue and segmentation map. *)
  e_detect : mb -> outcome (list det * SEG);
  (** detect.CatalogMEDSifier and get_mbobs_list for one object. *)
  e_stamp : mb -> option SEG -> det -> outcome ST;
  (** A fitter on one object with the given shear bands (Wavg_model and
      Joint_model); the column prefix of the fitter. *)
  e_fit : fitter -> list Z -> ST -> outcome FR;
  e_colname : fitter -> string;
  (** The band_flux values of fit_mbobs_list_wavg with its default options. *)
  e_flux : fitter -> list Z -> ST -> outcome FL;
  (** shearpos.unshear_positions_obs for one object. *)
  e_unshear : string -> Q -> Q -> outcome (Q * Q);
  e_ormask_region : option Z; e_mask_region : option Z;
  (** The Gaussian aperture of measure_mfrac at (row, col, box). *)
  e_aper : Q -> Q -> Z -> (Z -> Z -> Q) * (Z -> Z -> bool)
}.

Record drow := mkDrow { r_fits : list FR; r_extra : extra }.
Definition results := list (string * option (list drow)).

(** _mcalpsf_data_cache[key]: "psf_fit_flags" and "mcal_res", if set. *)
Record mcalpsf := mkMP { mp_psf : option Z; mp_mcal : option (option (list (string * mb))) }.
(** "mfrac", "bmask", "ormask" and "psf_stats" (set together). *)
Record summary := mkSum { sm_mfrac : img Q; sm_bmask : img Z; sm_ormask : img Z; sm_stats : psf_stats }.
(** _mbobs_data_cache[key][sbkey]. *)
Record kdata := mkK { kd_mp : mcalpsf; kd_sum : option summary }.

Inductive event := EvPsf (k : option Z) | EvMcal (k : option Z) | EvSum (k : option Z) (sbkey : list Z).

Definition cache_entry := (mcalpsf * list (list Z * kdata))%type.
Record state := mkState {
  s_cache : list (option Z * cache_entry);
  s_log : list event;
  s_result : option (option results)    (* the outer None: go() was not run *)
}.
Definition init_state : state := mkState [] [] None.

(** ** State and exceptions *)
Definition M (A : Type) := state -> outcome A * state.
Definition ret {A} (a : A) : M A := fun s => (Ok a, s).
Definition lift {A} (o : outcome A) : M A := fun s => (o, s).
Definition mbind {A B} (m : M A) (f : A -> M B) : M B :=
  fun s => match m s with
           | (Ok a, s') => f a s'
           | (Raise e, s') => (Raise e, s')
           end.
Fixpoint mmap {A B} (f : A -> M B) (l : list A) : M (list B) :=
  match l with
  | [] => ret []
  | a :: r => mbind (f a) (fun b => mbind (mmap f r) (fun bs => ret (b :: bs)))
  end.
Definition set_result (r : option results) : M unit :=
  fun s => (Ok tt, mkState (s_cache s) (s_log s) (Some r)).

Section Env.
Variable e : env.

(** ** The caches *)

(** metadetect.py:502-511: the observations for a key and the key used. *)
Definition obs_of (key : option Z) : outcome (option Z * mb) :=
  match key with
  | None => Ok (None, e_main e)
  | Some k =>
    match e_color e with
    | None => Raise TypeError
    | Some (_, dep) =>
      match dep k with
      | None => Raise KeyError
      | Some SameObject => Ok (None, e_main e)
      | Some (Other m) => Ok (Some k, m)
      end
    end
  end.

(** metadetect.py:524-529. *)
Definition psf_flags (m : mb) : outcome Z :=
  match snd (e_psf_fit e m) with
  | Ok _ => Ok 0
  | Raise BootPSFFailure => Ok (flag_value PSF_FAILURE)
  | Raise x => Raise x
  end.
(** metadetect.py:785-797. *)
Definition all_metacal (m : mb) : outcome (option (list (string * mb))) :=
  match e_metacal e m with
  | Ok d => Ok (Some d)
  | Raise BootPSFFailure => Ok None
  | Raise x => Raise x
  end.

(** metadetect.py:518-534: what is in _mcalpsf_data_cache[key] afterwards, the
    computations attempted, and how it ended. *)
Definition compute_key (k : option Z) (m : mb) : mcalpsf * list event * outcome unit :=
  match psf_flags m with
  | Raise x => (mkMP None None, [EvPsf k], Raise x)
  | Ok f =>
    match all_metacal m with
    | Raise x => (mkMP (Some f) None, [EvPsf k; EvMcal k], Raise x)
    | Ok r => (mkMP (Some f) (Some r), [EvPsf k; EvMcal k], Ok tt)
    end
  end.

(** metadetect.py:544-553. *)
Definition summarise (mp : mcalpsf) (m : mb) (shear_bands : list Z) : outcome summary :=
  do sel <- omap (py_index m) shear_bands;
  do mf <- get_mfrac (map (map sob) sel);
  do masks <- get_ormask_and_bmask (map (map sob) sel);
  do fl <- match mp_psf mp with Some f => Ok f | None => Raise KeyError end;
  do psel <- omap (py_index (fst (e_psf_fit e m))) shear_bands;
  do ps <- get_psf_stats psel fl;
  Ok (mkSum mf (snd masks) (fst masks) ps).

(** metadetect.py:539-557: the entry left in the cache, and how it ended. *)
Definition compute_sb (mp : mcalpsf) (m : mb) (shear_bands : list Z) : kdata * outcome unit :=
  match summarise mp m shear_bands with
  | Ok s => (mkK mp (Some s), Ok tt)
  | Raise x => (mkK mp None, Raise x)
  end.

(** metadetect.py:499-559, _get_mbobs_data. *)
Definition get_data (key : option Z) (shear_bands : list Z) : M kdata := fun s =>
  match obs_of key with
  | Raise x => (Raise x, s)
  | Ok (k, m) =>
    let '(r1, s1) :=
      match assoc key_eqb k (s_cache s) with
      | Some _ => (Ok tt, s)
      | None =>
        let '(mp, ev, r) := compute_key k m in
        (r, mkState (dput key_eqb k (mp, []) (s_cache s)) (s_log s ++ ev)%list (s_result s))
      end in
    match r1 with
    | Raise x => (Raise x, s1)
    | Ok _ =>
      match assoc key_eqb k (s_cache s1) with
      | None => (Raise KeyError, s1)
      | Some (mp, sbs) =>
        let sbkey := zsort shear_bands in
        match assoc bands_eqb sbkey sbs with
        | Some kd => (Ok kd, s1)
        | None =>
          let '(kd, r) := compute_sb mp m shear_bands in
          (match r with Ok _ => Ok kd | Raise x => Raise x end,
           mkState (dput key_eqb k (mp, dput bands_eqb sbkey kd sbs) (s_cache s1))
                   (s_log s1 ++ [EvSum k sbkey])%list (s_result s1))
        end
      end
    end
  end.

(** kdata["mcal_res"] and kdata["mfrac"] etc. *)
Definition kd_mcal (kd : kdata) : outcome (option (list (string * mb))) :=
  match mp_mcal (kd_mp kd) with Some r => Ok r | None => Raise KeyError end.
Definition kd_summary (kd : kdata) : outcome summary :=
  match kd_sum kd with Some s => Ok s | None => Raise KeyError end.

(** ** Measurement *)

(** fitting.py:203-299, 302-369: one row per object, None without objects. *)
Definition fit_list (f : fitter) (shear_bands : list Z) (stamps : list ST) : outcome (option (list FR)) :=
  do rows <- omap (e_fit e f shear_bands) stamps;
  Ok (match rows with [] => None | _ => Some rows end).

Fixpoint transpose {A} (n : nat) (cols : list (list A)) : list (list A) :=
  match cols with
  | [] => repeat [] n
  | c :: r => map (fun p => fst p :: snd p) (combine c (transpose n r))
  end.
(** fitting.py:1443-1510 seen as rows (the column level is Joint_model's
    combine_fit_res): the row of an object holds the rows of all fitters; two
    fitters with the same column prefix are an error when there are objects. *)
Definition combine_rows (colnames : list string) (rs : list (option (list FR)))
  : outcome (option (list (list FR))) :=
  match rs with
  | [] => Raise TypeError
  | [r] => Ok (option_map (map (fun x => [x])) r)
  | _ =>
    match oall rs with
    | None => if existsb has rs then Raise RuntimeError else Ok None
    | Some [] => Raise TypeError
    | Some (c0 :: cs) =>
      let n := List.length c0 in
      if forallb (fun c => Nat.eqb (List.length c) n) cs then
        if nodupb colnames then Ok (Some (transpose n (c0 :: cs))) else Raise ValueError
      else Raise RuntimeError
    end
  end.

Definition qmean (im : img Q) : Q := (qsum (pixels im) / inject_Z (zlen (pixels im)))%Q.
Definition any_positive (im : img Q) : bool := existsb (fun v => negb (Qle_bool v 0)) (pixels im).

(** metadetect.py:686-698: the window sizes. *)
Definition region_or (o : option Z) (d : Z) : Z :=
  match o with Some r => if 1 <? r then r else d | None => d end.
Definition bmask_region : Z := region_or (e_mask_region e) 1.
Definition ormask_region : Z := region_or (e_ormask_region e) bmask_region.

(** metadetect.py:723-742: the masked fraction at a position, measured on the
    bmask of the first main observation. *)
Definition mfrac_value (sm : summary) (rw cl : Q) (box : Z) : outcome mval :=
  if any_positive (sm_mfrac sm) then
    do ol <- py_index (e_main e) 0;
    do o <- py_index ol 0;
    measure_mfrac_one (sm_mfrac sm) (so_bmask (sob o)) (fst (e_aper e rw cl box)) (snd (e_aper e rw cl box))
      rw cl box
  else Ok (MNum 0%Q).

(** metadetect.py:658-745 for one object. Simplification: the numpy code does
    one column after the other for all objects; here one object after the
    other, so only which of several exceptions comes first could differ. *)
Definition extra_of (shear_str : string) (sm : summary) (det_bands : list Z) (d : det) : outcome extra :=
  do ns <- e_unshear e shear_str (dc_y d) (dc_x d);
  do om <- fill_in_mask ormask_region (dc_y d) (dc_x d) (sm_ormask sm);
  do om_ns <- fill_in_mask ormask_region (fst ns) (snd ns) (sm_ormask sm);
  do bm <- fill_in_mask bmask_region (dc_y d) (dc_x d) (sm_bmask sm);
  do bm_ns <- fill_in_mask bmask_region (fst ns) (snd ns) (sm_bmask sm);
  do mf <- mfrac_value sm (dc_y d) (dc_x d) (dc_box d);
  do mf_ns <- mfrac_value sm (fst ns) (snd ns) (dc_box d);
  Ok (mkExtra (dc_y d) (dc_x d) (fst ns) (snd ns) om om_ns bm bm_ns mf mf_ns
        (qmean (sm_mfrac sm)) (sm_stats sm) (band_label det_bands)).

Definition add_positions (cat : list det) (rows : list (list FR)) (shear_str : string) (sm : summary)
  (det_bands : list Z) : outcome (list drow) :=
  if 6 <? zlen det_bands then Raise AssertionError
  else omap (fun dr => do x <- extra_of shear_str sm det_bands (fst dr); Ok (mkDrow (snd dr) x))
            (combine cat rows).

(** metadetect.py:559-616, _measure. *)
Definition measure (cat : list det) (stamps : list ST) (shear_bands det_bands : list Z)
  (shear_str : string) (sm : summary) : outcome (option (list drow)) :=
  do all_res <- omap (fun f => fit_list f shear_bands stamps) (e_fitters e);
  do res <- combine_rows (map (e_colname e) (e_fitters e)) all_res;
  match res with
  | None => Ok None
  | Some rows => do r <- add_positions cat rows shear_str sm det_bands; Ok (Some r)
  end.

(** metadetect.py:749-783, _do_detect. *)
Definition do_detect (m : mb) (det_bands : list Z) : outcome (list det * list ST) :=
  do det_mbobs <- omap (py_index m) det_bands;
  do cs <- e_detect e det_mbobs;
  do stamps <- omap (e_stamp e m (Some (snd cs))) (fst cs);
  Ok (fst cs, stamps).

(** metadetect.py:408-429, _go_bands. *)
Definition go_bands (shear_bands det_bands : list Z) (mcal : list (string * mb)) : M results :=
  mbind (get_data None shear_bands) (fun kd =>
  mmap (fun sm =>
    mbind (lift (do_detect (snd sm) det_bands)) (fun cs =>
    mbind (lift (kd_summary kd)) (fun su =>
    mbind (lift (measure (fst cs) (snd cs) shear_bands det_bands (fst sm) su)) (fun r =>
    ret (fst sm, r))))) mcal).

(** metadetect.py:471-490: one object measured on the data of its colour. *)
Definition color_one (shear_bands det_bands : list Z) (shear_str : string) (dk : det * option Z)
  : M (list drow) :=
  mbind (get_data (snd dk) shear_bands) (fun kd =>
  mbind (lift (kd_mcal kd)) (fun mc =>
  match mc with
  | None => ret []     (* continue *)
  | Some dict =>
    mbind (lift (match assoc String.eqb shear_str dict with Some m => Ok m | None => Raise KeyError end)) (fun m =>
    mbind (lift (e_stamp e m None (fst dk))) (fun st =>
    mbind (lift (kd_summary kd)) (fun su =>
    mbind (lift (measure [fst dk] [st] shear_bands det_bands shear_str su)) (fun r =>
    ret (match r with None => [] | Some l => l end)))))
  end)).

(** metadetect.py:431-497, _go_bands_with_color. *)
Definition go_bands_color (keyf : FL -> outcome (option Z)) (shear_bands det_bands : list Z)
  (mcal : list (string * mb)) : M results :=
  mmap (fun sm =>
    mbind (lift (match e_fitters e with
                 | [] => Raise IndexError
                 | f :: _ => if fi_wavg f then Ok f else Raise RuntimeError
                 end)) (fun f0 =>
    mbind (lift (do_detect (snd sm) det_bands)) (fun cs =>
    mbind (lift (omap (e_flux e f0 shear_bands) (snd cs))) (fun fluxes =>
    match fluxes with
    | [] => ret (fst sm, None)
    | _ =>
      mbind (lift (omap keyf fluxes)) (fun keys =>
      mbind (mmap (color_one shear_bands det_bands (fst sm)) (combine (fst cs) keys)) (fun data =>
      ret (fst sm, match List.concat data with [] => None | l => Some l end)))
    end)))) mcal.

(** metadetect.py:380-390: the tables of one combination are added to the lists
    of tables per type. *)
Definition add_tables (all_res : list (string * list (list drow))) (res : results)
  : list (string * list (list drow)) :=
  fold_left (fun acc kv =>
    match snd kv with
    | None => acc
    | Some v => dput String.eqb (fst kv)
                  ((match assoc String.eqb (fst kv) acc with Some l => l | None => [] end) ++ [v])%list acc
    end) res all_res.
(** metadetect.py:392-404. *)
Definition finish (all_res : list (string * list (list drow))) : results :=
  fold_left (fun acc t => match assoc String.eqb t acc with
                          | Some _ => acc
                          | None => dput String.eqb t None acc
                          end)
    (e_types e) (map (fun kv => (fst kv, Some (List.concat (snd kv)))) all_res).

(** metadetect.py:351-369. *)
Definition all_zero_weight (o : O) : bool := forallb (fun w => Qeq_bool w 0) (pixels (so_weight (sob o))).
Definition all_masked (o : O) : bool :=
  forallb (fun b => negb (Z.land b (e_nodet e) =? 0)) (pixels (so_bmask (sob o))).
Definition give_up (mf : img Q) : bool :=
  negb (existsb (fun v => negb (Qle_bool 1 v)) (pixels mf)) ||
  existsb (existsb all_zero_weight) (e_main e) || existsb (existsb all_masked) (e_main e).

(** metadetect.py:348-406, go. *)
Definition go : M unit :=
  mbind (lift (get_mfrac (map (map sob) (e_main e)))) (fun mf =>
  if give_up mf then set_result None
  else
    mbind (get_data None (zrange (zlen (e_main e)))) (fun kd =>
    mbind (lift (kd_mcal kd)) (fun mc =>
    match mc with
    | None => set_result None
    | Some mcal =>
      mbind (mmap (fun sd => match e_color e with
                             | Some (keyf, _) => go_bands_color keyf (fst sd) (snd sd) mcal
                             | None => go_bands (fst sd) (snd sd) mcal
                             end) (combine (e_shear e) (e_det e))) (fun all =>
      set_result (Some (finish (fold_left add_tables all []))))
    end))).

(** metadetect.py:337-346: the result property. *)
Definition result_property (s : state) : outcome (option results) :=
  match s_result s with None => Raise RuntimeError | Some r => Ok r end.

(** A history of uses of the object: direct requests to _get_mbobs_data and
    calls of go(). *)
Inductive op := Request (key : option Z) (shear_bands : list Z) | Go.
Definition step (o : op) : M unit :=
  match o with
  | Request k sb => mbind (get_data k sb) (fun _ => ret tt)
  | Go => go
  end.
Fixpoint run_ops (l : list op) (s : state) : list (outcome unit) * state :=
  match l with
  | [] => ([], s)
  | o :: r =>
    let '(x, s1) := step o s in
    let '(xs, s2) := run_ops r s1 in
    (x :: xs, s2)
  end.
End Env.
End Driver.

Arguments SameObject {O}. Arguments Other {O}.
Arguments e_main {O SEG ST FL FR}. Arguments e_color {O SEG ST FL FR}. Arguments e_psf_fit {O SEG ST FL FR}.
Arguments e_metacal {O SEG ST FL FR}. Arguments e_types {O SEG ST FL FR}. Arguments e_nodet {O SEG ST FL FR}.
Arguments e_fitters {O SEG ST FL FR}. Arguments e_shear {O SEG ST FL FR}. Arguments e_det {O SEG ST FL FR}.
Arguments e_detect {O SEG ST FL FR}. Arguments e_stamp {O SEG ST FL FR}. Arguments e_fit {O SEG ST FL FR}.
Arguments e_colname {O SEG ST FL FR}. Arguments e_flux {O SEG ST FL FR}. Arguments e_unshear {O SEG ST FL FR}.
Arguments e_ormask_region {O SEG ST FL FR}. Arguments e_mask_region {O SEG ST FL FR}. Arguments e_aper {O SEG ST FL FR}.
Arguments mkEnv {O SEG ST FL FR}.
Arguments mkDrow {FR}. Arguments r_fits {FR}. Arguments r_extra {FR}.
Arguments mkMP {O}. Arguments mp_psf {O}. Arguments mp_mcal {O}.
Arguments mkK {O}. Arguments kd_mp {O}. Arguments kd_sum {O}.
Arguments kd_mcal {O}. Arguments kd_summary {O}.
Arguments mkState {O FR}. Arguments s_cache {O FR}. Arguments s_log {O FR}. Arguments s_result {O FR}.
Arguments init_state {O FR}.
Arguments ret {O FR A}. Arguments lift {O FR A}. Arguments mbind {O FR A B}. Arguments mmap {O FR A B}.
Arguments set_result {O FR}.
Arguments obs_of {O SEG ST FL FR}. Arguments psf_flags {O SEG ST FL FR}. Arguments all_metacal {O SEG ST FL FR}.
Arguments compute_key {O SEG ST FL FR}. Arguments summarise {O SEG ST FL FR}. Arguments compute_sb {O SEG ST FL FR}.
Arguments get_data {O SEG ST FL FR}. Arguments fit_list {O SEG ST FL FR}. Arguments combine_rows {FR}.
Arguments mfrac_value {O SEG ST FL FR}. Arguments extra_of {O SEG ST FL FR}. Arguments add_positions {O SEG ST FL FR}.
Arguments bmask_region {O SEG ST FL FR}. Arguments ormask_region {O SEG ST FL FR}.
Arguments measure {O SEG ST FL FR}. Arguments do_detect {O SEG ST FL FR}. Arguments go_bands {O SEG ST FL FR}.
Arguments color_one {O SEG ST FL FR}. Arguments go_bands_color {O SEG ST FL FR}. Arguments add_tables {FR}.
Arguments finish {O SEG ST FL FR}. Arguments all_zero_weight {O}. Arguments all_masked {O SEG ST FL FR}.
Arguments give_up {O SEG ST FL FR}. Arguments go {O SEG ST FL FR}. Arguments result_property {O FR}.
Arguments step {O SEG ST FL FR}. Arguments run_ops {O SEG ST FL FR}.
