(** Model of the construction of a Metadetect object: metadetect/metadetect.py
    __init__ (131-173), _set_config (175-185) and _set_fitter (234-335).
    A dictionary is a record of optional entries; a missing key is None. *)
From Coq Require Import ZArith QArith List String Bool.
From Verif Require Import Base.
Import ListNotations.
Local Open Scope string_scope.
Local Open Scope Z_scope.

(** The entries of a "weight" dictionary. *)
Record wcfg := mkW { w_fwhm : option Q; w_smooth : option Q; w_reg : option Q }.

(** The entries of one fitter configuration. *)
Record fcfg := mkFc {
  fc_model : option string; fc_weight : option wcfg; fc_symm : option bool; fc_coadd : option bool
}.

(** The configuration dictionary: is "metacal" / "meds" there, the requested
    metacal types, nodet_flags, the "fitters" list and the top level fitter
    entries. Entries read later by detection are not modelled here. *)
Record config := mkConfig {
  cf_metacal : bool; cf_meds : bool; cf_nodet : option Z;
  cf_fitters : option (list fcfg); cf_top : fcfg
}.

(** What _get_fitter returns. The name of a fitter object is its base name and
    the regularisation suffix "_reg%0.2f"; a joint fitter is only a name.
    [fi_smooth] is the keyword passed to the fitter's constructor. *)
Record fitter := mkFitter {
  fi_base : string; fi_suffix : option Q;
  fi_aper : option Q;      (* fwhm given to a fitter object *)
  fi_smooth : option Q;
  fi_fwhm : Q; fi_reg : Q; fi_wavg : bool; fi_symm : bool; fi_coadd : bool
}.

Definition default {A} (d : A) (o : option A) : A := match o with Some a => a | None => d end.

(** cfg["weight"]["fwhm"]. *)
Definition weight_fwhm (c : fcfg) : outcome Q :=
  match fc_weight c with
  | None => Raise KeyError
  | Some w => match w_fwhm w with None => Raise KeyError | Some f => Ok f end
  end.
Definition weight_smooth (c : fcfg) : option Q :=
  match fc_weight c with None => None | Some w => w_smooth w end.
Definition weight_reg (c : fcfg) : option Q :=
  match fc_weight c with None => None | Some w => w_reg w end.

(** metadetect.py:270-278: the defaults written into the dictionary. *)
Definition joint_defaults (c : fcfg) : fcfg :=
  let w := default (mkW None None None) (fc_weight c) in
  let w := match w_fwhm w with
           | None => mkW (Some (12 # 10)) (w_smooth w) (w_reg w)
           | Some _ => w
           end in
  mkFc (fc_model c) (Some w) (fc_symm c) (fc_coadd c).

(** metadetect.py:239-296, _get_fitter. Returns the fitter and the
    configuration dictionary as it is left. GaussMom, KSigmaMom and PGaussMom
    are third party; their construction does not fail. *)
Definition get_fitter (c : fcfg) : outcome (fitter * fcfg) :=
  let model := default "wmom" (fc_model c) in
  let symm := default true (fc_symm c) in
  do st <- (if String.eqb model "wmom" then
              do f <- weight_fwhm c; Ok (Some f, None, true, false, c)
            else if String.eqb model "ksigma" || String.eqb model "pgauss" then
              do f <- weight_fwhm c; Ok (Some f, weight_smooth c, true, false, c)
            else if String.eqb model "admom" || String.eqb model "am" || String.eqb model "gauss" then
              Ok (None, None, false, default false (fc_coadd c), joint_defaults c)
            else Raise ValueError);
  let '(aper, smooth, wavg, coadd, c) := st in
  do reg <- match weight_reg c with
            | None => Ok (0%Q, None)
            | Some r => if wavg then Ok (r, Some r)
                        else Raise AttributeError (* 'str' object has no attribute 'kind' *)
            end;
  do f <- weight_fwhm c;
  Ok (mkFitter model (snd reg) aper smooth f (fst reg) wavg symm coadd, c).

(** metadetect.py:298-335. *)
Definition top_given (c : fcfg) : bool :=
  match c with mkFc None None None None => false | _ => true end.
Definition set_fitter (cfg : config) : outcome (list fitter * config) :=
  match cf_fitters cfg with
  | Some l =>
    if top_given (cf_top cfg) then Raise RuntimeError
    else
      do r <- omap get_fitter l;
      Ok (map fst r, mkConfig (cf_metacal cfg) (cf_meds cfg) (cf_nodet cfg) (Some (map snd r)) (cf_top cfg))
  | None =>
    do r <- get_fitter (cf_top cfg);
    Ok ([fst r], mkConfig (cf_metacal cfg) (cf_meds cfg) (cf_nodet cfg) None (snd r))
  end.

(** The argument det_band_combs. *)
Inductive det_arg := DetNone | DetShear | DetList (l : list (list Z)).

Record mdet := mkMdet {
  md_nodet : Z; md_fitters : list fitter;
  md_shear : list (list Z); md_det : list (list Z);
  md_config : config   (* the dictionaries after construction *)
}.

(** metadetect.py:131-173 and 175-185. [keyf] and [cobs] say if color_key_func
    and color_dep_mbobs were given. *)
Definition construct (cfg : config) (nband : Z) (keyf cobs : bool)
  (shear_arg : option (list (list Z))) (det : det_arg) : outcome mdet :=
  if negb (cf_metacal cfg) then Raise AssertionError
  else if negb (cf_meds cfg) then Raise AssertionError
  else if (cobs && negb keyf) || (negb cobs && keyf) then Raise RuntimeError
  else
    do r <- set_fitter cfg;
    let shear := default [zrange nband] shear_arg in
    let dets := match det with
                | DetNone => repeat (zrange nband) (List.length shear)
                | DetShear => shear
                | DetList l => l
                end in
    Ok (mkMdet (default 0 (cf_nodet cfg)) (fst r) shear dets (snd r)).
