(** Model of metadetect/lsst/measure.py (measure, get_output and their helpers,
    DetectAndDeblendTask.run), of metadetect/lsst/mbobs_extractor.py and of
    detect_deblend_and_measure in metadetect/lsst/metadetect.py. *)
From Coq Require Import ZArith QArith List String Bool.
From Verif Require Import Base Arr Median Flags_model Dict Lutil_model Lexp_model.
Import ListNotations.
Local Open Scope string_scope.
Local Open Scope Z_scope.

(** A source record: id, deblend_nChild, the integer peak positions (x, y) of its
    footprint and the position of the first peak (x, y) as numbers. *)
Record source := mkSrc { s_id : Z; s_nchild : Z; s_peaks : list (Z * Z); s_peakpos : Q * Q }.
(** SourceCatalog.find: the record with this id, None if there is none. *)
Definition find_source (cat : list source) (id : Z) : option source := find (fun s => s_id s =? id) cat.

(** A cell of the output table: integers, numbers (None is not a number),
    strings, values of the fits left open, pairs of numbers (the column
    psfrec_g), and the arrays of integers and numbers of the fits (Lfit_model).
    Where a fit column that holds an array is filled with one value
    ([default_cell] below) the cell is that value. *)
Inductive cell :=
| CInt (z : Z) | CNum (q : option Q) | CStr (s : string) | CFit (k : Z) | CPair (a b : Q)
| CInts (l : list Z) | CNums (l : list (option Q)).
Definition row := list (string * cell).

(** What surrounds the measurement: the bands; the mask of the detection
    exposure with its corner; the stack's measurements of a source by id, the
    centroid (x, y) and the pixel position of its sky coordinates (None when not
    a number: both coordinates then are); wcs and PSF; the two fits on the
    stamps, giving a value per column; where the PSF is drawn for a centroid
    that is not a number; NO_ATTEMPT of ngmix and the DETECTED bit. *)
Record menv := mkMenv {
  m_bands : list exposure;
  m_detx0 : Z; m_dety0 : Z; m_detmask : img Z;
  m_cen : Z -> option (Q * Q); m_skypix : Z -> option (Q * Q);
  m_W : wcs_oracle; m_radec : Q * Q -> Q * Q;
  m_gauss : list lobs -> outcome (string -> cell);
  m_pgauss : list lobs -> outcome (string -> cell);
  m_nanpos : Q * Q; m_no_attempt : Z; m_detected : Z;
  m_stamp_size : Z; m_shear_bands : outcome (list Z)
}.

(** ** Bounding boxes: the box of an exposure and the part in a box *)
Definition exp_box (e : exposure) : box :=
  norm_box (mkBox (e_x0 e) (e_y0 e) (e_x0 e + nc (e_image e) - 1) (e_y0 e + nr (e_image e) - 1)).
(** exposure[bbox], for a box inside the exposure (anything else is a
    LengthError). *)
Definition cut {A} (e : exposure) (b : corners) (im : img A) : img A :=
  mkImg (by1 b - by0 b + 1) (bx1 b - bx0 b + 1) (fun i j => px im (i + (by0 b - e_y0 e)) (j + (bx0 b - e_x0 e))).
Definition sub_exp (e : exposure) (b : box) : outcome exposure :=
  match b with
  | None => Raise LengthError
  | Some c =>
    if contains_box (exp_box e) b
    then Ok (mkExp (bx0 c) (by0 c) (cut e c (e_image e)) (cut e c (e_var e)) (cut e c (e_mask e)) (e_psf e) (e_wcs e))
    else Raise LengthError
  end.

(** ** mbobs_extractor.py *)

(** mbobs_extractor.py:34-48: the set of ids of sources without children.
    [order] is the order in which Python lists the set. *)
Definition child_ids (order : list Z -> list Z) (cat : list source) : list Z :=
  order (nodup Z.eq_dec (map s_id (filter (fun s => s_nchild s =? 0) cat))).
(** mbobs_extractor.py:63-70. *)
Definition check_source_id (order : list Z -> list Z) (cat : list source) (id : Z) : outcome unit :=
  if existsb (Z.eqb id) (child_ids order cat) then Ok tt else Raise ValueError.
(** mbobs_extractor.py:136-194, with clip=False; mbexp.getBBox() is the box of
    the first band. *)
Definition first_peak (s : source) : outcome (Z * Z) := match s_peaks s with p :: _ => Ok p | [] => Raise IndexError end.
Definition mbexp_box (env : menv) : box := match m_bands env with e :: _ => exp_box e | [] => None end.
Definition band_obs (env : menv) (s : source) (b : box) (e : exposure) : outcome lobs :=
  do sub <- sub_exp e b;
  do pk <- first_peak s;
  extract_obs (m_W env) sub (m_skypix env (s_id s)) pk
    (match m_cen env (s_id s) with Some c => c | None => m_nanpos env end).
Definition source_mbobs (env : menv) (s : source) : outcome (list lobs) :=
  do b <- get_bbox (mbexp_box env) (s_peaks s) (m_stamp_size env) false;
  omap (band_obs env s b) (m_bands env).
Definition get_mbobs (env : menv) (order : list Z -> list Z) (cat : list source) (id : Z) : outcome (list lobs) :=
  do _ <- check_source_id order cat id;
  do s <- some_or_attr (find_source cat id);
  source_mbobs env s.
(** mbobs_extractor.py:87-133, get_stamp: the class has no attribute bands. *)
Definition get_stamp (env : menv) (order : list Z -> list Z) (cat : list source) (id : Z) : outcome (list exposure) :=
  do _ <- check_source_id order cat id;
  do s <- some_or_attr (find_source cat id);
  do b <- get_bbox (mbexp_box env) (s_peaks s) (m_stamp_size env) false;
  Raise AttributeError.

(** ** fitting.py:1335-1411, the columns of a fit *)
Definition fit_cols : list string :=
  ["flags"; "psf_flags"; "psf_g"; "psf_T"; "obj_flags"; "s2n"; "g"; "g_cov"; "T"; "T_flags"; "T_err"; "T_ratio";
   "band_flux_flags"; "band_flux"; "band_flux_err"].
Definition namer (front c : string) : string := (front ++ "_" ++ c)%string.
Definition wavg_names (model : string) : list string := (map (namer model) fit_cols ++ ["shear_bands"])%list.
Definition struct (model : string) (f : string -> cell) : row := map (fun c => (c, f c)) (wavg_names model).
(** [sub] in [s], for names *)
Definition has_sub (sub s : string) : bool := match String.index 0 sub s with Some _ => true | None => false end.
(** get_wavg_output_struct: columns named "flags" NO_ATTEMPT, others NaN; a
    string column holds "nan" then, unless the shear bands are given. *)
Definition default_cell (env : menv) (label : string) (c : string) : cell :=
  if String.eqb c "shear_bands" then CStr label
  else if has_sub "flags" c then CInt (m_no_attempt env) else CNum None.

(** ** measure.py:501-521, _get_combined_struct *)
Definition skip_cols : list string := ["pgauss_g"; "pgauss_g_cov"; "shear_bands"].
Definition kept (n : string) : bool := negb (has_sub "psf" n || smem n skip_cols).
(** add_fields: the new columns are zero; a repeated name is a ValueError. *)
Fixpoint nodupb (l : list string) : bool :=
  match l with [] => true | x :: r => negb (smem x r) && nodupb r end.
Definition add_fields (r : row) (new : list (string * cell)) : outcome row :=
  if nodupb (map fst (r ++ new))%list then Ok (r ++ new)%list else Raise ValueError.
Definition combined_struct (gauss pgauss : row) : outcome row :=
  do out <- add_fields gauss (("stamp_flags", CInt 0) :: map (fun c => (fst c, CInt 0)) (filter (fun c => kept (fst c)) pgauss));
  Ok (fold_left (fun o (c : string * cell) =>
        if smem (fst c) (skeys o) && negb (String.eqb (fst c) "shear_bands") then sput (fst c) (snd c) o else o)
      pgauss out).

(** ** measure.py:524-563, get_bmasks, get_bmask: a peak outside the mask is an
    error of the stack. *)
Definition get_bmask (env : menv) (s : source) : outcome Z :=
  do pk <- first_peak s;
  let i := snd pk - m_dety0 env in let j := fst pk - m_detx0 env in
  if insideb (m_detmask env) i j then Ok (px (m_detmask env) i j) else Raise LengthError.
Definition get_bmasks (env : menv) (cat : list source) : outcome (list Z) := omap (get_bmask env) cat.

(** ** measure.py:566-686 *)
Definition output_dtype : list (string * string) :=
  [("stamp_size", "i4"); ("row0", "i4"); ("col0", "i4"); ("row", "f4"); ("col", "f4"); ("row_diff", "f4"); ("col_diff", "f4");
   ("ra", "f8"); ("dec", "f8"); ("psfrec_flags", "i4"); ("psfrec_navg", "i2"); ("psfrec_g", "f8"); ("psfrec_T", "f8");
   ("bmask", "i4"); ("ormask", "i4"); ("mfrac", "f4")].
Definition output_default (env : menv) (nt : string * string) : cell :=
  if has_sub "flags" (fst nt) then CInt (m_no_attempt env)
  else if smem (fst nt) ["bmask"; "ormask"] then CInt 0
  else if String.eqb (substring 0 1 (snd nt)) "i" then CInt (-9999)
  else CNum None.
Definition get_output_struct (env : menv) (res : row) : outcome row :=
  do out <- add_fields res (map (fun nt => (fst nt, CInt 0)) output_dtype);
  Ok (fold_left (fun o nt => sput (fst nt) (output_default env nt) o) output_dtype out).
(** The float32 rounding of row and col is not modelled. *)
Definition get_output (env : menv) (s : source) (res : row) (bmask : Z) : outcome row :=
  do out <- get_output_struct env res;
  let cen := m_cen env (s_id s) in
  let sky := match cen with Some c => let p := m_radec env c in (Some (fst p), Some (snd p)) | None => (None, None) end in
  do pk <- first_peak s;
  let '(x, y) := match cen with Some c => c | None => s_peakpos s end in
  let '(dx, dy) := match cen with
                   | Some c => (Some (fst c - inject_Z (fst pk))%Q, Some (snd c - inject_Z (snd pk))%Q)
                   | None => (None, None)
                   end in
  do b <- match mbexp_box env with Some b => Ok b | None => Raise (OtherError 0) end;
  let set := fun c v o => sput c v o in
  Ok (set "bmask" (CInt (Z.land bmask (Z.lnot (m_detected env))))
     (set "dec" (CNum (snd sky)) (set "ra" (CNum (fst sky))
     (set "col_diff" (CNum dx) (set "row_diff" (CNum dy)
     (set "col" (CNum (Some x)) (set "row" (CNum (Some y))
     (set "col0" (CInt (bx0 b)) (set "row0" (CInt (by0 b))
     (set "stamp_size" (CInt (m_stamp_size env)) out)))))))))).

(** ** measure.py:317-467, measure *)

(** The label of the shear bands, Wavg_model's [band_label], is kept abstract
    here. Simplification: at most six shear bands (fitting.py:1375 asserts this when
    it makes the columns of a failed stamp). *)
(** measure.py:369-438: the stamp flags and the two fits, given what the
    extractor returned or raised. *)
Definition fit_stamp (env : menv) (label : string) (st : outcome (list lobs)) : outcome (Z * row * row) :=
  match st with
  | Ok mbobs =>
    do g <- m_gauss env mbobs; do p <- m_pgauss env mbobs;
    Ok (0, struct "gauss" g, struct "pgauss" p)
  | Raise LengthError =>
    Ok (flag_value EDGE_HIT, struct "gauss" (default_cell env label), struct "pgauss" (default_cell env "nan"))
  | Raise (OtherError 1) =>
    Ok (flag_value ZERO_WEIGHTS, struct "gauss" (default_cell env label), struct "pgauss" (default_cell env "nan"))
  | Raise e => Raise e
  end.
(** One turn of the loop: the source of the extractor, the i-th bmask. [stamp]:
    the observations, from the extractor. *)
Definition measure_one (env : menv) (label : string) (stamp : Z -> outcome (list lobs)) (bmasks : list Z) (i : nat) (s : source)
  : outcome row :=
  do bmask <- match nth_error bmasks i with Some b => Ok b | None => Raise IndexError end;
  do fs <- fit_stamp env label (stamp (s_id s));
  do res <- combined_struct (snd (fst fs)) (snd fs);
  get_output env s (sput "stamp_flags" (CInt (fst (fst fs))) res) bmask.
(** The sources come from sources.find: None has no getId. *)
Fixpoint measure_loop (env : menv) (label : string) (stamp : Z -> outcome (list lobs)) (bmasks : list Z) (i : nat)
  (children : list (option source)) : outcome (list row) :=
  match children with
  | [] => Ok []
  | c :: r =>
    do s <- some_or_attr c;
    do x <- measure_one env label stamp bmasks i s;
    do l <- measure_loop env label stamp bmasks (S i) r;
    Ok (x :: l)
  end.
Definition measure_with (env : menv) (label : list Z -> string) (children : list (option source)) (stamp : Z -> outcome (list lobs))
  (cat : list source) : outcome (option (list row)) :=
  match cat with
  | [] => Ok None
  | _ =>
    do sb <- m_shear_bands env;
    do bmasks <- get_bmasks env cat;
    do rows <- measure_loop env (label sb) stamp bmasks 0 children;
    match rows with [] => Ok None | _ => Ok (Some rows) end
  end.
(** With the MBObsExtractor (model_data is None). *)
Definition measure (env : menv) (label : list Z -> string) (order : list Z -> list Z) (cat : list source)
  : outcome (option (list row)) :=
  measure_with env label (map (find_source cat) (child_ids order cat)) (get_mbobs env order cat) cat.

(** ** measure.py:174-231, DetectAndDeblendTask.run with the SDSS deblender *)

(** A returned tuple: two or three values. *)
Inductive ddresult := Two (sources : list source) | Three (sources : list source) (detexp : coadded).
(** [detect] is the stack's detection followed by deblending, None when the
    detection returns nothing. [coadd] is util.coadd_exposures (Lexp_model);
    a single band is used as it is. *)
Definition dd_run (single : exposure -> coadded) (detect : coadded -> outcome (option (list source))) (bands : list exposure)
  : outcome ddresult :=
  do det <- match bands with
            | [] => Raise IndexError
            | [e] => Ok (Some (single e))
            | _ => coadd_exposures bands
            end;
  match det with
  | None => Ok (Two [])
  | Some d => do r <- detect d; Ok (Three (match r with Some l => l | None => [] end) d)
  end.
(** metadetect.py:271-311: three values are unpacked. [env_of]: the measurement
    with this detection exposure. *)
Definition detect_deblend_and_measure (single : exposure -> coadded) (detect : coadded -> outcome (option (list source)))
  (env_of : coadded -> menv) (label : list Z -> string) (order : list Z -> list Z) (bands : list exposure)
  : outcome (option (list row)) :=
  do r <- dd_run single detect bands;
  match r with
  | Two _ => Raise ValueError
  | Three sources d => measure (env_of d) label order sources
  end.
