(** Model of stamp extraction with and without clipping and of smaller helpers:
    metadetect/lsst/util.py get_stamp_mbobs and get_fitter, metadetect/lsst/mbobs_extractor.py get_mbobs with its
    clip argument, metadetect/lsst/measure.py get_pgauss_fitter and
    metadetect/detect.py _set_sx_config. *)
From Coq Require Import ZArith QArith List String Bool.
From Verif Require Import Base Arr Median Dict Lutil_model Lexp_model Lmeas_model.
Import ListNotations.
Local Open Scope string_scope.
Local Open Scope Z_scope.

(** ** Stamps *)

(** util.py:296-334, get_stamp_mbobs: the observations of a source in all bands,
    in the order of the bands, each with the band's position in that order (the
    meta data of the list holds the name of the band). [Lmeas_model.band_obs] is
    the body of the loop, with the jacobian of util.py:1177-1204. *)
Definition get_stamp_mbobs (env : menv) (s : source) (stamp_size : Z) (clip : bool) : outcome (list (nat * lobs)) :=
  do b <- get_bbox (mbexp_box env) (s_peaks s) stamp_size clip;
  do l <- omap (band_obs env s b) (m_bands env);
  Ok (combine (seq 0 (List.length (m_bands env))) l).

(** mbobs_extractor.py:136-194, get_mbobs with its arguments. *)
Definition get_mbobs_clip (env : menv) (order : list Z -> list Z) (cat : list source) (id stamp_size : Z) (clip : bool)
  : outcome (list (nat * lobs)) :=
  do _ <- check_source_id order cat id;
  do s <- some_or_attr (find_source cat id);
  get_stamp_mbobs env s stamp_size clip.

(** mbobs_extractor.py:49-61, children and child_ids: the source records in the
    order of the ids. *)
Definition children (order : list Z -> list Z) (cat : list source) : list (option source) :=
  map (find_source cat) (child_ids order cat).
(** mbobs_extractor.py:72-85, add_source: checks the id; nothing is entered or
    left. [body] is the block of the with statement. *)
Definition with_source {A} (order : list Z -> list Z) (cat : list source) (id : Z) (body : outcome A) : outcome A :=
  do _ <- check_source_id order cat id; body.

(** ** util.py:1238-1275, get_fitter and measure.py:485-498, get_pgauss_fitter *)

(** The entries read: meas_type, and weight with its fwhm. *)
Record fitconf := mkFitconf { fc_meas_type : option string; fc_weight : option (option Q) }.
Inductive lfitter := FAdmom (kind : string) (ntry : Z) | FGauss | FWmom (fwhm : Q) | FKsigma (fwhm : Q) | FPgauss (fwhm : Q).
Definition key {A} (o : option A) : outcome A := match o with Some a => Ok a | None => Raise KeyError end.
Definition get_fitter (c : fitconf) : outcome lfitter :=
  do meas_type <- key (fc_meas_type c);
  if String.eqb meas_type "am" then Ok (FAdmom "am" 2)
  else if String.eqb meas_type "gauss" then Ok FGauss
  else
    do w <- key (fc_weight c);
    do fwhm <- key w;
    if String.eqb meas_type "wmom" then Ok (FWmom fwhm)
    else if String.eqb meas_type "ksigma" then Ok (FKsigma fwhm)
    else if String.eqb meas_type "pgauss" then Ok (FPgauss fwhm)
    else Raise ValueError.
Definition get_pgauss_fitter (fwhm : option Q) : outcome lfitter := do f <- key fwhm; Ok (FPgauss f).

(** ** detect.py:402-415, _set_sx_config *)

(** Dictionaries are objects: a store of them, addressed by position. Entries are
    numbers or lists, a list may have become an array. *)
Inductive sxval := SNum (q : Q) | SSeq (l : list Q) | SArr (l : list Q).
Definition store := list (list (string * sxval)).
Fixpoint sset (h : store) (p : nat) (d : list (string * sxval)) : store :=
  match h, p with
  | [], _ => []
  | _ :: r, O => d :: r
  | x :: r, S p' => x :: sset r p' d
  end.
(** np.array of a list or an array makes a new array. *)
Definition to_array (v : sxval) : sxval := match v with SSeq l => SArr l | _ => v end.
(** dict.pop: the value and the dictionary without the key. *)
Definition sdel (k : string) (d : list (string * sxval)) : list (string * sxval) :=
  filter (fun kv => negb (String.eqb k (fst kv))) d.
(** The threshold and the address of the settings. [arg]: the address of the
    dictionary of the caller; [glob]: that of sxdes.SX_CONFIG, [gthr]:
    sxdes.DETECT_THRESH. An exception leaves the caller's dictionary as it is as
    well; the new dictionary is then lost. *)
Definition set_sx_config (glob : nat) (gthr : sxval) (h : store) (arg : option nat) : store * outcome (sxval * nat) :=
  match arg with
  | None => (h, Ok (gthr, glob))
  | Some a =>
    match nth_error h a with
    | None => (h, Raise (OtherError 0))
    | Some d =>
      let new := List.length h in
      let h1 := (h ++ [supdate [] d])%list in
      match nth_error h1 new with
      | None => (h1, Raise (OtherError 0))
      | Some d1 =>
        match sget "filter_kernel" d1 with
        | None => (h1, Raise KeyError)
        | Some k =>
          let d2 := sput "filter_kernel" (to_array k) d1 in
          match sget "detect_thresh" d2 with
          | None => (sset h1 new d2, Raise KeyError)
          | Some t => (sset h1 new (sdel "detect_thresh" d2), Ok (t, new))
          end
        end
      end
    end
  end.
(** A history of constructions, each with the same arguments as those of the
    detections of one or more runs (metadetect.py:757-763). *)
Fixpoint sx_history (glob : nat) (gthr : sxval) (h : store) (args : list (option nat)) : store * list (outcome (sxval * nat)) :=
  match args with
  | [] => (h, [])
  | a :: r => let '(h1, o) := set_sx_config glob gthr h a in
              let '(h2, os) := sx_history glob gthr h1 r in (h2, o :: os)
  end.
