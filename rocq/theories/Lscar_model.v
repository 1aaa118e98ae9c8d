(** Model of the measurement on scarlet models: the part of
    metadetect/lsst/measure.py (measure) and of metadetect/lsst/model_subtractor.py
    that runs when the deblender gives model data, with
    metadetect/lsst/util.py:415-461 (copy_mbexp, try_clone_psf). It joins
    Lsub_model (the subtractor) and Lmeas_model (the measurement). *)
From Coq Require Import ZArith QArith List String Bool.
From Verif Require Import Base Arr Dict Flags_model Lutil_model Lexp_model Lmeas_model Lsub_model.
Import ListNotations.
Local Open Scope string_scope.
Local Open Scope Z_scope.

(** ** util.py:415-461, copy_mbexp *)

(** MultibandExposure.clone: the pixels are copied; psf, wcs and filter are not
    carried over. *)
Definition clone_exposure (e : exposure) : exposure :=
  mkExp (e_x0 e) (e_y0 e) (e_image e) (e_var e) (e_mask e) None None.
Definition set_psf (p : option (Q -> Q -> img Q)) (e : exposure) : exposure :=
  mkExp (e_x0 e) (e_y0 e) (e_image e) (e_var e) (e_mask e) p (e_wcs e).
Definition set_wcs (w : option Z) (e : exposure) : exposure :=
  mkExp (e_x0 e) (e_y0 e) (e_image e) (e_var e) (e_mask e) (e_psf e) w.
(** util.py:450-461: a copy of the psf, or the psf itself when cloning is a
    RuntimeError; no psf is an AttributeError. A copy draws the same images. *)
Definition try_clone_psf (p : option (Q -> Q -> img Q)) : outcome (option (Q -> Q -> img Q)) :=
  match p with Some d => Ok (Some d) | None => Raise AttributeError end.
Definition copy_exposure (clear : bool) (e : exposure) : outcome exposure :=
  do p <- try_clone_psf (e_psf e);
  let n := set_wcs (e_wcs e) (set_psf p (clone_exposure e)) in
  Ok (if clear then mkExp (e_x0 n) (e_y0 n) (ifill (nr (e_image n)) (nc (e_image n)) 0%Q) (e_var n) (e_mask n) (e_psf n) (e_wcs n)
      else n).
Definition copy_mbexp (clear : bool) (bands : list exposure) : outcome (list exposure) := omap (copy_exposure clear) bands.
(** Where the pixels of a copy live: clone() is deep. *)
Inductive storage := Shared | Fresh.
Definition clone_storage : storage := Fresh.

Section Scar.
Variables (P : Type) (add sub : P -> P -> P).
(** The number in a pixel. *)
Variable val : P -> Q.

(** The exposure of a band when the pixels of the image are those of [im]; the
    image of [e] gives the shape. *)
Definition band_exposure (im : images P) (ne : string * exposure) : exposure :=
  let e := snd ne in
  mkExp (e_x0 e) (e_y0 e)
    (mkImg (nr (e_image e)) (nc (e_image e)) (fun i j => val (im (fst ne) (e_x0 e + j) (e_y0 e + i))))
    (e_var e) (e_mask e) (e_psf e) (e_wcs e).
Definition exposures (names : list string) (bands : list exposure) (im : images P) : list exposure :=
  map (band_exposure im) (combine names bands).

(** The sources of the model data: blends, their children, the sources of each
    (model_subtractor.py:428-436). *)
Definition model_sources (blends : list (list (list (blend_source P)))) : list (blend_source P) :=
  List.concat (List.concat blends).
(** sources.find(sid).getFootprint(): box and peaks. *)
Definition foot_of (cat : list source) (fbox : Z -> box) (id : Z) : option (box * list (Z * Z)) :=
  match find_source cat id with Some s => Some (fbox id, s_peaks s) | None => None end.

(** model_subtractor.py:220-298, get_mbobs, with clip=False, for the types
    "deblended" and "original". [bands]: the exposures of the copy, whose pixels
    are those of the subtractor. *)
Definition sub_mbobs (env : menv) (names : list string) (bands : list exposure) (cat : list source) (original : bool)
  (s : subtractor P) (id : Z) : outcome (list lobs) :=
  do _ <- Lsub_model.check_source_id P s id;
  do b <- sub_bbox P s id (Some (m_stamp_size env)) false;
  do src <- some_or_attr (find_source cat id);
  omap (band_obs env src b) (exposures names bands (if original then s_orig P s else s_cur P s)).

(** model_subtractor.py:106-136: with add_source(id): body *)
Definition with_source {A} (s : subtractor P) (id : Z) (body : subtractor P -> outcome A) : subtractor P * outcome A :=
  match Lsub_model.check_source_id P s id with
  | Raise e => (s, Raise e)
  | Ok _ =>
    let '(s1, r1) := add_or_subtract P add s id in
    match r1 with
    | Raise e => (s1, Raise e)
    | Ok _ =>
      let res := body s1 in
      let '(s2, r2) := add_or_subtract P sub s1 id in
      (s2, match r2 with Raise e => Raise e | Ok _ => res end)
    end
  end.

(** measure.py:378-456, the loop: the subtractor changes from source to source.
    A missing bmask is looked up after the stamp here, before it in the code. *)
Fixpoint scar_loop (env : menv) (names : list string) (bands : list exposure) (cat : list source) (label : string) (bmasks : list Z)
  (i : nat) (s : subtractor P) (ids : list Z) : subtractor P * outcome (list row) :=
  match ids with
  | [] => (s, Ok [])
  | id :: r =>
    match find_source cat id with
    | None => (s, Raise AttributeError)
    | Some src =>
      let '(s1, st) := with_source s id (fun s' => sub_mbobs env names bands cat false s' id) in
      match measure_one env label (fun _ => st) bmasks i src with
      | Raise e => (s1, Raise e)
      | Ok x =>
        let '(s2, o) := scar_loop env names bands cat label bmasks (S i) s1 r in
        (s2, do l <- o; Ok (x :: l))
      end
    end
  end.

(** measure.py:317-467 with model data. The caller's exposures are the bands of
    [env], called [names], with the pixels [orig]; the first result is what the
    pixels of the caller's exposures are afterwards. *)
Definition caller_after (st : storage) (orig final : images P) : images P :=
  match st with Shared => final | Fresh => orig end.
Definition measure_scarlet (env : menv) (names mbands : list string) (fbox : Z -> box) (blends : list (list (list (blend_source P))))
  (orig : images P) (label : list Z -> string) (cat : list source) : images P * outcome (option (list row)) :=
  match cat with
  | [] => (orig, Ok None)
  | _ =>
    let setup :=
      do sb <- m_shear_bands env;
      do bmasks <- get_bmasks env cat;
      do bands <- copy_mbexp false (m_bands env);
      do s <- make_subtractor P sub mbands names (mbexp_box env) (foot_of cat fbox) (model_sources blends) orig;
      Ok (sb, bmasks, bands, s) in
    match setup with
    | Raise e => (orig, Raise e)
    | Ok (sb, bmasks, bands, s) =>
      let '(s', o) := scar_loop env names bands cat (label sb) bmasks 0 s (Lsub_model.child_ids P s) in
      (caller_after clone_storage orig (s_cur P s'),
       do rows <- o; match rows with [] => Ok None | _ => Ok (Some rows) end)
    end
  end.
End Scar.
