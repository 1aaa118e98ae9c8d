(** Model of metadetect/lsst/model_subtractor.py. Images are functions of band
    and pixel position in the exposure's coordinates; the type of pixels and its
    addition and subtraction are parameters, so that exact numbers and machine
    numbers are both instances. *)
From Coq Require Import ZArith List String Bool.
From Verif Require Import Base Dict Lutil_model.
Import ListNotations.
Local Open Scope string_scope.
Local Open Scope Z_scope.

(** Dictionaries with integer keys, in insertion order. *)
Fixpoint zget {V} (k : Z) (d : list (Z * V)) : option V :=
  match d with [] => None | (k', v) :: r => if k =? k' then Some v else zget k r end.
Fixpoint zput {V} (k : Z) (v : V) (d : list (Z * V)) : list (Z * V) :=
  match d with [] => [(k, v)] | (k', w) :: r => if k =? k' then (k', v) :: r else (k', w) :: zput k v r end.

Section Sub.
Variables (P : Type) (add sub : P -> P -> P) (zero : P).

Definition images := string -> Z -> Z -> P.
(** The pixels (x, y) of a heavy footprint with their values. *)
Definition pixmap := Z -> Z -> option P.
(** model_subtractor.py:478-534, scarletModelToHeavy: a MultibandFootprint, or
    for one band a HeavyFootprintF, which has no bands to select. Building the
    model image, convolution and spans are the parameter [b_pix]. *)
Inductive heavy := HSingle (p : pixmap) | HMulti (l : list (string * pixmap)).
Record blend_source := mkBlend { b_id : Z; b_pix : string -> pixmap }.
Definition to_heavy (mbands : list string) (b : blend_source) : heavy :=
  match mbands with
  | [band] => HSingle (b_pix b band)
  | _ => HMulti (map (fun band => (band, b_pix b band)) mbands)
  end.
(** heavy[band] *)
Definition band_of (h : heavy) (band : string) : outcome pixmap :=
  match h with
  | HSingle _ => Raise TypeError
  | HMulti l => match sget band l with Some p => Ok p | None => Raise KeyError end
  end.

(** A child source: the box of its footprint in the catalogue, the peaks (x, y)
    of the footprint, the model. *)
Record entry := mkEntry { en_box : box; en_peaks : list (Z * Z); en_heavy : heavy }.
Record subtractor := mkSub {
  s_bands : list string; s_box : box; s_orig : images; s_cur : images; s_entries : list (Z * entry)
}.
Definition with_cur (s : subtractor) (im : images) : subtractor := mkSub (s_bands s) (s_box s) (s_orig s) im (s_entries s).

Definition in_boxb (b : box) (x y : Z) : bool :=
  match b with
  | None => false
  | Some c => (bx0 c <=? x) && (x <=? bx1 c) && (by0 c <=? y) && (y <=? by1 c)
  end.
(** addTo / subtractFrom of a sub-image: changes the pixels of the footprint that
    lie in the sub-image. *)
Definition apply (op : P -> P -> P) (im : images) (band : string) (b : box) (p : pixmap) : images :=
  fun band' x y =>
    if String.eqb band' band && in_boxb b x y
    then match p x y with Some m => op (im band' x y) m | None => im band' x y end
    else im band' x y.
(** One band: heavy[band], mbexp[band], image[bbox]. Empty boxes are not
    treated specially. *)
Definition touch (op : P -> P -> P) (bands : list string) (ebox : box) (e : entry) (im : images) (band : string) : outcome images :=
  do p <- band_of (en_heavy e) band;
  if negb (smem band bands) then Raise KeyError
  else if negb (contains_box ebox (en_box e)) then Raise LengthError
  else Ok (apply op im band (en_box e) p).
(** The loop over bands; what was done stays done when a later band raises. *)
Fixpoint touch_all (op : P -> P -> P) (bands : list string) (ebox : box) (e : entry) (l : list string) (im : images)
  : images * outcome unit :=
  match l with
  | [] => (im, Ok tt)
  | band :: r =>
    match touch op bands ebox e im band with
    | Ok im' => touch_all op bands ebox e r im'
    | Raise ex => (im, Raise ex)
    end
  end.

(** ** model_subtractor.py:62-82 and 417-449: the constructor *)

(** [foot]: the box and the peaks of the footprint of a catalogue source, None
    when the catalogue has no such id. [mbands]: the bands of the model data. *)
Fixpoint build (mbands bands : list string) (ebox : box) (foot : Z -> option (box * list (Z * Z))) (l : list blend_source)
  (im : images) (d : list (Z * entry)) : outcome (images * list (Z * entry)) :=
  match l with
  | [] => Ok (im, d)
  | b :: r =>
    match foot (b_id b) with
    | None => Raise AttributeError
    | Some (bx, pks) =>
      let e := mkEntry bx pks (to_heavy mbands b) in
      let '(im', o) := touch_all sub bands ebox e mbands im in
      do _ <- o;
      build mbands bands ebox foot r im' (zput (b_id b) e d)
    end
  end.
Definition make_subtractor (mbands bands : list string) (ebox : box) (foot : Z -> option (box * list (Z * Z))) (l : list blend_source)
  (orig : images) : outcome subtractor :=
  do r <- build mbands bands ebox foot l orig [];
  Ok (mkSub bands ebox orig (fst r) (snd r)).

(** model_subtractor.py:84-96. *)
Definition child_ids (s : subtractor) : list Z := map fst (s_entries s).
(** model_subtractor.py:98-104. *)
Definition check_source_id (s : subtractor) (id : Z) : outcome entry :=
  match zget id (s_entries s) with Some e => Ok e | None => Raise ValueError end.

(** model_subtractor.py:138-148 *)
Definition add_or_subtract (op : P -> P -> P) (s : subtractor) (id : Z) : subtractor * outcome unit :=
  match zget id (s_entries s) with
  | None => (s, Raise KeyError)
  | Some e => let '(im, o) := touch_all op (s_bands s) (s_box s) e (s_bands s) (s_cur s) in (with_cur s im, o)
  end.

(** ** Programs that use the subtractor

    Add id p: with subtractor.add_source(id): p (model_subtractor.py:106-136);
    Look: the current images are read (a stamp, get_mbobs ...); Fail: an
    exception; Catch p: p with its exceptions swallowed. *)
Inductive prog := Done | Look | Fail (e : exn) | Seq (p q : prog) | Catch (p : prog) | Add (id : Z) (p : prog).
(** The images read, with the ids added at that point (innermost first). *)
Definition sight := (list Z * images)%type.
Fixpoint exec (p : prog) (opened : list Z) (s : subtractor) : subtractor * list sight * outcome unit :=
  match p with
  | Done => (s, [], Ok tt)
  | Look => (s, [(opened, s_cur s)], Ok tt)
  | Fail e => (s, [], Raise e)
  | Seq p q =>
    let '(s1, t1, r1) := exec p opened s in
    match r1 with
    | Raise e => (s1, t1, Raise e)
    | Ok _ => let '(s2, t2, r2) := exec q opened s1 in (s2, t1 ++ t2, r2)%list
    end
  | Catch p => let '(s1, t1, _) := exec p opened s in (s1, t1, Ok tt)
  | Add id p =>
    match check_source_id s id with
    | Raise e => (s, [], Raise e)
    | Ok _ =>
      let '(s1, r1) := add_or_subtract add s id in
      match r1 with
      | Raise e => (s1, [], Raise e)          (* before the try statement *)
      | Ok _ =>
        let '(s2, t2, r2) := exec p (id :: opened) s1 in
        let '(s3, r3) := add_or_subtract sub s2 id in
        (s3, t2, match r3 with Raise e => Raise e | Ok _ => r2 end)
      end
    end
  end.

(** ** model_subtractor.py:342-358, get_full_model *)
Fixpoint full_model (s : subtractor) (l : list (Z * entry)) (im : images) : outcome images :=
  match l with
  | [] => Ok im
  | (_, e) :: r => let '(im', o) := touch_all add (s_bands s) (s_box s) e (s_bands s) im in do _ <- o; full_model s r im'
  end.
Definition get_full_model (s : subtractor) : outcome images := full_model s (s_entries s) (fun _ _ _ => zero).

(** ** model_subtractor.py:360-415, get_bbox *)

(** Without a stamp size the footprint is unpacked into two values, which a
    footprint cannot be. *)
Definition sub_bbox (s : subtractor) (id : Z) (stamp_size : option Z) (clip : bool) : outcome box :=
  do e <- check_source_id s id;
  match stamp_size with
  | Some n => get_bbox (s_box s) (en_peaks e) n clip
  | None => Raise TypeError
  end.
(** ** model_subtractor.py:150-221, get_stamp, and 312-340, get_model *)

(** A stamp: its box and pixels. The box of a model stamp is that of the heavy
    footprint; it is not described here (None). *)
Record stamp := mkStamp { t_box : option box; t_pix : string -> Z -> Z -> option P }.
Definition get_model (s : subtractor) (id : Z) (stamp_size : option Z) (clip : bool) : outcome stamp :=
  do e <- check_source_id s id;
  do l <- omap (fun band => do p <- band_of (en_heavy e) band; Ok (band, p)) (s_bands s);
  Ok (mkStamp None (fun band x y => match sget band l with Some p => p x y | None => None end)).
Definition get_stamp (s : subtractor) (id : Z) (stamp_size : option Z) (clip : bool) (type : string) : outcome stamp :=
  if negb (smem type ["deblended"; "original"; "model"]) then Raise AssertionError
  else if String.eqb type "model" then get_model s id stamp_size clip
  else
    do _ <- check_source_id s id;
    do b <- sub_bbox s id stamp_size clip;
    let im := if String.eqb type "original" then s_orig s else s_cur s in
    match b with
    | None => Raise LengthError       (* an empty sub-image *)
    | Some _ => Ok (mkStamp (Some b) (fun band x y => if smem band (s_bands s) && in_boxb b x y then Some (im band x y) else None))
    end.
End Sub.
