(** Model of metadetect/lsst/util.py:14-204 and 248-290: the noise replacers and
    the noise image. lsst.meas.base.NoiseReplacer is not part of /repo; it is
    modelled after its documentation (mask planes left out): the constructor
    writes the noise into every footprint, insertSource writes the stored data
    of one footprint, removeSource its noise, end the stored data of the
    footprints without parent. *)
From Coq Require Import ZArith QArith List Bool.
From Verif Require Import Base Arr Median Lsub_model.
Import ListNotations.
Local Open Scope Z_scope.

Section Noise.
Variable P : Type.
Definition image := Z -> Z -> P.
(** The pixels of a footprint. *)
Definition pixset := Z -> Z -> bool.
(** id -> (parent id, footprint); parent id 0 is no parent. *)
Definition catalogue := list (Z * (Z * pixset)).

(** A heavy footprint with its values; inserting it into an image. *)
Definition put (im : image) (f : pixset) (v : image) : image := fun x y => if f x y then v x y else im x y.

(** util.py:60-65: the dictionary of footprints, made heavy with the pixels the
    exposure has before anything is replaced. *)
Definition footprints (cat : catalogue) : catalogue := fold_left (fun d s => zput (fst s) (snd s) d) cat [].

Record band := mkBand {
  n_orig : image;              (* the exposure's image before *)
  n_noise : image;             (* the noise image *)
  n_fail : option exn          (* what making the noise image or a heavy footprint raises, if anything *)
}.

(** NoiseReplacer(...) *)
Definition replaced (cat : catalogue) (b : band) : image :=
  fold_left (fun im s => put im (snd (snd s)) (n_noise b)) (footprints cat) (n_orig b).
(** insertSource / removeSource / end of one band's replacer *)
Definition insert1 (cat : catalogue) (b : band) (id : Z) (im : image) : outcome image :=
  match zget id (footprints cat) with Some (_, f) => Ok (put im f (n_orig b)) | None => Raise KeyError end.
Definition remove1 (cat : catalogue) (b : band) (id : Z) (im : image) : outcome image :=
  match zget id (footprints cat) with Some (_, f) => Ok (put im f (n_noise b)) | None => Raise KeyError end.
Definition end1 (cat : catalogue) (b : band) (im : image) : image :=
  fold_left (fun im s => if fst (snd s) =? 0 then put im (snd (snd s)) (n_orig b) else im) (footprints cat) im.

(** ** MultibandNoiseReplacer *)

(** util.py:178-193, _set_noise_replacers: the images of all bands afterwards,
    and whether it raised; nothing is undone when it did. *)
Fixpoint set_replacers (cat : catalogue) (bands : list band) : list image * outcome unit :=
  match bands with
  | [] => ([], Ok tt)
  | b :: r =>
    match n_fail b with
    | Some e => (map n_orig bands, Raise e)
    | None => let '(ims, o) := set_replacers cat r in (replaced cat b :: ims, o)
    end
  end.
(** util.py:155-167: the loops over the bands. *)
Fixpoint over_bands (f : band -> image -> outcome image) (bands : list band) (ims : list image) : list image * outcome unit :=
  match bands, ims with
  | b :: bs, im :: r =>
    match f b im with
    | Raise e => (ims, Raise e)
    | Ok im' => let '(r', o) := over_bands f bs r in (im' :: r', o)
    end
  | _, _ => (ims, Ok tt)
  end.
Definition insert_source (cat : catalogue) (bands : list band) (id : Z) := over_bands (fun b => insert1 cat b id) bands.
Definition remove_source (cat : catalogue) (bands : list band) (id : Z) := over_bands (fun b => remove1 cat b id) bands.
(** util.py:169-176: ExitStack.close. The order, last band first, does not
    matter here: end of a band does not raise and changes only that band. *)
Fixpoint end_all (cat : catalogue) (bands : list band) (ims : list image) : list image :=
  match bands, ims with
  | b :: bs, im :: r => end1 cat b im :: end_all cat bs r
  | _, _ => ims
  end.

(** Programs that use the replacer. Inserted id p: with
    replacer.sourceInserted(id): p (util.py:139-153); Insert and Remove: the bare
    calls; Look: the images are read. *)
Inductive nprog := NDone | NLook | NFail (e : exn) | NSeq (p q : nprog) | NCatch (p : nprog)
| NInsert (id : Z) | NRemove (id : Z) | NInserted (id : Z) (p : nprog).
Definition nsight := (list Z * list image)%type.
Fixpoint nexec (cat : catalogue) (bands : list band) (p : nprog) (opened : list Z) (s : list image)
  : list image * list nsight * outcome unit :=
  match p with
  | NDone => (s, [], Ok tt)
  | NLook => (s, [(opened, s)], Ok tt)
  | NFail e => (s, [], Raise e)
  | NSeq p q =>
    let '(s1, t1, r1) := nexec cat bands p opened s in
    match r1 with
    | Raise e => (s1, t1, Raise e)
    | Ok _ => let '(s2, t2, r2) := nexec cat bands q opened s1 in (s2, t1 ++ t2, r2)%list
    end
  | NCatch p => let '(s1, t1, _) := nexec cat bands p opened s in (s1, t1, Ok tt)
  | NInsert id => let '(s1, r) := insert_source cat bands id s in (s1, [], r)
  | NRemove id => let '(s1, r) := remove_source cat bands id s in (s1, [], r)
  | NInserted id p =>
    let '(s1, r1) := insert_source cat bands id s in
    match r1 with
    | Raise e => (s1, [], Raise e)
    | Ok _ =>
      let '(s2, t2, r2) := nexec cat bands p (id :: opened) s1 in
      let '(s3, r3) := remove_source cat bands id s2 in
      (s3, t2, match r3 with Raise e => Raise e | Ok _ => r2 end)
    end
  end.
(** with MultibandNoiseReplacer(...) as replacer: p. The images afterwards, what
    was read, the outcome. *)
Definition session (cat : catalogue) (bands : list band) (p : nprog) : list image * list nsight * outcome unit :=
  let '(ims, o) := set_replacers cat bands in
  match o with
  | Raise e => (ims, [], Raise e)
  | Ok _ => let '(s, t, r) := nexec cat bands p [] ims in (end_all cat bands s, t, r)
  end.
End Noise.

(** ** util.py:248-290, get_noise_image *)

(** Pixel values: None is not finite. [normal v i j] is the random number drawn
    for pixel (i, j) with variance v; a variance that is not a number gives
    numbers that are none. Result: image and variance plane of the noise; an
    image and a variance plane of different shapes are not described. *)
Local Open Scope Q_scope.
Definition usable (signal variance : img (option Q)) (gain : option Q) : list Q :=
  flat_map (fun sv => match sv with
    | (Some s, Some v) => match gain with None => [v] | Some g => [v - s / g] end
    | _ => []
    end) (pixels (imap2 pair signal variance)).
(** [gains]: None for remove_poisson=False, else the gains of the amplifiers. *)
Definition mean_gain (l : list Q) : Q := qsum l / inject_Z (Z.of_nat (List.length l)).
Definition get_noise_image (signal variance : img (option Q)) (gains : option (list Q)) (normal : option Q -> Z -> Z -> option Q)
  : img (option Q) * img (option Q) :=
  let var := qmedian (usable signal variance (option_map mean_gain gains)) in
  (mkImg (nr signal) (nc signal) (normal var), ifill (nr signal) (nc signal) var).
