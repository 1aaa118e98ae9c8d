(** Model of metadetect/lsst/configs.py and of the small functions of
    metadetect/lsst/util.py: get_bbox, trim_odd_image, override_config and
    extract_shear_band_indices. *)
From Coq Require Import ZArith QArith List String Bool.
From Verif Require Import Base Arr Dict.
Import ListNotations.
Local Open Scope string_scope.
Local Open Scope Z_scope.

(** Immutable Python values, and lists of names (never changed here). *)
Inductive atom := ANone | ABool (b : bool) | AInt (z : Z) | AFloat (q : Q) | AStr (s : string) | ANames (l : list string).

(** ** configs.py *)

(** Dictionaries are objects: a value is an atom or a reference to a dictionary
    in the heap; the address is the position. *)
Inductive val := VAtom (a : atom) | VRef (p : nat).
Definition pdict := list (string * val).
Definition heap := list pdict.
Fixpoint hset (h : heap) (p : nat) (d : pdict) : heap :=
  match h, p with
  | [], _ => []
  | _ :: r, O => d :: r
  | x :: r, S p' => x :: hset r p' d
  end.
Definition hget (h : heap) (p : nat) : outcome pdict :=
  match nth_error h p with Some d => Ok d | None => Raise (OtherError 0) end.

(** lsst/defaults.py:4-39: DEFAULT_MDET_CONFIG (address 3) and its own copies of
    the detect, metacal and pgauss dictionaries. *)
Definition default_heap : heap :=
  [[("thresh", VAtom (AFloat 5))];
   [("reconv_type", VAtom (AStr "fitgauss"))];
   [("fwhm", VAtom (AFloat 2))];
   [("subtract_sky", VAtom (ABool false)); ("deblender", VAtom (AStr "sdss"));
    ("detect", VRef 0); ("metacal", VRef 1); ("pgauss", VRef 2);
    ("stamp_size", VAtom (AInt 49)); ("shear_bands", VAtom ANone)]].
Definition DEFAULT : nat := 3.

(** copy.deepcopy of a dictionary whose sub-dictionaries hold atoms only, the
    shape of the defaults; sub-dictionaries are new objects. *)
Definition copy_val (h : heap) (v : val) : outcome (heap * val) :=
  match v with
  | VAtom a => Ok (h, VAtom a)
  | VRef p => do d <- hget h p; Ok (h ++ [d], VRef (List.length h))%list
  end.
Fixpoint copy_items (h : heap) (d : pdict) : outcome (heap * pdict) :=
  match d with
  | [] => Ok (h, [])
  | (k, v) :: r =>
    do hv <- copy_val h v; do hr <- copy_items (fst hv) r; Ok (fst hr, (k, snd hv) :: snd hr)
  end.
Definition deepcopy (h : heap) (p : nat) : outcome (heap * nat) :=
  do d <- hget h p; do hd <- copy_items h d; Ok (fst hd ++ [snd hd], List.length (fst hd))%list.

Definition sub_configs : list string := ["detect"; "metacal"; "pgauss"].

(** configs.py:25-33, one key of the user's dictionary. dict.update with
    something that is not a dictionary is a TypeError (Python also accepts an
    empty string or list there; not modelled). *)
Definition apply_key (user new : nat) (h : heap) (key : string) : outcome heap :=
  do dflt <- hget h DEFAULT;
  if negb (smem key (skeys dflt)) then Raise ValueError
  else
    do cfg <- hget h user;
    do nd <- hget h new;
    match sget key cfg with
    | None => Raise KeyError
    | Some v =>
      if smem key sub_configs then
        match sget key nd with
        | Some (VRef q) =>
          match v with
          | VRef u => do dq <- hget h q; do du <- hget h u; Ok (hset h q (supdate dq du))
          | VAtom _ => Raise TypeError
          end
        | _ => Raise AttributeError
        end
      else Ok (hset h new (sput key v nd))
    end.
(** A loop that changes the heap; it is left as it is when the body raises. *)
Fixpoint heap_loop (f : heap -> string -> outcome heap) (l : list string) (h : heap) : heap * outcome unit :=
  match l with
  | [] => (h, Ok tt)
  | k :: r => match f h k with
              | Ok h' => heap_loop f r h'
              | Raise e => (h, Raise e)
              end
  end.

(** configs.py:65-76. *)
Definition check_required (d : pdict) (required : list string) : outcome unit :=
  if forallb (fun k => smem k (skeys d)) required then Ok tt else Raise ValueError.
Definition check_keywords (d : pdict) (allowed : list string) : outcome unit :=
  if forallb (fun k => smem k allowed) (skeys d) then Ok tt else Raise ValueError.
(** configs.py:42-62. *)
Definition verify (h : heap) (new : nat) (name key : string) : outcome unit :=
  do nd <- hget h new;
  match sget name nd with
  | Some (VRef q) => do d <- hget h q; do _ <- check_required d [key]; check_keywords d [key]
  | _ => Raise KeyError
  end.

(** configs.py:6-39. Returns the heap and the address of the new dictionary or
    the exception. *)
Definition get_config (h : heap) (config : option nat) : heap * outcome nat :=
  match deepcopy h DEFAULT with
  | Raise e => (h, Raise e)
  | Ok (h1, new) =>
    let '(h2, r) :=
      match config with
      | None => (h1, Ok tt)
      | Some user =>
        match hget h1 user with
        | Raise e => (h1, Raise e)
        | Ok d => heap_loop (apply_key user new) (skeys d) h1
        end
      end in
    (h2, do _ <- r; do _ <- verify h2 new "pgauss" "fwhm"; do _ <- verify h2 new "detect" "thresh"; Ok new)
  end.

(** ** util.py:1207-1235, override_config *)

(** A configuration object: fields that are values or configuration objects;
    and the dictionary of overrides. Validation of field values (pex_config) is
    not modelled. *)
Inductive cfg := CLeaf (a : atom) | CNode (fields : list (string * cfg)).
Inductive ov := OLeaf (a : atom) | ODict (items : list (string * ov)).

Definition cget (c : cfg) (k : string) : option cfg :=
  match c with CLeaf _ => None | CNode l => sget k l end.
Definition cset (c : cfg) (k : string) (v : cfg) : cfg :=
  match c with CLeaf a => CLeaf a | CNode l => CNode (sput k v l) end.

(** The object after the call, and how it ended. Setting or getting an attribute
    that is not there is an AttributeError; so is any attribute of a plain
    value. [config.toDict()[key] = value] changes a temporary dictionary
    (toDict of a plain value is an AttributeError). *)
Fixpoint override (c : cfg) (o : ov) {struct o} : cfg * outcome unit :=
  match o with
  | OLeaf _ => (c, Raise AttributeError)    (* no items(): never called so *)
  | ODict items =>
    (fix loop (c : cfg) (items : list (string * ov)) : cfg * outcome unit :=
       match items with
       | [] => (c, Ok tt)
       | (key, value) :: rest =>
         match value with
         | ODict _ =>
           match cget c key with
           | None => (c, Raise AttributeError)
           | Some sub =>
             let '(sub', r) := override sub value in
             let c' := cset c key sub' in
             match r with Ok _ => loop c' rest | Raise e => (c', Raise e) end
           end
         | OLeaf a =>
           if String.eqb key "stamp_size" then
             match c with CLeaf _ => (c, Raise AttributeError) | CNode _ => loop c rest end
           else
             match cget c key with
             | None => (c, Raise AttributeError)
             | Some _ => loop (cset c key (CLeaf a)) rest
             end
         end
       end) c items
  end.

(** ** util.py:1304-1334, extract_shear_band_indices *)
Definition extract_shear_band_indices (bands : list string) (requested : option (list string)) : outcome (list Z) :=
  let names := match requested with Some (x :: l) => x :: l | _ => bands end in
  if forallb (fun b => smem b bands) names
  then Ok (map fst (filter (fun ib => smem (snd ib) names) (combine (zrange (zlen bands)) bands)))
  else Raise RuntimeError.

(** ** util.py:337-387, get_bbox *)

(** lsst.geom.Box2I: None is the empty box, otherwise the inclusive corners. *)
Record corners := mkBox { bx0 : Z; by0 : Z; bx1 : Z; by1 : Z }.
Definition box := option corners.
Definition norm_box (b : corners) : box :=
  if (bx1 b <? bx0 b) || (by1 b <? by0 b) then None else Some b.
Definition grow (k : Z) (b : box) : box :=
  match b with
  | None => None
  | Some b => norm_box (mkBox (bx0 b - k) (by0 b - k) (bx1 b + k) (by1 b + k))
  end.
Definition clip_box (b e : box) : box :=
  match b, e with
  | Some b, Some e =>
    norm_box (mkBox (Z.max (bx0 b) (bx0 e)) (Z.max (by0 b) (by0 e)) (Z.min (bx1 b) (bx1 e)) (Z.min (by1 b) (by1 e)))
  | _, _ => None
  end.
Definition contains_box (e b : box) : bool :=
  match b, e with
  | None, _ => true
  | Some b, Some e => (bx0 e <=? bx0 b) && (by0 e <=? by0 b) && (bx1 b <=? bx1 e) && (by1 b <=? by1 e)
  | Some _, None => false
  end.
(** [peaks]: the integer positions (x, y) of the peaks of the footprint. *)
Definition get_bbox (exp_bbox : box) (peaks : list (Z * Z)) (stamp_size : Z) (clip : bool) : outcome box :=
  match peaks with
  | [] => Raise IndexError
  | (x, y) :: _ =>
    let b := grow (stamp_size / 2) (Some (mkBox x y x y)) in
    if clip then Ok (clip_box b exp_bbox)
    else if contains_box exp_bbox b then Ok b else Raise LengthError
  end.

(** ** util.py:625-666, trim_odd_image *)
Definition trim_odd_image {A} (im : img A) : outcome (img A) :=
  if nr im =? nc im then Ok im
  else if (nr im mod 2 =? 0) || (nc im mod 2 =? 0) then Raise AssertionError
  else
    let cr := (nr im - 1) / 2 in
    let cc := (nc im - 1) / 2 in
    let d := Z.min (Z.min cr (nr im - cr - 1)) (Z.min cc (nc im - cc - 1)) in
    Ok (slice im (cr - d) (cr + d + 1) (cc - d) (cc + d + 1)).
