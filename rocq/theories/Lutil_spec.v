(** Specification vocabulary for C49-C53. *)
From Coq Require Import ZArith List String Bool.
From Verif Require Import Base Arr Dict Lutil_model.
Import ListNotations.
Local Open Scope Z_scope.

(** ** C49 *)
(** d[k] and d[k][s] for the dictionary at address p. *)
Definition option_of (h : heap) (p : nat) (k : string) : option val :=
  match nth_error h p with Some d => sget k d | None => None end.
Definition suboption_of (h : heap) (p : nat) (k s : string) : option val :=
  match option_of h p k with Some (VRef q) => option_of h q s | _ => None end.
Definition keys_of (h : heap) (p : nat) : list string :=
  match nth_error h p with Some d => skeys d | None => [] end.
(** A heap that starts with the defaults and holds the user's dictionary, whose
    references point into it; dictionaries have distinct keys. *)
Definition user_heap (h : heap) (u : nat) : Prop :=
  firstn 4 h = default_heap /\ (u < List.length h)%nat /\ (forall d, In d h -> NoDup (skeys d)) /\
  forall k q, option_of h u k = Some (VRef q) -> (q < List.length h)%nat.

(** ** C50 *)
Definition path := list string.
(** The field at a path. *)
Fixpoint field (c : cfg) (p : path) : option cfg :=
  match p with
  | [] => Some c
  | k :: r => match cget c k with Some c' => field c' r | None => None end
  end.
Definition value_at (c : cfg) (p : path) : option atom :=
  match field c p with Some (CLeaf a) => Some a | _ => None end.
(** The value given for a path in the overrides. *)
Fixpoint given (o : ov) (p : path) : option atom :=
  match p, o with
  | [], OLeaf a => Some a
  | k :: r, ODict items => match sget k items with Some o' => given o' r | None => None end
  | _, _ => None
  end.
(** Dictionaries have distinct keys, at every level. *)
Inductive distinct_keys : ov -> Prop :=
| dk_leaf : forall a, distinct_keys (OLeaf a)
| dk_dict : forall items, NoDup (skeys items) ->
    (forall k o, In (k, o) items -> distinct_keys o) -> distinct_keys (ODict items).
(** No value is given for a field called "stamp_size", at any level. *)
Inductive no_stamp_size : ov -> Prop :=
| ns_leaf : forall a, no_stamp_size (OLeaf a)
| ns_dict : forall items,
    (forall k o, In (k, o) items -> no_stamp_size o /\ forall a, o = OLeaf a -> k <> "stamp_size"%string) ->
    no_stamp_size (ODict items).
(** Every key of the overrides is a field of the configuration, at every level. *)
Inductive known_keys : cfg -> ov -> Prop :=
| kk_leaf : forall c a, known_keys c (OLeaf a)
| kk_dict : forall c items,
    (forall k o, In (k, o) items -> exists sub, cget c k = Some sub /\ known_keys sub o) ->
    known_keys c (ODict items).
(** The path leaves the overrides at a key they do not have. *)
Fixpoint untouched (o : ov) (p : path) : Prop :=
  match p, o with
  | k :: r, ODict items => match sget k items with Some o' => untouched o' r | None => True end
  | _, _ => False
  end.

(** ** C52: a pixel of a box *)
Definition in_box (b : box) (x y : Z) : Prop :=
  match b with None => False | Some b => bx0 b <= x <= bx1 b /\ by0 b <= y <= by1 b end.
