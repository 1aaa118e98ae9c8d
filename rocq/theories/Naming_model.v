(** Model of metadetect/util.py: the column namer. *)
From Coq Require Import List String Bool.
Local Open Scope string_scope.

(** util.py:10-22, Namer.__init__: an empty prefix counts as none; an empty
    suffix or the suffix "noshear" counts as none. *)
Definition namer_front (front : option string) : option string :=
  match front with
  | Some f => if String.eqb f "" then None else Some f
  | None => None
  end.

Definition namer_back (back : option string) : option string :=
  match back with
  | Some b => if String.eqb b "" || String.eqb b "noshear" then None else Some b
  | None => None
  end.

(** util.py:24-32, Namer.__call__. The [nomod] shortcut (util.py:19-22, 26) is
    taken when both parts are none, where the two conditionals below do
    nothing either; it is kept for fidelity. *)
Definition namer (front back : option string) (name : string) : string :=
  let f := namer_front front in
  let b := namer_back back in
  let nomod := match f, b with None, None => true | _, _ => false end in
  if nomod then name
  else
    let n := match f with Some f' => f' ++ "_" ++ name | None => name end in
    match b with Some b' => n ++ "_" ++ b' | None => n end.
