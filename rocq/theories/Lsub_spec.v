(** What C59, C80 and C81 say, in terms of the images, the model of each source
    and the box of its footprint. *)
From Coq Require Import ZArith List String Bool.
From Verif Require Import Base Dict Lutil_model Lsub_model.
Import ListNotations.
Local Open Scope string_scope.
Local Open Scope Z_scope.

(** Pixel arithmetic without rounding. *)
Record exact_arith {P : Type} (add sub : P -> P -> P) (zero : P) : Prop := mkExact {
  add_assoc : forall x y z, add x (add y z) = add (add x y) z;
  add_comm : forall x y, add x y = add y x;
  add_zero : forall x, add x zero = x;
  sub_add : forall x m, sub (add x m) m = x;
  add_sub : forall x m, add (sub x m) m = x
}.

Definition in_box (b : box) (x y : Z) : Prop :=
  match b with None => False | Some c => bx0 c <= x <= bx1 c /\ by0 c <= y <= by1 c end.

Section Spec.
Variables (P : Type) (add sub : P -> P -> P) (zero : P).

(** [value_at foot b band x y m]: in this band the model of source b, restricted
    to the box of its footprint, has the value m at the pixel (x, y). *)
Definition value_at (foot : Z -> option (box * list (Z * Z))) (b : blend_source P) (band : string) (x y : Z) (m : P) : Prop :=
  exists bx pks, foot (b_id P b) = Some (bx, pks) /\ in_box bx x y /\ b_pix P b band x y = Some m.

(** The values the models of a list of sources have at a pixel, in the order of
    the sources; sources without a value there contribute nothing. *)
Inductive values_at (foot : Z -> option (box * list (Z * Z))) (band : string) (x y : Z) : list (blend_source P) -> list P -> Prop :=
| values_nil : values_at foot band x y [] []
| values_some : forall b l m ms, value_at foot b band x y m -> values_at foot band x y l ms ->
    values_at foot band x y (b :: l) (m :: ms)
| values_none : forall b l ms, (forall m, ~ value_at foot b band x y m) -> values_at foot band x y l ms ->
    values_at foot band x y (b :: l) ms.

(** x minus every element of a list; x plus every element of a list. *)
Definition minus_all (x : P) (l : list P) : P := fold_left sub l x.
Definition plus_all (x : P) (l : list P) : P := fold_left add l x.

(** The two subtractors are the same object in the same condition. *)
Definition same_state (s s' : subtractor P) : Prop :=
  s_bands P s' = s_bands P s /\ s_box P s' = s_box P s /\ s_entries P s' = s_entries P s /\
  (forall band x y, s_orig P s' band x y = s_orig P s band x y) /\
  (forall band x y, s_cur P s' band x y = s_cur P s band x y).
End Spec.
