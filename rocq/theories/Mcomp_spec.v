(** Specification vocabulary for C122: masking steps one after the other. *)
From Coq Require Import ZArith Reals List Bool.
From Verif Require Import Base Arr Masking_model Masking_spec.
Local Open Scope Z_scope.

(** Two observations of r x c pixels that cannot be told apart. *)
Definition same_obs (r c : Z) (o o' : obs) : Prop :=
  obs_shape r c o /\ obs_shape r c o' /\ o_ignore_zero_weight o = o_ignore_zero_weight o' /\
  forall i j, 0 <= i < r -> 0 <= j < c ->
    px (o_image o) i j = px (o_image o') i j /\ px (o_noise o) i j = px (o_noise o') i j /\
    px (o_weight o) i j = px (o_weight o') i j /\ px (o_bmask o) i j = px (o_bmask o') i j /\
    mfrac_rel (fun a b => a = b) i j (o_mfrac o) (o_mfrac o').

(** Zero weights go on being ignored exactly while a positive weight is left. *)
Definition flag_right (o o' : obs) : Prop :=
  o_ignore_zero_weight o' = true <->
  o_ignore_zero_weight o = true /\ exists i j, inside (o_weight o') i j /\ (0 < px (o_weight o') i j)%R.
