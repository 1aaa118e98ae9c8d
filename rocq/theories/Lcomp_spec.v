(** Specification vocabulary for C123: the masking steps of the LSST code one after
    the other. *)
From Coq Require Import ZArith Reals List String Bool.
From Verif Require Import Base Arr Dict Lmask_model Lmask_spec.
Local Open Scope Z_scope.

(** Planes, exposures and sets of arguments that cannot be told apart. *)
Definition same_plane {A} (m m' : img A) : Prop :=
  nr m = nr m' /\ nc m = nc m' /\ forall i j, inside m i j -> px m i j = px m' i j.
Definition same_exp (e e' : exposure) : Prop :=
  same_plane (e_image e) (e_image e') /\ same_plane (e_var e) (e_var e') /\ same_plane (e_mask e) (e_mask e').
Definition same_dict {V} (S : V -> V -> Prop) (d d' : list (string * V)) : Prop :=
  skeys d = skeys d' /\ forall k v v', sget k d = Some v -> sget k d' = Some v' -> S v v'.
Definition same_world (w w' : world) : Prop :=
  same_dict same_exp (w_exp w) (w_exp w') /\
  opt_rel (same_dict same_exp) (w_noise w) (w_noise w') /\
  opt_rel (same_dict same_plane) (w_mfrac w) (w_mfrac w') /\
  opt_rel (Forall2 same_plane) (w_ormasks w) (w_ormasks w').

(** The same but for the image, which may only differ at the pixels [at_]. *)
Definition same_exp_but (at_ : Z -> Z -> Prop) (e e' : exposure) : Prop :=
  nr (e_image e) = nr (e_image e') /\ nc (e_image e) = nc (e_image e') /\
  (forall i j, inside (e_image e) i j -> ~ at_ i j -> px (e_image e) i j = px (e_image e') i j) /\
  same_plane (e_var e) (e_var e') /\ same_plane (e_mask e) (e_mask e').
Definition same_world_but (at_ : Z -> Z -> Prop) (w w' : world) : Prop :=
  same_dict (same_exp_but at_) (w_exp w) (w_exp w') /\
  opt_rel (same_dict (same_exp_but at_)) (w_noise w) (w_noise w') /\
  opt_rel (same_dict same_plane) (w_mfrac w) (w_mfrac w') /\
  opt_rel (Forall2 same_plane) (w_ormasks w) (w_ormasks w').
