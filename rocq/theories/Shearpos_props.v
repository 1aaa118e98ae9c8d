(** Properties C04, C05, C06: position transformations. *)
From Coq Require Import Reals List String Bool Lra.
From Verif Require Import Base Shearpos_model Shearpos_spec Shearpos_proofs.
Import ListNotations.
Local Open Scope string_scope.
Local Open Scope R_scope.

(** C04: whatever shear_positions returns, unshear_positions undoes it. *)
Theorem C04_unshear_shear : forall pos s j dims step sheared,
  jdet j <> 0 -> -1 < step < 1 ->
  shear_positions pos s j dims step = Ok sheared ->
  unshear_positions sheared s j dims step = Ok pos.
Proof. exact unshear_shear. Qed.
Print Assumptions C04_unshear_shear.

(** C04, other order. *)
Theorem C04_shear_unshear : forall pos s j dims step unsheared,
  jdet j <> 0 -> -1 < step < 1 ->
  unshear_positions pos s j dims step = Ok unsheared ->
  shear_positions unsheared s j dims step = Ok pos.
Proof. exact shear_unshear. Qed.
Print Assumptions C04_shear_unshear.

(** C04: for every metacal type both functions do return, one position per input. *)
Theorem C04_known_types_return : forall pos s j dims step, -1 < step < 1 ->
  In s (unsheared_types ++ sheared_types) ->
  exists p q, shear_positions pos s j dims step = Ok p /\
              unshear_positions pos s j dims step = Ok q /\
              List.length p = List.length pos /\ List.length q = List.length pos.
Proof. exact known_types_ok. Qed.
Print Assumptions C04_known_types_return.

(** C05: no image shear, no motion (no condition on jacobian or step). *)
Theorem C05_unsheared_types_identity : forall pos s j dims step, In s unsheared_types ->
  shear_positions pos s j dims step = Ok pos /\ unshear_positions pos s j dims step = Ok pos.
Proof. exact skip_identity. Qed.
Print Assumptions C05_unsheared_types_identity.

(** C05: any other string is rejected with ValueError. *)
Theorem C05_unknown_type_raises : forall pos s j dims step,
  ~ In s (unsheared_types ++ sheared_types) ->
  shear_positions pos s j dims step = Raise ValueError /\
  unshear_positions pos s j dims step = Raise ValueError.
Proof. exact unknown_type_raises. Qed.
Print Assumptions C05_unknown_type_raises.

(** C05: the image centre does not move ... *)
Theorem C05_center_fixed : forall s j dims step, jdet j <> 0 -> -1 < step < 1 ->
  In s (unsheared_types ++ sheared_types) ->
  shear_positions [image_center dims] s j dims step = Ok [image_center dims].
Proof. exact center_fixed. Qed.
Print Assumptions C05_center_fixed.

(** ... and is the only point that does not move under a non-zero shear. *)
Theorem C05_center_only_fixed : forall s j dims step p, jdet j <> 0 -> -1 < step < 1 ->
  step <> 0 -> In s sheared_types ->
  shear_positions [p] s j dims step = Ok [p] -> p = image_center dims.
Proof. exact center_only_fixed. Qed.
Print Assumptions C05_center_only_fixed.

(** C05: a step larger than one is rejected for the types that shear the image, and
    does not matter for the others. *)
Theorem C05_step_too_large : forall pos s j dims step, 1 < step \/ step < -1 ->
  (In s sheared_types -> shear_positions pos s j dims step = Raise ValueError /\ unshear_positions pos s j dims step = Raise ValueError) /\
  (In s unsheared_types -> shear_positions pos s j dims step = Ok pos /\ unshear_positions pos s j dims step = Ok pos).
Proof. exact step_too_large. Qed.
Print Assumptions C05_step_too_large.
Example C05_step_example : 1 < 3 / 2 \/ 3 / 2 < -1.
Proof. left. lra. Qed.

(** C06: unshearing one sign is shearing with the other sign. *)
Theorem C06_opposite_is_inverse : forall pos s j dims step,
  -1 < step < 1 -> In s sheared_types ->
  unshear_positions pos s j dims step = shear_positions pos (opposite s) j dims step.
Proof. exact opposite_is_inverse. Qed.
Print Assumptions C06_opposite_is_inverse.

(** C06: oriented pixel areas are preserved. *)
Theorem C06_area_preserved : forall s j dims step p q r p' q' r',
  jdet j <> 0 -> -1 < step < 1 -> In s (unsheared_types ++ sheared_types) ->
  shear_positions [p; q; r] s j dims step = Ok [p'; q'; r'] ->
  area2 p' q' r' = area2 p q r.
Proof. exact area_preserved. Qed.
Print Assumptions C06_area_preserved.

(** C06: each type shears in its own documented direction and by its own
    amount (definition of reduced shear). *)
Theorem C06_shear_direction : forall p p' s j dims step,
  jdet j <> 0 -> -1 < step < 1 -> In s sheared_types ->
  shear_positions [p] s j dims step = Ok [p'] ->
  sheared_offset s step (world_offset j dims p) (world_offset j dims p').
Proof. exact shear_direction. Qed.
Print Assumptions C06_shear_direction.

(** C06: the functions that take an observation use its own jacobian and shape, for
    every position of the list, and invert each other. *)
Theorem C06_observation : forall pos s o step out, jdet (og_jac o) <> 0 -> -1 < step < 1 -> In s sheared_types ->
  (shear_positions_obs pos s o step = Ok out ->
   Forall2 (fun p p' => sheared_offset s step (world_offset (og_jac o) (og_shape o) p) (world_offset (og_jac o) (og_shape o) p')) pos out /\
   unshear_positions_obs out s o step = Ok pos) /\
  (unshear_positions_obs pos s o step = Ok out ->
   Forall2 (fun p p' => sheared_offset s step (world_offset (og_jac o) (og_shape o) p') (world_offset (og_jac o) (og_shape o) p)) pos out /\
   shear_positions_obs out s o step = Ok pos).
Proof. exact obs_positions. Qed.
Print Assumptions C06_observation.

(** A concrete jacobian with a rotation and a step of 0.01 meets the hypotheses. *)
Example C04_hypotheses :
  let j := mkJac 49.5 50 0.2 0.01 (-0.02) 0.21 in
  jdet j <> 0 /\ -1 < 0.01 < 1 /\ In "1p" sheared_types /\
  exists p, shear_positions [(3, 7)] "1p" j (100, 101) 0.01 = Ok p.
Proof.
  simpl. split; [|split; [|split]].
  - unfold jdet; simpl. lra.
  - lra.
  - tauto.
  - destruct (known_types_ok [(3, 7)] "1p" (mkJac 49.5 50 0.2 0.01 (-0.02) 0.21) (100, 101) 0.01)
      as [p [_ [H _]]]; [lra|simpl; tauto|]. now exists p.
Qed.
