(** C123: the masking steps of the LSST code one after the other. *)
From Coq Require Import ZArith Reals List String Bool Lia Lra Permutation.
From Verif Require Import Base Arr Dict Masking_model Masking_spec Lmask_model Lmask_spec Lmask_proofs Lmask_props Lcomp_spec Lcomp_proofs.
Import ListNotations.
Local Open Scope string_scope.
Local Open Scope Z_scope.

(** C123: what a step returns can be given to the next step. *)
Theorem C123_ready : forall wcs xy0 info edge bright be r c w, (forall b, In b info -> (0 <= br_rad b)%R) -> world_ok r c w ->
  (exists w', apply_edge edge w = Ok w' /\ world_ok r c w') /\
  (exists w', apply_bright wcs xy0 info bright be w = Ok w' /\ world_ok r c w').
Proof.
  intros wcs xy0 info edge bright be r c w Hr H. split.
  - destruct (edge_step r c edge w H) as (w' & E & K & _). exists w'. split; assumption.
  - destruct (bright_step wcs xy0 info bright be r c w Hr H) as (w' & x & E & K & _). exists w'. split; assumption.
Qed.
Print Assumptions C123_ready.

(** C123: edges and bright objects can be masked in either order. *)
Theorem C123_either_order : forall wcs xy0 info edge bright be r c w, (forall b, In b info -> (0 <= br_rad b)%R) -> world_ok r c w ->
  exists w1 w2 v1 v2, apply_edge edge w = Ok w1 /\ apply_bright wcs xy0 info bright be w1 = Ok w2 /\
    apply_bright wcs xy0 info bright be w = Ok v1 /\ apply_edge edge v1 = Ok v2 /\ same_world w2 v2.
Proof. exact either_order. Qed.
Print Assumptions C123_either_order.

(** C123: masking one list of bright objects and then another is masking both at once. *)
Theorem C123_two_lists : forall wcs xy0 l1 l2 bright be r c w, (forall b, In b (l1 ++ l2)%list -> (0 <= br_rad b)%R) -> world_ok r c w ->
  exists w1 w2 v, apply_bright wcs xy0 l1 bright be w = Ok w1 /\ apply_bright wcs xy0 l2 bright be w1 = Ok w2 /\
    apply_bright wcs xy0 (l1 ++ l2)%list bright be w = Ok v /\ same_world w2 v.
Proof. exact two_lists. Qed.
Print Assumptions C123_two_lists.

(** C123: the order of the list does not matter. *)
Theorem C123_list_order : forall wcs xy0 l1 l2 bright be r c w, (forall b, In b l1 -> (0 <= br_rad b)%R) -> world_ok r c w -> Permutation l1 l2 ->
  exists w1 w2, apply_bright wcs xy0 l1 bright be w = Ok w1 /\ apply_bright wcs xy0 l2 bright be w = Ok w2 /\ same_world w1 w2.
Proof. exact list_order. Qed.
Print Assumptions C123_list_order.

(** C123: a step done twice changes no mask, variance, masked fraction or or-mask
    again, and the images only where they are masked. *)
Theorem C123_again : forall wcs xy0 info edge bright be r c w, (forall b, In b info -> (0 <= br_rad b)%R) -> world_ok r c w ->
  (exists w1 w2, apply_edge edge w = Ok w1 /\ apply_edge edge w1 = Ok w2 /\ same_world_but (fun i j => edge_distance r c i j < 9) w1 w2) /\
  (exists w1 w2, apply_bright wcs xy0 info bright be w = Ok w1 /\ apply_bright wcs xy0 info bright be w1 = Ok w2 /\
     same_world_but (within_circle 0 wcs xy0 info) w1 w2).
Proof. intros wcs xy0 info edge bright be r c w Hr H. split; [exact (edge_again edge r c w H)|exact (bright_again wcs xy0 info bright be r c w Hr H)]. Qed.
Print Assumptions C123_again.

(** A run on the two bands of C66: an object in the middle of the image. The pixel
    under it has the bits of the object, the corner those of the edge, and both the
    bit of the expanded object. *)
Definition mid := mkBright 17 17 3.
Definition flat_wcs (ra dec : R) : R * R := (ra, dec).
Example C123_example : exists w1 w2 e,
  apply_edge 8 world20 = Ok w1 /\ apply_bright flat_wcs (5, 7) [mid] 16 32 w1 = Ok w2 /\
  sget "r" (w_exp w2) = Some e /\ px (e_mask e) 10 12 = 52 /\ px (e_mask e) 0 0 = 44 /\ px (e_var e) 10 12 = None /\ px (e_var e) 0 0 = None.
Proof.
  assert (Hr : forall b, In b [mid] -> (0 <= br_rad b)%R) by (intros b [<-|[]]; cbn; lra).
  destruct (C66_edge 20 25 8 world20 C66_world20) as (w1 & E1 & M1). assert (K1 := masked_world_ok _ _ _ _ _ _ _ C66_world20 M1).
  destruct (C66_bright flat_wcs (5, 7) [mid] 16 32 20 25 w1 Hr K1) as (w2 & x & E2 & M2 & X).
  destruct M1 as ((S1 & D1 & _) & _). destruct M2 as ((S2 & D2 & _) & _).
  destruct (D1 "r" (exp20 2)) as (e1 & G1 & (_ & Q1)); [cbn; auto|reflexivity|].
  destruct (D2 "r" e1) as (e2 & G2 & (_ & Q2)); [rewrite S1; cbn; auto|exact G1|].
  exists w1, w2, e2. split; [exact E1|]. split; [exact E2|]. split; [exact G2|].
  destruct (C66_edge_where 20 25 0 0 ltac:(lia) ltac:(lia)) as [_ F0]. destruct (C66_edge_where 20 25 10 12 ltac:(lia) ltac:(lia)) as [_ F1].
  assert (L0 : (edge_factor (3 / 2) 20 25 0 0 < 1)%R) by (apply F0; vm_compute; reflexivity).
  assert (L1 : ~ (edge_factor (3 / 2) 20 25 10 12 < 1)%R) by (intros Y; apply F1 in Y; vm_compute in Y; discriminate).
  destruct (Q1 0 0 ltac:(lia) ltac:(lia)) as (_ & A0 & _). destruct (A0 L0) as [V0 B0]. destruct (Q1 10 12 ltac:(lia) ltac:(lia)) as (_ & _ & A1). destruct (A1 L1) as [V1 B1].
  destruct (C66_bright_where flat_wcs (5, 7) [mid] 10 12) as [_ W1]. destruct (C66_bright_where flat_wcs (5, 7) [mid] 0 0) as [_ W0].
  set (a := cat_factor (3 / 2) (map (circle_of flat_wcs (5, 7)) [mid])) in *.
  assert (P1 : (a 10%Z 12%Z < 1)%R).
  { apply W1. exists mid. split; [left; reflexivity|]. cbn. replace ((17 - 5 - 12) * ((17 - 5 - 12) * 1) + (17 - 7 - 10) * ((17 - 7 - 10) * 1))%R with 0%R by ring. rewrite sqrt_0. lra. }
  assert (P0 : ~ (a 0%Z 0%Z < 1)%R).
  { intros Y. apply W0 in Y. destruct Y as (b & [<-|[]] & Y). cbn in Y.
    assert (Z3 : (sqrt (3 * 3) <= sqrt ((17 - 5 - 0) * ((17 - 5 - 0) * 1) + (17 - 7 - 0) * ((17 - 7 - 0) * 1)))%R) by (apply sqrt_le_1; lra).
    rewrite sqrt_square in Z3 by lra. lra. }
  assert (N1 : within_circle 16 flat_wcs (5, 7) [mid] 10 12).
  { exists mid. split; [left; reflexivity|]. unfold dist. cbn. replace ((17 - 5 - 12) * ((17 - 5 - 12) * 1) + (17 - 7 - 10) * ((17 - 7 - 10) * 1))%R with 0%R by ring. rewrite sqrt_0. lra. }
  assert (N0 : within_circle 16 flat_wcs (5, 7) [mid] 0 0).
  { exists mid. split; [left; reflexivity|]. unfold dist. cbn.
    assert (Z3 : (sqrt ((17 - 5 - 0) * ((17 - 5 - 0) * 1) + (17 - 7 - 0) * ((17 - 7 - 0) * 1)) <= sqrt (18 * 18))%R) by (apply sqrt_le_1; lra).
    rewrite sqrt_square in Z3 by lra. lra. }
  destruct (X 10 12 ltac:(lia) ltac:(lia)) as [X1 _]. destruct (X 0 0 ltac:(lia) ltac:(lia)) as [X0 _].
  destruct (Q2 10 12 ltac:(lia) ltac:(lia)) as (_ & C1 & _). destruct (C1 P1) as [V1' B1']. destruct (Q2 0 0 ltac:(lia) ltac:(lia)) as (_ & _ & C0). destruct (C0 P0) as [V0' B0'].
  rewrite B1', B1, (X1 N1), B0', B0, (X0 N0), V1', V0', V0. repeat split; reflexivity.
Qed.
