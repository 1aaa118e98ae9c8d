(** C122: masking steps one after the other. *)
From Coq Require Import ZArith QArith Reals List String Bool Lia Lra Permutation.
From Verif Require Import Base Arr Interp_model Interp_spec Masking_model Masking_spec Masking_proofs Masking_props Mcomp_spec Mcomp_proofs.
Import ListNotations.
Local Open Scope string_scope.
Local Open Scope Z_scope.

(** C122: the edge step on valid input gives valid input for the next step, and
    zero weights are still ignored exactly when they were and a positive weight is
    left. *)
Theorem C122_edge_valid : forall mbobs h bit out r c, (0 < h)%R -> mb_shape r c mbobs -> mb_valid mbobs ->
  apply_apodization_corrections mbobs h bit = Ok out ->
  Forall2 (Forall2 flag_right) mbobs out /\ mb_shape r c out /\ mb_valid out.
Proof. exact edge_valid. Qed.
Print Assumptions C122_edge_valid.

(** C122: so does the foreground step, with every method. *)
Theorem C122_foreground_valid : forall W (sv : services W) mbobs cat method rad bit ebit ibit s h iso out r c,
  method = "apodize" \/ method = "interp" \/ method = "interp-noise" ->
  (0 < h)%R -> radii_ok cat -> mb_shape r c mbobs -> mb_valid mbobs -> bit <> 0 -> draws_ok sv ->
  apply_foreground_masking_corrections sv mbobs cat method rad bit ebit ibit s h iso = Ok out ->
  Forall2 (Forall2 flag_right) mbobs out /\ mb_shape r c out /\ mb_valid out.
Proof. exact fg_valid. Qed.
Print Assumptions C122_foreground_valid.

(** C122: apodizing one catalogue and then another is apodizing both at once. *)
Theorem C122_two_catalogues : forall W (sv : services W) mbobs c1 c2 rad bit ebit ibit s h iso out1 out2 out r c,
  (0 < h)%R -> radii_ok (c1 ++ c2)%list -> mb_shape r c mbobs -> mb_valid mbobs ->
  apply_foreground_masking_corrections sv mbobs c1 "apodize" rad bit ebit ibit s h iso = Ok out1 ->
  apply_foreground_masking_corrections sv out1 c2 "apodize" rad bit ebit ibit s h iso = Ok out2 ->
  apply_foreground_masking_corrections sv mbobs (c1 ++ c2)%list "apodize" rad bit ebit ibit s h iso = Ok out ->
  Forall2 (Forall2 (same_obs r c)) out2 out.
Proof. exact two_catalogues. Qed.
Print Assumptions C122_two_catalogues.

(** C122: the order of the catalogue does not matter. *)
Theorem C122_catalogue_order : forall W (sv : services W) mbobs c1 c2 rad bit ebit ibit s h iso out1 out2 r c,
  (0 < h)%R -> radii_ok c1 -> mb_shape r c mbobs -> mb_valid mbobs -> Permutation c1 c2 ->
  apply_foreground_masking_corrections sv mbobs c1 "apodize" rad bit ebit ibit s h iso = Ok out1 ->
  apply_foreground_masking_corrections sv mbobs c2 "apodize" rad bit ebit ibit s h iso = Ok out2 ->
  Forall2 (Forall2 (same_obs r c)) out1 out2.
Proof. exact catalogue_order. Qed.
Print Assumptions C122_catalogue_order.

(** C122: the edges and the foreground can be apodized in either order. *)
Theorem C122_either_order : forall W (sv : services W) mbobs cat rad bit ebit ibit s h iso hb be o1 o2 p1 p2 r c,
  (0 < h)%R -> (0 < hb)%R -> radii_ok cat -> mb_shape r c mbobs -> mb_valid mbobs ->
  apply_apodization_corrections mbobs hb be = Ok o1 ->
  apply_foreground_masking_corrections sv o1 cat "apodize" rad bit ebit ibit s h iso = Ok o2 ->
  apply_foreground_masking_corrections sv mbobs cat "apodize" rad bit ebit ibit s h iso = Ok p1 ->
  apply_apodization_corrections p1 hb be = Ok p2 ->
  Forall2 (Forall2 (same_obs r c)) o2 p2.
Proof. exact edge_foreground. Qed.
Print Assumptions C122_either_order.

(** A run: the edges take every pixel of the example but the central one, and the
    foreground object takes that. Zero weights are ignored after the first step and no
    longer after the second. *)
Example C122_example : exists o1 o2 a b,
  apply_apodization_corrections [[ex_obs]; [ex_obs]] (1 / 6) 4 = Ok o1 /\
  apply_foreground_masking_corrections ex_sv o1 ex_cat "apodize" 0 8 32 16 false (3 / 2) 1 = Ok o2 /\
  nth_error (nth 1 o1 []) 0 = Some a /\ nth_error (nth 1 o2 []) 0 = Some b /\
  o_ignore_zero_weight a = true /\ o_ignore_zero_weight b = false /\
  px (o_bmask b) 1 1 = 9 /\ px (o_bmask a) 0 1 = 5 /\ px (o_weight b) 1 1 = 0%R /\ px (o_weight a) 1 1 = 1%R.
Proof.
  destruct C15_example as (o1 & E1 & a & Ea & W0 & W1 & B0 & B1 & _).
  destruct (C122_edge_valid [[ex_obs]; [ex_obs]] (1 / 6) 4 o1 3 3 ltac:(lra) ex_shape ex_valid E1) as (F1 & S1 & V1).
  destruct (C19_no_raise unit ex_sv o1 ex_cat "apodize" 0 8 32 16 false (3 / 2) 1 3 3) as [o2 E2];
    try lra; try lia; try tauto; try exact ex_cat_ok; try exact ex_draws; try assumption.
  { inversion F1 as [|? x ? y X1 _]; subst. inversion X1 as [|? x0 ? y0 _ _]; subst. exists x0. reflexivity. }
  { intros pts Hp. destruct pts; [now elim Hp|]. eexists; reflexivity. }
  destruct (C122_foreground_valid unit ex_sv o1 ex_cat "apodize" 0 8 32 16 false (3 / 2) 1 o2 3 3) as (F2 & S2 & V2);
    try lra; try lia; try tauto; try exact ex_cat_ok; try exact ex_draws; try assumption.
  destruct (C19_apodize unit ex_sv o1 ex_cat 0 8 32 16 false (3 / 2) 1 o2 3 3 ltac:(lra) ex_cat_ok S1 E2) as (e & X & A2).
  pose proof (C15_edge_planes [[ex_obs]; [ex_obs]] (1 / 6) 4 o1 3 3 ltac:(lra) ex_shape E1) as A1.
  inversion F1 as [|? x1 ? y1 _ F1']; subst. inversion F1' as [|? x2 ? y2 F1a _]; subst. inversion F1a as [|? x3 ? y3 Fa _]; subst.
  cbn [nth nth_error] in Ea. apply Some_inj in Ea. subst x3.
  inversion A1 as [|? ? ? ? _ A1']; subst. inversion A1' as [|? ? ? ? A1a _]; subst. inversion A1a as [|? ? ? ? Aa _]; subst.
  inversion F2 as [|? x4 ? y4 _ F2']; subst. inversion F2' as [|? x5 ? y5 F2a _]; subst. inversion F2a as [|? b ? y6 Fb _]; subst.
  inversion A2 as [|? ? ? ? _ A2']; subst. inversion A2' as [|? ? ? ? A2a _]; subst. inversion A2a as [|? ? ? ? Ab _]; subst.
  eexists; eexists; exists a, b. split; [exact E1|]. split; [exact E2|]. split; [reflexivity|]. split; [reflexivity|].
  assert (K : (apod_factor (3 / 2) ex_cat false 3 1 1 < 1)%R) by (apply apod_factor_spec; [lra|exact ex_m]).
  destruct Ab as [Sb Pb]. destruct (Pb 1 1 ltac:(lia) ltac:(lia)) as (_ & _ & Q & _). destruct (Q K) as (W1b & B1b & _). clear Q.
  assert (Ha : o_ignore_zero_weight a = true).
  { apply Fa. split; [reflexivity|]. exists 1, 1. destruct Aa as [(_ & _ & [N1 N2] & _) _]. split; [split; [rewrite N1|rewrite N2]; lia|rewrite W1; lra]. }
  assert (Z0 : forall i j, 0 <= i < 3 -> 0 <= j < 3 -> px (o_weight b) i j = 0%R).
  { intros i j Hi Hj. assert (D : (i = 1 /\ j = 1) \/ edge_distance 3 3 i j < get_ap_range (1 / 6)).
    { rewrite ex_range. unfold edge_distance. lia. }
    destruct D as [[-> ->]|D]; [exact W1b|].
    assert (Za : px (o_weight a) i j = 0%R).
    { destruct Aa as [_ Pa]. destruct (Pa i j Hi Hj) as (_ & _ & Q & _). apply Q.
      destruct (C14_frame (1 / 6) 3 3 i j ltac:(lra) Hi Hj) as [R0 N0]. rewrite (C14_edge_mask (1 / 6) 3 3 i j ltac:(lra) Hi Hj) in R0, N0.
      destruct (Rlt_dec (edge_factor (1 / 6) 3 3 i j) 1) as [L|NL]; [exact L|]. exfalso. assert (Y : edge_factor (1 / 6) 3 3 i j = 1%R) by lra. apply N0 in Y. lia. }
    destruct (Pb i j Hi Hj) as (_ & _ & Q1 & Q2). destruct (apod_factor_spec (3 / 2) ex_cat false 3 i j ltac:(lra)) as [R1 _].
    destruct (Rlt_dec (apod_factor (3 / 2) ex_cat false 3 i j) 1) as [L|NL]; [exact (proj1 (Q1 L))|]. destruct Q2 as [Q2 _]; [lra|]. congruence. }
  split; [exact Ha|]. split.
  { apply not_true_is_false. intros Y. apply Fb in Y. destruct Y as [_ (i & j & [I1 I2] & P)]. destruct Sb as (_ & _ & [N1 N2] & _).
    rewrite N1 in I1. rewrite N2 in I2. rewrite (Z0 i j I1 I2) in P. lra. }
  split; [|split; [exact B0|split; [exact W1b|exact W1]]].
  rewrite B1b, B1. destruct (X 1 1 ltac:(lia) ltac:(lia)) as [_ X0]. rewrite X0 by (intros [Y _]; lra). reflexivity.
Qed.
