(** Properties C13-C20: apodization and foreground masking. *)
From Coq Require Import ZArith QArith Reals List String Bool Lia Lra Permutation.
From Verif Require Import Base Arr Interp_model Interp_spec Masking_model Masking_spec Masking_proofs.
Import ListNotations.
Local Open Scope string_scope.
Local Open Scope Z_scope.

(** C13: the kernel is in [0, 1]. *)
Theorem C13_range : forall x m h, (0 < h)%R -> (0 <= ap_kern_kern x m h <= 1)%R.
Proof. exact kern_range. Qed.
Print Assumptions C13_range.

(** C13: never decreasing, strictly increasing over the whole transition. *)
Theorem C13_monotone : forall x x' m h, (0 < h)%R -> (x <= x')%R ->
  (ap_kern_kern x m h <= ap_kern_kern x' m h)%R.
Proof. exact kern_mono. Qed.
Print Assumptions C13_monotone.

Theorem C13_strict : forall x x' m h, (0 < h)%R -> (m - 6 * h <= x)%R -> (x < x')%R -> (x' <= m)%R ->
  (ap_kern_kern x m h < ap_kern_kern x' m h)%R.
Proof. exact kern_strict. Qed.
Print Assumptions C13_strict.

(** C13: one exactly from m on, zero up to six scales below m. *)
Theorem C13_one_iff : forall x m h, (0 < h)%R -> ((ap_kern_kern x m h < 1)%R <-> (x < m)%R).
Proof. exact kern_lt1_iff. Qed.
Print Assumptions C13_one_iff.

Theorem C13_ends : forall x m h, (0 < h)%R ->
  ((m <= x)%R -> ap_kern_kern x m h = 1%R) /\ ((x <= m - 6 * h)%R -> ap_kern_kern x m h = 0%R).
Proof. intros x m h Hh. split; [exact (kern_one x m h Hh)|exact (kern_zero x m h Hh)]. Qed.
Print Assumptions C13_ends.

Lemma ex_range : get_ap_range (1 / 6) = 1.
Proof.
  destruct (get_ap_range_spec (1 / 6) ltac:(lra)) as [H1 [H2 H3]].
  assert (A : (IZR (get_ap_range (1 / 6)) < 2)%R) by lra. apply lt_IZR in A.
  assert (B : (0 < IZR (get_ap_range (1 / 6)))%R) by lra. apply lt_IZR in B. lia.
Qed.

Example C13_example : ap_kern_kern 4 8 (4 / 3) = (1 / 2)%R.
Proof.
  destruct (kern_cases 4 8 (4 / 3) ltac:(lra)) as [[H _]|[[H _]|[_ ->]]]; [lra|lra|].
  unfold kt. replace ((4 - 8) / (6 * (4 / 3)) + 1)%R with (1 / 2)%R by field. field.
Qed.

(** C14: the edge mask is the product of the four edge kernels. *)
Theorem C14_edge_mask : forall h r c i j, (0 < h)%R -> 0 <= i < r -> 0 <= j < c ->
  px (build_square_apodization_mask h (ifill r c 1%R)) i j = edge_factor h r c i j.
Proof. exact edge_mask_val. Qed.
Print Assumptions C14_edge_mask.

(** C14: it is one exactly on the pixels at least the apodization range away
    from every edge, and in [0, 1] elsewhere. *)
Theorem C14_frame : forall h r c i j, (0 < h)%R -> 0 <= i < r -> 0 <= j < c ->
  let v := px (build_square_apodization_mask h (ifill r c 1%R)) i j in
  (0 <= v <= 1)%R /\ (v = 1%R <-> get_ap_range h <= edge_distance r c i j).
Proof. exact edge_mask_spec. Qed.
Print Assumptions C14_frame.

(** C14: mirror symmetric, and the range is six scales, rounded. *)
Theorem C14_symmetric : forall h r c i j, (0 < h)%R -> 0 <= i < r -> 0 <= j < c ->
  let m := build_square_apodization_mask h (ifill r c 1%R) in
  px m (r - 1 - i) j = px m i j /\ px m i (c - 1 - j) = px m i j.
Proof. exact edge_mask_sym. Qed.
Print Assumptions C14_symmetric.

Theorem C14_range : forall h, (0 < h)%R ->
  0 <= get_ap_range h /\ (IZR (get_ap_range h) <= 6 * h + 1 / 2 < IZR (get_ap_range h) + 1)%R.
Proof. exact get_ap_range_spec. Qed.
Print Assumptions C14_range.

Example C14_example :
  px (build_square_apodization_mask (1 / 6) (ifill 3 3 1%R)) 1 1 = 1%R /\
  px (build_square_apodization_mask (1 / 6) (ifill 3 3 1%R)) 0 1 <> 1%R.
Proof.
  destruct (C14_frame (1 / 6) 3 3 1 1 ltac:(lra) ltac:(lia) ltac:(lia)) as [_ H1].
  destruct (C14_frame (1 / 6) 3 3 0 1 ltac:(lra) ltac:(lia) ltac:(lia)) as [_ H2].
  rewrite ex_range in *. split; [apply H1; vm_compute; discriminate|].
  intro X. apply H2 in X. vm_compute in X. now apply X.
Qed.

(** C15: every observation of every band is multiplied by the edge factor; pixels
    of the frame get zero weight, the mask bit and a masked fraction of one; the
    other pixels keep everything. *)
Theorem C15_edge_planes : forall mbobs h bit out r c, (0 < h)%R -> mb_shape r c mbobs ->
  apply_apodization_corrections mbobs h bit = Ok out ->
  Forall2 (Forall2 (apodized r c (edge_factor h r c) bit (fun _ _ => 0))) mbobs out.
Proof. exact edge_apply_spec. Qed.
Print Assumptions C15_edge_planes.

(** C15: and nothing raises, even when every pixel is in the frame. *)
Theorem C15_no_raise : forall mbobs h bit o0, mb_weights_nonneg mbobs -> first_obs mbobs = Ok o0 ->
  exists out, apply_apodization_corrections mbobs h bit = Ok out.
Proof. exact edge_apply_total. Qed.
Print Assumptions C15_no_raise.

Definition ex_obs : obs :=
  mkObs (ifill 3 3 5%R) (ifill 3 3 2%R) (ifill 3 3 1%R) (ifill 3 3 1) (Some (ifill 3 3 0%R)) true.
Lemma ex_shape : mb_shape 3 3 [[ex_obs]; [ex_obs]].
Proof.
  intros ol o Hol Ho. assert (o = ex_obs) as ->.
  { destruct Hol as [<-|[<-|[]]]; destruct Ho as [<-|[]]; reflexivity. }
  repeat split; cbn; intros; try reflexivity; apply Some_inj in H; now subst.
Qed.
Lemma ex_valid : mb_valid [[ex_obs]; [ex_obs]].
Proof.
  intros ol o Hol Ho. assert (o = ex_obs) as ->.
  { destruct Hol as [<-|[<-|[]]]; destruct Ho as [<-|[]]; reflexivity. }
  split; [intros; cbn; lra|]. intros _. exists 0, 0. split; [split; cbn; lia|cbn; lra].
Qed.
Example C15_example : exists out, apply_apodization_corrections [[ex_obs]; [ex_obs]] (1 / 6) 4 = Ok out /\
  exists o, nth_error (nth 1 out []) 0 = Some o /\
    px (o_weight o) 0 1 = 0%R /\ px (o_weight o) 1 1 = 1%R /\ px (o_bmask o) 0 1 = 5 /\ px (o_bmask o) 1 1 = 1 /\
    px (o_image o) 1 1 = 5%R.
Proof.
  destruct (C15_no_raise [[ex_obs]; [ex_obs]] (1 / 6) 4 ex_obs) as [out E].
  { intros ol o i j Hol Ho. now apply (ex_valid ol o Hol Ho). } { reflexivity. }
  exists out. split; [assumption|].
  assert (Hh : (0 < 1 / 6)%R) by lra.
  pose proof (C15_edge_planes _ _ _ _ 3 3 Hh ex_shape E) as F.
  inversion F as [|? ? ? ? _ F1]; subst. inversion F1 as [|? ? ? ? F2 _]; subst.
  inversion F2 as [|? o ? ? [_ P] _]; subst. exists o. split; [reflexivity|].
  pose proof (C14_edge_mask (1 / 6) 3 3 0 1 ltac:(lra) ltac:(lia) ltac:(lia)) as V0.
  pose proof (C14_edge_mask (1 / 6) 3 3 1 1 ltac:(lra) ltac:(lia) ltac:(lia)) as V1.
  destruct (C14_frame (1 / 6) 3 3 0 1 ltac:(lra) ltac:(lia) ltac:(lia)) as [R0 N0].
  destruct C14_example as [X1 X0]. rewrite V0 in *. rewrite V1 in *.
  destruct (P 0 1 ltac:(lia) ltac:(lia)) as [_ [_ [Q _]]].
  destruct (Q ltac:(lra)) as [W0 [B0 _]].
  destruct (P 1 1 ltac:(lia) ltac:(lia)) as [I1 [_ [_ Q1]]].
  destruct (Q1 X1) as [W1 [B1 _]]. rewrite W0, W1, B0, B1, I1, X1. cbn. repeat split; lra.
Qed.

(** C16/C17: the mask plane has the mask bit exactly on the pixels covered by a
    disc (or, when symmetrized, by the disc turned by 90 degrees) and zero
    elsewhere. *)
Theorem C16_union_of_discs : forall cat r c s bit out, radii_ok cat ->
  make_foreground_bmask cat r c s bit = Ok out ->
  nr out = r /\ nc out = c /\
  forall i j, 0 <= i < r -> 0 <= j < c ->
    (masked cat s r i j -> px out i j = bit) /\ (~ masked cat s r i j -> px out i j = 0).
Proof. exact foreground_bmask_spec. Qed.
Print Assumptions C16_union_of_discs.

Definition ex_cat : list hole := [mkHole 1 1 (6 / 5); mkHole 40 50 3].
Lemma ex_cat_ok : radii_ok ex_cat.
Proof. intros h [<-|[<-|[]]]; cbn; lra. Qed.
Lemma ex_masked : masked ex_cat false 5 1 2.
Proof.
  exists (mkHole 1 1 (6 / 5)). split; [now left|]. left. apply covers_iff; cbn; lra.
Qed.
Lemma ex_unmasked : ~ masked ex_cat false 5 3 3.
Proof.
  intros [h [Hh [Hc|[X _]]]]; [|discriminate]. apply covers_iff in Hc; [|now apply ex_cat_ok].
  destruct Hh as [<-|[<-|[]]]; cbn in Hc; lra.
Qed.
Example C16_example : exists out, make_foreground_bmask ex_cat 5 5 false 8 = Ok out /\
  px out 1 2 = 8 /\ px out 3 3 = 0.
Proof.
  destruct (proj2 (foreground_bmask_square ex_cat 5 5 false 8)) as [out E]; [now left|].
  exists out. split; [assumption|]. destruct (C16_union_of_discs _ _ _ _ _ _ ex_cat_ok E) as [_ [_ C]].
  split; [apply C; try lia; exact ex_masked|apply C; try lia; exact ex_unmasked].
Qed.

(** C17: symmetrizing needs a square image; otherwise ValueError. *)
Theorem C17_square_only : forall cat r c s bit,
  (exists out, make_foreground_bmask cat r c s bit = Ok out) <-> (s = false \/ r = c).
Proof. exact foreground_bmask_square. Qed.
Print Assumptions C17_square_only.

Theorem C17_not_square_raises : forall cat r c bit, r <> c ->
  make_foreground_bmask cat r c true bit = Raise ValueError.
Proof. exact foreground_bmask_nonsquare. Qed.
Print Assumptions C17_not_square_raises.

(** C17: the symmetrized mask is the bitwise or of the plain mask and its
    rotation by 90 degrees. *)
Theorem C17_or_with_rotation : forall cat n bit plain sym,
  make_foreground_bmask cat n n false bit = Ok plain ->
  make_foreground_bmask cat n n true bit = Ok sym ->
  forall i j, 0 <= i < n -> 0 <= j < n ->
    px sym i j = Z.lor (px plain i j) (px plain j (n - 1 - i)).
Proof.
  intros cat n bit plain sym E1 E2 i j Hi Hj. unfold make_foreground_bmask in *.
  apply Ok_inj in E1. rewrite E1 in E2.
  destruct (do_mask_shape cat bit (ifill n n 0)) as [A B]. rewrite E1 in A, B. cbn [nr nc ifill] in A, B.
  unfold symmetrize_with in E2. rewrite A, B, Z.eqb_refl in E2. apply Ok_inj in E2. subst sym.
  cbn [px imap2 rot90]. now rewrite B.
Qed.
Print Assumptions C17_or_with_rotation.

Example C17_example : masked ex_cat true 5 2 1 /\ masked ex_cat true 5 3 1 /\ ~ masked ex_cat false 5 3 1.
Proof.
  split; [|split].
  - exists (mkHole 1 1 (6 / 5)). split; [now left|]. left. apply covers_iff; cbn; lra.
  - exists (mkHole 1 1 (6 / 5)). split; [now left|]. right. split; [reflexivity|]. apply covers_iff; cbn; lra.
  - intros [h [Hh [Hc|[X _]]]]; [|discriminate]. apply covers_iff in Hc; [|now apply ex_cat_ok].
    destruct Hh as [<-|[<-|[]]]; cbn in Hc; lra.
Qed.

(** C18: the apodization plane is the product over the objects of the kernel of
    the distance, is in [0, 1], and is below one exactly where the mask plane
    has its bit. *)
Theorem C18_value : forall cat r c s h out, (0 < h)%R -> radii_ok cat ->
  make_foreground_apodization_mask cat r c s h = Ok out ->
  nr out = r /\ nc out = c /\
  forall i j, 0 <= i < r -> 0 <= j < c -> px out i j = apod_factor h cat s r i j.
Proof. exact apod_mask_spec. Qed.
Print Assumptions C18_value.

Theorem C18_agrees_with_mask : forall cat r c s h bit ap m, (0 < h)%R -> radii_ok cat -> bit <> 0 ->
  make_foreground_apodization_mask cat r c s h = Ok ap ->
  make_foreground_bmask cat r c s bit = Ok m ->
  forall i j, 0 <= i < r -> 0 <= j < c ->
    (0 <= px ap i j <= 1)%R /\ ((px ap i j < 1)%R <-> px m i j = bit) /\
    (px ap i j = 1%R <-> px m i j = 0).
Proof.
  intros cat r c s h bit ap m Hh Hr Hb Ea Em i j Hi Hj.
  destruct (apod_mask_spec _ _ _ _ _ _ Hh Hr Ea) as [_ [_ A]]. rewrite (A i j Hi Hj).
  destruct (foreground_bmask_spec _ _ _ _ _ _ Hr Em) as [_ [_ B]]. destruct (B i j Hi Hj) as [B1 B2].
  destruct (apod_factor_spec h cat s r i j Hh) as [R L]. split; [assumption|].
  destruct (masked_dec cat s r i j) as [Y|N].
  - rewrite (B1 Y). assert (X : (apod_factor h cat s r i j < 1)%R) by now apply L.
    split; [tauto|]. split; [lra|contradiction].
  - rewrite (B2 N). assert (X : ~ (apod_factor h cat s r i j < 1)%R) by now rewrite L.
    split; [split; [contradiction|intro E; congruence]|]. split; [reflexivity|lra].
Qed.
Print Assumptions C18_agrees_with_mask.

(** C18: the order of the objects does not matter. *)
Theorem C18_order_independent : forall cat cat' r c s h ap ap', (0 < h)%R -> radii_ok cat ->
  Permutation cat cat' ->
  make_foreground_apodization_mask cat r c s h = Ok ap ->
  make_foreground_apodization_mask cat' r c s h = Ok ap' ->
  forall i j, 0 <= i < r -> 0 <= j < c -> px ap i j = px ap' i j.
Proof.
  intros cat cat' r c s h ap ap' Hh Hr HP E E' i j Hi Hj.
  assert (Hr' : radii_ok cat') by (intros x Hx; apply Hr; now apply (Permutation_in _ (Permutation_sym HP))).
  destruct (apod_mask_spec _ _ _ _ _ _ Hh Hr E) as [_ [_ A]].
  destruct (apod_mask_spec _ _ _ _ _ _ Hh Hr' E') as [_ [_ A']].
  rewrite A, A' by assumption. now apply apod_factor_perm.
Qed.
Print Assumptions C18_order_independent.

(** C18: one more object never raises a value. *)
Theorem C18_more_objects_lower : forall cat x r c s h ap ap', (0 < h)%R -> radii_ok (x :: cat) ->
  make_foreground_apodization_mask cat r c s h = Ok ap ->
  make_foreground_apodization_mask (x :: cat) r c s h = Ok ap' ->
  forall i j, 0 <= i < r -> 0 <= j < c -> (px ap' i j <= px ap i j)%R.
Proof.
  intros cat x r c s h ap ap' Hh Hr E E' i j Hi Hj.
  assert (Hr' : radii_ok cat) by (intros y Hy; apply Hr; now right).
  destruct (apod_mask_spec _ _ _ _ _ _ Hh Hr' E) as [_ [_ A]].
  destruct (apod_mask_spec _ _ _ _ _ _ Hh Hr E') as [_ [_ A']].
  rewrite A, A' by assumption. now apply apod_factor_add.
Qed.
Print Assumptions C18_more_objects_lower.

Example C18_example : exists ap, make_foreground_apodization_mask ex_cat 5 5 false (3 / 2) = Ok ap /\
  (px ap 1 2 < 1)%R /\ px ap 3 3 = 1%R.
Proof.
  eexists. split; [reflexivity|].
  destruct (C16_example) as [m [Em [M1 M2]]].
  destruct (C18_agrees_with_mask ex_cat 5 5 false (3 / 2) 8 _ m ltac:(lra) ex_cat_ok ltac:(lia) eq_refl Em 1 2 ltac:(lia) ltac:(lia)) as [_ [L _]].
  destruct (C18_agrees_with_mask ex_cat 5 5 false (3 / 2) 8 _ m ltac:(lra) ex_cat_ok ltac:(lia) eq_refl Em 3 3 ltac:(lia) ltac:(lia)) as [_ [_ E]].
  split; [now apply L|now apply E].
Qed.

(** C19, method apodize. *)
Theorem C19_apodize : forall W (sv : services W) mbobs cat rad bit ebit ibit s h iso out r c,
  (0 < h)%R -> radii_ok cat -> mb_shape r c mbobs ->
  apply_foreground_masking_corrections sv mbobs cat "apodize" rad bit ebit ibit s h iso = Ok out ->
  exists extra, expand_bits cat rad s r ebit r c extra /\
    Forall2 (Forall2 (apodized r c (apod_factor h cat s r) bit extra)) mbobs out.
Proof. exact fg_apodize_spec. Qed.
Print Assumptions C19_apodize.

(** C19, methods interp and interp-noise. *)
Theorem C19_interp : forall W (sv : services W) mbobs cat (noise : bool) rad bit ebit ibit s h iso out r c,
  radii_ok cat -> mb_shape r c mbobs -> bit <> 0 -> draws_ok sv ->
  apply_foreground_masking_corrections sv mbobs cat (if noise then "interp-noise" else "interp")
    rad bit ebit ibit s h iso = Ok out ->
  let M := fun p => masked cat s r (fst p) (snd p) in
  exists extra, expand_bits cat rad s r ebit r c extra /\
    Forall2 (Forall2 (interpolated r c M (filled r c M sv noise iso) bit ibit extra)) mbobs out.
Proof. exact fg_interp_spec. Qed.
Print Assumptions C19_interp.

(** C19: none of the three methods raises on valid observations. *)
Theorem C19_no_raise : forall W (sv : services W) mbobs cat method rad bit ebit ibit s h iso r c,
  (method = "apodize" \/ method = "interp" \/ (method = "interp-noise" /\ sv_rng sv <> None)) ->
  (s = false \/ r = c) -> (0 < h)%R -> radii_ok cat -> mb_shape r c mbobs -> mb_valid mbobs ->
  (exists o, first_obs mbobs = Ok o) -> bit <> 0 -> draws_ok sv -> 1 <= iso ->
  (forall pts, pts <> [] -> exists f, sv_build sv pts = Ok f) ->
  exists out, apply_foreground_masking_corrections sv mbobs cat method rad bit ebit ibit s h iso = Ok out.
Proof. exact fg_total. Qed.
Print Assumptions C19_no_raise.

(** C19: any other method name is a RuntimeError. *)
Theorem C19_unknown_method : forall W (sv : services W) mbobs cat method rad bit ebit ibit s h iso,
  method <> "interp" -> method <> "interp-noise" -> method <> "apodize" ->
  apply_foreground_masking_corrections sv mbobs cat method rad bit ebit ibit s h iso = Raise RuntimeError.
Proof. exact fg_unknown_method. Qed.
Print Assumptions C19_unknown_method.

Definition ex_sv : services unit :=
  mkServices unit (fun pts => match pts with [] => Raise ValueError | _ => Ok (fun _ => 7%R) end)
    (fun _ => tt) (Some (fun _ n _ => repeat 0%R n)).
Lemma ex_draws : draws_ok ex_sv.
Proof. intros normal k n w E. apply Some_inj in E. subst normal. apply repeat_length. Qed.
Lemma ex_m : masked ex_cat false 3 1 1.
Proof. exists (mkHole 1 1 (6 / 5)). split; [now left|]. left. apply covers_iff; cbn; lra. Qed.
Lemma ex_nm : ~ masked ex_cat false 3 0 0.
Proof.
  intros [h [Hh [Hc|[X _]]]]; [|discriminate]. apply covers_iff in Hc; [|now apply ex_cat_ok].
  destruct Hh as [<-|[<-|[]]]; cbn in Hc; lra.
Qed.
Example C19_example : exists out,
  apply_foreground_masking_corrections ex_sv [[ex_obs]; [ex_obs]] ex_cat "interp" 0 4 32 16 false (3 / 2) 1 = Ok out /\
  exists o, nth_error (nth 1 out []) 0 = Some o /\
    px (o_weight o) 1 1 = 0%R /\ px (o_bmask o) 1 1 = 21 /\ px (o_image o) 0 0 = 5%R /\ px (o_bmask o) 0 0 = 1.
Proof.
  destruct (C19_no_raise unit ex_sv [[ex_obs]; [ex_obs]] ex_cat "interp" 0 4 32 16 false (3 / 2) 1 3 3) as [out E];
    try lra; try lia; try tauto; try exact ex_cat_ok; try exact ex_shape; try exact ex_valid; try exact ex_draws.
  - exists ex_obs. reflexivity.
  - intros pts Hp. destruct pts; [now elim Hp|]. eexists; reflexivity.
  - exists out. split; [assumption|].
    destruct (C19_interp unit ex_sv _ _ false 0 4 32 16 false (3 / 2) 1 out 3 3 ex_cat_ok ex_shape ltac:(lia) ex_draws E)
      as [extra [Hx F]].
    inversion F as [|? ? ? ? _ F1]; subst. inversion F1 as [|? ? ? ? F2 _]; subst.
    inversion F2 as [|? o ? ? [_ [K I]] _]; subst. exists o. split; [reflexivity|].
    assert (X : forall i j, 0 <= i < 3 -> 0 <= j < 3 -> extra i j = 0).
    { intros i j Hi Hj. apply (Hx i j Hi Hj). intros [Y _]. lra. }
    destruct (K 0 0 ltac:(lia) ltac:(lia) ex_nm) as [_ [B0 _]].
    destruct I as [[All _]|[_ [Hf [_ S]]]].
    { exfalso. apply ex_nm. apply (All (0, 0)). split; cbn; lia. }
    destruct (S 1 1 ltac:(lia) ltac:(lia) ex_m) as [W1 [B1 _]].
    destruct Hf as [[pts [f [_ [_ [G _]]]]] _].
    { exists (1, 1). split; [split; cbn; lia|exact ex_m]. }
    specialize (G (0, 0)). cbn [fst snd] in G. rewrite G; [|split; cbn; lia|exact ex_nm].
    rewrite B0, B1, W1, !X by lia. cbn. repeat split.
Qed.

(** C20: growing the radii never unmasks a pixel; the mask with the larger
    expansion contains the one with the smaller. *)
Theorem C20_expansion_monotone : forall cat r c s bit rad rad' m m', radii_ok cat -> (0 <= rad <= rad')%R -> bit <> 0 ->
  make_foreground_bmask (grow rad cat) r c s bit = Ok m ->
  make_foreground_bmask (grow rad' cat) r c s bit = Ok m' ->
  forall i j, 0 <= i < r -> 0 <= j < c -> px m i j <> 0 -> px m' i j <> 0.
Proof. exact bmask_expand. Qed.
Print Assumptions C20_expansion_monotone.

(** C20: in every method's result, a masked pixel also has the expanded bit, and
    with no expansion radius no such bit is added. *)
Theorem C20_masked_is_expanded : forall cat rad s n ebit r c extra,
  expand_bits cat rad s n ebit r c extra ->
  ((0 < rad)%R -> forall i j, 0 <= i < r -> 0 <= j < c -> masked cat s n i j -> extra i j = ebit) /\
  ((rad <= 0)%R -> forall i j, 0 <= i < r -> 0 <= j < c -> extra i j = 0).
Proof.
  intros cat rad s n ebit r c extra H. split.
  - intros Hr i j Hi Hj Hm. apply (H i j Hi Hj). split; [assumption|]. apply masked_grow; [lra|assumption].
  - intros Hr i j Hi Hj. apply (H i j Hi Hj). intros [X _]. lra.
Qed.
Print Assumptions C20_masked_is_expanded.

(** C20: whatever the method, a pixel within the expanded radius of an object has
    the expanded bit in the result, a pixel outside has no bit the input did not
    have; so the recorded mask contains the unexpanded one. *)
Lemma lor_land : forall x b, Z.land (Z.lor x b) b = b.
Proof. intros. apply Z.bits_inj'. intros n Hn. rewrite Z.land_spec, Z.lor_spec. now destruct (Z.testbit x n), (Z.testbit b n). Qed.
Lemma Forall2_imp : forall A B (P Q : A -> B -> Prop) l l', (forall a b, P a b -> Q a b) -> Forall2 P l l' -> Forall2 Q l l'.
Proof. intros A B P Q l l' H F. induction F; constructor; auto. Qed.
Theorem C20_recorded : forall W (sv : services W) mbobs cat method rad bit ebit ibit s h iso out r c,
  method = "apodize" \/ method = "interp" \/ method = "interp-noise" ->
  (0 < h)%R -> radii_ok cat -> mb_shape r c mbobs -> bit <> 0 -> draws_ok sv -> (0 < rad)%R ->
  apply_foreground_masking_corrections sv mbobs cat method rad bit ebit ibit s h iso = Ok out ->
  Forall2 (Forall2 (fun o o' => forall i j, 0 <= i < r -> 0 <= j < c ->
    (masked (grow rad cat) s r i j -> Z.land (px (o_bmask o') i j) ebit = ebit) /\
    (masked cat s r i j -> Z.land (px (o_bmask o') i j) ebit = ebit) /\
    (~ masked (grow rad cat) s r i j -> px (o_bmask o') i j = px (o_bmask o) i j))) mbobs out.
Proof.
  intros W sv mbobs cat method rad bit ebit ibit s h iso out r c M Hh Hc Sh Hb Hd Hr E.
  assert (G : forall i j, masked cat s r i j -> masked (grow rad cat) s r i j) by (intros; apply masked_grow; [lra|assumption]).
  assert (K : exists extra, expand_bits cat rad s r ebit r c extra /\
    Forall2 (Forall2 (fun o o' => forall i j, 0 <= i < r -> 0 <= j < c ->
      (exists x, px (o_bmask o') i j = Z.lor x (extra i j)) /\
      (~ masked cat s r i j -> px (o_bmask o') i j = Z.lor (px (o_bmask o) i j) (extra i j)))) mbobs out).
  { destruct M as [->|M].
    - destruct (C19_apodize W sv mbobs cat rad bit ebit ibit s h iso out r c Hh Hc Sh E) as [extra [X F]].
      exists extra. split; [exact X|]. revert F. apply Forall2_imp. intros ol ol'. apply Forall2_imp. intros o o' [_ P] i j Hi Hj.
      destruct (P i j Hi Hj) as (_ & _ & P1 & P2). destruct (apod_factor_spec h cat s r i j Hh) as [[_ L1] L2].
      destruct (masked_dec cat s r i j) as [Y|N].
      + destruct (P1 (proj2 L2 Y)) as (_ & B & _). rewrite B, Z.lor_assoc. split; [eauto|contradiction].
      + assert (A1 : apod_factor h cat s r i j = 1%R).
        { destruct (Rlt_dec (apod_factor h cat s r i j) 1) as [L|L]; [exfalso; apply N, L2, L|lra]. }
        destruct (P2 A1) as (_ & B & _). rewrite B. split; [eauto|reflexivity].
    - assert (N : exists noise : bool, method = (if noise then "interp-noise" else "interp")) by (destruct M; [exists false|exists true]; assumption).
      destruct N as [noise ->].
      destruct (C19_interp W sv mbobs cat noise rad bit ebit ibit s h iso out r c Hc Sh Hb Hd E) as [extra [X F]].
      exists extra. split; [exact X|]. revert F. apply Forall2_imp. intros ol ol'. apply Forall2_imp. intros o o' [_ [P1 P2]] i j Hi Hj.
      destruct (masked_dec cat s r i j) as [Y|N].
      + split; [|contradiction]. destruct P2 as [(_ & _ & _ & P2)|(_ & _ & _ & P2)].
        * destruct (P2 i j Hi Hj) as (_ & B & _). rewrite B, Z.lor_assoc. eauto.
        * destruct (P2 i j Hi Hj Y) as (_ & B & _). rewrite B, Z.lor_assoc. eauto.
      + destruct (P1 i j Hi Hj N) as (_ & B & _). rewrite B. split; [eauto|reflexivity]. }
  destruct K as [extra [X F]]. revert F. apply Forall2_imp. intros ol ol'. apply Forall2_imp. intros o o' P i j Hi Hj.
  destruct (P i j Hi Hj) as [[x B] C]. destruct (X i j Hi Hj) as [X1 X2].
  assert (Z1 : masked (grow rad cat) s r i j -> Z.land (px (o_bmask o') i j) ebit = ebit).
  { intros Y. rewrite B, (X1 (conj Hr Y)). apply lor_land. }
  split; [exact Z1|]. split; [auto|].
  intros N. rewrite (C (fun Y => N (G i j Y))), X2 by tauto. apply Z.lor_0_r.
Qed.
Print Assumptions C20_recorded.

Example C20_example : ~ masked ex_cat false 5 3 3 /\ masked (grow 3 ex_cat) false 5 3 3.
Proof.
  split; [exact ex_unmasked|]. exists (mkHole 1 1 (6 / 5 + 3)). split; [now left|]. left.
  apply covers_iff; cbn; lra.
Qed.
