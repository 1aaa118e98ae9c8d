(** Proofs for C122. *)
From Coq Require Import ZArith QArith Reals List String Bool Lia Lra Btauto Permutation.
From Verif Require Import Base Arr Interp_model Interp_spec Masking_model Masking_spec Masking_proofs Mcomp_spec.
Import ListNotations.
Local Open Scope string_scope.
Local Open Scope Z_scope.

(** ** The flag for zero weights *)
Lemma exit_flag : forall o o', exit_writeable o = Ok o' -> o' = o /\
  (o_ignore_zero_weight o = true -> exists i j, inside (o_weight o) i j /\ (0 < px (o_weight o) i j)%R).
Proof.
  intros o o' H. unfold exit_writeable in H. destruct (o_ignore_zero_weight o && negb (img_any (Rltb 0) (o_weight o))) eqn:E; [discriminate H|].
  apply Ok_inj in H. split; [congruence|]. intros Hi. rewrite Hi in E. cbn [andb] in E. apply negb_false_iff, img_any_spec in E.
  destruct E as (i & j & I1 & I2). exists i, j. split; [exact I1|]. apply Rltb_spec. exact I2.
Qed.

Lemma zero_flag : forall r c msk o, nr msk = r -> nc msk = c -> nr (o_weight o) = r -> nc (o_weight o) = c ->
  (o_ignore_zero_weight (zero_weights msk o) = true -> o_ignore_zero_weight o = true) /\
  (o_ignore_zero_weight o = true ->
   (exists i j, inside (o_weight (zero_weights msk o)) i j /\ (0 < px (o_weight (zero_weights msk o)) i j)%R) ->
   o_ignore_zero_weight (zero_weights msk o) = true).
Proof.
  intros r c msk o M1 M2 W1 W2. unfold zero_weights. cbn [o_ignore_zero_weight o_weight]. split.
  - intros H. destruct (img_all (Reqb 0) _); [discriminate H|]. destruct (img_all (fun b => b) msk); [discriminate H|exact H].
  - intros Hi (i & j & [I1 I2] & P). cbn [nr nc upd_where] in I1, I2.
    assert (A : img_all (Reqb 0) (upd_where msk (fun _ _ _ => 0%R) (o_weight o)) = false).
    { apply not_true_is_false. intros X. rewrite img_all_spec in X. specialize (X i j (conj I1 I2)). apply Reqb_spec in X. lra. }
    rewrite A. assert (B : img_all (fun b => b) msk = false).
    { apply not_true_is_false. intros X. rewrite img_all_spec in X. rewrite W1 in I1. rewrite W2 in I2.
      specialize (X i j). cbv beta in X. rewrite <- M1 in I1. rewrite <- M2 in I2. specialize (X (conj I1 I2)).
      cbn [px upd_where] in P. rewrite X in P. lra. }
    rewrite B. exact Hi.
Qed.

Lemma step_flag : forall r c msk o o1 o', nr msk = r -> nc msk = c -> nr (o_weight o) = r -> nc (o_weight o) = c ->
  o_weight o1 = o_weight o -> o_ignore_zero_weight o1 = o_ignore_zero_weight o ->
  exit_writeable (zero_weights msk o1) = Ok o' -> flag_right o o'.
Proof.
  intros r c msk o o1 o' M1 M2 W1 W2 E1 E2 H. apply exit_flag in H. destruct H as [-> X].
  destruct (zero_flag r c msk o1 M1 M2) as [Z1 Z2]; [congruence|congruence|]. rewrite E2 in *. split.
  - intros Hi. split; [exact (Z1 Hi)|exact (X Hi)].
  - intros [Hi Hp]. exact (Z2 Hi Hp).
Qed.

Lemma flag_same : forall o, obs_good o -> flag_right o o.
Proof. intros o [_ H]. split; [intros Hi; split; [exact Hi|exact (H Hi)]|intros [Hi _]; exact Hi]. Qed.

Lemma flag_trans : forall o o1 o2, flag_right o o1 -> flag_right o1 o2 ->
  (forall i j, inside (o_weight o2) i j -> (0 < px (o_weight o2) i j)%R -> inside (o_weight o1) i j /\ (0 < px (o_weight o1) i j)%R) ->
  flag_right o o2.
Proof.
  intros o o1 o2 H1 H2 Hw. split.
  - intros Hi. apply H2 in Hi. destruct Hi as [Hi Hp]. split; [|exact Hp]. apply H1 in Hi. exact (proj1 Hi).
  - intros [Hi (i & j & I & P)]. apply H2. split; [|exists i, j; split; assumption]. apply H1. split; [exact Hi|].
    exists i, j. exact (Hw i j I P).
Qed.

Lemma interp_flag : forall W (sv : services W) fill iso fg bit ibit n o n' o' r c, nr fg = r -> nc fg = c -> obs_shape r c o ->
  interp_obs sv fill iso fg bit ibit n o = Ok (n', o') -> flag_right o o'.
Proof.
  intros W sv fill iso fg bit ibit n o n' o' r c F1 F2 (_ & _ & [W1 W2] & _) H. unfold interp_obs in H. cbv zeta in H.
  set (bad := imap (fun z => negb (z =? 0)) fg) in H.
  match type of H with context [zero_weights bad ?x] => set (o1 := x) in H end.
  destruct (zero_flag r c bad o1) as [Z1 Z2]; [exact F1|exact F2|exact W1|exact W2|].
  change (o_ignore_zero_weight o1) with (o_ignore_zero_weight o) in Z1, Z2.
  set (o2 := zero_weights bad o1) in *. clearbody o2.
  match type of H with obind ?t _ = _ => destruct t as [[ims nos]|] end; cbn [obind] in H; [|discriminate H].
  assert (G : forall a b d, exit_writeable (mkObs a b (imap (fun _ => 0%R) (o_weight o2)) (imap (fun v => Z.lor v bit) (o_bmask o2)) d false) = Ok o' -> flag_right o o').
  { intros a b d X. apply exit_flag in X. destruct X as [-> _]. split; [discriminate|]. intros [_ (i & j & _ & P)]. cbn [o_weight px imap] in P. lra. }
  destruct ims as [im|], nos as [no|];
    match type of H with context [exit_writeable ?x] => destruct (exit_writeable x) as [o3|] eqn:Ex end; cbn [obind] in H; try discriminate H;
    apply Ok_inj, pair_equal_spec in H; destruct H as [_ <-]; try exact (G _ _ _ Ex).
  apply exit_flag in Ex. destruct Ex as [-> X]. cbn [o_ignore_zero_weight o_weight] in *. split.
  - intros Hi. split; [exact (Z1 Hi)|exact (X Hi)].
  - intros [Hi Hp]. exact (Z2 Hi Hp).
Qed.

Lemma F2_all_same : forall (mbobs : list (list obs)), mb_good mbobs -> Forall2 (Forall2 flag_right) mbobs mbobs.
Proof. intros mbobs H. apply Forall2_same. intros ol Hol. apply Forall2_same. intros o Ho. apply flag_same. exact (H ol Hol o Ho). Qed.

Lemma apod_flags : forall (f : img R -> img bool -> Z -> obs -> outcome obs) r c am bit mbobs out, nr am = r -> nc am = c ->
  (forall msk o o', nr msk = r -> nc msk = c -> obs_shape r c o -> f am msk bit o = Ok o' -> flag_right o o') ->
  mb_shape r c mbobs -> mb_good mbobs ->
  (let msk := imap (fun v => Rltb v 1) am in
   if img_any (fun b => b) msk then omap (omap (f am msk bit)) mbobs else Ok mbobs) = Ok out ->
  Forall2 (Forall2 flag_right) mbobs out.
Proof.
  intros f r c am bit mbobs out A1 A2 Hf Hs Hg. cbv zeta. set (msk := imap (fun v => Rltb v 1) am). intros H.
  destruct (img_any (fun b => b) msk).
  - apply (Forall2_omap _ _ _ _ _ _ H). intros ol ol' Hol Hm. apply (Forall2_omap _ _ _ _ _ _ Hm).
    intros o o' Ho E. exact (Hf msk o o' A1 A2 (Hs ol o Hol Ho) E).
  - apply Ok_inj in H. subst out. exact (F2_all_same mbobs Hg).
Qed.

Lemma edge_flags : forall mbobs h bit out r c, mb_shape r c mbobs -> mb_good mbobs ->
  apply_apodization_corrections mbobs h bit = Ok out -> Forall2 (Forall2 flag_right) mbobs out.
Proof.
  intros mbobs h bit out r c Hs Hg H. unfold apply_apodization_corrections in H.
  destruct (first_obs mbobs) as [o0|] eqn:E0; cbn [obind] in H; [|discriminate H].
  destruct (first_obs_shape r c _ _ Hs E0) as [Er Ec]. rewrite Er, Ec in H.
  destruct (square_mask_shape h (ifill r c 1%R)) as [A B].
  refine (apod_flags apodize_edge_obs r c _ bit mbobs out A B _ Hs Hg H).
  intros msk o o' M1 M2 (_ & _ & [W1 W2] & _) E. unfold apodize_edge_obs in E.
  refine (step_flag r c msk o _ o' M1 M2 W1 W2 _ _ E); reflexivity.
Qed.

Lemma apodize_flags : forall mbobs cat s h bit out r c, (0 < h)%R -> radii_ok cat -> mb_shape r c mbobs -> mb_good mbobs ->
  apply_mask_apodize mbobs cat s h bit = Ok out -> Forall2 (Forall2 flag_right) mbobs out.
Proof.
  intros mbobs cat s h bit out r c Hh Hr Hs Hg H. unfold apply_mask_apodize in H.
  destruct (first_obs mbobs) as [o0|] eqn:E0; cbn [obind] in H; [|discriminate H].
  destruct (first_obs_shape r c _ _ Hs E0) as [Er Ec]. rewrite Er, Ec in H.
  destruct (make_foreground_apodization_mask cat r c s h) as [am|] eqn:Ea; cbn [obind] in H; [|discriminate H].
  destruct (apod_mask_spec cat r c s h am Hh Hr Ea) as [A [B _]].
  refine (apod_flags apodize_obs r c am bit mbobs out A B _ Hs Hg H).
  intros msk o o' M1 M2 (_ & _ & [W1 W2] & _) E. unfold apodize_obs in E.
  refine (step_flag r c msk o _ o' M1 M2 W1 W2 _ _ E); reflexivity.
Qed.

Lemma interp_flags : forall W (sv : services W) mbobs cat s bit ibit fill iso out r c, radii_ok cat -> mb_shape r c mbobs -> mb_good mbobs ->
  apply_mask_interp sv mbobs cat s bit ibit fill iso = Ok out -> Forall2 (Forall2 flag_right) mbobs out.
Proof.
  intros W sv mbobs cat s bit ibit fill iso out r c Hr Hs Hg H. unfold apply_mask_interp in H.
  destruct (first_obs mbobs) as [o0|] eqn:E0; cbn [obind] in H; [|discriminate H].
  destruct (first_obs_shape r c _ _ Hs E0) as [Er Ec]. rewrite Er, Ec in H.
  destruct (make_foreground_bmask cat r c s bit) as [fg|] eqn:Ef; cbn [obind] in H; [|discriminate H].
  destruct (foreground_bmask_spec cat r c s bit fg Hr Ef) as (A & B & _).
  destruct (img_any _ fg).
  - destruct (omap_st (omap_st (interp_obs sv fill iso fg bit ibit)) 0%nat mbobs) as [rr|] eqn:E; cbn [obind] in H; [|discriminate H].
    apply Ok_inj in H. subst out. apply (Forall2_omap_st _ _ _ _ _ _ _ _ E). intros st ol st' ol' Hol E'.
    change ol' with (snd (st', ol')). apply (Forall2_omap_st _ _ _ _ _ _ _ _ E'). intros s1 o s2 o' Ho Heq.
    exact (interp_flag W sv fill iso fg bit ibit s1 o s2 o' r c A B (Hs ol o Hol Ho) Heq).
  - apply Ok_inj in H. subst out. exact (F2_all_same mbobs Hg).
Qed.

Lemma expand_flags : forall rad cat s ebit mbobs mid out, Forall2 (Forall2 flag_right) mbobs mid ->
  expand_step rad cat s ebit mid = Ok out -> Forall2 (Forall2 flag_right) mbobs out.
Proof.
  intros rad cat s ebit mbobs mid out HF H. unfold expand_step in H. destruct (Rltb 0 rad).
  - destruct (first_obs mid) as [o0|]; cbn [obind] in H; [|discriminate H].
    destruct (make_foreground_bmask (grow rad cat) _ _ s ebit) as [ex|]; cbn [obind] in H; [|discriminate H].
    revert out H. induction HF as [|ol ol1 l l1 Hol HF IH]; intros out H; cbn [omap] in H; [apply Ok_inj in H; subst out; constructor|].
    destruct (omap (fun o => exit_writeable (add_bits ex o)) ol1) as [ol2|] eqn:E1; cbn [obind] in H; [|discriminate H].
    destruct (omap _ l1) as [l2|] eqn:E2; cbn [obind] in H; [|discriminate H].
    apply Ok_inj in H. subst out. constructor; [|exact (IH _ eq_refl)]. clear - Hol E1.
    revert ol2 E1. induction Hol as [|o o1 l l1 Ho HF IH]; intros ol2 H; cbn [omap] in H; [apply Ok_inj in H; subst ol2; constructor|].
    destruct (exit_writeable (add_bits ex o1)) as [o2|] eqn:E1; cbn [obind] in H; [|discriminate H].
    destruct (omap _ l1) as [l2|] eqn:E2; cbn [obind] in H; [|discriminate H].
    apply Ok_inj in H. subst ol2. apply exit_writeable_ok in E1. subst o2. constructor; [exact Ho|exact (IH _ eq_refl)].
  - apply Ok_inj in H. subst out. exact HF.
Qed.

Lemma valid_good : forall mbobs, mb_valid mbobs <-> mb_good mbobs.
Proof. intros mbobs. split; intros H ol; [intros Hol o Ho; exact (H ol o Hol Ho)|intros o Hol Ho; exact (H ol Hol o Ho)]. Qed.

Lemma fg_flags : forall W (sv : services W) mbobs cat method rad bit ebit ibit s h iso out r c,
  (0 < h)%R -> radii_ok cat -> mb_shape r c mbobs -> mb_valid mbobs ->
  apply_foreground_masking_corrections sv mbobs cat method rad bit ebit ibit s h iso = Ok out ->
  Forall2 (Forall2 flag_right) mbobs out.
Proof.
  intros W sv mbobs cat method rad bit ebit ibit s h iso out r c Hh Hr Hs Hv H. apply valid_good in Hv. rewrite apply_fg_unfold in H.
  match type of H with obind ?t _ = _ => destruct t as [mid|] eqn:E end; cbn [obind] in H; [|discriminate H].
  refine (expand_flags rad cat s ebit mbobs mid out _ H).
  destruct (String.eqb method "interp"); [exact (interp_flags _ _ _ _ _ _ _ _ _ _ r c Hr Hs Hv E)|].
  destruct (String.eqb method "interp-noise"); [exact (interp_flags _ _ _ _ _ _ _ _ _ _ r c Hr Hs Hv E)|].
  destruct (String.eqb method "apodize"); [exact (apodize_flags _ _ _ _ _ _ r c Hh Hr Hs Hv E)|discriminate E].
Qed.

(** ** The result is valid input again *)
Lemma F2_both2 : forall A B (P Q : A -> B -> Prop) l l', Forall2 P l l' -> Forall2 Q l l' -> Forall2 (fun a b => P a b /\ Q a b) l l'.
Proof. intros A B P Q l l' H. induction H; intros H'; inversion H'; subst; constructor; auto. Qed.
Lemma F22_both : forall A B (P Q : A -> B -> Prop) l l', Forall2 (Forall2 P) l l' -> Forall2 (Forall2 Q) l l' ->
  Forall2 (Forall2 (fun a b => P a b /\ Q a b)) l l'.
Proof. intros A B P Q l l' H. induction H; intros H'; inversion H'; subst; constructor; auto. apply F2_both2; assumption. Qed.
Lemma F22_weaken : forall A B (P Q : A -> B -> Prop) l l', (forall a b, P a b -> Q a b) -> Forall2 (Forall2 P) l l' -> Forall2 (Forall2 Q) l l'.
Proof.
  intros A B P Q l l' HPQ H. induction H as [|a b l l' E H IH]; constructor; [|exact IH].
  clear - HPQ E. induction E; constructor; auto.
Qed.
Lemma F22_in : forall A B (P : A -> B -> Prop) l l' bl b, Forall2 (Forall2 P) l l' -> In bl l' -> In b bl ->
  exists al a, In al l /\ In a al /\ P a b.
Proof.
  intros A B P l l' bl b H I1 I2. destruct (Forall2_in_r _ _ _ _ _ _ H I1) as (al & J & F).
  destruct (Forall2_in_r _ _ _ _ _ _ F I2) as (a & J2 & Q). exists al, a. split; [exact J|]. split; assumption.
Qed.

(** Weights stay or become zero. *)
Definition weights_shrink (r c : Z) (o o' : obs) : Prop := obs_shape r c o' /\
  forall i j, 0 <= i < r -> 0 <= j < c -> px (o_weight o') i j = px (o_weight o) i j \/ px (o_weight o') i j = 0%R.
Lemma shrink_valid : forall r c mbobs out, mb_shape r c mbobs -> mb_valid mbobs ->
  Forall2 (Forall2 (weights_shrink r c)) mbobs out -> Forall2 (Forall2 flag_right) mbobs out -> mb_shape r c out /\ mb_valid out.
Proof.
  intros r c mbobs out Hs Hv H1 H2. split; [apply (Forall2_shape _ r c _ _ H1); intros o o' X; apply X|].
  pose proof (F22_both _ _ _ _ _ _ H1 H2) as H. intros ol o Hol Ho. destruct (F22_in _ _ _ _ _ _ _ H Hol Ho) as (ol0 & o0 & I1 & I2 & [Hsh Hw] & Hf).
  destruct (Hv ol0 o0 I1 I2) as [N _]. destruct (Hs ol0 o0 I1 I2) as (_ & _ & [S1 S2] & _). destruct Hsh as (_ & _ & [S1' S2'] & _).
  split; [|intros Hi; exact (proj2 (proj1 Hf Hi))].
  intros i j [Hi Hj]. rewrite S1' in Hi. rewrite S2' in Hj. destruct (Hw i j Hi Hj) as [-> | ->]; [|lra]. apply N. split; [rewrite S1|rewrite S2]; assumption.
Qed.

Lemma apodized_shrink : forall r c a bits e o o', (forall i j, 0 <= i < r -> 0 <= j < c -> (a i j <= 1)%R) ->
  apodized r c a bits e o o' -> weights_shrink r c o o'.
Proof.
  intros r c a bits e o o' Ha [Hs H]. split; [exact Hs|]. intros i j Hi Hj. destruct (H i j Hi Hj) as (_ & _ & Hm & Hk). specialize (Ha i j Hi Hj).
  destruct (Rlt_dec (a i j) 1) as [L|N]; [right; apply (Hm L)|left; apply Hk; lra].
Qed.
Lemma interpolated_shrink : forall r c cat s n F bit ibit e o o', 
  interpolated r c (fun p => masked cat s n (fst p) (snd p)) F bit ibit e o o' -> weights_shrink r c o o'.
Proof.
  intros r c cat s n F bit ibit e o o' (Hs & Hk & Hm). split; [exact Hs|]. intros i j Hi Hj.
  destruct (masked_dec cat s n i j) as [Y|N]; [|left; apply (Hk i j Hi Hj N)]. right.
  destruct Hm as [(_ & _ & _ & Hm)|(_ & _ & _ & Hm)]; [apply (Hm i j Hi Hj)|apply (Hm i j Hi Hj Y)].
Qed.

Lemma edge_le1 : forall h r c i j, (0 < h)%R -> 0 <= i < r -> 0 <= j < c -> (0 <= edge_factor h r c i j <= 1)%R.
Proof.
  intros h r c i j Hh Hi Hj. destruct (edge_mask_spec h r c i j Hh Hi Hj) as [HR _].
  rewrite (edge_mask_val h r c i j Hh Hi Hj) in HR. exact HR.
Qed.

Lemma edge_valid : forall mbobs h bit out r c, (0 < h)%R -> mb_shape r c mbobs -> mb_valid mbobs ->
  apply_apodization_corrections mbobs h bit = Ok out -> Forall2 (Forall2 flag_right) mbobs out /\ mb_shape r c out /\ mb_valid out.
Proof.
  intros mbobs h bit out r c Hh Hs Hv H. pose proof (edge_flags mbobs h bit out r c Hs (proj1 (valid_good _) Hv) H) as HF.
  split; [exact HF|]. refine (shrink_valid r c mbobs out Hs Hv _ HF).
  refine (F22_weaken _ _ _ _ _ _ _ (edge_apply_spec mbobs h bit out r c Hh Hs H)). intros o o'. apply apodized_shrink.
  intros i j Hi Hj. apply (edge_le1 h r c i j Hh Hi Hj).
Qed.

Lemma fg_valid : forall W (sv : services W) mbobs cat method rad bit ebit ibit s h iso out r c,
  method = "apodize" \/ method = "interp" \/ method = "interp-noise" ->
  (0 < h)%R -> radii_ok cat -> mb_shape r c mbobs -> mb_valid mbobs -> bit <> 0 -> draws_ok sv ->
  apply_foreground_masking_corrections sv mbobs cat method rad bit ebit ibit s h iso = Ok out ->
  Forall2 (Forall2 flag_right) mbobs out /\ mb_shape r c out /\ mb_valid out.
Proof.
  intros W sv mbobs cat method rad bit ebit ibit s h iso out r c Hm Hh Hr Hs Hv Hbit Hd H.
  pose proof (fg_flags W sv mbobs cat method rad bit ebit ibit s h iso out r c Hh Hr Hs Hv H) as HF.
  split; [exact HF|]. refine (shrink_valid r c mbobs out Hs Hv _ HF). destruct Hm as [-> |[-> | ->]].
  - destruct (fg_apodize_spec W sv mbobs cat rad bit ebit ibit s h iso out r c Hh Hr Hs H) as (e & _ & F).
    refine (F22_weaken _ _ _ _ _ _ _ F). intros o o'. apply apodized_shrink. intros i j _ _. apply apod_factor_spec. exact Hh.
  - destruct (fg_interp_spec W sv mbobs cat false rad bit ebit ibit s h iso out r c Hr Hs Hbit Hd H) as (e & _ & F).
    refine (F22_weaken _ _ _ _ _ _ _ F). intros o o'. apply interpolated_shrink.
  - destruct (fg_interp_spec W sv mbobs cat true rad bit ebit ibit s h iso out r c Hr Hs Hbit Hd H) as (e & _ & F).
    refine (F22_weaken _ _ _ _ _ _ _ F). intros o o'. apply interpolated_shrink.
Qed.

Lemma apod_valid : forall W (sv : services W) mbobs cat rad bit ebit ibit s h iso out r c,
  (0 < h)%R -> radii_ok cat -> mb_shape r c mbobs -> mb_valid mbobs ->
  apply_foreground_masking_corrections sv mbobs cat "apodize" rad bit ebit ibit s h iso = Ok out ->
  Forall2 (Forall2 flag_right) mbobs out /\ mb_shape r c out /\ mb_valid out.
Proof.
  intros W sv mbobs cat rad bit ebit ibit s h iso out r c Hh Hr Hs Hv H.
  pose proof (fg_flags W sv mbobs cat "apodize" rad bit ebit ibit s h iso out r c Hh Hr Hs Hv H) as HF.
  split; [exact HF|]. refine (shrink_valid r c mbobs out Hs Hv _ HF).
  destruct (fg_apodize_spec W sv mbobs cat rad bit ebit ibit s h iso out r c Hh Hr Hs H) as (e & _ & F).
  refine (F22_weaken _ _ _ _ _ _ _ F). intros o o'. apply apodized_shrink. intros i j _ _. apply apod_factor_spec. exact Hh.
Qed.

(** ** Two steps *)
Definition below (a : R) (z : Z) : Z := if Rltb a 1 then z else 0.
Lemma apodized_nf : forall r c a bits e o o' i j, apodized r c a bits e o o' -> (a i j <= 1)%R -> 0 <= i < r -> 0 <= j < c ->
  px (o_image o') i j = (px (o_image o) i j * a i j)%R /\ px (o_noise o') i j = (px (o_noise o) i j * a i j)%R /\
  px (o_weight o') i j = (if Rltb (a i j) 1 then 0 else px (o_weight o) i j)%R /\
  px (o_bmask o') i j = Z.lor (px (o_bmask o) i j) (Z.lor (below (a i j) bits) (e i j)) /\
  mfrac_rel (fun u v => v = if Rltb (a i j) 1 then 1%R else u) i j (o_mfrac o) (o_mfrac o').
Proof.
  intros r c a bits e o o' i j [_ H] Ha Hi Hj. destruct (H i j Hi Hj) as (A & B & Hm & Hk). split; [exact A|]. split; [exact B|].
  unfold below. destruct (Rltb (a i j) 1) eqn:E.
  - apply Rltb_spec in E. exact (Hm E).
  - apply Rltb_false in E. destruct Hk as (K1 & K2 & K3); [lra|]. split; [exact K1|]. split; [rewrite K2; f_equal|exact K3].
Qed.

Lemma F22_chain : forall A (P Q : A -> A -> Prop) (S : A -> A -> A -> Prop) l l1 l2,
  (forall a b d, P a b -> Q b d -> S a b d) -> Forall2 (Forall2 P) l l1 -> Forall2 (Forall2 Q) l1 l2 ->
  Forall2 (Forall2 (fun a d => exists b, S a b d)) l l2.
Proof.
  intros A P Q S l l1 l2 HS H. revert l2. induction H as [|a b l l1 E H IH]; intros l2 H2; inversion H2 as [|? d ? l3 E2 H3]; subst; constructor; [|exact (IH l3 H3)].
  clear - HS E E2. revert d E2. induction E as [|x y l l1 P0 E IH]; intros d E2; inversion E2 as [|? z ? l3 Q0 E3]; subst; constructor; [|exact (IH l3 E3)].
  exists y. exact (HS x y z P0 Q0).
Qed.
Lemma F22_join : forall A B D (P : A -> B -> Prop) (Q : A -> D -> Prop) (S : B -> D -> Prop) l lb ld,
  (forall a b d, In a (List.concat l) -> P a b -> Q a d -> S b d) -> Forall2 (Forall2 P) l lb -> Forall2 (Forall2 Q) l ld -> Forall2 (Forall2 S) lb ld.
Proof.
  intros A B D P Q S l lb ld HS H. revert ld HS. induction H as [|a b l l1 E H IH]; intros ld HS H2; inversion H2 as [|? d ? l3 E2 H3]; subst; constructor.
  - assert (HS' : forall x y z, In x a -> P x y -> Q x z -> S y z) by (intros x y z Hx; apply HS; cbn [List.concat]; apply in_or_app; left; exact Hx).
    clear - HS' E E2. revert d E2 HS'. induction E as [|x y l l1 P0 E IH]; intros d E2 HS'; inversion E2 as [|? z ? l3 Q0 E3]; subst; constructor.
    + exact (HS' x y z (or_introl eq_refl) P0 Q0).
    + apply (IH l3 E3). intros x' y' z' Hx. apply HS'. right. exact Hx.
  - apply (IH l3); [|exact H3]. intros x y z Hx. apply HS. cbn [List.concat]. apply in_or_app. right. exact Hx.
Qed.

(** What two apodizations leave. *)
Definition twice (r c : Z) (a a' : Z -> Z -> R) (bits : Z -> Z -> Z) (o o2 : obs) : Prop :=
  obs_shape r c o2 /\ flag_right o o2 /\
  forall i j, 0 <= i < r -> 0 <= j < c ->
    px (o_image o2) i j = (px (o_image o) i j * (a i j * a' i j))%R /\ px (o_noise o2) i j = (px (o_noise o) i j * (a i j * a' i j))%R /\
    px (o_weight o2) i j = (if Rltb (a i j) 1 || Rltb (a' i j) 1 then 0 else px (o_weight o) i j)%R /\
    px (o_bmask o2) i j = Z.lor (px (o_bmask o) i j) (bits i j) /\
    mfrac_rel (fun u v => v = if Rltb (a i j) 1 || Rltb (a' i j) 1 then 1%R else u) i j (o_mfrac o) (o_mfrac o2).

Lemma apodized_twice : forall r c a a' b b' e e' o o1 o2,
  (forall i j, 0 <= i < r -> 0 <= j < c -> (a i j <= 1)%R) -> (forall i j, 0 <= i < r -> 0 <= j < c -> (a' i j <= 1)%R) ->
  apodized r c a b e o o1 /\ flag_right o o1 -> apodized r c a' b' e' o1 o2 /\ flag_right o1 o2 ->
  twice r c a a' (fun i j => Z.lor (Z.lor (below (a i j) b) (e i j)) (Z.lor (below (a' i j) b') (e' i j))) o o2.
Proof.
  intros r c a a' b b' e e' o o1 o2 Ha Ha' [H1 F1] [H2 F2]. split; [apply H2|]. split.
  - refine (flag_trans o o1 o2 F1 F2 _). intros i j [Hi Hj] P.
    pose proof (proj1 H2) as (_ & _ & [S1 S2] & _). pose proof (proj1 H1) as (_ & _ & [S1' S2'] & _). rewrite S1 in Hi. rewrite S2 in Hj.
    split; [split; [rewrite S1'|rewrite S2']; assumption|].
    destruct (apodized_nf _ _ _ _ _ _ _ i j H2 (Ha' i j Hi Hj) Hi Hj) as (_ & _ & W & _). rewrite W in P. destruct (Rltb (a' i j) 1); [lra|exact P].
  - intros i j Hi Hj. destruct (apodized_nf _ _ _ _ _ _ _ i j H1 (Ha i j Hi Hj) Hi Hj) as (I1 & N1 & W1 & B1 & M1).
    destruct (apodized_nf _ _ _ _ _ _ _ i j H2 (Ha' i j Hi Hj) Hi Hj) as (I2 & N2 & W2 & B2 & M2).
    split; [rewrite I2, I1; ring|]. split; [rewrite N2, N1; ring|]. split; [rewrite W2, W1; destruct (Rltb (a i j) 1), (Rltb (a' i j) 1); reflexivity|].
    split; [rewrite B2, B1, <- !Z.lor_assoc; reflexivity|].
    unfold mfrac_rel in *. destruct (o_mfrac o), (o_mfrac o1), (o_mfrac o2); try contradiction; try exact Logic.I.
    rewrite M2, M1. destruct (Rltb (a i j) 1), (Rltb (a' i j) 1); reflexivity.
Qed.

Lemma twice_same : forall r c a a' t d d' u b b' o o2 o3, 
  (forall i j, 0 <= i < r -> 0 <= j < c -> (a i j * a' i j = d i j * d' i j)%R /\
     Rltb (a i j) 1 || Rltb (a' i j) 1 = Rltb (d i j) 1 || Rltb (d' i j) 1 /\ t i j = u i j) ->
  b = t -> b' = u ->
  twice r c a a' b o o2 -> twice r c d d' b' o o3 -> same_obs r c o2 o3.
Proof.
  intros r c a a' t d d' u b b' o o2 o3 He -> -> (S2 & F2 & H2) (S3 & F3 & H3).
  assert (P : forall i j, 0 <= i < r -> 0 <= j < c ->
    px (o_image o2) i j = px (o_image o3) i j /\ px (o_noise o2) i j = px (o_noise o3) i j /\
    px (o_weight o2) i j = px (o_weight o3) i j /\ px (o_bmask o2) i j = px (o_bmask o3) i j /\
    mfrac_rel (fun a b => a = b) i j (o_mfrac o2) (o_mfrac o3)).
  { intros i j Hi Hj. destruct (He i j Hi Hj) as (E1 & E2 & E3). destruct (H2 i j Hi Hj) as (I2 & N2 & W2 & B2 & M2).
    destruct (H3 i j Hi Hj) as (I3 & N3 & W3 & B3 & M3). rewrite I2, I3, N2, N3, W2, W3, B2, B3, E1, E2, E3. repeat (split; [reflexivity|]).
    unfold mfrac_rel in *. destruct (o_mfrac o), (o_mfrac o2), (o_mfrac o3); try contradiction; try exact Logic.I. rewrite M2, M3, E2. reflexivity. }
  split; [exact S2|]. split; [exact S3|]. split; [|exact P].
  assert (Q : (exists i j, inside (o_weight o2) i j /\ (0 < px (o_weight o2) i j)%R) <-> (exists i j, inside (o_weight o3) i j /\ (0 < px (o_weight o3) i j)%R)).
  { destruct S2 as (_ & _ & [A B] & _). destruct S3 as (_ & _ & [C D] & _). unfold inside. rewrite A, B, C, D.
    split; intros (i & j & [Hi Hj] & L); exists i, j; (split; [split; assumption|]); destruct (P i j Hi Hj) as (_ & _ & W & _); congruence. }
  unfold flag_right in F2, F3. rewrite Q in F2. rewrite <- F3 in F2. apply eq_true_iff_eq. exact F2.
Qed.

Lemma once_twice : forall r c a b e o o', apodized r c a b e o o' /\ flag_right o o' -> (forall i j, 0 <= i < r -> 0 <= j < c -> (a i j <= 1)%R) ->
  twice r c a (fun _ _ => 1%R) (fun i j => Z.lor (below (a i j) b) (e i j)) o o'.
Proof.
  intros r c a b e o o' [H F] Ha. split; [apply H|]. split; [exact F|]. intros i j Hi Hj.
  destruct (apodized_nf _ _ _ _ _ _ _ i j H (Ha i j Hi Hj) Hi Hj) as (I1 & N1 & W1 & B1 & M1).
  assert (E : Rltb 1 1 = false) by (apply Rltb_false; lra). rewrite E, orb_false_r.
  split; [rewrite I1; ring|]. split; [rewrite N1; ring|]. split; [exact W1|]. split; [exact B1|exact M1].
Qed.

(** Factors and bits of a catalogue in two parts. *)
Lemma rprod_app : forall l l', rprod (l ++ l')%list = (rprod l * rprod l')%R.
Proof. induction l as [|x l IH]; intros l'; cbn [List.app rprod fold_right]; [fold (rprod l'); ring|]. fold (rprod (l ++ l')%list). fold (rprod l). rewrite IH. ring. Qed.
Lemma apod_app : forall h c1 c2 s n i j, apod_factor h (c1 ++ c2)%list s n i j = (apod_factor h c1 s n i j * apod_factor h c2 s n i j)%R.
Proof.
  intros h c1 c2 s n i j. unfold apod_factor, cat_factor. rewrite !map_app, !rprod_app. destruct s; ring.
Qed.
Lemma masked_app : forall c1 c2 s n i j, masked (c1 ++ c2)%list s n i j <-> masked c1 s n i j \/ masked c2 s n i j.
Proof.
  intros c1 c2 s n i j. unfold masked. split.
  - intros (h & Hh & Hc). apply in_app_or in Hh. destruct Hh as [Hh|Hh]; [left|right]; exists h; split; assumption.
  - intros [(h & Hh & Hc)|(h & Hh & Hc)]; exists h; (split; [apply in_or_app|exact Hc]); [left|right]; assumption.
Qed.
Lemma grow_app : forall rad c1 c2, grow rad (c1 ++ c2)%list = (grow rad c1 ++ grow rad c2)%list.
Proof. intros. unfold grow. apply map_app. Qed.
Lemma expand_app : forall c1 c2 rad s n bit r c e1 e2 e, expand_bits c1 rad s n bit r c e1 -> expand_bits c2 rad s n bit r c e2 ->
  expand_bits (c1 ++ c2)%list rad s n bit r c e -> forall i j, 0 <= i < r -> 0 <= j < c -> e i j = Z.lor (e1 i j) (e2 i j).
Proof.
  intros c1 c2 rad s n bit r c e1 e2 e H1 H2 H i j Hi Hj. destruct (H1 i j Hi Hj) as [A1 B1]. destruct (H2 i j Hi Hj) as [A2 B2]. destruct (H i j Hi Hj) as [A B].
  rewrite grow_app in A, B. destruct (Rlt_dec 0 rad) as [L|N].
  - destruct (masked_dec (grow rad c1) s n i j) as [Y1|N1], (masked_dec (grow rad c2) s n i j) as [Y2|N2].
    + rewrite A, A1, A2 by (split; [exact L|]; rewrite ?masked_app; tauto). rewrite Z.lor_diag. reflexivity.
    + rewrite A, A1, B2 by (rewrite ?masked_app; tauto). rewrite Z.lor_0_r. reflexivity.
    + rewrite A, B1, A2 by (rewrite ?masked_app; tauto). reflexivity.
    + rewrite B, B1, B2 by (rewrite ?masked_app; tauto). reflexivity.
  - rewrite B, B1, B2 by tauto. reflexivity.
Qed.
Lemma masked_perm : forall c1 c2 s n i j, Permutation c1 c2 -> masked c1 s n i j -> masked c2 s n i j.
Proof. intros c1 c2 s n i j P (h & Hh & Hc). exists h. split; [exact (Permutation_in h P Hh)|exact Hc]. Qed.
Lemma expand_perm : forall c1 c2 rad s n bit r c e1 e2, Permutation c1 c2 -> expand_bits c1 rad s n bit r c e1 -> expand_bits c2 rad s n bit r c e2 ->
  forall i j, 0 <= i < r -> 0 <= j < c -> e1 i j = e2 i j.
Proof.
  intros c1 c2 rad s n bit r c e1 e2 P H1 H2 i j Hi Hj. destruct (H1 i j Hi Hj) as [A1 B1]. destruct (H2 i j Hi Hj) as [A2 B2].
  assert (Pg : Permutation (grow rad c1) (grow rad c2)) by (apply Permutation_map; exact P).
  destruct (Rlt_dec 0 rad) as [L|N]; [|rewrite B1, B2 by tauto; reflexivity].
  destruct (masked_dec (grow rad c1) s n i j) as [Y|Nm].
  - rewrite A1, A2; [reflexivity|split; [exact L|exact (masked_perm _ _ _ _ _ _ Pg Y)]|split; assumption].
  - rewrite B1, B2; [reflexivity| |tauto]. intros [_ Y]. apply Nm. exact (masked_perm _ _ _ _ _ _ (Permutation_sym Pg) Y).
Qed.
Lemma Rltb_prod : forall a b, (0 <= a <= 1)%R -> (0 <= b <= 1)%R -> Rltb (a * b) 1 = Rltb a 1 || Rltb b 1.
Proof.
  intros a b Ha Hb. apply eq_true_iff_eq. rewrite orb_true_iff, !Rltb_spec. split.
  - intros L. destruct (Rlt_dec a 1) as [?|N]; [left; assumption|right]. nra.
  - intros [L|L]; nra.
Qed.

Lemma two_catalogues : forall W (sv : services W) mbobs c1 c2 rad bit ebit ibit s h iso out1 out2 out r c,
  (0 < h)%R -> radii_ok (c1 ++ c2)%list -> mb_shape r c mbobs -> mb_valid mbobs ->
  apply_foreground_masking_corrections sv mbobs c1 "apodize" rad bit ebit ibit s h iso = Ok out1 ->
  apply_foreground_masking_corrections sv out1 c2 "apodize" rad bit ebit ibit s h iso = Ok out2 ->
  apply_foreground_masking_corrections sv mbobs (c1 ++ c2)%list "apodize" rad bit ebit ibit s h iso = Ok out ->
  Forall2 (Forall2 (same_obs r c)) out2 out.
Proof.
  intros W sv mbobs c1 c2 rad bit ebit ibit s h iso out1 out2 out r c Hh Hr Hs Hv E1 E2 E.
  assert (Hr1 : radii_ok c1) by (intros x Hx; apply Hr; apply in_or_app; left; exact Hx).
  assert (Hr2 : radii_ok c2) by (intros x Hx; apply Hr; apply in_or_app; right; exact Hx).
  pose proof (apod_valid W sv mbobs c1 rad bit ebit ibit s h iso out1 r c Hh Hr1 Hs Hv E1) as (F1 & S1 & V1).
  pose proof (apod_valid W sv out1 c2 rad bit ebit ibit s h iso out2 r c Hh Hr2 S1 V1 E2) as (F2 & _ & _).
  pose proof (apod_valid W sv mbobs (c1 ++ c2)%list rad bit ebit ibit s h iso out r c Hh Hr Hs Hv E) as (F & _ & _).
  destruct (fg_apodize_spec W sv mbobs c1 rad bit ebit ibit s h iso out1 r c Hh Hr1 Hs E1) as (e1 & X1 & A1).
  destruct (fg_apodize_spec W sv out1 c2 rad bit ebit ibit s h iso out2 r c Hh Hr2 S1 E2) as (e2 & X2 & A2).
  destruct (fg_apodize_spec W sv mbobs (c1 ++ c2)%list rad bit ebit ibit s h iso out r c Hh Hr Hs E) as (e & X & A).
  assert (L : forall cat i j, 0 <= i < r -> 0 <= j < c -> (apod_factor h cat s r i j <= 1)%R) by (intros cat i j _ _; apply apod_factor_spec; exact Hh).
  pose proof (F22_chain _ _ _ _ _ _ _ (fun o o1 o2 => apodized_twice r c _ _ bit bit e1 e2 o o1 o2 (L c1) (L c2)) (F22_both _ _ _ _ _ _ A1 F1) (F22_both _ _ _ _ _ _ A2 F2)) as T.
  pose proof (F22_weaken _ _ _ _ _ _ (fun o o' H => once_twice r c _ bit e o o' H (L (c1 ++ c2)%list)) (F22_both _ _ _ _ _ _ A F)) as T'.
  refine (F22_join _ _ _ _ _ _ _ _ _ _ T T'). intros o o2 o3 _ (_ & T2) T3.
  refine (twice_same r c _ _ _ _ _ _ _ _ o o2 o3 _ eq_refl eq_refl T2 T3).
  intros i j Hi Hj. destruct (apod_factor_spec h c1 s r i j Hh) as [R1 _]. destruct (apod_factor_spec h c2 s r i j Hh) as [R2 _].
  rewrite apod_app, Rmult_1_r. split; [reflexivity|].
  assert (E0 : Rltb 1 1 = false) by (apply Rltb_false; lra). rewrite E0, orb_false_r. unfold below. rewrite (Rltb_prod _ _ R1 R2). split; [reflexivity|].
  rewrite (expand_app c1 c2 rad s r ebit r c e1 e2 e X1 X2 X i j Hi Hj).
  destruct (Rltb (apod_factor h c1 s r i j) 1), (Rltb (apod_factor h c2 s r i j) 1); cbn [orb]; apply Z.bits_inj; intros n; rewrite ?Z.lor_spec, ?Z.bits_0; btauto.
Qed.

Lemma catalogue_order : forall W (sv : services W) mbobs c1 c2 rad bit ebit ibit s h iso out1 out2 r c,
  (0 < h)%R -> radii_ok c1 -> mb_shape r c mbobs -> mb_valid mbobs -> Permutation c1 c2 ->
  apply_foreground_masking_corrections sv mbobs c1 "apodize" rad bit ebit ibit s h iso = Ok out1 ->
  apply_foreground_masking_corrections sv mbobs c2 "apodize" rad bit ebit ibit s h iso = Ok out2 ->
  Forall2 (Forall2 (same_obs r c)) out1 out2.
Proof.
  intros W sv mbobs c1 c2 rad bit ebit ibit s h iso out1 out2 r c Hh Hr1 Hs Hv P E1 E2.
  assert (Hr2 : radii_ok c2) by (intros x Hx; apply Hr1; exact (Permutation_in x (Permutation_sym P) Hx)).
  pose proof (apod_valid W sv mbobs c1 rad bit ebit ibit s h iso out1 r c Hh Hr1 Hs Hv E1) as (F1 & _ & _).
  pose proof (apod_valid W sv mbobs c2 rad bit ebit ibit s h iso out2 r c Hh Hr2 Hs Hv E2) as (F2 & _ & _).
  destruct (fg_apodize_spec W sv mbobs c1 rad bit ebit ibit s h iso out1 r c Hh Hr1 Hs E1) as (e1 & X1 & A1).
  destruct (fg_apodize_spec W sv mbobs c2 rad bit ebit ibit s h iso out2 r c Hh Hr2 Hs E2) as (e2 & X2 & A2).
  assert (L : forall cat i j, 0 <= i < r -> 0 <= j < c -> (apod_factor h cat s r i j <= 1)%R) by (intros cat i j _ _; apply apod_factor_spec; exact Hh).
  pose proof (F22_weaken _ _ _ _ _ _ (fun o o' H => once_twice r c _ bit e1 o o' H (L c1)) (F22_both _ _ _ _ _ _ A1 F1)) as T1.
  pose proof (F22_weaken _ _ _ _ _ _ (fun o o' H => once_twice r c _ bit e2 o o' H (L c2)) (F22_both _ _ _ _ _ _ A2 F2)) as T2.
  refine (F22_join _ _ _ _ _ _ _ _ _ _ T1 T2). intros o o2 o3 _ Q2 Q3.
  refine (twice_same r c _ _ _ _ _ _ _ _ o o2 o3 _ eq_refl eq_refl Q2 Q3).
  intros i j Hi Hj. rewrite (apod_factor_perm h c1 c2 s r i j P), (expand_perm c1 c2 rad s r ebit r c e1 e2 P X1 X2 i j Hi Hj).
  split; [reflexivity|]. split; reflexivity.
Qed.

Lemma edge_foreground : forall W (sv : services W) mbobs cat rad bit ebit ibit s h iso hb be o1 o2 p1 p2 r c,
  (0 < h)%R -> (0 < hb)%R -> radii_ok cat -> mb_shape r c mbobs -> mb_valid mbobs ->
  apply_apodization_corrections mbobs hb be = Ok o1 ->
  apply_foreground_masking_corrections sv o1 cat "apodize" rad bit ebit ibit s h iso = Ok o2 ->
  apply_foreground_masking_corrections sv mbobs cat "apodize" rad bit ebit ibit s h iso = Ok p1 ->
  apply_apodization_corrections p1 hb be = Ok p2 ->
  Forall2 (Forall2 (same_obs r c)) o2 p2.
Proof.
  intros W sv mbobs cat rad bit ebit ibit s h iso hb be o1 o2 p1 p2 r c Hh Hhb Hr Hs Hv E1 E2 E3 E4.
  pose proof (edge_valid mbobs hb be o1 r c Hhb Hs Hv E1) as (F1 & S1 & V1).
  pose proof (apod_valid W sv o1 cat rad bit ebit ibit s h iso o2 r c Hh Hr S1 V1 E2) as (F2 & _ & _).
  pose proof (apod_valid W sv mbobs cat rad bit ebit ibit s h iso p1 r c Hh Hr Hs Hv E3) as (F3 & S3 & V3).
  pose proof (edge_valid p1 hb be p2 r c Hhb S3 V3 E4) as (F4 & _ & _).
  pose proof (edge_apply_spec mbobs hb be o1 r c Hhb Hs E1) as A1.
  destruct (fg_apodize_spec W sv o1 cat rad bit ebit ibit s h iso o2 r c Hh Hr S1 E2) as (e2 & X2 & A2).
  destruct (fg_apodize_spec W sv mbobs cat rad bit ebit ibit s h iso p1 r c Hh Hr Hs E3) as (e3 & X3 & A3).
  pose proof (edge_apply_spec p1 hb be p2 r c Hhb S3 E4) as A4.
  assert (L : forall i j, 0 <= i < r -> 0 <= j < c -> (apod_factor h cat s r i j <= 1)%R) by (intros i j _ _; apply apod_factor_spec; exact Hh).
  assert (Le : forall i j, 0 <= i < r -> 0 <= j < c -> (edge_factor hb r c i j <= 1)%R) by (intros i j Hi Hj; apply edge_le1; assumption).
  pose proof (F22_chain _ _ _ _ _ _ _ (fun a b d => apodized_twice r c _ _ be bit _ e2 a b d Le L) (F22_both _ _ _ _ _ _ A1 F1) (F22_both _ _ _ _ _ _ A2 F2)) as T.
  pose proof (F22_chain _ _ _ _ _ _ _ (fun a b d => apodized_twice r c _ _ bit be e3 _ a b d L Le) (F22_both _ _ _ _ _ _ A3 F3) (F22_both _ _ _ _ _ _ A4 F4)) as T'.
  refine (F22_join _ _ _ _ _ _ _ _ _ _ T T'). intros o a b _ (_ & T2) (_ & T3).
  refine (twice_same r c _ _ _ _ _ _ _ _ o a b _ eq_refl eq_refl T2 T3).
  intros i j Hi Hj. split; [ring|]. split; [apply orb_comm|]. rewrite (expand_perm cat cat rad s r ebit r c e2 e3 (Permutation_refl _) X2 X3 i j Hi Hj).
  apply Z.bits_inj; intros n; rewrite ?Z.lor_spec, ?Z.bits_0; btauto.
Qed.
