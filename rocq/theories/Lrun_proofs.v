(** Proofs for C87. *)
From Coq Require Import ZArith QArith Qcanon List String Bool Lia Permutation.
From Verif Require Import Base Arr Median Dict Flags_model Lutil_model Lutil_spec Lutil_proofs Lexp_model Lthr_model Lthr_spec Lthr_proofs
  Lmdet_model Lmdet_spec Lmdet_proofs Lmeas_model Lmeas_spec Lmeas_proofs Lsub_model Lsub_spec Lsub_proofs Lscar_model Lscar_spec Lscar_proofs
  Lphot_model Lphot_spec Lphot_proofs Lrun_model Lrun_spec.
From Verif Require Lmcal_model Lmcal_spec Lmcal_proofs.
Import ListNotations.
Local Open Scope string_scope.
Local Open Scope Z_scope.
Local Notation value_at := Lutil_spec.value_at.

(** ** The configuration *)
Lemma unalias_other : forall d k p, k <> "detect" ->
  given (ODict (unalias d)) (k :: p) = given (ODict d) (k :: p) /\ (untouched (ODict d) (k :: p) -> untouched (ODict (unalias d)) (k :: p)).
Proof.
  intros d k p N. cbn [given untouched]. rewrite sget_unalias. destruct (sget k d) as [[a|l]|]; [split; auto| |split; auto].
  destruct (String.eqb_spec k "detect"); [contradiction|]. split; auto.
Qed.
Lemma unalias_thresh : forall d, untouched (ODict d) ["detect"; "thresh"] -> untouched (ODict d) ["detect"; "thresholdValue"] ->
  untouched (ODict (unalias d)) ["detect"; "thresholdValue"].
Proof.
  intros d A B. cbn [untouched] in *. rewrite sget_unalias. destruct (sget "detect" d) as [[a|l]|]; [contradiction| |exact Logic.I].
  rewrite String.eqb_refl. cbn [untouched] in *. destruct (sget "thresh" l) as [o|] eqn:E1; [destruct o; contradiction|].
  destruct (sget "thresholdValue" l) as [o|] eqn:E2; [destruct o; contradiction|].
  rewrite sget_unalias_thresh; [rewrite E1, E2; exact Logic.I|]. intros [C _]. apply sget_In in C. destruct C. congruence.
Qed.
Lemma oloop_stamp : forall l c c' a, cget c "stamp_size" = Some (CLeaf a) -> oloop c l = (c', Ok tt) -> cget c' "stamp_size" = Some (CLeaf a).
Proof.
  induction l as [|[k o] l IH]; intros c c' a G H; cbn [oloop] in H; [inversion H; now subst|]. destruct o as [b|items].
  - destruct (String.eqb_spec k "stamp_size") as [E|N].
    + destruct c; [discriminate|]. eapply IH; eassumption.
    + destruct (cget c k) as [w|] eqn:W; [|discriminate]. eapply IH; [|exact H]. rewrite (cget_cset c k "stamp_size" _ w W).
      destruct (String.eqb_spec "stamp_size" k); [congruence|exact G].
  - destruct (cget c k) as [w|] eqn:W; [|discriminate]. destruct (override w (ODict items)) as [sub' [[]|e]] eqn:O; [|discriminate].
    eapply IH; [|exact H]. rewrite (cget_cset c k "stamp_size" _ w W). destruct (String.eqb_spec "stamp_size" k) as [<-|N]; [|exact G].
    rewrite W in G. apply Some_inj in G. subst w. rewrite override_dict in O. destruct items as [|[k2 o2] items]; [now inversion O|].
    cbn [oloop] in O. destruct o2; [destruct (String.eqb k2 "stamp_size"); discriminate|discriminate].
Qed.

Lemma oloop_known : forall l c c' k, oloop c l = (c', Ok tt) -> In k (skeys l) -> k <> "stamp_size" -> cget c k <> None.
Proof.
  induction l as [|[k0 o] l IH]; intros c c' k H I N; [destruct I|]. cbn [oloop] in H.
  assert (X : forall v w, cget c k0 = Some w -> cget (cset c k0 v) k <> None -> cget c k <> None).
  { intros v w W. rewrite (cget_cset c k0 k v w W). destruct (String.eqb_spec k k0) as [->|_]; [congruence|auto]. }
  destruct o as [b|items].
  - destruct (String.eqb_spec k0 "stamp_size") as [E|N0].
    + destruct c; [discriminate|]. destruct I as [E2|I]; [cbn in E2; congruence|]. eapply IH; eassumption.
    + destruct (cget c k0) as [w|] eqn:W; [|discriminate]. destruct I as [E2|I]; [cbn in E2; subst; congruence|].
      eapply (X _ w eq_refl). eapply IH; eassumption.
  - destruct (cget c k0) as [w|] eqn:W; [|discriminate]. destruct (override w (ODict items)) as [sub' [[]|e]] eqn:O; [|discriminate].
    destruct I as [E2|I]; [cbn in E2; subst; congruence|]. eapply (X _ w eq_refl). eapply IH; eassumption.
Qed.

Section R.
Context {Prof : Type} (R : mrun Prof).
Let P := r_phot R.

Lemma leaf_value : forall c k a, leaf_at c k = Ok a -> value_at c [k] = Some a.
Proof.
  intros c k a L. unfold leaf_at in L. unfold Lutil_spec.value_at. cbn [field]. destruct (cget c k) as [[b|l]|]; try discriminate.
  apply Ok_inj in L. now subst.
Qed.
Lemma node_leaf_value : forall c k n k2 a, node_at c k = Ok n -> leaf_at n k2 = Ok a -> value_at c [k; k2] = Some a.
Proof.
  intros c k n k2 a N L. apply leaf_value in L. unfold node_at in N. unfold Lutil_spec.value_at in *. cbn [field] in *.
  destruct (cget c k) as [[b|l]|]; try discriminate. apply Ok_inj in N. now subst.
Qed.

Lemma read_config_ok : forall user s, distinct_keys (ODict (given_items user)) -> one_name (given_items user) ->
  read_config R user = Ok s ->
  settings_of (ph_stack P) user s /\ forall names, exists want, shear_wanted user names want /\ want = Lutil_proofs.asked names (s_shear s).
Proof.
  intros user s D ON H. unfold read_config in H. fold P in H. change (match user with Some d => d | None => [] end) with (given_items user) in H.
  set (d := given_items user) in *.
  destruct (override _ _) as [c [[]|e]] eqn:O; cbn [run_of obind] in H; [|discriminate].
  destruct (override_gen _ _ _ (unalias_distinct d D ON) O) as [A B].
  assert (V : forall k p df a, k <> "detect" -> last (k :: p) "" <> "stamp_size" -> value_at c (k :: p) = Some a ->
    value_at (mdet_defaults (ph_stack P)) (k :: p) = Some df -> option_value user (k :: p) df a).
  { intros k p df a N Ls V1 V2. destruct (unalias_other d k p N) as [U1 U2]. split; fold d.
    - intros b G. rewrite <- U1 in G. apply A in G; [congruence|exact Ls].
    - intros U. apply U2, B in U. unfold Lutil_spec.value_at in *. rewrite U in V1. congruence. }
  destruct (node_at c "metacal") as [mc|] eqn:E1; cbn [obind] in H; [|discriminate].
  destruct (leaf_at mc "types") as [ta|] eqn:E2; cbn [obind] in H; [|discriminate].
  destruct ta as [|b|z|q|s0|types]; cbn [obind] in H; try discriminate.
  destruct (validate types) as [[]|] eqn:E3; cbn [obind] in H; [|discriminate].
  destruct (leaf_at mc "reconv_type") as [rc|] eqn:E4; cbn [obind] in H; [|discriminate].
  destruct (node_at c "detect") as [dc|] eqn:E5; cbn [obind] in H; [|discriminate].
  destruct (leaf_at dc "thresholdValue") as [t|] eqn:E6; cbn [obind] in H; [|discriminate].
  destruct (leaf_at c "subtract_sky") as [ss|] eqn:E7; cbn [obind] in H; [|discriminate].
  destruct (leaf_at c "deblender") as [deb|] eqn:E8; cbn [obind] in H; [|discriminate].
  destruct (node_at c "pgauss") as [pg|] eqn:E9; cbn [obind] in H; [|discriminate].
  destruct (leaf_at pg "fwhm") as [fw|] eqn:E10; cbn [obind] in H; [|discriminate].
  destruct (leaf_at c "stamp_size") as [sza|] eqn:E11; cbn [obind] in H; [|discriminate].
  destruct (int_of sza) as [sz|] eqn:E12; cbn [obind] in H; [|discriminate].
  destruct (leaf_at c "shear_bands") as [sba|] eqn:E13; cbn [obind] in H; [|discriminate].
  destruct (names_of sba) as [sb|] eqn:E14; cbn [obind] in H; [|discriminate].
  apply Ok_inj in H. subst s. cbn [s_shear].
  assert (St : sz = 49).
  { rewrite override_dict in O. apply (oloop_stamp _ _ _ (AInt 49)) in O; [|reflexivity]. unfold leaf_at in E11. rewrite O in E11.
    apply Ok_inj in E11. subst sza. cbn in E12. now apply Ok_inj in E12. }
  split.
  - split; [|split; [|split; [|split; [|split; [|split; [|split]]]]]]; cbn [s_sky s_thresh s_deblender s_types s_reconv s_fwhm s_stamp].
    + apply V; [discriminate|discriminate|now apply leaf_value|reflexivity].
    + pose proof (node_leaf_value _ _ _ _ _ E5 E6) as Vt. split; fold d.
      * intros b G. rewrite <- (given_unalias d ON) in G. apply A in G; [congruence|discriminate].
      * intros U1 U2. pose proof (B _ (unalias_thresh d U1 U2)) as X. unfold Lutil_spec.value_at in Vt. rewrite X in Vt. exact Vt.
    + exists deb. split; [|reflexivity]. apply V; [discriminate|discriminate|now apply leaf_value|reflexivity].
    + apply V; [discriminate|discriminate|exact (node_leaf_value _ _ _ _ _ E1 E2)|reflexivity].
    + unfold validate in E3. destruct (forallb _ types) eqn:F; [|discriminate]. rewrite forallb_forall in F.
      intros x I. apply F in I. apply existsb_exists in I. destruct I as (y & I & E). apply String.eqb_eq in E. now subst.
    + exists rc. split; [|reflexivity]. apply V; [discriminate|discriminate|exact (node_leaf_value _ _ _ _ _ E1 E4)|reflexivity].
    + apply V; [discriminate|discriminate|exact (node_leaf_value _ _ _ _ _ E9 E10)|reflexivity].
    + exact St.
  - intro names. eexists. split; [|reflexivity]. exists sba. split; [apply V; [discriminate|discriminate|now apply leaf_value|reflexivity]|].
    unfold names_of in E14. destruct sba as [|b|z|q|s|[|n0 l]];
      try (destruct (truthy _) eqn:T in E14; [discriminate|]; apply Ok_inj in E14; subst sb; left; split; [exact T|reflexivity]).
    + destruct (String.eqb_spec s "") as [->|N]; [|discriminate]. apply Ok_inj in E14. subst sb. left. split; reflexivity.
    + apply Ok_inj in E14. subst sb. left. split; reflexivity.
    + apply Ok_inj in E14. subst sb. right. split; [discriminate|reflexivity].
Qed.

(** ** The exposures *)
Lemma of_to : forall name e, of_mcal (to_mcal (name, e)) = e.
Proof. intros name [x0 y0 im v m p w]. reflexivity. Qed.
Lemma middle_jac : forall m, Lmcal_model.g_jac (mcal_galsim R) m = Lmcal_model.g_jac (middle_galsim R) m.
Proof.
  intros [im v k p b [[x0 y0] w]]. cbn. unfold mcal_jac, get_jacobian, get_integer_center, of_mcal, at_middle. cbn.
  destruct w as [w|]; cbn; [|reflexivity].
  replace ((x0 + (x0 + nc im - 1) + 1) / 2) with (x0 + nc im / 2) by (rewrite <- Z.div_add_l by lia; f_equal; lia).
  replace ((y0 + (y0 + nr im - 1) + 1) / 2) with (y0 + nr im / 2) by (rewrite <- Z.div_add_l by lia; f_equal; lia). reflexivity.
Qed.
Lemma middle_kernel : forall m, Lmcal_model.g_kernel (mcal_galsim R) m = Lmcal_model.g_kernel (middle_galsim R) m.
Proof.
  intros [im v k p b [[x0 y0] w]]. cbn. unfold mcal_kernel, get_integer_center, of_mcal, at_middle. cbn.
  destruct p as [p|]; cbn; [|reflexivity].
  replace ((x0 + (x0 + nc im - 1) + 1) / 2) with (x0 + nc im / 2) by (rewrite <- Z.div_add_l by lia; f_equal; lia).
  replace ((y0 + (y0 + nr im - 1) + 1) / 2) with (y0 + nr im / 2) by (rewrite <- Z.div_add_l by lia; f_equal; lia). reflexivity.
Qed.
Lemma middle_target : forall e st p, Lmcal_spec.is_target (mcal_galsim R) e st p -> Lmcal_spec.is_target (middle_galsim R) e st p.
Proof. intros e st p (w & k & t & A & B & C). rewrite middle_jac in A. rewrite middle_kernel in B. exists w, k, t. auto. Qed.
Lemma middle_sheared : forall e st s im im', Lmcal_spec.sheared (mcal_galsim R) e st s im im' -> Lmcal_spec.sheared (middle_galsim R) e st s im im'.
Proof.
  intros e st s im im' (w & k & p & A & B & C & D). rewrite middle_jac in A. rewrite middle_kernel in B. exists w, k, p.
  split; [exact A|]. split; [exact B|]. split; [now apply middle_target|exact D].
Qed.
Lemma middle_exp : forall e st s rot e', Lmcal_spec.metacal_exp (mcal_galsim R) e st s rot e' -> Lmcal_spec.metacal_exp (middle_galsim R) e st s rot e'.
Proof.
  intros e st s rot e' (A & (p & k & w & B1 & B2 & B3 & B4) & C). split; [|split; [|exact C]].
  - destruct rot; [destruct A as (m & A & E); exists m; split; [now apply middle_sheared|exact E]|now apply middle_sheared].
  - rewrite middle_jac in B3. rewrite middle_kernel in B2. exists p, k, w. split; [now apply middle_target|auto].
Qed.
Lemma metacal_box : forall e st s rot e', Lmcal_spec.draw_shape (middle_galsim R) -> Lmcal_spec.metacal_exp (middle_galsim R) e st s rot e' ->
  exp_box (of_mcal e') = exp_box (of_mcal e).
Proof.
  intros e st s rot e' Ds (M & _ & _ & _ & _ & I).
  assert (S : nr (Lmcal_model.e_image e') = nr (Lmcal_model.e_image e) /\ nc (Lmcal_model.e_image e') = nc (Lmcal_model.e_image e)).
  { unfold Lmcal_spec.metacal_image in M. destruct rot.
    - destruct M as [m [[w [k [p [_ [_ [_ E]]]]]] ->]]. destruct (Ds _ _ _ _ _ _ E) as [A B]. cbn in *. auto.
    - destruct M as [w [k [p [_ [_ [_ E]]]]]]. exact (Ds _ _ _ _ _ _ E). }
  destruct S as [S1 S2]. unfold exp_box, of_mcal. rewrite I. destruct (Lmcal_model.e_info e) as [[x0 y0] w]. cbn. now rewrite S1, S2.
Qed.
Lemma fixed_box : forall d n e' : mexp, Lmcal_spec.fixed d n e' -> exp_box (of_mcal e') = exp_box (of_mcal d).
Proof.
  intros d n e' (A & B & _ & _ & _ & _ & _ & _ & _ & I). unfold exp_box, of_mcal. rewrite I. destruct (Lmcal_model.e_info d) as [[x0 y0] w].
  cbn. now rewrite A, B.
Qed.
Lemma Forall2_In_r : forall A B (Rl : A -> B -> Prop) l m y, Forall2 Rl l m -> In y m -> exists x, In x l /\ Rl x y.
Proof. intros A B Rl l m y F. induction F as [|a b l m E F IH]; intros []; [subst; exists a; cbn; auto|]. destruct (IH H) as (x & I & X). exists x. cbn; auto. Qed.
Lemma with_stats_In : forall (l : list mexp) st x, In x (Lmcal_spec.with_stats l st) -> In (fst x) l.
Proof.
  intros l [st|] [e o] I; unfold Lmcal_spec.with_stats in I.
  - now apply in_combine_l in I.
  - apply in_map_iff in I. destruct I as (y & E & I). inversion E; now subst.
Qed.
Lemma sheared_box : forall names bands noise stats s out, Lmcal_spec.draw_shape (middle_galsim R) -> one_box bands ->
  sheared_bands R names bands noise stats s out -> one_box (map of_mcal out).
Proof.
  intros names bands noise stats s out Ds Ob (es & ns & F1 & F2 & L & F3).
  assert (G : forall x, In x (map of_mcal out) -> exists y, In y bands /\ exp_box x = exp_box y).
  { intros x I. apply in_map_iff in I. destruct I as (m & <- & I). destruct (Forall2_In_r _ _ _ _ _ _ F3 I) as ([e n] & I2 & Fx). cbn [fst snd] in Fx.
    apply in_combine_l in I2. destruct (Forall2_In_r _ _ _ _ _ _ F1 I2) as (es0 & I3 & M). apply with_stats_In in I3. apply in_map_iff in I3.
    destruct I3 as ([nm y] & E & I3). apply in_combine_r in I3. exists y. split; [exact I3|].
    rewrite (fixed_box _ _ _ Fx), (metacal_box _ _ _ _ _ Ds M), <- E. now rewrite of_to. }
  intros a b Ia Ib. destruct (G a Ia) as (y1 & J1 & E1). destruct (G b Ib) as (y2 & J2 & E2). rewrite E1, E2. now apply Ob.
Qed.
Lemma sheared_length : forall names bands noise stats s out,
  match stats with Some l => List.length l = List.length bands | None => True end -> List.length names = List.length bands ->
  sheared_bands R names bands noise stats s out -> List.length out = List.length bands.
Proof.
  intros names bands noise stats s out Ls Ln (es & ns & F1 & F2 & L & F3).
  pose proof (Lmcal_proofs.Forall2_length' _ _ _ _ _ F1) as L1. pose proof (Lmcal_proofs.Forall2_length' _ _ _ _ _ F3) as L3.
  rewrite combine_length in L3. rewrite Lmcal_proofs.with_stats_length, map_length, combine_length in L1.
  - unfold mexp in *. lia.
  - destruct stats; [|exact Logic.I]. rewrite map_length, combine_length. lia.
Qed.

(** ** The scarlet measurement as rows of objects *)
Lemma qc_exact : exact_arith Qcplus Qcminus (Q2Qc 0).
Proof.
  constructor; intros.
  - ring.
  - ring.
  - ring.
  - ring.
  - ring.
Qed.
Lemma scarlet_objects : forall T add sub (zero : T) val, exact_arith add sub zero ->
  forall env names mbands fbox blends orig label cat after res,
  NoDup mbands -> NoDup names -> incl names mbands -> List.length names = List.length (m_bands env) ->
  NoDup (map (b_id T) (model_sources T blends)) -> 0 <= m_stamp_size env -> one_box (m_bands env) ->
  measure_scarlet T add sub val env names mbands fbox blends orig label cat = (after, Ok res) ->
  (res = None <-> cat = [] \/ model_sources T blends = []) /\
  forall rows, res = Some rows -> masks_by_position env cat rows /\ exists sb, m_shear_bands env = Ok sb /\
  Forall2 (fun b r => exists s, find_source cat (b_id T b) = Some s /\
      object_row_on (isolated T sub val env names (foot_of cat fbox) orig (model_sources T blends) s) env (label sb) s r)
    (model_sources T blends) rows.
Proof.
  intros T add sub zero val E env names mbands fbox blends orig label cat after res Nm Nb Hi Hlen Ni Sz Ob H. pose proof H as H0.
  set (l := model_sources T blends) in *. unfold measure_scarlet in H. fold l in H. destruct cat as [|c0 cat'].
  { apply pair_equal_spec in H. destruct H as [_ H]. apply Ok_inj in H. subst res. split; [tauto|discriminate]. }
  set (cat := c0 :: cat') in *. destruct (m_shear_bands env) as [sb|]; cbn [obind] in H; [|apply pair_equal_spec in H; destruct H; discriminate].
  destruct (get_bmasks env cat) as [bms|]; cbn [obind] in H; [|apply pair_equal_spec in H; destruct H; discriminate].
  destruct (copy_mbexp false (m_bands env)) as [bands|] eqn:Eb; cbn [obind] in H; [|apply pair_equal_spec in H; destruct H; discriminate].
  apply copy_mbexp_ok in Eb. subst bands.
  destruct (make_subtractor T sub mbands names (mbexp_box env) (foot_of cat fbox) l orig) as [s0|] eqn:Es; cbn [obind] in H; [|apply pair_equal_spec in H; destruct H; discriminate].
  destruct (scar_loop T add sub val env names (m_bands env) cat (label sb) bms 0 s0 (Lsub_model.child_ids T s0)) as [s' o] eqn:L.
  apply pair_equal_spec in H. destruct H as [_ H]. destruct o as [rs|]; cbn [obind] in H; [|discriminate].
  destruct (made T sub mbands names _ _ l orig s0 Nm Nb Hi Ni Es) as (_ & _ & _ & _ & _ & He & _).
  assert (Ids : Lsub_model.child_ids T s0 = map (b_id T) l). { unfold Lsub_model.child_ids. rewrite He, map_map. reflexivity. }
  rewrite Ids in L.
  destruct (scar_loop_ok T add sub zero val E env names mbands cat fbox l orig s0 Nm Nb Hi Ni Es Hlen (label sb) bms _ _ _ _ _
    (reachable_start T add sub s0) (incl_refl _) L) as [_ F].
  assert (Le : List.length l = List.length rs) by (apply Lmcal_proofs.Forall2_length' in F; now rewrite map_length in F).
  split.
  - split.
    + intros ->. right. destruct rs; [|discriminate]. destruct l; [reflexivity|discriminate].
    + intros [X|X]; [discriminate|]. rewrite X in Le. destruct rs; [|discriminate]. now apply Ok_inj in H.
  - intros rows ->. assert (rs = rows). { destruct rs; [discriminate|]. apply Ok_inj, Some_inj in H. exact H. } subst rs. clear H.
    split; [exact (scarlet_masks _ _ _ _ _ _ _ _ _ _ _ _ _ _ H0)|]. exists sb. split; [reflexivity|].
    assert (G : forall l', Forall2 (fun id r => exists src im flags g p bmask, find_source cat id = Some src /\ clean T sub names cat fbox l orig im id /\
      stamp_case env (label sb) (source_mbobs (with_bands env (exposures T val names (m_bands env) im)) src) flags g p /\ get_output env src (base_row flags g p) bmask = Ok r) (map (b_id T) l') rows ->
      Forall2 (fun b r => exists src im flags g p bmask, find_source cat (b_id T b) = Some src /\ clean T sub names cat fbox l orig im (b_id T b) /\
      stamp_case env (label sb) (source_mbobs (with_bands env (exposures T val names (m_bands env) im)) src) flags g p /\ get_output env src (base_row flags g p) bmask = Ok r) l' rows).
    { clear. revert rows. intros rows l'. revert rows. induction l' as [|b l' IH]; intros rows F; cbn in F; inversion F; subst; constructor; auto. }
    apply G in F. clear G. eapply Forall2_weaken; [|exact F]. clear F L. cbv beta.
    intros b r (src & im & flags & g & p & bm & Fs & C & S & Go).
    destruct (row_facts env (with_bands env (exposures T val names (m_bands env) im)) (label sb) src flags g p bm r eq_refl Sz
      (exps_one_box T val env names im Ob) (exps_inside T val env names Hlen im src) (exps_unusable T val env names Hlen im src) S Go)
      as (Pk & Q1 & Q2 & Q3 & Q4 & Q5 & Q6 & Q7 & Q8).
    exists src. split; [exact Fs|]. apply output_facts in Go. split; [exact Q1|]. split; [exact Q2|]. split; [tauto|]. split; [tauto|].
    exists flags. do 4 (split; [assumption|]). split; [|exact Q8].
    intro Z0. destruct (Q7 Z0) as (obs & O1 & O2 & O3 & O4). exists obs, g, p. split; [|auto].
    pose proof (find_source_Some _ _ _ Fs) as [_ Eid]. rewrite <- Eid in C.
    exact (isolated_ok T sub val env names cat fbox l orig Hlen src im obs C Sz Pk O1).
Qed.

Lemma pixels_of_shown : forall names mc, NoDup names -> List.length names = List.length mc -> pixels_shown names mc (pixels_of names mc).
Proof.
  intros names mc N L.
  assert (G : forall n e, In (n, e) (combine names mc) -> forall x y, pixels_of names mc n x y = Q2Qc (px (e_image e) (y - e_y0 e) (x - e_x0 e))).
  { intros n e I x y. unfold pixels_of.
    assert (X : find (fun ne => String.eqb n (fst ne)) (combine names mc) = Some (n, e)).
    { clear L. revert mc I. induction names as [|a names IH]; intros [|b mc] I; cbn in *; try contradiction. inversion N as [|? ? NI N']; subst.
      destruct I as [I|I]; [injection I as -> ->; now rewrite String.eqb_refl|]. destruct (String.eqb_spec n a) as [->|_]; [apply in_combine_l in I; contradiction|].
      now apply IH. }
    now rewrite X. }
  unfold pixels_shown. revert G. generalize (pixels_of names mc) as o. intros o G. clear N. revert mc L G.
  induction names as [|a names IH]; intros [|b mc] L G; try discriminate; constructor.
  - apply G. now left.
  - apply IH; [now inversion L|]. intros n e I. apply G. now right.
Qed.

(** ** One type *)
Lemma measure_type_ok : forall s shear names mc r,
  stack_ok (ph_stack P) -> lists_set (ph_order P) -> (forall c d cat, ph_detect P c d = Ok (Some cat) -> catalogue cat) -> scarlet_ok R names ->
  NoDup names -> List.length names = List.length mc -> one_box mc -> 0 <= s_stamp s ->
  measure_type R s shear names mc = Ok r ->
  exists c d, value_at c ["detect"; "thresholdValue"] = Some (effective (s_thresh s)) /\ detection_on R mc d /\
  let env := phot_env P c d mc (s_stamp s) (s_fwhm s) shear in
  let label := ph_label P shear in
  (s_deblender s <> "scarlet" -> exists found, ph_detect P c d = Ok found /\
     (r = None <-> found = None \/ exists cat, found = Some cat /\ childless cat = []) /\
     forall rows, r = Some rows -> exists cat cs, found = Some cat /\ Permutation cs (childless cat) /\ Forall2 (object_row env label) cs rows /\
       masks_by_position env cat rows) /\
  (s_deblender s = "scarlet" -> exists found, r_scarlet R c mc d = Ok found /\
     (r = None <-> found = None \/ exists cat sc, found = Some (cat, sc) /\ (cat = [] \/ model_sources Qc (sc_blends sc) = [])) /\
     forall rows, r = Some rows -> exists cat sc orig, found = Some (cat, sc) /\ pixels_shown names mc orig /\
       Forall2 (fun b r => exists o, find_source cat (b_id Qc b) = Some o /\
           object_row_on (isolated Qc Qcminus this env names (foot_of cat (sc_fbox sc)) orig (model_sources Qc (sc_blends sc)) o) env label o r)
         (model_sources Qc (sc_blends sc)) rows /\ masks_by_position env cat rows).
Proof.
  intros s shear names mc r So Ls Cat Sc Nn Ln Ob Sz H. unfold measure_type in H. fold P in H.
  destruct (detect_and_deblend_config (ph_stack P) (s_thresh s) (s_deblender s) None) as [u [c|x]] eqn:Dd; cbn [snd obind] in H; [|discriminate].
  pose proof (proj1 (dd_none _ _ _ _ _ So Dd)) as Dt. exists c.
  destruct (String.eqb_spec (s_deblender s) "scarlet") as [Es|Es].
  - match type of H with obind ?a _ = _ => destruct a as [[d|]|] eqn:Ed; cbn [obind] in H; try discriminate end.
    exists d. split; [exact Dt|]. split.
    { unfold detection_on. fold P. destruct mc as [|e1 [|e2 mc]]; [discriminate| |exact Ed]. apply Ok_inj, Some_inj in Ed. now symmetry. }
    cbv zeta. split; [contradiction|]. intros _. destruct (r_scarlet R c mc d) as [found|] eqn:Ef; cbn [obind] in H; [|discriminate].
    exists found. split; [reflexivity|]. destruct found as [[cat sc]|].
    + destruct (Sc _ _ _ _ _ Ef) as (S1 & S2 & S3).
      destruct (measure_scarlet _ _ _ _ _ _ _ _ _ _ _ _) as [after o] eqn:Em in H. cbn [snd] in H. subst o.
      destruct (scarlet_objects Qc Qcplus Qcminus (Q2Qc 0) this qc_exact (type_env R c s shear mc d) _ _ _ _ _ _ _ _ _ S1 Nn S2 Ln S3 Sz Ob Em) as [A B].
      split.
      * rewrite A. split; [intro X; right; exists cat, sc; auto|]. intros [X|(cat' & sc' & X & Y)]; [discriminate|]. inversion X; now subst.
      * intros rows Er. exists cat, sc, (pixels_of names mc). split; [reflexivity|]. split; [now apply pixels_of_shown|].
        destruct (B rows Er) as (Mk & sb & Eb & F). cbn in Eb. apply Ok_inj in Eb. subst sb. split; [exact F|exact Mk].
    + apply Ok_inj in H. subst r. split; [tauto|discriminate].
  - unfold detect_deblend_and_measure in H. destruct (dd_run _ _ mc) as [[l|l d]|] eqn:D; cbn [obind] in H; try discriminate.
    assert (X : detection_on R mc d /\ exists found, ph_detect P c d = Ok found /\ l = match found with Some l => l | None => [] end).
    { unfold dd_run in D. unfold detection_on. fold P. destruct mc as [|a [|b mc]]; [discriminate| |].
      - cbn [obind] in D. destruct (ph_detect P c (ph_single P a)) as [found|] eqn:F; cbn [obind] in D; [|discriminate].
        apply Ok_inj in D. inversion D; subst. split; [reflexivity|]. eauto.
      - destruct (coadd_exposures (a :: b :: mc)) as [[d0|]|] eqn:Cd; cbn [obind] in D; try discriminate.
        destruct (ph_detect P c d0) as [found|] eqn:F; cbn [obind] in D; [|discriminate].
        apply Ok_inj in D. inversion D; subst. split; [reflexivity|]. eauto. }
    destruct X as (X1 & found & X2 & X3). exists d. split; [exact Dt|]. split; [exact X1|]. cbv zeta. split; [|contradiction]. intros _.
    exists found. split; [exact X2|]. change (type_env R c s shear mc d) with (phot_env P c d mc (s_stamp s) (s_fwhm s) shear) in H.
    set (env := phot_env P c d mc (s_stamp s) (s_fwhm s) shear) in *.
    destruct found as [cat|]; subst l.
    + pose proof (Cat _ _ _ X2) as Ct.
      split.
      * destruct (measure_ok _ _ _ _ _ Ct Ls H) as (cs & sbi & bms & Mi & Pe & _ & X). destruct r as [rows|].
        -- destruct X as (Ne & Le & _). split; [discriminate|]. intros [Y|(cat' & Y & N)]; [discriminate|]. apply Some_inj in Y. subst cat'.
           rewrite N in Pe. apply Permutation_sym, Permutation_nil in Pe. subst cs. destruct rows; [congruence|discriminate].
        -- subst cs. split; [intros _|auto]. right. exists cat. split; [reflexivity|]. now apply Permutation_nil in Pe.
      * intros rows ->. destruct (measure_objects env (ph_label P) (ph_order P) cat rows Ct Ls Sz Ob H) as (cs & sb & Pe & Ne & Eb & F & Mk).
        cbn in Eb. apply Ok_inj in Eb. subst sb. exists cat, cs. auto.
    + cbn in H. apply Ok_inj in H. subst r. split; [tauto|discriminate].
Qed.

Lemma finished_rows : forall (A : Type) (on : A -> source -> list lobs -> Prop) (src : A -> source -> Prop) dims ormasks om mf p env label (l : list A) rows rows',
  combine_ormasks dims ormasks = Ok om -> st_flags p = 0 ->
  Forall2 (fun b r => exists o, src b o /\ object_row_on (on b o) env label o r) l rows ->
  Forall2 (finished P om mf p) rows rows' ->
  Forall2 (fun b r => exists o, src b o /\ object_row_on (on b o) env label o r /\ ormask_column ormasks r /\ psf_columns p r) l rows'.
Proof.
  intros A on src dims ormasks om mf p env label l rows rows' O Fl F. revert rows'. induction F as [|b r l rows (o & S & X) F IH]; intros rows' Fn; inversion Fn; subst; constructor.
  - match goal with K : finished _ _ _ _ _ _ |- _ => rename K into Fz end. exists o. split; [exact S|]. split; [|split].
    + apply (object_row_ext _ env _ o r _ (proj1 Fz) X).
    + exact (finished_ormask _ _ _ _ _ _ _ _ O Fz).
    + destruct Fz as (_ & _ & Z1 & Z2 & Z3 & Z4). split; [now rewrite Z1, Fl|]. auto.
  - now apply IH.
Qed.

(** ** The loop over the types *)
Lemma entries_ok : forall s shear names om mf p l res0 res, NoDup (skeys l) ->
  ofold (type_entry R s shear names om mf p) l res0 = Ok res ->
  (forall t out, sget t l = Some out -> exists r tab, measure_type R s shear names (map of_mcal out) = Ok r /\
     sget t res = Some (Table tab) /\
     match r with None => tab = None | Some rows => exists rows', finish P om mf p rows = Ok rows' /\ tab = Some rows' end) /\
  (forall t, ~ In t (skeys l) -> sget t res = sget t res0).
Proof.
  intros s shear names om mf p. induction l as [|[t0 out0] l IH]; intros res0 res N H; cbn [ofold] in H.
  - apply Ok_inj in H. subst res. split; [discriminate|auto].
  - cbn [skeys map] in N. inversion N as [|x y NI N']; subst.
    destruct (type_entry R s shear names om mf p res0 (t0, out0)) as [res1|] eqn:E; cbn [obind] in H; [|discriminate].
    destruct (IH res1 res N' H) as [A B]. unfold type_entry in E. cbn [fst snd] in E. fold P in E.
    destruct (measure_type R s shear names (map of_mcal out0)) as [r|] eqn:M; cbn [obind] in E; [|discriminate].
    match type of E with obind ?a _ = _ => destruct a as [tab|] eqn:T; cbn [obind] in E; [|discriminate] end.
    apply Ok_inj in E. subst res1. split.
    + intros t out G. cbn [sget] in G. destruct (String.eqb_spec t t0) as [->|Nt]; [|now apply A]. apply Some_inj in G. subst out.
      exists r, tab. split; [exact M|]. split; [rewrite (B t0 NI), sget_put, String.eqb_refl; reflexivity|].
      destruct r as [rows|]; [|now apply Ok_inj in T]. destruct (finish P om mf p rows) as [rows'|] eqn:F; cbn [obind] in T; [|discriminate].
      apply Ok_inj in T. eauto.
    + intros t NI2. rewrite (B t) by (intro X; apply NI2; now right). rewrite sget_put. destruct (String.eqb_spec t t0) as [->|]; [destruct NI2; now left|reflexivity].
Qed.

(** ** The whole run *)
Lemma run_ok : forall user names bands noise mfracs ormasks gp bands1 res,
  run_metadetect R user names bands noise mfracs ormasks gp = (bands1, Ok res) ->
  exists s dims om mf ws shear p d nd res0,
    read_config R user = Ok s /\ combine_ormasks dims ormasks = Ok om /\ get_mfrac_mbexp (map e_var bands) mfracs = Ok (mf, ws) /\
    (if truthy (s_sky s) then subtract_sky_mbexp P (s_thresh s) bands else (bands, Ok tt)) = (bands1, Ok tt) /\
    extract_shear_band_indices names (s_shear s) = Ok shear /\
    fit_original_psfs (ph_to_g P) shear (map (ph_psffit P) bands1) ws = Ok p /\
    Lmcal_model.get_metacal_mbexps_fixnoise (mcal_galsim R) (map to_mcal (combine names bands1)) (map to_mcal (combine names noise))
      (Some (s_types s)) (if String.eqb (s_reconv s) "fitgauss" then Some (perband (map (ph_psffit P) bands1)) else None) = Ok (d, nd) /\
    ofold (type_entry R s shear names om mf p) d [] = Ok res0 /\
    res = if gp then sput "psf_stats" (PsfStats p) res0 else res0.
Proof.
  intros user names bands noise mfracs ormasks gp bands1 res H. unfold run_metadetect in H. fold P in H.
  destruct (obind (read_config R user) _) as [[[s om] mw]|x] eqn:E; [|inversion H].
  destruct (read_config R user) as [s0|] eqn:E1; cbn [obind] in E; [|discriminate].
  match type of E with obind ?a _ = _ => destruct a as [om0|] eqn:E2; cbn [obind] in E; [|discriminate] end.
  destruct (get_mfrac_mbexp (map e_var bands) mfracs) as [[mf ws]|] eqn:E3; cbn [obind] in E; [|discriminate].
  apply Ok_inj in E. inversion E; subst s0 om0 mw. clear E.
  destruct (if truthy (s_sky s) then subtract_sky_mbexp P (s_thresh s) bands else (bands, Ok tt)) as [b1 [[]|x]] eqn:E4; [|inversion H].
  apply pair_equal_spec in H. destruct H as [<- H]. cbn [fst snd] in H.
  destruct (extract_shear_band_indices names (s_shear s)) as [shear|] eqn:E5; cbn [obind] in H; [|discriminate].
  destruct (fit_original_psfs (ph_to_g P) shear (map (ph_psffit P) b1) ws) as [p|] eqn:E6; cbn [obind] in H; [|discriminate].
  cbv zeta in H. destruct (Lmcal_model.get_metacal_mbexps_fixnoise _ _ _ _ _) as [[d nd]|] eqn:E7 in H; cbn [obind fst] in H; [|discriminate].
  destruct (ofold (type_entry R s shear names om mf p) d []) as [res0|] eqn:E8; cbn [obind] in H; [|discriminate]. apply Ok_inj in H.
  assert (Od : exists dims, combine_ormasks dims ormasks = Ok om).
  { destruct ormasks as [l|]; [eauto|]. destruct bands; [discriminate|eauto]. }
  destruct Od as [dims Od]. exists s, dims, om, mf, ws, shear, p, d, nd, res0. repeat (split; [first [assumption|reflexivity]|]). now symmetry.
Qed.
Lemma perband_ok : forall fs, perband (map (@Ok psffit) fs) = map (fun f => Lmcal_model.mkPs (pf_e1 f) (pf_e2 f) (pf_T f)) fs.
Proof. induction fs as [|f fs IH]; [reflexivity|]. unfold perband in *. cbn [map flat_map app]. now rewrite IH. Qed.
Lemma sky_part : forall s bands bands1 o,
  (if truthy (s_sky s) then subtract_sky_mbexp P (s_thresh s) bands else (bands, Ok tt)) = (bands1, o) ->
  Forall2 sky_lowered bands bands1 /\ (truthy (s_sky s) = false -> bands1 = bands).
Proof.
  intros s bands bands1 o K. split; [|intro T; rewrite T in K; congruence].
  destruct (truthy (s_sky s)); [exact (subtract_lowered _ _ _ _ _ K)|]. inversion K. apply Forall2_refl', sky_lowered_refl.
Qed.
End R.
