(** Proofs for C133. *)
From Coq Require Import ZArith QArith List String Bool Lia Lqa.
From Verif Require Import Base Arr Median Flags_model Detect_model Summ_model Coadd_model Coadd_spec Coadd_proofs Wavg_model Wavg_spec Wavg_proofs
  Joint_model Joint_spec Joint_proofs Conf_model Mdet_model Mrun_model Mrun_spec Mtab_model Mtab_spec Mtab_proofs Clean_spec.
Import ListNotations.
Local Open Scope string_scope.
Local Open Scope Z_scope.

Lemma some_num : forall q, is_num (Some q).
Proof. intros q. now exists q. Qed.
Lemma nadd_num : forall a b, is_num (nadd a b) -> is_num a /\ is_num b.
Proof. intros [a|] [b|] [q H]; cbn in H; try discriminate. split; apply some_num. Qed.
Lemma nadd_num' : forall a b, is_num a -> is_num b -> is_num (nadd a b).
Proof. intros a b [p ->] [q ->]. apply some_num. Qed.
Lemma nmul_num : forall a b, is_num (nmul a b) -> is_num a /\ is_num b.
Proof. intros [a|] [b|] [q H]; cbn in H; try discriminate. split; apply some_num. Qed.
Lemma nmul_num' : forall a b, is_num a -> is_num b -> is_num (nmul a b).
Proof. intros a b [p ->] [q ->]. apply some_num. Qed.
Lemma ndiv_num : forall a b, is_num (ndiv a b) -> is_num a /\ nonzero b.
Proof.
  intros [a|] [b|] [q H]; cbn in H; try discriminate. destruct (Qeq_bool b 0) eqn:E; [discriminate|]. split; [apply some_num|].
  exists b. split; [reflexivity|]. now apply Qeq_bool_neq.
Qed.
Lemma ndiv_num' : forall a b, is_num a -> nonzero b -> is_num (ndiv a b).
Proof.
  intros a b [p ->] (q & -> & H). cbn. destruct (Qeq_bool q 0) eqn:E; [apply Qeq_bool_eq in E; contradiction|]. apply some_num.
Qed.
Lemma nonzero_num : forall a, nonzero a -> is_num a.
Proof. intros a (q & -> & _). apply some_num. Qed.

(** ** The weighted averages *)
Lemma step_flux : forall w s b, (is_num (s_mom s 5%nat) -> is_num (s_flux s)) ->
  is_num (s_mom (sum_step w s b) 5%nat) -> is_num (s_flux (sum_step w s b)).
Proof.
  intros w s b I. unfold sum_step. destruct (b_issb b); [|exact I]. destruct (flux_mom_ratio w b) as [ratio rf].
  destruct (b_res b) as [[fl [m|] [c|] nr f1 f2 f3]|]; try exact I. cbn [s_mom s_flux]. intros H. apply nadd_num in H. destruct H as [H1 H2].
  apply nmul_num in H2. apply nadd_num'; [exact (I H1)|]. apply nmul_num'; [apply some_num|tauto].
Qed.
Lemma sums_flux : forall w bs, is_num (s_mom (sum_bands_wavg w bs) 5%nat) -> is_num (s_flux (sum_bands_wavg w bs)).
Proof.
  intros w bs. unfold sum_bands_wavg. cbn [s_mom s_flux].
  assert (G : forall l s, (is_num (s_mom s 5%nat) -> is_num (s_flux s)) ->
    is_num (s_mom (fold_left (sum_step w) l s) 5%nat) -> is_num (s_flux (fold_left (sum_step w) l s))).
  { induction l as [|b l IH]; intros s I; [exact I|]. cbn [fold_left]. apply IH. now apply step_flux. }
  apply G. intros _. cbn. apply some_num.
Qed.

Section Mom.
Variables (ng : ngcodes) (mk : vec -> mat -> momresult) (to_T qsqrt : Q -> Q).
Hypothesis Hno : NO_ATTEMPT ng <> 0.
Hypothesis Hnv : NONPOS_VAR ng <> 0.
Hypothesis Hsq : forall v, (0 < v)%Q -> ~ (qsqrt v == 0)%Q.
Hypothesis Hmk : honest_moments mk.

Lemma mom_T : forall raw cov fl fv fw, m_T_flags (make_mom_res ng mk to_T qsqrt raw cov fl fv fw) = 0 ->
  is_num (m_T (make_mom_res ng mk to_T qsqrt raw cov fl fv fw)) /\ is_num (m_T_err (make_mom_res ng mk to_T qsqrt raw cov fl fv fw)).
Proof.
  intros raw cov fl fv fw. unfold make_mom_res. cbv zeta. set (base := if negb (Qle_bool fw 0) then _ else _).
  assert (B : mo_T_flags base = 0 -> is_num (mo_T base) /\ is_num (mo_T_err base)).
  { subst base. destruct (negb (Qle_bool fw 0)); [cbn [mo_T_flags mo_T mo_T_err]|]; exact (proj2 (Hmk raw cov)). }
  clearbody base. destruct fv as [v|]; [destruct (negb (Qle_bool v 0))|]; cbn [m_T_flags m_T m_T_err]; exact B.
Qed.
Lemma mom_clean : forall raw cov fl fv fw, (is_num (raw 5%nat) -> is_num fl) ->
  m_flags (make_mom_res ng mk to_T qsqrt raw cov fl fv fw) = 0 ->
  let r := make_mom_res ng mk to_T qsqrt raw cov fl fv fw in
  is_num (m_e1 r) /\ is_num (m_e2 r) /\ is_mat (m_ecov r) /\ nonzero (m_T r) /\ is_num (m_s2n r).
Proof.
  intros raw cov fl fv fw HF. unfold make_mom_res. cbv zeta. set (base := if negb (Qle_bool fw 0) then _ else _).
  assert (B : mo_flags base = 0 -> is_num (mo_e1 base) /\ is_num (mo_e2 base) /\ is_mat (mo_ecov base) /\ nonzero (mo_T base) /\ is_num fl).
  { subst base. destruct (negb (Qle_bool fw 0)); [cbn [mo_flags mo_e1 mo_e2 mo_ecov mo_T]|]; intros H.
    - apply Z.lor_eq_0_iff in H. destruct H as [H1 H2]. apply Hmk in H1, H2. tauto.
    - apply Hmk in H. tauto. }
  clearbody base. set (f1 := if nle0 fl then _ else _).
  assert (F1 : f1 = 0 -> mo_flags base = 0).
  { subst f1. destruct (nle0 fl); [|auto]. intros H. apply Z.lor_eq_0_iff in H. tauto. }
  clearbody f1. destruct fv as [v|]; [destruct (Qle_bool v 0) eqn:E; cbn [negb]|]; cbn [m_flags m_e1 m_e2 m_ecov m_T m_s2n]; intros H.
  - apply Z.lor_eq_0_iff in H. tauto.
  - destruct (B (F1 H)) as (B1 & B2 & B3 & B4 & B5). repeat (split; [assumption|]). apply ndiv_num'; [exact B5|].
    exists (qsqrt v). split; [reflexivity|]. apply Hsq. destruct (Qlt_le_dec 0 v) as [L|L]; [exact L|]. apply Qle_bool_iff in L. congruence.
  - apply Z.lor_eq_0_iff in H. tauto.
Qed.

Definition bands_ok (bf be : list Wavg_model.num) (ff : list Z) : Prop :=
  forall k, nth_error ff k = Some 0 ->
    (exists v, nth_error bf k = Some v /\ is_num v) /\ (exists v, nth_error be k = Some v /\ is_num v).

Lemma finish_numbers : forall d0 n mf pf sd pd fw bf be ff,
  o_T_flags d0 <> 0 ->
  (is_num (s_mom sd 5%nat) -> is_num (s_flux sd)) -> (is_num (s_mom pd 5%nat) -> is_num (s_flux pd)) -> bands_ok bf be ff ->
  unflagged_numbers (finish_row ng mk to_T qsqrt d0 n mf pf sd pd fw bf be ff).
Proof.
  intros d0 n mf pf sd pd fw bf be ff HT Hs Hp Hb. unfold finish_row. cbv zeta.
  set (pm := make_mom_res _ _ _ _ _ _ _ _ 0%Q). set (om := make_mom_res _ _ _ _ _ _ _ _ fw).
  assert (P : m_flags pm = 0 -> is_num (m_e1 pm) /\ is_num (m_e2 pm) /\ nonzero (m_T pm)).
  { intros H. subst pm. apply mom_clean in H; [cbv zeta in H; tauto|]. intros X. unfold vdiv in X. apply ndiv_num in X. destruct X as [X1 X2].
    apply ndiv_num'; auto. }
  assert (O : m_flags om = 0 -> is_num (m_e1 om) /\ is_num (m_e2 om) /\ is_mat (m_ecov om) /\ is_num (m_s2n om)).
  { intros H. subst om. apply mom_clean in H; [cbv zeta in H; tauto|]. intros X. unfold vdiv in X. apply ndiv_num in X. destruct X as [X1 X2].
    apply ndiv_num'; auto. }
  assert (T : m_T_flags om = 0 -> is_num (m_T om) /\ is_num (m_T_err om)) by exact (mom_T _ _ _ _ _).
  clearbody pm om. unfold unflagged_numbers.
  cbn [o_psf_flags o_obj_flags o_psf_g o_psf_T o_s2n o_g o_g_cov o_T o_T_err o_T_flags o_T_ratio o_band_flux_flags o_band_flux o_band_flux_err].
  destruct (pf =? 0) eqn:Epf.
  - apply Z.eqb_eq in Epf. subst pf. rewrite Z.lor_0_l. split; [|split; [|split; [|split]]].
    + intros H. destruct (P H) as (P1 & P2 & P3). split; [split; assumption|now apply nonzero_num].
    + intros H. destruct (mf =? 0) eqn:Emf.
      * apply Z.eqb_eq in Emf. subst mf. rewrite Z.lor_0_l in H. destruct (m_flags pm =? 0); cbn [negb] in H.
        -- destruct (O H) as (O1 & O2 & O3 & O4). repeat split; assumption.
        -- apply Z.lor_eq_0_iff in H. destruct H as [_ H]. now apply flag_value_nonzero in H.
      * apply Z.eqb_neq in Emf. destruct (m_flags pm =? 0); cbn [negb] in H; [contradiction|]. apply Z.lor_eq_0_iff in H. tauto.
    + destruct (mf =? 0); [exact T|intros H; contradiction].
    + intros Hq. destruct (mf =? 0); [|intros H; contradiction]. intros H. rewrite Hq, Z.eqb_refl. apply ndiv_num'; [exact (proj1 (T H))|].
      exact (proj2 (proj2 (P Hq))).
    + destruct n; [|exact Hb]. intros [|k] H; [|destruct k; discriminate]. apply Some_inj in H. now apply flag_value_nonzero in H.
  - apply Z.eqb_neq in Epf. split; [|split; [|split; [|split]]].
    + contradiction.
    + intros H. apply Z.eqb_neq in Epf. rewrite Epf in H. cbn [negb] in H. apply Z.lor_eq_0_iff in H. destruct H as [_ H]. now apply flag_value_nonzero in H.
    + destruct (mf =? 0); [exact T|intros H; contradiction].
    + contradiction.
    + destruct n; [|exact Hb]. intros [|k] H; [|destruct k; discriminate]. apply Some_inj in H. now apply flag_value_nonzero in H.
Qed.

Lemma bands_flagged : forall bf be f n, f <> 0 -> bands_ok bf be (repeat f n).
Proof. intros bf be f n H k Hk. apply nth_error_In, repeat_spec in Hk. congruence. Qed.
Lemma cols_ok : forall res fl, (forall r, In (Some r) res -> honest_flux r) ->
  let cols := map (fun rf => band_flux_cols (fst rf) (snd rf)) (combine res fl) in
  bands_ok (map (fun c => fst (fst c)) cols) (map (fun c => snd (fst c)) cols) (map snd cols).
Proof.
  intros res fl Hr cols k Hk. rewrite !nth_error_map in *. subst cols. rewrite nth_error_map in *.
  destruct (nth_error (combine res fl) k) as [[r f]|] eqn:E; [|discriminate]. cbn [option_map fst snd] in *. apply Some_inj in Hk.
  apply nth_error_In, in_combine_l in E. unfold band_flux_cols in *.
  destruct r as [[a b c d [u|] [v|] [z|]]|]; cbn [fst snd] in *;
    try (apply Z.lor_eq_0_iff in Hk; destruct Hk as [_ Hk]; now apply flag_value_nonzero in Hk).
  apply Z.lor_eq_0_iff in Hk. destruct Hk as [_ ->]. destruct (Hr _ E u v eq_refl eq_refl eq_refl) as [Hu Hv]. split; eauto.
Qed.
Lemma combine_numbers : forall res psf issb wg fl sb fw r, (forall r, In (Some r) res -> honest_flux r) ->
  combine_fit_results_wavg ng mk to_T qsqrt res psf issb wg fl sb fw = Ok r -> unflagged_numbers r.
Proof.
  intros res psf issb wg fl sb fw r Hr H. unfold combine_fit_results_wavg in H.
  destruct (get_wavg_output_struct ng (List.length res) sb) as [d0|y] eqn:E; [|discriminate]. cbn [obind] in H.
  destruct (struct_ok _ _ _ _ E) as [_ D]. assert (HT : o_T_flags d0 <> 0) by (rewrite D; exact Hno).
  destruct (Nat.eqb (List.length res) 0 || _ || _ || _).
  - apply Ok_inj in H. subst r. set (f := if Nat.eqb _ 0 || _ then _ else _).
    assert (f <> 0) by (subst f; destruct (_ || _); apply flag_value_nonzero).
    apply finish_numbers; try assumption; try (intros _; apply some_num). now apply bands_flagged.
  - apply Ok_inj in H. subst r. apply finish_numbers; try assumption; try (apply sums_flux). exact (cols_ok res fl Hr).
Qed.
Lemma wavg_numbers : forall mbobs ft bm sb fw sym r, (forall o r, k_go ft o = Ok r -> honest_flux r) ->
  fit_mbobs_wavg ng mk to_T qsqrt mbobs ft bm sb fw sym = Ok r -> unflagged_numbers r.
Proof.
  intros mbobs ft bm sb fw sym r Hf H. unfold fit_mbobs_wavg in H. destruct (_ && _); [discriminate|].
  destruct (omap (fun ol => fit_obslist ol ft bm sym) mbobs) as [fits|] eqn:E; [|discriminate]. cbn [obind] in H.
  refine (combine_numbers _ _ _ _ _ _ _ _ _ H). intros fr Hin. apply in_map_iff in Hin. destruct Hin as (b & Hb & Hin).
  apply Mdet_proofs.omap_Forall2 in E. assert (X : exists ol, fit_obslist ol ft bm sym = Ok b).
  { clear -E Hin. induction E as [|a b' l l' Hab Hl IH]; [destruct Hin|]. destruct Hin as [<-|Hin]; eauto. }
  destruct X as (ol & X). unfold fit_obslist in X. destruct ol as [|o ol]; [apply Ok_inj in X; subst b; discriminate|]. unfold fit_obs in X.
  destruct (if sym then symmetrize_obs_weights o else Ok o) as [o'|]; [|discriminate]. cbn [obind] in X.
  destruct (f_bmask o') as [m|]; [|discriminate]. cbv zeta in X. destruct (negb _); [apply Ok_inj in X; subst b; discriminate|].
  destruct (k_go ft o') as [r'|] eqn:Ek; [|discriminate]. cbn [obind] in X. destruct (f_psf o'); [|discriminate].
  destruct (k_go_psf ft p); [|discriminate]. cbn [obind] in X. apply Ok_inj in X. subst b. cbn [bf_obj] in Hb. apply Some_inj in Hb. subst r'.
  exact (Hf _ _ Ek).
Qed.
Lemma wavg_covers : forall mbobs ft bm sb fw sym r,
  fit_mbobs_wavg ng mk to_T qsqrt mbobs ft bm sb fw sym = Ok r ->
  o_flags r = 0 -> o_psf_flags r = 0 /\ o_obj_flags r = 0 /\ Forall (eq 0) (o_band_flux_flags r).
Proof.
  intros mbobs ft bm sb fw sym r H Hz. unfold fit_mbobs_wavg in H. destruct (_ && _); [discriminate|].
  destruct (omap (fun ol => fit_obslist ol ft bm sym) mbobs) as [fits|] eqn:E; [|discriminate]. cbn [obind] in H.
  destruct (combine_flags _ _ _ _ _ _ _ _ _ _ _ _ H) as [H1 H2]. rewrite H2 in Hz. apply Z.lor_eq_0_iff in Hz. destruct Hz as [Z1 Z2].
  split; [|split; [exact Z1|]].
  - destruct (Z.eq_dec (o_psf_flags r) 0) as [X|X]; [exact X|]. apply H1, has_flag_nonzero in X. contradiction.
  - apply Forall_forall. intros f Hin. symmetry. exact (proj1 (zor_zero _) Z2 f Hin).
Qed.
End Mom.

(** ** The joint fits *)
Lemma blank_numbers : forall ng n sb d0 f, NO_ATTEMPT ng <> 0 -> get_wavg_output_struct ng n sb = Ok d0 -> unflagged_numbers (add_flags d0 f) /\ o_flags (add_flags d0 f) <> 0.
Proof.
  intros ng n sb d0 f Hno E. destruct (struct_ok _ _ _ _ E) as [_ ->]. unfold unflagged_numbers, add_flags.
  cbn [o_flags o_psf_flags o_obj_flags o_psf_g o_psf_T o_s2n o_g o_g_cov o_T o_T_err o_T_flags o_T_ratio o_band_flux_flags o_band_flux o_band_flux_err].
  split; [|intros H; apply Z.lor_eq_0_iff in H; tauto]. repeat (split; [intros; contradiction|]).
  intros k H. apply nth_error_In, repeat_spec in H. congruence.
Qed.
Lemma psf_step_ok : forall s q o, is_num (Joint_model.ps_g1 s) -> is_num (Joint_model.ps_g2 s) -> (exists t, Joint_model.ps_T s = Some t /\ (0 <= t)%Q) -> (0 <= ps_w s)%Q ->
  (Joint_model.q_flags q = 0 -> is_pair (Joint_model.q_g q) /\ exists t, Joint_model.q_T q = Some t /\ (0 < t)%Q) ->
  let s' := psf_step s (q, o) in
  Joint_model.ps_flags s' = 0 ->
  Joint_model.ps_flags s = 0 /\ is_num (Joint_model.ps_g1 s') /\ is_num (Joint_model.ps_g2 s') /\ (exists t, Joint_model.ps_T s' = Some t /\ (0 < t)%Q) /\ (0 < ps_w s')%Q.
Proof.
  intros s q o H1 H2 (t & H3 & H3') H4 Hq. cbv zeta. unfold psf_step. destruct (Joint_model.q_flags q =? 0) eqn:E.
  - apply Z.eqb_eq in E. destruct (Hq E) as ([Q1 Q2] & u & Q3 & Q4). destruct (qmedian (positive_of (f_weight o))) as [w|] eqn:Ew.
    + cbn [Joint_model.ps_flags Joint_model.ps_g1 Joint_model.ps_g2 Joint_model.ps_T ps_w]. intros Z0. apply Z.lor_eq_0_iff in Z0. destruct Z0 as [Z0 _].
      assert (W : (0 < w)%Q) by (eapply qmedian_pos; [|exact Ew]; intros v Hv; apply positive_of_in in Hv; tauto).
      split; [exact Z0|]. rewrite Q3. split; [|split; [|split]].
      * apply nadd_num'; [exact H1|]. apply nmul_num'; [apply nmul_num'; [exact Q1|apply some_num]|apply some_num].
      * apply nadd_num'; [exact H2|]. apply nmul_num'; [apply nmul_num'; [exact Q2|apply some_num]|apply some_num].
      * rewrite H3. cbn. eexists. split; [reflexivity|]. assert (0 < u * w)%Q by (apply Qmult_lt_0_compat; assumption). lra.
      * lra.
    + cbn [Joint_model.ps_flags]. intros Z0. apply Z.lor_eq_0_iff in Z0. destruct Z0 as [_ Z0]. now apply flag_value_nonzero in Z0.
  - apply Z.eqb_neq in E. cbn [Joint_model.ps_flags]. intros Z0. apply Z.lor_eq_0_iff in Z0. tauto.
Qed.
Lemma psf_fold_ok : forall l s, is_num (Joint_model.ps_g1 s) -> is_num (Joint_model.ps_g2 s) -> (exists t, Joint_model.ps_T s = Some t /\ (0 <= t)%Q) -> (0 <= ps_w s)%Q ->
  (forall q o, In (q, o) l -> Joint_model.q_flags q = 0 -> is_pair (Joint_model.q_g q) /\ exists t, Joint_model.q_T q = Some t /\ (0 < t)%Q) ->
  l <> [] -> let s' := fold_left psf_step l s in
  Joint_model.ps_flags s' = 0 ->
  is_num (Joint_model.ps_g1 s') /\ is_num (Joint_model.ps_g2 s') /\ (exists t, Joint_model.ps_T s' = Some t /\ (0 < t)%Q) /\ (0 < ps_w s')%Q.
Proof.
  assert (FL : forall l s, Joint_model.ps_flags (fold_left psf_step l s) = 0 -> Joint_model.ps_flags s = 0).
  { induction l as [|[q o] l IH]; intros s H; [exact H|]. cbn [fold_left] in H. apply IH in H. revert H. unfold psf_step.
    destruct (Joint_model.q_flags q =? 0); [destruct (qmedian _)|]; cbn [Joint_model.ps_flags]; intros H; repeat (apply Z.lor_eq_0_iff in H; destruct H as [H _]); exact H. }
  induction l as [|[q o] l IH]; intros s H1 H2 H3 H4 Hq Hne; [congruence|]. cbv zeta. cbn [fold_left]. intros Z0. assert (Z1 := FL _ _ Z0).
  destruct (psf_step_ok s q o H1 H2 H3 H4 (Hq q o (or_introl eq_refl)) Z1) as (_ & S1 & S2 & (t & S3 & S3') & S4). destruct l as [|a l].
  - cbn [fold_left]. repeat split; auto. exists t. auto.
  - apply IH; auto.
    + exists t. split; [exact S3|lra].
    + lra.
    + intros q' o' Hin. apply (Hq q' o'). now right.
    + discriminate.
Qed.
Lemma set_at_inv : forall A (l : list A) i v l', set_at l i v = Ok l' ->
  exists j, (j < List.length l)%nat /\ Z.of_nat j = (if i <? 0 then i + zlen l else i) /\ l' = set_nth l j v.
Proof.
  intros A l i v l' H. unfold set_at in H. cbv zeta in H. set (j := if i <? 0 then i + zlen l else i) in *.
  destruct ((0 <=? j) && (j <? zlen l)) eqn:E; [|discriminate]. apply andb_true_iff in E. destruct E as [E1 E2].
  apply Z.leb_le in E1. apply Z.ltb_lt in E2. apply Ok_inj in H. subst l'. exists (Z.to_nat j). unfold zlen in E2.
  split; [lia|]. split; [now rewrite Z2Nat.id|reflexivity].
Qed.
(** Flags [z] and numbers written to the same places. *)
Definition paired (ff : list Z) (l : list Wavg_model.num) : Prop :=
  List.length ff = List.length l /\ forall k, nth_error ff k = Some 0 -> exists v, nth_error l k = Some v /\ is_num v.
Lemma write_both : forall z idx vals, Forall is_num vals -> List.length vals = List.length idx -> forall ff l ff' l', paired ff l ->
  ofold (fun l i => set_at l i z) idx ff = Ok ff' -> ofold (fun l iv => set_at l (fst iv) (snd iv)) (combine idx vals) l = Ok l' ->
  paired ff' l'.
Proof.
  intros z idx. induction idx as [|i idx IH]; intros vals Hv Hl ff l ff' l' P H1 H2.
  - cbn in H1, H2. apply Ok_inj in H1, H2. now subst.
  - destruct vals as [|v vals]; [discriminate|]. cbn [combine ofold fst snd] in H1, H2. inversion Hv as [|? ? V1 V2]; subst.
    destruct (set_at ff i z) as [ff1|] eqn:E1; [|discriminate]. destruct (set_at l i v) as [l1|] eqn:E2; [|discriminate]. cbn [obind] in H1, H2.
    cbn [List.length] in Hl. apply eq_add_S in Hl. apply (IH vals V2 Hl ff1 l1 ff' l'); auto.
    apply set_at_inv in E1, E2. destruct E1 as (j & J1 & J2 & ->), E2 as (j' & K1 & K2 & ->). destruct P as [PL P].
    assert (j' = j) by (unfold zlen in *; rewrite PL in J2; lia). subst j'. split; [now rewrite !set_nth_length|]. intros k Hk.
    destruct (Nat.eq_dec k j) as [->|N].
    + exists v. split; [now apply set_nth_same|exact V1].
    + rewrite set_nth_other in Hk |- * by exact N. exact (P k Hk).
Qed.
Lemma broadcast : forall A (v : A) idx l, ofold (fun l i => set_at l i v) idx l =
  ofold (fun l iv => set_at l (fst iv) (snd iv)) (combine idx (repeat v (List.length idx))) l.
Proof.
  intros A v idx. induction idx as [|i idx IH]; intros l; [reflexivity|]. cbn [List.length repeat combine ofold fst snd].
  destruct (set_at l i v); [cbn [obind]; apply IH|reflexivity].
Qed.
Lemma assign_numbers : forall nband idx z vals ff l ff' l', Forall is_num vals -> paired ff l ->
  assign_bands nband ff idx [z] = Ok ff' -> assign_bands nband l idx vals = Ok l' -> paired ff' l'.
Proof.
  intros nband idx z vals ff l ff' l' Hv P H1 H2. unfold assign_bands in *. destruct (Nat.leb nband 1).
  - apply Ok_inj in H1. subst ff'. destruct vals as [|v [|w vals]]; try discriminate. apply Ok_inj in H2. subst l'.
    split; [reflexivity|]. inversion Hv; subst. intros [|k] Hk; [exists v; auto|destruct k; discriminate].
  - cbn [assign_at] in H1. unfold assign_at in H2. destruct vals as [|v [|w vals]].
    + destruct (Nat.eqb (List.length []) (List.length idx)) eqn:E; [|discriminate]. apply Nat.eqb_eq in E. exact (write_both z idx [] Hv E ff l ff' l' P H1 H2).
    + rewrite broadcast in H2. inversion Hv; subst. refine (write_both z idx (repeat v (List.length idx)) _ (repeat_length _ _) ff l ff' l' P H1 H2).
      apply Forall_forall. intros u Hu. apply repeat_spec in Hu. now subst u.
    + destruct (Nat.eqb (List.length (v :: w :: vals)) (List.length idx)) eqn:E; [|discriminate]. apply Nat.eqb_eq in E.
      exact (write_both z idx (v :: w :: vals) Hv E ff l ff' l' P H1 H2).
Qed.
Lemma assign_flags : forall nband idx z ff ff', z <> 0 -> ~ In 0 ff -> assign_bands nband ff idx [z] = Ok ff' -> ~ In 0 ff'.
Proof.
  intros nband idx z ff ff' Hz. unfold assign_bands. destruct (Nat.leb nband 1); [intros _ H; apply Ok_inj in H; subst ff'; intros [X|[]]; congruence|].
  cbn [assign_at]. revert ff ff'. induction idx as [|i idx IH]; intros ff ff' N H; cbn [ofold] in H; [apply Ok_inj in H; now subst|].
  destruct (set_at ff i z) as [ff1|] eqn:E; [|discriminate]. cbn [obind] in H. apply (IH ff1 ff'); [|exact H].
  apply set_at_inv in E. destruct E as (j & J1 & _ & ->). intros X. apply In_nth_error in X. destruct X as (k & X).
  destruct (Nat.eq_dec k j) as [->|Nk]; [rewrite set_nth_same in X by exact J1; congruence|]. rewrite set_nth_other in X by exact Nk.
  apply N. exact (nth_error_In _ _ X).
Qed.
Lemma psf_numbers : forall d0 coadd obs p pf pT pg, obs <> [] ->
  (forall k, Joint_model.q_flags (p k) = 0 -> is_pair (Joint_model.q_g (p k)) /\ exists t, Joint_model.q_T (p k) = Some t /\ (0 < t)%Q) ->
  psf_columns d0 coadd (map (fun o => [o]) obs) p = (pf, pT, pg) -> pf = 0 -> is_pair pg /\ nonzero pT.
Proof.
  intros d0 coadd obs p pf pT pg Ho Hp H Hz. subst pf. unfold psf_columns in H. destruct coadd; cbv zeta in H.
  - injection H as H1 H2 H3. rewrite H1 in H2, H3. cbn [Z.eqb] in H2, H3. destruct (Hp O H1) as (A & t & B & C). subst pT pg.
    split; [exact A|]. exists t. split; [exact B|lra].
  - injection H as H1 H2 H3. rewrite H1 in H2, H3. cbn [Z.eqb] in H2, H3.
    assert (F := fun a b cc d => psf_fold_ok (map (fun ko => (p (fst ko), snd ko)) (stamps (map (fun o => [o]) obs))) psums0 a b cc d).
    cbv zeta in F. destruct F as (F1 & F2 & (t & F3 & F4) & F5).
    + apply some_num.
    + apply some_num.
    + exists 0%Q. split; [reflexivity|lra].
    + cbn. lra.
    + intros q o Hin. apply in_map_iff in Hin. destruct Hin as ([k o'] & E & _). injection E as <- _. cbn [fst]. exact (Hp k).
    + destruct obs as [|o obs]; [congruence|]. cbn. discriminate.
    + exact H1.
    + subst pT pg. rewrite F3. split; [split; cbn [fst snd]; (apply ndiv_num'; [assumption|exists t; split; [reflexivity|lra]])|].
      cbn. destruct (Qeq_bool (ps_w _) 0) eqn:E.
      * apply Qeq_bool_eq in E. rewrite E in F5. lra.
      * eexists. split; [reflexivity|]. intros X. apply Qeq_bool_neq in E.
        assert (t == 0)%Q by (rewrite <- (Qmult_div_r t _ E), X; ring). lra.
Qed.
Lemma gauss_numbers : forall ng boot mbobs bm sb coadd r, NO_ATTEMPT ng <> 0 -> honest_boot boot ->
  fit_mbobs_gauss ng boot mbobs bm sb coadd = Ok r -> unflagged_numbers r /\ (o_flags r = 0 -> o_psf_flags r = 0 /\ o_obj_flags r = 0 /\ o_T_flags r = 0).
Proof.
  intros ng boot mbobs bm sb coadd r Hno Hb H. unfold fit_mbobs_gauss in H. set (s := default_bands mbobs sb) in *.
  destruct (get_wavg_output_struct ng (List.length mbobs) s) as [d0|] eqn:E; [|discriminate]. cbn [obind] in H.
  assert (BL : forall f, r = add_flags d0 f -> unflagged_numbers r /\ (o_flags r = 0 -> o_psf_flags r = 0 /\ o_obj_flags r = 0 /\ o_T_flags r = 0)).
  { intros f ->. destruct (blank_numbers ng _ _ _ f Hno E) as [B1 B2]. split; [exact B1|contradiction]. }
  destruct (data_flags bm mbobs) as [f0|] eqn:EF; [|discriminate]. cbn [obind] in H. cbv zeta in H.
  destruct (negb _) eqn:E1; [apply Ok_inj in H; symmetry in H; exact (BL _ H)|]. apply negb_false_iff, Z.eqb_eq in E1.
  assert (Z0 : f0 = 0) by (destruct (existsb _ s); [apply Z.lor_eq_0_iff in E1; tauto|exact E1]). subst f0.
  destruct (gauss_stamps mbobs s coadd) as [[mb|cf]|] eqn:ES; [| |discriminate]; cbn [obind] in H; [|apply Ok_inj in H; symmetry in H; exact (BL _ H)].
  destruct (boot mb) as [g p| |] eqn:EB; [|apply Ok_inj in H; symmetry in H; exact (BL _ H)|apply Ok_inj in H; symmetry in H; exact (BL _ H)].
  destruct (Hb mb g p EB) as (Hne & Hg & Hp).
  destruct (fitted_single bm mbobs s coadd mb (data_flags_zero _ _ EF) (fit_stamps _ _ _ _ ES)) as (obs & -> & _).
  assert (obs <> []) by (intros ->; apply Hne; reflexivity). unfold gauss_row in H.
  destruct (assign_bands _ (o_band_flux_flags d0) _ _) as [bff|] eqn:A0; cbn [obind] in H; [|discriminate]. cbv zeta in H.
  destruct (if g_flags g =? 0 then assign_bands _ _ _ (g_flux g) else _) as [bf|] eqn:A1; cbn [obind] in H; [|discriminate].
  destruct (if g_flags g =? 0 then assign_bands _ _ _ (g_flux_err g) else _) as [be|] eqn:A2; cbn [obind] in H; [|discriminate].
  destruct (psf_columns d0 coadd (map (fun o => [o]) obs) p) as [[pf pT] pg] eqn:PC. apply Ok_inj in H. subst r.
  assert (PN := psf_numbers _ _ _ _ _ _ _ H0 Hp PC). unfold unflagged_numbers.
  cbn [o_flags o_psf_flags o_obj_flags o_psf_g o_psf_T o_s2n o_g o_g_cov o_T o_T_err o_T_flags o_T_ratio o_band_flux_flags o_band_flux o_band_flux_err].
  destruct (struct_ok _ _ _ _ E) as [_ D].
  split; [|intros X; apply Z.lor_eq_0_iff in X; tauto]. split; [|split; [|split; [|split]]].
  - intros X. destruct (PN X) as [N1 N2]. split; [exact N1|now apply nonzero_num].
  - intros X. rewrite X. cbn [Z.eqb]. destruct (Hg X) as (G1 & G2 & G3 & _). auto.
  - intros X. rewrite X. cbn [Z.eqb]. destruct (Hg X) as (_ & _ & _ & G4 & G5 & _). auto.
  - intros Y X. rewrite X, Y. cbn [Z.eqb andb]. destruct (Hg X) as (_ & _ & _ & G4 & _). destruct (PN Y) as [_ N2]. now apply ndiv_num'.
  - intros k Hk. assert (P0 : forall l, l = repeat None (Nat.max (List.length mbobs) 1) -> paired (o_band_flux_flags d0) l).
    { intros l ->. rewrite D. cbn [o_band_flux_flags]. split; [now rewrite !repeat_length|]. intros j Hj. apply nth_error_In, repeat_spec in Hj. congruence. }
    destruct (g_flags g =? 0) eqn:EG.
    + apply Z.eqb_eq in EG. destruct (Hg EG) as (_ & _ & _ & _ & _ & G6 & G7). split.
      * refine (proj2 (assign_numbers _ _ _ _ _ _ _ _ G6 (P0 (o_band_flux d0) _) A0 A1) k Hk). now rewrite D.
      * refine (proj2 (assign_numbers _ _ _ _ _ _ _ _ G7 (P0 (o_band_flux_err d0) _) A0 A2) k Hk). now rewrite D.
    + exfalso. apply Z.eqb_neq in EG. refine (assign_flags _ _ _ _ _ EG _ A0 (nth_error_In _ _ Hk)). rewrite D. cbn [o_band_flux_flags].
      intros X. apply repeat_spec in X. congruence.
Qed.
Lemma admom_numbers : forall ng rp ro mbobs bm sb sym r, NO_ATTEMPT ng <> 0 ->
  (forall o r, rp o = Ok r -> honest_am_psf r) -> (forall o r, ro o = Ok r -> honest_am r) ->
  fit_mbobs_admom ng rp ro mbobs bm sb sym = Ok r -> unflagged_numbers r /\ (o_flags r = 0 -> o_psf_flags r = 0 /\ o_obj_flags r = 0).
Proof.
  intros ng rp ro mbobs bm sb sym r Hno Hp Ho H. unfold fit_mbobs_admom in H. set (s := default_bands mbobs sb) in *.
  destruct (get_wavg_output_struct ng (List.length mbobs) s) as [d0|] eqn:E; [|discriminate]. cbn [obind] in H.
  assert (BL : forall f, r = add_flags d0 f -> unflagged_numbers r /\ (o_flags r = 0 -> o_psf_flags r = 0 /\ o_obj_flags r = 0)).
  { intros f ->. destruct (blank_numbers ng _ _ _ f Hno E) as [B1 B2]. split; [exact B1|contradiction]. }
  destruct (data_flags bm mbobs) as [f0|] eqn:EF; [|discriminate]. cbn [obind] in H.
  destruct (negb (f0 =? 0)); [apply Ok_inj in H; symmetry in H; exact (BL _ H)|].
  destruct (make_coadd_obs mbobs s) as [[[co|] cf]|]; [| |discriminate]; cbn [obind] in H;
    [|destruct cf; apply Ok_inj in H; symmetry in H; exact (BL _ H)].
  destruct cf as [|z|z]; [|apply Ok_inj in H; symmetry in H; exact (BL _ H)|apply Ok_inj in H; symmetry in H; exact (BL _ H)].
  unfold admom_psf in H. destruct (f_psf co) as [po|]; [|apply Ok_inj in H; symmetry in H; exact (BL _ H)].
  destruct (rp po) as [pr|] eqn:ER; [|apply Ok_inj in H; symmetry in H; exact (BL _ H)]. specialize (Hp po pr ER). unfold admom_row in H. cbv zeta in H.
  destruct (if sym then symmetrize_obs_weights co else Ok co) as [so|]; [|discriminate]. cbn [obind] in H. destruct (struct_ok _ _ _ _ E) as [_ D].
  assert (BF : forall k, nth_error (o_band_flux_flags d0) k = Some 0 ->
    (exists v, nth_error (o_band_flux d0) k = Some v /\ is_num v) /\ (exists v, nth_error (o_band_flux_err d0) k = Some v /\ is_num v)).
  { intros k Hk. rewrite D in Hk. apply nth_error_In, repeat_spec in Hk. congruence. }
  destruct (ro so) as [gr|y] eqn:EO; apply Ok_inj in H; subst r; unfold unflagged_numbers;
    cbn [o_flags o_psf_flags o_obj_flags o_psf_g o_psf_T o_s2n o_g o_g_cov o_T o_T_err o_T_flags o_T_ratio o_band_flux_flags o_band_flux o_band_flux_err].
  - destruct (Ho so gr EO) as [O1 O2]. split; [|intros X; apply Z.lor_eq_0_iff in X; tauto]. split; [|split; [|split; [|split]]].
    + intros X. rewrite X. cbn [Z.eqb]. destruct (Hp X) as [P1 P2]. split; [exact P1|now apply nonzero_num].
    + intros X. rewrite X. cbn [Z.eqb]. exact (O1 X).
    + intros X. rewrite X. cbn [Z.eqb]. exact (O2 X).
    + intros X Y. rewrite X, Y. cbn [Z.eqb andb]. destruct (Hp X) as [_ P2]. apply ndiv_num'; [exact (proj1 (O2 Y))|exact P2].
    + exact BF.
  - split; [|intros X; now apply flag_value_nonzero in X]. split; [|split; [|split; [|split]]].
    + intros X. rewrite X. cbn [Z.eqb]. destruct (Hp X) as [P1 P2]. split; [exact P1|now apply nonzero_num].
    + rewrite D. intros X. contradiction.
    + rewrite D. intros X. contradiction.
    + rewrite D. intros _ X. contradiction.
    + exact BF.
Qed.

(** ** All fitters, and the tables *)
Section Fit.
Variables (x : third) (c : settings).
Hypothesis Hx : honest x.
Lemma fit_numbers : forall f sb st r, fit x c f sb st = Ok r -> unflagged_numbers r.
Proof.
  intros f sb st r H. destruct Hx as [[H0 H1] H2 H3 H4 H5 H6 H7]. unfold fit in H. destruct (fi_wavg f).
  - exact (wavg_numbers _ _ _ _ H0 H1 H2 H3 _ (kernel x f) _ _ _ _ _ (H4 f) H).
  - destruct (_ || _); [exact (proj1 (admom_numbers _ _ _ _ _ _ _ _ H0 H6 H7 H))|].
    destruct (String.eqb _ _); [exact (proj1 (gauss_numbers _ _ _ _ _ _ _ H0 H5 H))|discriminate].
Qed.
Lemma fit_covers : forall f sb st r, fit x c f sb st = Ok r -> summary_covers r.
Proof.
  intros f sb st r H Hz. destruct Hx as [[H0 H1] H2 H3 H4 H5 H6 H7]. unfold fit in H. destruct (fi_wavg f).
  - destruct (wavg_covers _ _ _ _ _ _ _ _ _ _ _ H Hz) as (A & B & _). auto.
  - destruct (_ || _); [exact (proj2 (admom_numbers _ _ _ _ _ _ _ _ H0 H6 H7 H) Hz)|].
    destruct (String.eqb _ _); [|discriminate]. destruct (proj2 (gauss_numbers _ _ _ _ _ _ _ H0 H5 H) Hz) as (A & B & _). auto.
Qed.

Lemma mom_sized : forall ng mk to_T qsqrt raw cov fl fv fw, sized mk ->
  m_flags (make_mom_res ng mk to_T qsqrt raw cov fl fv fw) = 0 -> m_T_flags (make_mom_res ng mk to_T qsqrt raw cov fl fv fw) = 0.
Proof.
  intros ng mk to_T qsqrt raw cov fl fv fw S. unfold make_mom_res. cbv zeta. set (base := if negb (Qle_bool fw 0) then _ else _).
  assert (B : mo_flags base = 0 -> mo_T_flags base = 0).
  { subst base. destruct (negb (Qle_bool fw 0)); [cbn [mo_flags mo_T_flags]|]; intros H; [apply Z.lor_eq_0_iff in H|]; apply S; tauto. }
  clearbody base. set (f1 := if nle0 fl then _ else _).
  assert (F1 : f1 = 0 -> mo_flags base = 0).
  { subst f1. destruct (nle0 fl); [|auto]. intros H. apply Z.lor_eq_0_iff in H. tauto. }
  clearbody f1. destruct fv as [v|]; [destruct (negb (Qle_bool v 0))|]; cbn [m_flags m_T_flags]; intros H;
    try (apply Z.lor_eq_0_iff in H; destruct H as [H _]); auto.
Qed.
Lemma finish_sized : forall ng mk to_T qsqrt d0 n mf pf sd pd fw bf be ff, sized mk ->
  o_obj_flags (finish_row ng mk to_T qsqrt d0 n mf pf sd pd fw bf be ff) = 0 -> o_T_flags (finish_row ng mk to_T qsqrt d0 n mf pf sd pd fw bf be ff) = 0.
Proof.
  intros ng mk to_T qsqrt d0 n mf pf sd pd fw bf be ff S. unfold finish_row. cbv zeta.
  set (pf' := match (if pf =? 0 then Some _ else None) with Some _ => _ | None => pf end). set (om := make_mom_res _ _ _ _ _ _ _ _ fw).
  assert (M : m_flags om = 0 -> m_T_flags om = 0) by (exact (mom_sized _ _ _ _ _ _ _ _ _ S)). clearbody om pf'.
  cbn [o_obj_flags o_T_flags]. intros H.
  assert (H' : match (if mf =? 0 then Some om else None) with Some r => Z.lor mf (m_flags r) | None => mf end = 0).
  { destruct (negb (pf' =? 0)); [apply Z.lor_eq_0_iff in H; tauto|exact H]. }
  destruct (mf =? 0) eqn:E; [apply Z.lor_eq_0_iff in H'; tauto|]. apply Z.eqb_neq in E. contradiction.
Qed.
Lemma wavg_sized : forall ng mk to_T qsqrt mbobs ft bm sb fw sym r, sized mk ->
  fit_mbobs_wavg ng mk to_T qsqrt mbobs ft bm sb fw sym = Ok r -> o_obj_flags r = 0 -> o_T_flags r = 0.
Proof.
  intros ng mk to_T qsqrt mbobs ft bm sb fw sym r S H. unfold fit_mbobs_wavg in H. destruct (_ && _); [discriminate|].
  destruct (omap (fun ol => fit_obslist ol ft bm sym) mbobs) as [fits|] eqn:E; [|discriminate]. cbn [obind] in H.
  unfold combine_fit_results_wavg in H. destruct (get_wavg_output_struct ng _ _) as [d0|y]; [|discriminate]. cbn [obind] in H.
  destruct (_ || _ || _ || _); apply Ok_inj in H; subst r; apply finish_sized; exact S.
Qed.
Lemma wavg_all : sized (tp_mk x) -> forall f sb st r, fi_wavg f = true -> fit x c f sb st = Ok r -> o_flags r = 0 -> all_numbers r.
Proof.
  intros S f sb st r Hw H Hz. assert (U := fit_numbers f sb st r H). assert (W := fit_width x c f sb st r H).
  unfold fit in H. rewrite Hw in H. destruct (wavg_covers _ _ _ _ _ _ _ _ _ _ _ H Hz) as (A & B & C).
  assert (T := wavg_sized _ _ _ _ _ _ _ _ _ _ _ S H B). destruct U as (U1 & U2 & U3 & U4 & U5).
  destruct (U1 A) as [P1 P2]. destruct (U2 B) as (P3 & P4 & P5). destruct (U3 T) as [P6 P7]. specialize (U4 A T).
  destruct W as (W1 & W2 & W3 & _). unfold all_numbers. repeat (split; [assumption|]). split; apply Forall_forall; intros v Hv.
  - apply In_nth_error in Hv. destruct Hv as (k & Hv).
    assert (Hk : (k < List.length (o_band_flux_flags r))%nat) by (rewrite W1, <- W2; apply nth_error_Some; congruence).
    destruct (nth_error (o_band_flux_flags r) k) as [z|] eqn:Ez; [|apply nth_error_None in Ez; lia].
    assert (z = 0) by (rewrite Forall_forall in C; symmetry; apply C; exact (nth_error_In _ _ Ez)). subst z.
    destruct (U5 k Ez) as [(u & X & Y) _]. congruence.
  - apply In_nth_error in Hv. destruct Hv as (k & Hv).
    assert (Hk : (k < List.length (o_band_flux_flags r))%nat) by (rewrite W1, <- W3; apply nth_error_Some; congruence).
    destruct (nth_error (o_band_flux_flags r) k) as [z|] eqn:Ez; [|apply nth_error_None in Ez; lia].
    assert (z = 0) by (rewrite Forall_forall in C; symmetry; apply C; exact (nth_error_In _ _ Ez)). subst z.
    destruct (U5 k Ez) as [_ (u & X & Y)]. congruence.
Qed.
End Fit.

Section Tables.
Variables (x : third) (c : settings) (main : mbo) (sbc : option (list (list Z))) (keyf : option keyfun) (dep : option colours) (dbc : det_arg).
Variables (md : mdet) (ps : list string).
Hypothesis Hx : honest x.
Hypothesis Hs : all_one_shape main dep.
Hypothesis Hmc : metacal_ok x c.
Hypothesis Hb : same_bands main dep.
Hypothesis Hmd : construct (st_conf c) (zlen main) (has keyf) (has dep) sbc dbc = Ok md.
Hypothesis Hps : Forall2 prefix (md_fitters md) ps.
Lemma table_rows : forall ts t tb, do_metadetect_tables x c main sbc keyf dep dbc = Ok (Some ts) -> In (t, Some tb) ts ->
  exists rows, 
  (forall dr, In dr rows -> exists sb st, Forall2 (fun f v => fit x c f sb st = Ok v) (md_fitters md) (r_fits dr)) /\
  (forall k p n h, nth_error ps k = Some p -> In (n, of_fit k h) (fit_columns k p) -> forall i v,
     read tb n i v <-> exists dr f, nth_error rows i = Some dr /\ nth_error (r_fits dr) k = Some f /\ v = h f).
Proof.
  intros ts t tb H Hin.
  destruct (run_read x c main sbc keyf dep dbc md ps Hs Hmc Hb Hmd Hps ts t tb H Hin) as (r & rows & R1 & R2 & _ & R3 & _).
  exists rows. split; [|exact R3]. intros dr Hdr. 
  destruct (proj2 (tables_shown x c main sbc keyf dep dbc md ps Hs Hmc Hb Hmd Hps) r t rows R1 R2) as [_ Hok].
  rewrite Forall_forall in Hok. destruct (Hok dr Hdr) as (_ & _ & _ & _ & X). exact X.
Qed.
Lemma Forall2_nth : forall A B (R : A -> B -> Prop) l l' k b, Forall2 R l l' -> nth_error l' k = Some b -> exists a, nth_error l k = Some a /\ R a b.
Proof.
  intros A B R l l' k b H. revert k. induction H as [|a b' l l' Hab Hl IH]; intros [|k] Hk; try discriminate.
  - apply Some_inj in Hk. subst b'. exists a. auto.
  - exact (IH k Hk).
Qed.
(** Reading the cells of one row and one fitter is reading one fit. *)
Lemma table_fit : forall ts t tb k p i, do_metadetect_tables x c main sbc keyf dep dbc = Ok (Some ts) -> In (t, Some tb) ts ->
  nth_error ps k = Some p ->
  forall n0 h0 v0, In (n0, of_fit k h0) (fit_columns k p) -> read tb n0 i v0 ->
  exists f r sb st, nth_error (md_fitters md) k = Some f /\ fit x c f sb st = Ok r /\
    forall n h v, In (n, of_fit k h) (fit_columns k p) -> (read tb n i v <-> v = h r).
Proof.
  intros ts t tb k p i H Hin Hp n0 h0 v0 I0 R0. destruct (table_rows ts t tb H Hin) as (rows & T1 & T2).
  apply (T2 k p n0 h0 Hp I0) in R0. destruct R0 as (dr & r & N1 & N2 & _).
  destruct (T1 dr (nth_error_In _ _ N1)) as (sb & st & F2). destruct (Forall2_nth _ _ _ _ _ _ _ F2 N2) as (f & F3 & F4).
  exists f, r, sb, st. split; [exact F3|]. split; [exact F4|]. intros n h v I. rewrite (T2 k p n h Hp I). split.
  - intros (dr' & r' & M1 & M2 & ->). congruence.
  - intros ->. exists dr, r. auto.
Qed.
Lemma table_numbers : forall ts t tb k p i, do_metadetect_tables x c main sbc keyf dep dbc = Ok (Some ts) -> In (t, Some tb) ts ->
  nth_error ps k = Some p ->
  (read tb (p ++ "_psf_flags") i (CInt 0) -> forall q v, In q ["_psf_g"; "_psf_T"] -> read tb (p ++ q) i v -> numbers v) /\
  (read tb (p ++ "_obj_flags") i (CInt 0) -> forall q v, In q ["_s2n"; "_g"; "_g_cov"] -> read tb (p ++ q) i v -> numbers v) /\
  (read tb (p ++ "_T_flags") i (CInt 0) -> forall q v, In q ["_T"; "_T_err"] -> read tb (p ++ q) i v -> numbers v) /\
  (read tb (p ++ "_psf_flags") i (CInt 0) -> read tb (p ++ "_T_flags") i (CInt 0) ->
     forall v, read tb (p ++ "_T_ratio") i v -> numbers v) /\
  (forall ff b, read tb (p ++ "_band_flux_flags") i (CInts ff) -> nth_error ff b = Some 0 ->
     forall q v, In q ["_band_flux"; "_band_flux_err"] -> read tb (p ++ q) i v -> flux_number v b) /\
  (read tb (p ++ "_flags") i (CInt 0) ->
     forall q v, In q ["_psf_flags"; "_obj_flags"] -> read tb (p ++ q) i v -> v = CInt 0).
Proof.
  intros ts t tb k p i H Hin Hp.
  assert (TF := table_fit ts t tb k p i H Hin Hp).
  assert (C0 : In (p ++ "_flags", of_fit k (fun r => CInt (o_flags r))) (fit_columns k p)) by (unfold fit_columns; cbn [In]; tauto).
  assert (C1 : In (p ++ "_psf_flags", of_fit k (fun r => CInt (o_psf_flags r))) (fit_columns k p)) by (unfold fit_columns; cbn [In]; tauto).
  assert (C2 : In (p ++ "_psf_g", of_fit k (fun r => CPair (o_psf_g r))) (fit_columns k p)) by (unfold fit_columns; cbn [In]; tauto).
  assert (C3 : In (p ++ "_psf_T", of_fit k (fun r => CNum (o_psf_T r))) (fit_columns k p)) by (unfold fit_columns; cbn [In]; tauto).
  assert (C4 : In (p ++ "_obj_flags", of_fit k (fun r => CInt (o_obj_flags r))) (fit_columns k p)) by (unfold fit_columns; cbn [In]; tauto).
  assert (C5 : In (p ++ "_s2n", of_fit k (fun r => CNum (o_s2n r))) (fit_columns k p)) by (unfold fit_columns; cbn [In]; tauto).
  assert (C6 : In (p ++ "_g", of_fit k (fun r => CPair (o_g r))) (fit_columns k p)) by (unfold fit_columns; cbn [In]; tauto).
  assert (C7 : In (p ++ "_g_cov", of_fit k (fun r => CMat (o_g_cov r))) (fit_columns k p)) by (unfold fit_columns; cbn [In]; tauto).
  assert (C8 : In (p ++ "_T", of_fit k (fun r => CNum (o_T r))) (fit_columns k p)) by (unfold fit_columns; cbn [In]; tauto).
  assert (C9 : In (p ++ "_T_flags", of_fit k (fun r => CInt (o_T_flags r))) (fit_columns k p)) by (unfold fit_columns; cbn [In]; tauto).
  assert (C10 : In (p ++ "_T_err", of_fit k (fun r => CNum (o_T_err r))) (fit_columns k p)) by (unfold fit_columns; cbn [In]; tauto).
  assert (C11 : In (p ++ "_T_ratio", of_fit k (fun r => CNum (o_T_ratio r))) (fit_columns k p)) by (unfold fit_columns; cbn [In]; tauto).
  assert (C12 : In (p ++ "_band_flux_flags", of_fit k (fun r => CInts (o_band_flux_flags r))) (fit_columns k p)) by (unfold fit_columns; cbn [In]; tauto).
  assert (C13 : In (p ++ "_band_flux", of_fit k (fun r => CNums (o_band_flux r))) (fit_columns k p)) by (unfold fit_columns; cbn [In]; tauto).
  assert (C14 : In (p ++ "_band_flux_err", of_fit k (fun r => CNums (o_band_flux_err r))) (fit_columns k p)) by (unfold fit_columns; cbn [In]; tauto).
  split; [|split; [|split; [|split; [|split]]]].
  - intros R. destruct (TF _ _ _ C1 R) as (f & r & sb & st & _ & Hf & RR). apply (RR _ _ _ C1) in R. injection R as R. symmetry in R.
    destruct (fit_numbers x c Hx f sb st r Hf) as (U & _). destruct (U R) as [U1 U2].
    intros q v [<-|[<-|[]]] V; [apply (RR _ _ _ C2) in V|apply (RR _ _ _ C3) in V]; subst v; cbn [numbers]; assumption.
  - intros R. destruct (TF _ _ _ C4 R) as (f & r & sb & st & _ & Hf & RR). apply (RR _ _ _ C4) in R. injection R as R. symmetry in R.
    destruct (fit_numbers x c Hx f sb st r Hf) as (_ & U & _). destruct (U R) as (U1 & U2 & U3).
    intros q v [<-|[<-|[<-|[]]]] V; [apply (RR _ _ _ C5) in V|apply (RR _ _ _ C6) in V|apply (RR _ _ _ C7) in V]; subst v; cbn [numbers]; assumption.
  - intros R. destruct (TF _ _ _ C9 R) as (f & r & sb & st & _ & Hf & RR). apply (RR _ _ _ C9) in R. injection R as R. symmetry in R.
    destruct (fit_numbers x c Hx f sb st r Hf) as (_ & _ & U & _). destruct (U R) as [U1 U2].
    intros q v [<-|[<-|[]]] V; [apply (RR _ _ _ C8) in V|apply (RR _ _ _ C10) in V]; subst v; cbn [numbers]; assumption.
  - intros R R2 v V. destruct (TF _ _ _ C1 R) as (f & r & sb & st & _ & Hf & RR). apply (RR _ _ _ C1) in R. injection R as R. symmetry in R.
    apply (RR _ _ _ C9) in R2. injection R2 as R2. symmetry in R2. apply (RR _ _ _ C11) in V. subst v.
    destruct (fit_numbers x c Hx f sb st r Hf) as (_ & _ & _ & U & _). exact (U R R2).
  - intros ff b R Hb0. destruct (TF _ _ _ C12 R) as (f & r & sb & st & _ & Hf & RR). apply (RR _ _ _ C12) in R. injection R as ->.
    destruct (fit_numbers x c Hx f sb st r Hf) as (_ & _ & _ & _ & U). destruct (U b Hb0) as [U1 U2].
    intros q v [<-|[<-|[]]] V; [apply (RR _ _ _ C13) in V|apply (RR _ _ _ C14) in V]; subst v; cbn [flux_number]; assumption.
  - intros R. destruct (TF _ _ _ C0 R) as (f & r & sb & st & _ & Hf & RR). apply (RR _ _ _ C0) in R. injection R as R. symmetry in R.
    destruct (fit_covers x c Hx f sb st r Hf R) as [U1 U2].
    intros q v [<-|[<-|[]]] V; [apply (RR _ _ _ C1) in V|apply (RR _ _ _ C4) in V]; subst v; congruence.
Qed.
End Tables.

Lemma admom_fluxes : forall ng rp ro mbobs bm sb sym r, fit_mbobs_admom ng rp ro mbobs bm sb sym = Ok r ->
  Forall (eq None) (o_band_flux r) /\ Forall (eq None) (o_band_flux_err r) /\ Forall (eq (NO_ATTEMPT ng)) (o_band_flux_flags r).
Proof.
  intros ng rp ro mbobs bm sb sym r H. unfold fit_mbobs_admom in H.
  destruct (get_wavg_output_struct ng _ _) as [d0|] eqn:E; [|discriminate]. cbn [obind] in H. destruct (struct_ok _ _ _ _ E) as [_ D].
  assert (G : Forall (eq None) (o_band_flux d0) /\ Forall (eq None) (o_band_flux_err d0) /\ Forall (eq (NO_ATTEMPT ng)) (o_band_flux_flags d0)).
  { rewrite D. cbn [o_band_flux o_band_flux_err o_band_flux_flags].
    split; [|split]; apply Forall_forall; intros v Hv; apply repeat_spec in Hv; congruence. }
  destruct (data_flags bm mbobs) as [f0|]; [|discriminate]. cbn [obind] in H.
  destruct (negb (f0 =? 0)); [apply Ok_inj in H; subst r; exact G|].
  destruct (make_coadd_obs mbobs _) as [[[co|] cf]|]; [| |discriminate]; cbn [obind] in H;
    [|destruct cf; apply Ok_inj in H; subst r; exact G].
  destruct cf as [|z|z]; [|apply Ok_inj in H; subst r; exact G|apply Ok_inj in H; subst r; exact G].
  destruct (admom_psf rp co) as [pr|]; [|apply Ok_inj in H; subst r; exact G]. unfold admom_row in H. cbv zeta in H.
  destruct (if sym then symmetrize_obs_weights co else Ok co) as [so|]; [|discriminate]. cbn [obind] in H.
  destruct (ro so); apply Ok_inj in H; subst r; exact G.
Qed.
