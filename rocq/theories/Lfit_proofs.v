(** Proofs for C115 and C116. *)
From Coq Require Import ZArith QArith List String Bool Lia Permutation.
From Verif Require Import Base Arr Median Flags_model Flags_proofs Dict Coadd_model Coadd_spec Coadd_proofs Wavg_model Wavg_spec Wavg_proofs
  Joint_model Joint_spec Joint_proofs Wflag_spec Wflag_proofs Jflag_spec Jflag_proofs.
From Verif Require Lexp_model Lexp_spec Lexp_proofs Lutil_model Lutil_proofs Lmeas_model Lmeas_spec Lmeas_proofs.
From Verif Require Import Lfit_model Lfit_spec.
Import ListNotations.
Local Open Scope string_scope.
Local Open Scope Z_scope.

(** ** The stamps *)
Lemma omap_F2 : forall A B (f : A -> outcome B) l r, omap f l = Ok r -> Forall2 (fun a b => f a = Ok b) l r.
Proof. intros A B f l r H. now apply omap_forall2. Qed.

(** What the extraction guarantees about a stamp. *)
Definition good_stamp (o : Lexp_model.lobs) : Prop :=
  (exists m, Lexp_model.o_bmask o = Some m) /\ 0 < nr (Lexp_model.o_weight o) /\ 0 < nc (Lexp_model.o_weight o) /\
  exists w, (0 < w)%Q /\ forall i j, px (Lexp_model.o_weight o) i j = w.

Lemma extract_good : forall W e sky peak cen o, Lexp_model.extract_obs W e sky peak cen = Ok o -> good_stamp o.
Proof.
  intros W e sky peak cen o H. destruct (Lexp_proofs.extract_weight_px _ _ _ _ _ _ H) as (w & _ & P & X).
  assert (D : (exists m, Lexp_model.o_bmask o = Some m) /\ Lexp_model.o_weight o = Lexp_model.extract_weight e /\
    forallb (fun w => Qle_bool w 0) (pixels (Lexp_model.extract_weight e)) = false).
  { unfold Lexp_model.extract_obs in H. destruct (forallb _ _) eqn:F; [discriminate|].
    destruct (Lexp_model.get_jacobian _ _ _ _); cbn [obind] in H; [|discriminate].
    destruct (Lexp_model.some_or_attr _); cbn [obind] in H; [|discriminate]. destruct (negb _); [discriminate|].
    apply Ok_inj in H. subst o. cbn. split; [eexists; reflexivity|]. split; [reflexivity|first [exact F|reflexivity]]. }
  destruct D as (D1 & D2 & D3). split; [exact D1|]. rewrite D2 in *.
  assert (N : exists v, In v (pixels (Lexp_model.extract_weight e))).
  { destruct (pixels (Lexp_model.extract_weight e)) as [|v l]; [discriminate|]. exists v. now left. }
  destruct N as [v Iv]. apply Lexp_proofs.pixels_in in Iv. destruct Iv as (i & j & [[I1 I2] [J1 J2]] & _).
  split; [lia|]. split; [lia|]. exists w. auto.
Qed.

Lemma source_good : forall env s obs, Lmeas_model.source_mbobs env s = Ok obs -> Forall good_stamp obs.
Proof.
  intros env s obs H. unfold Lmeas_model.source_mbobs in H. destruct (Lutil_model.get_bbox _ _ _ _) as [b|]; cbn [obind] in H; [|discriminate].
  apply omap_F2 in H. induction H as [|e o es os E F IH]; constructor; [|exact IH].
  unfold Lmeas_model.band_obs in E. destruct (Lmeas_model.sub_exp e b); cbn [obind] in E; [|discriminate].
  destruct (Lmeas_model.first_peak s); cbn [obind] in E; [|discriminate]. exact (extract_good _ _ _ _ _ _ E).
Qed.

Lemma good_positive : forall jid o, good_stamp o -> has_positive (f_weight (stamp_of jid o)).
Proof.
  intros jid o (_ & A & B & w & P & X). exists 0, 0. cbn [f_weight stamp_of]. split; [split; lia|]. now rewrite X.
Qed.
Lemma good_symmetric : forall jid o, good_stamp o -> symmetrize_obs_weights (stamp_of jid o) = Ok (stamp_of jid o).
Proof.
  intros jid o (_ & A & B & w & P & X). unfold symmetrize_obs_weights.
  destruct (any_pixel _ _) eqn:E; [|reflexivity]. unfold any_pixel in E. apply existsb_exists in E. destruct E as (v & Iv & Ev).
  apply Lexp_proofs.pixels_in in Iv. destruct Iv as (i & j & _ & Ev'). cbn [f_weight stamp_of] in Ev'. rewrite X in Ev'. subst v.
  apply Qle_bool_iff in Ev. exfalso. apply (Qlt_not_le _ _ P Ev).
Qed.

(** ** No flag comes from the data *)
Lemma no_data_problem : forall jid obs, Forall good_stamp obs -> forall f, ~ data_problem 0 (stamps_of jid obs) f.
Proof.
  intros jid obs G f D. rewrite Forall_forall in G. unfold stamps_of in D.
  inversion D as [I E|ol I L E|o I N E|o m i j I Em In_ Nz E]; subst f; apply in_map_iff in I; destruct I as (o' & E & I).
  - discriminate.
  - subst ol. cbn in L. lia.
  - injection E as E. subst o. apply N. now apply good_positive, G.
  - apply Nz. now rewrite Z.land_0_r.
Qed.

Lemma map_nth : forall A B (f : A -> B) l k, nth_error (map f l) k = option_map f (nth_error l k).
Proof. intros A B f l. induction l as [|a l IH]; intros [|k]; cbn; auto. Qed.
Lemma zlen_map : forall A B (f : A -> B) l, zlen (map f l) = zlen l.
Proof. intros. unfold zlen. now rewrite map_length. Qed.

Lemma shear_fitted : forall jid obs sb, (forall b, In b sb -> 0 <= b < zlen obs) ->
  exists mb, shear_stamps jid obs sb mb /\ fitted_stamps (stamps_of jid obs) sb false mb.
Proof.
  intros jid obs sb. unfold shear_stamps, fitted_stamps. induction sb as [|b sb IH]; intro R.
  - exists []. split; constructor.
  - destruct IH as (mb & A & B); [intros x I; apply R; now right|].
    destruct (R b (or_introl eq_refl)) as [R1 R2].
    assert (N : exists o, nth_error obs (Z.to_nat b) = Some o).
    { destruct (nth_error obs (Z.to_nat b)) as [o|] eqn:E; [eauto|]. apply nth_error_None in E. unfold zlen in R2. lia. }
    destruct N as [o No]. exists ([stamp_of jid o] :: mb). split; constructor; eauto.
    unfold py_index. destruct (b <? 0) eqn:Lb; [lia|]. unfold stamps_of. rewrite ?zlen_map.
    replace ((0 <=? b) && (b <? zlen obs)) with true by lia.
    rewrite ?map_nth, ?No; try reflexivity.
Qed.

(** ** The columns *)
Definition flag_cols_gauss (r : Lmeas_model.row) (q : row) : Prop :=
  gauss_flag_columns r (o_flags q) (o_psf_flags q) (o_obj_flags q) (o_T_flags q) (o_band_flux_flags q).
Lemma gauss_cols : forall q p r, Lmeas_spec.has_fits (fit_cells "gauss" q) p r ->
  gauss_flag_columns r (o_flags q) (o_psf_flags q) (o_obj_flags q) (o_T_flags q) (o_band_flux_flags q).
Proof.
  intros q p r [A _]. unfold gauss_flag_columns.
  rewrite !(A _) by (cbn; tauto). repeat split.
Qed.
Lemma pgauss_cols : forall q g r, Lmeas_spec.has_fits g (fit_cells "pgauss" q) r ->
  pgauss_flag_columns r (o_flags q) (o_obj_flags q) (o_band_flux_flags q).
Proof.
  intros q g r [_ A]. unfold pgauss_flag_columns.
  rewrite !(A _) by (cbn; tauto). repeat split.
Qed.

(** ** The joint fit *)
Lemma gauss_says : forall ng boot jid obs sb q p r,
  Forall good_stamp obs -> (forall b, In b sb -> 0 <= b < zlen obs) ->
  fit_mbobs_gauss ng boot (stamps_of jid obs) 0 (Some sb) false = Ok q ->
  Lmeas_spec.has_fits (fit_cells "gauss" q) p r ->
  exists mb, shear_stamps jid obs sb mb /\ gauss_flags_of_fit ng (List.length obs) sb mb (boot mb) r.
Proof.
  intros ng boot jid obs sb q p r G R H F.
  pose proof (gauss_flags_exact _ _ _ _ _ _ _ H) as X. cbv zeta in X. cbn [the_shear_bands] in X. destruct X as [_ X].
  destruct (shear_fitted jid obs sb R) as (mb & A & B). exists mb. split; [exact A|].
  assert (NP : forall f, ~ (data_problem 0 (stamps_of jid obs) f \/ band_beyond (stamps_of jid obs) sb f)).
  { intros f [D|[_ (b & Ib & Lb)]]; [exact (no_data_problem _ _ G _ D)|]. unfold stamps_of in Lb. rewrite zlen_map in Lb.
    specialize (R b Ib). lia. }
  destruct (X NP) as [_ Y]. specialize (Y mb B). clear X NP.
  exists (o_flags q), (o_psf_flags q), (o_obj_flags q), (o_T_flags q), (o_band_flux_flags q).
  split; [exact (gauss_cols _ _ _ F)|]. cbv zeta.
  assert (Ln : List.length (stamps_of jid obs) = List.length obs) by (unfold stamps_of; apply map_length).
  destruct (boot mb) as [g pf| |].
  - destruct Y as (Y1 & Y2 & Y3 & Y4 & Y5). split; [exact Y1|]. split; [exact Y2|]. split; [exact Y3|]. split; [exact Y4|].
    intros k Lk. rewrite Ln in Y5. specialize (Y5 k Lk). unfold zlen in Y5. rewrite Ln in Y5. destruct Y5 as [Y5 Y6].
    assert (NB : names_band (Z.of_nat (List.length obs)) sb k <-> In (Z.of_nat k) sb).
    { unfold names_band. split.
      - intros (b & Ib & [-> | ->]); [exact Ib|]. specialize (R _ Ib). lia.
      - intro I. exists (Z.of_nat k). auto. }
    rewrite NB in Y5, Y6. auto.
  - destruct Y as (Y1 & Y2 & Y3 & Y4 & Y5). split; [|tauto].
    intro k. rewrite (Y1 k). split; intros (f & [Hf|Hf] & T); exists f; auto.
  - destruct Y as (Y1 & Y2 & Y3 & Y4 & Y5). split; [exact Y1|tauto].
Qed.

(** ** The averaged measurement *)
Lemma no_band_problem : forall jid o, good_stamp o -> forall f, ~ band_problem 0 true [stamp_of jid o] f.
Proof.
  intros jid o G f D. pose proof (good_symmetric jid o G) as Sy.
  inversion D as [|o0 rest o' Fo N|o0 rest o' bm i j Fo Em I Nz]; subst.
  - cbn [fitted_obs] in Fo. rewrite Sy in Fo. apply Ok_inj in Fo. subst o'. apply N. now apply good_positive.
  - apply Nz. now rewrite Z.land_0_r.
Qed.

Lemma const_median : forall im w v, (forall i j, px im i j = w) -> positive_median im v -> (v == w)%Q.
Proof.
  intros im w v X (pos & M & P & _). 
  assert (A : forall x, In x pos -> x = w). { intros x I. apply P in I. destruct I as [_ I]. apply Lexp_proofs.pixels_in in I.
    destruct I as (i & j & _ & E). now rewrite X in E. }
  destruct M as (t & Pt & _ & Ne & ->).
  assert (L : (0 < List.length t)%nat).
  { rewrite <- (Permutation_length Pt). destruct pos; [congruence|cbn; lia]. }
  assert (N : forall k, (k < List.length t)%nat -> nth k t 0%Q = w).
  { intros k Lk. apply A. eapply Permutation_in; [apply Permutation_sym; exact Pt|]. now apply nth_In. }
  rewrite !N; [field| |].
  - apply Nat.div_lt; lia.
  - apply Nat.le_lt_trans with (List.length t - 1)%nat; [|lia]. apply Nat.div_le_upper_bound; lia.
Qed.

Lemma Forall2_from_nth : forall A B (P : A -> B -> Prop) l m, List.length l = List.length m ->
  (forall k a b, nth_error l k = Some a -> nth_error m k = Some b -> P a b) -> Forall2 P l m.
Proof.
  intros A B P l. induction l as [|a l IH]; intros [|b m] L H; try discriminate; constructor.
  - exact (H 0%nat a b eq_refl eq_refl).
  - apply IH; [now injection L|]. intros k a' b' E E'. exact (H (S k) a' b' E E').
Qed.

Lemma in_zrange_nat : forall n k, (k < n)%nat -> In (Z.of_nat k) (zrange (Z.of_nat n)).
Proof. intros n k H. unfold zrange. apply in_map_iff. exists k. split; [reflexivity|]. apply in_seq. lia. Qed.

Lemma measured_bands : forall ng mk to_T qsqrt jid obs ft q, Forall good_stamp obs ->
  fit_mbobs_wavg ng mk to_T qsqrt (stamps_of jid obs) ft 0 None 0 true = Ok q ->
  exists js, combine_bands ng mk to_T qsqrt js (zrange (zlen obs)) 0 = Ok q /\ Forall2 (measured_band ft jid) obs js.
Proof.
  intros ng mk to_T qsqrt jid obs ft q G H. destruct (wavg_band_results _ _ _ _ _ _ _ _ _ _ _ H) as (js & C & L & R).
  cbn [the_shear_bands] in *. unfold stamps_of in L, C, R. rewrite zlen_map in C, R. rewrite map_length in L.
  exists js. split; [exact C|]. apply Forall2_from_nth; [auto|]. intros k o j No Nj.
  assert (Lk : (k < List.length obs)%nat) by (apply nth_error_Some; congruence).
  specialize (R k [stamp_of jid o] j). rewrite map_nth, No in R. specialize (R eq_refl Nj).
  assert (Go : good_stamp o). { rewrite Forall_forall in G. apply G. exact (nth_error_In _ _ No). }
  destruct R as (R1 & R2 & _ & R4). pose proof (no_band_problem jid o Go) as NP. specialize (R4 NP).
  destruct R4 as (o1 & rest & o' & fr & p & pr & E & Fo & K1 & Ep & K2 & J1 & J2 & M & Pw). injection E as <- <-.
  cbn [fitted_obs] in Fo. rewrite (good_symmetric jid o Go) in Fo. apply Ok_inj in Fo. subst o'.
  split; [apply R1; now apply in_zrange_nat|]. split.
  { apply Z.bits_inj'. intros b _. rewrite Z.bits_0. apply not_true_iff_false. intro T. apply R2 in T.
    destruct T as (f & D & _). exact (NP f D). }
  split; [eauto|]. split; [eauto 6|]. destruct Go as (_ & _ & _ & w & Pos & X). exists w. split; [exact Pos|]. split; [|exact X].
  exact (const_median _ w _ X M).
Qed.

Lemma combine_flux_length : forall ng mk to_T qsqrt js sb fw q, combine_bands ng mk to_T qsqrt js sb fw = Ok q -> js <> [] ->
  List.length (o_band_flux_flags q) = List.length js.
Proof.
  intros ng mk to_T qsqrt js sb fw q H Ne. unfold combine_bands, combine_fit_results_wavg in H.
  destruct (get_wavg_output_struct _ _ _) as [d0|]; cbn [obind] in H; [|discriminate].
  destruct (_ || _) in H; apply Ok_inj in H; subst q; unfold finish_row; cbn [o_band_flux_flags];
    rewrite map_length; destruct js as [|j js]; try congruence; cbn [List.length].
  - now rewrite repeat_length.
  - cbn [map combine List.length]. rewrite !map_length, combine_length, !map_length. lia.
Qed.

Lemma pgauss_says : forall ng mk to_T qsqrt ft jid obs q g r,
  Forall good_stamp obs -> obs <> [] ->
  fit_mbobs_wavg ng mk to_T qsqrt (stamps_of jid obs) ft 0 None 0 true = Ok q ->
  Lmeas_spec.has_fits g (fit_cells "pgauss" q) r ->
  pgauss_flags_of_fit ng mk to_T ft jid obs r.
Proof.
  intros ng mk to_T qsqrt ft jid obs q g r G Ne H F.
  destruct (measured_bands _ _ _ _ _ _ _ _ G H) as (js & C & M).
  assert (MB : forall j, In j js -> exists o, measured_band ft jid o j).
  { clear -M. induction M as [|o j os js Ho Hm IH]; intros x [].
    - subst x. eauto.
    - now apply IH. }
  assert (SB : exists j, In j js /\ j_is j = true).
  { destruct M as [|o j os js' Mo M']; [congruence|]. exists j. split; [now left|]. now destruct Mo. }
  exists js, (o_flags q), (o_obj_flags q), (o_psf_flags q), (o_band_flux_flags q).
  split; [exact M|]. split; [exact (pgauss_cols _ _ _ F)|].
  pose proof (combine_flags _ _ _ _ _ _ _ _ _ _ _ _ C) as [_ FL].
  split. { intro k. rewrite FL, Z.lor_spec, orb_true_iff, zor_bits. split.
    - intros [T|(f & I & T)]; [exists (o_obj_flags q); auto|exists f; auto].
    - intros (f & [-> |I] & T); [auto|right; exists f; auto]. }
  assert (FF : forall k j, nth_error js k = Some j -> exists v, nth_error (o_band_flux_flags q) k = Some v /\ flux_flag j v).
  { intros k j Nj. destruct (flux_flags_exact _ _ _ _ _ _ _ _ _ _ C SB Nj) as (v & Nv & Ev). exists v. split; [exact Nv|].
    destruct (MB j (nth_error_In _ _ Nj)) as (o & _ & J0 & (fr & _ & Jr) & _). rewrite J0, Jr, Z.lor_0_l in Ev. exists fr. auto. }
  assert (Hl : List.length (o_band_flux_flags q) = List.length js).
  { apply (combine_flux_length _ _ _ _ _ _ _ _ C). intros E0. destruct SB as (j0 & Ij0 & _). rewrite E0 in Ij0. destruct Ij0. }
  split. { apply Forall2_from_nth; [auto|]. intros k j v Nj Nv. destruct (FF k j Nj) as (v' & Nv' & X). rewrite Nv in Nv'. apply Some_inj in Nv'. now subst v'. }
  cbv zeta. pose proof (obj_flags_exact _ _ _ _ _ _ _ _ C SB) as O. cbv zeta in O.
  pose proof (psf_flags_exact _ _ _ _ _ _ _ _ C SB) as PF.
  assert (CA : forall f, by_a_band band_cause js f -> f = 0 \/ (f = flag_value NOMOMENTS_FAILURE /\ exists j, In j js /\ ~ with_moments j)).
  { intros f (j & Ij & _ & Cj). destruct (MB j Ij) as (o & _ & J0 & (fr & _ & Jr) & _ & w & Pw & Jw & _).
    destruct Cj as [|E|r0 E N|Lw].
    - left. exact J0.
    - congruence.
    - right. split; [reflexivity|]. exists j. split; [exact Ij|]. intros (x & Ex & Hx). rewrite E in Ex. apply Some_inj in Ex. now subst x.
    - exfalso. rewrite Jw in Lw. apply (Qlt_not_le _ _ Pw Lw). }
  assert (CB : forall j, In j js -> ~ with_moments j -> by_a_band band_cause js (flag_value NOMOMENTS_FAILURE)).
  { intros j Ij N. destruct (MB j Ij) as (o & J1 & J0 & (fr & _ & Jr) & _). exists j. split; [exact Ij|]. split; [exact J1|].
    apply (no_moments j fr Jr). intro Hm. apply N. exists fr. auto. }
  split. { intros (j & Ij & N). pose proof (CB j Ij N) as B. destruct O as [O _].
    assert (NZ : flag_value NOMOMENTS_FAILURE <> 0) by (vm_compute; discriminate).
    specialize (O (ex_intro _ _ (conj B NZ))). intro k. rewrite (O k). split; intros (f & [X|X] & T).
    - destruct (CA f X) as [-> |[-> _]]; [rewrite Z.bits_0 in T; discriminate|]. exists (flag_value NOMOMENTS_FAILURE). auto.
    - exists f. auto.
    - subst f. exists (flag_value NOMOMENTS_FAILURE). auto.
    - exists f. auto. }
  split. { intros W K. destruct O as [_ O]. apply O; [|exact K|].
    - intros f B. destruct (CA f B) as [X|(_ & j & Ij & N)]; [exact X|]. destruct (N (W j Ij)).
    - left. apply Qle_refl. }
  destruct PF as [P1 P2]. split; [exact P1|]. intros P3 K Al. apply P2; [exact P3|exact K|]. intros j Ij _. now apply Al.
Qed.

(** ** The table *)
Lemma flags_nonzero : flag_value EDGE_HIT <> 0 /\ flag_value ZERO_WEIGHTS <> 0.
Proof. split; vm_compute; discriminate. Qed.

Lemma bands_of_stamps : forall env s obs, Lmeas_model.source_mbobs env s = Ok obs -> List.length obs = List.length (Lmeas_model.m_bands env).
Proof.
  intros env s obs H. unfold Lmeas_model.source_mbobs in H. destruct (Lutil_model.get_bbox _ _ _ _); cbn [obind] in H; [|discriminate].
  now apply omap_ok_length in H.
Qed.
Lemma stamps_not_empty : forall env s obs, 0 <= Lmeas_model.m_stamp_size env -> Lmeas_model.source_mbobs env s = Ok obs -> obs <> [].
Proof.
  intros env s obs Sz H E. pose proof (bands_of_stamps _ _ _ H) as L. subst obs. cbn in L.
  unfold Lmeas_model.source_mbobs, Lmeas_model.mbexp_box in H. destruct (Lmeas_model.m_bands env); [|discriminate].
  unfold Lutil_model.get_bbox in H. destruct (Lmeas_model.s_peaks s) as [|[x y] pk]; [discriminate|]. cbn [obind] in H.
  unfold Lutil_model.grow, Lutil_model.norm_box in H. cbn [Lutil_model.bx0 Lutil_model.by0 Lutil_model.bx1 Lutil_model.by1] in H.
  pose proof (Z.div_pos _ 2 Sz ltac:(lia)) as K.
  rewrite (proj2 (Z.ltb_ge (x + _) (x - _))), (proj2 (Z.ltb_ge (y + _) (y - _))) in H by lia. cbn in H. discriminate.
Qed.

Lemma no_attempt_default : forall env g p r, Lmeas_spec.has_fits g p r ->
  (exists l, g = Lmeas_model.default_cell env l) -> (exists l, p = Lmeas_model.default_cell env l) -> Lmeas_spec.not_attempted env r.
Proof.
  intros env g p r [A B] [l ->] [l' ->] c I Nsb. apply in_app_or in I.
  assert (D : forall l, Lmeas_model.default_cell env l c = if Lmeas_model.has_sub "flags" c then Lmeas_model.CInt (Lmeas_model.m_no_attempt env) else Lmeas_model.CNum None).
  { intro x. unfold Lmeas_model.default_cell. destruct (String.eqb_spec c "shear_bands"); [congruence|reflexivity]. }
  destruct I as [I|I]; [rewrite (A c I)|rewrite (B c I)]; now rewrite D.
Qed.

Lemma Forall2_rows : forall A B (P : A -> B -> Prop) l m, List.length m = List.length l ->
  (forall n a, nth_error l n = Some a -> exists b, nth_error m n = Some b /\ P a b) -> Forall2 P l m.
Proof.
  intros A B P l m L H. apply Forall2_from_nth; [auto|]. intros k a b Ea Eb. destruct (H k a Ea) as (b' & Eb' & X).
  rewrite Eb in Eb'. apply Some_inj in Eb'. now subst b'.
Qed.

Section Table.
Variables (ng : ngcodes) (boot : list (list fobs) -> bootout) (mk : vec -> mat -> momresult) (to_T qsqrt : Q -> Q)
  (ft : fitter) (jid : Lexp_model.jacob -> Z).
Local Notation run := (measure_fits ng boot mk to_T qsqrt ft jid).
Local Notation fitted := (with_fits ng boot mk to_T qsqrt ft jid).

Lemma table_flags : forall env order cat rows sb, Lmeas_spec.catalogue cat -> Lmeas_spec.lists_set order ->
  0 <= Lmeas_model.m_stamp_size env -> Lmeas_model.m_shear_bands env = Ok sb ->
  (forall b, In b sb -> 0 <= b < zlen (Lmeas_model.m_bands env)) ->
  run env order cat = Ok (Some rows) ->
  exists cs, Permutation cs (Lmeas_spec.childless cat) /\
    Forall2 (fun s r => Lmeas_spec.at_position env s r /\ exists flags, sget "stamp_flags" r = Some (Lmeas_model.CInt flags) /\
      (flags <> 0 <-> forall obs, Lmeas_model.source_mbobs env s <> Ok obs) /\
      (flags <> 0 -> nothing_fit ng r) /\
      (flags = 0 -> exists obs mb, Lmeas_model.source_mbobs env s = Ok obs /\ shear_stamps jid obs sb mb /\
         gauss_flags_of_fit ng (List.length obs) sb mb (boot mb) r /\ pgauss_flags_of_fit ng mk to_T ft jid obs r)) cs rows.
Proof.
  intros env order cat rows sb C O Sz Sb R H. unfold measure_fits in H.
  destruct (Lmeas_proofs.measure_ok _ _ _ _ _ C O H) as (cs & sb' & bms & M & P & _ & Ne & L & F).
  exists cs. split; [exact P|]. apply Forall2_rows; [exact L|]. intros n s Es. destruct (F n s Es) as (r & fl & g & p & bm & A & _ & S & G).
  exists r. split; [exact A|]. apply Lmeas_proofs.output_facts in G. destruct G as (_ & G1 & _ & G3 & G4 & _).
  split; [exact G1|]. exists fl. split; [exact G4|].
  change (Lmeas_model.source_mbobs (fitted env) s) with (Lmeas_model.source_mbobs env s) in S.
  unfold Lmeas_proofs.stamp_case in S. destruct flags_nonzero as [N1 N2].
  destruct (Lmeas_model.source_mbobs env s) as [obs|e] eqn:So.
  - destruct S as (-> & S1 & S2). split; [split; [congruence|intro X; destruct (X obs eq_refl)]|]. split; [congruence|]. intros _.
    cbn [Lmeas_model.m_gauss Lmeas_model.m_pgauss with_fits] in S1, S2. rewrite Sb in S1. cbn [obind] in S1.
    unfold lsst_gauss in S1. destruct (fit_mbobs_gauss _ _ _ _ _ _) as [q|] eqn:Eq; cbn [obind] in S1; [|discriminate]. apply Ok_inj in S1. subst g.
    unfold lsst_pgauss in S2. destruct (fit_mbobs_wavg _ _ _ _ _ _ _ _ _ _) as [q'|] eqn:Eq'; cbn [obind] in S2; [|discriminate]. apply Ok_inj in S2. subst p.
    assert (R' : forall b, In b sb -> 0 <= b < zlen obs). { intros b Ib. unfold zlen in *. rewrite (bands_of_stamps _ _ _ So). now apply R. }
    destruct (gauss_says _ _ _ _ _ _ _ _ (source_good _ _ _ So) R' Eq G3) as (mb & X & Y).
    exists obs, mb. split; [reflexivity|]. split; [exact X|]. split; [exact Y|].
    exact (pgauss_says _ _ _ _ _ _ _ _ _ _ (source_good _ _ _ So) (stamps_not_empty _ _ _ Sz So) Eq' G3).
  - assert (D : fl <> 0 /\ (exists l, g = Lmeas_model.default_cell (fitted env) l) /\ (exists l, p = Lmeas_model.default_cell (fitted env) l)).
    { destruct e; try contradiction; [destruct S as (-> & -> & ->); eauto 6|]. destruct n0 as [|[|n0]]; try contradiction. destruct S as (-> & -> & ->); eauto 6. }
    destruct D as (D1 & D2 & D3). split; [split; [intros _ obs; discriminate|auto]|]. split; [|congruence].
    intros _. exact (no_attempt_default (fitted env) _ _ _ G3 D2 D3).
Qed.

(** ** C116 *)
Lemma data_flags_good : forall obs, Forall good_stamp obs -> data_flags 0 (stamps_of jid obs) = Ok 0.
Proof.
  intros obs G. unfold data_flags. assert (X : forall l, Forall good_stamp l ->
    ofold (fun f ol => do g <- band_data_flags 0 ol; Ok (Z.lor f g)) (stamps_of jid l) 0 = Ok 0); [|now apply X].
  induction 1 as [|o l Go Gl IH]; [reflexivity|].
  cbn [stamps_of map ofold]. change (map (fun o => [stamp_of jid o]) l) with (stamps_of jid l).
  pose proof (good_positive jid o Go) as (i & j & In_ & Pos). destruct Go as ((m & Em) & _).
  assert (B : band_data_flags 0 [stamp_of jid o] = Ok 0).
  { unfold band_data_flags. replace (any_pixel qpos (f_weight (stamp_of jid o))) with true.
    - cbn [f_bmask stamp_of]. rewrite Em. destruct (any_pixel _ m) eqn:E; [|reflexivity]. unfold any_pixel in E.
      apply existsb_exists in E. destruct E as (v & _ & E). rewrite Z.land_0_r in E. discriminate.
    - symmetry. apply any_pixel_spec. exists i, j. split; [exact In_|]. unfold qpos. destruct (Qle_bool _ 0) eqn:Eq; [|reflexivity].
      apply Qle_bool_iff in Eq. destruct (Qlt_not_le _ _ Pos Eq). }
  rewrite B. cbn [obind]. exact IH.
Qed.

Lemma gauss_shear_only : forall obs obs' sb, Forall good_stamp obs -> Forall good_stamp obs' -> List.length obs = List.length obs' ->
  (forall b, In b sb -> 0 <= b) -> (forall b, In b sb -> nth_error obs (Z.to_nat b) = nth_error obs' (Z.to_nat b)) ->
  lsst_gauss ng boot jid sb obs = lsst_gauss ng boot jid sb obs'.
Proof.
  intros obs obs' sb G G' L Pos E. unfold lsst_gauss, fit_mbobs_gauss. cbn [default_bands].
  rewrite !data_flags_good by assumption.
  assert (L' : List.length (stamps_of jid obs) = List.length (stamps_of jid obs')) by (unfold stamps_of; now rewrite !map_length).
  assert (Z' : zlen (stamps_of jid obs) = zlen (stamps_of jid obs')) by (unfold zlen; now rewrite L').
  rewrite L', Z'. unfold gauss_stamps.
  replace (omap (py_index (stamps_of jid obs)) sb) with (omap (py_index (stamps_of jid obs')) sb); [reflexivity|].
  clear -E Pos Z'. induction sb as [|b sb IH]; [reflexivity|]. cbn [omap].
  rewrite IH; [|intros; apply Pos; now right|intros; apply E; now right].
  replace (py_index (stamps_of jid obs) b) with (py_index (stamps_of jid obs') b); [reflexivity|].
  unfold py_index. cbv zeta. rewrite Z'. specialize (Pos b (or_introl eq_refl)). destruct (b <? 0) eqn:Lb; [lia|].
  assert (X : nth_error (stamps_of jid obs) (Z.to_nat b) = nth_error (stamps_of jid obs') (Z.to_nat b)).
  { unfold stamps_of. now rewrite !map_nth, (E b (or_introl eq_refl)). }
  now rewrite X.
Qed.

Lemma box_same : forall env env' s b b', Lmeas_model.m_stamp_size env = Lmeas_model.m_stamp_size env' ->
  Lutil_model.get_bbox (Lmeas_model.mbexp_box env) (Lmeas_model.s_peaks s) (Lmeas_model.m_stamp_size env) false = Ok b ->
  Lutil_model.get_bbox (Lmeas_model.mbexp_box env') (Lmeas_model.s_peaks s) (Lmeas_model.m_stamp_size env') false = Ok b' -> b = b'.
Proof.
  intros env env' s b b' E H H'. rewrite <- E in H'. unfold Lutil_model.get_bbox in *. destruct (Lmeas_model.s_peaks s) as [|[x y] pk]; [discriminate|].
  cbv zeta in *. destruct (Lutil_model.contains_box (Lmeas_model.mbexp_box env) _); [|discriminate].
  destruct (Lutil_model.contains_box (Lmeas_model.mbexp_box env') _); [|discriminate]. congruence.
Qed.

Lemma stamps_same : forall sb env env' s obs obs', same_shear_bands sb env env' ->
  Lmeas_model.source_mbobs env s = Ok obs -> Lmeas_model.source_mbobs env' s = Ok obs' ->
  forall b, In b sb -> nth_error obs (Z.to_nat b) = nth_error obs' (Z.to_nat b).
Proof.
  intros sb env env' s obs obs' (L & E & Ec & Ek & EW & En & Es & _) H H' b Ib. specialize (E b Ib).
  unfold Lmeas_model.source_mbobs in H, H'.
  destruct (Lutil_model.get_bbox (Lmeas_model.mbexp_box env) _ _ _) as [x|] eqn:B; cbn [obind] in H; [|discriminate].
  destruct (Lutil_model.get_bbox (Lmeas_model.mbexp_box env') _ _ _) as [x'|] eqn:B'; cbn [obind] in H'; [|discriminate].
  pose proof (box_same _ _ _ _ _ Es B B') as Ex. subst x'.
  assert (N : forall l r, omap (Lmeas_model.band_obs env s x) l = Ok r -> forall k, match nth_error l k with
     | Some e => exists o, nth_error r k = Some o /\ Lmeas_model.band_obs env s x e = Ok o | None => nth_error r k = None end).
  { clear. intros l r H. apply omap_F2 in H. induction H as [|e o l r He Hl IH]; intros [|k]; cbn [nth_error]; [reflexivity|reflexivity|eauto|exact (IH k)]. }
  assert (N' : forall l r, omap (Lmeas_model.band_obs env' s x) l = Ok r -> forall k, match nth_error l k with
     | Some e => exists o, nth_error r k = Some o /\ Lmeas_model.band_obs env' s x e = Ok o | None => nth_error r k = None end).
  { clear. intros l r H. apply omap_F2 in H. induction H as [|e o l r He Hl IH]; intros [|k]; cbn [nth_error]; [reflexivity|reflexivity|eauto|exact (IH k)]. }
  specialize (N _ _ H (Z.to_nat b)). specialize (N' _ _ H' (Z.to_nat b)). rewrite E in N.
  destruct (nth_error (Lmeas_model.m_bands env') (Z.to_nat b)) as [e|]; [|congruence].
  destruct N as (o & No & Bo). destruct N' as (o' & No' & Bo'). rewrite No, No'. f_equal.
  unfold Lmeas_model.band_obs in Bo, Bo'. destruct (Lmeas_model.sub_exp e x); cbn [obind] in Bo, Bo'; [|discriminate].
  destruct (Lmeas_model.first_peak s); cbn [obind] in Bo, Bo'; [|discriminate]. rewrite <- EW, <- Ek, <- Ec, <- En in Bo'. congruence.
Qed.

Lemma same_children : forall (cat cs cs' : list Lmeas_model.source), Lmeas_spec.catalogue cat ->
  map Lmeas_model.s_id cs = map Lmeas_model.s_id cs' -> incl cs cat -> incl cs' cat -> cs = cs'.
Proof.
  intros cat cs cs' C. revert cs'. induction cs as [|s cs IH]; intros [|s' cs'] E I I'; try discriminate; [reflexivity|].
  cbn [map] in E. injection E as E1 E2. f_equal.
  - assert (X : In s cat) by (apply I; now left). assert (X' : In s' cat) by (apply I'; now left).
    unfold Lmeas_spec.catalogue in C. clear -C X X' E1. induction cat as [|c cat IH]; [destruct X|].
    cbn [map] in C. inversion C as [|? ? N C']. subst. destruct X as [-> |X], X' as [-> |X']; auto.
    + exfalso. apply N. rewrite E1. now apply in_map.
    + exfalso. apply N. rewrite <- E1. now apply in_map.
  - apply IH; [exact E2| |]; intros x Ix; [apply I|apply I']; now right.
Qed.

Lemma table_shear_only : forall sb env env' order cat rows rows', Lmeas_spec.catalogue cat -> Lmeas_spec.lists_set order ->
  (forall b, In b sb -> 0 <= b) -> same_shear_bands sb env env' ->
  run env order cat = Ok (Some rows) -> run env' order cat = Ok (Some rows') ->
  List.length rows = List.length rows' /\
  forall n r r', nth_error rows n = Some r -> nth_error rows' n = Some r' ->
    sget "stamp_flags" r = Some (Lmeas_model.CInt 0) -> sget "stamp_flags" r' = Some (Lmeas_model.CInt 0) ->
    forall c, In c Lmeas_spec.gauss_columns -> sget c r = sget c r'.
Proof.
  intros sb env env' order cat rows rows' C O Pos Sm H H'. unfold measure_fits in H, H'.
  destruct (Lmeas_proofs.measure_ok _ _ _ _ _ C O H) as (cs & sb1 & bms & M & P & _ & Ne & L & F).
  destruct (Lmeas_proofs.measure_ok _ _ _ _ _ C O H') as (cs' & sb2 & bms' & M' & P' & _ & Ne' & L' & F').
  assert (CI : forall l, Permutation l (Lmeas_spec.childless cat) -> incl l cat).
  { intros l Pl x Ix. apply (Permutation_in _ Pl) in Ix. apply filter_In in Ix. tauto. }
  assert (E : cs = cs') by (apply (same_children cat); [exact C|congruence|now apply CI|now apply CI]). subst cs'.
  split; [congruence|]. intros n r r' Nr Nr' Z0 Z0' c Ic.
  destruct (nth_error cs n) as [s|] eqn:Ns.
  2:{ apply nth_error_None in Ns. rewrite <- L in Ns. apply nth_error_None in Ns. congruence. }
  destruct (F n s Ns) as (r1 & fl & g & p & bm & A & _ & S & G). rewrite Nr in A. apply Some_inj in A. subst r1.
  destruct (F' n s Ns) as (r1 & fl' & g' & p' & bm' & A' & _ & S' & G'). rewrite Nr' in A'. apply Some_inj in A'. subst r1.
  apply Lmeas_proofs.output_facts in G. destruct G as (_ & _ & _ & [G3 _] & G4 & _). rewrite Z0 in G4. apply Some_inj in G4. injection G4 as <-.
  apply Lmeas_proofs.output_facts in G'. destruct G' as (_ & _ & _ & [G3' _] & G4' & _). rewrite Z0' in G4'. apply Some_inj in G4'. injection G4' as <-.
  rewrite (G3 c Ic), (G3' c Ic). do 2 f_equal.
  destruct flags_nonzero as [N1 N2].
  assert (OK : forall e (env : Lmeas_model.menv) l g p, Lmeas_proofs.stamp_case env l (Raise e) 0 g p -> False).
  { clear -N1 N2. intros e env l g p H. unfold Lmeas_proofs.stamp_case in H. destruct e; try contradiction; [destruct H as (H & _); congruence|].
    destruct n as [|[|n]]; try contradiction. destruct H as (H & _); congruence. }
  change (Lmeas_model.source_mbobs (fitted env) s) with (Lmeas_model.source_mbobs env s) in S.
  change (Lmeas_model.source_mbobs (fitted env') s) with (Lmeas_model.source_mbobs env' s) in S'.
  destruct (Lmeas_model.source_mbobs env s) as [obs|e] eqn:So; [|destruct (OK _ _ _ _ _ S)].
  destruct (Lmeas_model.source_mbobs env' s) as [obs'|e] eqn:So'; [|destruct (OK _ _ _ _ _ S')].
  unfold Lmeas_proofs.stamp_case in S, S'. destruct S as (_ & S & _). destruct S' as (_ & S' & _).
  cbn [Lmeas_model.m_gauss with_fits] in S, S'. pose proof Sm as Sm'. destruct Sm' as (Lb & _ & _ & _ & _ & _ & _ & B1 & B2).
  rewrite B1 in S. rewrite B2 in S'. cbn [obind] in S, S'.
  rewrite (gauss_shear_only obs obs' sb) in S; [congruence| | | |exact Pos|].
  - exact (source_good _ _ _ So).
  - exact (source_good _ _ _ So').
  - rewrite (bands_of_stamps _ _ _ So), (bands_of_stamps _ _ _ So'). exact Lb.
  - exact (stamps_same _ _ _ _ _ _ Sm So So').
Qed.
End Table.
