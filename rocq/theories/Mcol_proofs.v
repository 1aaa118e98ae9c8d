(** Proofs for C84. *)
From Coq Require Import ZArith QArith Lqa Lia List String Bool.
From Verif Require Import Base Arr Median Flags_model Detect_model Summ_model Summ_spec Summ_proofs Wavg_model Conf_model
  Mdet_model Mdet_spec Mcache_proofs Mdet_proofs Mcol_spec.
Import ListNotations.
Local Open Scope Z_scope.

Section Proofs.
Variables O SEG ST FL FR : Type.
Variable sob : O -> sobs.
Variable e : env O SEG ST FL FR.

Lemma bmask_window_ok : bmask_window e (bmask_region e).
Proof.
  unfold bmask_window, bmask_region, region_or. destruct (e_mask_region e) as [r|]; [|right; split; [left; reflexivity|reflexivity]].
  destruct (1 <? r) eqn:E; [apply Z.ltb_lt in E; left; exists r; auto | apply Z.ltb_ge in E; right].
  split; [right; exists r; auto | reflexivity].
Qed.
Lemma ormask_window_ok : ormask_window e (ormask_region e).
Proof.
  unfold ormask_window, ormask_region. pose proof bmask_window_ok as B. set (br := bmask_region e) in *. clearbody br.
  unfold region_or.
  destruct (e_ormask_region e) as [r|] eqn:Er; [|right; split; [left; reflexivity|exact B]].
  destruct (1 <? r) eqn:E; [apply Z.ltb_lt in E; left; exists r; auto | apply Z.ltb_ge in E; right].
  split; [right; exists r; auto | exact B].
Qed.

Lemma epochs_lift : forall (sel : list (list O)) obs', map (map sob) sel = map (fun o => [o]) obs' ->
  exists obs, sel = map (fun o => [o]) obs /\ obs' = map sob obs.
Proof.
  induction sel as [|ol sel IH]; intros [|o' obs'] H; try discriminate.
  - exists []. split; reflexivity.
  - cbn [map] in H. injection H as H1 H2. destruct ol as [|o [|o2 ol]]; try discriminate. cbn [map] in H1.
    injection H1 as H1. destruct (IH _ H2) as (obs & -> & ->). exists (o :: obs). cbn [map]. split; [reflexivity|]. congruence.
Qed.
Lemma Forall2_map_r : forall A B C (f : B -> C) (R : A -> C -> Prop) l l', Forall2 R l (map f l') <-> Forall2 (fun a b => R a (f b)) l l'.
Proof.
  intros A B C f R l. induction l as [|a l IH]; intros [|b l']; cbn [map]; split; intros H; inversion H; subst; constructor; auto; apply IH; assumption.
Qed.

(** What the summary of a key and a band combination holds. *)
Lemma summary_content : forall key sb kd su, uncached sob e key sb = Ok kd -> kd_sum kd = Some su ->
  exists m obs s0, data_of e key m /\ bands_of m sb obs /\ obs <> [] /\
    get_mfrac (map (fun o => [sob o]) obs) = Ok (sm_mfrac su) /\
    get_ormask_and_bmask (map (fun o => [sob o]) obs) = Ok (sm_ormask su, sm_bmask su) /\
    psf_column e m sb s0 /\ s0 = sm_stats su /\
    (forall ol, In ol m -> data_of e key m).
Proof.
  intros key sb kd su H Hs. destruct (uncached_inv _ _ _ _ _ sob e _ _ _ H) as (k & m & f & r & s & Ho & Hf & Hr & Hsu & ->).
  cbn [kd_sum] in Hs. apply Some_inj in Hs. subst s.
  assert (Hd : data_of e key m).
  { unfold obs_of in Ho. unfold data_of. destruct key as [c|]; [|apply Ok_inj, pair_equal_spec in Ho; destruct Ho; auto].
    destruct (e_color e) as [[keyf dep]|]; [|discriminate]. exists keyf, dep. split; [reflexivity|].
    destruct (dep c) as [[|mm]|] eqn:Ed; [| |discriminate]; apply Ok_inj, pair_equal_spec in Ho; destruct Ho as [_ <-]; auto. }
  unfold summarise in Hsu. destruct (omap (py_index m) sb) as [sel|] eqn:Esel; [|discriminate]. cbn [obind] in Hsu.
  destruct (get_mfrac (map (map sob) sel)) as [mf|] eqn:Emf; [|discriminate]. cbn [obind] in Hsu.
  destruct (get_ormask_and_bmask (map (map sob) sel)) as [[om bm]|] eqn:Em; [|discriminate]. cbn [obind mp_psf fst snd] in Hsu.
  destruct (omap (py_index (fst (e_psf_fit e m))) sb) as [psel|] eqn:Ep; [|discriminate]. cbn [obind] in Hsu.
  destruct (get_psf_stats psel f) as [ps|] eqn:Eps; [|discriminate]. cbn [obind] in Hsu. apply Ok_inj in Hsu. subst su.
  cbn [sm_mfrac sm_ormask sm_bmask sm_stats].
  destruct (mfrac_epochs _ _ Emf) as (obs' & Hne & Heq). destruct (epochs_lift _ _ Heq) as (obs & -> & ->).
  assert (Hmm : map (map sob) (map (fun o => [o]) obs) = map (fun o => [sob o]) obs)
    by (rewrite map_map; reflexivity).
  rewrite Hmm in Emf, Em. exists m, obs, ps. split; [exact Hd|]. split.
  { apply omap_Forall2 in Esel. apply Forall2_map_r in Esel. exact Esel. }
  split; [intros ->; apply Hne; reflexivity|]. split; [exact Emf|]. split; [exact Em|].
  split; [|split; [reflexivity|intros _ _; exact Hd]].
  unfold psf_flags in Hf. unfold psf_column. destruct (snd (e_psf_fit e m)) as [[]|x] eqn:Ex.
  - apply Ok_inj in Hf. subst f. right. split; [reflexivity|]. exists psel, ps.
    split; [apply omap_Forall2; exact Ep|]. split; [exact Eps|apply stats_eqv_refl].
  - destruct x; try discriminate. apply Ok_inj in Hf. subst f. left. split; [reflexivity|].
    unfold get_psf_stats in Eps. cbn [flag_value Z.eqb negb] in Eps.
    destruct (negb (flag_value PSF_FAILURE =? 0)) eqn:Ef.
    + apply Ok_inj in Eps. subst ps. rewrite Z.lor_diag. reflexivity.
    + vm_compute in Ef. discriminate.
Qed.

Lemma bands_In : forall m sb obs o, bands_of (O := O) m sb obs -> In o obs -> exists ol, In ol m /\ In o ol.
Proof.
  intros m sb obs o H. unfold bands_of in H. induction H as [|b o' sb obs Hb H IH]; intros Hin; [destruct Hin|].
  destruct Hin as [->|Hin]; [|auto]. exists [o]. split; [|left; reflexivity].
  unfold py_index in Hb. destruct (nth_error m _) as [x|] eqn:E in Hb.
  - apply nth_error_In in E. repeat match type of Hb with context [if ?c then _ else _] => destruct c end; try discriminate.
    apply Ok_inj in Hb. subst x. exact E.
  - repeat match type of Hb with context [if ?c then _ else _] => destruct c end; discriminate.
Qed.

(** A mask column read from the combined mask. *)
Lemma window_column : forall (plane : sobs -> img Z) obs (om : img Z) reg row col v,
  obs <> [] ->
  (forall o o', In o obs -> In o' obs -> nr (plane (sob o)) = nr (plane (sob o')) /\ nc (plane (sob o)) = nc (plane (sob o'))) ->
  (forall o, In o obs -> 0 < nr (plane (sob o)) /\ 0 < nc (plane (sob o))) ->
  (exists o, In o obs /\ nr om = nr (plane (sob o)) /\ nc om = nc (plane (sob o))) ->
  (forall i j n, Z.testbit (px om i j) n = true <-> exists s, In s (map sob obs) /\ Z.testbit (px (plane s) i j) n = true) ->
  1 <= reg -> fill_in_mask reg row col om = Ok v -> mask_column sob plane obs reg row col v.
Proof.
  intros plane obs om reg row col v Hne Hsame Hpos (o0 & Ho0 & Hr & Hc) Hbits Hreg Hf.
  destruct (Hpos o0 Ho0) as [P1 P2].
  assert (Hins : forall o i j, In o obs -> inside (plane (sob o)) i j <-> inside om i j).
  { intros o i j Ho. destruct (Hsame o o0 Ho Ho0) as [S1 S2]. unfold inside. rewrite S1, S2, Hr, Hc. tauto. }
  unfold mask_column. destruct (reg <=? 1) eqn:E.
  - apply Z.leb_le in E. destruct (fill_in_pixel reg row col om E) as (r & c & N1 & N2 & N3); try lia.
    exists o0, r, c. rewrite Hr in N1. rewrite Hc in N2. split; [exact Ho0|]. split; [exact N1|]. split; [exact N2|].
    intros n. rewrite Hf in N3. apply Ok_inj in N3. subst v. rewrite Hbits. split.
    + intros (s & Hs & Hb). apply in_map_iff in Hs. destruct Hs as (o & <- & Ho). exists o. split; [exact Ho|].
      exists r, c. split; [apply (Hins o r c Ho); unfold inside; rewrite Hr, Hc; split; [apply N1|apply N2]|]. split; [lia|]. split; [lia|exact Hb].
    + intros (o & Ho & i & j & Hi & A1 & A2 & Hb). assert (i = r) by lia. assert (j = c) by lia. subst. exists (sob o). split; [apply in_map; exact Ho|exact Hb].
  - apply Z.leb_gt in E. destruct (fill_in_window reg row col om E) as (r & c & v' & N1 & N2 & N3 & N4); try lia.
    exists o0, r, c. rewrite Hr in N1. rewrite Hc in N2. split; [exact Ho0|]. split; [exact N1|]. split; [exact N2|].
    intros n. rewrite Hf in N3. apply Ok_inj in N3. subst v'. rewrite N4. unfold window_bit. split.
    + intros (i & j & Hi & A1 & A2 & Hb). apply Hbits in Hb. destruct Hb as (s & Hs & Hb).
      apply in_map_iff in Hs. destruct Hs as (o & <- & Ho). exists o. split; [exact Ho|]. exists i, j.
      split; [apply (Hins o i j Ho); exact Hi|]. auto.
    + intros (o & Ho & i & j & Hi & A1 & A2 & Hb). exists i, j. split; [apply (Hins o i j Ho); exact Hi|].
      split; [exact A1|]. split; [exact A2|]. apply Hbits. exists (sob o). split; [apply in_map; exact Ho|exact Hb].
Qed.

Lemma mfrac_column_ok : forall su row col box v v', mfrac_value sob e su row col box = Ok v -> mval_eqv v' v ->
  mfrac_column sob e (sm_mfrac su) row col box v'.
Proof.
  intros su row col box v v' H Hv. unfold mfrac_value in H. split.
  - intros Hz. assert (E : any_positive (sm_mfrac su) = false).
    { apply not_true_iff_false. intros X. unfold any_positive in X. apply existsb_exists in X. destruct X as (q & Hq & Hn).
      assert (Y : forallb (fun v => Qle_bool v 0) (pixels (sm_mfrac su)) = true)
        by (apply forall_pixels; intros i j Hij; apply Qle_bool_iff; apply Hz; exact Hij).
      rewrite forallb_forall in Y. rewrite (Y q Hq) in Hn. discriminate. }
    rewrite E in H. apply Ok_inj in H. subst v. exact Hv.
  - intros (i & j & Hij & Hp). assert (E : any_positive (sm_mfrac su) = true).
    { destruct (any_positive (sm_mfrac su)) eqn:E; [reflexivity|]. exfalso. unfold any_positive in E.
      assert (Y : forallb (fun v => Qle_bool v 0) (pixels (sm_mfrac su)) = true).
      { apply forallb_forall. intros q Hq. destruct (Qle_bool q 0) eqn:Eq; [reflexivity|]. exfalso.
        apply not_true_iff_false in E. apply E. apply existsb_exists. exists q. rewrite Eq. split; [exact Hq|reflexivity]. }
      assert (Y' := proj1 (forall_pixels _ _ _) Y i j Hij). cbv beta in Y'. apply Qle_bool_iff in Y'. lra. }
    rewrite E in H. destruct (py_index (e_main e) 0) as [ol|] eqn:E1; [|discriminate]. cbn [obind] in H.
    destruct (py_index ol 0) as [o|] eqn:E2; [|discriminate]. cbn [obind] in H.
    exists ol, o, v. repeat split; auto.
Qed.

Lemma data_uniform : forall key m, env_uniform sob e -> data_of e key m -> uniform sob m.
Proof.
  intros key m [U1 U2] H. unfold data_of in H. destruct key as [k|]; [|subst; exact U1].
  destruct H as (keyf & dep & Hc & [[_ ->]|H]); [exact U1 | exact (U2 _ _ _ _ Hc H)].
Qed.
Lemma data_pixels : forall key m, env_pixels sob e -> data_of e key m -> has_pixels sob m.
Proof.
  intros key m [U1 U2] H. unfold data_of in H. destruct key as [k|]; [|subst; exact U1].
  destruct H as (keyf & dep & Hc & [[_ ->]|H]); [exact U1 | exact (U2 _ _ _ _ Hc H)].
Qed.

Lemma columns_ok : forall key sb db t d kd su x y, env_uniform sob e -> env_pixels sob e ->
  uncached sob e key sb = Ok kd -> kd_sum kd = Some su -> extra_of sob e t su db d = Ok x -> extra_eqv y x ->
  columns sob e key sb db t d y.
Proof.
  intros key sb db t d kd su x y HU HP H Hs Hx Hy.
  destruct (summary_content _ _ _ _ H Hs) as (m & obs & s0 & Hd & Hb & Hne & Hmf & Hom & Hpsf & -> & _).
  pose proof (data_uniform _ _ HU Hd) as (nrr & ncc & U). pose proof (data_pixels _ _ HP Hd) as P.
  assert (Hsh : forall o, In o obs -> nr (so_bmask (sob o)) = nrr /\ nc (so_bmask (sob o)) = ncc /\
     nr (so_ormask (sob o)) = nrr /\ nc (so_ormask (sob o)) = ncc).
  { intros o Ho. destruct (bands_In _ _ _ _ Hb Ho) as (ol & H1 & H2). destruct (U ol o H1 H2) as (_ & _ & A & B & C & D). auto. }
  assert (Hpx : forall o, In o obs -> 0 < nr (so_bmask (sob o)) /\ 0 < nc (so_bmask (sob o)) /\
     0 < nr (so_ormask (sob o)) /\ 0 < nc (so_ormask (sob o))).
  { intros o Ho. destruct (bands_In _ _ _ _ Hb Ho) as (ol & H1 & H2). exact (P ol o H1 H2). }
  destruct obs as [|o0 obs]; [congruence|].
  destruct (combined_masks (sob o0) (map sob obs)) as (om & bm & E & D1 & D2 & D3 & D4 & Bits).
  assert (Em : map (fun o : sobs => [o]) (sob o0 :: map sob obs) = map (fun o : O => [sob o]) (o0 :: obs))
    by (cbn [map]; rewrite map_map; reflexivity).
  cbv zeta in E. rewrite Em, Hom in E. apply Ok_inj in E. apply pair_equal_spec in E. destruct E as [<- <-].
  unfold extra_of in Hx.
  destruct (e_unshear e t (dc_y d) (dc_x d)) as [[rn cn]|] eqn:Eu; [|discriminate]. cbn [obind fst snd] in Hx.
  destruct (fill_in_mask (ormask_region e) (dc_y d) (dc_x d) (sm_ormask su)) as [v1|] eqn:F1; [|discriminate]. cbn [obind] in Hx.
  destruct (fill_in_mask (ormask_region e) rn cn (sm_ormask su)) as [v2|] eqn:F2; [|discriminate]. cbn [obind] in Hx.
  destruct (fill_in_mask (bmask_region e) (dc_y d) (dc_x d) (sm_bmask su)) as [v3|] eqn:F3; [|discriminate]. cbn [obind] in Hx.
  destruct (fill_in_mask (bmask_region e) rn cn (sm_bmask su)) as [v4|] eqn:F4; [|discriminate]. cbn [obind] in Hx.
  destruct (mfrac_value sob e su (dc_y d) (dc_x d) (dc_box d)) as [m1|] eqn:M1; [|discriminate]. cbn [obind] in Hx.
  destruct (mfrac_value sob e su rn cn (dc_box d)) as [m2|] eqn:M2; [|discriminate]. cbn [obind] in Hx.
  apply Ok_inj in Hx. subst x. unfold extra_eqv in Hy.
  cbn [x_row x_col x_row_ns x_col_ns x_ormask x_ormask_ns x_bmask x_bmask_ns x_mfrac x_mfrac_ns x_mfrac_img x_psf x_det_bands] in Hy.
  destruct Hy as (Y1 & Y2 & Y3 & Y4 & Y5 & Y6 & Y7 & Y8 & Y9 & Y10 & Y11 & Y12 & Y13).
  assert (W1 : 1 <= bmask_region e).
  { destruct bmask_window_ok as [(r & _ & R1 & R2)|[_ R]]; lia. }
  assert (W2 : 1 <= ormask_region e).
  { destruct ormask_window_ok as [(r & _ & R1 & R2)|[_ [(r & _ & R1 & R2)|[_ R]]]]; lia. }
  assert (CO : forall row col v, fill_in_mask (ormask_region e) row col (sm_ormask su) = Ok v ->
     mask_column sob so_ormask (o0 :: obs) (ormask_region e) row col v).
  { intros row col v F. eapply (window_column so_ormask); [exact Hne| | | | |exact W2|exact F].
    - intros o o' Ho Ho'. destruct (Hsh o Ho) as (_ & _ & A & B). destruct (Hsh o' Ho') as (_ & _ & A' & B'). split; congruence.
    - intros o Ho. destruct (Hpx o Ho) as (_ & _ & A & B). split; assumption.
    - exists o0. split; [left; reflexivity|]. split; assumption.
    - intros i j n. exact (proj1 (Bits i j n)). }
  assert (CB : forall row col v, fill_in_mask (bmask_region e) row col (sm_bmask su) = Ok v ->
     mask_column sob so_bmask (o0 :: obs) (bmask_region e) row col v).
  { intros row col v F. eapply (window_column so_bmask); [exact Hne| | | | |exact W1|exact F].
    - intros o o' Ho Ho'. destruct (Hsh o Ho) as (A & B & _). destruct (Hsh o' Ho') as (A' & B' & _). split; congruence.
    - intros o Ho. destruct (Hpx o Ho) as (A & B & _). split; assumption.
    - exists o0. split; [left; reflexivity|]. split; assumption.
    - intros i j n. exact (proj2 (Bits i j n)). }
  exists m, (o0 :: obs), (sm_mfrac su), (ormask_region e), (bmask_region e).
  split; [exact Hd|]. split; [exact Hb|]. split; [exact Hne|]. split; [exact Hmf|].
  split; [apply ormask_window_ok|]. split; [apply bmask_window_ok|].
  rewrite Y1, Y2, Y3, Y4, Y5, Y6, Y7, Y8.
  split; [reflexivity|]. split; [reflexivity|]. split; [exact Eu|].
  split; [exact (CO _ _ _ F1)|]. split; [exact (CO _ _ _ F2)|]. split; [exact (CB _ _ _ F3)|]. split; [exact (CB _ _ _ F4)|].
  split; [exact (mfrac_column_ok _ _ _ _ _ _ M1 Y9)|]. split; [exact (mfrac_column_ok _ _ _ _ _ _ M2 Y10)|].
  split; [exact Y11|]. split; [|exact Y13].
  unfold psf_column in *. destruct Hpsf as [[Q1 Q2]|[Q1 (psel & s' & Q2 & Q3 & Q4)]].
  - left. split; [exact Q1|]. rewrite Q2 in Y12. destruct (x_psf y) as [a b c g]. unfold stats_eqv in Y12.
    cbn [ps_flags ps_g1 ps_g2 ps_T] in Y12. destruct Y12 as (Z1 & Z2 & Z3 & Z4).
    destruct b; [contradiction|]. destruct c; [contradiction|]. destruct g; [contradiction|]. subst a. reflexivity.
  - right. split; [exact Q1|]. exists psel, s'. split; [exact Q2|]. split; [exact Q3|].
    eapply stats_eqv_trans; eassumption.
Qed.

Lemma Forall2_In_r : forall A B (R : A -> B -> Prop) l l' b, Forall2 R l l' -> In b l' -> exists a, In a l /\ R a b.
Proof.
  intros A B R l l' b H. induction H as [|x y l l' Hxy H IH]; intros Hin; [destruct Hin|].
  destruct Hin as [->|Hin]; [exists x; split; [left; reflexivity|exact Hxy]|].
  destruct (IH Hin) as (a & Ha & Hr). exists a. split; [right; exact Ha|exact Hr].
Qed.

Lemma table_types : forall h s' r t v, env_uniform sob e -> metacal_types e -> healthy sob e h ->
  go sob e (after sob e h) = (Ok tt, s') -> result_property s' = Ok (Some r) -> table r t = Some v ->
  exists mcal m, e_metacal e (e_main e) = Ok mcal /\ In (t, m) mcal.
Proof.
  intros h s' r t v HU MT Hh Hg Hr Ht.
  destruct (go_tables _ _ _ _ _ sob e HU h s' r Hh Hg Hr) as (mcal & all & Hm & _).
  destruct (go_types _ _ _ _ _ sob e h s' r HU MT Hh Hg Hr) as [_ Hty].
  assert (Hin : In t (e_types e)).
  { apply Hty. apply assoc_In. exists v. exact Ht. }
  apply (proj2 (MT _ _ Hm)) in Hin. apply in_map_iff in Hin. destruct Hin as ([t' m] & E & Hin). cbn in E. subst t'.
  exists mcal, m. split; assumption.
Qed.

Lemma plain_columns : forall h s' r t rows row, env_uniform sob e -> env_pixels sob e -> metacal_types e -> e_color e = None ->
  healthy sob e h -> go sob e (after sob e h) = (Ok tt, s') -> result_property s' = Ok (Some r) ->
  table r t = Some (Some rows) -> In row rows ->
  exists sb db d, In (sb, db) (combine (e_shear e) (e_det e)) /\ columns sob e None sb db t d (r_extra row) /\
    exists m cat seg, detected e m db cat seg /\ In d cat.
Proof.
  intros h s' r t rows row HU HP MT Hc Hh Hg Hr Ht Hin.
  destruct (table_types _ _ _ _ _ HU MT Hh Hg Hr Ht) as (mcal & m & Hm & Htm).
  destruct (go_plain_blocks _ _ _ _ _ sob e HU MT h s' r Hc Hh Hg Hr) as (mcal' & Hm' & K).
  assert (mcal' = mcal) by congruence. subst mcal'. destruct (K t m Htm) as (blocks & HB & HT).
  rewrite Ht in HT. apply Some_inj in HT. assert (Hrow : In row (List.concat blocks)).
  { destruct (List.concat blocks) as [|x l]; [discriminate|]. apply Some_inj in HT. subst rows. exact Hin. }
  apply in_concat in Hrow. destruct Hrow as (block & Hbl & Hrb).
  destruct (Forall2_In_r _ _ _ _ _ _ HB Hbl) as ([sb db] & Hsd & Hof). cbn [fst snd] in *.
  destruct Hof as (cat & seg & kd & su & Hdet & Hun & Hks & HR). cbn [fst snd] in *.
  destruct (Forall2_In_r _ _ _ _ _ _ HR Hrb) as (d & Hd & st & Hst & Hfit & _ & x & Hx & Hxe).
  exists sb, db, d. split; [exact Hsd|]. split; [eapply columns_ok; eassumption|].
  exists m, cat, seg. split; assumption.
Qed.

Lemma colour_columns : forall keyf dep h s' r t rows row, env_uniform sob e -> env_pixels sob e -> metacal_types e ->
  e_color e = Some (keyf, dep) ->
  healthy sob e h -> go sob e (after sob e h) = (Ok tt, s') -> result_property s' = Ok (Some r) ->
  table r t = Some (Some rows) -> In row rows ->
  exists sb db d key m cat seg, In (sb, db) (combine (e_shear e) (e_det e)) /\
    detected e m db cat seg /\ In d cat /\ colour_of e keyf sb m seg d key /\
    columns sob e key sb db t d (r_extra row).
Proof.
  intros keyf dep h s' r t rows row HU HP MT Hc Hh Hg Hr Ht Hin.
  destruct (table_types _ _ _ _ _ HU MT Hh Hg Hr Ht) as (mcal & m & Hm & Htm).
  destruct (go_colour_blocks _ _ _ _ _ sob e HU MT keyf dep h s' r Hc Hh Hg Hr) as (mcal' & Hm' & K).
  assert (mcal' = mcal) by congruence. subst mcal'. destruct (K t m Htm) as (blocks & HB & HT).
  rewrite Ht in HT. apply Some_inj in HT. assert (Hrow : In row (List.concat blocks)).
  { destruct (List.concat blocks) as [|x l]; [discriminate|]. apply Some_inj in HT. subst rows. exact Hin. }
  apply in_concat in Hrow. destruct Hrow as (block & Hbl & Hrb).
  destruct (Forall2_In_r _ _ _ _ _ _ HB Hbl) as ([sb db] & Hsd & Hof). cbn [fst snd] in *.
  destruct Hof as (cat & seg & keys & parts & Hdet & Hcol & HR & ->). cbn [fst snd] in *.
  apply in_concat in Hrb. destruct Hrb as (part & Hpart & Hrp).
  destruct (Forall2_In_r _ _ _ _ _ _ HR Hpart) as ([d key] & Hdk & kd & Hun & Hcase). cbn [fst snd] in *.
  destruct Hcase as [[_ ->]|(dict & mm & st & su & r0 & _ & _ & Hks & _ & (Hfit & _ & x & Hx & Hxe) & ->)]; [destruct Hrp|].
  destruct Hrp as [->|[]].
  assert (Hck : colour_of e keyf sb m seg d key).
  { clear - Hcol Hdk. revert Hdk. induction Hcol as [|a b l l' Hab Hcol IH]; intros Hdk; [destruct Hdk|].
    cbn [combine] in Hdk. destruct Hdk as [E|Hdk]; [apply pair_equal_spec in E; destruct E; subst; exact Hab | auto]. }
  exists sb, db, d, key, m, cat, seg. split; [exact Hsd|]. split; [exact Hdet|].
  split; [exact (in_combine_l _ _ _ _ Hdk)|]. split; [exact Hck|]. eapply columns_ok; eassumption.
Qed.

(** With colours the tables exist only when the first fitter measures fluxes by
    band. *)
Lemma colour_first_fitter : forall keyf dep h s' r, env_uniform sob e -> metacal_types e -> e_color e = Some (keyf, dep) ->
  healthy sob e h -> go sob e (after sob e h) = (Ok tt, s') -> result_property s' = Ok (Some r) ->
  e_types e <> [] -> combine (e_shear e) (e_det e) <> [] ->
  exists f0 rest, e_fitters e = f0 :: rest /\ fi_wavg f0 = true.
Proof.
  intros keyf dep h s' r HU MT Hc Hh Hg Hr Hty Hne.
  destruct (go_tables _ _ _ _ _ sob e HU h s' r Hh Hg Hr) as (mcal & all & Hm & Ha & _).
  destruct (combine (e_shear e) (e_det e)) as [|sd l]; [congruence|].
  destruct mcal as [|tm mcal].
  { destruct (e_types e) as [|t0 ts] eqn:Et; [congruence|]. exfalso.
    assert (Hin : In t0 (e_types e)) by (rewrite Et; left; reflexivity). apply (proj2 (MT _ _ Hm)) in Hin. destruct Hin. }
  cbn [omap] in Ha. destruct (pcomb O SEG ST FL FR sob e (tm :: mcal) sd) as [res|] eqn:Ep; [|discriminate].
  unfold pcomb in Ep. rewrite Hc in Ep. unfold pbands_color in Ep. cbn [omap] in Ep.
  destruct (e_fitters e) as [|f0 rest] eqn:Ef; [discriminate|]. exists f0, rest. split; [reflexivity|].
  destruct (fi_wavg f0); [reflexivity|discriminate].
Qed.
End Proofs.

(** ** The result property *)
Section Result.
Variables O SEG ST FL FR : Type.
Variable sob : O -> sobs.
Variable e : env O SEG ST FL FR.
Definition keeps {A} (p : M O FR A) : Prop := forall s, s_result (snd (p s)) = s_result s.
Lemma keeps_ret : forall A (a : A), keeps (ret a). Proof. intros A a s. reflexivity. Qed.
Lemma keeps_lift : forall A (a : outcome A), keeps (lift a). Proof. intros A a s. reflexivity. Qed.
Lemma keeps_bind : forall A B (p : M O FR A) (f : A -> M O FR B), keeps p -> (forall a, keeps (f a)) -> keeps (mbind p f).
Proof.
  intros A B p f H1 H2 s. unfold mbind. specialize (H1 s). destruct (p s) as [[a|x] s1]; cbn [snd] in *; [|exact H1].
  rewrite H2. exact H1.
Qed.
Lemma keeps_mmap : forall A B (f : A -> M O FR B) l, (forall a, keeps (f a)) -> keeps (mmap f l).
Proof.
  intros A B f l H. induction l as [|a l IH]; cbn [mmap]; [apply keeps_ret|].
  apply keeps_bind; [apply H|]. intros b. apply keeps_bind; [exact IH|]. intros bs. apply keeps_ret.
Qed.
Lemma keeps_get_data : forall key sb, keeps (get_data sob e key sb).
Proof.
  intros key sb s. unfold get_data. destruct (obs_of e key) as [[k m]|]; [|reflexivity].
  assert (K : forall (p : outcome unit * state O FR), s_result (snd p) = s_result s ->
    s_result (snd (let '(r1, s1) := p in match r1 with
      | Raise x => (Raise x, s1)
      | Ok _ => match assoc key_eqb k (s_cache s1) with
        | None => (Raise KeyError, s1)
        | Some (mp, sbs) => let sbkey := zsort sb in match assoc bands_eqb sbkey sbs with
          | Some kd => (Ok kd, s1)
          | None => let '(kd, r) := compute_sb sob e mp m sb in
            (match r with Ok _ => Ok kd | Raise x => Raise x end,
             mkState (dput key_eqb k (mp, dput bands_eqb sbkey kd sbs) (s_cache s1))
                     (s_log s1 ++ [EvSum k sbkey])%list (s_result s1))
          end end end)) = s_result s).
  { intros [r1 s1] Hp. cbn [snd] in Hp. destruct r1; [|exact Hp].
    destruct (assoc key_eqb k (s_cache s1)) as [[mp sbs]|]; [|exact Hp]. cbv zeta.
    destruct (assoc bands_eqb (zsort sb) sbs); [exact Hp|]. destruct (compute_sb sob e mp m sb) as [kd r]. exact Hp. }
  apply K. destruct (assoc key_eqb k (s_cache s)); [reflexivity|].
  destruct (compute_key e k m) as [[mp ev] r]. reflexivity.
Qed.
Lemma keeps_gobody : keeps (gobody O SEG ST FL FR sob e).
Proof.
  unfold gobody. apply keeps_bind; [apply keeps_lift|]. intros mf. destruct (give_up sob e mf); [apply keeps_ret|].
  apply keeps_bind; [apply keeps_get_data|]. intros kd. apply keeps_bind; [apply keeps_lift|]. intros [mcal|]; [|apply keeps_ret].
  apply keeps_bind; [|intros all; apply keeps_ret]. apply keeps_mmap. intros sd. destruct (e_color e) as [[keyf dep]|].
  - unfold go_bands_color. apply keeps_mmap. intros sm. apply keeps_bind; [apply keeps_lift|]. intros f0.
    apply keeps_bind; [apply keeps_lift|]. intros cs. apply keeps_bind; [apply keeps_lift|]. intros [|fl fls]; [apply keeps_ret|].
    apply keeps_bind; [apply keeps_lift|]. intros keys. apply keeps_bind; [|intros data; apply keeps_ret].
    apply keeps_mmap. intros dk. unfold color_one. apply keeps_bind; [apply keeps_get_data|]. intros kd'.
    apply keeps_bind; [apply keeps_lift|]. intros [dict|]; [|apply keeps_ret].
    apply keeps_bind; [apply keeps_lift|]. intros m. apply keeps_bind; [apply keeps_lift|]. intros st.
    apply keeps_bind; [apply keeps_lift|]. intros su. apply keeps_bind; [apply keeps_lift|]. intros r. apply keeps_ret.
  - unfold go_bands. apply keeps_bind; [apply keeps_get_data|]. intros kd'. apply keeps_mmap. intros sm.
    apply keeps_bind; [apply keeps_lift|]. intros cs. apply keeps_bind; [apply keeps_lift|]. intros su.
    apply keeps_bind; [apply keeps_lift|]. intros r. apply keeps_ret.
Qed.
Lemma go_raise_keeps : forall s x s', go sob e s = (Raise x, s') -> s_result s' = s_result s.
Proof.
  intros s x s' H. rewrite go_body in H. unfold mbind in H. pose proof (keeps_gobody s) as K.
  destruct (gobody O SEG ST FL FR sob e s) as [[r|y] s1]; cbn [snd] in K; [discriminate|].
  apply pair_equal_spec in H. destruct H as [_ <-]. exact K.
Qed.
Lemma no_result : forall h s, s_result s = None ->
  (forall i a, nth_error h i = Some Go -> nth_error (fst (run_ops sob e h s)) i <> Some (Ok a)) ->
  s_result (snd (run_ops sob e h s)) = None.
Proof.
  induction h as [|o h IH]; intros s Hs H; cbn [run_ops]; [exact Hs|].
  cbn [run_ops] in H. destruct (step sob e o s) as [x s1] eqn:E.
  destruct (run_ops sob e h s1) as [xs s2] eqn:E2. cbn [fst snd] in *.
  assert (Hs1 : s_result s1 = None).
  { destruct o as [k sb|]; cbn [step] in E.
    - assert (K : keeps (mbind (get_data sob e k sb) (fun _ => ret tt)))
        by (apply keeps_bind; [apply keeps_get_data|intros; apply keeps_ret]).
      specialize (K s). rewrite E in K. cbn [snd] in K. congruence.
    - destruct x as [u|x]; [exfalso; exact (H 0%nat u eq_refl eq_refl)|]. rewrite (go_raise_keeps _ _ _ E). exact Hs. }
  specialize (IH s1 Hs1). rewrite E2 in IH. cbn [fst snd] in IH. apply IH.
  intros i a Hi. exact (H (S i) a Hi).
Qed.
End Result.
