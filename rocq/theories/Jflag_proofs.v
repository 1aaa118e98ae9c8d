(** Proofs for C113. *)
From Coq Require Import ZArith QArith List String Bool Lia.
From Verif Require Import Base Arr Median Flags_model Coadd_model Coadd_spec Coadd_proofs Wavg_model Wavg_spec Wavg_proofs
  Joint_model Joint_spec Joint_proofs Wflag_spec Wflag_proofs Jflag_spec.
Import ListNotations.
Local Open Scope Z_scope.

Lemma bits_none : forall P : Z -> Prop, (forall f, ~ P f) -> bits_from 0 P.
Proof. intros P N k. rewrite Z.bits_0. split; [discriminate|]. intros (f & X & _). now apply N in X. Qed.

(** ** The data *)
Lemma band_bits : forall bm ol g, band_data_flags bm ol = Ok g -> bits_from g (data_problem bm [ol]).
Proof.
  intros bm ol g H. unfold band_data_flags in H. destruct ol as [|o [|o' ol]].
  - apply Ok_inj in H. subst g. apply bits_ext with (P := fun f => f = flag_value MISSING_BAND); [|apply bits_self].
    intro f. split; [intros ->; apply band_empty; now left|].
    intros [A|ol [<-|[]] L|o [A|[]] N|o m i j [A|[]] B C D]; try discriminate; [reflexivity|cbn in L; lia].
  - destruct (f_bmask o) as [m|] eqn:B; [|discriminate]. apply Ok_inj in H.
    assert (W : bits_from (if any_pixel qpos (f_weight o) then 0 else flag_value ZERO_WEIGHTS)
      (fun f => ~ has_positive (f_weight o) /\ f = flag_value ZERO_WEIGHTS)).
    { pose proof (bits_if (negb (any_pixel qpos (f_weight o))) (~ has_positive (f_weight o)) (flag_value ZERO_WEIGHTS)) as K.
      assert (E : negb (any_pixel qpos (f_weight o)) = true <-> ~ has_positive (f_weight o)).
      { rewrite negb_true_iff, <- not_true_iff_false, any_pixel_spec. unfold has_positive. split; intros X (i & j & I & Y); apply X;
          exists i, j; (split; [exact I|now apply qpos_iff]). }
      specialize (K E). destruct (any_pixel qpos (f_weight o)); exact K. }
    assert (M : bits_from (if any_pixel (fun v => negb (Z.land v bm =? 0)) m then flag_value EDGE_HIT else 0)
      (fun f => (exists i j, inside m i j /\ Z.land (px m i j) bm <> 0) /\ f = flag_value EDGE_HIT)).
    { apply bits_if. rewrite any_pixel_spec. split; intros (i & j & I & Y); exists i, j; (split; [exact I|]).
      - apply negb_true_iff, Z.eqb_neq in Y. exact Y.
      - apply negb_true_iff, Z.eqb_neq. exact Y. }
    pose proof (bits_lor _ _ _ _ W M) as K.
    assert (E : g = Z.lor (if any_pixel qpos (f_weight o) then 0 else flag_value ZERO_WEIGHTS)
                          (if any_pixel (fun v => negb (Z.land v bm =? 0)) m then flag_value EDGE_HIT else 0)).
    { rewrite <- H. destruct (any_pixel (fun v => negb (Z.land v bm =? 0)) m); [reflexivity|now rewrite Z.lor_0_r]. }
    rewrite E. clear E H. refine (bits_ext _ _ _ _ K). intro f. split.
    + intros [[A ->]|[(i & j & I & A) ->]]; [apply no_weight with o; [now left|exact A]|].
      apply masked with o m i j; [now left|exact B|exact I|exact A].
    + intros [A|ol [<-|[]] L|o' [A|[]] N|o' m' i j [A|[]] C I D].
      * destruct A as [A|[]]. discriminate.
      * cbn in L. lia.
      * injection A as <-. left. auto.
      * injection A as <-. rewrite B in C. apply Some_inj in C. subst m'. right. split; [eauto|reflexivity].
  - apply Ok_inj in H. subst g. apply bits_ext with (P := fun f => f = flag_value INCONSISTENT_BANDS); [|apply bits_self].
    intro f. split; [intros ->; apply band_many with (o :: o' :: ol); [now left|cbn; lia]|].
    intros [[A|[]]|l [<-|[]] L|o1 [A|[]] N|o1 m i j [A|[]] B C D]; try discriminate; reflexivity.
Qed.
Lemma data_problem_cons : forall bm ol mb f, data_problem bm (ol :: mb) f <-> data_problem bm [ol] f \/ data_problem bm mb f.
Proof.
  intros bm ol mb f. split.
  - intros [A|l A L|o A N|o m i j A B C D]; destruct A as [A|A]; try subst ol.
    + left. apply band_empty. now left.
    + right. now apply band_empty.
    + left. apply band_many with l; [now left|exact L].
    + right. now apply band_many with l.
    + left. apply no_weight with o; [now left|exact N].
    + right. now apply no_weight with o.
    + left. apply masked with o m i j; [now left|auto|auto|auto].
    + right. now apply masked with o m i j.
  - intros [[[A|[]]|l [A|[]] L|o [A|[]] N|o m i j [A|[]] B C D]|[A|l A L|o A N|o m i j A B C D]]; try subst ol.
    + apply band_empty. now left.
    + apply band_many with l; [now left|exact L].
    + apply no_weight with o; [now left|exact N].
    + apply masked with o m i j; [now left|auto|auto|auto].
    + apply band_empty. now right.
    + apply band_many with l; [now right|exact L].
    + apply no_weight with o; [now right|exact N].
    + apply masked with o m i j; [now right|auto|auto|auto].
Qed.
Lemma no_data_problem : forall bm f, ~ data_problem bm [] f.
Proof. intros bm f [[]|l [] L|o [] N|o m i j [] B C D]. Qed.
Lemma data_bits_acc : forall bm mb a f,
  ofold (fun f ol => do g <- band_data_flags bm ol; Ok (Z.lor f g)) mb a = Ok f ->
  bits_from f (fun g => g = a \/ data_problem bm mb g).
Proof.
  induction mb as [|ol mb IH]; cbn [ofold]; intros a f H.
  - apply Ok_inj in H. subst. apply bits_ext with (P := fun g => g = f); [|apply bits_self].
    intro g. split; [auto|]. intros [E|E]; [exact E|now apply no_data_problem in E].
  - destruct (band_data_flags bm ol) as [g|e] eqn:E; cbn [obind] in H; [|discriminate].
    specialize (IH _ _ H). pose proof (band_bits _ _ _ E) as B. intro k. rewrite (IH k). split.
    + intros (x & [->|P] & T).
      * rewrite Z.lor_spec, orb_true_iff in T. destruct T as [T|T]; [exists a; auto|].
        apply B in T. destruct T as (y & Y & T). exists y. split; [right; apply data_problem_cons; now left|exact T].
      * exists x. split; [right; apply data_problem_cons; now right|exact T].
    + intros (x & [->|P] & T).
      * exists (Z.lor a g). split; [now left|]. now rewrite Z.lor_spec, T.
      * apply data_problem_cons in P. destruct P as [P|P]; [|eauto].
        exists (Z.lor a g). split; [now left|]. rewrite Z.lor_spec. assert (Z.testbit g k = true) as -> by (apply B; eauto).
        apply orb_true_r.
Qed.
Lemma data_bits : forall bm mb f, data_flags bm mb = Ok f -> bits_from f (data_problem bm mb).
Proof.
  intros bm mb f H. apply data_bits_acc in H. intro k. rewrite (H k). split.
  - intros (x & [->|P] & T); [now rewrite Z.bits_0 in T|eauto].
  - intros (x & P & T). eauto.
Qed.
Lemma data_problem_flag : forall bm mb f, data_problem bm mb f -> f <> 0.
Proof. intros bm mb f [A|l A L|o A N|o m i j A B C D]; apply flag_value_nonzero. Qed.

(** ** A row without fit *)
Lemma untouched : forall ng n sb d0 f (P : Z -> Prop), get_wavg_output_struct ng n sb = Ok d0 -> bits_from f P ->
  not_tried ng (add_flags d0 f) P.
Proof.
  intros ng n sb d0 f P H B. destruct (struct_ok _ _ _ _ H) as [_ ->]. unfold not_tried, add_flags.
  cbn [o_flags o_obj_flags o_T_flags o_psf_flags o_band_flux_flags].
  split. { exact (bits_lor _ _ _ _ (bits_self (NO_ATTEMPT ng)) B). }
  repeat (split; [reflexivity|]). intros x Hx. now apply repeat_spec in Hx.
Qed.

(** ** The PSF flags of a Gaussian fit *)
Lemma psf_fold_bits : forall l s, (forall q o, In (q, o) l -> exists w, qmedian (positive_of (f_weight o)) = Some w) ->
  bits_from (ps_flags (fold_left psf_step l s)) (fun f => f = ps_flags s \/ exists q o, In (q, o) l /\ f = q_flags q).
Proof.
  induction l as [|[q o] l IH]; cbn [fold_left]; intros s H.
  - apply bits_ext with (P := fun f => f = ps_flags s); [|apply bits_self]. intro f. split; [auto|].
    intros [E|(q & o & [] & _)]. exact E.
  - destruct (H q o (or_introl eq_refl)) as [w Hw].
    assert (E : ps_flags (psf_step s (q, o)) = Z.lor (ps_flags s) (q_flags q)).
    { unfold psf_step. rewrite Hw. destruct (q_flags q =? 0); reflexivity. }
    assert (K : bits_from (ps_flags (fold_left psf_step l (psf_step s (q, o))))
      (fun f => f = ps_flags (psf_step s (q, o)) \/ exists q o, In (q, o) l /\ f = q_flags q)).
    { apply IH. intros q' o' Hin. apply (H q' o'). now right. }
    rewrite E in K. intro k. rewrite (K k). split.
    + intros (f & [->|(q' & o' & I & ->)] & T).
      * rewrite Z.lor_spec, orb_true_iff in T. destruct T as [T|T]; [eauto|].
        exists (q_flags q). split; [right; exists q, o; split; [now left|reflexivity]|exact T].
      * exists (q_flags q'). split; [right; exists q', o'; split; [now right|reflexivity]|exact T].
    + intros (f & [->|(q' & o' & [I|I] & ->)] & T).
      * exists (Z.lor (ps_flags s) (q_flags q)). split; [now left|]. now rewrite Z.lor_spec, T.
      * injection I as <- <-. exists (Z.lor (ps_flags s) (q_flags q)). split; [now left|]. rewrite Z.lor_spec, T. apply orb_true_r.
      * exists (q_flags q'). split; [right; eauto|exact T].
Qed.
Lemma in_numbered : forall (p : nat -> psfres) (obs : list fobs) j q,
  (exists o, In (q, o) (combine (map p (seq j (List.length obs))) obs)) <-> exists k, (j <= k < j + List.length obs)%nat /\ q = p k.
Proof.
  induction obs as [|x obs IH]; cbn [List.length seq map combine]; intros j q.
  - split; [intros (o & [])|]. intros (k & H & _). lia.
  - split.
    + intros (o & [E|H]); [injection E as <- _; exists j; split; [lia|reflexivity]|].
      destruct (proj1 (IH (S j) q)) as (k & Hk & ->); [eauto|]. exists k. split; [lia|reflexivity].
    + intros (k & Hk & ->). destruct (Nat.eq_dec k j) as [->|N]; [exists x; now left|].
      destruct (proj2 (IH (S j) (p k))) as (o & Ho); [exists k; split; [lia|reflexivity]|]. exists o. now right.
Qed.
Lemma psf_bits : forall d0 coadd obs p pf pT pg, psf_columns d0 coadd (map (fun o => [o]) obs) p = (pf, pT, pg) ->
  (coadd = true -> List.length obs = 1%nat) -> (coadd = false -> forall o, In o obs -> has_positive (f_weight o)) ->
  bits_from pf (fun f => exists k, (k < List.length obs)%nat /\ f = q_flags (p k)).
Proof.
  intros d0 coadd obs p pf pT pg H L W. unfold psf_columns in H. destruct coadd.
  - rewrite !pair_equal_spec in H. destruct H as [[<- _] _]. specialize (L eq_refl).
    apply bits_ext with (P := fun f => f = q_flags (p O)); [|apply bits_self].
    intro f. split; [intros ->; exists O; split; [lia|reflexivity]|]. intros (k & Hk & ->). now replace k with O by lia.
  - rewrite (stamps_single _ obs p eq_refl) in H. rewrite !pair_equal_spec in H. destruct H as [[<- _] _]. specialize (W eq_refl).
    assert (M : forall q o, In (q, o) (combine (map p (seq 0 (List.length obs))) obs) -> exists w, qmedian (positive_of (f_weight o)) = Some w).
    { intros q o Hin. apply in_combine_r in Hin. exact (proj1 (has_positive_median _) (W o Hin)). }
    intro k. rewrite (psf_fold_bits _ psums0 M k). split.
    + intros (f & [->|(q & o & Hin & ->)] & T); [cbn [psums0 ps_flags] in T; now rewrite Z.bits_0 in T|].
      destruct (proj1 (in_numbered p obs O q)) as (i & Hi & ->); [eauto|]. exists (q_flags (p i)).
      split; [exists i; split; [lia|reflexivity]|exact T].
    + intros (f & (i & Hi & ->) & T). destruct (proj2 (in_numbered p obs O (p i))) as (o & Ho); [exists i; split; [lia|reflexivity]|].
      exists (q_flags (p i)). split; [right; eauto|exact T].
Qed.

(** ** The flags of the fluxes *)
Lemma set_at_any : forall B (l : list B) b v l', set_at l b v = Ok l' -> List.length l' = List.length l /\
  forall k, (k < List.length l)%nat ->
    (b = Z.of_nat k \/ b = Z.of_nat k - zlen l -> nth_error l' k = Some v) /\
    (~ (b = Z.of_nat k \/ b = Z.of_nat k - zlen l) -> nth_error l' k = nth_error l k).
Proof.
  intros B l b v l' H. unfold set_at in H. set (j := if b <? 0 then b + zlen l else b) in *.
  destruct ((0 <=? j) && (j <? zlen l)) eqn:R; [|discriminate]. apply Ok_inj in H. subst l'.
  apply andb_true_iff in R. destruct R as [R1 R2]. apply Z.leb_le in R1. apply Z.ltb_lt in R2.
  split; [apply set_nth_length|]. intros k Hk. unfold zlen in *.
  assert (J : (b = Z.of_nat k \/ b = Z.of_nat k - Z.of_nat (List.length l)) <-> Z.to_nat j = k).
  { unfold j in *. destruct (b <? 0) eqn:E; [apply Z.ltb_lt in E|apply Z.ltb_ge in E]; lia. }
  rewrite J. split; [intros ->; now apply set_nth_same|]. intro N. apply set_nth_other. congruence.
Qed.
Lemma broadcast_any : forall B (v : B) idx l l', ofold (fun l i => set_at l i v) idx l = Ok l' -> List.length l' = List.length l /\
  forall k, (k < List.length l)%nat ->
    (names_band (zlen l) idx k -> nth_error l' k = Some v) /\ (~ names_band (zlen l) idx k -> nth_error l' k = nth_error l k).
Proof.
  intros B v. induction idx as [|b idx IH]; cbn [ofold]; intros l l' H.
  - apply Ok_inj in H. subst. split; [reflexivity|]. intros k _. split; [intros (b & [] & _)|reflexivity].
  - destruct (set_at l b v) as [l1|e] eqn:E; cbn [obind] in H; [|discriminate].
    destruct (set_at_any _ _ _ _ _ E) as [L1 S1]. destruct (IH _ _ H) as [L2 S2].
    assert (ZL : zlen l1 = zlen l) by (unfold zlen; now rewrite L1).
    split; [congruence|]. intros k Hk. destruct (S1 k Hk) as [A1 A2]. destruct (S2 k) as [B1 B2]; [now rewrite L1|].
    rewrite ZL in B1, B2.
    assert (D : names_band (zlen l) idx k \/ ~ names_band (zlen l) idx k).
    { clear. induction idx as [|b idx IH]; [right; intros (b & [] & _)|].
      destruct (Z.eq_dec b (Z.of_nat k)) as [E|N1]; [left; exists b; split; [now left|now left]|].
      destruct (Z.eq_dec b (Z.of_nat k - zlen l)) as [E|N2]; [left; exists b; split; [now left|now right]|].
      destruct IH as [(c & I & X)|N]; [left; exists c; split; [now right|exact X]|].
      right. intros (c & [<-|I] & X); [tauto|]. apply N. exists c. auto. }
    split.
    + intros (c & [<-|I] & X).
      * destruct D as [D|D]; [exact (B1 D)|]. rewrite (B2 D). exact (A1 X).
      * apply B1. exists c. auto.
    + intro N. rewrite B2; [apply A2|].
      * intro X. apply N. exists b. split; [now left|exact X].
      * intros (c & I & X). apply N. exists c. split; [now right|exact X].
Qed.

(** ** C113, the Gaussian fit *)
Lemma gauss_flags_exact : forall ng boot mbobs bm sb coadd r, fit_mbobs_gauss ng boot mbobs bm sb coadd = Ok r ->
  let s := the_shear_bands mbobs sb in
  let problem f := data_problem bm mbobs f \/ band_beyond mbobs s f in
  ((exists f, problem f) -> not_tried ng r problem) /\
  ((forall f, ~ problem f) ->
   (forall cf, coadd = true -> make_coadd_obs mbobs s = Ok (None, cf) -> not_tried ng r (eq cf)) /\
   forall mb, fitted_stamps mbobs s coadd mb ->
     match boot mb with
     | BootPSF => not_tried ng r (eq (flag_value PSF_FAILURE))
     | BootOther => not_tried ng r (fun f => f = flag_value OBJ_FAILURE \/ f = flag_value PSF_FAILURE)
     | BootOk g p =>
       o_obj_flags r = g_flags g /\ o_T_flags r = g_flags g /\
       bits_from (o_psf_flags r) (fun f => exists k, (k < List.length mb)%nat /\ f = q_flags (p k)) /\
       bits_from (o_flags r) (fun f => f = g_flags g \/ exists k, (k < List.length mb)%nat /\ f = q_flags (p k)) /\
       forall k, (k < List.length mbobs)%nat ->
         (names_band (zlen mbobs) s k \/ List.length mbobs = 1%nat -> nth_error (o_band_flux_flags r) k = Some (g_flags g)) /\
         (~ names_band (zlen mbobs) s k -> List.length mbobs <> 1%nat -> nth_error (o_band_flux_flags r) k = Some (NO_ATTEMPT ng))
     end).
Proof.
  intros ng boot mbobs bm sb coadd r H. change (the_shear_bands mbobs sb) with (default_bands mbobs sb).
  cbv zeta. set (s := default_bands mbobs sb). unfold fit_mbobs_gauss in H. fold s in H. clearbody s.
  destruct (get_wavg_output_struct ng (List.length mbobs) s) as [d0|e] eqn:E; cbn [obind] in H; [|discriminate].
  destruct (data_flags bm mbobs) as [f0|e] eqn:F; cbn [obind] in H; [|discriminate].
  set (f1 := if existsb (fun s => zlen mbobs <=? s) s then Z.lor f0 (flag_value INCONSISTENT_BANDS) else f0) in *.
  assert (B1 : bits_from f1 (fun f => data_problem bm mbobs f \/ band_beyond mbobs s f)).
  { assert (X : f1 = Z.lor f0 (if existsb (fun s => zlen mbobs <=? s) s then flag_value INCONSISTENT_BANDS else 0)).
    { unfold f1. destruct (existsb _ s); [reflexivity|now rewrite Z.lor_0_r]. }
    rewrite X. refine (bits_ext _ _ _ _ (bits_lor _ _ _ _ (data_bits _ _ _ F)
      (bits_if _ (exists b, In b s /\ zlen mbobs <= b) (flag_value INCONSISTENT_BANDS) _))).
    - intro f. unfold band_beyond. tauto.
    - rewrite existsb_exists. split; intros (b & I & Y); exists b; (split; [exact I|now apply Z.leb_le]). }
  clearbody f1.
  assert (NZ : (exists f, data_problem bm mbobs f \/ band_beyond mbobs s f) -> f1 <> 0).
  { intros (f & P) Z0. apply (bits_zero _ _ B1) with (f := f) in Z0; [|exact P]. revert Z0.
    destruct P as [P|[-> _]]; [now apply data_problem_flag in P|apply flag_value_nonzero]. }
  split.
  - intro P. apply NZ in P. apply Z.eqb_neq in P. rewrite P in H. cbn [negb] in H. apply Ok_inj in H. subst r.
    eapply untouched; eassumption.
  - intro N. assert (Z0 : f1 = 0). { apply (bits_zero _ _ B1). intros f P. now apply N in P. }
    rewrite Z0 in H. change (negb (0 =? 0)) with false in H. cbv iota in H.
    assert (G : good_data bm mbobs).
    { apply data_flags_zero. rewrite F. f_equal. apply (bits_zero _ _ (data_bits _ _ _ F)). intros f P.
      exfalso. apply (N f). now left. }
    split.
    + intros cf -> M. unfold gauss_stamps in H. rewrite M in H. cbn [obind] in H. apply Ok_inj in H. subst r.
      eapply untouched; [exact E|]. apply bits_ext with (P := fun f => f = cf); [intro; split; congruence|apply bits_self].
    + intros mb S. rewrite (stamps_fit _ _ _ _ S) in H. cbn [obind] in H. destruct (boot mb) as [g p| |].
      * destruct (fitted_single _ _ _ _ _ G S) as (obs & -> & W). unfold gauss_row in H.
        destruct (assign_bands _ _ _ _) as [bff|e] eqn:A0; cbn [obind] in H; [|discriminate].
        destruct (if g_flags g =? 0 then assign_bands _ _ _ (g_flux g) else _) as [bf|e]; cbn [obind] in H; [|discriminate].
        destruct (if g_flags g =? 0 then assign_bands _ _ _ (g_flux_err g) else _) as [be|e]; cbn [obind] in H; [|discriminate].
        destruct (psf_columns d0 coadd (map (fun o => [o]) obs) p) as [[pf pT] pg] eqn:PC. apply Ok_inj in H. subst r.
        cbn [o_obj_flags o_T_flags o_psf_flags o_flags o_band_flux_flags]. rewrite map_length.
        assert (PB := psf_bits _ _ _ _ _ _ _ PC). specialize (PB ltac:(intros ->; exact (coadd_single_stamp _ _ _ S)) W).
        split; [reflexivity|]. split; [reflexivity|]. split; [exact PB|].
        split; [exact (bits_lor _ _ _ _ (bits_self (g_flags g)) PB)|].
        intros k Hk. unfold assign_bands in A0. destruct (struct_ok _ _ _ _ E) as [_ D].
        destruct (Nat.leb (List.length mbobs) 1) eqn:LE.
        { apply Nat.leb_le in LE. apply Ok_inj in A0. subst bff. assert (k = O) by lia. subst k.
          split; [reflexivity|]. intros _ X. exfalso. lia. }
        apply Nat.leb_gt in LE. cbn [assign_at] in A0. rewrite D in A0. cbn [o_band_flux_flags] in A0.
        replace (Nat.max (List.length mbobs) 1) with (List.length mbobs) in A0 by lia.
        destruct (broadcast_any _ _ _ _ _ A0) as [_ V].
        unfold zlen in V. rewrite repeat_length in V. destruct (V k Hk) as [V1 V2]. unfold zlen. split.
        -- intros [X|X]; [exact (V1 X)|lia].
        -- intros X _. rewrite (V2 X). now apply nth_error_repeat_lt.
      * apply Ok_inj in H. subst r. eapply untouched; [exact E|].
        apply bits_ext with (P := fun f => f = flag_value PSF_FAILURE); [intro; split; congruence|apply bits_self].
      * apply Ok_inj in H. subst r. eapply untouched; [exact E|]. apply bits_lor; apply bits_self.
Qed.

(** ** C113, adaptive moments *)
Lemma admom_flags_exact : forall ng rp ro mbobs bm sb sym r, fit_mbobs_admom ng rp ro mbobs bm sb sym = Ok r ->
  let s := the_shear_bands mbobs sb in
  ((exists f, data_problem bm mbobs f) -> not_tried ng r (data_problem bm mbobs)) /\
  ((forall f, ~ data_problem bm mbobs f) ->
   (forall cf, make_coadd_obs mbobs s = Ok (None, cf) -> not_tried ng r (eq cf)) /\
   forall co, make_coadd_obs mbobs s = Ok (Some co, 0) ->
     ((forall p pres, f_psf co = Some p -> rp p <> Ok pres) -> not_tried ng r (eq (flag_value PSF_FAILURE))) /\
     forall p pres so, f_psf co = Some p -> rp p = Ok pres -> (if sym then symmetrize_obs_weights co = Ok so else so = co) ->
       o_psf_flags r = a_flags pres /\ (forall f, In f (o_band_flux_flags r) -> f = NO_ATTEMPT ng) /\
       match ro so with
       | Raise _ => o_flags r = flag_value OBJ_FAILURE /\ o_obj_flags r = NO_ATTEMPT ng /\ o_T_flags r = NO_ATTEMPT ng
       | Ok gr => o_flags r = Z.lor (a_flags pres) (a_flags gr) /\ o_obj_flags r = a_flags gr /\ o_T_flags r = a_T_flags gr
       end).
Proof.
  intros ng rp ro mbobs bm sb sym r H. change (the_shear_bands mbobs sb) with (default_bands mbobs sb).
  cbv zeta. set (s := default_bands mbobs sb). unfold fit_mbobs_admom in H. fold s in H. clearbody s.
  destruct (get_wavg_output_struct ng (List.length mbobs) s) as [d0|e] eqn:E; cbn [obind] in H; [|discriminate].
  destruct (data_flags bm mbobs) as [f0|e] eqn:F; cbn [obind] in H; [|discriminate].
  pose proof (data_bits _ _ _ F) as B. split.
  - intro P. assert (NZ : f0 <> 0).
    { destruct P as (f & P). intro Z0. apply (bits_zero _ _ B) with (f := f) in Z0; [|exact P]. now apply data_problem_flag in P. }
    apply Z.eqb_neq in NZ. rewrite NZ in H. cbn [negb] in H. apply Ok_inj in H. subst r. eapply untouched; eassumption.
  - intro N. assert (Z0 : f0 = 0). { apply (bits_zero _ _ B). intros f P. now apply N in P. }
    rewrite Z0 in H. change (negb (0 =? 0)) with false in H. cbv iota in H. split.
    + intros cf M. rewrite M in H. cbn [obind] in H. apply Ok_inj in H. subst r.
      eapply untouched; [exact E|]. apply bits_ext with (P := fun f => f = cf); [intro; split; congruence|apply bits_self].
    + intros co M. rewrite M in H. cbn [obind] in H. unfold admom_psf in H. split.
      * intro X. assert (R : Ok (add_flags d0 (flag_value PSF_FAILURE)) = Ok r).
        { destruct (f_psf co) as [p|] eqn:P; [|exact H]. destruct (rp p) as [pres|e] eqn:RP; [|exact H].
          exfalso. exact (X p pres eq_refl RP). }
        apply Ok_inj in R. subst r. eapply untouched; [exact E|].
        apply bits_ext with (P := fun f => f = flag_value PSF_FAILURE); [intro; split; congruence|apply bits_self].
      * intros p pres so P RP S. rewrite P, RP in H. unfold admom_row in H.
        assert (S' : (if sym then symmetrize_obs_weights co else Ok co) = Ok so) by (destruct sym; [exact S|now subst]).
        rewrite S' in H. cbn [obind] in H. destruct (struct_ok _ _ _ _ E) as [_ D].
        destruct (ro so) as [gr|e]; apply Ok_inj in H; subst r;
          cbn [o_flags o_psf_flags o_obj_flags o_T_flags o_band_flux_flags]; rewrite D; cbn [o_obj_flags o_T_flags o_band_flux_flags];
          (split; [reflexivity|]; split; [intros x Hx; now apply repeat_spec in Hx|auto]).
Qed.
