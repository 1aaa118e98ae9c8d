(** Proofs for C110. *)
From Coq Require Import ZArith QArith List String Bool Lia.
From Verif Require Import Base Arr Median Refuse_spec.
From Verif Require Summ_model Lmdet_model Lmdet_spec Lmdet_proofs Lexp_model Lexp_spec Lexp_proofs Order_proofs Lmeas_spec Lmeas_proofs Dict Lutil_model Lrun_model Lphot_model.
Import ListNotations.
Local Open Scope Z_scope.

Lemma omap_ok_iff : forall A B (f : A -> outcome B) l, (exists r, omap f l = Ok r) <-> forall a, In a l -> exists b, f a = Ok b.
Proof.
  intros A B f. induction l as [|x l IH]; cbn [omap].
  - split; [intros _ a []|eauto].
  - split.
    + intros [r H] a. destruct (f x) as [y|] eqn:E; cbn [obind] in H; [|discriminate].
      destruct (omap f l) as [ys|] eqn:El; cbn [obind] in H; [|discriminate].
      intros [<-|I]; [eauto|]. now apply (proj1 IH (ex_intro _ ys eq_refl)).
    + intro H. destruct (H x (or_introl eq_refl)) as [y ->]. cbn [obind].
      destruct (proj2 IH (fun a I => H a (or_intror I))) as [ys ->]. cbn [obind]. eauto.
Qed.
Lemma omap_one_exn : forall A B (f : A -> outcome B) x l, (forall a e, f a = Raise e -> e = x) ->
  (omap f l = Raise x <-> exists a, In a l /\ f a = Raise x).
Proof.
  intros A B f x l One. split; [apply Lmeas_proofs.omap_raise|].
  intros (a & I & Ea). destruct (omap f l) as [r|e] eqn:E.
  - destruct (proj1 (omap_ok_iff _ _ f l) (ex_intro _ r E) a I) as [b Eb]. congruence.
  - apply Lmeas_proofs.omap_raise in E. destruct E as (b & _ & Eb). f_equal. symmetry. f_equal. symmetry. exact (One _ _ Eb).
Qed.

Section Summ.
Import Summ_model.
Lemma single_ok : forall A (ol : list A), returns (single_epoch ol) <-> one_epoch ol.
Proof.
  intros A [|o [|o' r]]; unfold returns, one_epoch; cbn; split; intros [x H]; try discriminate.
  - exists o. reflexivity.
  - exists o. reflexivity.
Qed.
Lemma single_raise : forall A (ol : list A) e, single_epoch ol = Raise e -> e = AssertionError.
Proof. intros A [|o [|o' r]] e H; cbn in H; congruence. Qed.
Lemma singles : forall A (mb : list (list A)),
  (returns (omap single_epoch mb) <-> Forall one_epoch mb) /\ (omap single_epoch mb = Raise AssertionError <-> Exists (fun ol => ~ one_epoch ol) mb) /\
  forall e, omap single_epoch mb = Raise e -> e = AssertionError.
Proof.
  intros A mb. split; [split|split; [split|]].
  - intro H. apply Forall_forall. intros ol I. apply single_ok. exact (proj1 (omap_ok_iff _ _ _ _) H ol I).
  - intro H. apply omap_ok_iff. intros ol I. apply single_ok. rewrite Forall_forall in H. auto.
  - intro H. apply omap_one_exn in H; [|apply single_raise]. destruct H as (ol & I & E). apply Exists_exists. exists ol. split; [exact I|].
    intro N. apply single_ok in N. destruct N as [o N]. congruence.
  - intro H. apply omap_one_exn; [apply single_raise|]. apply Exists_exists in H. destruct H as (ol & I & N). exists ol. split; [exact I|].
    destruct (single_epoch ol) as [o|e] eqn:E; [exfalso; apply N, single_ok; exists o; exact E|]. apply single_raise in E. congruence.
  - intros e H. apply Lmeas_proofs.omap_raise in H. destruct H as (ol & _ & H). eapply single_raise; eassumption.
Qed.

Lemma mfrac_refusals : forall mb,
  (returns (get_mfrac mb) <-> mb <> [] /\ Forall one_epoch mb) /\
  (get_mfrac mb = Raise IndexError <-> mb = [] \/ exists rest, mb = [] :: rest) /\
  (get_mfrac mb = Raise AssertionError <-> (exists ol rest, mb = ol :: rest /\ ol <> []) /\ Exists (fun ol => ~ one_epoch ol) mb).
Proof.
  intros [|[|o0 ol] rest]; cbn [get_mfrac].
  - split; [split|split; split].
    + intros [x H]. discriminate.
    + intros [H _]. congruence.
    + intros _. now left.
    + reflexivity.
    + discriminate.
    + intros [(ol & r & E & _) _]. discriminate.
  - split; [split|split; split].
    + intros [x H]. discriminate.
    + intros [_ H]. inversion H as [|? ? [o E]]. discriminate.
    + intros _. right. now exists rest.
    + reflexivity.
    + discriminate.
    + intros [(ol & r & E & N) _]. inversion E. congruence.
  - destruct (singles _ ((o0 :: ol) :: rest)) as (S1 & S2 & S3).
    destruct (omap single_epoch ((o0 :: ol) :: rest)) as [obs|e] eqn:E; cbn [obind].
    + assert (R : forall (b : bool) (x y : img Q), exists z, (if b then Ok x else Ok y) = Ok z) by (intros []; eauto).
      assert (F : Forall one_epoch ((o0 :: ol) :: rest)) by (apply S1; exists obs; reflexivity).
      split; [split|split; split].
      * intros _. split; [discriminate|exact F].
      * intros _. apply R.
      * intro H. destruct (negb _); discriminate.
      * intros [H|[r H]]; discriminate.
      * intro H. destruct (negb _); discriminate.
      * intros [_ H]. exfalso. apply Exists_exists in H. destruct H as (x & I & N). rewrite Forall_forall in F. exact (N (F x I)).
    + rewrite (S3 e eq_refl) in *. split; [split|split; split].
      * intros [x H]. discriminate.
      * intros [_ H]. apply S1 in H. destruct H as [x H]. discriminate.
      * discriminate.
      * intros [H|[r H]]; discriminate.
      * intros _. split; [|apply S2; reflexivity]. exists (o0 :: ol), rest. split; [reflexivity|discriminate].
      * reflexivity.
Qed.

Lemma masks_refusals : forall mb,
  (returns (get_ormask_and_bmask mb) <-> mb <> [] /\ Forall one_epoch mb) /\
  (get_ormask_and_bmask mb = Raise UnboundLocalError <-> mb = []) /\
  (get_ormask_and_bmask mb = Raise AssertionError <-> Exists (fun ol => ~ one_epoch ol) mb).
Proof.
  intros mb. unfold get_ormask_and_bmask. destruct (singles _ mb) as (S1 & S2 & S3).
  destruct (omap single_epoch mb) as [obs|e] eqn:E; cbn [obind].
  - assert (F : Forall one_epoch mb) by (apply S1; exists obs; reflexivity).
    assert (L := omap_ok_length _ _ _ _ _ E).
    assert (X : ~ Exists (fun ol => ~ one_epoch ol) mb).
    { intro H. apply Exists_exists in H. destruct H as (x & I & N). rewrite Forall_forall in F. exact (N (F x I)). }
    destruct obs as [|o obs]; destruct mb as [|b mb]; try discriminate; (split; [split|split; split]).
    + now intros [x H].
    + now intros [H _].
    + reflexivity.
    + reflexivity.
    + discriminate.
    + intro H. contradiction.
    + intros _. split; [discriminate|exact F].
    + intros _. eexists. reflexivity.
    + discriminate.
    + discriminate.
    + discriminate.
    + intro H. contradiction.
  - rewrite (S3 e eq_refl) in *. split; [split|split; split].
    + now intros [x H].
    + intros [_ H]. apply S1 in H. destruct H as [x H]. discriminate.
    + discriminate.
    + intros ->. discriminate.
    + intros _. now apply S2.
    + reflexivity.
Qed.

Lemma mask_lookup_refusals : forall reg row col mask,
  (fill_in_mask reg row col mask = Raise IndexError <-> reg <= 1 /\ (nr mask <= 0 \/ nc mask <= 0)) /\
  (returns (fill_in_mask reg row col mask) <-> 1 < reg \/ 0 < nr mask /\ 0 < nc mask).
Proof.
  intros reg row col mask. unfold fill_in_mask. destruct (1 <? reg) eqn:R.
  - apply Z.ltb_lt in R. split; split; [discriminate|lia|intros _; now left|intros _; eexists; reflexivity].
  - apply Z.ltb_ge in R.
    assert (C : forall x n, 0 <= clip_and_round x n < n <-> 0 < n) by (intros x n; unfold clip_and_round; lia).
    assert (B : (0 <=? clip_and_round row (nr mask)) && (clip_and_round row (nr mask) <? nr mask) &&
                ((0 <=? clip_and_round col (nc mask)) && (clip_and_round col (nc mask) <? nc mask)) = true <-> 0 < nr mask /\ 0 < nc mask).
    { rewrite <- (C row (nr mask)), <- (C col (nc mask)), !andb_true_iff, !Z.leb_le, !Z.ltb_lt. tauto. }
    destruct (_ && _); split; split.
    + discriminate.
    + intros [_ H]. assert (T := proj1 B eq_refl). lia.
    + intros _. right. now apply B.
    + intros _. eexists. reflexivity.
    + intros _. split; [exact R|]. destruct (Z.le_gt_cases (nr mask) 0); [now left|]. destruct (Z.le_gt_cases (nc mask) 0); [now right|].
      assert (T : false = true) by (apply B; lia). discriminate.
    + reflexivity.
    + now intros [x H].
    + intros [H|H]; [lia|]. apply B in H. discriminate.
Qed.

Lemma psf_fit_from : forall fit mb k,
  (snd (fit_all_psfs_from fit k mb) = Ok tt <-> Forall one_epoch mb /\ forall n ol, nth_error mb n = Some ol -> pr_flags (fit (k + n)%nat) = 0) /\
  (snd (fit_all_psfs_from fit k mb) = Raise BootPSFFailure <->
     first_at (fun n ol => one_epoch ol /\ pr_flags (fit (k + n)%nat) <> 0) (fun n ol => one_epoch ol /\ pr_flags (fit (k + n)%nat) = 0) mb) /\
  (snd (fit_all_psfs_from fit k mb) = Raise AssertionError <->
     first_at (fun n ol => ~ one_epoch ol) (fun n ol => one_epoch ol /\ pr_flags (fit (k + n)%nat) = 0) mb).
Proof.
  intros fit. induction mb as [|ol mb IH]; intro k.
  - cbn. split; [split|split; split].
    + intros _. split; [constructor|]. intros [|n] ol H; discriminate.
    + reflexivity.
    + discriminate.
    + intros ([|n] & a & H & _); discriminate.
    + discriminate.
    + intros ([|n] & a & H & _); discriminate.
  - assert (One : one_epoch ol \/ ~ one_epoch ol).
    { destruct ol as [|o [|o' r]]; [right; intros [x E]; discriminate|left; now exists o|right; intros [x E]; discriminate]. }
    destruct One as [[o ->]|N].
    2: { assert (E : fit_all_psfs_from fit k (ol :: mb) = (ol :: mb, Raise AssertionError)).
         { destruct ol as [|o [|o' r]]; cbn; try reflexivity. exfalso. apply N. now exists o. }
         rewrite E. cbn [snd]. split; [split|split; split].
         - discriminate.
         - intros [H _]. inversion H. contradiction.
         - discriminate.
         - intros (n & a & A & [B _] & C). destruct n as [|n]; [cbn in A; apply Some_inj in A; subst a; contradiction|].
           destruct (C 0%nat ol (Nat.lt_0_succ n) eq_refl). contradiction.
         - intros _. exists 0%nat, ol. split; [reflexivity|]. split; [exact N|]. intros m b L. lia.
         - reflexivity. }
    cbn [fit_all_psfs_from]. destruct (pr_flags (fit k) =? 0) eqn:F.
    + apply Z.eqb_eq in F. cbn [negb]. specialize (IH (S k)). destruct (fit_all_psfs_from fit (S k) mb) as [r e]. cbn [snd] in *.
      destruct IH as (I1 & I2 & I3).
      assert (Sh : forall P Q : nat -> list pobs -> Prop, (forall n a, Q n a <-> one_epoch a /\ pr_flags (fit (k + n)%nat) = 0) ->
         (P 0%nat [o] -> False) -> (first_at P Q ([o] :: mb) <-> first_at (fun n => P (S n)) (fun n => Q (S n)) mb)).
      { intros P Q HQ P0. split.
        - intros ([|n] & a & A & B & C).
          + cbn in A. apply Some_inj in A. subst a. destruct (P0 B).
          + exists n, a. split; [exact A|]. split; [exact B|]. intros m b L E. apply (C (S m) b); [lia|exact E].
        - intros (n & a & A & B & C). exists (S n), a. split; [exact A|]. split; [exact B|]. intros [|m] b L E.
          + cbn in E. apply Some_inj in E. subst b. apply HQ. split; [now exists o|]. now rewrite Nat.add_0_r.
          + apply (C m b); [lia|exact E]. }
      assert (Sk : forall n, (k + S n = S k + n)%nat) by (intro; lia).
      assert (Ext : forall (P Q P' Q' : nat -> list pobs -> Prop), (forall n a, P n a <-> P' n a) -> (forall n a, Q n a <-> Q' n a) -> (first_at P Q mb <-> first_at P' Q' mb)).
      { intros P Q P' Q' HP HQ. split; intros (n & a & A & B & C); exists n, a; (split; [exact A|]; split; [now apply HP|]); intros m b L E; apply HQ, (C m b L E). }
      split; [|split].
      * rewrite I1. split.
        -- intros [H1 H2]. split; [constructor; [now exists o|exact H1]|]. intros [|n] ol E; [rewrite Nat.add_0_r; exact F|]. rewrite Sk. exact (H2 n ol E).
        -- intros [H1 H2]. split; [now inversion H1|]. intros n ol E. rewrite <- Sk. exact (H2 (S n) ol E).
      * rewrite I2. symmetry. rewrite Sh.
        -- apply Ext; intros n a; rewrite Sk; reflexivity.
        -- intros n a. reflexivity.
        -- intros [_ H]. rewrite Nat.add_0_r in H. contradiction.
      * rewrite I3. symmetry. rewrite Sh.
        -- apply Ext; intros n a; [reflexivity|rewrite Sk; reflexivity].
        -- intros n a. reflexivity.
        -- intro H. apply H. now exists o.
    + apply Z.eqb_neq in F. cbn [negb snd]. split; [split|split; split].
      * discriminate.
      * intros [_ H]. specialize (H 0%nat [o] eq_refl). rewrite Nat.add_0_r in H. contradiction.
      * intros _. exists 0%nat, [o]. split; [reflexivity|]. rewrite Nat.add_0_r. split; [split; [now exists o|exact F]|]. intros m b L. lia.
      * reflexivity.
      * discriminate.
      * intros (n & a & A & B & C). destruct n as [|n].
        -- cbn in A. apply Some_inj in A. subst a. exfalso. apply B. now exists o.
        -- destruct (C 0%nat [o] (Nat.lt_0_succ n) eq_refl) as [_ C']. rewrite Nat.add_0_r in C'. contradiction.
Qed.
End Summ.

Section Task.
Import Lmdet_model Lmdet_spec Lmdet_proofs.
Lemma shape_dec : forall A B (a : img A) (b : img B), same_shape a b \/ ~ same_shape a b.
Proof. intros A B a b. unfold same_shape. lia. Qed.
Lemma not_all : forall A (P : A -> Prop) l, (forall a, P a \/ ~ P a) -> Forall P l \/ Exists (fun a => ~ P a) l.
Proof.
  intros A P l D. induction l as [|a l [IH|IH]]; [left; constructor| |right; now constructor].
  destruct (D a); [left|right]; now constructor.
Qed.
Lemma not_both : forall A (P : A -> Prop) l, Forall P l -> Exists (fun a => ~ P a) l -> False.
Proof. intros A P l F E. apply Exists_exists in E. destruct E as (a & I & N). rewrite Forall_forall in F. exact (N (F a I)). Qed.

Lemma ormasks_refusals : forall dims oms,
  (returns (combine_ormasks dims oms) <-> oms = None \/ exists m r, oms = Some (m :: r) /\ Forall (same_shape m) r) /\
  (combine_ormasks dims oms = Raise UnboundLocalError <-> oms = Some []) /\
  (combine_ormasks dims oms = Raise ValueError <-> exists m r, oms = Some (m :: r) /\ Exists (fun x => ~ same_shape m x) r).
Proof.
  intros dims [[|m r]|]; cbn [combine_ormasks].
  - split; [split|split; split].
    + now intros [x H].
    + intros [H|(m & r & H & _)]; discriminate.
    + reflexivity.
    + reflexivity.
    + discriminate.
    + intros (m & r & H & _). discriminate.
  - destruct (ofold or_into r m) as [om|e] eqn:E.
    + destruct (ofold_or _ _ _ E) as (_ & _ & F & _).
      assert (F' : Forall (same_shape m) r) by (eapply Forall_impl; [|exact F]; intros a [A B]; split; congruence).
      split; [split|split; split].
      * intros _. right. eauto.
      * intros _. exists om. reflexivity.
      * discriminate.
      * discriminate.
      * discriminate.
      * intros (m' & r' & H & X). apply Some_inj in H. inversion H; subst m' r'. destruct (not_both _ _ _ F' X).
    + assert (X : Exists (fun x => ~ same_shape m x) r).
      { destruct (not_all _ (same_shape m) r (shape_dec _ _ m)) as [F|X]; [|exact X]. exfalso.
        destruct (Order_proofs.ofold_or_ok r m) as [om Eo]; [|congruence].
        eapply Forall_impl; [|exact F]. intros a [A B]. split; congruence. }
      apply Order_proofs.ofold_or_err in E. subst e. split; [split|split; split].
      * now intros [x H].
      * intros [H|(m' & r' & H & F)]; [discriminate|]. apply Some_inj in H. inversion H; subst m' r'. destruct (not_both _ _ _ F X).
      * discriminate.
      * discriminate.
      * intros _. eauto.
      * reflexivity.
  - split; [split|split; split].
    + intros _. now left.
    + intros _. eexists. reflexivity.
    + discriminate.
    + discriminate.
    + discriminate.
    + intros (m & r & H & _). discriminate.
Qed.

Lemma good_vars_nil : forall v, good_vars v = [] <-> no_variance v.
Proof.
  intro v. unfold good_vars, no_variance. split.
  - intros H i j q I E. destruct (Qlt_le_dec 0 q) as [L|L]; [exfalso|exact L].
    assert (X : In q (flat_map (fun v => match v with Some q => if Qle_bool q 0 then [] else [q] | None => [] end) (pixels v))).
    { apply in_flat_map. exists (Some q). split.
      - rewrite <- E. unfold pixels. apply in_map_iff. exists (i, j). split; [reflexivity|]. now apply in_coords.
      - destruct (Qle_bool q 0) eqn:B; [apply Qle_bool_iff in B; exfalso; apply (Qlt_irrefl 0); eapply Qlt_le_trans; eassumption|now left]. }
    rewrite H in X. destruct X.
  - intro H. destruct (flat_map _ _) as [|q l] eqn:E; [reflexivity|]. exfalso.
    assert (X : In q (q :: l)) by now left. rewrite <- E in X. apply in_flat_map in X. destruct X as (o & I & Iq).
    destruct o as [q'|]; [|destruct Iq]. destruct (Qle_bool q' 0) eqn:B; [destruct Iq|]. destruct Iq as [->|[]].
    unfold pixels in I. apply in_map_iff in I. destruct I as ([i j] & Ep & Ic). apply in_coords in Ic.
    assert (L := H i j q Ic Ep). apply Qle_bool_iff in L. congruence.
Qed.
Lemma band_wgt_ok : forall v, returns (band_wgt v) <-> ~ no_variance v.
Proof.
  intro v. rewrite <- good_vars_nil. unfold band_wgt. destruct (qmedian (good_vars v)) as [m|] eqn:E; split.
  - intros _ N. rewrite N in E. discriminate.
  - intros _. eexists. reflexivity.
  - now intros [x H].
  - intro N. exfalso. apply N. now apply qmedian_none in E.
Qed.

Lemma sum_mfracs_refused : forall l acc (shape : img Q), (forall a, acc = Some a -> same_shape shape a) ->
  (acc = None -> forall vm r, l = vm :: r -> same_shape shape (snd vm)) ->
  (returns (sum_mfracs l acc) <-> Forall (fun vm => ~ no_variance (fst vm) /\ same_shape shape (snd vm)) l).
Proof.
  induction l as [|[v m] l IH]; intros acc shape A N; cbn [sum_mfracs].
  - split; [constructor|intros _; eexists; reflexivity].
  - split.
    + intros [x H]. destruct (band_wgt v) as [w|] eqn:Ew; cbn [obind] in H; [|discriminate].
      assert (Nv : ~ no_variance v) by (apply band_wgt_ok; exists w; exact Ew).
      destruct (match acc with None => Ok (scale w m) | Some a0 => add_img a0 (scale w m) end) as [b|] eqn:Eb; cbn [obind] in H; [|discriminate].
      destruct (sum_mfracs l (Some b)) as [p|] eqn:El; cbn [obind] in H; [|discriminate].
      assert (Sm : same_shape shape m /\ same_shape shape b).
      { destruct acc as [a|].
        - unfold add_img in Eb. destruct (_ && _) eqn:C; [|discriminate]. apply Ok_inj in Eb. subst b. apply andb_true_iff in C. rewrite !Z.eqb_eq in C.
          destruct (A a eq_refl) as [A1 A2]. cbn in *. unfold same_shape. cbn. lia.
        - apply Ok_inj in Eb. subst b. destruct (N eq_refl (v, m) l eq_refl) as [N1 N2]. unfold same_shape; cbn in *. lia. }
      destruct Sm as [Sm Sb]. constructor; [split; assumption|]. apply (IH (Some b)).
      * intros a E. apply Some_inj in E. now subst a.
      * discriminate.
      * exists p. exact El.
    + intro F. inversion F as [|? ? [Nv Sm] F']; subst. cbn [fst snd] in *. apply band_wgt_ok in Nv. destruct Nv as [w ->]. cbn [obind].
      assert (B : exists b, match acc with None => Ok (scale w m) | Some a0 => add_img a0 (scale w m) end = Ok b /\ same_shape shape b).
      { destruct acc as [a|].
        - destruct (A a eq_refl) as [A1 A2], Sm as [S1 S2]. unfold add_img. cbn [scale imap nr nc]. rewrite <- A1, <- A2, <- S1, <- S2, !Z.eqb_refl. cbn [andb].
          eexists. split; [reflexivity|]. split; cbn [imap2 nr nc]; assumption.
        - eexists. split; [reflexivity|]. exact Sm. }
      destruct B as (b & -> & Sb). cbn [obind]. destruct (proj2 (IH (Some b) shape ltac:(intros a E; apply Some_inj in E; now subst a) ltac:(discriminate)) F') as [p ->].
      cbn [obind]. eexists. reflexivity.
Qed.
Lemma unusable_dec : forall (shape : img Q) (vm : img (option Q) * img Q), (~ no_variance (fst vm) /\ same_shape shape (snd vm)) \/ ~ (~ no_variance (fst vm) /\ same_shape shape (snd vm)).
Proof.
  intros shape [v m]. cbn [fst snd]. destruct (shape_dec _ _ shape m) as [S|S]; [|right; tauto].
  destruct (band_wgt v) as [w|e] eqn:E; [left|right]; (split || intros [N _]).
  - apply band_wgt_ok. now exists w.
  - exact S.
  - apply band_wgt_ok in N. destruct N as [w N]. congruence.
Qed.

Lemma mfracs_refusals : forall vars mfracs,
  (get_mfrac_mbexp vars mfracs = Raise TypeError <-> mfracs = None) /\
  (get_mfrac_mbexp vars mfracs = Raise ZeroDivisionError <-> mfracs <> None /\ (mfracs = Some [] \/ vars = [])) /\
  (get_mfrac_mbexp vars mfracs = Raise ValueError <-> exists v vs m ms, vars = v :: vs /\ mfracs = Some (m :: ms) /\
     Exists (unusable_pair m) (combine vars (m :: ms))) /\
  (returns (get_mfrac_mbexp vars mfracs) <-> exists v vs m ms, vars = v :: vs /\ mfracs = Some (m :: ms) /\
     Forall (fun vm => ~ unusable_pair m vm) (combine vars (m :: ms))).
Proof.
  intros vars [ms|]; cbn [get_mfrac_mbexp].
  2: { split; [split|split; [split|split; split]].
       - reflexivity.
       - reflexivity.
       - discriminate.
       - now intros [H _].
       - discriminate.
       - intros (v & vs & m & ms & _ & H & _). discriminate.
       - now intros [x H].
       - intros (v & vs & m & ms & _ & H & _). discriminate. }
  destruct vars as [|v vs]; [|destruct ms as [|m ms]].
  1, 2: cbn; (split; [split; discriminate|split; [split|split; split]]);
    [intros _; split; [discriminate|auto]|reflexivity|discriminate|intros (v' & vs' & m' & ms' & H1 & H2 & _); discriminate|now intros [x H]|intros (v' & vs' & m' & ms' & H1 & H2 & _); discriminate].
  set (l := combine (v :: vs) (m :: ms)).
  assert (R := sum_mfracs_refused l None m ltac:(discriminate) ltac:(intros _ vm r E; unfold l in E; cbn in E; inversion E; split; reflexivity)).
  assert (U1 : Forall (fun vm => ~ no_variance (fst vm) /\ same_shape m (snd vm)) l <-> Forall (fun vm => ~ unusable_pair m vm) l).
  { rewrite !Forall_forall. unfold unusable_pair. split; intros H x I; specialize (H x I); [tauto|]. split; [tauto|]. destruct (shape_dec _ _ m (snd x)); tauto. }
  assert (U2 : Exists (fun vm => ~ (~ no_variance (fst vm) /\ same_shape m (snd vm))) l <-> Exists (unusable_pair m) l).
  { rewrite !Exists_exists. unfold unusable_pair. split; intros (x & I & H); exists x; (split; [exact I|]).
    - destruct (shape_dec _ _ m (snd x)); [|tauto]. left. destruct (band_wgt (fst x)) as [w|] eqn:Ew.
      + exfalso. apply H. split; [apply band_wgt_ok; exists w; exact Ew|assumption].
      + unfold band_wgt in Ew. destruct (qmedian (good_vars (fst x))) eqn:Q; [discriminate|]. apply qmedian_none in Q. now apply good_vars_nil.
    - destruct H as [H|H]; tauto. }
  destruct (sum_mfracs l None) as [[o ws]|e] eqn:E; cbn [obind fst snd].
  - assert (F : Forall (fun vm => ~ unusable_pair m vm) l) by (apply U1, R; eexists; reflexivity).
    assert (O : o <> None) by (eapply Order_proofs.sum_mfracs_some; [exact E|left; discriminate]).
    destruct o as [a|]; [|congruence]. split; [split; discriminate|split; [split|split; split]].
    + discriminate.
    + intros [_ [H|H]]; discriminate.
    + discriminate.
    + intros (v' & vs' & m' & ms' & H1 & H2 & H3). exfalso. apply Some_inj in H2. inversion H1; inversion H2; subst v' vs' m' ms'.
      fold l in H3. apply Exists_exists in H3. destruct H3 as (x & I & H3). rewrite Forall_forall in F. exact (F x I H3).
    + intros _. exists v, vs, m, ms. auto.
    + intros _. eexists. reflexivity.
  - assert (X : Exists (unusable_pair m) l).
    { apply U2. destruct (not_all _ _ l (unusable_dec m)) as [F|X]; [|exact X]. exfalso. apply R in F. destruct F as [x F]. congruence. }
    apply Order_proofs.sum_mfracs_err in E. subst e. split; [split; discriminate|split; [split|split; split]].
    + discriminate.
    + intros [_ [H|H]]; discriminate.
    + intros _. exists v, vs, m, ms. auto.
    + reflexivity.
    + now intros [x H].
    + intros (v' & vs' & m' & ms' & H1 & H2 & H3). exfalso. apply Some_inj in H2. inversion H1; inversion H2; subst v' vs' m' ms'.
      fold l in H3. apply Exists_exists in X. destruct X as (x & I & X). rewrite Forall_forall in H3. exact (H3 x I X).
Qed.

(** Negative indices count from the end. *)
Lemma np_get_wrap : forall A (im : img A) i j,
  (returns (np_get im i j) <-> - nr im <= i < nr im /\ - nc im <= j < nc im) /\
  (forall v, np_get im i j = Ok v -> v = px im (i mod nr im) (j mod nc im)) /\
  (forall e, np_get im i j = Raise e -> e = IndexError).
Proof.
  intros A im i j. unfold np_get.
  assert (W : forall k n, - n <= k < n -> (if k <? 0 then k + n else k) = k mod n).
  { intros k n H. destruct (k <? 0) eqn:E; [apply Z.ltb_lt in E|apply Z.ltb_ge in E].
    - rewrite <- (Z.mod_add k 1 n) by lia. rewrite Z.mod_small; lia.
    - rewrite Z.mod_small; lia. }
  assert (B : insideb im (if i <? 0 then i + nr im else i) (if j <? 0 then j + nc im else j) = true <-> - nr im <= i < nr im /\ - nc im <= j < nc im).
  { rewrite insideb_spec. unfold inside. destruct (Z.ltb_spec i 0), (Z.ltb_spec j 0); lia. }
  destruct (insideb _ _ _) eqn:E; (split; [split|split]).
  - intros _. now apply B.
  - intros _. eexists. reflexivity.
  - intros v H. apply Ok_inj in H. destruct (proj1 B eq_refl) as [B1 B2]. now rewrite <- (W i _ B1), <- (W j _ B2).
  - discriminate.
  - now intros [x H].
  - intro H. apply B in H. discriminate.
  - discriminate.
  - intros e H. now inversion H.
Qed.
Lemma own_pixel_ex : forall x, own_pixel x (nearest (local_row x)) (nearest (local_col x)).
Proof. intro x. split; apply nearest_spec. Qed.
Lemma ormask_refusals : forall om res,
  let reach x := exists i j, own_pixel x i j /\ - nr om <= i < nr om /\ - nc om <= j < nc om in
  (returns (add_ormask om res) <-> Forall reach res) /\
  (add_ormask om res = Raise IndexError <-> Exists (fun x => ~ reach x) res) /\
  (forall res', add_ormask om res = Ok res' ->
     Forall2 (fun x x' => forall i j, own_pixel x i j -> x' = with_ormask x (px om (i mod nr om) (j mod nc om))) res res').
Proof.
  intros om res reach.
  assert (Rx : forall x, reach x <-> exists v, np_get om (nearest (local_row x)) (nearest (local_col x)) = Ok v).
  { intro x. change (exists v, np_get om (nearest (local_row x)) (nearest (local_col x)) = Ok v) with (returns (np_get om (nearest (local_row x)) (nearest (local_col x)))).
    rewrite (proj1 (np_get_wrap _ om _ _)). split.
    - intros (i & j & O & B). apply own_pixel_nearest in O. destruct O as [-> ->]. exact B.
    - intro B. exists (nearest (local_row x)), (nearest (local_col x)). split; [apply own_pixel_ex|exact B]. }
  assert (F : forall x, reach x <-> exists y, (do v <- np_get om (nearest (local_row x)) (nearest (local_col x)); Ok (with_ormask x v)) = Ok y).
  { intro x. rewrite Rx. split; [intros [v ->]; cbn [obind]; eauto|]. intros [y H]. destruct (np_get _ _ _) as [v|]; [eauto|discriminate]. }
  assert (E : forall x e, (do v <- np_get om (nearest (local_row x)) (nearest (local_col x)); Ok (with_ormask x v)) = Raise e -> e = IndexError).
  { intros x e H. destruct (np_get om _ _) as [v|e'] eqn:N; cbn [obind] in H; [discriminate|]. inversion H; subst. eapply np_get_wrap; eassumption. }
  split; [|split].
  - unfold returns, add_ormask. rewrite omap_ok_iff, Forall_forall. split; intros H x I; apply F; auto.
  - unfold add_ormask. rewrite omap_one_exn by exact E. rewrite Exists_exists. split; intros (x & I & H); exists x; (split; [exact I|]).
    + intro R. apply F in R. destruct R as [y R]. congruence.
    + destruct (do v <- _; _) as [y|e] eqn:N; [exfalso; apply H, F; now exists y|]. now rewrite (E _ _ N).
  - intros res' H. apply add_ormask_spec in H. induction H as [|x x' l l' [G ->] H IH]; constructor; [|exact IH].
    intros i j O. apply own_pixel_nearest in O. destruct O as [-> ->]. apply np_get_wrap in G. now rewrite <- G.
Qed.

Lemma psf_refusals : forall to_g shear fits wgts,
  (zlen wgts <> zlen fits -> fit_original_psfs to_g shear fits wgts = Raise AssertionError) /\
  (forall fs, zlen wgts = zlen fits -> fits = map Ok fs -> (forall f, In f fs -> pf_flags f = 0) -> (sum_over shear (fun _ => 1) fs wgts <= 0)%Q ->
     fit_original_psfs to_g shear fits wgts = Raise ValueError).
Proof.
  intros to_g shear fits wgts. unfold fit_original_psfs. split.
  - intro N. apply Z.eqb_neq in N. now rewrite N.
  - intros fs L -> F S. rewrite (proj2 (Z.eqb_eq _ _) L). cbn [negb].
    assert (LM : zlen (map (@Ok psffit) fs) = zlen fs) by (unfold zlen; now rewrite map_length). rewrite LM, lift_combine.
    destruct (psf_loop_good shear (combine (combine (zrange (zlen fs)) fs) wgts) psums0) as (s & E & A & B & _).
    { apply Forall_forall. intros [[z f] w] I. cbn. apply F. apply in_combine_l in I. now apply in_combine_r in I. }
    rewrite E. cbn [psums0 ps_w] in B.
    assert (B' : (ps_w s <= 0)%Q). { rewrite B. eapply Qle_trans; [|exact S]. unfold sum_over. rewrite Qplus_0_l. apply Qle_refl. }
    apply Qle_bool_iff in B'. now rewrite B'.
Qed.
End Task.

Section Exposures.
Import Lexp_model Lexp_spec.
Local Open Scope string_scope.
Local Open Scope Z_scope.
Lemma set_all_same : forall A (d s : img A), nr s = nr d -> nc s = nc d -> 0 <= nr d -> 0 <= nc d -> returns (set_all d s).
Proof.
  intros A d s R C Hr Hc. unfold set_all, assign_slice, returns.
  assert (L : forall n, 0 <= n -> slice_len n 0 n = n) by (intros n Hn; unfold slice_len, norm_bound; intros; cbn [Z.ltb Z.compare]; destruct (n <? 0) eqn:X; [apply Z.ltb_lt in X|]; lia).
  rewrite (L (nr d) Hr), (L (nc d) Hc). unfold bcast_ok. rewrite R, C, !Z.eqb_refl. cbn [orb andb]. eexists. reflexivity.
Qed.
Lemma obs2exp_refusals : forall o name cp, 0 <= nr (o_image o) -> 0 <= nc (o_image o) ->
  (obs2exp o None name cp = Raise RuntimeError <-> name <> "bmask" /\ name <> "ormask") /\
  (obs2exp o None name cp = Raise TypeError <-> (name = "bmask" /\ o_bmask o = None) \/ (name = "ormask" /\ o_ormask o = None)).
Proof.
  intros o name cp Hr Hc. unfold obs2exp.
  destruct (set_all_same _ (ifill (nr (o_image o)) (nc (o_image o)) 0%Q) (o_image o) eq_refl eq_refl Hr Hc) as [im Ei].
  cbn [e_image e_mask]. rewrite Ei. cbn [obind]. unfold mask_of.
  assert (S : forall A (d s : img A) e, set_all d s = Raise e -> e = ValueError).
  { intros A d s e H. unfold set_all, assign_slice in H. destruct (_ && _); [discriminate|]. now inversion H. }
  destruct (String.eqb_spec name "bmask") as [->|N1]; [|destruct (String.eqb_spec name "ormask") as [->|N2]].
  - destruct (o_bmask o) as [m|]; cbn [obind].
    + destruct (set_all _ m) as [x|e] eqn:Em; cbn [obind]; [|apply S in Em; subst e].
      all: split; split; [discriminate|intros [N _]; congruence|discriminate|intros [[_ H]|[H _]]; discriminate].
    + split; split; [discriminate|intros [N _]; congruence|intros _; now left|reflexivity].
  - destruct (o_ormask o) as [m|]; cbn [obind].
    + destruct (set_all _ m) as [x|e] eqn:Em; cbn [obind]; [|apply S in Em; subst e].
      all: split; split; [discriminate|intros [_ N]; congruence|discriminate|intros [[H _]|[_ H]]; discriminate].
    + split; split; [discriminate|intros [_ N]; congruence|intros _; now right|reflexivity].
  - cbn [obind]. split; split; [auto|reflexivity|discriminate|intros [[H _]|[H _]]; congruence].
Qed.

Lemma coadd_refusals : forall os,
  (coadd_mbobs os = Raise ZeroDivisionError <-> os = []) /\
  (coadd_mbobs os = Raise ValueError <-> exists o r, os = o :: r /\ Exists (fun x => ~ same_shapes x o) r) /\
  (returns (coadd_mbobs os) <-> exists o r, os = o :: r /\ Forall (fun x => same_shapes x o) r).
Proof.
  intros [|o0 r].
  - cbn. split; [split|split; split].
    + reflexivity.
    + reflexivity.
    + discriminate.
    + intros (o & r & H & _). discriminate.
    + now intros [x H].
    + intros (o & r & H & _). discriminate.
  - assert (D : forall x, same_shapes x o0 \/ ~ same_shapes x o0).
    { intro x. unfold same_shapes. destruct (shape_dec _ _ (o_image x) (o_image o0)), (shape_dec _ _ (op_image (o_psf x)) (op_image (o_psf o0))); tauto. }
    assert (B : forallb (fun o => same_size (o_image o) (o_image o0) && same_size (op_image (o_psf o)) (op_image (o_psf o0))) (o0 :: r) = true <->
      Forall (fun x => same_shapes x o0) r).
    { rewrite forallb_forall, Forall_forall. unfold same_shapes, same_shape, same_size. split.
      - intros H x I. specialize (H x (or_intror I)). rewrite !andb_true_iff, !Z.eqb_eq in H. tauto.
      - intros H x [<-|I]; rewrite !andb_true_iff, !Z.eqb_eq; [tauto|]. specialize (H x I). tauto. }
    unfold coadd_mbobs. destruct (forallb _ _) eqn:E; cbn [negb].
    + assert (F := proj1 B eq_refl). split; [split|split; split].
      * discriminate.
      * discriminate.
      * discriminate.
      * intros (o & r' & H & X). inversion H; subst o r'. destruct (not_both _ _ _ F X).
      * intros _. exists o0, r. auto.
      * intros _. eexists. reflexivity.
    + assert (X : Exists (fun x => ~ same_shapes x o0) r).
      { destruct (not_all _ _ r D) as [F|X]; [|exact X]. apply B in F. discriminate. }
      split; [split|split; split].
      * discriminate.
      * discriminate.
      * intros _. exists o0, r. auto.
      * reflexivity.
      * now intros [x H].
      * intros (o & r' & H & F). inversion H; subst o r'. destruct (not_both _ _ _ F X).
Qed.

Lemma odd_square_ok : forall im : img Q, odd_square im = true <-> odd_square_image im.
Proof.
  intro im. unfold odd_square, odd_square_image. rewrite andb_true_iff, Z.eqb_eq. rewrite <- Z.bit0_odd, Zmod_odd.
  rewrite Z.bit0_odd. destruct (Z.odd (nr im)); cbn; tauto.
Qed.
Lemma extract_refusals : forall W e sky peak cen,
  ~ Lexp_spec.unusable (pixels (e_var e)) ->
  (extract_obs W e sky peak cen = Raise AttributeError <-> e_wcs e = None \/ e_psf e = None) /\
  (extract_obs W e sky peak cen = Raise AssertionError <-> exists draw, e_wcs e <> None /\ e_psf e = Some draw /\ ~ odd_square_image (draw (fst cen) (snd cen))) /\
  (returns (extract_obs W e sky peak cen) <-> exists draw, e_wcs e <> None /\ e_psf e = Some draw /\ odd_square_image (draw (fst cen) (snd cen))).
Proof.
  intros W e sky peak cen U. rewrite <- (Lexp_proofs.extract_obs_zero_iff W e sky peak cen) in U.
  unfold extract_obs in *. destruct (forallb _ _); [congruence|]. clear U. unfold get_jacobian, some_or_attr.
  destruct (e_wcs e) as [w|]; cbn [obind].
  - destruct (e_psf e) as [draw|]; cbn [obind].
    + assert (O := odd_square_ok (draw (fst cen) (snd cen))). destruct (odd_square _); cbn [negb]; (split; [split|split; split]).
      * discriminate.
      * intros [H|H]; discriminate.
      * discriminate.
      * intros (d & _ & H & N). apply Some_inj in H. subst d. exfalso. apply N, O. reflexivity.
      * intros _. exists draw. split; [discriminate|]. split; [reflexivity|]. now apply O.
      * intros _. eexists. reflexivity.
      * discriminate.
      * intros [H|H]; discriminate.
      * intros _. exists draw. split; [discriminate|]. split; [reflexivity|]. intro N. apply O in N. discriminate.
      * reflexivity.
      * now intros [x H].
      * intros (d & _ & H & N). apply Some_inj in H. subst d. apply O in N. discriminate.
    + split; [split|split; split].
      * auto.
      * reflexivity.
      * discriminate.
      * intros (d & _ & H & _). discriminate.
      * now intros [x H].
      * intros (d & _ & H & _). discriminate.
  - split; [split|split; split].
    + auto.
    + reflexivity.
    + discriminate.
    + intros (d & H & _). congruence.
    + now intros [x H].
    + intros (d & H & _). congruence.
Qed.
End Exposures.

Section Runs.
Import Lexp_model Lmdet_model Lmeas_model Lrun_model.
Lemma lsst_run_refusals : forall Prof (R : mrun Prof) user names bands noise mfracs ormasks ps,
  (exists names' bands' noise' mfracs' ormasks' ps' r', snd (run_metadetect R user names' bands' noise' mfracs' ormasks' ps') = Ok r') ->
  let run := run_metadetect R user names bands noise mfracs ormasks ps in
  (bands = [] -> ormasks = None -> run = (bands, Raise IndexError)) /\
  (ormasks = Some [] -> run = (bands, Raise UnboundLocalError)) /\
  ((exists m r, ormasks = Some (m :: r) /\ Exists (fun x => ~ same_shape m x) r) -> run = (bands, Raise ValueError)) /\
  ((exists m r, ormasks = Some (m :: r) /\ Forall (same_shape m) r) \/ (bands <> [] /\ ormasks = None) ->
     (mfracs = None -> run = (bands, Raise TypeError)) /\
     (mfracs = Some [] \/ (mfracs <> None /\ bands = []) -> run = (bands, Raise ZeroDivisionError)) /\
     ((exists e es m ms, bands = e :: es /\ mfracs = Some (m :: ms) /\ Exists (unusable_pair m) (combine (map e_var bands) (m :: ms))) ->
        run = (bands, Raise ValueError))).
Proof.
  intros Prof R user names bands noise mfracs ormasks ps (n' & b' & no' & mf' & om' & p' & r' & H) run.
  assert (S : exists s, read_config R user = Ok s).
  { unfold run_metadetect in H. destruct (read_config R user) as [s|x]; [eauto|]. cbn in H. discriminate. }
  clear H. destruct S as [s S]. subst run. unfold run_metadetect. rewrite S. cbn [obind].
  split; [|split; [|split]].
  - intros -> ->. reflexivity.
  - intros ->. reflexivity.
  - intros X. pose proof (proj2 (proj2 (proj2 (ormasks_refusals (0, 0) ormasks))) X) as E.
    destruct X as (m & r & -> & _). rewrite E. reflexivity.
  - intro G.
    set (o := match ormasks with Some l => combine_ormasks (0, 0) (Some l) | None => match bands with [] => Raise IndexError | e :: _ => combine_ormasks (nr (e_image e), nc (e_image e)) None end end).
    assert (O : exists om, o = Ok om).
    { destruct G as [(m & r & -> & F)|[N ->]].
      - subst o. apply (proj1 (ormasks_refusals (0, 0) (Some (m :: r)))). right. eauto.
      - subst o. destruct bands as [|e es]; [congruence|]. apply (proj1 (ormasks_refusals (nr (e_image e), nc (e_image e)) None)). now left. }
    destruct O as [om O]. fold o. rewrite O. cbn [obind]. split; [|split].
    + intros ->. reflexivity.
    + intro X. assert (E : get_mfrac_mbexp (map e_var bands) mfracs = Raise ZeroDivisionError).
      { apply (proj1 (proj2 (mfracs_refusals _ _))). destruct X as [->|[X ->]]; [split; [discriminate|now left]|split; [exact X|now right]]. }
      rewrite E. reflexivity.
    + intros (e & es & m & ms & -> & -> & X).
      assert (E : get_mfrac_mbexp (map e_var (e :: es)) (Some (m :: ms)) = Raise ValueError).
      { apply (proj1 (proj2 (proj2 (mfracs_refusals _ _)))). exists (e_var e), (map e_var es), m, ms. auto. }
      rewrite E. reflexivity.
Qed.
End Runs.

Section Photometry.
Import Dict Lexp_model Lmdet_model Lmeas_model Lutil_model Lphot_model.
Lemma phot_run_refusals : forall P h user names bands mfracs ormasks,
  (exists names' bands' mfracs' ormasks' r', snd (run_photometry P h user names' bands' mfracs' ormasks') = Ok r') ->
  let run := run_photometry P h user names bands mfracs ormasks in
  (bands = [] -> ormasks = None -> snd run = Raise IndexError) /\
  (ormasks = Some [] -> snd run = Raise UnboundLocalError) /\
  ((exists m r, ormasks = Some (m :: r) /\ Exists (fun x => ~ same_shape m x) r) -> snd run = Raise ValueError) /\
  ((exists m r, ormasks = Some (m :: r) /\ Forall (same_shape m) r) \/ (bands <> [] /\ ormasks = None) ->
     (mfracs = None -> snd run = Raise TypeError) /\
     (mfracs = Some [] \/ (mfracs <> None /\ bands = []) -> snd run = Raise ZeroDivisionError) /\
     ((exists e es m ms, bands = e :: es /\ mfracs = Some (m :: ms) /\ Exists (unusable_pair m) (combine (map e_var bands) (m :: ms))) ->
        snd run = Raise ValueError)).
Proof.
  intros P h user names bands mfracs ormasks (n' & b' & mf' & om' & r' & H) run.
  subst run. unfold run_photometry in *. destruct (get_config h user) as [h' [cfg|x]]; [|cbn in H; discriminate]. clear H.
  split; [|split; [|split]].
  - intros -> ->. reflexivity.
  - intros ->. reflexivity.
  - intros X. pose proof (proj2 (proj2 (proj2 (ormasks_refusals (0, 0) ormasks))) X) as E.
    destruct X as (m & r & -> & _). rewrite E. reflexivity.
  - intro G.
    set (o := match ormasks with Some l => combine_ormasks (0, 0) (Some l) | None => match bands with [] => Raise IndexError | e :: _ => combine_ormasks (nr (e_image e), nc (e_image e)) None end end).
    assert (O : exists om, o = Ok om).
    { destruct G as [(m & r & -> & F)|[N ->]].
      - subst o. apply (proj1 (ormasks_refusals (0, 0) (Some (m :: r)))). right. eauto.
      - subst o. destruct bands as [|e es]; [congruence|]. apply (proj1 (ormasks_refusals (nr (e_image e), nc (e_image e)) None)). now left. }
    destruct O as [om O]. fold o. rewrite O. cbn [obind]. split; [|split].
    + intros ->. reflexivity.
    + intro X. assert (E : get_mfrac_mbexp (map e_var bands) mfracs = Raise ZeroDivisionError).
      { apply (proj1 (proj2 (mfracs_refusals _ _))). destruct X as [->|[X ->]]; [split; [discriminate|now left]|split; [exact X|now right]]. }
      rewrite E. reflexivity.
    + intros (e & es & m & ms & -> & -> & X).
      assert (E : get_mfrac_mbexp (map e_var (e :: es)) (Some (m :: ms)) = Raise ValueError).
      { apply (proj1 (proj2 (proj2 (mfracs_refusals _ _)))). exists (e_var e), (map e_var es), m, ms. auto. }
      rewrite E. reflexivity.
Qed.
Lemma stamp_refusals : forall b peaks size clip,
  (get_bbox b peaks size clip = Raise IndexError <-> peaks = []) /\
  (get_bbox b peaks size clip = Raise LengthError -> clip = false) /\
  (forall e, get_bbox b peaks size clip = Raise e -> e = IndexError \/ e = LengthError).
Proof.
  intros b [|[x y] r] size clip; unfold get_bbox.
  - split; [split; reflexivity|]. split; [discriminate|]. intros e H. inversion H. auto.
  - destruct clip; [|destruct (contains_box b _)].
    all: split; [split; discriminate|]; split; [try discriminate; reflexivity|]. all: intros e H; try discriminate. inversion H. auto.
Qed.
End Photometry.
