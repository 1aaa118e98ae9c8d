From Coq Require Import ZArith Reals List String Bool Lia Lra.
From Verif Require Import Base Arr Dict Masking_model Masking_spec Masking_proofs Lmask_model Lmask_spec.
Import ListNotations.
Local Open Scope Z_scope.

(** ** Dictionaries changed key by key *)
Definition dmods {V} (f : V -> V) (l : list string) (d : list (string * V)) : list (string * V) :=
  fold_left (fun d k => match sget k d with Some v => sput k (f v) d | None => d end) l d.

Lemma skeys_sput : forall V k (v : V) d, In k (skeys d) -> skeys (sput k v d) = skeys d.
Proof.
  intros V k v d. induction d as [|[a w] d IH]; cbn; [tauto|]. intros H.
  destruct (String.eqb_spec k a) as [->|N]; cbn; [reflexivity|]. f_equal. apply IH. destruct H; [congruence|auto].
Qed.
Lemma dmods_keys : forall V (f : V -> V) l d, skeys (dmods f l d) = skeys d.
Proof.
  intros V f l. unfold dmods. induction l as [|k l IH]; intros d; cbn [fold_left]; [reflexivity|]. rewrite IH.
  destruct (sget k d) as [v|] eqn:E; [|reflexivity]. apply skeys_sput. apply sget_In. eauto.
Qed.
Lemma dmods_get : forall V (f : V -> V) l d k, NoDup l ->
  sget k (dmods f l d) = if smem k l then option_map f (sget k d) else sget k d.
Proof.
  intros V f l. unfold dmods. induction l as [|a l IH]; intros d k N; cbn [fold_left]; [reflexivity|]. inversion N; subst.
  rewrite IH by auto. unfold smem. cbn [existsb]. fold (smem k l).
  destruct (String.eqb_spec k a) as [->|Ne]; cbn [orb].
  - assert (E : smem a l = false) by (apply smem_false; auto). rewrite E.
    destruct (sget a d) as [v|] eqn:Ev; [rewrite sget_put, String.eqb_refl; reflexivity|rewrite Ev; reflexivity].
  - assert (G : sget k match sget a d with Some v => sput a (f v) d | None => d end = sget k d).
    { destruct (sget a d) as [v|]; [|reflexivity]. rewrite sget_put. apply String.eqb_neq in Ne. rewrite Ne. reflexivity. }
    rewrite G. reflexivity.
Qed.
Lemma dmod_ok : forall V (f : V -> V) k d d', dmod f k d = Ok d' -> In k (skeys d) /\ d' = dmods f [k] d.
Proof.
  intros V f k d d'. unfold dmod, dget, dmods. cbn. destruct (sget k d) as [v|] eqn:E; cbn; [|discriminate].
  intros H. apply Ok_inj in H. split; [apply sget_In; eauto|auto].
Qed.
Lemma dmod_total : forall V (f : V -> V) k d, In k (skeys d) -> dmod f k d = Ok (dmods f [k] d).
Proof. intros V f k d H. apply sget_In in H. destruct H as [v E]. unfold dmod, dget, dmods. cbn. rewrite E. reflexivity. Qed.
Lemma dmod_opt_ok : forall V (f : V -> V) k d d', dmod_opt f k d = Ok d' -> d' = option_map (dmods f [k]) d.
Proof.
  intros V f k [d|] d'; cbn.
  - destruct (dmod f k d) as [e|] eqn:E; cbn; [|discriminate]. intros H. apply Ok_inj in H. subst d'. apply dmod_ok in E. destruct E as [_ ->]. reflexivity.
  - intros H. apply Ok_inj in H. auto.
Qed.
Lemma dmod_opt_total : forall V (f : V -> V) k d, (forall x, d = Some x -> In k (skeys x)) -> dmod_opt f k d = Ok (option_map (dmods f [k]) d).
Proof. intros V f k [d|] H; cbn; [|reflexivity]. rewrite dmod_total by (apply H; reflexivity). reflexivity. Qed.
Lemma dmods_cons : forall V (f : V -> V) k l d, dmods f (k :: l) d = dmods f l (dmods f [k] d).
Proof. reflexivity. Qed.
Lemma option_map_map : forall A B C (f : B -> C) (g : A -> B) o, option_map f (option_map g o) = option_map (fun a => f (g a)) o.
Proof. intros A B C f g [a|]; reflexivity. Qed.
Lemma option_map_id : forall A (f : A -> A) o, (forall a, f a = a) -> option_map f o = o.
Proof. intros A f [a|] H; cbn; [rewrite H|]; reflexivity. Qed.

Fixpoint iter {A} (n : nat) (f : A -> A) (a : A) : A := match n with O => a | S n => iter n f (f a) end.

(** ** The loops *)
Section Over.
Variables (ap : img R) (msk : img bool) (bit : Z).
Let fe := apodize_exp ap msk bit.
Let fm := upd_where msk (fun _ _ (_ : R) => 1%R).
Let fo := upd_where msk (fun _ _ v => Z.lor v bit).
Definition apodized_world (l : list string) (w : world) : world :=
  mkWorld (dmods fe l (w_exp w)) (option_map (dmods fe l) (w_noise w)) (option_map (dmods fm l) (w_mfrac w))
    (option_map (map (iter (List.length l) fo)) (w_ormasks w)).
Lemma apodize_band_ok : forall w b w', apodize_band ap msk bit w b = Ok w' -> w' = apodized_world [b] w.
Proof.
  intros w b w'. unfold apodize_band. destruct (dmod (apodize_exp ap msk bit) b (w_exp w)) as [e|] eqn:E1; cbn [obind]; [|discriminate].
  destruct (dmod_opt (apodize_exp ap msk bit) b (w_noise w)) as [n|] eqn:E2; cbn [obind]; [|discriminate].
  destruct (dmod_opt (upd_where msk (fun _ _ _ => 1%R)) b (w_mfrac w)) as [m|] eqn:E3; cbn [obind]; [|discriminate].
  intros H. apply Ok_inj in H. subst w'. apply dmod_ok in E1. apply dmod_opt_ok in E2. apply dmod_opt_ok in E3.
  destruct E1 as [_ ->]. subst n m. reflexivity.
Qed.
Lemma apodize_over : forall l w w', over (apodize_band ap msk bit) l w = Ok w' -> w' = apodized_world l w.
Proof.
  induction l as [|b l IH]; intros w w' H; cbn [over] in H.
  - apply Ok_inj in H. subst w'. unfold apodized_world. cbn [List.length iter dmods fold_left].
    rewrite !option_map_id; [destruct w; reflexivity| | |]; auto. intros a. apply map_id.
  - destruct (apodize_band ap msk bit w b) as [w1|] eqn:E; cbn [obind] in H; [|discriminate].
    apply IH in H. apply apodize_band_ok in E. subst w1 w'. unfold apodized_world. cbn [w_exp w_noise w_mfrac w_ormasks].
    rewrite !option_map_map. f_equal. destruct (w_ormasks w) as [o|]; cbn; [|reflexivity]. f_equal. rewrite map_map. reflexivity.
Qed.
Lemma apodize_total : forall l w, incl l (skeys (w_exp w)) -> (forall d, w_noise w = Some d -> incl l (skeys d)) ->
  (forall d, w_mfrac w = Some d -> incl l (skeys d)) -> exists w', over (apodize_band ap msk bit) l w = Ok w'.
Proof.
  induction l as [|b l IH]; intros w H1 H2 H3; cbn [over]; [eauto|].
  assert (E : apodize_band ap msk bit w b = Ok (apodized_world [b] w)).
  { unfold apodize_band. rewrite dmod_total by (apply H1; left; reflexivity). cbn [obind].
    rewrite dmod_opt_total by (intros x Hx; apply (H2 x Hx); left; reflexivity). cbn [obind].
    rewrite dmod_opt_total by (intros x Hx; apply (H3 x Hx); left; reflexivity). reflexivity. }
  rewrite E. cbn [obind]. unfold apodized_world. apply IH; cbn [w_exp w_noise w_mfrac].
  - rewrite dmods_keys. intros x Hx. apply H1. right. exact Hx.
  - intros d Hd. destruct (w_noise w) as [n|]; [|discriminate]. apply Some_inj in Hd. subst d. rewrite dmods_keys.
    intros x Hx. apply (H2 n eq_refl). right. exact Hx.
  - intros d Hd. destruct (w_mfrac w) as [n|]; [|discriminate]. apply Some_inj in Hd. subst d. rewrite dmods_keys.
    intros x Hx. apply (H3 n eq_refl). right. exact Hx.
Qed.
End Over.
Section Over2.
Variable bm : img Z.
Let fe := expand_exp bm.
Let fo := fun o => imap2 Z.lor o bm.
Definition expanded_world (l : list string) (w : world) : world :=
  mkWorld (dmods fe l (w_exp w)) (option_map (dmods fe l) (w_noise w)) (w_mfrac w)
    (option_map (map (iter (List.length l) fo)) (w_ormasks w)).
Lemma expand_band_ok : forall w b w', expand_band bm w b = Ok w' -> w' = expanded_world [b] w.
Proof.
  intros w b w'. unfold expand_band. destruct (dmod (expand_exp bm) b (w_exp w)) as [e|] eqn:E1; cbn [obind]; [|discriminate].
  destruct (dmod_opt (expand_exp bm) b (w_noise w)) as [n|] eqn:E2; cbn [obind]; [|discriminate].
  intros H. apply Ok_inj in H. subst w'. apply dmod_ok in E1. apply dmod_opt_ok in E2.
  destruct E1 as [_ ->]. subst n. reflexivity.
Qed.
Lemma expand_over : forall l w w', over (expand_band bm) l w = Ok w' -> w' = expanded_world l w.
Proof.
  induction l as [|b l IH]; intros w w' H; cbn [over] in H.
  - apply Ok_inj in H. subst w'. unfold expanded_world. cbn [List.length iter dmods fold_left].
    rewrite !option_map_id; [destruct w; reflexivity| |]; auto. intros a. apply map_id.
  - destruct (expand_band bm w b) as [w1|] eqn:E; cbn [obind] in H; [|discriminate].
    apply IH in H. apply expand_band_ok in E. subst w1 w'. unfold expanded_world. cbn [w_exp w_noise w_mfrac w_ormasks].
    rewrite !option_map_map. f_equal. destruct (w_ormasks w) as [o|]; cbn; [|reflexivity]. f_equal. rewrite map_map. reflexivity.
Qed.
Lemma expand_total : forall l w, incl l (skeys (w_exp w)) -> (forall d, w_noise w = Some d -> incl l (skeys d)) ->
  exists w', over (expand_band bm) l w = Ok w'.
Proof.
  induction l as [|b l IH]; intros w H1 H2; cbn [over]; [eauto|].
  assert (E : expand_band bm w b = Ok (expanded_world [b] w)).
  { unfold expand_band. rewrite dmod_total by (apply H1; left; reflexivity). cbn [obind].
    rewrite dmod_opt_total by (intros x Hx; apply (H2 x Hx); left; reflexivity). reflexivity. }
  rewrite E. cbn [obind]. unfold expanded_world. apply IH; cbn [w_exp w_noise].
  - rewrite dmods_keys. intros x Hx. apply H1. right. exact Hx.
  - intros d Hd. destruct (w_noise w) as [n|]; [|discriminate]. apply Some_inj in Hd. subst d. rewrite dmods_keys.
    intros x Hx. apply (H2 n eq_refl). right. exact Hx.
Qed.
End Over2.

(** ** Relations *)
Lemma dict_rel_dmods : forall V (f : V -> V) (S : V -> V -> Prop) l d, NoDup l ->
  (forall k v, In k l -> sget k d = Some v -> S v (f v)) -> dict_rel l S d (dmods f l d).
Proof.
  intros V f S l d N H. split; [apply dmods_keys|]. split.
  - intros k v Hk E. exists (f v). rewrite dmods_get by auto. assert (Hm : smem k l = true) by (apply smem_In; auto).
    rewrite Hm, E. split; [reflexivity|eauto].
  - intros k Hk. rewrite dmods_get by auto. apply smem_false in Hk. rewrite Hk. reflexivity.
Qed.
Lemma dict_rel_trans : forall V (S T U : V -> V -> Prop) l a b c, (forall x y z, S x y -> T y z -> U x z) ->
  dict_rel l S a b -> dict_rel l T b c -> dict_rel l U a c.
Proof.
  intros V S T U l a b c H [K1 [V1 O1]] [K2 [V2 O2]]. split; [congruence|]. split.
  - intros k v Hk E. destruct (V1 k v Hk E) as [v1 [E1 S1]]. destruct (V2 k v1 Hk E1) as [v2 [E2 S2]]. eauto.
  - intros k Hk. rewrite O2, O1 by auto. reflexivity.
Qed.
Lemma sget_pair : forall V k (v : V) d, sget k d = Some v -> In (k, v) d.
Proof.
  intros V k v d. induction d as [|[a w] d IH]; cbn; [discriminate|]. destruct (String.eqb_spec k a) as [->|N]; [|auto].
  intros H. apply Some_inj in H. subst. auto.
Qed.
Lemma dict_rel_refl : forall V (S : V -> V -> Prop) l d, (forall k v, In (k, v) d -> S v v) -> dict_rel l S d d.
Proof. intros V S l d H. split; [reflexivity|]. split; [|reflexivity]. intros k v _ E. exists v. split; [exact E|]. apply (H k). apply sget_pair. exact E. Qed.

Lemma upd_iter : forall msk bit n m i j,
  nr (iter n (upd_where msk (fun _ _ v => Z.lor v bit)) m) = nr m /\ nc (iter n (upd_where msk (fun _ _ v => Z.lor v bit)) m) = nc m /\
  px (iter n (upd_where msk (fun _ _ v => Z.lor v bit)) m) i j = if (0 <? Z.of_nat n) && px msk i j then Z.lor (px m i j) bit else px m i j.
Proof.
  intros msk bit n. induction n as [|n IH]; intros m i j; cbn [iter]; [cbn; auto|].
  destruct (IH (upd_where msk (fun _ _ v => Z.lor v bit) m) i j) as [A [B C]]. rewrite A, B, C. split; [reflexivity|split; [reflexivity|]].
  replace (0 <? Z.of_nat (S n)) with true by (symmetry; apply Z.ltb_lt; lia). cbn [andb upd_where px].
  destruct (0 <? Z.of_nat n), (px msk i j); cbn; try reflexivity. rewrite <- Z.lor_assoc, Z.lor_diag. reflexivity.
Qed.
Lemma lor_iter : forall bm n m i j,
  nr (iter n (fun o => imap2 Z.lor o bm) m) = nr m /\ nc (iter n (fun o => imap2 Z.lor o bm) m) = nc m /\
  px (iter n (fun o => imap2 Z.lor o bm) m) i j = if 0 <? Z.of_nat n then Z.lor (px m i j) (px bm i j) else px m i j.
Proof.
  intros bm n. induction n as [|n IH]; intros m i j; cbn [iter]; [cbn; auto|].
  destruct (IH (imap2 Z.lor m bm) i j) as [A [B C]]. rewrite A, B, C. split; [reflexivity|split; [reflexivity|]].
  replace (0 <? Z.of_nat (S n)) with true by (symmetry; apply Z.ltb_lt; lia). cbn [imap2 px].
  destruct (0 <? Z.of_nat n); [|reflexivity]. rewrite <- Z.lor_assoc, Z.lor_diag. reflexivity.
Qed.

Section Rel.
Variables (r c : Z) (a : Z -> Z -> R) (ap : img R) (bit : Z).
Hypotheses (Hr : nr ap = r) (Hc : nc ap = c) (Ha : forall i j, 0 <= i < r -> 0 <= j < c -> px ap i j = a i j).
Hypothesis (Hle : forall i j, 0 <= i < r -> 0 <= j < c -> (0 <= a i j <= 1)%R).
Let msk := imap (fun v => Rltb v 1) ap.
Let none (i j : Z) := 0.

Lemma msk_true : forall i j, 0 <= i < r -> 0 <= j < c -> px msk i j = true <-> (a i j < 1)%R.
Proof. intros i j Hi Hj. unfold msk. cbn. rewrite Rltb_spec, Ha by auto. tauto. Qed.
Lemma msk_cases : forall i j, 0 <= i < r -> 0 <= j < c ->
  (px msk i j = true /\ (a i j < 1)%R) \/ (px msk i j = false /\ ~ (a i j < 1)%R /\ a i j = 1%R).
Proof.
  intros i j Hi Hj. destruct (px msk i j) eqn:E.
  - left. split; [reflexivity|]. apply msk_true; auto.
  - right. split; [reflexivity|]. assert (N : ~ (a i j < 1)%R) by (rewrite <- msk_true by auto; congruence).
    split; [exact N|]. specialize (Hle i j Hi Hj). lra.
Qed.
Lemma apodize_exp_rel : forall e, exp_shape r c e -> masked_exp r c a bit none e (apodize_exp ap msk bit e).
Proof.
  intros e [[A1 A2] [[B1 B2] [C1 C2]]]. split; [repeat split; cbn; assumption|]. intros i j Hi Hj. unfold apodize_exp, upd_where, none. cbn [e_image e_var e_mask px].
  destruct (msk_cases i j Hi Hj) as [[E L]|[E [L E1]]]; rewrite E.
  - rewrite Ha by auto. rewrite !Z.lor_0_r. split; [reflexivity|]. tauto.
  - rewrite E1 in *. rewrite !Z.lor_0_r. split; [ring|]. tauto.
Qed.
Lemma mfrac_rel : forall m, has_shape r c m -> masked_mfrac r c a m (upd_where msk (fun _ _ _ => 1%R) m).
Proof.
  intros m [A1 A2]. split; [split; cbn; assumption|]. intros i j Hi Hj. cbn [upd_where px].
  destruct (msk_cases i j Hi Hj) as [[E L]|[E [L E1]]]; rewrite E; tauto.
Qed.
Lemma ormask_rel : forall n m, (0 < n)%nat -> has_shape r c m -> masked_ormask r c a bit none m (iter n (upd_where msk (fun _ _ v => Z.lor v bit)) m).
Proof.
  intros n m Hn [A1 A2]. split.
  - destruct (upd_iter msk bit n m 0 0) as [B1 [B2 _]]. split; congruence.
  - intros i j Hi Hj. destruct (upd_iter msk bit n m i j) as [_ [_ B]]. rewrite B. unfold none. rewrite !Z.lor_0_r.
    replace (0 <? Z.of_nat n) with true by (symmetry; apply Z.ltb_lt; lia). cbn [andb].
    destruct (msk_cases i j Hi Hj) as [[E L]|[E [L E1]]]; rewrite E; tauto.
Qed.
Lemma all_one : img_any (fun b => b) msk = false -> forall i j, 0 <= i < r -> 0 <= j < c -> a i j = 1%R /\ ~ (a i j < 1)%R.
Proof.
  intros H i j Hi Hj. destruct (msk_cases i j Hi Hj) as [[E L]|[E [L E1]]]; [|auto].
  assert (X : img_any (fun b => b) msk = true).
  { apply img_any_spec. exists i, j. split; [|exact E]. unfold inside, msk. cbn. rewrite Hr, Hc. auto. }
  congruence.
Qed.

Lemma apodize_all_spec : forall w, world_ok r c w -> exists w', apodize_all ap bit w = Ok w' /\ masked_world r c a bit none w w'.
Proof.
  intros w [Hne [Nd [Se [Sn [Sm So]]]]]. unfold apodize_all. fold msk. destruct (img_any (fun b => b) msk) eqn:Ea.
  - destruct (apodize_total ap msk bit (skeys (w_exp w)) w) as [w' E].
    { apply incl_refl. } { intros d Hd. apply (Sn d Hd). } { intros d Hd. apply (Sm d Hd). }
    exists w'. split; [exact E|]. apply apodize_over in E. subst w'. unfold masked_world, apodized_world. cbn [w_exp w_noise w_mfrac w_ormasks].
    split; [|split; [|split]].
    + apply dict_rel_dmods; auto. intros k v _ Hv. apply apodize_exp_rel. apply (Se k). apply sget_pair. exact Hv.
    + destruct (w_noise w) as [d|]; cbn; [|exact I]. apply dict_rel_dmods; auto. intros k v _ Hv. apply apodize_exp_rel.
      apply (proj2 (proj2 (Sn d eq_refl)) k). apply sget_pair. exact Hv.
    + destruct (w_mfrac w) as [d|]; cbn; [|exact I]. apply dict_rel_dmods; auto. intros k v _ Hv. apply mfrac_rel.
      apply (proj2 (proj2 (Sm d eq_refl)) k). apply sget_pair. exact Hv.
    + destruct (w_ormasks w) as [l|] eqn:El; cbn; [|exact I]. specialize (So l eq_refl).
      assert (Hn : (0 < List.length (skeys (w_exp w)))%nat) by (destruct (w_exp w); [congruence|cbn; lia]). revert Hn. generalize (List.length (skeys (w_exp w))).
      intros n Hn. clear El. induction l as [|m l IH]; cbn; constructor; [apply ormask_rel; [exact Hn|apply So; left; reflexivity]|].
      apply IH. intros x Hx. apply So. right. exact Hx.
  - exists w. split; [reflexivity|]. assert (A1 := all_one Ea).
    assert (Re : forall e, exp_shape r c e -> masked_exp r c a bit none e e).
    { intros e He. split; [exact He|]. intros i j Hi Hj. destruct (A1 i j Hi Hj) as [E L]. rewrite E in *. unfold none. rewrite !Z.lor_0_r.
      split; [ring|]. tauto. }
    unfold masked_world. split; [|split; [|split]].
    + apply dict_rel_refl. intros k v Hv. apply Re. eapply Se; eauto.
    + destruct (w_noise w) as [d|]; cbn; [|exact I]. apply dict_rel_refl. intros k v Hv. apply Re. eapply (proj2 (proj2 (Sn d eq_refl))); eauto.
    + destruct (w_mfrac w) as [d|]; cbn; [|exact I]. apply dict_rel_refl. intros k v Hv. split; [eapply (proj2 (proj2 (Sm d eq_refl))); eauto|].
      intros i j Hi Hj. destruct (A1 i j Hi Hj). tauto.
    + destruct (w_ormasks w) as [l|] eqn:El; cbn; [|exact I]. specialize (So l eq_refl). clear El. induction l as [|m l IH]; constructor.
      * split; [apply So; left; reflexivity|]. intros i j Hi Hj. destruct (A1 i j Hi Hj). unfold none. rewrite !Z.lor_0_r. tauto.
      * apply IH. intros x Hx. apply So. right. exact Hx.
Qed.
End Rel.

(** The shapes and keys after masking. *)
Lemma masked_world_ok : forall r c a bit extra w w', world_ok r c w -> masked_world r c a bit extra w w' -> world_ok r c w'.
Proof.
  intros r c a bit extra w w' [Hne [Nd [Se [Sn [Sm So]]]]] [He [Hn [Hm Ho]]]. destruct He as [K [V O]].
  assert (D : forall V0 (sh : V0 -> Prop) (S : V0 -> V0 -> Prop) (keys : list string) d d', NoDup (skeys d) -> (forall x y, S x y -> sh y) ->
    (forall b e, In (b, e) d -> sh e) -> dict_rel keys S d d' -> forall b e, In (b, e) d' -> sh e).
  { intros V0 sh S keys d d' N HS Hd [K' [V' O']] b e Hb.
    assert (Eb : sget b d' = Some e).
    { rewrite <- K' in N. clear - N Hb. induction d' as [|[k v] d' IH]; cbn in *; [destruct Hb|]. inversion N; subst.
      destruct Hb as [Hb|Hb]; [rewrite pair_equal_spec in Hb; destruct Hb as [<- <-]; rewrite String.eqb_refl; reflexivity|].
      destruct (String.eqb_spec b k) as [->|Ne]; [|auto]. destruct H1. change k with (fst (k, e)). apply in_map. exact Hb. }
    destruct (in_dec string_dec b keys) as [Hk|Hk].
    - assert (Hin : In b (skeys d)) by (rewrite <- K'; apply sget_In; eauto). apply sget_In in Hin. destruct Hin as [v Ev].
      destruct (V' b v Hk Ev) as [v' [E1 S1]]. rewrite Eb in E1. apply Some_inj in E1. subst v'. eauto.
    - rewrite O' in Eb by exact Hk. apply sget_pair in Eb. eauto. }
  split; [destruct (w_exp w'); [cbn in K; destruct (w_exp w); [congruence|discriminate]|discriminate]|].
  split; [rewrite K; exact Nd|]. split; [|split; [|split]].
  - eapply (D _ (exp_shape r c)); [exact Nd| |exact Se|split; [exact K|split; [exact V|exact O]]]. intros x y [H _]. exact H.
  - intros d' Hd'. rewrite Hd' in Hn. destruct (w_noise w) as [d|]; cbn in Hn; [|destruct Hn]. destruct (Sn d eq_refl) as [S1 [S2 S3]].
    assert (Kd := proj1 Hn). rewrite K, Kd. split; [exact S1|split; [exact S2|]].
    eapply (D _ (exp_shape r c)); [exact S2| |exact S3|exact Hn]. intros x y [H _]. exact H.
  - intros d' Hd'. rewrite Hd' in Hm. destruct (w_mfrac w) as [d|]; cbn in Hm; [|destruct Hm]. destruct (Sm d eq_refl) as [S1 [S2 S3]].
    assert (Kd := proj1 Hm). rewrite K, Kd. split; [exact S1|split; [exact S2|]].
    eapply (D _ (has_shape r c)); [exact S2| |exact S3|exact Hm]. intros x y [H _]. exact H.
  - intros l' Hl'. rewrite Hl' in Ho. destruct (w_ormasks w) as [l|]; cbn in Ho; [|destruct Ho]. clear - Ho.
    induction Ho as [|x y l l' [H _] F IH]; intros m []; subst; auto.
Qed.

(** Adding the expanded mask. *)
Lemma expand_spec : forall r c a bit (extra : Z -> Z -> Z) bm w w1, world_ok r c w ->
  masked_world r c a bit (fun _ _ => 0) w w1 ->
  (forall i j, 0 <= i < r -> 0 <= j < c -> px bm i j = extra i j) ->
  exists w', (if img_any (fun z => negb (z =? 0)) bm then over (expand_band bm) (skeys (w_exp w1)) w1 else Ok w1) = Ok w' /\
  (nr bm = r -> nc bm = c -> masked_world r c a bit extra w w').
Proof.
  intros r c a bit extra bm w w1 Hw H1 Hx. assert (Hw1 := masked_world_ok _ _ _ _ _ _ _ Hw H1).
  destruct H1 as [He [Hn [Hm Ho]]]. assert (K := proj1 He).
  assert (X : forall m, Z.lor m 0 = m) by (intros; apply Z.lor_0_r).
  destruct (img_any (fun z => negb (z =? 0)) bm) eqn:Ea.
  - destruct Hw1 as [Hne [Nd [Se [Sn [Sm So]]]]].
    destruct (expand_total bm (skeys (w_exp w1)) w1 (incl_refl _)) as [w' E]; [intros d Hd; apply (Sn d Hd)|].
    exists w'. split; [exact E|]. intros Hr Hc. apply expand_over in E. subst w'. unfold masked_world, expanded_world. cbn [w_exp w_noise w_mfrac w_ormasks].
    assert (Tr : forall x y z, masked_exp r c a bit (fun _ _ => 0) x y -> (exp_shape r c y /\ z = expand_exp bm y) -> masked_exp r c a bit extra x z).
    { intros x y z [S1 V1] [S2 ->]. split; [destruct S2 as [A [B C]]; split; [exact A|split; [exact B|split; cbn; apply C]]|].
      intros i j Hi Hj. destruct (V1 i j Hi Hj) as [A [B C]]. cbn [expand_exp e_image e_var e_mask imap2 px]. rewrite Hx by auto.
      split; [exact A|]. split.
      - intros L. destruct (B L) as [B1 B2]. split; [exact B1|]. rewrite B2, X. reflexivity.
      - intros L. destruct (C L) as [B1 B2]. split; [exact B1|]. rewrite B2, X. reflexivity. }
    rewrite K. split; [|split; [|split]].
    + eapply dict_rel_trans; [exact Tr|exact He|]. rewrite <- K. apply dict_rel_dmods; auto.
      intros k v _ Hv. split; [apply (Se k); apply sget_pair; exact Hv|reflexivity].
    + destruct (w_noise w) as [d|]; destruct (w_noise w1) as [d1|]; cbn in Hn |- *; try tauto.
      eapply dict_rel_trans; [exact Tr|exact Hn|]. apply dict_rel_dmods; [rewrite <- K; exact Nd|].
      intros k v _ Hv. split; [apply (proj2 (proj2 (Sn d1 eq_refl)) k); apply sget_pair; exact Hv|reflexivity].
    + exact Hm.
    + destruct (w_ormasks w) as [l|]; destruct (w_ormasks w1) as [l1|] eqn:El1; cbn in Ho |- *; try tauto.
      assert (Hn0 : (0 < List.length (skeys (w_exp w)))%nat).
      { rewrite <- K. destruct (w_exp w1); [congruence|cbn; lia]. }
      revert Hn0. generalize (List.length (skeys (w_exp w))). intros n Hn0. specialize (So l1 eq_refl). clear El1.
      induction Ho as [|x y l l1 [S1 V1] F IH]; cbn; constructor.
      * destruct (lor_iter bm n y 0 0) as [L1 [L2 _]]. destruct S1 as [S1 S2]. split; [split; congruence|].
        intros i j Hi Hj. destruct (lor_iter bm n y i j) as [_ [_ L3]]. rewrite L3. destruct (V1 i j Hi Hj) as [A B].
        replace (0 <? Z.of_nat n) with true by (symmetry; apply Z.ltb_lt; lia). rewrite Hx by auto. split.
        -- intros L. rewrite A, X by exact L. reflexivity.
        -- intros L. rewrite B, X by exact L. reflexivity.
      * apply IH. intros m Hm0. apply So. right. exact Hm0.
  - exists w1. split; [reflexivity|]. intros Hr Hc.
    assert (Z0 : forall i j, 0 <= i < r -> 0 <= j < c -> extra i j = 0).
    { intros i j Hi Hj. rewrite <- Hx by auto. destruct (Z.eq_dec (px bm i j) 0) as [E|E]; [exact E|].
      assert (Y : img_any (fun z => negb (z =? 0)) bm = true).
      { apply img_any_spec. exists i, j. split; [unfold inside; rewrite Hr, Hc; auto|]. apply Z.eqb_neq in E. rewrite E. reflexivity. }
      congruence. }
    assert (Wk : forall x y, masked_exp r c a bit (fun _ _ => 0) x y -> masked_exp r c a bit extra x y).
    { intros x y [S1 V1]. split; [exact S1|]. intros i j Hi Hj. rewrite Z0 by auto. apply V1; auto. }
    assert (Wd : forall d d', dict_rel (skeys (w_exp w)) (masked_exp r c a bit (fun _ _ => 0)) d d' ->
      dict_rel (skeys (w_exp w)) (masked_exp r c a bit extra) d d').
    { intros d d' [A [B C]]. split; [exact A|split; [|exact C]]. intros k v Hk Hv. destruct (B k v Hk Hv) as [v' [B1 B2]]. eauto. }
    unfold masked_world. split; [auto|]. split; [|split; [exact Hm|]].
    + destruct (w_noise w) as [d|]; destruct (w_noise w1) as [d1|]; cbn in Hn |- *; auto.
    + destruct (w_ormasks w) as [l|]; destruct (w_ormasks w1) as [l1|]; cbn in Ho |- *; auto.
      induction Ho as [|x y l l1 [S1 V1] F IH]; constructor; [|apply IH]. split; [exact S1|]. intros i j Hi Hj. rewrite Z0 by auto. apply V1; auto.
Qed.

Lemma first_exp_ok : forall r c w, world_ok r c w -> exists e, first_exp w = Ok e /\ nr (e_image e) = r /\ nc (e_image e) = c.
Proof.
  intros r c w [Hne [_ [Se _]]]. unfold first_exp. destruct (w_exp w) as [|[b e] l]; [congruence|]. exists e. split; [reflexivity|].
  destruct (Se b e) as [[A B] _]; [left; reflexivity|]. auto.
Qed.
Lemma ap_rad_pos : (0 < AP_RAD)%R.
Proof. unfold AP_RAD. lra. Qed.
Lemma edge_factor_range : forall h r c i j, (0 < h)%R -> 0 <= i < r -> 0 <= j < c -> (0 <= edge_factor h r c i j <= 1)%R.
Proof. intros h r c i j H Hi Hj. unfold edge_factor. rewrite <- (edge_mask_val h r c i j) by auto. apply edge_mask_spec; auto. Qed.

Lemma edge_spec : forall r c edge w, world_ok r c w ->
  exists w', apply_edge edge w = Ok w' /\ masked_world r c (edge_factor AP_RAD r c) edge (fun _ _ => 0) w w'.
Proof.
  intros r c edge w Hw. unfold apply_edge. destruct (first_exp_ok r c w Hw) as [e [E [Er Ec]]]. rewrite E. cbn [obind]. rewrite Er, Ec.
  destruct (square_mask_shape AP_RAD (ifill r c 1%R)) as [S1 S2].
  apply apodize_all_spec; auto.
  - intros i j Hi Hj. apply edge_mask_val; auto using ap_rad_pos.
  - intros i j Hi Hj. apply edge_factor_range; auto using ap_rad_pos.
Qed.
Lemma local_radii : forall wcs xy0 l, (forall b, In b l -> (0 <= br_rad b)%R) -> radii_ok (map (local_hole wcs xy0) l).
Proof. intros wcs xy0 l H h Hh. apply in_map_iff in Hh. destruct Hh as [b [<- Hb]]. cbn. auto. Qed.
Lemma bright_spec : forall wcs xy0 l bright bexp r c w, (forall b, In b l -> (0 <= br_rad b)%R) -> world_ok r c w ->
  exists w' extra, apply_bright wcs xy0 l bright bexp w = Ok w' /\
    masked_world r c (fun i j => cat_factor AP_RAD (map (local_hole wcs xy0) l) i j) bright extra w w' /\
    forall i j, 0 <= i < r -> 0 <= j < c ->
      let near := exists h, In h (grow EXPAND_RAD (map (local_hole wcs xy0) l)) /\ covers h i j in
      (near -> extra i j = bexp) /\ (~ near -> extra i j = 0).
Proof.
  intros wcs xy0 l bright bexp r c w Hrad Hw. unfold apply_bright. destruct (first_exp_ok r c w Hw) as [e [E [Er Ec]]]. rewrite E. cbn [obind].
  rewrite Er, Ec. set (holes := map (local_hole wcs xy0) l).
  assert (Hh : radii_ok holes) by (apply local_radii; exact Hrad).
  destruct (make_foreground_apodization_mask holes r c false AP_RAD) as [ap|ex] eqn:E1; [|discriminate].
  destruct (apod_mask_spec holes r c false AP_RAD ap ap_rad_pos Hh E1) as [A1 [A2 A3]]. cbn [obind].
  destruct (apodize_all_spec r c (fun i j => cat_factor AP_RAD holes i j) ap bright A1 A2) with (w := w) as [w1 [E2 M]].
  { intros i j Hi Hj. rewrite A3 by auto. unfold apod_factor. ring. }
  { intros i j Hi Hj. apply cat_factor_spec. apply ap_rad_pos. }
  { exact Hw. }
  rewrite E2. cbn [obind].
  set (big := map (fun h => mkHole (h_x h) (h_y h) (h_r h + EXPAND_RAD)%R) holes).
  assert (Hb : radii_ok big).
  { intros h Hin. apply in_map_iff in Hin. destruct Hin as [h0 [<- H0]]. cbn. specialize (Hh h0 H0). unfold EXPAND_RAD. lra. }
  destruct (make_foreground_bmask big r c false bexp) as [bm|ex] eqn:E3; [|discriminate]. cbn [obind].
  destruct (foreground_bmask_spec big r c false bexp bm Hb E3) as [B1 [B2 B3]].
  destruct (expand_spec r c (fun i j => cat_factor AP_RAD holes i j) bright (px bm) bm w w1 Hw M) as [w' [E4 M4]]; [auto|].
  exists w', (px bm). split; [exact E4|]. split; [apply M4; auto|]. intros i j Hi Hj. set (near := (exists h : hole, In h (grow EXPAND_RAD holes) /\ covers h i j)). destruct (B3 i j Hi Hj) as [C1 C2].
  assert (N : masked big false r i j <-> near).
  { unfold near, masked, grow. fold big. split; intros [h [H1 H2]]; exists h; [|tauto]. split; [exact H1|]. destruct H2 as [H2|[H2 _]]; [exact H2|discriminate]. }
  rewrite N in C1, C2. auto.
Qed.

(** ** Errors *)
Lemma dmod_err : forall V (f : V -> V) k d e, dmod f k d = Raise e -> e = KeyError.
Proof. intros V f k d e. unfold dmod, dget. destruct (sget k d); cbn; [discriminate|]. intros H. inversion H. reflexivity. Qed.
Lemma dmod_opt_err : forall V (f : V -> V) k d e, dmod_opt f k d = Raise e -> e = KeyError.
Proof.
  intros V f k [d|] e; cbn; [|discriminate]. destruct (dmod f k d) as [x|x] eqn:E; cbn; [discriminate|]. intros H. inversion H; subst.
  apply dmod_err in E. exact E.
Qed.
Lemma dmod_opt_in : forall V (f : V -> V) k d d', dmod_opt f k (Some d) = Ok d' -> In k (skeys d).
Proof. intros V f k d d'. cbn. destruct (dmod f k d) as [x|] eqn:E; cbn; [|discriminate]. intros _. apply dmod_ok in E. tauto. Qed.
Lemma apodize_band_err : forall ap msk bit w b e, apodize_band ap msk bit w b = Raise e -> e = KeyError.
Proof.
  intros ap msk bit w b e. unfold apodize_band.
  destruct (dmod (apodize_exp ap msk bit) b (w_exp w)) as [x|x] eqn:E1; cbn [obind]; [|intros H; inversion H; subst; apply (dmod_err _ _ _ _ _ E1)].
  destruct (dmod_opt (apodize_exp ap msk bit) b (w_noise w)) as [y|y] eqn:E2; cbn [obind]; [|intros H; inversion H; subst; apply (dmod_opt_err _ _ _ _ _ E2)].
  destruct (dmod_opt (upd_where msk (fun _ _ _ => 1%R)) b (w_mfrac w)) as [z|z] eqn:E3; cbn [obind]; [discriminate|].
  intros H; inversion H; subst; apply (dmod_opt_err _ _ _ _ _ E3).
Qed.
Lemma apodize_band_in : forall ap msk bit w b w', apodize_band ap msk bit w b = Ok w' ->
  (forall d, w_noise w = Some d -> In b (skeys d)) /\ (forall d, w_mfrac w = Some d -> In b (skeys d)).
Proof.
  intros ap msk bit w b w'. unfold apodize_band.
  destruct (dmod (apodize_exp ap msk bit) b (w_exp w)) as [x|] eqn:E1; cbn [obind]; [|discriminate].
  destruct (dmod_opt (apodize_exp ap msk bit) b (w_noise w)) as [y|] eqn:E2; cbn [obind]; [|discriminate].
  destruct (dmod_opt (upd_where msk (fun _ _ _ => 1%R)) b (w_mfrac w)) as [z|] eqn:E3; cbn [obind]; [|discriminate].
  intros _. split; intros d Hd; rewrite Hd in *; [apply dmod_opt_in in E2; exact E2|apply dmod_opt_in in E3; exact E3].
Qed.
Lemma over_apodize_err : forall ap msk bit l w e, over (apodize_band ap msk bit) l w = Raise e -> e = KeyError.
Proof.
  intros ap msk bit. induction l as [|b l IH]; intros w e H; cbn [over] in H; [discriminate|].
  destruct (apodize_band ap msk bit w b) as [w1|x] eqn:E; cbn [obind] in H; [eauto|]. inversion H; subst. apply (apodize_band_err _ _ _ _ _ _ E).
Qed.
Lemma over_apodize_in : forall ap msk bit l w w', over (apodize_band ap msk bit) l w = Ok w' ->
  (forall d, w_noise w = Some d -> incl l (skeys d)) /\ (forall d, w_mfrac w = Some d -> incl l (skeys d)).
Proof.
  intros ap msk bit. induction l as [|b l IH]; intros w w' H; cbn [over] in H; [split; intros d _ x []|].
  destruct (apodize_band ap msk bit w b) as [w1|x] eqn:E; cbn [obind] in H; [|discriminate].
  destruct (IH _ _ H) as [I1 I2]. destruct (apodize_band_in _ _ _ _ _ _ E) as [J1 J2]. apply apodize_band_ok in E. subst w1.
  split; intros d Hd x [<-|Hx].
  - apply J1. exact Hd.
  - cbn [apodized_world w_noise] in I1. rewrite Hd in I1. specialize (I1 _ eq_refl x Hx). rewrite dmods_keys in I1. exact I1.
  - apply J2. exact Hd.
  - cbn [apodized_world w_mfrac] in I2. rewrite Hd in I2. specialize (I2 _ eq_refl x Hx). rewrite dmods_keys in I2. exact I2.
Qed.
Lemma ap_range_9 : get_ap_range AP_RAD = 9.
Proof.
  destruct (get_ap_range_spec AP_RAD ap_rad_pos) as [_ [A B]]. unfold AP_RAD in *.
  assert (IZR (get_ap_range (3 / 2)) < 10)%R by lra. assert (8 < IZR (get_ap_range (3 / 2)))%R by lra.
  apply lt_IZR in H. apply lt_IZR in H0. lia.
Qed.
Lemma edge_where : forall r c i j, 0 <= i < r -> 0 <= j < c ->
  (0 <= edge_factor AP_RAD r c i j <= 1)%R /\ ((edge_factor AP_RAD r c i j < 1)%R <-> edge_distance r c i j < 9).
Proof.
  intros r c i j Hi Hj. assert (H := edge_factor_range AP_RAD r c i j ap_rad_pos Hi Hj). split; [exact H|].
  destruct (edge_mask_spec AP_RAD r c i j ap_rad_pos Hi Hj) as [_ E]. rewrite (edge_mask_val AP_RAD r c i j ap_rad_pos Hi Hj), ap_range_9 in E.
  change (edge_factor AP_RAD r c i j = 1%R <-> 9 <= edge_distance r c i j) in E. split.
  - intros L. destruct (Z_lt_le_dec (edge_distance r c i j) 9) as [X|X]; [exact X|]. apply E in X. lra.
  - intros L. destruct (Rlt_dec (edge_factor AP_RAD r c i j) 1) as [X|X]; [exact X|].
    assert (Y : edge_factor AP_RAD r c i j = 1%R) by lra. apply E in Y. lia.
Qed.
Lemma edge_missing : forall edge w b e0, first_exp w = Ok e0 -> 0 < nr (e_image e0) -> 0 < nc (e_image e0) -> In b (skeys (w_exp w)) ->
  ((exists d, w_noise w = Some d /\ ~ In b (skeys d)) \/ (exists d, w_mfrac w = Some d /\ ~ In b (skeys d))) ->
  apply_edge edge w = Raise KeyError.
Proof.
  intros edge w b e0 E Hr Hc Hb M. unfold apply_edge. rewrite E. cbn [obind]. set (r := nr (e_image e0)) in *. set (c := nc (e_image e0)) in *.
  set (ap := build_square_apodization_mask AP_RAD (ifill r c 1%R)). unfold apodize_all.
  assert (Any : img_any (fun b0 => b0) (imap (fun v => Rltb v 1) ap) = true).
  { apply img_any_spec. exists 0, 0. destruct (square_mask_shape AP_RAD (ifill r c 1%R)) as [S1 S2]. fold ap in S1, S2. split.
    - unfold inside. cbn. rewrite S1, S2. cbn. lia.
    - cbn. apply Rltb_spec. change (edge_mask AP_RAD r c 0 0 < 1)%R. rewrite edge_mask_val by (auto using ap_rad_pos; lia).
      apply (proj2 (edge_where r c 0 0 ltac:(lia) ltac:(lia))). unfold edge_distance. lia. }
  rewrite Any. destruct (over _ _ w) as [w'|x] eqn:O.
  - apply over_apodize_in in O. destruct O as [O1 O2]. destruct M as [[d [Hd N]]|[d [Hd N]]]; destruct N; [apply (O1 d Hd)|apply (O2 d Hd)]; exact Hb.
  - apply over_apodize_err in O. rewrite O. reflexivity.
Qed.
