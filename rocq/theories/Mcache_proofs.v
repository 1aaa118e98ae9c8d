From Coq Require Import ZArith QArith Lqa Lia List String Bool Permutation.
From Verif Require Import Base Arr Median Flags_model Detect_spec Detect_proofs Detect_model Masking_proofs Summ_model Summ_spec Summ_proofs
  Wavg_model Wavg_proofs Joint_model Conf_model Mdet_model Mdet_spec.
Import ListNotations.
Local Open Scope Z_scope.

(** ** Dictionaries *)
Definition eqb_ok {K} (eqb : K -> K -> bool) := forall a b, eqb a b = true <-> a = b.
Lemma key_eqb_ok : eqb_ok key_eqb.
Proof.
  intros [a|] [b|]; cbn; split; intros H; try congruence.
  - apply Z.eqb_eq in H. congruence.
  - apply Z.eqb_eq. congruence.
Qed.
Lemma bands_eqb_ok : eqb_ok bands_eqb.
Proof.
  intros a. unfold bands_eqb. induction a as [|x a IH]; intros [|y b]; cbn; split; intros H; try congruence.
  - apply andb_true_iff in H. destruct H as [H1 H2]. apply Z.eqb_eq in H1. apply IH in H2. congruence.
  - injection H as -> ->. rewrite Z.eqb_refl. cbn. now apply IH.
Qed.
Lemma string_eqb_ok : eqb_ok String.eqb.
Proof. intros a b. apply String.eqb_eq. Qed.

Section Dict.
Context {K V : Type} (eqb : K -> K -> bool) (E : eqb_ok eqb).
Lemma eqb_refl' : forall a, eqb a a = true.
Proof. intros a. now apply E. Qed.
Lemma eqb_neq : forall a b, a <> b -> eqb a b = false.
Proof. intros a b H. destruct (eqb a b) eqn:X; auto. apply E in X. contradiction. Qed.
Lemma assoc_dput_same : forall k (v : V) l, assoc eqb k (dput eqb k v l) = Some v.
Proof.
  induction l as [|[k' w] l IH]; cbn.
  - now rewrite eqb_refl'.
  - destruct (eqb k k') eqn:X; cbn; rewrite X; auto.
Qed.
Lemma assoc_dput_other : forall k k2 (v : V) l, k2 <> k -> assoc eqb k2 (dput eqb k v l) = assoc eqb k2 l.
Proof.
  intros k k2 v l N. induction l as [|[k' w] l IH]; cbn.
  - now rewrite (eqb_neq _ _ N).
  - destruct (eqb k k') eqn:X; cbn.
    + apply E in X; subst. now rewrite (eqb_neq _ _ N).
    + destruct (eqb k2 k'); auto.
Qed.
Lemma eq_dec_k : forall a b : K, a = b \/ a <> b.
Proof. intros a b. destruct (eqb a b) eqn:X; [left; now apply E|right; intros ->; rewrite eqb_refl' in X; discriminate]. Qed.
Lemma assoc_dput : forall k k2 (v w : V) l, assoc eqb k2 (dput eqb k v l) = Some w ->
  (k2 = k /\ w = v) \/ (k2 <> k /\ assoc eqb k2 l = Some w).
Proof.
  intros k k2 v w l H. destruct (eq_dec_k k2 k) as [->|N].
  - rewrite assoc_dput_same in H. left. split; congruence.
  - rewrite assoc_dput_other in H; auto.
Qed.
End Dict.

(** ** The summaries do not depend on the order of the bands *)
Lemma omap_perm : forall A B (f : A -> outcome B) l l' r, Permutation l l' -> omap f l = Ok r ->
  exists r', omap f l' = Ok r' /\ Permutation r r'.
Proof.
  intros A B f l l' r P. revert r. induction P; intros r H.
  - exists r. split; auto.
  - cbn [omap] in *. destruct (f x) as [y|]; [|discriminate]. cbn [obind] in *.
    destruct (omap f l) as [ys|]; [|discriminate]. cbn [obind] in *. apply Ok_inj in H; subst.
    destruct (IHP _ eq_refl) as [r' [-> P']]. cbn [obind]. exists (y :: r'). split; auto.
  - cbn [omap] in *. destruct (f y) as [b|]; [|discriminate]. cbn [obind] in *.
    destruct (f x) as [a|]; [|discriminate]. cbn [obind] in *.
    destruct (omap f l) as [ys|]; [|discriminate]. cbn [obind] in *. apply Ok_inj in H; subst.
    eexists. split; [reflexivity|constructor].
  - destruct (IHP1 _ H) as [r1 [H1 P1']]. destruct (IHP2 _ H1) as [r2 [H2 P2']].
    exists r2. split; auto. eapply perm_trans; eauto.
Qed.

Lemma get_mfrac_perm : forall obs obs' im, Permutation obs obs' ->
  (exists r c, forall o, In o obs -> nr (so_weight o) = r /\ nc (so_weight o) = c) ->
  get_mfrac (map (fun o => [o]) obs) = Ok im ->
  exists im', get_mfrac (map (fun o => [o]) obs') = Ok im' /\ qimg_eqv im im'.
Proof.
  intros obs obs' im P [r [c U]] H. destruct obs as [|o0 rest]; [discriminate|].
  destruct obs' as [|o0' rest']; [apply Permutation_sym, Permutation_nil in P; discriminate|].
  destruct (get_mfrac_val _ o0 rest eq_refl) as [im1 [E1 [R1 [C1 [A1 B1]]]]].
  destruct (get_mfrac_val _ o0' rest' eq_refl) as [im2 [E2 [R2 [C2 [A2 B2]]]]].
  rewrite E1 in H. apply Ok_inj in H; subst im1. exists im2. split; [exact E2|].
  destruct (U o0 (or_introl eq_refl)) as [U1 U2].
  assert (Hin : In o0' (o0 :: rest)) by (eapply Permutation_in; [apply Permutation_sym; exact P|now left]).
  destruct (U o0' Hin) as [U3 U4].
  split; [congruence|]. split; [congruence|]. intros i j.
  assert (Q : (qsum (map band_weight (o0 :: rest)) == qsum (map band_weight (o0' :: rest')))%Q)
    by (apply qsum_perm, Permutation_map; exact P).
  assert (N : (msum (o0 :: rest) i j == msum (o0' :: rest') i j)%Q)
    by (apply qsum_perm, Permutation_map; exact P).
  destruct (Qlt_le_dec 0 (qsum (map band_weight (o0 :: rest)))) as [L|L].
  - rewrite (A1 L), (A2 ltac:(lra)), N, Q. reflexivity.
  - rewrite (B1 ltac:(lra)), (B2 ltac:(lra)). reflexivity.
Qed.

Lemma testbit_ext : forall a b, (forall n, Z.testbit a n = true <-> Z.testbit b n = true) -> a = b.
Proof.
  intros a b H. apply Z.bits_inj. intros n. specialize (H n).
  destruct (Z.testbit a n), (Z.testbit b n); auto; [symmetry|]; tauto.
Qed.

Lemma get_masks_perm : forall obs obs' om bm, Permutation obs obs' ->
  (exists r c, forall o, In o obs -> nr (so_ormask o) = r /\ nc (so_ormask o) = c /\
                                     nr (so_bmask o) = r /\ nc (so_bmask o) = c) ->
  get_ormask_and_bmask (map (fun o => [o]) obs) = Ok (om, bm) ->
  exists om' bm', get_ormask_and_bmask (map (fun o => [o]) obs') = Ok (om', bm') /\
    zimg_eqv om om' /\ zimg_eqv bm bm'.
Proof.
  intros obs obs' om bm P [r [c U]] H. destruct obs as [|o0 rest]; [discriminate|].
  destruct obs' as [|o0' rest']; [apply Permutation_sym, Permutation_nil in P; discriminate|].
  destruct (combined_masks o0 rest) as [a [b [E1 [R1 [R2 [R3 [R4 B1]]]]]]].
  destruct (combined_masks o0' rest') as [a' [b' [E2 [S1 [S2 [S3 [S4 B2]]]]]]].
  rewrite E1 in H. apply Ok_inj in H. apply pair_equal_spec in H. destruct H as [<- <-].
  exists a', b'. split; [exact E2|].
  destruct (U o0 (or_introl eq_refl)) as [U1 [U2 [U3 U4]]].
  assert (Hin : In o0' (o0 :: rest)) by (eapply Permutation_in; [apply Permutation_sym; exact P|now left]).
  destruct (U o0' Hin) as [V1 [V2 [V3 V4]]].
  split; (split; [congruence|split; [congruence|]]); intros i j; apply testbit_ext; intros n;
    destruct (B1 i j n) as [X1 X2]; destruct (B2 i j n) as [Y1 Y2].
  - rewrite X1, Y1. split; intros [o [Ho Hb]]; exists o; (split; [|exact Hb]).
    + eapply Permutation_in; [exact P|exact Ho].
    + eapply Permutation_in; [apply Permutation_sym; exact P|exact Ho].
  - rewrite X2, Y2. split; intros [o [Ho Hb]]; exists o; (split; [|exact Hb]).
    + eapply Permutation_in; [exact P|exact Ho].
    + eapply Permutation_in; [apply Permutation_sym; exact P|exact Ho].
Qed.

Lemma concat_perm : forall A (l l' : list (list A)), Permutation l l' -> Permutation (List.concat l) (List.concat l').
Proof.
  intros A l l' P. induction P; cbn; auto.
  - now apply Permutation_app_head.
  - rewrite !app_assoc. apply Permutation_app_tail, Permutation_app_comm.
  - eapply perm_trans; eauto.
Qed.

(** The sums of PSF values. *)
Definition psf_term (o : pobs) : option (Q * Q * Q) :=
  match po_result o with
  | None => None
  | Some r =>
    match pr_T r with
    | None => None
    | Some T => match (match pr_e r with Some e => Some e | None => pr_g r end) with
                | None => None | Some (g1, g2) => Some (g1, g2, T) end
    end
  end.
Lemma psf_term_values : forall o v, psf_term o = Some v -> psf_values o v.
Proof.
  intros o v H. unfold psf_term, psf_values in *. destruct (po_result o) as [r|]; [|discriminate].
  destruct (pr_T r) as [T|] eqn:ET; [|discriminate]. destruct (pr_e r) as [e|] eqn:Ee.
  - destruct e as [g1 g2]. apply Some_inj in H; subst. exists r, T, (g1, g2). repeat split; auto.
  - destruct (pr_g r) as [[g1 g2]|] eqn:Eg; [|discriminate]. apply Some_inj in H; subst.
    exists r, T, (g1, g2). repeat split; auto.
Qed.
Lemma add_psf_term : forall s o t, add_psf s o = Ok t -> exists v, psf_term o = Some v.
Proof.
  intros [[[a b] c] d] o t H. unfold add_psf in H. unfold psf_term.
  destruct (po_result o) as [r|]; [|discriminate]. destruct (pr_T r) as [T|]; [|discriminate].
  destruct (match pr_e r with Some e => Some e | None => pr_g r end) as [[g1 g2]|]; [|discriminate]. eauto.
Qed.
Lemma ofold_terms : forall l s t, ofold add_psf l s = Ok t -> exists vs, Forall2 (fun o v => psf_term o = Some v) l vs.
Proof.
  induction l as [|o l IH]; intros s t H; cbn [ofold] in H.
  - exists []. constructor.
  - destruct (add_psf s o) as [s'|] eqn:Ea; [|discriminate]. cbn [obind] in H.
    destruct (add_psf_term _ _ _ Ea) as [v Hv]. destruct (IH _ _ H) as [vs Hvs]. exists (v :: vs). constructor; auto.
Qed.
Definition tv (f : Q * Q * Q -> Q) (o : pobs) : Q := match psf_term o with Some v => f v | None => 0%Q end.
Lemma combine_terms : forall (f : Q * Q * Q -> Q) l vs, Forall2 (fun o v => psf_term o = Some v) l vs ->
  map (fun wx => fst wx * snd wx)%Q (combine (map po_maxw l) (map f vs)) = map (fun o => po_maxw o * tv f o)%Q l.
Proof.
  intros f l vs H. induction H; cbn; auto. rewrite IHForall2. unfold tv at 2. rewrite H. reflexivity.
Qed.

Lemma qopt_div : forall a b c d, (a == b)%Q -> (c == d)%Q -> (a / c == b / d)%Q.
Proof. intros a b c d -> ->. reflexivity. Qed.

Lemma get_psf_stats_perm : forall l l' fl s, Permutation l l' -> get_psf_stats l fl = Ok s ->
  exists s', get_psf_stats l' fl = Ok s' /\ stats_eqv s s'.
Proof.
  intros l l' fl s P H. unfold get_psf_stats in *. destruct (negb (fl =? 0)).
  - apply Ok_inj in H; subst. eexists. split; [reflexivity|]. repeat split.
  - apply concat_perm in P. destruct (ofold add_psf (List.concat l) (0, 0, 0, 0)%Q) as [t|] eqn:E; [|discriminate].
    cbn [obind] in H. destruct (ofold_terms _ _ _ E) as [vs Hvs].
    assert (Hvs' : exists vs', Forall2 (fun o v => psf_term o = Some v) (List.concat l') vs').
    { clear - Hvs P. revert vs Hvs. induction P; intros vs H.
      - exists []. constructor.
      - inversion H; subst. destruct (IHP _ H4) as [vs' H']. exists (y :: vs'). constructor; auto.
      - inversion H as [|? v1 ? r1 Hv1 Hr1]; subst. inversion Hr1 as [|? v2 ? r2 Hv2 Hr2]; subst.
        exists (v2 :: v1 :: r2). constructor; [auto|constructor; auto].
      - destruct (IHP1 _ H) as [v1 H1]. destruct (IHP2 _ H1) as [v2 H2]. eauto. }
    destruct Hvs' as [vs' Hvs'].
    assert (F : forall l0 vs0, Forall2 (fun o v => psf_term o = Some v) l0 vs0 -> Forall2 psf_values l0 vs0).
    { intros l0 vs0 X. induction X; constructor; auto. now apply psf_term_values. }
    destruct (ofold_psf _ _ (0, 0, 0, 0)%Q (F _ _ Hvs)) as [t1 [E1 [A1 [A2 [A3 A4]]]]].
    destruct (ofold_psf _ _ (0, 0, 0, 0)%Q (F _ _ Hvs')) as [t2 [E2 [B1 [B2 [B3 B4]]]]].
    rewrite E in E1. apply Ok_inj in E1; subst t1. rewrite E2. cbn [obind].
    destruct t as [[[g1s g2s] ts] ws]. destruct t2 as [[[g1s' g2s'] ts'] ws'].
    rewrite (combine_terms _ _ _ Hvs) in A1. rewrite (combine_terms _ _ _ Hvs) in A2. rewrite (combine_terms _ _ _ Hvs) in A3.
    rewrite (combine_terms _ _ _ Hvs') in B1. rewrite (combine_terms _ _ _ Hvs') in B2. rewrite (combine_terms _ _ _ Hvs') in B3.
    cbn [fst snd] in *.
    assert (PQ : forall f : pobs -> Q, (qsum (map f (List.concat l)) == qsum (map f (List.concat l')))%Q)
      by (intros f; apply qsum_perm, Permutation_map; exact P).
    assert (Q1 : (g1s == g1s')%Q) by (rewrite A1, B1, PQ; reflexivity).
    assert (Q2 : (g2s == g2s')%Q) by (rewrite A2, B2, PQ; reflexivity).
    assert (Q3 : (ts == ts')%Q) by (rewrite A3, B3, PQ; reflexivity).
    assert (Q4 : (ws == ws')%Q) by (rewrite A4, B4, PQ; reflexivity).
    rewrite <- (Qle_bool_ext ws ws' Q4). destruct (Qle_bool ws 0); apply Ok_inj in H; subst;
      eexists; split; try reflexivity; unfold stats_eqv; cbn [ps_flags ps_g1 ps_g2 ps_T opt_rel];
      repeat split; auto; now apply qopt_div.
Qed.

Section Cache.
Variables O SEG ST FL FR : Type.
Variable sob : O -> sobs.
Notation env := (env O SEG ST FL FR).
Notation state := (state O FR).
Variable e : env.

Lemma py_index_in' : forall A (l : list A) i x, py_index l i = Ok x -> In x l.
Proof.
  intros A l i x H. unfold py_index in H. destruct (_ && _); [|discriminate].
  destruct (nth_error l _) eqn:E; [|discriminate]. apply Ok_inj in H; subst. eapply nth_error_In; eauto.
Qed.

Lemma summarise_perm : forall mp m sb sb' s, uniform sob m -> Permutation sb sb' ->
  summarise sob e mp m sb = Ok s -> exists s', summarise sob e mp m sb' = Ok s' /\ summary_eqv s s'.
Proof.
  intros mp m sb sb' s [r [c U]] P H. unfold summarise in *.
  destruct (omap (py_index m) sb) as [sel|] eqn:E1; [|discriminate]. cbn [obind] in H.
  destruct (omap_perm _ _ _ _ _ _ P E1) as [sel' [E1' P1]]. rewrite E1'. cbn [obind].
  assert (Us : forall ol o, In ol sel -> In o ol ->
    nr (so_weight (sob o)) = r /\ nc (so_weight (sob o)) = c /\
    nr (so_bmask (sob o)) = r /\ nc (so_bmask (sob o)) = c /\
    nr (so_ormask (sob o)) = r /\ nc (so_ormask (sob o)) = c).
  { intros ol o Hol Ho. apply (U ol o); auto. apply omap_ok_Forall2 in E1. clear - E1 Hol.
    induction E1; [destruct Hol|]. destruct Hol as [->|Hol]; auto. eapply py_index_in'; eauto. }
  destruct (get_mfrac (map (map sob) sel)) as [mf|] eqn:E2; [|discriminate]. cbn [obind] in H.
  destruct (mfrac_epochs _ _ E2) as [obs [Hne Eobs]].
  assert (Pm : Permutation (map (map sob) sel) (map (map sob) sel')) by now apply Permutation_map.
  rewrite Eobs in Pm. apply Permutation_sym, Permutation_map_inv in Pm. destruct Pm as [obs' [Eobs' Pobs]].
  assert (Uo : forall o, In o obs -> nr (so_weight o) = r /\ nc (so_weight o) = c /\
     nr (so_bmask o) = r /\ nc (so_bmask o) = c /\ nr (so_ormask o) = r /\ nc (so_ormask o) = c).
  { intros o Ho. assert (Hin : In [o] (map (map sob) sel)) by (rewrite Eobs; apply in_map_iff; eauto).
    apply in_map_iff in Hin. destruct Hin as [ol [Eol Hol]]. destruct ol as [|x [|y ol]]; try discriminate.
    cbn in Eol. injection Eol as <-. apply (Us [x] x); auto. now left. }
  rewrite Eobs in E2, H. rewrite Eobs'.
  destruct (get_mfrac_perm obs obs' mf Pobs) as [mf' [E2' Q1]]; auto.
  { exists r, c. intros o Ho. destruct (Uo o Ho) as (?&?&_). auto. }
  rewrite E2'. cbn [obind].
  destruct (get_ormask_and_bmask (map (fun o => [o]) obs)) as [[om bm]|] eqn:E3; [|discriminate]. cbn [obind] in H.
  destruct (get_masks_perm obs obs' om bm Pobs) as [om' [bm' [E3' [Q2 Q3]]]]; auto.
  { exists r, c. intros o Ho. destruct (Uo o Ho) as (_&_&?&?&?&?). auto. }
  rewrite E3'. cbn [obind fst snd] in *.
  destruct (match mp_psf mp with Some f => Ok f | None => Raise KeyError end) as [fl|]; [|discriminate].
  cbn [obind] in *.
  destruct (omap (py_index (fst (e_psf_fit e m))) sb) as [psel|] eqn:E4; [|discriminate]. cbn [obind] in H.
  destruct (omap_perm _ _ _ _ _ _ P E4) as [psel' [E4' P4]]. rewrite E4'. cbn [obind].
  destruct (get_psf_stats psel fl) as [ps|] eqn:E5; [|discriminate]. cbn [obind] in H. apply Ok_inj in H; subst.
  destruct (get_psf_stats_perm _ _ _ _ P4 E5) as [ps' [E5' Q5]]. rewrite E5'. cbn [obind].
  eexists. split; [reflexivity|]. repeat split; cbn [sm_mfrac sm_bmask sm_ormask sm_stats]; auto; try apply Q1;
    try apply Q2; try apply Q3; apply Q5.
Qed.

(** ** Invariant of the cache *)
Definition holds_key (k : option Z) (m : mb O) : Prop :=
  (k = None /\ m = e_main e) \/
  (exists z keyf dep, k = Some z /\ e_color e = Some (keyf, dep) /\ dep z = Some (Other m)).

Lemma obs_of_holds : forall key k m, obs_of e key = Ok (k, m) -> holds_key k m.
Proof.
  intros key k m H. unfold obs_of in H. destruct key as [z|].
  - destruct (e_color e) as [[keyf dep]|] eqn:Ec; [|discriminate]. destruct (dep z) as [[|m']|] eqn:Ed; try discriminate.
    + apply Ok_inj in H. apply pair_equal_spec in H. destruct H as [<- <-]. now left.
    + apply Ok_inj in H. apply pair_equal_spec in H. destruct H as [<- <-]. right. exists z, keyf, dep. auto.
  - apply Ok_inj in H. apply pair_equal_spec in H. destruct H as [<- <-]. now left.
Qed.
Lemma holds_key_fun : forall k m m', holds_key k m -> holds_key k m' -> m = m'.
Proof.
  intros k m m' [[H1 H2]|(z & f & d & H1 & H2 & H3)] [[H4 H5]|(z' & f' & d' & H4 & H5 & H6)]; subst; try congruence.
Qed.
Lemma holds_key_uniform : forall k m, env_uniform sob e -> holds_key k m -> uniform sob m.
Proof.
  intros k m [U1 U2] [[-> ->]|(z & f & d & _ & H2 & H3)]; auto. eapply U2; eauto.
Qed.

Definition entry_ok (k : option Z) (ent : cache_entry O) : Prop :=
  exists m, holds_key k m /\ fst ent = fst (fst (compute_key e k m)) /\
    forall sk kd, assoc bands_eqb sk (snd ent) = Some kd ->
      exists sb, zsort sb = sk /\ kd = fst (compute_sb sob e (fst ent) m sb).
Definition cache_ok (s : state) : Prop :=
  forall k ent, assoc key_eqb k (s_cache s) = Some ent -> entry_ok k ent.
Definition log_ok (s : state) : Prop :=
  NoDup (s_log s) /\
  (forall k, In (EvPsf k) (s_log s) \/ In (EvMcal k) (s_log s) -> exists ent, assoc key_eqb k (s_cache s) = Some ent) /\
  (forall k sk, In (EvSum k sk) (s_log s) -> exists ent kd,
     assoc key_eqb k (s_cache s) = Some ent /\ assoc bands_eqb sk (snd ent) = Some kd).
(** No failed computation is stored. *)
Definition clean_cache (s : state) : Prop :=
  forall k ent, assoc key_eqb k (s_cache s) = Some ent ->
    (forall m, holds_key k m -> snd (compute_key e k m) = Ok tt) /\
    (forall sk kd, assoc bands_eqb sk (snd ent) = Some kd -> kd_sum kd <> None).

Lemma compute_key_events : forall k m, snd (fst (compute_key e k m)) = [EvPsf k] \/
  snd (fst (compute_key e k m)) = [EvPsf k; EvMcal k].
Proof.
  intros k m. unfold compute_key. destruct (psf_flags e m); cbn; auto. destruct (all_metacal e m); cbn; auto.
Qed.

(** The state after the first part of a request. *)
Definition after_key (k : option Z) (m : mb O) (s : state) : state :=
  match assoc key_eqb k (s_cache s) with
  | Some _ => s
  | None => mkState (dput key_eqb k (fst (fst (compute_key e k m)), []) (s_cache s))
                    (s_log s ++ snd (fst (compute_key e k m)))%list (s_result s)
  end.
Definition key_outcome (k : option Z) (m : mb O) (s : state) : outcome unit :=
  match assoc key_eqb k (s_cache s) with Some _ => Ok tt | None => snd (compute_key e k m) end.
Definition after_sb (k : option Z) (m : mb O) (sb : list Z) (s1 : state) : outcome (kdata O) * state :=
  match assoc key_eqb k (s_cache s1) with
  | None => (Raise KeyError, s1)
  | Some ent =>
    match assoc bands_eqb (zsort sb) (snd ent) with
    | Some kd => (Ok kd, s1)
    | None =>
      (match snd (compute_sb sob e (fst ent) m sb) with
       | Ok _ => Ok (fst (compute_sb sob e (fst ent) m sb)) | Raise x => Raise x end,
       mkState (dput key_eqb k (fst ent, dput bands_eqb (zsort sb) (fst (compute_sb sob e (fst ent) m sb)) (snd ent)) (s_cache s1))
               (s_log s1 ++ [EvSum k (zsort sb)])%list (s_result s1))
    end
  end.
Lemma get_data_eq : forall key sb s, get_data sob e key sb s =
  match obs_of e key with
  | Raise x => (Raise x, s)
  | Ok (k, m) =>
    match key_outcome k m s with
    | Raise x => (Raise x, after_key k m s)
    | Ok _ => after_sb k m sb (after_key k m s)
    end
  end.
Proof.
  intros key sb s. unfold get_data. destruct (obs_of e key) as [[k m]|x]; auto.
  unfold key_outcome, after_key. destruct (assoc key_eqb k (s_cache s)) as [[mp sbs]|] eqn:E.
  - unfold after_sb. rewrite E. cbn [fst snd]. destruct (assoc bands_eqb (zsort sb) sbs); auto.
    destruct (compute_sb sob e mp m sb) as [kd r]; auto.
  - destruct (compute_key e k m) as [[mp ev] r]. cbn [fst snd]. destruct r as [u|x]; auto.
    unfold after_sb. cbn [s_cache s_log s_result]. rewrite (assoc_dput_same _ key_eqb_ok). cbn [fst snd].
    destruct (assoc bands_eqb (zsort sb) []); auto. destruct (compute_sb sob e mp m sb) as [kd r]; auto.
Qed.

Lemma after_key_ok : forall k m s, holds_key k m -> cache_ok s -> cache_ok (after_key k m s).
Proof.
  intros k m s Hk H. unfold after_key. destruct (assoc key_eqb k (s_cache s)) eqn:E; auto.
  intros k2 ent H2. cbn [s_cache] in H2. apply (assoc_dput _ key_eqb_ok) in H2.
  destruct H2 as [[-> ->]|[N H2]]; [|now apply H].
  exists m. cbn [fst snd]. repeat split; auto. intros sk kd X. discriminate.
Qed.
Lemma after_key_some : forall k m s, exists ent, assoc key_eqb k (s_cache (after_key k m s)) = Some ent.
Proof.
  intros k m s. unfold after_key. destruct (assoc key_eqb k (s_cache s)) eqn:E; eauto.
  cbn [s_cache]. rewrite (assoc_dput_same _ key_eqb_ok). eauto.
Qed.
Lemma after_sb_ok : forall k m sb s, holds_key k m -> cache_ok s -> cache_ok (snd (after_sb k m sb s)).
Proof.
  intros k m sb s Hk H. unfold after_sb. destruct (assoc key_eqb k (s_cache s)) as [ent|] eqn:E; auto.
  destruct (assoc bands_eqb (zsort sb) (snd ent)) eqn:E2; auto. cbn [snd].
  intros k2 ent2 H2. cbn [s_cache] in H2. apply (assoc_dput _ key_eqb_ok) in H2.
  destruct H2 as [[-> ->]|[N H2]]; [|now apply H].
  destruct (H k ent E) as [m' [Hm' [E1 E3]]]. assert (m' = m) by (eapply holds_key_fun; eauto). subst m'.
  exists m. cbn [fst snd]. repeat split; auto. intros sk kd X. apply (assoc_dput _ bands_eqb_ok) in X.
  destruct X as [[-> ->]|[N X]]; [|now apply E3]. exists sb. auto.
Qed.
Lemma get_data_cache : forall key sb s, cache_ok s -> cache_ok (snd (get_data sob e key sb s)).
Proof.
  intros key sb s H. rewrite get_data_eq. destruct (obs_of e key) as [[k m]|x] eqn:E; auto.
  apply obs_of_holds in E. destruct (key_outcome k m s); [|now apply after_key_ok].
  apply after_sb_ok; auto. now apply after_key_ok.
Qed.

(** ** The log *)
Lemma NoDup_snoc : forall A (l : list A) x, NoDup l -> ~ In x l -> NoDup (l ++ [x]).
Proof.
  intros A l x H N. apply NoDup_rev in H. rewrite <- (rev_involutive (l ++ [x])). apply NoDup_rev.
  rewrite rev_app_distr. cbn. constructor; auto. intros X. apply N. now apply in_rev.
Qed.
Lemma after_key_log : forall k m s, log_ok s -> log_ok (after_key k m s).
Proof.
  intros k m s [N [H1 H2]]. unfold after_key. destruct (assoc key_eqb k (s_cache s)) eqn:E; [now repeat split|].
  assert (N1 : ~ In (EvPsf k) (s_log s)).
  { intros X. destruct (H1 k (or_introl X)) as [ent Y]. congruence. }
  assert (N2 : ~ In (EvMcal k) (s_log s)).
  { intros X. destruct (H1 k (or_intror X)) as [ent Y]. congruence. }
  unfold log_ok. cbn [s_log s_cache]. split; [|split].
  - destruct (compute_key_events k m) as [->| ->].
    + now apply NoDup_snoc.
    + change [EvPsf k; EvMcal k] with ([EvPsf k] ++ [EvMcal k])%list. rewrite app_assoc. apply NoDup_snoc.
      * now apply NoDup_snoc.
      * intros X. apply in_app_iff in X. destruct X as [X|[X|[]]]; auto. discriminate.
  - intros k2 X. destruct (eq_dec_k _ key_eqb_ok k2 k) as [->|D].
    + rewrite (assoc_dput_same _ key_eqb_ok). eauto.
    + rewrite (assoc_dput_other _ key_eqb_ok); auto. apply H1.
      destruct X as [X|X]; apply in_app_iff in X; destruct X as [X|X]; auto; exfalso;
        destruct (compute_key_events k m) as [Y|Y]; rewrite Y in X; cbn in X; intuition congruence.
  - intros k2 sk X. apply in_app_iff in X. destruct X as [X|X].
    + destruct (H2 k2 sk X) as [ent [kd [A B]]]. exists ent, kd. split; auto.
      rewrite (assoc_dput_other _ key_eqb_ok); auto. intros ->. congruence.
    + exfalso. destruct (compute_key_events k m) as [Y|Y]; rewrite Y in X; cbn in X; intuition congruence.
Qed.
Lemma after_sb_log : forall k m sb s, log_ok s -> log_ok (snd (after_sb k m sb s)).
Proof.
  intros k m sb s L. unfold after_sb. destruct (assoc key_eqb k (s_cache s)) as [ent|] eqn:E; auto.
  destruct (assoc bands_eqb (zsort sb) (snd ent)) eqn:E2; auto. cbn [snd]. destruct L as [N [H1 H2]].
  unfold log_ok. cbn [s_log s_cache]. split; [|split].
  - apply NoDup_snoc; auto. intros X. destruct (H2 _ _ X) as [ent' [kd [A B]]]. congruence.
  - intros k2 X. destruct (eq_dec_k _ key_eqb_ok k2 k) as [->|D].
    + rewrite (assoc_dput_same _ key_eqb_ok). eauto.
    + rewrite (assoc_dput_other _ key_eqb_ok); auto. apply H1.
      destruct X as [X|X]; apply in_app_iff in X; destruct X as [X|X]; auto; cbn in X; intuition congruence.
  - intros k2 sk X. apply in_app_iff in X.
    assert (Y : In (EvSum k2 sk) (s_log s) \/ (k2 = k /\ sk = zsort sb)).
    { destruct X as [X|[X|[]]]; auto. right. split; congruence. }
    destruct (eq_dec_k _ key_eqb_ok k2 k) as [->|D].
    + rewrite (assoc_dput_same _ key_eqb_ok). destruct (eq_dec_k _ bands_eqb_ok sk (zsort sb)) as [->|D2].
      * eexists. eexists. split; [reflexivity|]. cbn [snd]. apply (assoc_dput_same _ bands_eqb_ok).
      * destruct Y as [Y|[_ Y]]; [|contradiction]. destruct (H2 _ _ Y) as [ent' [kd [A B]]].
        eexists. exists kd. split; [reflexivity|]. cbn [snd]. rewrite (assoc_dput_other _ bands_eqb_ok); auto. congruence.
    + destruct Y as [Y|[Y _]]; [|contradiction]. destruct (H2 _ _ Y) as [ent' [kd [A B]]].
      exists ent', kd. split; auto. rewrite (assoc_dput_other _ key_eqb_ok); auto.
Qed.
Lemma get_data_log : forall key sb s, log_ok s -> log_ok (snd (get_data sob e key sb s)).
Proof.
  intros key sb s H. rewrite get_data_eq. destruct (obs_of e key) as [[k m]|x] eqn:E; auto.
  destruct (key_outcome k m s); [|now apply after_key_log]. apply after_sb_log. now apply after_key_log.
Qed.

(** ** Requests that went well *)
Lemma compute_key_ok : forall k m, snd (compute_key e k m) = Ok tt ->
  exists f r, fst (fst (compute_key e k m)) = mkMP (Some f) (Some r) /\ psf_flags e m = Ok f /\ all_metacal e m = Ok r.
Proof.
  intros k m. unfold compute_key. destruct (psf_flags e m) as [f|]; [|discriminate].
  destruct (all_metacal e m) as [r|]; [|discriminate]. intros _. exists f, r. auto.
Qed.
Lemma get_data_clean : forall key sb s kd s', clean_cache s ->
  get_data sob e key sb s = (Ok kd, s') -> clean_cache s'.
Proof.
  intros key sb s kd s' C H. rewrite get_data_eq in H. destruct (obs_of e key) as [[k m]|x] eqn:E; [|discriminate].
  apply obs_of_holds in E. destruct (key_outcome k m s) as [u|] eqn:K; [|discriminate].
  assert (C1 : clean_cache (after_key k m s)).
  { unfold after_key, key_outcome in *. destruct (assoc key_eqb k (s_cache s)) eqn:A; auto.
    intros k2 ent H2. cbn [s_cache] in H2. apply (assoc_dput _ key_eqb_ok) in H2.
    destruct H2 as [[-> ->]|[N H2]]; [|now apply C]. split; [|discriminate].
    intros m' Hm'. assert (m' = m) by (eapply holds_key_fun; eauto). subst. destruct u; auto. }
  unfold after_sb in H. destruct (assoc key_eqb k (s_cache (after_key k m s))) as [ent|] eqn:A; [|discriminate].
  destruct (assoc bands_eqb (zsort sb) (snd ent)) eqn:B.
  - apply pair_equal_spec in H. destruct H as [_ <-]. auto.
  - apply pair_equal_spec in H. destruct H as [H <-]. intros k2 ent2 H2. cbn [s_cache] in H2.
    apply (assoc_dput _ key_eqb_ok) in H2. destruct H2 as [[-> ->]|[N H2]]; [|now apply C1].
    destruct (C1 k ent A) as [C2 C3]. split; auto. cbn [snd]. intros sk kd2 X.
    apply (assoc_dput _ bands_eqb_ok) in X. destruct X as [[-> ->]|[N X]]; [|now apply (C3 sk)].
    unfold compute_sb in *. destruct (summarise sob e (fst ent) m sb); cbn in *; [discriminate|discriminate].
Qed.

(** The value a new object gives. *)
Definition fresh_value (key : option Z) (sb : list Z) : outcome (kdata O) :=
  match obs_of e key with
  | Raise x => Raise x
  | Ok (k, m) =>
    match snd (compute_key e k m) with
    | Raise x => Raise x
    | Ok _ => let c := compute_sb sob e (fst (fst (compute_key e k m))) m sb in
              match snd c with Ok _ => Ok (fst c) | Raise x => Raise x end
    end
  end.
Lemma fresh_eq : forall key sb, fresh sob e key sb = fresh_value key sb.
Proof.
  intros key sb. unfold fresh, fresh_value. rewrite get_data_eq. destruct (obs_of e key) as [[k m]|x]; auto.
  unfold key_outcome, after_key, init_state, s_cache, assoc.
  destruct (snd (compute_key e k m)); auto. unfold after_sb. cbn [s_cache dput assoc].
  rewrite (eqb_refl' _ key_eqb_ok). cbn [snd assoc fst]. reflexivity.
Qed.
Lemma fresh_uncached : forall key sb, fresh sob e key sb = uncached sob e key sb.
Proof.
  intros key sb. rewrite fresh_eq. unfold fresh_value, uncached. destruct (obs_of e key) as [[k m]|x]; auto.
  cbn [obind snd]. unfold compute_key. destruct (psf_flags e m) as [f|]; auto. cbn [obind snd].
  destruct (all_metacal e m) as [r|]; auto. cbn [obind fst snd]. unfold compute_sb.
  destruct (summarise sob e (mkMP (Some f) (Some r)) m sb); auto.
Qed.
Lemma compute_sb_mp : forall mp m sb, kd_mp (fst (compute_sb sob e mp m sb)) = mp.
Proof. intros. unfold compute_sb. destruct (summarise sob e mp m sb); auto. Qed.
Lemma compute_sb_sum : forall mp m sb, kd_sum (fst (compute_sb sob e mp m sb)) <> None ->
  exists s, summarise sob e mp m sb = Ok s /\ fst (compute_sb sob e mp m sb) = mkK mp (Some s).
Proof.
  intros mp m sb. unfold compute_sb. destruct (summarise sob e mp m sb) as [s|]; cbn; [eauto|congruence].
Qed.
Lemma zsort_eq_perm : forall a b, zsort a = zsort b -> Permutation a b.
Proof.
  intros a b H. eapply perm_trans; [apply zsort_perm|]. rewrite H. apply Permutation_sym, zsort_perm.
Qed.
Lemma qimg_eqv_refl : forall a, qimg_eqv a a. Proof. repeat split; reflexivity. Qed.
Lemma zimg_eqv_refl : forall a, zimg_eqv a a. Proof. repeat split; reflexivity. Qed.
Lemma opt_q_refl : forall a : option Q, opt_rel Qeq a a. Proof. intros [a|]; cbn; auto; reflexivity. Qed.
Lemma stats_eqv_refl : forall a, stats_eqv a a. Proof. intros a. repeat split; apply opt_q_refl. Qed.
Lemma summary_eqv_refl : forall a, summary_eqv a a.
Proof. intros a. split; [apply qimg_eqv_refl|split; [apply zimg_eqv_refl|split; [apply zimg_eqv_refl|apply stats_eqv_refl]]]. Qed.
Lemma kdata_eqv_refl : forall a : kdata O, kdata_eqv a a.
Proof. intros a. split; auto. destruct (kd_sum a); cbn; auto. apply summary_eqv_refl. Qed.

(** The transparency of the cache. *)
Lemma get_data_transparent : forall key sb s, env_uniform sob e -> cache_ok s -> clean_cache s ->
  out_rel kdata_eqv (fst (get_data sob e key sb s)) (fresh sob e key sb).
Proof.
  intros key sb s U C Cl. rewrite fresh_eq. unfold fresh_value. rewrite get_data_eq.
  destruct (obs_of e key) as [[k m]|x] eqn:E; [|reflexivity]. apply obs_of_holds in E.
  assert (Um : uniform sob m) by (eapply holds_key_uniform; eauto).
  assert (Um' := Um). clear Um'. unfold key_outcome, after_key, after_sb.
  destruct (assoc key_eqb k (s_cache s)) as [ent|] eqn:A.
  - rewrite A. destruct (C k ent A) as [m' [Hm' [E1 E2]]].
    assert (m' = m) by (eapply holds_key_fun; eauto). subst m'.
    destruct (Cl k ent A) as [C1 C2]. rewrite (C1 m E). cbv zeta. rewrite <- E1.
    destruct (assoc bands_eqb (zsort sb) (snd ent)) as [kd|] eqn:B.
    + destruct (E2 _ _ B) as [sb0 [Es ->]]. specialize (C2 _ _ B). cbn [fst].
      destruct (compute_sb_sum _ _ _ C2) as [s0 [Hs0 ->]].
      destruct (summarise_perm _ _ _ sb _ Um (zsort_eq_perm _ _ Es) Hs0) as [s1 [Hs1 Q]].
      unfold compute_sb. rewrite Hs1. cbn [fst snd out_rel]. split; auto.
    + cbn [fst]. destruct (snd (compute_sb sob e (fst ent) m sb)); cbn [out_rel]; auto. apply kdata_eqv_refl.
  - destruct (snd (compute_key e k m)) as [u|x] eqn:K; [|reflexivity]. cbn [s_cache].
    rewrite (assoc_dput_same _ key_eqb_ok). cbn [snd assoc fst].
    destruct (snd (compute_sb sob e (fst (fst (compute_key e k m))) m sb)); cbn [out_rel]; auto. apply kdata_eqv_refl.
Qed.

(** Whatever the history, complete data is correct data. *)
Lemma get_data_never_wrong : forall key sb s kd s', env_uniform sob e -> cache_ok s ->
  get_data sob e key sb s = (Ok kd, s') -> complete kd ->
  exists kd', fresh sob e key sb = Ok kd' /\ kdata_eqv kd kd'.
Proof.
  intros key sb s kd s' U C H [P1 [P2 P3]]. rewrite fresh_eq. unfold fresh_value. rewrite get_data_eq in H.
  destruct (obs_of e key) as [[k m]|x] eqn:E; [|discriminate]. apply obs_of_holds in E.
  assert (Um : uniform sob m) by (eapply holds_key_uniform; eauto).
  assert (G : forall mp, mp = fst (fst (compute_key e k m)) -> mp_psf mp <> None -> mp_mcal mp <> None ->
              snd (compute_key e k m) = Ok tt).
  { intros mp -> X1 X2. unfold compute_key in *. destruct (psf_flags e m); cbn in *; [|congruence].
    destruct (all_metacal e m); cbn in *; congruence. }
  assert (C1 := after_key_ok k m s E C).
  destruct (key_outcome k m s) as [u|]; [|discriminate]. unfold after_sb in H.
  destruct (assoc key_eqb k (s_cache (after_key k m s))) as [ent|] eqn:A; [|discriminate].
  destruct (C1 k ent A) as [m' [Hm' [E1 E2]]].
  assert (m' = m) by (eapply holds_key_fun; eauto). subst m'.
  destruct (assoc bands_eqb (zsort sb) (snd ent)) as [kd0|] eqn:B.
  - apply pair_equal_spec in H. destruct H as [H _]. apply Ok_inj in H. subst kd0.
    destruct (E2 _ _ B) as [sb0 [Es Ek]]. subst kd. rewrite compute_sb_mp in P1, P2.
    rewrite (G _ E1 P1 P2). cbv zeta. rewrite <- E1.
    destruct (compute_sb_sum _ _ _ P3) as [s0 [Hs0 ->]].
    destruct (summarise_perm _ _ _ sb _ Um (zsort_eq_perm _ _ Es) Hs0) as [s1 [Hs1 Q]].
    unfold compute_sb. rewrite Hs1. cbn [fst snd]. eexists. split; [reflexivity|]. split; auto.
  - apply pair_equal_spec in H. destruct H as [H _].
    destruct (snd (compute_sb sob e (fst ent) m sb)) as [v|] eqn:V; [|discriminate]. apply Ok_inj in H. subst kd.
    rewrite compute_sb_mp in P1, P2. rewrite (G _ E1 P1 P2). cbv zeta. rewrite <- E1, V.
    eexists. split; [reflexivity|]. apply kdata_eqv_refl.
Qed.

(** A request that succeeded is answered from the cache ever after. *)
Definition extends (s s' : state) : Prop :=
  forall k ent, assoc key_eqb k (s_cache s) = Some ent ->
    exists ent', assoc key_eqb k (s_cache s') = Some ent' /\ fst ent' = fst ent /\
      forall sk kd, assoc bands_eqb sk (snd ent) = Some kd -> assoc bands_eqb sk (snd ent') = Some kd.
Lemma extends_refl : forall s, extends s s.
Proof. intros s k ent H. exists ent. auto. Qed.
Lemma extends_trans : forall a b c, extends a b -> extends b c -> extends a c.
Proof.
  intros a b c H1 H2 k ent H. destruct (H1 _ _ H) as [e1 [A [B D]]]. destruct (H2 _ _ A) as [e2 [A2 [B2 D2]]].
  exists e2. split; auto. split; [congruence|]. intros sk kd X. apply D2. now apply D.
Qed.
Lemma after_key_extends : forall k m s, extends s (after_key k m s).
Proof.
  intros k m s. unfold after_key. destruct (assoc key_eqb k (s_cache s)) eqn:E; [apply extends_refl|].
  intros k2 ent H. exists ent. split; auto. cbn [s_cache]. rewrite (assoc_dput_other _ key_eqb_ok); auto. congruence.
Qed.
Lemma after_sb_extends : forall k m sb s, extends s (snd (after_sb k m sb s)).
Proof.
  intros k m sb s. unfold after_sb. destruct (assoc key_eqb k (s_cache s)) as [ent|] eqn:E; [|apply extends_refl].
  destruct (assoc bands_eqb (zsort sb) (snd ent)) eqn:B; [apply extends_refl|].
  intros k2 ent2 H. cbn [snd s_cache]. destruct (eq_dec_k _ key_eqb_ok k2 k) as [->|N].
  - rewrite (assoc_dput_same _ key_eqb_ok). eexists. split; [reflexivity|]. cbn [fst snd].
    assert (ent2 = ent) by congruence. subst. split; auto. intros sk kd X.
    rewrite (assoc_dput_other _ bands_eqb_ok); auto. congruence.
  - rewrite (assoc_dput_other _ key_eqb_ok); auto. exists ent2. auto.
Qed.
Lemma get_data_extends : forall key sb s, extends s (snd (get_data sob e key sb s)).
Proof.
  intros key sb s. rewrite get_data_eq. destruct (obs_of e key) as [[k m]|x]; [|apply extends_refl].
  destruct (key_outcome k m s); [|apply after_key_extends].
  eapply extends_trans; [apply after_key_extends|apply after_sb_extends].
Qed.
Lemma get_data_stable : forall key sb s kd s' s'' sb', get_data sob e key sb s = (Ok kd, s') ->
  extends s' s'' -> zsort sb' = zsort sb -> get_data sob e key sb' s'' = (Ok kd, s'').
Proof.
  intros key sb s kd s' s'' sb' H X Z. rewrite get_data_eq in *. destruct (obs_of e key) as [[k m]|x]; [|discriminate].
  destruct (key_outcome k m s) as [u|]; [|discriminate].
  assert (G : exists ent, assoc key_eqb k (s_cache s') = Some ent /\ assoc bands_eqb (zsort sb) (snd ent) = Some kd).
  { unfold after_sb in H. destruct (assoc key_eqb k (s_cache (after_key k m s))) as [ent|] eqn:A; [|discriminate].
    destruct (assoc bands_eqb (zsort sb) (snd ent)) as [kd0|] eqn:B.
    - apply pair_equal_spec in H. destruct H as [H <-]. apply Ok_inj in H; subst. eauto.
    - apply pair_equal_spec in H. destruct H as [H <-]. cbn [s_cache]. rewrite (assoc_dput_same _ key_eqb_ok).
      eexists. split; [reflexivity|]. cbn [snd]. rewrite (assoc_dput_same _ bands_eqb_ok).
      destruct (snd (compute_sb sob e (fst ent) m sb)); [|discriminate]. apply Ok_inj in H. now f_equal. }
  destruct G as [ent [A B]]. destruct (X _ _ A) as [ent' [A' [_ D]]].
  unfold key_outcome, after_key. rewrite A'. unfold after_sb. rewrite A', Z, (D _ _ B). reflexivity.
Qed.

(** ** Programs built from requests *)
Definition preserves (I : state -> Prop) {A} (p : M O FR A) : Prop := forall s, I s -> I (snd (p s)).
Lemma pres_bind : forall (I : state -> Prop) A B (p : M O FR A) (f : A -> M O FR B),
  preserves I p -> (forall a, preserves I (f a)) -> preserves I (mbind p f).
Proof.
  intros I A B p f H1 H2 s Hs. unfold mbind. specialize (H1 s Hs). destruct (p s) as [[a|x] s1]; auto. now apply H2.
Qed.
Lemma pres_ret : forall (I : state -> Prop) A (a : A), preserves I (ret a : M O FR A).
Proof. intros I A a s H. exact H. Qed.
Lemma pres_lift : forall (I : state -> Prop) A (a : outcome A), preserves I (lift a : M O FR A).
Proof. intros I A a s H. exact H. Qed.
Lemma pres_mmap : forall (I : state -> Prop) A B (f : A -> M O FR B) l,
  (forall a, preserves I (f a)) -> preserves I (mmap f l).
Proof.
  intros I A B f l H. induction l as [|a l IH]; cbn [mmap]; [apply pres_ret|].
  apply pres_bind; auto. intros b. apply pres_bind; auto. intros bs. apply pres_ret.
Qed.
Definition result_free (I : state -> Prop) : Prop :=
  forall c l r r', I (mkState c l r) -> I (mkState c l r').
Lemma pres_set : forall (I : state -> Prop) r, result_free I -> preserves I (set_result r : M O FR unit).
Proof. intros I r F [c l x] H. cbn. eapply F. exact H. Qed.

Section Pres.
Variable I : state -> Prop.
Hypothesis IF : result_free I.
Hypothesis IG : forall key sb, preserves I (get_data sob e key sb).
Lemma pres_go_bands : forall a b c, preserves I (go_bands sob e a b c).
Proof.
  intros a b c. unfold go_bands. apply pres_bind; auto. intros kd. apply pres_mmap. intros sm.
  apply pres_bind; [apply pres_lift|]. intros cs. apply pres_bind; [apply pres_lift|]. intros su.
  apply pres_bind; [apply pres_lift|]. intros r. apply pres_ret.
Qed.
Lemma pres_color_one : forall a b c d, preserves I (color_one sob e a b c d).
Proof.
  intros a b c d. unfold color_one. apply pres_bind; auto. intros kd. apply pres_bind; [apply pres_lift|].
  intros [dict|]; [|apply pres_ret]. apply pres_bind; [apply pres_lift|]. intros m. apply pres_bind; [apply pres_lift|].
  intros st. apply pres_bind; [apply pres_lift|]. intros su. apply pres_bind; [apply pres_lift|]. intros r. apply pres_ret.
Qed.
Lemma pres_go_bands_color : forall k a b c, preserves I (go_bands_color sob e k a b c).
Proof.
  intros k a b c. unfold go_bands_color. apply pres_mmap. intros sm. apply pres_bind; [apply pres_lift|]. intros f0.
  apply pres_bind; [apply pres_lift|]. intros cs. apply pres_bind; [apply pres_lift|]. intros [|fl fls]; [apply pres_ret|].
  apply pres_bind; [apply pres_lift|]. intros keys. apply pres_bind; [|intros; apply pres_ret].
  apply pres_mmap. intros dk. apply pres_color_one.
Qed.
Lemma pres_go : preserves I (go sob e).
Proof.
  unfold go. apply pres_bind; [apply pres_lift|]. intros mf. destruct (give_up sob e mf); [now apply pres_set|].
  apply pres_bind; auto. intros kd. apply pres_bind; [apply pres_lift|]. intros [mcal|]; [|now apply pres_set].
  apply pres_bind; [|intros; now apply pres_set]. apply pres_mmap. intros sd.
  destruct (e_color e) as [[keyf dep]|]; [apply pres_go_bands_color|apply pres_go_bands].
Qed.
Lemma pres_step : forall o, preserves I (step sob e o).
Proof. intros [k sb|]; cbn [step]; [|apply pres_go]. apply pres_bind; auto. intros; apply pres_ret. Qed.
Lemma pres_run : forall h s, I s -> I (snd (run_ops sob e h s)).
Proof.
  induction h as [|o h IH]; intros s H; cbn [run_ops]; auto.
  assert (H1 := pres_step o s H). destruct (step sob e o s) as [x s1]. cbn [snd] in H1.
  specialize (IH s1 H1). destruct (run_ops sob e h s1) as [xs s2]. exact IH.
Qed.
End Pres.

(** The same for properties kept by successful runs. *)
Definition keeps (I : state -> Prop) {A} (p : M O FR A) : Prop := forall s a s', I s -> p s = (Ok a, s') -> I s'.
Lemma keep_bind : forall (I : state -> Prop) A B (p : M O FR A) (f : A -> M O FR B),
  keeps I p -> (forall a, keeps I (f a)) -> keeps I (mbind p f).
Proof.
  intros I A B p f H1 H2 s b s' Hs H. unfold mbind in H. destruct (p s) as [[a|x] s1] eqn:E; [|discriminate].
  eapply H2; [|exact H]. eapply H1; eauto.
Qed.
Lemma keep_ret : forall (I : state -> Prop) A (a : A), keeps I (ret a : M O FR A).
Proof. intros I A a s b s' H E. apply pair_equal_spec in E. destruct E as [_ <-]. exact H. Qed.
Lemma keep_lift : forall (I : state -> Prop) A (a : outcome A), keeps I (lift a : M O FR A).
Proof. intros I A a s b s' H E. apply pair_equal_spec in E. destruct E as [_ <-]. exact H. Qed.
Lemma keep_mmap : forall (I : state -> Prop) A B (f : A -> M O FR B) l,
  (forall a, keeps I (f a)) -> keeps I (mmap f l).
Proof.
  intros I A B f l H. induction l as [|a l IH]; cbn [mmap]; [apply keep_ret|].
  apply keep_bind; auto. intros b. apply keep_bind; auto. intros bs. apply keep_ret.
Qed.
Lemma keep_set : forall (I : state -> Prop) r, result_free I -> keeps I (set_result r : M O FR unit).
Proof. intros I r F [c l x] a s' H E. apply pair_equal_spec in E. destruct E as [_ <-]. eapply F. exact H. Qed.
Section Keep.
Variable I : state -> Prop.
Hypothesis IF : result_free I.
Hypothesis IG : forall key sb, keeps I (get_data sob e key sb).
Lemma keep_go_bands : forall a b c, keeps I (go_bands sob e a b c).
Proof.
  intros a b c. unfold go_bands. apply keep_bind; auto. intros kd. apply keep_mmap. intros sm.
  apply keep_bind; [apply keep_lift|]. intros cs. apply keep_bind; [apply keep_lift|]. intros su.
  apply keep_bind; [apply keep_lift|]. intros r. apply keep_ret.
Qed.
Lemma keep_color_one : forall a b c d, keeps I (color_one sob e a b c d).
Proof.
  intros a b c d. unfold color_one. apply keep_bind; auto. intros kd. apply keep_bind; [apply keep_lift|].
  intros [dict|]; [|apply keep_ret]. apply keep_bind; [apply keep_lift|]. intros m. apply keep_bind; [apply keep_lift|].
  intros st. apply keep_bind; [apply keep_lift|]. intros su. apply keep_bind; [apply keep_lift|]. intros r. apply keep_ret.
Qed.
Lemma keep_go_bands_color : forall k a b c, keeps I (go_bands_color sob e k a b c).
Proof.
  intros k a b c. unfold go_bands_color. apply keep_mmap. intros sm. apply keep_bind; [apply keep_lift|]. intros f0.
  apply keep_bind; [apply keep_lift|]. intros cs. apply keep_bind; [apply keep_lift|]. intros [|fl fls]; [apply keep_ret|].
  apply keep_bind; [apply keep_lift|]. intros keys. apply keep_bind; [|intros; apply keep_ret].
  apply keep_mmap. intros dk. apply keep_color_one.
Qed.
Lemma keep_go : keeps I (go sob e).
Proof.
  unfold go. apply keep_bind; [apply keep_lift|]. intros mf. destruct (give_up sob e mf); [now apply keep_set|].
  apply keep_bind; auto. intros kd. apply keep_bind; [apply keep_lift|]. intros [mcal|]; [|now apply keep_set].
  apply keep_bind; [|intros; now apply keep_set]. apply keep_mmap. intros sd.
  destruct (e_color e) as [[keyf dep]|]; [apply keep_go_bands_color|apply keep_go_bands].
Qed.
Lemma keep_step : forall o, keeps I (step sob e o).
Proof. intros [k sb|]; cbn [step]; [|apply keep_go]. apply keep_bind; auto. intros; apply keep_ret. Qed.
Lemma keep_run : forall h s, I s -> all_ok (fst (run_ops sob e h s)) -> I (snd (run_ops sob e h s)).
Proof.
  induction h as [|o h IH]; intros s H; cbn [run_ops]; auto.
  destruct (step sob e o s) as [x s1] eqn:E. destruct (run_ops sob e h s1) as [xs s2] eqn:E2. cbn [fst snd].
  intros K. destruct (K x (or_introl eq_refl)) as [u ->].
  specialize (IH s1 (keep_step o s u s1 H E)). rewrite E2 in IH. apply IH. cbn [fst]. intros y Hy. apply K. now right.
Qed.
End Keep.

Lemma cache_ok_init : cache_ok init_state.
Proof. intros k ent H. discriminate. Qed.
Lemma clean_init : clean_cache init_state.
Proof. intros k ent H. discriminate. Qed.
Lemma log_ok_init : log_ok init_state.
Proof. split; [constructor|]. split; cbn; intros; [destruct H as [[]|[]]|destruct H]. Qed.

Lemma cache_ok_after : forall h, cache_ok (after sob e h).
Proof.
  intros h. apply (pres_run cache_ok).
  - intros c l r r' H. exact H.
  - intros key sb s. apply get_data_cache.
  - apply cache_ok_init.
Qed.
Lemma log_ok_after : forall h, log_ok (after sob e h).
Proof.
  intros h. apply (pres_run log_ok).
  - intros c l r r' H. exact H.
  - intros key sb s. apply get_data_log.
  - apply log_ok_init.
Qed.
Lemma clean_after : forall h, healthy sob e h -> clean_cache (after sob e h).
Proof.
  intros h H. apply (keep_run clean_cache); auto.
  - intros c l r r' X. exact X.
  - intros key sb s kd s' C X. eapply get_data_clean; eauto.
  - apply clean_init.
Qed.

(** ** Repeatability *)
Definition repeatable {A} (p : M O FR A) : Prop := forall s a s', p s = (Ok a, s') ->
  extends s s' /\ forall s'', extends s' s'' -> p s'' = (Ok a, s'').
Lemma rep_ret : forall A (a : A), repeatable (ret a).
Proof.
  intros A a s b s' H. apply pair_equal_spec in H. destruct H as [H <-]. apply Ok_inj in H; subst.
  split; [apply extends_refl|]. auto.
Qed.
Lemma rep_lift : forall A (a : outcome A), repeatable (lift a).
Proof.
  intros A a s b s' H. apply pair_equal_spec in H. destruct H as [H <-]. subst a.
  split; [apply extends_refl|]. auto.
Qed.
Lemma rep_bind : forall A B (p : M O FR A) (f : A -> M O FR B),
  repeatable p -> (forall a, repeatable (f a)) -> repeatable (mbind p f).
Proof.
  intros A B p f H1 H2 s b s' H. unfold mbind in *. destruct (p s) as [[a|x] s1] eqn:E; [|discriminate].
  destruct (H1 _ _ _ E) as [X1 R1]. destruct (H2 a _ _ _ H) as [X2 R2]. split.
  - eapply extends_trans; eauto.
  - intros s'' X. rewrite R1; [now apply R2|]. eapply extends_trans; eauto.
Qed.
Lemma rep_mmap : forall A B (f : A -> M O FR B) l, (forall a, repeatable (f a)) -> repeatable (mmap f l).
Proof.
  intros A B f l H. induction l as [|a l IH]; cbn [mmap]; [apply rep_ret|].
  apply rep_bind; auto. intros b. apply rep_bind; auto. intros bs. apply rep_ret.
Qed.
Lemma rep_get_data : forall key sb, repeatable (get_data sob e key sb).
Proof.
  intros key sb s kd s' H. split.
  - assert (X := get_data_extends key sb s). rewrite H in X. exact X.
  - intros s'' X. eapply get_data_stable; eauto.
Qed.
Lemma rep_go_bands : forall a b c, repeatable (go_bands sob e a b c).
Proof.
  intros a b c. unfold go_bands. apply rep_bind; [apply rep_get_data|]. intros kd. apply rep_mmap. intros sm.
  apply rep_bind; [apply rep_lift|]. intros cs. apply rep_bind; [apply rep_lift|]. intros su.
  apply rep_bind; [apply rep_lift|]. intros r. apply rep_ret.
Qed.
Lemma rep_color_one : forall a b c d, repeatable (color_one sob e a b c d).
Proof.
  intros a b c d. unfold color_one. apply rep_bind; [apply rep_get_data|]. intros kd. apply rep_bind; [apply rep_lift|].
  intros [dict|]; [|apply rep_ret]. apply rep_bind; [apply rep_lift|]. intros m. apply rep_bind; [apply rep_lift|].
  intros st. apply rep_bind; [apply rep_lift|]. intros su. apply rep_bind; [apply rep_lift|]. intros r. apply rep_ret.
Qed.
Lemma rep_go_bands_color : forall k a b c, repeatable (go_bands_color sob e k a b c).
Proof.
  intros k a b c. unfold go_bands_color. apply rep_mmap. intros sm. apply rep_bind; [apply rep_lift|]. intros f0.
  apply rep_bind; [apply rep_lift|]. intros cs. apply rep_bind; [apply rep_lift|]. intros [|fl fls]; [apply rep_ret|].
  apply rep_bind; [apply rep_lift|]. intros keys. apply rep_bind; [|intros; apply rep_ret].
  apply rep_mmap. intros dk. apply rep_color_one.
Qed.
Lemma extends_result : forall s r, extends s (mkState (s_cache s) (s_log s) r).
Proof. intros s r k ent H. exists ent. auto. Qed.

(** go() again, on any later state: same result, nothing new computed. *)
Lemma go_again : forall s s' s'', go sob e s = (Ok tt, s') -> extends s' s'' ->
  go sob e s'' = (Ok tt, mkState (s_cache s'') (s_log s'') (s_result s')).
Proof.
  intros s s' s'' H X. unfold go in *. unfold mbind at 1 in H. unfold mbind at 1.
  unfold lift at 1 in H. unfold lift at 1.
  destruct (get_mfrac (map (map sob) (e_main e))) as [mf|]; [|discriminate].
  destruct (give_up sob e mf).
  { apply pair_equal_spec in H. destruct H as [_ <-]. reflexivity. }
  unfold mbind at 1 in H. unfold mbind at 1.
  destruct (get_data sob e None (zrange (zlen (e_main e))) s) as [[kd|x] s1] eqn:E1; [|discriminate].
  unfold mbind at 1 in H. unfold mbind at 1. unfold lift at 1 in H. unfold lift at 1.
  destruct (kd_mcal kd) as [mc|] eqn:Ek; [|discriminate].
  destruct (rep_get_data _ _ _ _ _ E1) as [X1 R1].
  destruct mc as [mcal|].
  - unfold mbind at 1 in H. unfold mbind at 1.
    set (f := fun sd : list Z * list Z => match e_color e with
              | Some (keyf, _) => go_bands_color sob e keyf (fst sd) (snd sd) mcal
              | None => go_bands sob e (fst sd) (snd sd) mcal end) in *.
    assert (Rf : repeatable (mmap f (combine (e_shear e) (e_det e)))).
    { apply rep_mmap. intros sd. unfold f. destruct (e_color e) as [[keyf dep]|]; [apply rep_go_bands_color|apply rep_go_bands]. }
    destruct (mmap f (combine (e_shear e) (e_det e)) s1) as [[all|x] s2] eqn:E2; [|discriminate].
    destruct (Rf _ _ _ E2) as [X2 R2]. apply pair_equal_spec in H. destruct H as [_ <-].
    assert (X3 : extends s2 s'') by (eapply extends_trans; [apply extends_result|exact X]).
    rewrite R1 by (eapply extends_trans; eauto). cbv beta iota. rewrite Ek. cbv beta iota. fold f.
    rewrite (R2 _ X3). reflexivity.
  - apply pair_equal_spec in H. destruct H as [_ <-].
    rewrite R1 by (eapply extends_trans; [apply extends_result|exact X]). cbv beta iota. rewrite Ek. reflexivity.
Qed.
End Cache.
