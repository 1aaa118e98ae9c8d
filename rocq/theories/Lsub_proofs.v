From Coq Require Import ZArith List String Bool Lia.
From Verif Require Import Base Dict Lutil_model Lsub_model Lsub_spec.
Import ListNotations.
Local Open Scope string_scope.
Local Open Scope Z_scope.

Lemma in_boxb_spec : forall b x y, in_boxb b x y = true <-> in_box b x y.
Proof.
  intros [c|] x y; cbn; [|split; [discriminate|tauto]].
  rewrite !andb_true_iff, !Z.leb_le. tauto.
Qed.

Lemma zget_put : forall V k k' (v : V) d, zget k (zput k' v d) = if k =? k' then Some v else zget k d.
Proof.
  intros V k k' v d. induction d as [|[a w] d IH]; cbn; [reflexivity|].
  destruct (Z.eqb_spec k' a) as [->|N]; cbn.
  - destruct (k =? a); reflexivity.
  - destruct (Z.eqb_spec k a) as [->|N2]; [|exact IH]. destruct (Z.eqb_spec a k'); congruence.
Qed.
Lemma zput_fresh : forall V k (v : V) d, ~ In k (map fst d) -> zput k v d = (d ++ [(k, v)])%list.
Proof.
  intros V k v d. induction d as [|[a w] d IH]; intros N; cbn in *; [reflexivity|].
  destruct (Z.eqb_spec k a) as [->|Ne]; [tauto|]. rewrite IH by tauto. reflexivity.
Qed.
Lemma zget_In : forall V k (v : V) d, zget k d = Some v -> In (k, v) d.
Proof.
  intros V k v d. induction d as [|[a w] d IH]; cbn; [discriminate|].
  destruct (Z.eqb_spec k a) as [->|N]; [intros H; apply Some_inj in H; subst; auto|auto].
Qed.
Lemma zget_not_in : forall V k (d : list (Z * V)), zget k d = None <-> ~ In k (map fst d).
Proof.
  intros V k d. induction d as [|[a w] d IH]; cbn; [tauto|].
  destruct (Z.eqb_spec k a) as [->|N]; [split; [discriminate|tauto]|]. rewrite IH. split; [intros H [E|H2]; [congruence|tauto]|tauto].
Qed.

Section Sub.
Variables (P : Type).
Notation images := (images P).
Notation entry := (entry P).
Notation touch := (touch P).
Notation touch_all := (touch_all P).
Notation subtractor := (subtractor P).

Definition app (op : P -> P -> P) (x : P) (o : option P) : P := match o with Some m => op x m | None => x end.
Definition entry_at (e : entry) (band : string) (x y : Z) : option P :=
  if in_boxb (en_box P e) x y then match band_of P (en_heavy P e) band with Ok p => p x y | Raise _ => None end else None.

Definition touch_ok (bands : list string) (ebox : box) (e : entry) (l : list string) : Prop :=
  Forall (fun band => (exists p, band_of P (en_heavy P e) band = Ok p) /\ In band bands /\ contains_box ebox (en_box P e) = true) l.

Lemma touch_value : forall op bands ebox e im band im', touch op bands ebox e im band = Ok im' ->
  touch_ok bands ebox e [band] /\
  (forall b x y, im' b x y = if String.eqb b band then app op (im b x y) (entry_at e b x y) else im b x y).
Proof.
  intros op bands ebox e im band im'. unfold Lsub_model.touch.
  destruct (band_of P (en_heavy P e) band) as [p|ex] eqn:Eb; cbn [obind]; [|discriminate].
  destruct (smem band bands) eqn:Em; cbn [negb]; [|discriminate].
  destruct (contains_box ebox (en_box P e)) eqn:Ec; cbn [negb]; [|discriminate].
  intros H. apply Ok_inj in H. subst im'. split.
  - constructor; [|constructor]. rewrite smem_In in Em. split; [eauto|split; auto].
  - intros b x y. unfold apply, entry_at. destruct (String.eqb_spec b band) as [->|N]; cbn [andb]; [|reflexivity].
    rewrite Eb. destruct (in_boxb (en_box P e) x y); [|reflexivity]. destruct (p x y); reflexivity.
Qed.
Lemma touch_ok_one : forall op bands ebox e im band, touch_ok bands ebox e [band] -> exists im', touch op bands ebox e im band = Ok im'.
Proof.
  intros op bands ebox e im band H. inversion H as [|? ? [[p Hp] [Hin Hc]] _]; subst. unfold Lsub_model.touch. rewrite Hp.
  cbn [obind]. apply smem_In in Hin. rewrite Hin, Hc. cbn [negb]. eauto.
Qed.
Lemma touch_all_value : forall op bands ebox e l im im', NoDup l -> touch_all op bands ebox e l im = (im', Ok tt) ->
  touch_ok bands ebox e l /\
  (forall b x y, im' b x y = if smem b l then app op (im b x y) (entry_at e b x y) else im b x y).
Proof.
  intros op bands ebox e l. induction l as [|band l IH]; intros im im' N H; cbn [Lsub_model.touch_all] in H.
  - rewrite pair_equal_spec in H. destruct H as [<- _]. split; [constructor|reflexivity].
  - destruct (touch op bands ebox e im band) as [im1|ex] eqn:E1; [|rewrite pair_equal_spec in H; destruct H; discriminate].
    destruct (touch_value _ _ _ _ _ _ _ E1) as [Ho Hv]. inversion N; subst.
    destruct (IH im1 im' H3 H) as [Hr Hw]. split.
    + inversion Ho; subst. constructor; auto.
    + intros b x y. rewrite Hw, Hv. unfold smem. cbn [existsb]. fold (smem b l).
      destruct (String.eqb_spec b band) as [->|Nb]; cbn [orb]; [|reflexivity].
      assert (E : smem band l = false) by (apply smem_false; auto). rewrite E. reflexivity.
Qed.
Lemma touch_all_ok : forall op bands ebox e l im, touch_ok bands ebox e l -> exists im', touch_all op bands ebox e l im = (im', Ok tt).
Proof.
  intros op bands ebox e l. induction l as [|band l IH]; intros im H; cbn [Lsub_model.touch_all]; [eauto|].
  inversion H; subst. destruct (touch_ok_one op bands ebox e im band) as [im1 E1]; [constructor; auto|]. rewrite E1. apply IH. auto.
Qed.
Lemma touch_ok_incl : forall bands ebox e l l', incl l' l -> touch_ok bands ebox e l -> touch_ok bands ebox e l'.
Proof. unfold touch_ok. intros bands ebox e l l' I H. rewrite Forall_forall in *. auto. Qed.
Lemma touch_all_det : forall op bands ebox e l im, touch_ok bands ebox e l -> NoDup l ->
  exists im', touch_all op bands ebox e l im = (im', Ok tt) /\
  (forall b x y, im' b x y = if smem b l then app op (im b x y) (entry_at e b x y) else im b x y).
Proof.
  intros op bands ebox e l im H N. destruct (touch_all_ok op bands ebox e l im H) as [im' E]. exists im'. split; auto.
  apply touch_all_value in E; tauto.
Qed.

(** ** Building *)

Section Built.
Variables (mbands bands : list string) (ebox : box) (foot : Z -> option (box * list (Z * Z))).
Definition entry_of (b : blend_source P) : entry :=
  match foot (b_id P b) with
  | Some (bx, pks) => mkEntry P bx pks (to_heavy P mbands b)
  | None => mkEntry P None [] (HMulti P [])
  end.
Definition at_list (l : list (blend_source P)) (band : string) (x y : Z) : list P :=
  flat_map (fun b => match entry_at (entry_of b) band x y with Some m => [m] | None => [] end) l.

Lemma fold_at : forall op l band x y v,
  fold_left (fun acc b => app op acc (entry_at (entry_of b) band x y)) l v = fold_left op (at_list l band x y) v.
Proof.
  intros op l band x y. unfold at_list. induction l as [|b l IH]; intros v; cbn; [reflexivity|].
  rewrite IH, fold_left_app. destruct (entry_at (entry_of b) band x y); reflexivity.
Qed.

Lemma build_value : forall sub l im d im' d', NoDup mbands -> build P sub mbands bands ebox foot l im d = Ok (im', d') ->
  Forall (fun b => foot (b_id P b) <> None /\ touch_ok bands ebox (entry_of b) mbands) l /\
  d' = fold_left (fun acc b => zput (b_id P b) (entry_of b) acc) l d /\
  (forall band x y, im' band x y = if smem band mbands then fold_left sub (at_list l band x y) (im band x y) else im band x y).
Proof.
  intros sub l. induction l as [|b l IH]; intros im d im' d' N H; cbn [build] in H.
  - apply Ok_inj in H. rewrite pair_equal_spec in H. destruct H as [<- <-]. split; [constructor|split; [reflexivity|]].
    intros. cbn. destruct (smem band mbands); reflexivity.
  - destruct (foot (b_id P b)) as [[bx pks]|] eqn:Ef; [|discriminate].
    assert (Ee : entry_of b = mkEntry P bx pks (to_heavy P mbands b)) by (unfold entry_of; rewrite Ef; reflexivity).
    rewrite <- Ee in H.
    destruct (touch_all sub bands ebox (entry_of b) mbands im) as [im1 o] eqn:E1. destruct o as [[]|ex]; cbn [obind] in H; [|discriminate].
    destruct (touch_all_value _ _ _ _ _ _ _ N E1) as [Ho Hv].
    destruct (IH _ _ _ _ N H) as [Hf [Hd Hw]]. split; [constructor; auto; split; [congruence|auto]|]. split; [exact Hd|].
    intros band x y. rewrite Hw, Hv. destruct (smem band mbands) eqn:Em; [|reflexivity].
    unfold at_list. cbn [flat_map]. rewrite fold_left_app. destruct (entry_at (entry_of b) band x y); reflexivity.
Qed.

Lemma fold_put_fresh : forall l d, NoDup (map (b_id P) l) -> (forall b, In b l -> ~ In (b_id P b) (map fst d)) ->
  fold_left (fun acc b => zput (b_id P b) (entry_of b) acc) l d = (d ++ map (fun b => (b_id P b, entry_of b)) l)%list.
Proof.
  intros l. induction l as [|b l IH]; intros d N F; cbn; [now rewrite app_nil_r|]. cbn in N. inversion N; subst.
  rewrite zput_fresh by (apply F; left; reflexivity). rewrite IH; auto.
  - rewrite <- app_assoc. reflexivity.
  - intros c Hc. rewrite map_app, in_app_iff. cbn. intros [H|[H|[]]].
    + apply (F c); [right|]; auto.
    + apply H1. rewrite H. apply in_map. exact Hc.
Qed.
Lemma zget_map : forall l b, NoDup (map (b_id P) l) -> In b l -> zget (b_id P b) (map (fun b => (b_id P b, entry_of b)) l) = Some (entry_of b).
Proof.
  intros l b. induction l as [|c l IH]; intros N H; cbn; [destruct H|]. cbn in N. inversion N; subst.
  destruct H as [->|H]; [rewrite Z.eqb_refl; reflexivity|].
  destruct (Z.eqb_spec (b_id P b) (b_id P c)) as [E|Ne]; [|auto]. destruct H2. rewrite <- E. apply in_map. exact H.
Qed.
Lemma fold_put_get : forall l d id e, zget id (fold_left (fun acc b => zput (b_id P b) (entry_of b) acc) l d) = Some e ->
  zget id d = Some e \/ exists b, In b l /\ b_id P b = id /\ e = entry_of b.
Proof.
  intros l. induction l as [|b l IH]; intros d id e H; cbn in H; [auto|].
  apply IH in H. destruct H as [H|[c [Hc H]]]; [|right; exists c; cbn; tauto].
  rewrite zget_put in H. destruct (Z.eqb_spec id (b_id P b)) as [->|N]; [|auto]. apply Some_inj in H. right. exists b. cbn. auto.
Qed.

(** The value of an entry is the specification's. *)
Lemma sget_map_band : forall (f : string -> pixmap P) l band,
  sget band (map (fun b => (b, f b)) l) = if smem band l then Some (f band) else None.
Proof.
  intros f l band. induction l as [|a l IH]; cbn; [reflexivity|]. destruct (String.eqb_spec band a) as [->|N]; cbn; [reflexivity|exact IH].
Qed.
Lemma band_of_entry : forall b band p, foot (b_id P b) <> None -> band_of P (en_heavy P (entry_of b)) band = Ok p ->
  p = b_pix P b band /\ In band mbands /\ (List.length mbands <> 1)%nat.
Proof.
  intros b band p Hf. unfold entry_of. destruct (foot (b_id P b)) as [[bx pks]|]; [|congruence]. cbn [en_heavy]. unfold to_heavy.
  assert (G : forall l : list string, match sget band (map (fun b0 => (b0, b_pix P b b0)) l) with Some p0 => Ok p0 | None => Raise KeyError end = Ok p ->
    p = b_pix P b band /\ In band l).
  { intros l. rewrite sget_map_band. destruct (smem band l) eqn:E; [|discriminate]. intros H. apply Ok_inj in H. apply smem_In in E. auto. }
  destruct mbands as [|a [|c r]]; cbn [band_of].
  - intros H. apply (G []) in H. destruct H as [_ []].
  - discriminate.
  - intros H. apply G in H. cbn. intuition lia.
Qed.
Lemma entry_at_value : forall b band x y m, foot (b_id P b) <> None -> touch_ok bands ebox (entry_of b) mbands -> In band mbands ->
  entry_at (entry_of b) band x y = Some m <-> value_at P foot b band x y m.
Proof.
  intros b band x y m Hf Ho Hin. unfold touch_ok in Ho. rewrite Forall_forall in Ho. destruct (Ho band Hin) as [[p Hp] _].
  destruct (band_of_entry b band p Hf Hp) as [-> _].
  unfold entry_at, value_at. rewrite Hp. unfold entry_of. destruct (foot (b_id P b)) as [[bx pks]|]; [|congruence]. cbn [en_box]. split.
  - destruct (in_boxb bx x y) eqn:E; [|discriminate]. intros H. exists bx, pks. rewrite <- in_boxb_spec. auto.
  - intros [bx' [pks' [E [Hb H]]]]. apply Some_inj in E. rewrite pair_equal_spec in E. destruct E as [<- <-].
    apply in_boxb_spec in Hb. rewrite Hb. exact H.
Qed.
Definition good_sources (l : list (blend_source P)) : Prop :=
  Forall (fun b => foot (b_id P b) <> None /\ touch_ok bands ebox (entry_of b) mbands) l.
Lemma values_at_list : forall l band x y ms, good_sources l -> In band mbands ->
  values_at P foot band x y l ms <-> ms = at_list l band x y.
Proof.
  intros l band x y ms G Hin. revert ms. induction l as [|b l IH]; intros ms; cbn.
  - split; [intros H; inversion H; reflexivity|intros ->; constructor].
  - inversion G as [|? ? [Hf Ho] G']; subst. specialize (IH G').
    assert (V := entry_at_value b band x y).
    destruct (entry_at (entry_of b) band x y) as [m|] eqn:E; cbn.
    + assert (Hm : value_at P foot b band x y m) by (apply V; auto). split.
      * intros H. inversion H; subst.
        -- f_equal; [|apply IH; auto]. assert (Some m = Some m0) by (apply V; auto). congruence.
        -- exfalso. match goal with K : forall m, ~ _ |- _ => exact (K _ Hm) end.
      * intros ->. constructor; [exact Hm|apply IH; reflexivity].
    + split.
      * intros H. inversion H; subst; [|apply IH; auto]. assert (None = Some m) by (apply V; auto). discriminate.
      * intros ->. apply values_none; [|apply IH; reflexivity]. intros m Hm. assert (None = Some m) by (apply V; auto). discriminate.
Qed.
End Built.

(** ** Running programs *)
Variables (add sub : P -> P -> P).
Notation exec := (exec P add sub).

Definition good (s : subtractor) : Prop :=
  NoDup (s_bands P s) /\ forall id e, zget id (s_entries P s) = Some e -> touch_ok (s_bands P s) (s_box P s) e (s_bands P s).
Definition same (s s' : subtractor) : Prop := same_state P s s'.
Lemma same_refl : forall s, same s s.
Proof. intros s. unfold same, same_state. auto. Qed.
Lemma same_trans : forall a b c, same a b -> same b c -> same a c.
Proof.
  intros a b c [A1 [A2 [A3 [A4 A5]]]] [B1 [B2 [B3 [B4 B5]]]]. unfold same, same_state.
  repeat split; try congruence; intros; solve [rewrite B4; auto|rewrite B5; auto|congruence].
Qed.
Lemma good_same : forall s s', same s s' -> good s -> good s'.
Proof. intros s s' [A1 [A2 [A3 _]]] [N H]. unfold good. rewrite A1, A2, A3. auto. Qed.

Lemma add_or_subtract_value : forall op s id e, good s -> zget id (s_entries P s) = Some e ->
  exists im, add_or_subtract P op s id = (with_cur P s im, Ok tt) /\
  (forall b x y, im b x y = if smem b (s_bands P s) then app op (s_cur P s b x y) (entry_at e b x y) else s_cur P s b x y).
Proof.
  intros op s id e [N H] E. unfold add_or_subtract. rewrite E.
  destruct (touch_all_det op (s_bands P s) (s_box P s) e (s_bands P s) (s_cur P s) (H _ _ E) N) as [im [Hi Hv]].
  rewrite Hi. eauto.
Qed.

(** What the images show: the state without open sources plus the models of the
    open ones. *)
Definition open_at (s : subtractor) (band : string) (x y : Z) (id : Z) : option P :=
  match zget id (s_entries P s) with Some e => entry_at e band x y | None => None end.
Fixpoint plus_open (s : subtractor) (opened : list Z) (band : string) (x y : Z) (v : P) : P :=
  match opened with
  | [] => v
  | id :: r => app add (plus_open s r band x y v) (open_at s band x y id)
  end.
Definition shows (s0 : subtractor) (opened : list Z) (im : images) : Prop :=
  Forall (fun id => In id (map fst (s_entries P s0))) opened /\
  (forall band x y, In band (s_bands P s0) -> im band x y = plus_open s0 opened band x y (s_cur P s0 band x y)).

Hypothesis exact : forall x m, sub (add x m) m = x.
Lemma exec_restores : forall p s0 opened s s' t r, good s -> exec p opened s = (s', t, r) ->
  same s s' /\
  (s_entries P s = s_entries P s0 -> s_bands P s = s_bands P s0 -> shows s0 opened (s_cur P s) ->
   Forall (fun g => shows s0 (fst g) (snd g)) t).
Proof.
  intros p s0. induction p as [| |e|p IHp q IHq|p IHp|id p IHp]; intros opened s s' t r G H; cbn [Lsub_model.exec] in H.
  - rewrite !pair_equal_spec in H. destruct H as [[<- <-] <-]. split; [apply same_refl|constructor].
  - rewrite !pair_equal_spec in H. destruct H as [[<- <-] <-]. split; [apply same_refl|]. intros _ _ Hs. constructor; [exact Hs|constructor].
  - rewrite !pair_equal_spec in H. destruct H as [[<- <-] <-]. split; [apply same_refl|constructor].
  - destruct (exec p opened s) as [[s1 t1] r1] eqn:E1. destruct (IHp _ _ _ _ _ G E1) as [S1 T1]. destruct r1 as [[]|ex].
    + destruct (exec q opened s1) as [[s2 t2] r2] eqn:E2. rewrite !pair_equal_spec in H. destruct H as [[<- <-] <-].
      destruct (IHq _ _ _ _ _ (good_same _ _ S1 G) E2) as [S2 T2]. split; [eapply same_trans; eauto|]. intros He Hb Hs.
      apply Forall_app. split; [auto|]. destruct S1 as [A1 [A2 [A3 [A4 A5]]]]. apply T2; try congruence.
      destruct Hs as [Hs1 Hs2]. split; [exact Hs1|]. intros. rewrite A5. auto.
    + rewrite !pair_equal_spec in H. destruct H as [[<- <-] <-]. auto.
  - destruct (exec p opened s) as [[s1 t1] r1] eqn:E1. destruct (IHp _ _ _ _ _ G E1) as [S1 T1].
    rewrite !pair_equal_spec in H. destruct H as [[<- <-] <-]. auto.
  - unfold check_source_id in H. destruct (zget id (s_entries P s)) as [e|] eqn:Ee.
    2:{ rewrite !pair_equal_spec in H. destruct H as [[<- <-] <-]. split; [apply same_refl|constructor]. }
    destruct (add_or_subtract_value add s id e G Ee) as [im1 [H1 V1]]. rewrite H1 in H.
    set (s1 := with_cur P s im1) in *.
    assert (G1 : good s1) by (destruct G; split; auto).
    destruct (exec p (id :: opened) s1) as [[s2 t2] r2] eqn:E2.
    destruct (IHp _ _ _ _ _ G1 E2) as [S2 T2].
    assert (G2 : good s2) by (eapply good_same; eauto).
    assert (Ee2 : zget id (s_entries P s2) = Some e) by (destruct S2 as [_ [_ [A _]]]; rewrite A; exact Ee).
    destruct (add_or_subtract_value sub s2 id e G2 Ee2) as [im3 [H3 V3]]. rewrite H3 in H.
    rewrite !pair_equal_spec in H. destruct H as [[<- <-] _].
    destruct S2 as [A1 [A2 [A3 [A4 A5]]]]. cbn [s1 with_cur s_bands s_box s_entries s_orig s_cur] in A1, A2, A3, A4, A5. split.
    + unfold same, same_state. cbn [with_cur s_bands s_box s_entries s_orig s_cur]. rewrite A1, A2, A3.
      repeat split; auto. intros band x y. rewrite V3, A1, A5, V1.
      destruct (smem band (s_bands P s)); [|reflexivity]. destruct (entry_at e band x y); cbn; [apply exact|reflexivity].
    + intros He Hb [Hs1 Hs2]. apply T2; [exact He|exact Hb|]. split.
      * constructor; [|exact Hs1]. rewrite <- He. apply zget_In in Ee. change id with (fst (id, e)). apply in_map. exact Ee.
      * intros band x y Hin. change (s_cur P s1) with im1. rewrite V1, Hb.
        assert (Em : smem band (s_bands P s0) = true) by (apply smem_In; exact Hin). rewrite Em. cbn [plus_open].
        rewrite <- Hs2 by exact Hin. unfold open_at. rewrite <- He, Ee. reflexivity.
Qed.
End Sub.

Section Exact.
Variables (P : Type) (add sub : P -> P -> P) (zero : P).
Hypothesis E : exact_arith add sub zero.

Lemma sub_comm : forall x a b, sub (sub x a) b = sub (sub x b) a.
Proof.
  intros x a b. destruct E as [Ea Ec Ez Esa Eas].
  assert (H : forall y, x = add (add y b) a -> sub (sub x a) b = y /\ sub (sub x b) a = y).
  { intros y ->. split; [rewrite !Esa; reflexivity|]. rewrite <- Ea, (Ec b a), Ea, !Esa. reflexivity. }
  destruct (H (sub (sub x a) b)) as [H1 H2]; [rewrite !Eas; reflexivity|congruence].
Qed.
Lemma fold_sub_out : forall l x m, fold_left sub l (sub x m) = sub (fold_left sub l x) m.
Proof. induction l as [|a l IH]; intros x m; cbn; [reflexivity|]. rewrite <- IH. f_equal. apply sub_comm. Qed.
Lemma fold_add_out : forall l x m, fold_left add l (add x m) = add (fold_left add l x) m.
Proof.
  destruct E as [Ea Ec Ez Esa Eas].
  induction l as [|a l IH]; intros x m; cbn; [reflexivity|]. rewrite <- IH. f_equal. rewrite <- !Ea. f_equal. apply Ec.
Qed.
Lemma fold_sub_mid : forall l1 l2 x m, add (fold_left sub (l1 ++ m :: l2) x) m = fold_left sub (l1 ++ l2) x.
Proof.
  intros l1 l2 x m. rewrite !fold_left_app. cbn. rewrite fold_sub_out. apply (add_sub _ _ _ E).
Qed.
Lemma fold_minus_plus : forall l x, add (fold_left sub l x) (fold_left add l zero) = x.
Proof.
  destruct E as [Ea Ec Ez Esa Eas].
  assert (G : forall l x y, add (fold_left sub l x) (fold_left add l y) = add x y).
  { induction l as [|a l IH]; intros x y; cbn; [reflexivity|]. rewrite IH. rewrite (Ec y a), Ea, Eas. reflexivity. }
  intros. rewrite G. apply Ez.
Qed.

Section Made.
Variables (mbands bands : list string) (ebox : box) (foot : Z -> option (box * list (Z * Z))) (l : list (blend_source P))
  (orig : images P) (s : subtractor P).
Hypotheses (Nm : NoDup mbands) (Nb : NoDup bands) (Hi : incl bands mbands) (Ni : NoDup (map (b_id P) l)).
Hypothesis Hs : make_subtractor P sub mbands bands ebox foot l orig = Ok s.

Lemma made : good P s /\ good_sources P mbands bands ebox foot l /\
  s_bands P s = bands /\ s_box P s = ebox /\ s_orig P s = orig /\
  s_entries P s = map (fun b => (b_id P b, entry_of P mbands foot b)) l /\
  (forall band x y, In band mbands -> s_cur P s band x y = fold_left sub (at_list P mbands foot l band x y) (orig band x y)).
Proof.
  unfold make_subtractor in Hs. destruct (build P sub mbands bands ebox foot l orig []) as [[im d]|ex] eqn:Eb; cbn [obind fst snd] in Hs; [|discriminate].
  apply Ok_inj in Hs. destruct (build_value _ _ _ _ _ _ _ _ _ _ _ Nm Eb) as [Hf [Hd Hv]].
  assert (Hd' := Hd). rewrite fold_put_fresh in Hd' by auto. cbn [List.app] in Hd'.
  split; [|split; [exact Hf|subst s; repeat split; auto]].
  - subst s. split; [exact Nb|]. cbn [s_entries s_bands s_box]. intros id e He. rewrite Hd in He.
    apply fold_put_get in He. destruct He as [He|[b [Hb [_ ->]]]]; [discriminate|].
    unfold good_sources in Hf. rewrite Forall_forall in Hf. destruct (Hf b Hb) as [_ Ho].
    apply (touch_ok_incl P bands ebox _ mbands bands Hi Ho).
  - intros band x y Hin. cbn [s_cur]. rewrite Hv. assert (Em : smem band mbands = true) by (apply smem_In; auto). rewrite Em. reflexivity.
Qed.

Lemma good_incl : forall bs, incl bs l -> good_sources P mbands bands ebox foot bs.
Proof.
  intros bs H. destruct made as [_ [G _]]. unfold good_sources in *. rewrite Forall_forall in *. auto.
Qed.
Lemma opened_sources : forall opened, Forall (fun id => In id (map fst (s_entries P s))) opened ->
  exists bs, incl bs l /\ map (b_id P) bs = opened.
Proof.
  destruct made as [_ [_ [_ [_ [_ [He _]]]]]]. rewrite He, map_map. cbn [fst].
  induction opened as [|id r IH]; intros H; [exists []; split; [intros x []|reflexivity]|].
  inversion H; subst. destruct (IH H3) as [bs [Hb Hm]]. apply in_map_iff in H2. destruct H2 as [b [Hb1 Hb2]].
  exists (b :: bs). split; [intros c [<-|Hc]; auto|cbn; congruence].
Qed.
Lemma open_at_source : forall b band x y, In b l -> open_at P s band x y (b_id P b) = entry_at P (entry_of P mbands foot b) band x y.
Proof.
  intros b band x y H. unfold open_at. destruct made as [_ [_ [_ [_ [_ [He _]]]]]]. rewrite He, zget_map; auto.
Qed.
Lemma plus_open_value : forall bs band x y v, incl bs l ->
  plus_open P add s (map (b_id P) bs) band x y v = fold_left add (at_list P mbands foot bs band x y) v.
Proof.
  intros bs band x y v H. induction bs as [|b bs IH]; [reflexivity|]. cbn [map plus_open].
  rewrite IH by (intros c Hc; apply H; right; exact Hc). rewrite open_at_source by (apply H; left; reflexivity).
  unfold at_list. cbn [flat_map]. rewrite fold_left_app. fold (at_list P mbands foot bs band x y).
  destruct (entry_at P (entry_of P mbands foot b) band x y); cbn; [rewrite fold_add_out; reflexivity|reflexivity].
Qed.

Lemma exec_made : forall p s' t r, exec P add sub p [] s = (s', t, r) ->
  same_state P s s' /\ Forall (fun g => shows P add s (fst g) (snd g)) t.
Proof.
  intros p s' t r H. destruct made as [G _].
  destruct (exec_restores P add sub (sub_add _ _ _ E) p s [] s s' t r G H) as [S T]. split; [exact S|].
  apply T; auto. split; [constructor|reflexivity].
Qed.
Lemma sights : forall p s' t r opened im, exec P add sub p [] s = (s', t, r) -> In (opened, im) t ->
  exists bs, incl bs l /\ map (b_id P) bs = opened /\
  forall band x y, In band bands -> exists all vs,
    values_at P foot band x y l all /\ values_at P foot band x y bs vs /\
    im band x y = plus_all P add (minus_all P sub (orig band x y) all) vs.
Proof.
  intros p s' t r opened im H Hg. destruct (exec_made _ _ _ _ H) as [_ T]. rewrite Forall_forall in T.
  destruct (T _ Hg) as [T1 T2]. cbn [fst snd] in T1, T2. destruct (opened_sources _ T1) as [bs [Hb Hm]].
  exists bs. split; [exact Hb|split; [exact Hm|]]. intros band x y Hin.
  destruct made as [_ [G [Hbands [_ [_ [_ Hc]]]]]].
  exists (at_list P mbands foot l band x y), (at_list P mbands foot bs band x y).
  split; [eapply values_at_list; eauto|split; [eapply values_at_list; [apply good_incl; auto|auto|auto]|]].
  rewrite T2 by (rewrite Hbands; exact Hin). rewrite <- Hm, plus_open_value by exact Hb. rewrite Hc by auto. reflexivity.
Qed.

Lemma filter_ids : forall id (m : list (blend_source P)), ~ In id (map (b_id P) m) -> filter (fun c => negb (b_id P c =? id)) m = m.
Proof.
  intros id m. induction m as [|c m IH]; intros H; cbn; [reflexivity|]. cbn in H.
  destruct (Z.eqb_spec (b_id P c) id) as [e|e]; [tauto|]. cbn. rewrite IH by tauto. reflexivity.
Qed.
Lemma one_open : forall p s' t r id im, exec P add sub p [] s = (s', t, r) -> In ([id], im) t ->
  forall band x y, In band bands -> exists others,
    values_at P foot band x y (filter (fun b => negb (b_id P b =? id)) l) others /\
    im band x y = minus_all P sub (orig band x y) others.
Proof.
  intros p s' t r id im H Hg band x y Hin. destruct made as [_ [G _]].
  destruct (sights _ _ _ _ _ _ H Hg) as [bs [Hb [Hm Hv]]]. destruct (Hv band x y Hin) as [all [vs [Ha [Hw Hx]]]].
  eapply values_at_list in Ha; eauto. eapply values_at_list in Hw; [|apply good_incl; exact Hb|auto].
  assert (I2 : incl (filter (fun b => negb (b_id P b =? id)) l) l) by (intros c Hc; apply filter_In in Hc; tauto).
  exists (at_list P mbands foot (filter (fun b => negb (b_id P b =? id)) l) band x y).
  split; [eapply values_at_list; [apply good_incl; auto|auto|auto]|]. rewrite Hx. subst all vs.
  destruct bs as [|b [|? ?]]; try discriminate. cbn in Hm. assert (Hid : b_id P b = id) by congruence. clear Hm.
  assert (Hbl : In b l) by (apply Hb; left; reflexivity).
  apply in_split in Hbl. destruct Hbl as [l1 [l2 ->]]. subst id.
  rewrite map_app in Ni. cbn in Ni. assert (N1 := NoDup_remove_2 _ _ _ Ni). rewrite in_app_iff in N1.
  rewrite filter_app. cbn [filter]. rewrite Z.eqb_refl. cbn [negb].
  rewrite !filter_ids by tauto. unfold at_list. rewrite !flat_map_app. cbn [flat_map].
  unfold plus_all, minus_all. destruct (entry_at P (entry_of P mbands foot b) band x y) as [m|]; cbn [List.app].
  - cbn [fold_left]. apply fold_sub_mid.
  - reflexivity.
Qed.
Lemma none_open : forall p s' t r im, exec P add sub p [] s = (s', t, r) -> In ([], im) t ->
  forall band x y, In band bands -> exists all,
    values_at P foot band x y l all /\ im band x y = minus_all P sub (orig band x y) all.
Proof.
  intros p s' t r im H Hg band x y Hin.
  destruct (sights _ _ _ _ _ _ H Hg) as [bs [Hb [Hm Hv]]]. destruct (Hv band x y Hin) as [all [vs [Ha [Hw Hx]]]].
  destruct bs; [|discriminate]. inversion Hw; subst vs. exists all. auto.
Qed.

Lemma full_model_value : forall d s0 im, NoDup (s_bands P s0) ->
  Forall (fun ie => touch_ok P (s_bands P s0) (s_box P s0) (snd ie) (s_bands P s0)) d ->
  exists im', full_model P add s0 d im = Ok im' /\
  forall band x y, In band (s_bands P s0) ->
    im' band x y = fold_left (fun acc ie => app P add acc (entry_at P (snd ie) band x y)) d (im band x y).
Proof.
  intros d s0. induction d as [|[i e] d IH]; intros im N F; cbn [full_model]; [eauto|].
  inversion F; subst. cbn [snd] in H1.
  destruct (touch_all_det P add (s_bands P s0) (s_box P s0) e (s_bands P s0) im H1 N) as [im1 [E1 V1]].
  rewrite E1. cbn [obind]. destruct (IH im1 N H2) as [im' [E2 V2]]. exists im'. split; [exact E2|].
  intros band x y Hin. rewrite V2, V1 by auto. apply smem_In in Hin. rewrite Hin. reflexivity.
Qed.
Lemma full_model_made : exists im, get_full_model P add zero s = Ok im /\
  forall band x y, In band bands ->
    add (s_cur P s band x y) (im band x y) = orig band x y /\
    exists all, values_at P foot band x y l all /\ im band x y = plus_all P add zero all.
Proof.
  destruct made as [[N G0] [G [Hb [Hx [_ [He Hc]]]]]]. unfold get_full_model.
  destruct (full_model_value (s_entries P s) s (fun _ _ _ => zero) N) as [im [E1 V1]].
  { rewrite He. apply Forall_forall. intros [i e] H. apply in_map_iff in H. destruct H as [b [H1 H2]].
    apply (G0 (b_id P b)). rewrite He. cbn [snd]. replace e with (entry_of P mbands foot b) by congruence. apply zget_map; auto. }
  exists im. split; [exact E1|]. intros band x y Hin.
  assert (V : im band x y = fold_left add (at_list P mbands foot l band x y) zero).
  { rewrite V1 by (rewrite Hb; exact Hin). rewrite He, <- fold_at. generalize zero. generalize l. clear.
    intros l0. induction l0 as [|b l0 IH]; intros z; cbn; [reflexivity|]. rewrite IH. reflexivity. }
  split; [rewrite V, Hc by auto; apply fold_minus_plus|]. exists (at_list P mbands foot l band x y).
  split; [eapply values_at_list; eauto|exact V].
Qed.
End Made.
End Exact.
