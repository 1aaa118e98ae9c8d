From Coq Require Import ZArith QArith List String Bool Lia Lqa.
From Verif Require Import Base Arr Median Flags_model Coadd_model Coadd_spec Coadd_proofs Wavg_model Wavg_spec Wavg_proofs Joint_model Joint_spec.
Import ListNotations.
Local Open Scope string_scope.
Local Open Scope Z_scope.

Local Arguments is_dupe : simpl never.
(** ** combine_fit_res *)
Section Combine.
Context {A : Type} (eqb : A -> A -> bool) (zero : A).
Hypothesis eqb_ok : forall a b, eqb a b = true <-> a = b.

Lemma list_eqb_ok : forall a b, list_eqb eqb a b = true <-> a = b.
Proof.
  induction a as [|x a IH]; destruct b as [|y b]; cbn; split; intros H; try discriminate; try reflexivity.
  - apply andb_true_iff in H. destruct H as [H1 H2]. apply eqb_ok in H1. apply IH in H2. now subst.
  - inversion H; subst. apply andb_true_iff. split; [now apply eqb_ok | now apply IH].
Qed.

Lemma get_put_same : forall c (v : list A) cols w, get_col c cols = Some w -> get_col c (put_col c v cols) = Some v.
Proof.
  induction cols as [|[d u] r IH]; cbn; intros w H; [discriminate|].
  destruct (String.eqb c d) eqn:E; cbn; rewrite E; eauto.
Qed.
Lemma get_put_other : forall c d (v : list A) cols, c <> d -> get_col c (put_col d v cols) = get_col c cols.
Proof.
  induction cols as [|[e u] r IH]; cbn; intros H; [reflexivity|].
  destruct (String.eqb d e) eqn:E; cbn.
  - apply String.eqb_eq in E; subst e. apply String.eqb_neq in H. rewrite H. reflexivity.
  - destruct (String.eqb c e); auto.
Qed.
Lemma put_names : forall c (v : list A) cols, map fst (put_col c v cols) = map fst cols.
Proof.
  induction cols as [|[e u] r IH]; cbn; [reflexivity|].
  destruct (String.eqb c e); cbn; [reflexivity | now rewrite IH].
Qed.
Lemma get_in : forall c (v : list A) cols, get_col c cols = Some v -> In (c, v) cols.
Proof.
  induction cols as [|[e u] r IH]; cbn; intros H; [discriminate|].
  destruct (String.eqb c e) eqn:E; [|right; auto].
  apply String.eqb_eq in E. apply Some_inj in H. subst. now left.
Qed.
Lemma in_get : forall c (v : list A) cols, NoDup (map fst cols) -> In (c, v) cols -> get_col c cols = Some v.
Proof.
  induction cols as [|[e u] r IH]; cbn; intros N H; [contradiction|].
  inversion N; subst. destruct H as [H|H].
  - inversion H; subst. rewrite String.eqb_refl. reflexivity.
  - destruct (String.eqb c e) eqn:E; [|auto]. apply String.eqb_eq in E. subst e.
    exfalso. apply H2. change c with (fst (c, v)). now apply in_map.
Qed.
Lemma get_none : forall c (cols : list (string * list A)), get_col c cols = None <-> ~ In c (map fst cols).
Proof.
  induction cols as [|[e u] r IH]; cbn; [tauto|].
  destruct (String.eqb c e) eqn:E.
  - apply String.eqb_eq in E. subst. split; [discriminate | intros H; exfalso; auto].
  - apply String.eqb_neq in E. rewrite IH. split; intros H; [intros [->|K]; tauto | tauto].
Qed.

Definition step_spec (first : bool) (cols acc acc' : list (string * list A)) : Prop :=
  map fst acc' = map fst acc /\
  (forall c v, In (c, v) cols -> get_col c acc' = Some v) /\
  (forall c, ~ In c (map fst cols) -> get_col c acc' = get_col c acc) /\
  (first = false -> forall c, is_dupe c = true -> get_col c acc' = get_col c acc).

Lemma col_fold : forall first cols acc acc', ofold (col_step eqb first) cols acc = Ok acc' ->
  NoDup (map fst cols) -> step_spec first cols acc acc'.
Proof.
  induction cols as [|[c v] r IH]; cbn [ofold map]; intros acc acc' H N.
  - apply Ok_inj in H. subst. repeat split; auto. intros c v [].
  - cbn [fst] in N. inversion N; subst.
    destruct (col_step eqb first acc (c, v)) as [a1|e] eqn:E; cbn [obind] in H; [|discriminate].
    destruct (IH _ _ H H3) as (I1 & I2 & I3 & I4). clear IH.
    unfold col_step in E. destruct (get_col c acc) as [w|] eqn:G; [|discriminate].
    assert (S : map fst a1 = map fst acc /\ get_col c a1 = Some v /\
                (forall d, d <> c -> get_col d a1 = get_col d acc) /\
                (first = false -> is_dupe c = true -> get_col c a1 = get_col c acc)).
    { destruct (is_dupe c && negb first) eqn:D.
      - destruct (list_eqb eqb w v) eqn:L; [|discriminate]. apply Ok_inj in E. subst a1.
        apply list_eqb_ok in L. subst w. auto.
      - apply Ok_inj in E. subst a1. repeat split.
        + apply put_names.
        + now apply get_put_same with w.
        + intros d Hd. now apply get_put_other.
        + intros -> K. rewrite K in D. discriminate. }
    destruct S as (S1 & S2 & S3 & S4).
    split; [congruence|]. split; [|split].
    + intros d u [Hd|Hd].
      * inversion Hd; subst. rewrite I3; assumption.
      * auto.
    + cbn [fst]. intros d Hd. rewrite I3 by (intros K; apply Hd; now right). apply S3. intros ->. apply Hd. now left.
    + intros F d Hd. rewrite (I4 F d Hd). destruct (String.eqb d c) eqn:Q.
      * apply String.eqb_eq in Q. subst. auto.
      * apply String.eqb_neq in Q. auto.
Qed.

Definition nd (r : option (table A)) : list string :=
  match r with Some t => filter (fun c => negb (is_dupe c)) (names t) | None => [] end.

Lemma nd_in : forall t c v, In (c, v) (t_cols t) -> is_dupe c = false -> In c (nd (Some t)).
Proof.
  intros t c v H D. cbn [nd]. apply filter_In. rewrite D. split; [|reflexivity].
  unfold names. change c with (fst (c, v)). now apply in_map.
Qed.

Lemma fill_spec : forall l first acc acc', fill_cols eqb first l acc = Ok acc' ->
  NoDup (flat_map nd l) -> (forall t, In (Some t) l -> NoDup (map fst (t_cols t))) ->
  map fst acc' = map fst acc /\
  (forall t c v, In (Some t) l -> In (c, v) (t_cols t) -> get_col c acc' = Some v) /\
  (forall c, ~ In c (flat_map nd l) -> (is_dupe c = false \/ first = false) -> get_col c acc' = get_col c acc).
Proof.
  induction l as [|[t|] l IH]; cbn [fill_cols flat_map]; intros first acc acc' H N W.
  - apply Ok_inj in H. subst. repeat split; auto. intros t c v [].
  - destruct (ofold (col_step eqb first) (t_cols t) acc) as [a1|e] eqn:E; cbn [obind] in H; [|discriminate].
    destruct (col_fold _ _ _ _ E (W t (or_introl eq_refl))) as (S1 & S2 & S3 & S4).
    assert (N2 : NoDup (flat_map nd l)).
    { clear -N. induction (nd (Some t)); cbn in N; [exact N|]. inversion N; auto. }
    assert (Dj : forall c, In c (nd (Some t)) -> ~ In c (flat_map nd l)).
    { clear -N. revert N. generalize (nd (Some t)). induction l0 as [|x m IH]; cbn; intros N c Hc; [contradiction|].
      inversion N; subst. destruct Hc as [->|Hc]; [|auto]. intros K. apply H1. apply in_or_app. now right. }
    destruct (IH false a1 acc' H N2 (fun u Hu => W u (or_intror Hu))) as (I1 & I2 & I3).
    split; [congruence|]. split.
    + intros u c v [Hu|Hu] Hc; [|eauto]. apply Some_inj in Hu. subst u.
      destruct (is_dupe c) eqn:D.
      * rewrite I3; [eauto| |now right].
        intros K. apply in_flat_map in K. destruct K as ([u|] & _ & K); cbn in K; [|contradiction].
        apply filter_In in K. destruct K as [_ K]. rewrite D in K. discriminate.
      * rewrite I3; [eauto| |now left]. apply Dj. now apply nd_in with v.
    + intros c Hc Hd. rewrite I3; [| |now right].
      * destruct (in_dec string_dec c (map fst (t_cols t))) as [Hin|Hin]; [|now apply S3].
        destruct (is_dupe c) eqn:D.
        { destruct Hd as [Hd|Hd]; [discriminate|]. now apply S4. }
        { exfalso. apply Hc. apply in_or_app. left. cbn [nd]. apply filter_In. rewrite D. split; [exact Hin | reflexivity]. }
      * intros K. apply Hc. apply in_or_app. now right.
  - discriminate.
Qed.

Lemma fill_some : forall l first acc acc', fill_cols eqb first l acc = Ok acc' -> ~ In (@None (table A)) l.
Proof.
  induction l as [|[t|] l IH]; cbn [fill_cols]; intros first acc acc' H; [intros []| |discriminate].
  destruct (ofold (col_step eqb first) (t_cols t) acc) as [a1|e] eqn:E; cbn [obind] in H; [|discriminate].
  intros [K|K]; [discriminate|]. exact (IH _ _ _ H K).
Qed.

Lemma filter_filter_nd : forall l, filter (fun c => negb (is_dupe c)) (filter (fun c => negb (is_dupe c)) l)
  = filter (fun c => negb (is_dupe c)) l.
Proof.
  induction l as [|x l IH]; cbn; [reflexivity|]. destruct (negb (is_dupe x)) eqn:E; cbn; [rewrite E, IH|]; auto.
Qed.

(** What the first loop computes. *)
Lemma header_ok : forall (l : list (option (table A))) nobj dt n dt',
  ofold header_step l (nobj, dt) = Ok (n, dt') ->
  (match nobj with Some k => n = Some k | None => True end) /\
  (forall r, In r l -> n = Some (rows_of r)) /\ (l = [] -> n = nobj) /\
  filter (fun c => negb (is_dupe c)) dt' = (filter (fun c => negb (is_dupe c)) dt ++ flat_map nd l)%list /\
  (forall c, In c dt -> In c dt') /\
  (forall c, In c dt' -> In c dt \/ exists t, In (Some t) l /\ In c (names t)).
Proof.
  induction l as [|r l IH]; cbn [ofold flat_map]; intros nobj dt n dt' H.
  - apply Ok_inj in H. inversion H; subst. split; [now destruct n|]. split; [intros r []|]. split; [reflexivity|].
    split; [now rewrite app_nil_r|]. split; auto.
  - destruct (header_step (nobj, dt) r) as [[n1 dt1]|e] eqn:E; cbn [obind] in H; [|discriminate].
    destruct (IH _ _ _ _ H) as (I1 & I2 & I3 & I4 & I5 & I6). clear IH.
    assert (S : (match nobj with Some k => n1 = Some k | None => True end) /\ n1 = Some (rows_of r) /\
      filter (fun c => negb (is_dupe c)) dt1 = (filter (fun c => negb (is_dupe c)) dt ++ nd r)%list /\
      (forall c, In c dt -> In c dt1) /\ (forall c, In c dt1 -> In c dt \/ exists t, r = Some t /\ In c (names t))).
    { unfold header_step in E. destruct r as [t|].
      - assert (Q : exists k, n1 = Some k /\ (match nobj with Some k => n1 = Some k | None => True end) /\ k = t_n t /\
          dt1 = (match dt with [] => names t | _ => dt ++ filter (fun c => negb (is_dupe c)) (names t) end)%list).
        { destruct nobj as [k|]; cbn [obind] in E.
          - destruct (Nat.eqb k (t_n t)) eqn:K; cbn [obind] in E; [|discriminate]. apply Nat.eqb_eq in K.
            apply Ok_inj in E. inversion E; subst. eauto.
          - apply Ok_inj in E. inversion E; subst. eauto. }
        destruct Q as (k & -> & Q1 & -> & ->). cbn [rows_of nd]. repeat split; auto.
        + destruct dt as [|d dt]; [reflexivity|]. rewrite filter_app, filter_filter_nd. reflexivity.
        + intros c Hc. destruct dt as [|d dt]; [contradiction|]. apply in_or_app. now left.
        + intros c Hc. destruct dt as [|d dt]; [right; eauto|]. apply in_app_or in Hc.
          destruct Hc as [Hc|Hc]; [now left|]. apply filter_In in Hc. right. exists t. tauto.
      - cbn [rows_of nd]. rewrite app_nil_r. destruct nobj as [k|].
        + destruct (Nat.eqb k 0) eqn:K; [|discriminate]. apply Nat.eqb_eq in K. apply Ok_inj in E. inversion E; subst.
          repeat split; auto.
        + apply Ok_inj in E. inversion E; subst. repeat split; auto. }
    destruct S as (S1 & -> & S3 & S4 & S5).
    split; [destruct nobj; [congruence | trivial]|].
    split; [intros r' [<-|Hr]; auto|]. split; [discriminate|].
    split; [rewrite I4, S3, app_assoc; reflexivity|].
    split; [auto|]. intros c Hc. destruct (I6 c Hc) as [K|(t & K1 & K2)].
    + destruct (S5 c K) as [?|(t & -> & ?)]; [now left|]. right. exists t. split; [now left|assumption].
    + right. exists t. split; [now right|assumption].
Qed.

Lemma header_raise : forall (l : list (option (table A))) s e, ofold header_step l s = Raise e -> e = RuntimeError.
Proof.
  induction l as [|r l IH]; cbn [ofold]; intros s e H; [discriminate|].
  destruct (header_step s r) as [s1|e1] eqn:E; cbn [obind] in H; [eauto|].
  assert (e1 = e) by congruence. subst.
  destruct s as [nobj dt]. unfold header_step in E. destruct r as [t|], nobj as [k|]; cbn [obind] in E;
    try (destruct (Nat.eqb _ _); cbn [obind] in E); congruence.
Qed.

Lemma nodupb_ok : forall l, nodupb l = true <-> NoDup l.
Proof.
  induction l as [|x l IH]; cbn; [split; [constructor | reflexivity]|].
  rewrite andb_true_iff, negb_true_iff, IH. split.
  - intros [H1 H2]. constructor; [|exact H2]. intros K. assert (existsb (String.eqb x) l = true); [|congruence].
    apply existsb_exists. exists x. split; [exact K | apply String.eqb_refl].
  - intros H. inversion H; subst. split; [|assumption]. apply not_true_iff_false. intros K.
    apply existsb_exists in K. destruct K as (y & Hy & E). apply String.eqb_eq in E. subst. auto.
Qed.

Lemma NoDup_filter' : forall (p : string -> bool) l, NoDup l -> NoDup (filter p l).
Proof. intros. now apply NoDup_filter. Qed.

Lemma combine_two : forall a b l, combine_fit_res eqb zero (a :: b :: l) =
    do h <- ofold header_step (a :: b :: l) (None, []);
    match h with
    | (None, _) => Raise TypeError
    | (Some n, dt) =>
      if Nat.ltb 0 n then
        if nodupb dt then
          do cols <- fill_cols eqb true (a :: b :: l) (map (fun c => (c, repeat zero n)) dt);
          Ok (Some (mkTable n cols))
        else Raise ValueError
      else if existsb has (a :: b :: l) then
        if nodupb dt then Ok (Some (mkTable O (map (fun c => (c, [])) dt))) else Raise ValueError
      else Ok None
    end.
Proof. reflexivity. Qed.

Lemma map_fst_const : forall (f : string -> list A) dt, map fst (map (fun c => (c, f c)) dt) = dt.
Proof. intros. rewrite map_map. cbn. apply map_id. Qed.

Lemma combine_some : forall l t, combine_fit_res eqb zero l = Ok (Some t) ->
  (forall r, In (Some r) l -> wf_table r) ->
  ((0 < t_n t)%nat \/ forall r, In (Some r) l -> has_column r "shear_bands") ->
  wf_table t /\ (forall r, In r l -> rows_of r = t_n t) /\
  (forall r c v, In (Some r) l -> column r c v -> column t c v) /\
  (forall c v, column t c v -> exists r, In (Some r) l /\ column r c v).
Proof.
  intros l t H W S. destruct l as [|a [|b l]].
  - discriminate.
  - cbn in H. apply Ok_inj in H. subst a. split; [apply W; now left|]. split; [intros r [<-|[]]; reflexivity|].
    split.
    + intros r c v [K|[]] Hc. apply Some_inj in K. now subst.
    + intros c v Hc. exists t. split; [now left | exact Hc].
  - rewrite combine_two in H. set (L := a :: b :: l) in *. clearbody L. clear a b l.
    destruct (ofold header_step L (None, [])) as [[n dt]|e] eqn:E; cbn [obind] in H; [|discriminate].
    destruct (header_ok _ _ _ _ _ E) as (_ & R & _ & F & _ & B). cbn in F.
    destruct n as [n|]; [|discriminate].
    assert (B' : forall c, In c dt -> exists r, In (Some r) L /\ In c (names r)).
    { intros c Hc. destruct (B c Hc) as [[]|K]; exact K. }
    destruct (Nat.ltb 0 n) eqn:P.
    + destruct (nodupb dt) eqn:ND; [|discriminate]. apply nodupb_ok in ND.
      destruct (fill_cols eqb true L _) as [cols|e] eqn:FC; cbn [obind] in H; [|discriminate].
      apply Ok_inj, Some_inj in H. subst t. cbn [t_n t_cols] in *.
      assert (NF : NoDup (flat_map nd L)) by (rewrite <- F; now apply NoDup_filter').
      destruct (fill_spec _ _ _ _ FC NF (fun r Hr => proj1 (W r Hr))) as (I1 & I2 & _).
      rewrite map_fst_const in I1.
      assert (NC : NoDup (map fst cols)) by (rewrite I1; exact ND).
      assert (Fwd : forall r c v, In (Some r) L -> In (c, v) (t_cols r) -> In (c, v) cols).
      { intros r c v Hr Hc. apply get_in. eauto. }
      assert (Bwd : forall c v, In (c, v) cols -> exists r, In (Some r) L /\ In (c, v) (t_cols r)).
      { intros c v Hc. assert (Hd : In c dt) by (rewrite <- I1; change c with (fst (c, v)); now apply in_map).
        destruct (B' c Hd) as (r & Hr & Hn). unfold names in Hn. apply in_map_iff in Hn.
        destruct Hn as ([c' u] & Ec & Hu). cbn in Ec. subst c'.
        exists r. split; [exact Hr|]. assert (G := in_get _ _ _ NC Hc). rewrite (I2 r c u Hr Hu) in G.
        apply Some_inj in G. now subst. }
      split; [|split; [|split]].
      * split; [exact NC|]. cbn. intros c v Hc. destruct (Bwd c v Hc) as (r & Hr & Hu).
        rewrite (proj2 (W r Hr) c v Hu). specialize (R _ Hr). cbn in R. now apply Some_inj in R.
      * intros r Hr. specialize (R _ Hr). now apply Some_inj in R.
      * exact Fwd.
      * exact Bwd.
    + apply Nat.ltb_ge in P. assert (n = O) by lia. subst n.
      destruct (existsb has L) eqn:X; [|discriminate].
      destruct (nodupb dt) eqn:ND; [|discriminate]. apply nodupb_ok in ND.
      apply Ok_inj, Some_inj in H. subst t. cbn [t_n] in S. destruct S as [S|S]; [lia|].
      assert (Z0 : forall r, In (Some r) L -> t_n r = O).
      { intros r Hr. specialize (R _ Hr). cbn in R. now apply Some_inj in R. }
      assert (E0 : forall r c v, In (Some r) L -> In (c, v) (t_cols r) -> v = []).
      { intros r c v Hr Hc. apply length_zero_iff_nil. rewrite (proj2 (W r Hr) c v Hc). auto. }
      assert (FwdN : forall r c, In (Some r) L -> In c (names r) -> In c dt).
      { intros r c Hr Hc. destruct (is_dupe c) eqn:D.
        - unfold is_dupe, dupe_cols in D. cbn in D. rewrite orb_false_r in D. apply String.eqb_eq in D. subst c.
          clear -E Hr S. revert E Hr S. generalize (@None nat). intros n0.
          induction L as [|x L IH] in n0 |- *; intros E Hr S; [contradiction|]. cbn [ofold] in E.
          destruct (header_step (n0, []) x) as [[n1 d1]|e] eqn:E1; cbn [obind] in E; [|discriminate].
          destruct x as [u|].
          + assert (d1 = names u).
            { unfold header_step in E1. destruct n0; cbn [obind] in E1.
              - destruct (Nat.eqb _ _); cbn [obind] in E1; [|discriminate]. congruence.
              - congruence. }
            subst d1. destruct (header_ok _ _ _ _ _ E) as (_ & _ & _ & _ & K & _). apply K.
            apply (S u). now left.
          + assert (d1 = []).
            { unfold header_step in E1. destruct n0; [destruct (Nat.eqb _ _); [|discriminate]|]; congruence. }
            subst d1. destruct Hr as [Hr|Hr]; [discriminate|]. apply (IH n1 E Hr). intros q Hq. apply S. now right.
        - assert (K : In c (filter (fun c => negb (is_dupe c)) dt)).
          { rewrite F. apply in_flat_map. exists (Some r). split; [exact Hr|]. cbn [nd]. apply filter_In. rewrite D. now split. }
          apply filter_In in K. tauto. }
      split; [|split; [|split]].
      * split.
        { cbn. rewrite map_fst_const. exact ND. }
        { cbn. intros c v Hc. apply in_map_iff in Hc. destruct Hc as (d & Ed & _). inversion Ed; subst. reflexivity. }
      * intros r Hr. specialize (R _ Hr). now apply Some_inj in R.
      * unfold column. cbn [t_cols]. intros r c v Hr Hc. rewrite (E0 r c v Hr Hc). apply in_map_iff. exists c.
        split; [reflexivity|]. apply (FwdN r); [exact Hr|]. unfold names. change c with (fst (c, v)). now apply in_map.
      * unfold column. cbn [t_cols]. intros c v Hc. apply in_map_iff in Hc. destruct Hc as (d & Ed & Hd). inversion Ed; subst.
        destruct (B' c Hd) as (r & Hr & Hn). exists r. split; [exact Hr|]. unfold names in Hn. apply in_map_iff in Hn.
        destruct Hn as ([c' u] & Ec & Hu). cbn in Ec. subst c'. now rewrite (E0 r c u Hr Hu) in Hu.
Qed.

Lemma combine_none : forall l, combine_fit_res eqb zero l = Ok None <-> l <> [] /\ forall r, In r l -> r = None.
Proof.
  intros l. destruct l as [|a [|b l]].
  - split; [discriminate | intros [K _]; congruence].
  - cbn. split.
    + intros H. apply Ok_inj in H. subst. split; [discriminate|]. intros r [<-|[]]. reflexivity.
    + intros [_ H]. rewrite (H a); auto.
  - rewrite combine_two. set (L := a :: b :: l). assert (NE : L <> []) by discriminate. clearbody L. clear a b l. split.
    + intros H. split; [exact NE|].
      destruct (ofold header_step L (None, [])) as [[[n|] dt]|e] eqn:E; cbn [obind] in H; try discriminate.
      destruct (Nat.ltb 0 n).
      * destruct (nodupb dt); [|discriminate]. destruct (fill_cols _ _ _ _); cbn [obind] in H; discriminate.
      * destruct (existsb has L) eqn:X; [destruct (nodupb dt); discriminate|].
        intros [t|] Hr; [|reflexivity]. exfalso.
        assert (existsb has L = true); [|congruence]. apply existsb_exists. exists (Some t). now split.
    + intros [_ H].
      assert (E : exists n0, (n0 = None \/ n0 = Some O) /\ ofold header_step L (None, []) = Ok (n0, [])).
      { assert (G : forall n1, (n1 = None \/ n1 = Some O) -> exists n0, (n0 = None \/ n0 = Some O) /\
            (L <> [] -> n0 = Some O) /\ ofold header_step L (n1, []) = Ok (n0, [])).
        { clear NE. induction L as [|x L IH]; intros n1 H1; [exists n1; repeat split; auto; congruence|].
          cbn [ofold]. rewrite (H x (or_introl eq_refl)). 
          assert (Q : header_step (A := A) (n1, []) None = Ok (Some O, [])) by (destruct H1 as [->| ->]; reflexivity).
          rewrite Q. cbn [obind]. destruct (IH (fun r Hr => H r (or_intror Hr)) (Some O) (or_intror eq_refl)) as (n0 & A0 & B0 & C0).
          exists n0. repeat split; auto. intros _. destruct L; [cbn in C0; congruence | apply B0; discriminate]. }
        destruct (G None (or_introl eq_refl)) as (n0 & A0 & B0 & C0). eauto. }
      destruct E as (n0 & Hn & E). rewrite E. cbn [obind].
      destruct (header_ok _ _ _ _ _ E) as (_ & R & _).
      destruct L as [|x L]; [congruence|]. assert (n0 = Some O).
      { rewrite (R x (or_introl eq_refl)). rewrite (H x (or_introl eq_refl)). reflexivity. }
      subst n0. cbn [Nat.ltb Nat.leb].
      assert (X : existsb has (x :: L) = false).
      { apply not_true_iff_false. intros K. apply existsb_exists in K. destruct K as (y & Hy & Ky).
        rewrite (H y Hy) in Ky. discriminate. }
      rewrite X. reflexivity.
Qed.

Lemma combine_lengths : forall l r r', In r l -> In r' l -> rows_of r <> rows_of r' ->
  combine_fit_res eqb zero l = Raise RuntimeError.
Proof.
  intros l r r' H H' N. destruct l as [|a [|b l]].
  - contradiction.
  - destruct H as [<-|[]], H' as [<-|[]]. congruence.
  - rewrite combine_two. destruct (ofold header_step (a :: b :: l) (None, [])) as [[n dt]|e] eqn:E; cbn [obind].
    + destruct (header_ok _ _ _ _ _ E) as (_ & R & _). exfalso. apply N.
      specialize (R _ H) as R1. specialize (R _ H') as R2. congruence.
    + f_equal. eapply header_raise. exact E.
Qed.

Lemma combine_rows : forall l t r, combine_fit_res eqb zero l = Ok (Some t) -> In r l -> rows_of r = t_n t.
Proof.
  intros l t r E H. destruct l as [|a [|b l]]; [contradiction| |].
  - cbn in E. apply Ok_inj in E. subst a. destruct H as [<-|[]]. reflexivity.
  - rewrite combine_two in E. revert E. set (L := a :: b :: l) in *. clearbody L.
    destruct (ofold header_step L (None, [])) as [[[n|] dt]|e] eqn:E; cbn [obind]; try discriminate.
    destruct (header_ok _ _ _ _ _ E) as (_ & R & _). specialize (R _ H). apply Some_inj in R.
    destruct (Nat.ltb 0 n) eqn:P.
    + destruct (nodupb dt); [|discriminate]. destruct (fill_cols _ _ _ _); cbn [obind]; [|discriminate].
      intros K. apply Ok_inj, Some_inj in K. subst t. cbn. congruence.
    + apply Nat.ltb_ge in P. destruct (existsb has L); [|discriminate]. destruct (nodupb dt); [|discriminate].
      intros K. apply Ok_inj, Some_inj in K. subst t. cbn. lia.
Qed.

Lemma combine_disagree : forall l r r' c v v', (forall q, In (Some q) l -> wf_table q) ->
  In (Some r) l -> In (Some r') l -> column r c v -> column r' c v' -> v <> v' ->
  exists e, combine_fit_res eqb zero l = Raise e.
Proof.
  intros l r r' c v v' WL H H' C C' N.
  destruct (combine_fit_res eqb zero l) as [[t|]|e] eqn:E; [| |eauto].
  - exfalso. destruct (Nat.eq_dec (t_n t) 0) as [Z0|Z0].
    + assert (R := combine_rows _ _ _ E H). assert (R' := combine_rows _ _ _ E H'). cbn in R, R'.
      apply N. assert (v = []) by (apply length_zero_iff_nil; rewrite (proj2 (WL _ H) c v C); lia).
      assert (v' = []) by (apply length_zero_iff_nil; rewrite (proj2 (WL _ H') c v' C'); lia). congruence.
    + destruct (combine_some _ _ E WL (or_introl (proj1 (Nat.neq_0_lt_0 _) Z0))) as ((N1 & _) & _ & K & _).
      assert (G1 := in_get _ _ _ N1 (K _ _ _ H C)). assert (G2 := in_get _ _ _ N1 (K _ _ _ H' C')).
      rewrite G1 in G2. apply Some_inj in G2. auto.
  - exfalso. apply combine_none in E. destruct E as [_ E]. specialize (E _ H). discriminate.
Qed.

(** A column other than shear_bands that occurs in two results. *)
Lemma NoDup_app_disjoint : forall (B : Type) (l m : list B), NoDup (l ++ m) -> forall x, In x l -> ~ In x m.
Proof.
  induction l as [|y l IH]; cbn; intros m N x Hx; [contradiction|]. inversion N; subst.
  destruct Hx as [->|Hx]; [intros K; apply H1; apply in_or_app; now right | eauto].
Qed.
Lemma NoDup_app_r : forall (B : Type) (l m : list B), NoDup (l ++ m) -> NoDup m.
Proof. induction l as [|y l IH]; cbn; intros m N; [exact N|]. inversion N; subst. auto. Qed.
Lemma NoDup_app_intro : forall (B : Type) (l m : list B), NoDup l -> NoDup m -> (forall x, In x l -> ~ In x m) -> NoDup (l ++ m).
Proof.
  induction l as [|y l IH]; cbn; intros m N M D; [exact M|]. inversion N; subst. constructor.
  - intros K. apply in_app_or in K. destruct K as [K|K]; [auto | exact (D y (or_introl eq_refl) K)].
  - apply IH; auto.
Qed.
Lemma combine_repeated : forall l1 l2 l3 r r' c, has_column r c -> has_column r' c -> c <> "shear_bands" ->
  exists e, combine_fit_res eqb zero (l1 ++ Some r :: l2 ++ Some r' :: l3) = Raise e.
Proof.
  intros l1 l2 l3 r r' c C C' N.
  set (L := (l1 ++ Some r :: l2 ++ Some r' :: l3)%list).
  assert (HL : exists a b l, L = a :: b :: l).
  { subst L. destruct l1 as [|a [|b l1]]; cbn; [|eauto|eauto].
    destruct l2; cbn; eauto. }
  destruct HL as (a & b & l & HL). rewrite HL. rewrite combine_two, <- HL.
  destruct (ofold header_step L (None, [])) as [[[n|] dt]|e] eqn:E; cbn [obind]; [| |eauto]; [|eauto].
  destruct (header_ok _ _ _ _ _ E) as (_ & R & _ & F & _ & _). cbn in F.
  assert (D : is_dupe c = false).
  { unfold is_dupe, dupe_cols. cbn. rewrite orb_false_r. now apply String.eqb_neq. }
  assert (ND : nodupb dt = false).
  { apply not_true_iff_false. intros K. apply nodupb_ok in K. apply NoDup_filter' with (p := fun c => negb (is_dupe c)) in K.
    rewrite F in K. unfold L in K. rewrite flat_map_app in K. cbn [flat_map] in K.
    apply NoDup_app_r in K. apply NoDup_app_disjoint with (x := c) in K.
    - apply K. rewrite flat_map_app. apply in_or_app. right. cbn [flat_map]. apply in_or_app. left.
      cbn [nd]. apply filter_In. rewrite D. split; [exact C' | reflexivity].
    - cbn [nd]. apply filter_In. rewrite D. split; [exact C | reflexivity]. }
  rewrite ND. assert (X : existsb has L = true).
  { apply existsb_exists. exists (Some r). split; [|reflexivity]. unfold L. apply in_or_app. right. now left. }
  rewrite X. destruct (Nat.ltb 0 n); eauto.
Qed.

(** Results that fit together are combined. *)
Lemma col_fold_total : forall first cols acc, (forall c v, In (c, v) cols -> In c (map fst acc)) ->
  NoDup (map fst cols) -> NoDup (map fst acc) ->
  (first = false -> forall c v, In (c, v) cols -> is_dupe c = true -> get_col c acc = Some v) ->
  exists acc', ofold (col_step eqb first) cols acc = Ok acc'.
Proof.
  induction cols as [|[c v] r IH]; cbn [ofold map]; intros acc I N NA D; [eauto|].
  cbn [fst] in N. inversion N; subst.
  assert (Hc : exists w, get_col c acc = Some w).
  { destruct (get_col c acc) eqn:G; [eauto|]. exfalso. apply (proj1 (get_none _ _) G). apply (I c v). now left. }
  destruct Hc as [w Hw].
  assert (E : exists a1, col_step eqb first acc (c, v) = Ok a1 /\ map fst a1 = map fst acc /\
              (forall d, d <> c -> get_col d a1 = get_col d acc)).
  { unfold col_step. rewrite Hw. destruct (is_dupe c && negb first) eqn:Q.
    - apply andb_true_iff in Q. destruct Q as [Q1 Q2]. apply negb_true_iff in Q2.
      rewrite (D Q2 c v (or_introl eq_refl) Q1) in Hw. apply Some_inj in Hw. subst w.
      assert (K : list_eqb eqb v v = true) by now apply list_eqb_ok. rewrite K. eauto.
    - eexists. split; [reflexivity|]. split; [apply put_names|]. intros d Hd. now apply get_put_other. }
  destruct E as (a1 & -> & S1 & S2). cbn [obind]. apply IH; auto.
  - intros d u Hd. rewrite S1. apply (I d u). now right.
  - rewrite S1. exact NA.
  - intros Hf d u Hd Hdup. rewrite S2; [apply D; auto; now right|]. intros ->. apply H1.
    change c with (fst (c, u)). now apply in_map.
Qed.

Lemma fill_total : forall l first acc, (forall r, In r l -> r <> None) ->
  (forall r c, In (Some r) l -> In c (names r) -> In c (map fst acc)) ->
  (forall r, In (Some r) l -> NoDup (map fst (t_cols r))) -> NoDup (map fst acc) ->
  (forall r r' c v v', In (Some r) l -> In (Some r') l -> column r c v -> column r' c v' -> is_dupe c = true -> v = v') ->
  (forall r r' c, is_dupe c = true -> In (Some r) l -> In (Some r') l -> has_column r c -> has_column r' c) ->
  (first = false -> forall r c v, In (Some r) l -> column r c v -> is_dupe c = true -> get_col c acc = Some v) ->
  exists acc', fill_cols eqb first l acc = Ok acc'.
Proof.
  induction l as [|[t|] l IH]; cbn [fill_cols]; intros first acc NN I W NA D HC G; [eauto| |].
  - destruct (col_fold_total first (t_cols t) acc) as [a1 Ha].
    + intros c v Hc. apply (I t c); [now left|]. unfold names. change c with (fst (c, v)). now apply in_map.
    + apply W. now left.
    + exact NA.
    + intros Hf c v Hc Hd. apply (G Hf t c v); auto. now left.
    + rewrite Ha. cbn [obind]. destruct (col_fold _ _ _ _ Ha (W t (or_introl eq_refl))) as (S1 & S2 & S3 & S4).
      apply IH.
      * intros r Hr. apply NN. now right.
      * intros r c Hr Hc. rewrite S1. apply (I r c); [now right | exact Hc].
      * intros r Hr. apply W. now right.
      * rewrite S1. exact NA.
      * intros r r' c v v' Hr Hr'. apply D; now right.
      * intros r r' c Hd Hr Hr'. apply HC; auto; now right.
      * intros _ r c v Hr Hc Hd.
        assert (K : has_column t c).
        { apply (HC r t c Hd); [now right | now left|]. unfold has_column. change c with (fst (c, v)). now apply in_map. }
        unfold has_column in K. apply in_map_iff in K. destruct K as ([c' u] & Ec & Hu). cbn in Ec. subst c'.
        rewrite (S2 c u Hu). f_equal. apply (D t r c u v); auto; [now left | now right].
  - exfalso. exact (NN None (or_introl eq_refl) eq_refl).
Qed.

Lemma header_total : forall (l : list (option (table A))) n nobj dt, (forall r, In r l -> rows_of r = n) ->
  (nobj = None \/ nobj = Some n) ->
  exists n' dt', ofold header_step l (nobj, dt) = Ok (n', dt').
Proof.
  induction l as [|r l IH]; cbn [ofold]; intros n nobj dt H K; [eauto|].
  assert (E : exists d1, header_step (nobj, dt) r = Ok (Some n, d1)).
  { specialize (H r (or_introl eq_refl)). unfold header_step. destruct r as [t|]; cbn in H; subst n.
    - destruct K as [->| ->]; cbn [obind]; [|rewrite Nat.eqb_refl; cbn [obind]]; eauto.
    - destruct K as [->| ->]; [|rewrite Nat.eqb_refl]; eauto. }
  destruct E as [d1 ->]. cbn [obind]. apply (IH n); [intros q Hq; apply H; now right | now right].
Qed.

Lemma header_nodup : forall (l : list (option (table A))) nobj dt n dt',
  ofold header_step l (nobj, dt) = Ok (n, dt') ->
  NoDup dt -> (forall r, In (Some r) l -> NoDup (names r)) ->
  NoDup (filter (fun c => negb (is_dupe c)) dt ++ flat_map nd l) -> NoDup dt'.
Proof.
  induction l as [|r l IH]; cbn [ofold flat_map]; intros nobj dt n dt' H N W D.
  - apply Ok_inj in H. inversion H; subst. exact N.
  - destruct (header_step (nobj, dt) r) as [[n1 dt1]|e] eqn:E; cbn [obind] in H; [|discriminate].
    destruct r as [t|].
    + assert (Q : dt1 = (match dt with [] => names t | _ => dt ++ filter (fun c => negb (is_dupe c)) (names t) end)%list).
      { unfold header_step in E. destruct nobj as [k|]; cbn [obind] in E;
          [destruct (Nat.eqb k (t_n t)); cbn [obind] in E; [|discriminate]|]; congruence. }
      assert (N1 : NoDup dt1).
      { subst dt1. destruct dt as [|d dt]; [apply W; now left|].
        apply NoDup_app_intro; [exact N | apply NoDup_filter', W; now left|].
        intros c Hc K. apply filter_In in K. destruct K as [K1 K2].
        apply NoDup_app_disjoint with (x := c) in D.
        - apply D. apply in_or_app. left. cbn [nd]. apply filter_In. now split.
        - apply filter_In. now split. }
      apply (IH _ _ _ _ H N1); [intros q Hq; apply W; now right|].
      replace (filter (fun c => negb (is_dupe c)) dt1) with (filter (fun c => negb (is_dupe c)) dt ++ nd (Some t))%list.
      * rewrite <- app_assoc. exact D.
      * subst dt1. destruct dt as [|d dt]; [reflexivity|]. rewrite filter_app, filter_filter_nd. reflexivity.
    + assert (dt1 = dt).
      { unfold header_step in E. destruct nobj as [k|]; [destruct (Nat.eqb _ _); [|discriminate]|]; congruence. }
      subst dt1. apply (IH _ _ _ _ H N); [intros q Hq; apply W; now right | exact D].
Qed.

Lemma combine_total : forall l n, l <> [] -> (forall r, In r l -> rows_of r = n) ->
  (forall r, In (Some r) l -> wf_table r /\ has_column r "shear_bands") ->
  (forall r r' v v', In (Some r) l -> In (Some r') l -> column r "shear_bands" v -> column r' "shear_bands" v' -> v = v') ->
  (forall l1 l2 l3 r r' c, l = (l1 ++ Some r :: l2 ++ Some r' :: l3)%list -> has_column r c -> has_column r' c -> c = "shear_bands") ->
  exists o, combine_fit_res eqb zero l = Ok o.
Proof.
  intros l n NE R W S D. destruct l as [|a [|b l]]; [congruence|cbn; eauto|].
  rewrite combine_two. set (L := a :: b :: l) in *.
  assert (HL : L = a :: b :: l) by reflexivity. clearbody L.
  destruct (header_total L n None [] R (or_introl eq_refl)) as (n' & dt & E).
  rewrite E. cbn [obind]. destruct (header_ok _ _ _ _ _ E) as (_ & R' & _ & F & _ & B). cbn in F.
  assert (n' = Some n).
  { rewrite (R' a); [|rewrite HL; now left]. f_equal. apply R. rewrite HL. now left. }
  subst n'.
  assert (FN : NoDup (flat_map nd L)).
  { clear -D W. induction L as [|x L IH]; cbn [flat_map]; [constructor|].
    apply NoDup_app_intro.
    - destruct x as [t|]; [|constructor]. cbn. apply NoDup_filter'. apply W. now left.
    - apply IH; [intros r Hr; apply W; now right|].
      intros l1 l2 l3 r r' c Hl. apply (D (x :: l1) l2 l3). rewrite Hl. reflexivity.
    - intros c Hc K. apply in_flat_map in K. destruct K as (y & Hy & K).
      destruct x as [t|]; [|contradiction]. destruct y as [u|]; [|contradiction].
      cbn in Hc, K. apply filter_In in Hc. apply filter_In in K. destruct Hc as [Hc Hd]. destruct K as [K _].
      apply in_split in Hy. destruct Hy as (m1 & m2 & ->).
      rewrite (D [] m1 m2 t u c eq_refl Hc K) in Hd. discriminate. }
  assert (ND : nodupb dt = true).
  { apply nodupb_ok. apply (header_nodup _ _ _ _ _ E); [constructor| |exact FN].
    intros r Hr. apply W. exact Hr. }
  rewrite ND. destruct (Nat.ltb 0 n) eqn:P.
  - apply Nat.ltb_lt in P.
    destruct (fill_total L true (map (fun c => (c, repeat zero n)) dt)) as [acc Ha].
    + intros r Hr ->. specialize (R _ Hr). cbn in R. lia.
    + intros r c Hr Hc. rewrite map_fst_const.
      destruct (is_dupe c) eqn:Dc.
      * (* shear_bands is in the header of the first result *)
        unfold is_dupe, dupe_cols in Dc. cbn in Dc. rewrite orb_false_r in Dc. apply String.eqb_eq in Dc. subst c.
        rewrite HL in E. cbn [ofold] in E.
        destruct (header_step (None, []) a) as [[n1 d1]|e] eqn:E1; cbn [obind] in E; [|discriminate].
        assert (d1 = names (match a with Some u => u | None => mkTable O [] end)).
        { unfold header_step in E1. destruct a as [u|]; cbn [obind] in E1; [congruence|].
          exfalso. specialize (R None). rewrite HL in R. specialize (R (or_introl eq_refl)). cbn in R. lia. }
        destruct a as [u|].
        { subst d1. destruct (header_ok (b :: l) _ _ _ _ E) as (_ & _ & _ & _ & K & _). apply K.
          apply (W u). rewrite HL. now left. }
        { exfalso. specialize (R None). rewrite HL in R. specialize (R (or_introl eq_refl)). cbn in R. lia. }
      * assert (K : In c (filter (fun c => negb (is_dupe c)) dt)).
        { rewrite F. apply in_flat_map. exists (Some r). split; [exact Hr|]. cbn [nd]. apply filter_In. rewrite Dc. now split. }
        apply filter_In in K. tauto.
    + intros r Hr. apply W. exact Hr.
    + rewrite map_fst_const. now apply nodupb_ok.
    + intros r r' c v v' Hr Hr' C C' Dc. unfold is_dupe, dupe_cols in Dc. cbn in Dc. rewrite orb_false_r in Dc.
      apply String.eqb_eq in Dc. subst c. exact (S r r' v v' Hr Hr' C C').
    + intros r r' c Dc Hr Hr' _. unfold is_dupe, dupe_cols in Dc. cbn in Dc. rewrite orb_false_r in Dc.
      apply String.eqb_eq in Dc. subst c. apply W. exact Hr'.
    + discriminate.
    + rewrite Ha. cbn [obind]. eauto.
  - destruct (existsb has L); eauto.
Qed.
End Combine.

(** ** Data flags *)
Lemma struct_ok : forall ng n sb d0, get_wavg_output_struct ng n sb = Ok d0 ->
  (List.length sb <= 6)%nat /\
  d0 = mkRow (NO_ATTEMPT ng) (NO_ATTEMPT ng) nan2 None (NO_ATTEMPT ng) None nan2 (fun _ _ => None) None
          (NO_ATTEMPT ng) None None (repeat (NO_ATTEMPT ng) (Nat.max n 1)) (repeat None (Nat.max n 1))
          (repeat None (Nat.max n 1)) (band_label sb).
Proof.
  intros ng n sb d0 H. unfold get_wavg_output_struct in H.
  destruct (zlen sb <=? MAX_NUM_SHEAR_BANDS) eqn:E; [|discriminate]. apply Ok_inj in H.
  split; [|now symmetry]. apply Z.leb_le in E. unfold zlen, MAX_NUM_SHEAR_BANDS in E. lia.
Qed.

Lemma data_flags_acc : forall bm mb a f,
  ofold (fun f ol => do g <- band_data_flags bm ol; Ok (Z.lor f g)) mb a = Ok f ->
  has_flag f a /\ forall ol, In ol mb -> exists g, band_data_flags bm ol = Ok g /\ has_flag f g.
Proof.
  induction mb as [|ol mb IH]; cbn [ofold]; intros a f H.
  - apply Ok_inj in H. subst. split; [intros k Hk; exact Hk | intros ol []].
  - destruct (band_data_flags bm ol) as [g|e] eqn:E; cbn [obind] in H; [|discriminate].
    destruct (IH _ _ H) as [I1 I2]. split.
    + intros k Hk. apply I1. rewrite Z.lor_spec, Hk. reflexivity.
    + intros ol' [<-|Hin]; [|auto]. exists g. split; [exact E|]. intros k Hk. apply I1. rewrite Z.lor_spec, Hk.
      apply orb_true_r.
Qed.

Lemma data_flags_zero : forall bm mb, data_flags bm mb = Ok 0 -> good_data bm mb.
Proof.
  intros bm mb H ol Hin. destruct (data_flags_acc _ _ _ _ H) as [_ K]. destruct (K ol Hin) as (g & Hg & F).
  assert (g = 0) by (apply has_flag_zero with (a := 0); auto). subst g. clear K F H.
  unfold band_data_flags in Hg. destruct ol as [|o [|o' ol]].
  - apply Ok_inj in Hg. exfalso. exact (flag_value_nonzero MISSING_BAND Hg).
  - destruct (f_bmask o) as [m|] eqn:B; [|discriminate]. apply Ok_inj in Hg.
    destruct (any_pixel (fun v => negb (Z.land v bm =? 0)) m) eqn:X.
    { exfalso. apply lor0 in Hg. exact (flag_value_nonzero EDGE_HIT (proj2 Hg)). }
    destruct (any_pixel qpos (f_weight o)) eqn:Y; [|exfalso; exact (flag_value_nonzero ZERO_WEIGHTS Hg)].
    exists o, m. split; [reflexivity|]. split; [|split; [exact B|]].
    + apply any_pixel_spec in Y. destruct Y as (i & j & I & P). exists i, j. split; [exact I | now apply qpos_iff].
    + intros i j I. destruct (Z.land (px m i j) bm =? 0) eqn:E; [now apply Z.eqb_eq|].
      exfalso. apply not_true_iff_false in X. apply X. apply any_pixel_spec. exists i, j. rewrite E. now split.
  - apply Ok_inj in Hg. exfalso. exact (flag_value_nonzero INCONSISTENT_BANDS Hg).
Qed.

Lemma data_flags_total : forall bm mb, good_data bm mb -> data_flags bm mb = Ok 0.
Proof.
  intros bm mb G. unfold data_flags. assert (K : forall ol, In ol mb -> band_data_flags bm ol = Ok 0).
  { intros ol H. destruct (G ol H) as (o & m & -> & (i & j & I & P) & B & Z0). unfold band_data_flags. rewrite B.
    assert (X : any_pixel (fun v => negb (Z.land v bm =? 0)) m = false).
    { apply not_true_iff_false. intros X. apply any_pixel_spec in X. destruct X as (k & l & I' & X).
      rewrite (Z0 k l I') in X. discriminate. }
    rewrite X. assert (Y : any_pixel qpos (f_weight o) = true).
    { apply any_pixel_spec. exists i, j. split; [exact I | now apply qpos_iff]. }
    rewrite Y. reflexivity. }
  clear G. induction mb as [|ol mb IH]; cbn [ofold]; [reflexivity|].
  rewrite (K ol (or_introl eq_refl)). cbn [obind Z.lor]. apply IH. intros q Hq. apply K. now right.
Qed.

Lemma omap_forall2 : forall B C (f : B -> outcome C) l r, omap f l = Ok r <-> Forall2 (fun a b => f a = Ok b) l r.
Proof.
  intros. split; [apply omap_ok_Forall2|]. intros H. induction H as [|x y l r H1 H2 IH]; cbn; [reflexivity|].
  rewrite H1. cbn [obind]. rewrite IH. reflexivity.
Qed.
Lemma py_index_in : forall B (l : list B) i x, py_index l i = Ok x -> In x l.
Proof.
  intros B l i x H. unfold py_index in H. destruct ((0 <=? _) && (_ <? _)); [|discriminate].
  destruct (nth_error l _) eqn:E; [|discriminate]. apply Ok_inj in H. subst. eapply nth_error_In. exact E.
Qed.

Lemma stamps_fit : forall mbobs sb coadd mb, fitted_stamps mbobs sb coadd mb -> gauss_stamps mbobs sb coadd = Ok (inl mb).
Proof.
  intros mbobs sb coadd mb H. unfold fitted_stamps in H. unfold gauss_stamps. destruct coadd.
  - destruct H as (o & H & ->). rewrite H. reflexivity.
  - apply omap_forall2 in H. rewrite H. reflexivity.
Qed.
Lemma fit_stamps : forall mbobs sb coadd mb, gauss_stamps mbobs sb coadd = Ok (inl mb) -> fitted_stamps mbobs sb coadd mb.
Proof.
  intros mbobs sb coadd mb H. unfold fitted_stamps. unfold gauss_stamps in H. destruct coadd.
  - destruct (make_coadd_obs mbobs sb) as [[[o|] cf]|e] eqn:E; cbn [obind] in H; try discriminate.
    destruct (cf =? 0) eqn:Z0; [|discriminate]. apply Z.eqb_eq in Z0. subst cf. apply Ok_inj in H.
    inversion H; subst. eauto.
  - destruct (omap (py_index mbobs) sb) as [l|e] eqn:E; cbn [obind] in H; [|discriminate].
    apply Ok_inj in H. inversion H; subst. now apply omap_forall2.
Qed.
Lemma coadd_many_flag : forall obs fo fp c, coadd_many obs fo fp = (None, c) -> c <> 0.
Proof.
  intros obs fo fp c. unfold coadd_many. destruct (coadd_weights obs); [|intros H; apply (f_equal snd) in H; cbn [snd] in H; rewrite <- H; apply flag_value_nonzero].
  destruct (all_pixels _ _); [intros H; apply (f_equal snd) in H; cbn [snd] in H; rewrite <- H; apply flag_value_nonzero|].
  destruct (negb _); intros H; [|discriminate]. apply (f_equal snd) in H; cbn [snd] in H; rewrite <- H; apply flag_value_nonzero.
Qed.
Lemma coadd_many_zero : forall obs fo fp o c, coadd_many obs fo fp = (Some o, c) -> c = 0.
Proof.
  intros obs fo fp o c. unfold coadd_many. destruct (coadd_weights obs); [|intros H; inversion H].
  destruct (all_pixels _ _); [intros H; inversion H|].
  destruct (negb _); intros H; inversion H. reflexivity.
Qed.
(** The coadd is returned exactly when its flags are 0. *)
Lemma coadd_obs_flag : forall mbobs sb o c, make_coadd_obs mbobs sb = Ok (o, c) -> (o = None <-> c <> 0).
Proof.
  intros mbobs sb o c H. unfold make_coadd_obs in H.
  assert (T : forall e : outcome fobs, (do x <- e; Ok (Some x, 0)) = Ok (o, c) -> (o = None <-> c <> 0)).
  { intros e K. destruct e as [x|]; cbn [obind] in K; [|discriminate]. apply Ok_inj in K. inversion K; subst. split; congruence. }
  assert (N : Ok (@None fobs, flag_value INCONSISTENT_BANDS) = Ok (o, c) -> (o = None <-> c <> 0)).
  { intros K. apply Ok_inj in K. rewrite pair_equal_spec in K. destruct K as [<- <-]. split; intros; [apply flag_value_nonzero | reflexivity]. }
  destruct (zlen mbobs =? 1).
  - destruct (py_index sb 0) as [s0|]; cbn [obind] in H; [|discriminate]. destruct (s0 =? 0); eauto.
  - destruct sb as [|s [|s' sb]].
    + destruct (existsb _ _); [auto|]. destruct (py_index [] 0) as [s0|]; cbn [obind] in H; [|discriminate].
      destruct (band_obs mbobs s0) as [fo|]; cbn [obind] in H; [|discriminate].
      destruct (all_consistent _ _ _) as [ok|]; cbn [obind] in H; [|discriminate]. destruct (negb ok); [auto|].
      destruct (omap _ _) as [obs|]; cbn [obind] in H; [|discriminate]. destruct (f_psf fo) as [fp|]; [|discriminate].
      apply Ok_inj in H. destruct o as [o|]; [apply coadd_many_zero in H; subst; split; congruence|].
      apply coadd_many_flag in H. split; auto.
    + destruct (s <? zlen mbobs); eauto.
    + destruct (existsb _ _); [auto|]. destruct (py_index _ 0) as [s0|]; cbn [obind] in H; [|discriminate].
      destruct (band_obs mbobs s0) as [fo|]; cbn [obind] in H; [|discriminate].
      destruct (all_consistent _ _ _) as [ok|]; cbn [obind] in H; [|discriminate]. destruct (negb ok); [auto|].
      destruct (omap _ _) as [obs|]; cbn [obind] in H; [|discriminate]. destruct (f_psf fo) as [fp|]; [|discriminate].
      apply Ok_inj in H. destruct o as [o|]; [apply coadd_many_zero in H; subst; split; congruence|].
      apply coadd_many_flag in H. split; auto.
Qed.
Lemma stamps_flag : forall mbobs sb coadd cf, gauss_stamps mbobs sb coadd = Ok (inr cf) -> cf <> 0.
Proof.
  intros mbobs sb coadd cf H. unfold gauss_stamps in H. destruct coadd.
  - destruct (make_coadd_obs mbobs sb) as [[[o|] c]|e] eqn:E; cbn [obind] in H; try discriminate.
    + destruct (c =? 0) eqn:Z0; [discriminate|]. apply Z.eqb_neq in Z0. apply Ok_inj in H. congruence.
    + apply Ok_inj in H. inversion H; subst. now apply (coadd_obs_flag _ _ _ _ E).
  - destruct (omap (py_index mbobs) sb); cbn [obind] in H; discriminate.
Qed.

(** ** The shape of a Gaussian fit *)
Lemma gauss_cases : forall ng boot mbobs bm sb coadd r, fit_mbobs_gauss ng boot mbobs bm sb coadd = Ok r ->
  exists d0, get_wavg_output_struct ng (List.length mbobs) (default_bands mbobs sb) = Ok d0 /\
  ((exists f, f <> 0 /\ r = add_flags d0 f /\
      (forall mb, good_data bm mbobs -> (forall s, In s (default_bands mbobs sb) -> s < zlen mbobs) ->
         fitted_stamps mbobs (default_bands mbobs sb) coadd mb ->
         forall g p, boot mb <> BootOk g p)) \/
   (good_data bm mbobs /\ (forall s, In s (default_bands mbobs sb) -> s < zlen mbobs) /\
    exists mb g p, fitted_stamps mbobs (default_bands mbobs sb) coadd mb /\ boot mb = BootOk g p /\
      gauss_row d0 (List.length mbobs) (default_bands mbobs sb) coadd mb g p = Ok r)).
Proof.
  intros ng boot mbobs bm sb coadd r H. unfold fit_mbobs_gauss in H.
  set (s := default_bands mbobs sb) in *. clearbody s.
  destruct (get_wavg_output_struct ng (List.length mbobs) s) as [d0|e] eqn:E; cbn [obind] in H; [|discriminate].
  exists d0. split; [reflexivity|].
  destruct (data_flags bm mbobs) as [f0|e] eqn:F; cbn [obind] in H; [|discriminate].
  set (f1 := if existsb (fun s => zlen mbobs <=? s) s then Z.lor f0 (flag_value INCONSISTENT_BANDS) else f0) in *.
  destruct (f1 =? 0) eqn:Z0; cbn [negb] in H.
  - apply Z.eqb_eq in Z0. unfold f1 in Z0.
    destruct (existsb (fun s => zlen mbobs <=? s) s) eqn:X.
    { apply lor0 in Z0. exfalso. exact (flag_value_nonzero INCONSISTENT_BANDS (proj2 Z0)). }
    subst f0. assert (G := data_flags_zero _ _ F).
    assert (S : forall b, In b s -> b < zlen mbobs).
    { intros b Hb. destruct (Z.lt_ge_cases b (zlen mbobs)) as [|K]; [assumption|]. exfalso.
      apply not_true_iff_false in X. apply X. apply existsb_exists. exists b. split; [exact Hb | now apply Z.leb_le]. }
    destruct (gauss_stamps mbobs s coadd) as [[mb|cf]|e] eqn:GS; cbn [obind] in H; [| |discriminate].
    + assert (U : forall mb', fitted_stamps mbobs s coadd mb' -> mb' = mb).
      { intros mb' K. apply stamps_fit in K. congruence. }
      destruct (boot mb) as [g p| |] eqn:B.
      * right. split; [exact G|]. split; [exact S|]. exists mb, g, p. split; [now apply fit_stamps|]. split; [exact B | exact H].
      * left. exists (flag_value PSF_FAILURE). split; [apply flag_value_nonzero|]. apply Ok_inj in H.
        split; [now symmetry|]. intros mb' _ _ K g p. rewrite (U _ K), B. discriminate.
      * left. exists (Z.lor (flag_value OBJ_FAILURE) (flag_value PSF_FAILURE)). split; [discriminate|]. apply Ok_inj in H.
        split; [now symmetry|]. intros mb' _ _ K g p. rewrite (U _ K), B. discriminate.
    + left. exists cf. split; [now apply stamps_flag in GS|]. apply Ok_inj in H. split; [now symmetry|].
      intros mb _ _ K. apply stamps_fit in K. congruence.
  - left. apply Z.eqb_neq in Z0. exists f1. split; [exact Z0|]. apply Ok_inj in H. split; [now symmetry|].
    intros mb G S _ g p _. apply Z0. unfold f1. rewrite (data_flags_total _ _ G) in F. apply Ok_inj in F. subst f0.
    assert (X : existsb (fun s => zlen mbobs <=? s) s = false).
    { apply not_true_iff_false. intros X. apply existsb_exists in X. destruct X as (b & Hb & X). apply Z.leb_le in X.
      specialize (S b Hb). lia. }
    rewrite X. reflexivity.
Qed.

Lemma add_flags_nonzero : forall d0 f, f <> 0 -> o_flags (add_flags d0 f) <> 0.
Proof. intros d0 f H K. cbn in K. apply lor0 in K. tauto. Qed.

(** Stamps with one observation per band. *)
Lemma stamps_single : forall mb obs (p : nat -> psfres), mb = map (fun o => [o]) obs ->
  map (fun ko => (p (fst ko), snd ko)) (stamps mb) = combine (map p (seq 0 (List.length obs))) obs.
Proof.
  intros mb obs p ->. unfold stamps. rewrite map_length. generalize O.
  induction obs as [|o obs IH]; cbn [map seq combine flat_map List.length]; intros k; [reflexivity|].
  cbn [fst snd map app]. f_equal. apply IH.
Qed.
Lemma fitted_single : forall bm mbobs sb coadd mb, good_data bm mbobs -> fitted_stamps mbobs sb coadd mb ->
  exists obs, mb = map (fun o => [o]) obs /\ (coadd = false -> forall o, In o obs -> has_positive (f_weight o)).
Proof.
  intros bm mbobs sb coadd mb G F. destruct coadd.
  - destruct F as (o & _ & ->). exists [o]. split; [reflexivity | discriminate].
  - unfold fitted_stamps in F. induction F as [|b ol sb mb H1 H2 IH]; [exists []; split; [reflexivity | intros _ o []]|].
    destruct IH as (obs & -> & P). destruct (G ol (py_index_in _ _ _ _ H1)) as (o & m & -> & Hp & _).
    exists (o :: obs). split; [reflexivity|]. intros _ o' [<-|K]; [exact Hp | exact (P eq_refl o' K)].
Qed.

Lemma psf_fold_flags : forall l s, has_flag (ps_flags (fold_left psf_step l s)) (ps_flags s) /\
  (forall q o, In (q, o) l -> has_flag (ps_flags (fold_left psf_step l s)) (q_flags q)).
Proof.
  induction l as [|[q o] l IH]; cbn [fold_left]; intros s; [split; [intros k Hk; exact Hk | intros q o []]|].
  destruct (IH (psf_step s (q, o))) as [I1 I2].
  assert (K : has_flag (ps_flags (psf_step s (q, o))) (Z.lor (ps_flags s) (q_flags q))).
  { unfold psf_step. destruct (q_flags q =? 0); [destruct (qmedian _)|]; cbn [ps_flags].
    - intros k Hk; exact Hk.
    - apply has_flag_lor_l. intros k Hk; exact Hk.
    - intros k Hk; exact Hk. }
  assert (K' : has_flag (ps_flags (fold_left psf_step l (psf_step s (q, o)))) (Z.lor (ps_flags s) (q_flags q))).
  { intros k Hk. apply I1, K, Hk. }
  split.
  - intros k Hk. apply K'. rewrite Z.lor_spec, Hk. reflexivity.
  - intros q' o' [E|Hin].
    + inversion E; subst. intros k Hk. apply K'. rewrite Z.lor_spec, Hk. apply orb_true_r.
    + eauto.
Qed.

(** The sums when every PSF fit succeeded. *)
Lemma psf_fold_sums : forall obs ws k s (p : nat -> psfres),
  Forall2 (fun o w => qmedian (positive_of (f_weight o)) = Some w) obs ws ->
  (forall i, (k <= i < k + List.length obs)%nat -> q_flags (p i) = 0) ->
  let f := fold_left psf_step (combine (map p (seq k (List.length obs))) obs) s in
  let kw := combine (seq k (List.length ws)) ws in
  ps_flags f = ps_flags s /\ (ps_w f == ps_w s + qsum ws)%Q /\
  neqv (ps_T f) (nadd (ps_T s) (nsum (map (fun x => nmul (Some (snd x)) (q_T (p (fst x)))) kw))) /\
  neqv (ps_g1 f) (nadd (ps_g1 s) (nsum (map (fun x => nmul (nmul (Some (snd x)) (q_T (p (fst x)))) (fst (q_g (p (fst x))))) kw))) /\
  neqv (ps_g2 f) (nadd (ps_g2 s) (nsum (map (fun x => nmul (nmul (Some (snd x)) (q_T (p (fst x)))) (snd (q_g (p (fst x))))) kw))).
Proof.
  induction obs as [|o obs IH]; intros ws k s p F Z0; inversion F; subst; cbn [List.length seq map combine fold_left]; cbv zeta.
  - cbn [qsum fold_right nsum map]. split; [reflexivity|]. split; [unfold qsum; cbn; ring|].
    split; [|split]; symmetry; apply nadd_0_r.
  - assert (P0 : q_flags (p k) = 0) by (apply Z0; cbn; lia).
    assert (E : psf_step s (p k, o) = mkPsums (Z.lor (ps_flags s) (q_flags (p k)))
        (nadd (ps_g1 s) (nmul (nmul (fst (q_g (p k))) (Some y)) (q_T (p k))))
        (nadd (ps_g2 s) (nmul (nmul (snd (q_g (p k))) (Some y)) (q_T (p k))))
        (nadd (ps_T s) (nmul (q_T (p k)) (Some y))) (ps_w s + y)%Q).
    { unfold psf_step. rewrite P0, H1. reflexivity. }
    rewrite E. clear E. rewrite P0, Z.lor_0_r.
    assert (Z1 : forall i, (S k <= i < S k + List.length obs)%nat -> q_flags (p i) = 0) by (intros i Hi; apply Z0; cbn; lia).
    specialize (IH _ (S k) (mkPsums (ps_flags s)
        (nadd (ps_g1 s) (nmul (nmul (fst (q_g (p k))) (Some y)) (q_T (p k))))
        (nadd (ps_g2 s) (nmul (nmul (snd (q_g (p k))) (Some y)) (q_T (p k))))
        (nadd (ps_T s) (nmul (q_T (p k)) (Some y))) (ps_w s + y)%Q) p H3 Z1).
    cbv zeta in IH. cbn [ps_flags ps_w ps_T ps_g1 ps_g2] in IH. destruct IH as (I1 & I2 & I3 & I4 & I5).
    split; [exact I1|]. cbn [fst snd nsum fold_right].
    split; [rewrite I2; unfold qsum; cbn [fold_right]; ring|].
    assert (A3 : forall a b c d, neqv b d -> neqv (nadd (nadd a b) c) (nadd a (nadd d c))).
    { intros a b c d. destruct a, b, c, d; cbn; try tauto. intros Q. rewrite Q. ring. }
    assert (M3 : forall a b c, neqv (nmul (nmul a b) c) (nmul (nmul b c) a)).
    { intros a b c. destruct a, b, c; cbn; try tauto. ring. }
    fold (nsum (map (fun x => nmul (Some (snd x)) (q_T (p (fst x)))) (combine (seq (S k) (List.length l')) l'))).
    fold (nsum (map (fun x => nmul (nmul (Some (snd x)) (q_T (p (fst x)))) (fst (q_g (p (fst x))))) (combine (seq (S k) (List.length l')) l'))).
    fold (nsum (map (fun x => nmul (nmul (Some (snd x)) (q_T (p (fst x)))) (snd (q_g (p (fst x))))) (combine (seq (S k) (List.length l')) l'))).
    split; [|split].
    + etransitivity; [exact I3|]. apply A3. apply nmul_comm.
    + etransitivity; [exact I4|]. apply A3. apply M3.
    + etransitivity; [exact I5|]. apply A3. apply M3.
Qed.

Lemma medians_exist : forall obs, (forall o, In o obs -> has_positive (f_weight o)) ->
  exists ws, Forall2 (fun o w => qmedian (positive_of (f_weight o)) = Some w) obs ws.
Proof.
  induction obs as [|o obs IH]; intros H; [exists []; constructor|].
  destruct IH as [ws Hw]; [intros x Hx; apply H; now right|].
  destruct (proj1 (has_positive_median _) (H o (or_introl eq_refl))) as [m Hm].
  exists (m :: ws). now constructor.
Qed.

(** The PSF columns of a fit that ran. *)
Lemma psf_columns_flags : forall d0 coadd obs p pf pT pg,
  psf_columns d0 coadd (map (fun o => [o]) obs) p = (pf, pT, pg) ->
  (coadd = true -> List.length obs = 1%nat) ->
  (pf = 0 -> forall k, (k < List.length obs)%nat -> q_flags (p k) = 0) /\
  (pf <> 0 -> pT = o_psf_T d0 /\ pg = o_psf_g d0).
Proof.
  intros d0 coadd obs p pf pT pg H L. unfold psf_columns in H. destruct coadd.
  - rewrite !pair_equal_spec in H. destruct H as [[<- <-] <-]. specialize (L eq_refl). split.
    + intros Z0 k Hk. assert (k = O) by lia. subst. exact Z0.
    + intros Z0. apply Z.eqb_neq in Z0. rewrite Z0. auto.
  - rewrite (stamps_single _ obs p eq_refl) in H.
    set (f := fold_left psf_step (combine (map p (seq 0 (List.length obs))) obs) psums0) in *.
    rewrite !pair_equal_spec in H. destruct H as [[<- <-] <-]. split.
    + intros Z0 k Hk. destruct (psf_fold_flags (combine (map p (seq 0 (List.length obs))) obs) psums0) as [_ K].
      destruct (nth_error obs k) as [o|] eqn:E; [|apply nth_error_None in E; lia].
      assert (Hin : In (p k, o) (combine (map p (seq 0 (List.length obs))) obs)).
      { apply nth_error_In with k. clear -E.
        assert (G : forall (obs : list fobs) j k o, nth_error obs k = Some o ->
                  nth_error (combine (map p (seq j (List.length obs))) obs) k = Some (p (j + k)%nat, o)).
        { induction obs0 as [|x obs0 IH]; intros j k0 o0 H; [destruct k0; discriminate|].
          destruct k0 as [|k0]; cbn in *.
          - apply Some_inj in H. subst. now rewrite Nat.add_0_r.
          - rewrite (IH (S j) k0 o0 H). do 3 f_equal. lia. }
        exact (G obs O k o E). }
      apply has_flag_zero with (a := ps_flags f); [exact (K _ _ Hin) | exact Z0].
    + intros Z0. apply Z.eqb_neq in Z0. rewrite Z0. auto.
Qed.

Lemma psf_columns_values : forall d0 obs ws p pf pT pg,
  psf_columns d0 false (map (fun o => [o]) obs) p = (pf, pT, pg) ->
  Forall2 (fun o w => qmedian (positive_of (f_weight o)) = Some w) obs ws ->
  (forall k, (k < List.length obs)%nat -> q_flags (p k) = 0) ->
  pf = 0 /\ neqv pT (band_mean (fun k => q_T (p k)) ws) /\
  neqv (fst pg) (size_weighted_mean (fun k => fst (q_g (p k))) (fun k => q_T (p k)) ws) /\
  neqv (snd pg) (size_weighted_mean (fun k => snd (q_g (p k))) (fun k => q_T (p k)) ws).
Proof.
  intros d0 obs ws p pf pT pg H W Z0. unfold psf_columns in H. rewrite (stamps_single _ obs p eq_refl) in H.
  destruct (psf_fold_sums obs ws O psums0 p W) as (F1 & F2 & F3 & F4 & F5); [intros i Hi; apply Z0; lia|].
  set (f := fold_left psf_step (combine (map p (seq 0 (List.length obs))) obs) psums0) in *. clearbody f.
  cbn [psums0 ps_flags ps_w ps_T ps_g1 ps_g2] in *.
  rewrite F1 in H. change (0 =? 0) with true in H. cbv iota in H. rewrite !pair_equal_spec in H. destruct H as [[<- <-] <-].
  rewrite nadd_0_l in F3, F4, F5.
  split; [reflexivity|]. unfold band_mean, size_weighted_mean. cbn [fst snd]. split; [|split].
  - apply vdiv_ext; [exact F3 | rewrite F2; ring].
  - apply ndiv_proper; assumption.
  - apply ndiv_proper; assumption.
Qed.

Lemma coadd_single_stamp : forall mbobs sb obs, fitted_stamps mbobs sb true (map (fun o => [o]) obs) -> List.length obs = 1%nat.
Proof.
  intros mbobs sb obs (o & _ & E). apply (f_equal (@List.length _)) in E. now rewrite map_length in E.
Qed.

Lemma gauss_clean : forall ng boot mbobs bm sb coadd r, fit_mbobs_gauss ng boot mbobs bm sb coadd = Ok r ->
  o_flags r = 0 ->
  good_data bm mbobs /\ (forall s, In s (default_bands mbobs sb) -> s < zlen mbobs) /\
  exists obs g p, fitted_stamps mbobs (default_bands mbobs sb) coadd (map (fun o => [o]) obs) /\
    boot (map (fun o => [o]) obs) = BootOk g p /\ g_flags g = 0 /\
    (forall k, (k < List.length obs)%nat -> q_flags (p k) = 0) /\
    o_obj_flags r = 0 /\ o_T_flags r = 0 /\ o_psf_flags r = 0 /\
    o_s2n r = g_s2n g /\ o_g r = g_g g /\ o_g_cov r = g_gcov g /\ o_T r = g_T g /\ o_T_err r = g_T_err g /\
    o_T_ratio r = ndiv (g_T g) (o_psf_T r) /\
    (coadd = true -> o_psf_T r = q_T (p O) /\ o_psf_g r = q_g (p O)) /\
    (coadd = false -> exists ws, Forall2 (fun o w => positive_median (f_weight o) w) obs ws /\
       neqv (o_psf_T r) (band_mean (fun k => q_T (p k)) ws) /\
       neqv (fst (o_psf_g r)) (size_weighted_mean (fun k => fst (q_g (p k))) (fun k => q_T (p k)) ws) /\
       neqv (snd (o_psf_g r)) (size_weighted_mean (fun k => snd (q_g (p k))) (fun k => q_T (p k)) ws)).
Proof.
  intros ng boot mbobs bm sb coadd r H Z0. destruct (gauss_cases _ _ _ _ _ _ _ H) as (d0 & Hd & [C|C]).
  - destruct C as (f & Hf & -> & _). exfalso. exact (add_flags_nonzero _ _ Hf Z0).
  - destruct C as (G & S & mb & g & p & F & B & R). split; [exact G|]. split; [exact S|].
    destruct (fitted_single _ _ _ _ _ G F) as (obs & -> & P). exists obs, g, p. split; [exact F|]. split; [exact B|].
    clear H Hd. unfold gauss_row in R.
    destruct (assign_bands _ _ _ _) as [bff|e]; cbn [obind] in R; [|discriminate].
    destruct (if g_flags g =? 0 then assign_bands _ _ _ (g_flux g) else _) as [bf|e]; cbn [obind] in R; [|discriminate].
    destruct (if g_flags g =? 0 then assign_bands _ _ _ (g_flux_err g) else _) as [be|e]; cbn [obind] in R; [|discriminate].
    destruct (psf_columns d0 coadd (map (fun o => [o]) obs) p) as [[pf pT] pg] eqn:PC.
    apply Ok_inj in R. subst r. cbn [o_flags] in Z0. apply lor0 in Z0. destruct Z0 as [Z1 Z2]. subst pf.
    cbn [o_obj_flags o_T_flags o_psf_flags o_s2n o_g o_g_cov o_T o_T_err o_T_ratio o_psf_T o_psf_g].
    rewrite Z1. change (0 =? 0) with true. cbn [andb].
    assert (L : coadd = true -> List.length obs = 1%nat).
    { intros ->. eapply coadd_single_stamp. exact F. }
    destruct (psf_columns_flags _ _ _ _ _ _ _ PC L) as [K _]. specialize (K eq_refl).
    repeat (split; [reflexivity|]). split; [exact K|]. repeat (split; [reflexivity|]). split.
    + intros ->. unfold psf_columns in PC. rewrite !pair_equal_spec in PC. destruct PC as [[E1 <-] <-].
      rewrite E1. split; reflexivity.
    + intros ->. destruct (medians_exist obs (P eq_refl)) as [ws W]. exists ws.
      destruct (psf_columns_values _ _ _ _ _ _ _ PC W K) as (_ & V). split; [|exact V].
      clear -W. induction W; constructor; [now apply positive_of_median | assumption].
Qed.

Lemma default_row_nan : forall ng n sb d0 f, get_wavg_output_struct ng n sb = Ok d0 ->
  object_nan (add_flags d0 f) /\ psf_nan (add_flags d0 f).
Proof.
  intros ng n sb d0 f H. apply struct_ok in H. destruct H as [_ ->]. unfold object_nan, psf_nan. cbn.
  repeat split; apply Forall_forall; intros x Hx; apply repeat_spec in Hx; now symmetry.
Qed.

Lemma gauss_failed : forall ng boot mbobs bm sb coadd r mb, fit_mbobs_gauss ng boot mbobs bm sb coadd = Ok r ->
  fitted_stamps mbobs (default_bands mbobs sb) coadd mb ->
  (object_fit_failed (boot mb) -> o_flags r <> 0 /\ object_nan r) /\
  (psf_fit_failed (List.length mb) (boot mb) -> o_flags r <> 0 /\ psf_nan r).
Proof.
  intros ng boot mbobs bm sb coadd r mb H F. destruct (gauss_cases _ _ _ _ _ _ _ H) as (d0 & Hd & [C|C]).
  - destruct C as (f & Hf & -> & _). destruct (default_row_nan _ _ _ _ f Hd). split; intros _; split; auto;
      exact (add_flags_nonzero _ _ Hf).
  - destruct C as (G & S & mb' & g & p & F' & B & R).
    assert (mb' = mb). { apply stamps_fit in F. apply stamps_fit in F'. congruence. }
    subst mb'. rewrite B. cbn [object_fit_failed psf_fit_failed].
    destruct (fitted_single _ _ _ _ _ G F) as (obs & -> & P). rewrite map_length.
    destruct (struct_ok _ _ _ _ Hd) as [_ D]. unfold gauss_row in R.
    destruct (assign_bands _ _ _ _) as [bff|e]; cbn [obind] in R; [|discriminate].
    assert (L : coadd = true -> List.length obs = 1%nat).
    { intros ->. eapply coadd_single_stamp. exact F. }
    destruct (psf_columns d0 coadd (map (fun o => [o]) obs) p) as [[pf pT] pg] eqn:PC.
    destruct (psf_columns_flags _ _ _ _ _ _ _ PC L) as [K1 K2].
    split.
    + intros N. apply Z.eqb_neq in N as N'. rewrite N' in R. cbn [obind] in R. apply Ok_inj in R. subst r.
      split; [cbn [o_flags]; intros Q; apply lor0 in Q; tauto|].
      unfold object_nan. cbn [o_s2n o_g o_g_cov o_T o_T_err o_T_ratio o_band_flux o_band_flux_err].
      rewrite andb_false_r, D. cbn. repeat split; apply Forall_forall; intros x Hx; apply repeat_spec in Hx; now symmetry.
    + intros (k & Hk & N).
      destruct (if g_flags g =? 0 then assign_bands _ _ _ (g_flux g) else _) as [bf|e]; cbn [obind] in R; [|discriminate].
      destruct (if g_flags g =? 0 then assign_bands _ _ _ (g_flux_err g) else _) as [be|e]; cbn [obind] in R; [|discriminate].
      assert (NP : pf <> 0). { intros ->. apply N. now apply K1. }
      destruct (K2 NP) as [-> ->]. apply Ok_inj in R. subst r.
      split; [cbn [o_flags]; intros Q; apply lor0 in Q; tauto|].
      apply Z.eqb_neq in NP. unfold psf_nan. cbn [o_psf_T o_psf_g o_T_ratio]. rewrite NP. cbn [andb]. rewrite D.
      repeat split.
Qed.

(** ** The flux columns *)
Lemma set_nth_length : forall B (l : list B) k v, List.length (set_nth l k v) = List.length l.
Proof. induction l as [|x l IH]; destruct k; cbn; auto. Qed.
Lemma set_nth_same : forall B (l : list B) k v, (k < List.length l)%nat -> nth_error (set_nth l k v) k = Some v.
Proof. induction l as [|x l IH]; destruct k; cbn; intros v H; try lia; auto. apply IH. lia. Qed.
Lemma set_nth_other : forall B (l : list B) k j v, j <> k -> nth_error (set_nth l k v) j = nth_error l j.
Proof. induction l as [|x l IH]; destruct k, j; cbn; intros v H; auto; try congruence. Qed.
Lemma set_at_ok : forall B (l : list B) i v, 0 <= i < zlen l -> set_at l i v = Ok (set_nth l (Z.to_nat i) v).
Proof.
  intros B l i v H. unfold set_at. replace (i <? 0) with false by (symmetry; apply Z.ltb_ge; lia).
  replace ((0 <=? i) && (i <? zlen l)) with true; [reflexivity|].
  symmetry. apply andb_true_iff. split; [apply Z.leb_le | apply Z.ltb_lt]; lia.
Qed.

Lemma assign_pairs : forall B (iv : list (Z * B)) l, (forall i v, In (i, v) iv -> 0 <= i < zlen l) -> NoDup (map fst iv) ->
  exists l', ofold (fun l iv => set_at l (fst iv) (snd iv)) iv l = Ok l' /\ List.length l' = List.length l /\
    (forall k, ~ In (Z.of_nat k) (map fst iv) -> nth_error l' k = nth_error l k) /\
    (forall i v, In (i, v) iv -> nth_error l' (Z.to_nat i) = Some v).
Proof.
  induction iv as [|[i v] iv IH]; cbn [ofold map fst snd]; intros l H N.
  - exists l. repeat split; auto. intros i v [].
  - inversion N; subst. assert (Hi : 0 <= i < zlen l) by (apply (H i v); now left).
    rewrite (set_at_ok _ _ _ _ Hi). cbn [obind].
    assert (LL : zlen (set_nth l (Z.to_nat i) v) = zlen l) by (unfold zlen; now rewrite set_nth_length).
    destruct (IH (set_nth l (Z.to_nat i) v)) as (l' & E & L & O & V).
    { intros j w Hj. rewrite LL. apply (H j w). now right. }
    { assumption. }
    exists l'. split; [exact E|]. split; [rewrite L; apply set_nth_length|]. split.
    + intros k Hk. rewrite O by (intros K; apply Hk; now right). apply set_nth_other. intros ->. apply Hk. left. lia.
    + intros j w [K|K]; [|eauto]. inversion K; subst. rewrite O.
      * apply set_nth_same. unfold zlen in Hi. lia.
      * rewrite Z2Nat.id by lia. assumption.
Qed.

Lemma broadcast_pairs : forall B idx (v : B) l,
  ofold (fun l i => set_at l i v) idx l = ofold (fun l iv => set_at l (fst iv) (snd iv)) (map (fun i => (i, v)) idx) l.
Proof.
  induction idx as [|i idx IH]; cbn [ofold map fst snd]; intros v l; [reflexivity|].
  destruct (set_at l i v); cbn [obind]; auto.
Qed.

Lemma assign_at_values : forall B (l : list B) idx vals l', assign_at l idx vals = Ok l' ->
  (forall i, In i idx -> 0 <= i < zlen l) -> NoDup idx ->
  List.length l' = List.length l /\
  (forall k, ~ In (Z.of_nat k) idx -> nth_error l' k = nth_error l k) /\
  (forall i b, nth_error idx i = Some b -> exists v, value_for vals i = Some v /\ nth_error l' (Z.to_nat b) = Some v).
Proof.
  intros B l idx vals l' H R N.
  assert (G : forall vals', List.length vals' = List.length idx ->
    ofold (fun l iv => set_at l (fst iv) (snd iv)) (combine idx vals') l = Ok l' ->
    List.length l' = List.length l /\ (forall k, ~ In (Z.of_nat k) idx -> nth_error l' k = nth_error l k) /\
    (forall i b, nth_error idx i = Some b -> exists v, nth_error vals' i = Some v /\ nth_error l' (Z.to_nat b) = Some v)).
  { intros vals' L E. assert (M : map fst (combine idx vals') = idx).
    { clear -L. revert vals' L. induction idx as [|i idx IH]; intros [|v vals'] L; cbn in *; try discriminate; auto.
      f_equal. apply IH. congruence. }
    destruct (assign_pairs _ (combine idx vals') l) as (l2 & E2 & L2 & O2 & V2).
    - intros i v Hi. apply R. rewrite <- M. change i with (fst (i, v)). now apply in_map.
    - rewrite M. exact N.
    - rewrite E in E2. apply Ok_inj in E2. subst l2. rewrite M in O2. repeat split; auto.
      intros i b Hb. destruct (nth_error vals' i) as [v|] eqn:Hv.
      + exists v. split; [reflexivity|]. apply V2. clear -Hb Hv.
        revert vals' i Hb Hv. induction idx as [|x idx IH]; intros vals' i Hb Hv; [destruct i; discriminate|].
        destruct vals' as [|w vals']; [destruct i; discriminate|]. destruct i as [|i]; cbn in *.
        * apply Some_inj in Hb. apply Some_inj in Hv. subst. now left.
        * right. eauto.
      + apply nth_error_None in Hv. assert (i < List.length idx)%nat by (apply nth_error_Some; congruence). lia. }
  unfold assign_at in H.
  assert (D : (exists v, vals = [v]) \/ ((forall i, value_for vals i = nth_error vals i) /\
     (if Nat.eqb (List.length vals) (List.length idx)
         then ofold (fun l iv => set_at l (fst iv) (snd iv)) (combine idx vals) l
         else Raise ValueError) = Ok l')).
  { destruct vals as [|v [|v' vals]]; eauto. }
  destruct D as [[v ->]|[VF D]].
  - rewrite broadcast_pairs in H.
    replace (map (fun i => (i, v)) idx) with (combine idx (repeat v (List.length idx))) in H.
    2:{ clear. induction idx; cbn; [reflexivity | now rewrite IHidx]. }
    destruct (G (repeat v (List.length idx)) (repeat_length _ _) H) as (G1 & G2 & G3). repeat split; auto.
    intros i b Hb. destruct (G3 i b Hb) as (w & Hw & K). apply nth_error_In, repeat_spec in Hw. subst w.
    exists v. split; [reflexivity | exact K].
  - destruct (Nat.eqb _ _) eqn:L; [|discriminate]. apply Nat.eqb_eq in L.
    destruct (G vals L D) as (G1 & G2 & G3). repeat split; auto. intros i b Hb. rewrite VF. eauto.
Qed.

Lemma nth_error_repeat_lt : forall B (x : B) n k, (k < n)%nat -> nth_error (repeat x n) k = Some x.
Proof. intros B x n. induction n as [|n IH]; intros [|k] H; cbn; try lia; auto. apply IH. lia. Qed.

Lemma gauss_flux : forall ng boot mbobs bm sb coadd r, fit_mbobs_gauss ng boot mbobs bm sb coadd = Ok r ->
  o_flags r = 0 -> (2 <= List.length mbobs)%nat ->
  let s := default_bands mbobs sb in
  NoDup s -> (forall b, In b s -> 0 <= b) ->
  exists mb g p, fitted_stamps mbobs s coadd mb /\ boot mb = BootOk g p /\
  (forall i b, nth_error s i = Some b ->
     nth_error (o_band_flux r) (Z.to_nat b) = value_for (g_flux g) i /\
     nth_error (o_band_flux_err r) (Z.to_nat b) = value_for (g_flux_err g) i /\
     nth_error (o_band_flux_flags r) (Z.to_nat b) = Some 0) /\
  (forall k, (k < List.length mbobs)%nat -> ~ In (Z.of_nat k) s ->
     nth_error (o_band_flux r) k = Some None /\ nth_error (o_band_flux_err r) k = Some None /\
     nth_error (o_band_flux_flags r) k = Some (NO_ATTEMPT ng)).
Proof.
  intros ng boot mbobs bm sb coadd r H Z0 L2 s ND Pos.
  destruct (gauss_cases _ _ _ _ _ _ _ H) as (d0 & Hd & [C|C]).
  { destruct C as (f & Hf & -> & _). exfalso. exact (add_flags_nonzero _ _ Hf Z0). }
  destruct C as (G & S & mb & g & p & F & B & R). fold s in S, F, R, Hd. exists mb, g, p.
  split; [exact F|]. split; [exact B|]. destruct (struct_ok _ _ _ _ Hd) as [_ D].
  unfold gauss_row in R.
  destruct (assign_bands _ _ _ _) as [bff|e] eqn:A0; cbn [obind] in R; [|discriminate].
  destruct (if g_flags g =? 0 then assign_bands _ _ _ (g_flux g) else _) as [bf|e] eqn:A1; cbn [obind] in R; [|discriminate].
  destruct (if g_flags g =? 0 then assign_bands _ _ _ (g_flux_err g) else _) as [be|e] eqn:A2; cbn [obind] in R; [|discriminate].
  destruct (psf_columns d0 coadd mb p) as [[pf pT] pg]. apply Ok_inj in R. subst r.
  cbn [o_flags o_band_flux o_band_flux_err o_band_flux_flags] in *. apply lor0 in Z0. destruct Z0 as [Z1 _].
  rewrite Z1 in *. change (0 =? 0) with true in *. cbv iota in A1, A2.
  assert (LE : Nat.leb (List.length mbobs) 1 = false) by (apply Nat.leb_gt; lia).
  unfold assign_bands in A0, A1, A2. rewrite LE in A0, A1, A2.
  rewrite D in A0, A1, A2. cbn [o_band_flux o_band_flux_err o_band_flux_flags] in A0, A1, A2.
  replace (Nat.max (List.length mbobs) 1) with (List.length mbobs) in * by lia.
  assert (RG : forall B (x : B) i, In i s -> 0 <= i < zlen (repeat x (List.length mbobs))).
  { intros B' x i Hi. unfold zlen. rewrite repeat_length. specialize (S i Hi). specialize (Pos i Hi). unfold zlen in S. lia. }
  destruct (assign_at_values _ _ _ _ _ A0 (RG _ _) ND) as (_ & O0 & V0).
  destruct (assign_at_values _ _ _ _ _ A1 (RG _ _) ND) as (_ & O1 & V1).
  destruct (assign_at_values _ _ _ _ _ A2 (RG _ _) ND) as (_ & O2 & V2).
  split.
  - intros i b Hb. destruct (V0 i b Hb) as (v0 & E0 & ->). destruct (V1 i b Hb) as (v1 & E1 & ->).
    destruct (V2 i b Hb) as (v2 & E2 & ->). rewrite E1, E2. cbn in E0. apply Some_inj in E0. subst. auto.
  - intros k Hk Hn. rewrite O0, O1, O2 by exact Hn. rewrite !nth_error_repeat_lt by exact Hk. auto.
Qed.

(** ** Shear bands that do not exist *)
Lemma gauss_missing_band : forall ng boot mbobs bm sb coadd r b, fit_mbobs_gauss ng boot mbobs bm (Some sb) coadd = Ok r ->
  In b sb -> zlen mbobs <= b -> o_flags r <> 0.
Proof.
  intros ng boot mbobs bm sb coadd r b H Hb Hn. destruct (gauss_cases _ _ _ _ _ _ _ H) as (d0 & Hd & [C|C]).
  - destruct C as (f & Hf & -> & _). exact (add_flags_nonzero _ _ Hf).
  - destruct C as (_ & S & _). specialize (S b Hb). lia.
Qed.

(** ** Adaptive moments *)
Lemma admom_cases : forall ng rp ro mbobs bm sb sym r, fit_mbobs_admom ng rp ro mbobs bm sb sym = Ok r ->
  exists d0, get_wavg_output_struct ng (List.length mbobs) (default_bands mbobs sb) = Ok d0 /\
  ((exists f, f <> 0 /\ r = add_flags d0 f /\
      (forall co p pres, make_coadd_obs mbobs (default_bands mbobs sb) = Ok (Some co, 0) -> good_data bm mbobs ->
         f_psf co = Some p -> rp p <> Ok pres)) \/
   (good_data bm mbobs /\ exists co p pres, make_coadd_obs mbobs (default_bands mbobs sb) = Ok (Some co, 0) /\
      f_psf co = Some p /\ rp p = Ok pres /\ admom_row ro d0 co sym pres = Ok r)).
Proof.
  intros ng rp ro mbobs bm sb sym r H. unfold fit_mbobs_admom in H. set (s := default_bands mbobs sb) in *. clearbody s.
  destruct (get_wavg_output_struct ng (List.length mbobs) s) as [d0|e] eqn:E; cbn [obind] in H; [|discriminate].
  exists d0. split; [reflexivity|].
  destruct (data_flags bm mbobs) as [f0|e] eqn:F; cbn [obind] in H; [|discriminate].
  destruct (f0 =? 0) eqn:Z0; cbn [negb] in H.
  - apply Z.eqb_eq in Z0. subst f0. assert (G := data_flags_zero _ _ F).
    destruct (make_coadd_obs mbobs s) as [[[co|] cf]|e] eqn:M; cbn [obind] in H; [| |discriminate].
    + assert (cf = 0). { destruct (Z.eq_dec cf 0) as [|N]; [assumption|]. apply (coadd_obs_flag _ _ _ _ M) in N. discriminate. }
      subst cf. unfold admom_psf in H. destruct (f_psf co) as [p|] eqn:P.
      * destruct (rp p) as [pres|e] eqn:RP.
        { right. split; [exact G|]. exists co, p, pres. auto. }
        { left. exists (flag_value PSF_FAILURE). split; [apply flag_value_nonzero|]. apply Ok_inj in H. split; [now symmetry|].
          intros co' p' pres' M' _ P' K. assert (co' = co) by congruence. subst. congruence. }
      * left. exists (flag_value PSF_FAILURE). split; [apply flag_value_nonzero|]. apply Ok_inj in H. split; [now symmetry|].
        intros co' p' pres' M' _ P' K. assert (co' = co) by congruence. subst. congruence.
    + left. exists cf. split; [now apply (coadd_obs_flag _ _ _ _ M)|]. apply Ok_inj in H. split; [now symmetry|].
      intros co p pres M'. congruence.
  - left. apply Z.eqb_neq in Z0. exists f0. split; [exact Z0|]. apply Ok_inj in H. split; [now symmetry|].
    intros co p pres _ G. rewrite (data_flags_total _ _ G) in F. congruence.
Qed.

Lemma admom_clean : forall ng rp ro mbobs bm sb sym r, fit_mbobs_admom ng rp ro mbobs bm sb sym = Ok r ->
  o_flags r = 0 ->
  good_data bm mbobs /\ exists co so p pres gr,
    make_coadd_obs mbobs (default_bands mbobs sb) = Ok (Some co, 0) /\ f_psf co = Some p /\
    (if sym then symmetrize_obs_weights co = Ok so else so = co) /\
    rp p = Ok pres /\ ro so = Ok gr /\ a_flags pres = 0 /\ a_flags gr = 0 /\
    o_psf_flags r = 0 /\ o_obj_flags r = 0 /\ o_T_flags r = a_T_flags gr /\
    o_psf_T r = a_T pres /\ o_psf_g r = a_e pres /\
    o_s2n r = a_s2n gr /\ o_g r = a_e gr /\ o_g_cov r = a_e_cov gr /\
    (a_T_flags gr = 0 -> o_T r = a_T gr /\ o_T_err r = a_T_err gr /\ o_T_ratio r = ndiv (a_T gr) (a_T pres)).
Proof.
  intros ng rp ro mbobs bm sb sym r H Z0. destruct (admom_cases _ _ _ _ _ _ _ _ H) as (d0 & Hd & [C|C]).
  - destruct C as (f & Hf & -> & _). exfalso. exact (add_flags_nonzero _ _ Hf Z0).
  - destruct C as (G & co & p & pres & M & P & RP & R). split; [exact G|]. unfold admom_row in R.
    destruct (if sym then symmetrize_obs_weights co else Ok co) as [so|e] eqn:S; cbn [obind] in R; [|discriminate].
    destruct (ro so) as [gr|e] eqn:RO; apply Ok_inj in R; subst r; cbn [o_flags] in Z0;
      [|exfalso; exact (flag_value_nonzero OBJ_FAILURE Z0)].
    apply lor0 in Z0. destruct Z0 as [Z1 Z2]. exists co, so, p, pres, gr.
    cbn [o_psf_flags o_obj_flags o_T_flags o_psf_T o_psf_g o_s2n o_g o_g_cov o_T o_T_err o_T_ratio].
    rewrite Z1, Z2. change (0 =? 0) with true. split; [exact M|]. split; [exact P|].
    split; [destruct sym; [exact S | apply Ok_inj in S; now symmetry]|].
    repeat (split; [first [reflexivity | assumption]|]). intros Z3. rewrite Z3. cbn [Z.eqb andb]. auto.
Qed.

Lemma admom_failed : forall ng rp ro mbobs bm sb sym r co so, fit_mbobs_admom ng rp ro mbobs bm sb sym = Ok r ->
  make_coadd_obs mbobs (default_bands mbobs sb) = Ok (Some co, 0) ->
  (if sym then symmetrize_obs_weights co = Ok so else so = co) ->
  ((forall p pres, f_psf co = Some p -> rp p = Ok pres -> a_flags pres <> 0) -> o_flags r <> 0 /\ psf_nan r) /\
  ((forall gr, ro so = Ok gr -> a_flags gr <> 0) ->
     o_flags r <> 0 /\ o_s2n r = None /\ o_g r = nan2 /\ forall i j, o_g_cov r i j = None) /\
  ((forall gr, ro so = Ok gr -> a_T_flags gr <> 0) -> o_T r = None /\ o_T_err r = None /\ o_T_ratio r = None).
Proof.
  intros ng rp ro mbobs bm sb sym r co so H M S. destruct (admom_cases _ _ _ _ _ _ _ _ H) as (d0 & Hd & [C|C]).
  - destruct C as (f & Hf & -> & _). assert (N := add_flags_nonzero d0 f Hf).
    destruct (default_row_nan _ _ _ _ f Hd) as [(D1 & D2 & D3 & D4 & D5 & D6 & _) D7].
    split; [|split]; intros _; auto.
  - destruct C as (G & co' & p & pres & M' & P & RP & R). assert (co' = co) by congruence. subst co'.
    unfold admom_row in R.
    assert (S' : (if sym then symmetrize_obs_weights co else Ok co) = Ok so) by (destruct sym; [exact S | now subst]).
    rewrite S' in R. cbn [obind] in R. destruct (struct_ok _ _ _ _ Hd) as [_ D].
    destruct (ro so) as [gr|e] eqn:RO; apply Ok_inj in R; subst r;
      cbn [o_flags o_psf_flags o_obj_flags o_T_flags o_psf_T o_psf_g o_s2n o_g o_g_cov o_T o_T_err o_T_ratio psf_nan]; unfold psf_nan;
      cbn [o_flags o_psf_flags o_obj_flags o_T_flags o_psf_T o_psf_g o_s2n o_g o_g_cov o_T o_T_err o_T_ratio psf_nan].
    + split; [|split].
      * intros K. specialize (K p pres P RP). split; [intros Q; apply lor0 in Q; tauto|].
        apply Z.eqb_neq in K. rewrite K, andb_false_r, D. auto.
      * intros K. specialize (K gr eq_refl). split; [intros Q; apply lor0 in Q; tauto|].
        apply Z.eqb_neq in K. rewrite K, D. auto.
      * intros K. specialize (K gr eq_refl). apply Z.eqb_neq in K. rewrite K, D. auto.
    + split; [|split].
      * intros K. specialize (K p pres P RP). split; [apply flag_value_nonzero|].
        apply Z.eqb_neq in K. rewrite K, D. auto.
      * intros _. split; [apply flag_value_nonzero|]. rewrite D. auto.
      * intros _. rewrite D. auto.
Qed.

Lemma admom_flux_untouched : forall ng rp ro mbobs bm sb sym r, fit_mbobs_admom ng rp ro mbobs bm sb sym = Ok r ->
  Forall (eq None) (o_band_flux r) /\ Forall (eq None) (o_band_flux_err r) /\ Forall (eq (NO_ATTEMPT ng)) (o_band_flux_flags r).
Proof.
  intros ng rp ro mbobs bm sb sym r H. destruct (admom_cases _ _ _ _ _ _ _ _ H) as (d0 & Hd & C).
  destruct (struct_ok _ _ _ _ Hd) as [_ D].
  assert (E : o_band_flux r = o_band_flux d0 /\ o_band_flux_err r = o_band_flux_err d0 /\ o_band_flux_flags r = o_band_flux_flags d0).
  { destruct C as [(f & _ & -> & _)|(_ & co & p & pres & _ & _ & _ & R)]; [auto|]. unfold admom_row in R.
    destruct (if sym then symmetrize_obs_weights co else Ok co) as [so|e]; cbn [obind] in R; [|discriminate].
    destruct (ro so); apply Ok_inj in R; subst r; auto. }
  destruct E as (-> & -> & ->). rewrite D. cbn.
  repeat split; apply Forall_forall; intros x Hx; apply repeat_spec in Hx; now symmetry.
Qed.

Lemma admom_missing_band : forall ng rp ro mbobs bm sb sym r b, fit_mbobs_admom ng rp ro mbobs bm (Some sb) sym = Ok r ->
  zlen mbobs <> 1 -> In b sb -> zlen mbobs <= b -> o_flags r <> 0.
Proof.
  intros ng rp ro mbobs bm sb sym r b H N1 Hb Hn. destruct (admom_cases _ _ _ _ _ _ _ _ H) as (d0 & Hd & [C|C]).
  - destruct C as (f & Hf & -> & _). exact (add_flags_nonzero _ _ Hf).
  - exfalso. destruct C as (_ & co & p & pres & M & _). cbn [default_bands] in M. unfold make_coadd_obs in M.
    replace (zlen mbobs =? 1) with false in M by (symmetry; now apply Z.eqb_neq).
    assert (X : existsb (fun s => zlen mbobs <=? s) sb = true).
    { apply existsb_exists. exists b. split; [exact Hb | now apply Z.leb_le]. }
    destruct sb as [|s [|s' sb]]; [contradiction| |rewrite X in M; discriminate].
    destruct Hb as [->|[]]. replace (b <? zlen mbobs) with false in M by (symmetry; now apply Z.ltb_ge). discriminate.
Qed.

(** ** List level functions *)
Lemma rows_single : forall (B : Type) (fit : B -> outcome row) l out,
  (do rows <- omap fit l; match rows with [] => Ok None | _ => Ok (Some rows) end) = Ok out ->
  (l = [] -> out = None) /\
  (l <> [] -> exists rows, out = Some rows /\ Forall2 (fun m r => fit m = Ok r) l rows).
Proof.
  intros B fit l out H. destruct (omap fit l) as [rows|e] eqn:E; cbn [obind] in H; [|discriminate].
  apply omap_forall2 in E. split.
  - intros ->. inversion E; subst. apply Ok_inj in H. now symmetry.
  - intros N. exists rows. split; [|exact E]. destruct E; [congruence|]. apply Ok_inj in H. now symmetry.
Qed.
Lemma list_joint : forall ng boot rp ro l name bm sb sym coadd out,
  fit_mbobs_list_joint ng boot rp ro l name bm sb sym coadd = Ok out ->
  (l = [] -> out = None) /\
  (l <> [] -> exists rows, out = Some rows /\
     Forall2 (fun m r => (name = "gauss" /\ fit_mbobs_gauss ng boot m bm sb coadd = Ok r) \/
                         ((name = "am" \/ name = "admom") /\ fit_mbobs_admom ng rp ro m bm sb sym = Ok r)) l rows).
Proof.
  intros ng boot rp ro l name bm sb sym coadd out H. unfold fit_mbobs_list_joint in H.
  destruct (String.eqb name "am" || String.eqb name "admom") eqn:A; cbn [obind] in H.
  - assert (N : name = "am" \/ name = "admom").
    { apply orb_true_iff in A. destruct A as [A|A]; apply String.eqb_eq in A; auto. }
    destruct (rows_single _ _ _ _ H) as [H1 H2]. split; [exact H1|]. intros K. destruct (H2 K) as (rows & -> & F).
    exists rows. split; [reflexivity|]. clear -F N. induction F; constructor; auto.
  - destruct (String.eqb name "gauss") eqn:Gs; cbn [obind] in H; [|discriminate]. apply String.eqb_eq in Gs.
    destruct (rows_single _ _ _ _ H) as [H1 H2]. split; [exact H1|]. intros K. destruct (H2 K) as (rows & -> & F).
    exists rows. split; [reflexivity|]. clear -F Gs. induction F; constructor; auto.
Qed.
Lemma list_joint_unknown : forall ng boot rp ro l name bm sb sym coadd, name <> "am" -> name <> "admom" -> name <> "gauss" ->
  fit_mbobs_list_joint ng boot rp ro l name bm sb sym coadd = Raise RuntimeError.
Proof.
  intros. unfold fit_mbobs_list_joint. apply String.eqb_neq in H. apply String.eqb_neq in H0. apply String.eqb_neq in H1.
  rewrite H, H0, H1. reflexivity.
Qed.
