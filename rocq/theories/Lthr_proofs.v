(** Proofs for C65, C73. *)
From Coq Require Import ZArith QArith List String Bool Lia.
From Verif Require Import Base Dict Lutil_model Lutil_spec Lutil_proofs Lthr_model Lthr_spec.
Import ListNotations.
Local Open Scope string_scope.
Local Open Scope Z_scope.

(** ** override when stamp_size may be given *)
Definition is_stamp (k : string) (o : ov) : Prop := k = "stamp_size" /\ exists a, o = OLeaf a.
Lemma oloop_gen : forall items c c', NoDup (skeys items) -> oloop c items = (c', Ok tt) ->
  (forall k o, In (k, o) items -> is_stamp k o /\ cget c' k = cget c k \/ exists x, cget c' k = Some x /\ entry_result c k o x) /\
  (forall k, ~ In k (skeys items) -> cget c' k = cget c k).
Proof.
  induction items as [|[k o] items IH]; intros c c' N H; cbn [oloop] in H.
  - apply pair_equal_spec in H. destruct H as [<- _]. split; auto; intros; contradiction.
  - cbn in N. inversion N as [|x l NI N']; subst.
    assert (STEP : is_stamp k o /\ oloop c items = (c', Ok tt) \/
                   exists w v, cget c k = Some w /\ entry_result c k o v /\ oloop (cset c k v) items = (c', Ok tt)).
    { destruct o as [a|l].
      - destruct (String.eqb_spec k "stamp_size") as [E|_].
        + left. split; [split; [exact E|eauto]|]. destruct c; [discriminate|exact H].
        + right. destruct (cget c k) as [w|] eqn:G; [|discriminate]. exists w, (CLeaf a). repeat split; auto.
      - right. destruct (cget c k) as [w|] eqn:G; [|discriminate]. destruct (override w (ODict l)) as [sub' r] eqn:O.
        destruct r as [[]|e]; [|discriminate]. exists w, sub'. split; [reflexivity|]. split; [|exact H]. exists w. split; auto. }
    destruct STEP as [[S H2]|(w & v & G & ER & H2)].
    + destruct (IH c c' N' H2) as (A & B). split.
      * intros k1 o1 [E|I]; [injection E as <- <-; left; split; [exact S|apply B; exact NI]|]. apply A, I.
      * intros k1 NI1. cbn in NI1. apply B. tauto.
    + destruct (IH (cset c k v) c' N' H2) as (A & B).
      assert (OTHER : forall k1, k1 <> k -> cget (cset c k v) k1 = cget c k1).
      { intros k1 D. rewrite (cget_cset c k k1 v w G). destruct (String.eqb_spec k1 k) as [->|_]; [contradiction|reflexivity]. }
      split.
      * intros k1 o1 [E|I].
        -- injection E as <- <-. right. exists v. split; [|exact ER]. rewrite (B k NI), (cget_cset c k k v w G), String.eqb_refl. reflexivity.
        -- assert (D : k1 <> k) by (intros ->; apply NI; apply (in_map fst) in I; exact I).
           destruct (A k1 o1 I) as [[S E]|(x & X1 & X2)].
           ++ left. split; [exact S|]. rewrite E. now apply OTHER.
           ++ right. exists x. split; [exact X1|]. destruct o1 as [a1|l1]; [exact X2|]. destruct X2 as (sub & S1 & S2). exists sub.
              split; [|exact S2]. now rewrite OTHER in S1.
      * intros k1 NI1. cbn in NI1. rewrite B by tauto. apply OTHER. intuition.
Qed.

Lemma override_gen : forall o c c', distinct_keys o -> override c o = (c', Ok tt) ->
  (forall p a, given o p = Some a -> last p "" <> "stamp_size" -> value_at c' p = Some a) /\
  (forall p, untouched o p -> field c' p = field c p).
Proof.
  induction o as [a|items IH] using ov_ind2; intros c c' D H; [cbn in H; discriminate|].
  rewrite override_dict in H. inversion D as [|it ND DK]; subst.
  destruct (oloop_gen items c c' ND H) as (A & B).
  split.
  - intros [|k p] a G L; cbn [given] in G; [discriminate|]. destruct (sget k items) as [o|] eqn:E; [|discriminate].
    apply sget_In_items in E. destruct (A k o E) as [[[S [b ->]] _]|(x & X1 & X2)].
    { destruct p; cbn in G; [|discriminate]. cbn in L. contradiction. }
    unfold value_at. cbn [field]. rewrite X1.
    destruct o as [b|l].
    + cbn in X2. subst x. destruct p; cbn in G; [|discriminate]. injection G as ->. reflexivity.
    + destruct X2 as (sub & S1 & S2). destruct (IH k (ODict l) E sub x (DK k _ E) S2) as [F _].
      apply F; [exact G|]. destruct p; [discriminate|exact L].
  - intros [|k p] U; cbn [untouched] in U; [contradiction|]. cbn [field]. destruct (sget k items) as [o|] eqn:E.
    + apply sget_In_items in E. destruct (A k o E) as [[[S [b ->]] _]|(x & X1 & X2)].
      { destruct p; cbn in U; contradiction. }
      rewrite X1. destruct o as [b|l]; [destruct p; cbn in U; contradiction|]. destruct X2 as (sub & S1 & S2). rewrite S1.
      destruct (IH k (ODict l) E sub x (DK k _ E) S2) as [_ F]. apply F. exact U.
    + rewrite B; [reflexivity|]. now apply sget_None.
Qed.

(** ** unalias *)
Lemma sget_unalias : forall d k, sget k (unalias d) =
  match sget k d with
  | Some (ODict l) => Some (ODict (if String.eqb k "detect" then unalias_detect l else l))
  | x => x
  end.
Proof.
  induction d as [|[k0 o] d IH]; intros k; [reflexivity|]. cbn [unalias map] in *. destruct o as [a|l].
  - cbn [sget]. destruct (String.eqb k k0); [reflexivity|apply IH].
  - destruct (String.eqb_spec k0 "detect") as [E|N]; cbn [sget]; destruct (String.eqb_spec k k0) as [E2|N2]; try (rewrite E2); try apply IH.
    + rewrite E. reflexivity.
    + destruct (String.eqb_spec k0 "detect"); [contradiction|reflexivity].
Qed.
Lemma skeys_unalias : forall d, skeys (unalias d) = skeys d.
Proof.
  intros d. unfold skeys, unalias. rewrite map_map. apply map_ext. intros [k [a|l]]; [reflexivity|]. now destruct (String.eqb k "detect").
Qed.
Lemma sget_unalias_thresh : forall l, ~ (In "thresh" (skeys l) /\ In "thresholdValue" (skeys l)) ->
  sget "thresholdValue" (unalias_detect l) = match sget "thresh" l with Some a => Some a | None => sget "thresholdValue" l end.
Proof.
  assert (G : forall l, ~ In "thresh" (skeys l) -> sget "thresholdValue" (unalias_detect l) = sget "thresholdValue" l).
  { induction l as [|[k o] l IH]; intros N; [reflexivity|]. cbn [unalias_detect map fst snd skeys] in *. unfold unalias_key.
    destruct (String.eqb_spec k "thresh") as [E|E]; [exfalso; apply N; now left|]. cbn [sget].
    destruct (String.eqb "thresholdValue" k); [reflexivity|]. apply IH. intros C. apply N. now right. }
  assert (G2 : forall l, ~ In "thresholdValue" (skeys l) -> sget "thresholdValue" (unalias_detect l) = sget "thresh" l).
  { induction l as [|[k o] l IH]; intros N; [reflexivity|]. cbn [unalias_detect map fst snd skeys] in *. unfold unalias_key.
    destruct (String.eqb_spec k "thresh") as [->|E]; [reflexivity|]. cbn [sget].
    destruct (String.eqb_spec "thresholdValue" k) as [<-|_]; [exfalso; apply N; now left|].
    destruct (String.eqb_spec "thresh" k) as [E2|_]; [congruence|]. apply IH. intros C. apply N. now right. }
  intros l N. destruct (sget "thresh" l) as [a|] eqn:E.
  - rewrite G2; [exact E|]. intros C. apply N. split; [|exact C]. apply sget_In. eauto.
  - apply G. now apply sget_None.
Qed.
Lemma given_unalias : forall d, one_name d -> given (ODict (unalias d)) ["detect"; "thresholdValue"] = user_threshold d.
Proof.
  intros d O. unfold user_threshold. cbn [given]. rewrite sget_unalias. specialize (O). destruct (sget "detect" d) as [[a|l]|] eqn:E; [reflexivity| |reflexivity].
  rewrite String.eqb_refl. cbn [given]. specialize (O l E). rewrite sget_unalias_thresh by exact O.
  destruct (sget "thresh" l) as [t|] eqn:T; [|reflexivity]. destruct t as [a|l2]; [reflexivity|].
  destruct (sget "thresholdValue" l) as [u|] eqn:U; [|reflexivity]. exfalso. apply O. split; [apply sget_In; eauto|apply sget_In; eauto].
Qed.
Lemma untouched_unalias : forall d, one_name d -> (forall l, sget "detect" d = Some (ODict l) -> ~ In "thresh" (skeys l) /\ ~ In "thresholdValue" (skeys l)) ->
  (forall a, sget "detect" d <> Some (OLeaf a)) -> untouched (ODict (unalias d)) ["detect"; "thresholdValue"].
Proof.
  intros d O N NL. cbn [untouched]. rewrite sget_unalias. destruct (sget "detect" d) as [[a|l]|] eqn:E; [now destruct (NL a)| |exact I].
  rewrite String.eqb_refl. cbn [untouched]. destruct (N l eq_refl) as [N1 N2]. rewrite sget_unalias_thresh by tauto.
  rewrite (proj2 (sget_None _ _ _) N1), (proj2 (sget_None _ _ _) N2). exact I.
Qed.
Lemma unalias_detect_NoDup : forall l, NoDup (skeys l) -> ~ (In "thresh" (skeys l) /\ In "thresholdValue" (skeys l)) -> NoDup (skeys (unalias_detect l)).
Proof.
  induction l as [|[k o] l IH]; intros N O; [constructor|]. cbn in N. inversion N as [|x y NI N']; subst. cbn [unalias_detect map fst snd skeys] in *.
  constructor.
  - intros C. unfold skeys, unalias_detect in C. rewrite map_map in C. apply in_map_iff in C. destruct C as ([k1 o1] & E & I1). cbn in E.
    assert (I2 : In k1 (skeys l)) by (exact (in_map fst _ _ I1)).
    unfold unalias_key in E. destruct (String.eqb_spec k1 "thresh") as [->|N1], (String.eqb_spec k "thresh") as [->|N2].
    + contradiction.
    + apply O. subst k. split; [now right|now left].
    + apply O. subst k1. split; [now left|now right].
    + subst k1. contradiction.
  - apply IH; [exact N'|]. intros [C1 C2]. apply O. split; now right.
Qed.
Lemma unalias_distinct : forall d, distinct_keys (ODict d) -> one_name d -> distinct_keys (ODict (unalias d)).
Proof.
  intros d D O. inversion D as [|it ND DK]; subst. constructor; [now rewrite skeys_unalias|].
  intros k o I. unfold unalias in I. apply in_map_iff in I. destruct I as ([k0 o0] & E & I0). specialize (DK k0 o0 I0).
  destruct o0 as [a|l]; [injection E as <- <-; exact DK|].
  destruct (String.eqb_spec k0 "detect") as [K0|N]; injection E as E1 E2; subst k o; [|exact DK]. subst k0.
  inversion DK as [|it2 ND2 DK2]; subst.
  assert (S : sget "detect" d = Some (ODict l)).
  { clear - I0 ND. induction d as [|[k1 o1] d IH]; [contradiction|]. cbn in ND. inversion ND as [|x y NI N']; subst. cbn [sget].
    destruct I0 as [E|I0]; [injection E as -> ->; reflexivity|].
    destruct (String.eqb_spec "detect" k1) as [<-|_]; [|now apply IH]. exfalso. apply NI. exact (in_map fst _ _ I0). }
  constructor; [apply unalias_detect_NoDup; [exact ND2|exact (O l S)]|].
  intros k o I. unfold unalias_detect in I. apply in_map_iff in I. destruct I as ([k1 o1] & E & I1). injection E as <- <-. exact (DK2 k1 o1 I1).
Qed.

(** ** csets *)
Lemma cget_csets : forall l c k, (forall k a, In (k, a) l -> exists w, cget c k = Some w) ->
  ~ In k (map fst l) -> cget (csets c l) k = cget c k.
Proof.
  induction l as [|[k0 a] l IH]; intros c k W N; [reflexivity|]. cbn [csets fold_left fst snd] in *.
  destruct (W k0 a (or_introl eq_refl)) as [w G].
  assert (S : forall k', cget (cset c k0 (CLeaf a)) k' = if String.eqb k' k0 then Some (CLeaf a) else cget c k') by (intros; exact (cget_cset c k0 k' _ w G)).
  unfold csets in IH. rewrite IH.
  - rewrite S. destruct (String.eqb_spec k k0) as [->|_]; [exfalso; apply N; now left|reflexivity].
  - intros k1 a1 I. rewrite S. destruct (String.eqb k1 k0); [eauto|]. apply (W k1 a1). now right.
  - intros C. apply N. now right.
Qed.
Lemma csets_app : forall l1 l2 c, csets c (l1 ++ l2)%list = csets (csets c l1) l2.
Proof. intros. unfold csets. apply fold_left_app. Qed.
Lemma csets_known : forall l c, (forall k a, In (k, a) l -> exists w, cget c k = Some w) ->
  forall k, (exists w, cget c k = Some w) -> exists w, cget (csets c l) k = Some w.
Proof.
  induction l as [|[k0 a] l IH]; intros c W k H; [exact H|]. cbn [csets fold_left fst snd] in *.
  destruct (W k0 a (or_introl eq_refl)) as [w G].
  assert (S : forall k', cget (cset c k0 (CLeaf a)) k' = if String.eqb k' k0 then Some (CLeaf a) else cget c k') by (intros; exact (cget_cset c k0 k' _ w G)).
  unfold csets in IH. apply IH.
  - intros k1 a1 I. rewrite S. destruct (String.eqb k1 k0); [eauto|]. apply (W k1 a1). now right.
  - rewrite S. destruct (String.eqb k k0); eauto.
Qed.
Lemma stack_cget : forall stack, stack_ok stack -> forall k a, In (k, a) detect_settings -> exists w, cget stack k = Some w.
Proof.
  intros stack S k a I. destruct (S k a I) as [b V]. unfold value_at in V. cbn [field] in V. destruct (cget stack k); [eauto|discriminate].
Qed.
Lemma cget_csets_last : forall l k a c, (forall k1 a1, In (k1, a1) (l ++ [(k, a)])%list -> exists w, cget c k1 = Some w) ->
  cget (csets c (l ++ [(k, a)])%list) k = Some (CLeaf a).
Proof.
  intros l k a c W. rewrite csets_app. cbn [csets fold_left fst snd].
  destruct (csets_known l c (fun k1 a1 I => W k1 a1 (in_or_app _ _ _ (or_introl I))) k (W k a (in_elt (k, a) l []))) as [w G].
  rewrite (cget_cset _ k k _ w G). now rewrite String.eqb_refl.
Qed.
Lemma cget_csets_in : forall l c k a, (forall k1 a1, In (k1, a1) l -> exists w, cget c k1 = Some w) -> NoDup (map fst l) ->
  In (k, a) l -> cget (csets c l) k = Some (CLeaf a).
Proof.
  induction l as [|[k0 a0] l IH]; intros c k a W N I; [contradiction|]. cbn in N. inversion N as [|x y NI N']; subst.
  destruct (W k0 a0 (or_introl eq_refl)) as [w G].
  assert (S : forall k', cget (cset c k0 (CLeaf a0)) k' = if String.eqb k' k0 then Some (CLeaf a0) else cget c k') by (intros; exact (cget_cset c k0 k' _ w G)).
  assert (W' : forall k1 a1, In (k1, a1) l -> exists w, cget (cset c k0 (CLeaf a0)) k1 = Some w).
  { intros k1 a1 I1. rewrite S. destruct (String.eqb k1 k0); [eauto|]. apply (W k1 a1). now right. }
  cbn [csets fold_left fst snd]. destruct I as [E|I].
  - injection E as -> ->. fold (csets (cset c k (CLeaf a)) l). rewrite (cget_csets l _ k W' NI), S, String.eqb_refl. reflexivity.
  - exact (IH _ k a W' N' I).
Qed.
Lemma dd_default_thresh : forall stack deb, stack_ok stack -> value_at (dd_defaults stack deb) ["detect"; "thresholdValue"] = Some DEFAULT_THRESH.
Proof.
  intros stack deb S. unfold value_at. cbn [field cget dd_defaults sget]. cbn [String.eqb Ascii.eqb Bool.eqb].
  change (field (CNode _) _) with (field (csets stack detect_settings) ["thresholdValue"]) || idtac.
  assert (G : cget (csets stack detect_settings) "thresholdValue" = Some (CLeaf DEFAULT_THRESH)).
  { apply cget_csets_in; [exact (stack_cget stack S)| |cbn; tauto].
    cbn; repeat (constructor; [cbn; intuition discriminate|]); constructor. }
  cbn. cbn in G. rewrite G. reflexivity.
Qed.
Lemma dd_stack_field : forall stack deb k, stack_ok stack -> ~ In k (map fst detect_settings) ->
  field (dd_defaults stack deb) ["detect"; k] = cget stack k.
Proof.
  intros stack deb k S N. pose proof (cget_csets detect_settings stack k (stack_cget stack S) N) as G.
  cbn. cbn in G. rewrite G. now destruct (cget stack k).
Qed.

(** ** put_threshold *)
Lemma put_threshold_ok : forall d t d', put_threshold d t = Ok d' ->
  given (ODict d') ["detect"; "thresholdValue"] = Some t /\
  (forall k, k <> "detect" -> sget k d' = sget k d) /\
  (forall k l, sget "detect" d = Some (ODict l) -> k <> "thresholdValue" ->
     exists l', sget "detect" d' = Some (ODict l') /\ sget k l' = sget k l).
Proof.
  intros d t d' H. unfold put_threshold in H. destruct (as_dict _) as [l|] eqn:A; cbn [obind] in H; [|discriminate]. apply Ok_inj in H. subst d'.
  split; [|split].
  - cbn [given]. rewrite sget_put, String.eqb_refl. cbn [given]. rewrite sget_put, String.eqb_refl. reflexivity.
  - intros k N. rewrite sget_put. destruct (String.eqb_spec k "detect"); [contradiction|reflexivity].
  - intros k l0 E N. rewrite E in A. cbn in A. apply Ok_inj in A. subst l0. eexists. rewrite sget_put, String.eqb_refl. split; [reflexivity|].
    rewrite sget_put. destruct (String.eqb_spec k "thresholdValue"); [contradiction|reflexivity].
Qed.
Lemma put_threshold_distinct : forall d t d', distinct_keys (ODict d) -> put_threshold d t = Ok d' -> distinct_keys (ODict d').
Proof.
  intros d t d' D H. inversion D as [|it ND DK]; subst. unfold put_threshold in H. destruct (as_dict _) as [l|] eqn:A; cbn [obind] in H; [|discriminate]. apply Ok_inj in H. subst d'.
  assert (DL : distinct_keys (ODict l)).
  { destruct (sget "detect" d) as [[a|l0]|] eqn:E; cbn in A; [discriminate| |].
    - apply Ok_inj in A. subst l0. apply (DK "detect"). now apply sget_In_items.
    - apply Ok_inj in A. subst l. constructor; [constructor|contradiction]. }
  inversion DL as [|it2 ND2 DK2]; subst.
  assert (INP : forall (m : list (string * ov)) k v x y, In (x, y) (sput k v m) -> (x, y) = (k, v) \/ In (x, y) m).
  { induction m as [|[k1 v1] m IH]; cbn; intros k v x y I; [destruct I as [I|[]]; left; congruence|].
    destruct (String.eqb_spec k k1) as [->|]; destruct I as [I|I]; auto. destruct (IH _ _ _ _ I); auto. }
  constructor; [now apply sput_NoDup|]. intros k o I. destruct (INP _ _ _ _ _ I) as [E|I2]; [|exact (DK k o I2)].
  injection E as -> ->. constructor; [now apply sput_NoDup|]. intros k o I3. destruct (INP _ _ _ _ _ I3) as [E|I4]; [injection E as -> ->; constructor|exact (DK2 k o I4)].
Qed.

Lemma user_threshold_only : forall d t, distinct_keys (ODict d) -> given (ODict d) ["detect"; "thresholdValue"] = Some t ->
  one_name d -> user_threshold d = Some t.
Proof.
  intros d t D G O. unfold user_threshold. cbn [given] in *. destruct (sget "detect" d) as [[a|l]|] eqn:E; try discriminate. cbn [given] in *.
  destruct (sget "thresholdValue" l) as [u|] eqn:U; [|discriminate].
  destruct (sget "thresh" l) as [w|] eqn:T; [|exact G]. exfalso. apply (O l E).
  split; [apply sget_In; eauto|apply sget_In; eauto].
Qed.

(** ** the detection task *)
Lemma dd_thresh : forall stack t deb d, stack_ok stack -> truthy t = true -> distinct_keys (ODict d) ->
  (forall l, sget "detect" d = Some (ODict l) -> ~ In "thresh" (skeys l)) ->
  forall u c, detect_and_deblend_config stack t deb (Some d) = (u, Ok c) ->
  value_at c ["detect"; "thresholdValue"] = Some t /\
  (forall p a, given (ODict d) p = Some a -> last p "" <> "stamp_size" -> firstn 2 p <> ["detect"; "thresholdValue"] -> value_at c p = Some a).
Proof.
  intros stack t deb d S T D NT u c H. unfold detect_and_deblend_config in H. rewrite T in H.
  destruct (put_threshold d t) as [d'|e] eqn:P; [|discriminate]. apply pair_equal_spec in H. destruct H as [_ H].
  destruct (override _ _) as [c0 [[]|e]] eqn:O; [|discriminate]. apply Ok_inj in H. subst c0.
  destruct (put_threshold_ok d t d' P) as (G1 & G2 & G3).
  assert (ONE : forall l', sget "detect" d' = Some (ODict l') -> ~ In "thresh" (skeys l')).
  { intros l' E C. unfold put_threshold in P. destruct (as_dict _) as [l|] eqn:A; cbn [obind] in P; [|discriminate]. apply Ok_inj in P. subst d'.
    rewrite sget_put, String.eqb_refl in E. injection E as <-. apply skeys_put in C.
    assert (NL : ~ In "thresh" (skeys l)).
    { destruct (sget "detect" d) as [[a|l0]|] eqn:E; cbn in A; [discriminate| |]; apply Ok_inj in A; subst l; [now apply NT|intros []]. }
    destruct C as [C|C]; [discriminate|contradiction]. }
  assert (ON : one_name d') by (intros l' E [C _]; exact (ONE l' E C)).
  assert (D' := put_threshold_distinct d t d' D P).
  destruct (override_gen _ _ _ (unalias_distinct d' D' ON) O) as [A B]. split.
  - apply A; [|discriminate]. rewrite given_unalias by exact ON. now apply user_threshold_only.
  - intros p a G L NP. apply A; [|exact L]. destruct p as [|k p]; [discriminate|]. cbn [given] in G |- *. rewrite sget_unalias.
    destruct (String.eqb_spec k "detect") as [->|NK].
    + destruct (sget "detect" d) as [[b|l]|] eqn:E; [| |discriminate].
      * unfold put_threshold in P. rewrite E in P. discriminate.
      * destruct p as [|k2 p]; [discriminate|]. cbn [given] in G. destruct (sget k2 l) as [o|] eqn:E2; [|discriminate].
        assert (N2 : k2 <> "thresholdValue") by (intros ->; now apply NP).
        destruct (G3 k2 l eq_refl N2) as (l' & E3 & E4). rewrite E3.
        cbn [given]. assert (E5 : sget k2 (unalias_detect l') = sget k2 l').
        { assert (NT' := ONE l' E3). assert (K : k2 <> "thresh") by (intros ->; apply (NT l eq_refl); apply sget_In; eauto).
          clear - NT' K. induction l' as [|[k o] l' IH]; [reflexivity|]. cbn [unalias_detect map fst snd skeys sget] in *. unfold unalias_key.
          destruct (String.eqb_spec k "thresh") as [->|_]; [exfalso; apply NT'; now left|]. destruct (String.eqb k2 k); [reflexivity|]. apply IH. intros C. apply NT'. now right. }
        rewrite E5, E4. rewrite E2. exact G.
    + rewrite (G2 k NK). destruct (sget k d) as [o|]; [|discriminate]. destruct o as [b|l]; [exact G|]. exact G.
Qed.


Lemma distinct_nil : distinct_keys (ODict []).
Proof. constructor; [constructor|contradiction]. Qed.
Lemma dd_falsy : forall stack t deb d, stack_ok stack -> truthy t = false -> distinct_keys (ODict d) -> one_name d ->
  forall u c, detect_and_deblend_config stack t deb (Some d) = (u, Ok c) ->
  u = Some d /\
  (forall a, user_threshold d = Some a -> value_at c ["detect"; "thresholdValue"] = Some a) /\
  (untouched (ODict (unalias d)) ["detect"; "thresholdValue"] -> value_at c ["detect"; "thresholdValue"] = Some DEFAULT_THRESH).
Proof.
  intros stack t deb d S T D ON u c H. unfold detect_and_deblend_config in H. rewrite T in H. cbn [obind] in H.
  apply pair_equal_spec in H. destruct H as [<- H]. split; [reflexivity|].
  destruct (override _ _) as [c0 [[]|e]] eqn:O; [|discriminate]. apply Ok_inj in H. subst c0.
  destruct (override_gen _ _ _ (unalias_distinct d D ON) O) as [A B]. split.
  - intros a G. apply A; [|discriminate]. now rewrite given_unalias.
  - intros U. unfold value_at. rewrite (B _ U). exact (dd_default_thresh stack deb S).
Qed.
Lemma dd_none : forall stack t deb u c, stack_ok stack -> detect_and_deblend_config stack t deb None = (u, Ok c) ->
  value_at c ["detect"; "thresholdValue"] = Some (effective t) /\
  (forall k, ~ In k (map fst detect_settings) -> field c ["detect"; k] = cget stack k) /\
  (forall k a, In (k, a) detect_settings -> k <> "thresholdValue" -> value_at c ["detect"; k] = value_at (dd_defaults stack deb) ["detect"; k]) /\
  field c ["deblend"] = field (dd_defaults stack deb) ["deblend"].
Proof.
  intros stack t deb u c S H. unfold effective. destruct (truthy t) eqn:T.
  - assert (H2 := H). unfold detect_and_deblend_config in H. rewrite T in H. cbn [put_threshold sget as_dict obind sput] in H.
    apply pair_equal_spec in H. destruct H as [_ H]. destruct (override _ _) as [c0 [[]|e]] eqn:O; [|discriminate]. apply Ok_inj in H. subst c0.
    assert (D : distinct_keys (ODict (unalias [("detect", ODict [("thresholdValue", OLeaf t)])]))).
    { cbn. constructor; [constructor; [intros []|constructor]|]. intros k o [E|[]]. injection E as <- <-.
      constructor; [constructor; [intros []|constructor]|]. intros k o [E|[]]. injection E as <- <-. constructor. }
    destruct (override_gen _ _ _ D O) as [A B]. split; [apply A; [reflexivity|discriminate]|].
    assert (U : forall k, k <> "thresholdValue" -> untouched (ODict (unalias [("detect", ODict [("thresholdValue", OLeaf t)])])) ["detect"; k]).
    { intros k N. cbn. destruct (String.eqb_spec k "thresholdValue"); [contradiction|exact I]. }
    split; [|split].
    + intros k N. rewrite (B _ (U k ltac:(intros ->; apply N; cbn; tauto))). now apply dd_stack_field.
    + intros k a _ N. unfold value_at. now rewrite (B _ (U k N)).
    + apply B. cbn. exact I.
  - unfold detect_and_deblend_config in H. rewrite T in H. apply pair_equal_spec in H. destruct H as [_ H]. cbn in H. apply Ok_inj in H. subst c.
    split; [exact (dd_default_thresh stack deb S)|]. split; [intros k N; now apply dd_stack_field|]. split; reflexivity.
Qed.

Lemma sky_default_thresh : forall stack, stack_ok stack ->
  value_at (sky_defaults stack) ["iterate_detection_and_skysub"; "detect"; "thresholdValue"] = Some DEFAULT_THRESH.
Proof.
  intros stack S. 
  pose proof (cget_csets_last [("reEstimateBackground", ABool false)] "thresholdValue" DEFAULT_THRESH stack) as L.
  cbn [app] in L. unfold value_at. cbn in L |- *. rewrite L; [reflexivity|].
  intros k a [E|[E|[]]]; injection E as <- <-; [apply (stack_cget stack S "reEstimateBackground" (ABool false))|apply (stack_cget stack S "thresholdValue" DEFAULT_THRESH)]; cbn; tauto.
Qed.
Lemma sky_none : forall stack t u c, stack_ok stack -> sky_config stack t None = (u, Ok c) ->
  value_at c ["iterate_detection_and_skysub"; "detect"; "thresholdValue"] = Some (effective t).
Proof.
  intros stack t u c S H. unfold effective. unfold sky_config in H. destruct (truthy t) eqn:T.
  - cbn [put_threshold sget as_dict obind sput] in H.
    apply pair_equal_spec in H. destruct H as [_ H]. destruct (override _ _) as [c0 [[]|e]] eqn:O; [|discriminate]. apply Ok_inj in H. subst c0.
    assert (D1 : forall k o, distinct_keys o -> distinct_keys (ODict [(k, o)])).
    { intros k o Do. constructor; [constructor; [intros []|constructor]|]. intros k1 o1 [E|[]]. injection E as <- <-. exact Do. }
    refine (proj1 (override_gen _ _ _ _ O) _ t _ _); [|reflexivity|discriminate]. cbn. apply D1, D1, D1. constructor.
  - apply pair_equal_spec in H. destruct H as [_ H]. cbn in H. apply Ok_inj in H. subst c. now apply sky_default_thresh.
Qed.
Lemma sky_mask : forall stack t u c, sky_config stack t None = (u, Ok c) ->
  value_at c ["iterate_detection_and_skysub"; "back"; "ignoredPixelMask"] = Some (ANames STATS_MASK).
Proof.
  intros stack t u c H. unfold sky_config in H. destruct (truthy t) eqn:T.
  - cbn [put_threshold sget as_dict obind sput] in H.
    apply pair_equal_spec in H. destruct H as [_ H]. destruct (override _ _) as [c0 [[]|e]] eqn:O; [|discriminate]. apply Ok_inj in H. subst c0.
    assert (D1 : forall k o, distinct_keys o -> distinct_keys (ODict [(k, o)])).
    { intros k o Do. constructor; [constructor; [intros []|constructor]|]. intros k1 o1 [E|[]]. injection E as <- <-. exact Do. }
    unfold value_at. rewrite (proj2 (override_gen _ _ _ ltac:(cbn; apply D1, D1, D1; constructor) O) ["iterate_detection_and_skysub"; "back"; "ignoredPixelMask"]); [reflexivity|exact Logic.I].
  - apply pair_equal_spec in H. destruct H as [_ H]. cbn in H. apply Ok_inj in H. now subst c.
Qed.
Lemma iterate_thresh : forall stack t n d u c, distinct_keys (ODict d) ->
  (forall l, sget "detect" d = Some (ODict l) -> ~ In "thresh" (skeys l)) ->
  iterate_config stack t n (Some d) = (u, Ok c) ->
  value_at c ["detect"; "thresholdValue"] = Some t /\ value_at c ["niter"] = Some (AInt n) /\ 1 <= n.
Proof.
  intros stack t n d u c D NT H. unfold iterate_config in H. destruct (Z.ltb_spec n 1); [apply pair_equal_spec in H; destruct H; discriminate|].
  destruct (put_threshold d t) as [d'|e] eqn:P; [|apply pair_equal_spec in H; destruct H; discriminate].
  apply pair_equal_spec in H. destruct H as [_ H]. destruct (override _ _) as [c0 [[]|e]] eqn:O; [|discriminate]. apply Ok_inj in H. subst c0.
  destruct (put_threshold_ok d t d' P) as (G1 & G2 & G3).
  set (d2 := sput "niter" (OLeaf (AInt n)) d') in *.
  assert (SD : sget "detect" d2 = sget "detect" d') by (unfold d2; now rewrite sget_put).
  assert (D' := put_threshold_distinct d t d' D P).
  assert (D2 : distinct_keys (ODict d2)).
  { inversion D' as [|it ND DK]; subst. constructor; [now apply sput_NoDup|]. intros k o I. unfold d2 in I.
    assert (INP : forall (m : list (string * ov)) k v x y, In (x, y) (sput k v m) -> (x, y) = (k, v) \/ In (x, y) m).
    { induction m as [|[k1 v1] m IH]; cbn; intros k0 v x y I0; [destruct I0 as [I0|[]]; left; congruence|].
      destruct (String.eqb_spec k0 k1) as [->|]; destruct I0 as [I0|I0]; auto. destruct (IH _ _ _ _ I0); auto. }
    destruct (INP _ _ _ _ _ I) as [E|I2]; [injection E as -> ->; constructor|exact (DK k o I2)]. }
  assert (ON : one_name d2).
  { intros l' E [C _]. rewrite SD in E. unfold put_threshold in P. destruct (as_dict _) as [l|] eqn:A; cbn [obind] in P; [|discriminate]. apply Ok_inj in P. subst d'.
    rewrite sget_put, String.eqb_refl in E. injection E as <-. apply skeys_put in C. destruct C as [C|C]; [discriminate|].
    destruct (sget "detect" d) as [[a|l0]|] eqn:E; cbn in A; [discriminate| |]; apply Ok_inj in A; subst l; [now apply (NT l0)|destruct C]. }
  destruct (override_gen _ _ _ (unalias_distinct d2 D2 ON) O) as [A B]. split; [|split; [|lia]].
  - apply A; [|discriminate]. rewrite given_unalias by exact ON. apply user_threshold_only; auto. cbn [given] in *. now rewrite SD.
  - apply A; [|discriminate]. cbn [given]. rewrite sget_unalias. unfold d2. now rewrite sget_put.
Qed.

(** ** run_metadetect *)
Lemma metadetect_thresh : forall stack d sky det, stack_ok stack -> distinct_keys (ODict d) -> one_name d ->
  metadetect_configs stack (Some d) = Ok (sky, det) ->
  exists t deb ss,
    (forall a, user_threshold d = Some a -> t = a) /\
    (untouched (ODict (unalias d)) ["detect"; "thresholdValue"] -> value_at stack ["thresholdValue"] = Some t) /\
    (forall a, given (ODict d) ["deblender"] = Some a -> deb = a) /\ (sget "deblender" d = None -> deb = AStr "sdss") /\
    (forall a, given (ODict d) ["subtract_sky"] = Some a -> ss = a) /\ (sget "subtract_sky" d = None -> ss = ABool false) /\
    value_at det ["detect"; "thresholdValue"] = Some (effective t) /\
    field det ["deblend"] = field (dd_defaults stack (str_of deb)) ["deblend"] /\
    (forall k, ~ In k (map fst detect_settings) -> field det ["detect"; k] = cget stack k) /\
    (truthy ss = false -> sky = None) /\
    (truthy ss = true -> exists s, sky = Some s /\
       value_at s ["iterate_detection_and_skysub"; "detect"; "thresholdValue"] = Some (effective t)).
Proof.
  intros stack d sky det S D ON H. unfold metadetect_configs in H.
  destruct (override _ _) as [c [[]|e]] eqn:O; cbn [run_of obind] in H; [|discriminate].
  destruct (override_gen _ _ _ (unalias_distinct d D ON) O) as [A B].
  destruct (node_at c "detect") as [dc|] eqn:E1; cbn [obind] in H; [|discriminate].
  destruct (leaf_at dc "thresholdValue") as [t|] eqn:E2; cbn [obind] in H; [|discriminate].
  destruct (leaf_at c "subtract_sky") as [ss|] eqn:E3; cbn [obind] in H; [|discriminate].
  destruct (leaf_at c "deblender") as [deb|] eqn:E4; cbn [obind] in H; [|discriminate].
  destruct (if truthy ss then _ else _) as [sky0|] eqn:E5 in H; cbn [obind] in H; [|discriminate].
  destruct (detect_and_deblend_config stack t (str_of deb) None) as [u [det0|e]] eqn:E6; cbn [snd obind] in H; [|discriminate].
  apply Ok_inj in H. apply pair_equal_spec in H. destruct H as [-> ->].
  assert (V : value_at c ["detect"; "thresholdValue"] = Some t).
  { unfold node_at in E1. unfold value_at. cbn [field]. destruct (cget c "detect") as [[a|l]|]; try discriminate. apply Ok_inj in E1. subst dc.
    unfold leaf_at in E2. destruct (cget (CNode l) "thresholdValue") as [[a|l2]|]; try discriminate. apply Ok_inj in E2. now subst. }
  assert (LEAF : forall k a, leaf_at c k = Ok a -> value_at c [k] = Some a).
  { intros k a L. unfold leaf_at in L. unfold value_at. cbn [field]. destruct (cget c k) as [[b|l]|]; try discriminate. apply Ok_inj in L. now subst. }
  assert (GU : forall k a, k <> "detect" -> given (ODict d) [k] = Some a -> given (ODict (unalias d)) [k] = Some a).
  { intros k a N G. cbn [given] in *. rewrite sget_unalias. destruct (sget k d) as [[b|l]|]; [exact G| |discriminate]. destruct (String.eqb_spec k "detect"); [contradiction|exact G]. }
  assert (UN : forall k, sget k d = None -> untouched (ODict (unalias d)) [k]).
  { intros k N. cbn. rewrite sget_unalias, N. exact I. }
  destruct (dd_none stack t (str_of deb) u det S E6) as (X1 & X2 & X3 & X4).
  exists t, deb, ss. repeat split; auto.
  - intros a G. rewrite <- (given_unalias d ON) in G. apply A in G; [congruence|discriminate].
  - intros U. unfold value_at in V. rewrite (B _ U) in V. unfold value_at. cbn in V |- *. exact V.
  - intros a G. apply GU in G; [|discriminate]. apply A in G; [|discriminate]. rewrite (LEAF _ _ E4) in G. congruence.
  - intros N. pose proof (LEAF _ _ E4) as L. unfold value_at in L. rewrite (B _ (UN _ N)) in L. cbn in L. congruence.
  - intros a G. apply GU in G; [|discriminate]. apply A in G; [|discriminate]. rewrite (LEAF _ _ E3) in G. congruence.
  - intros N. pose proof (LEAF _ _ E3) as L. unfold value_at in L. rewrite (B _ (UN _ N)) in L. cbn in L. congruence.
  - intros T. rewrite T in E5. apply Ok_inj in E5. now subst.
  - intros T. rewrite T in E5. destruct (sky_config stack t None) as [u2 [s|e]] eqn:E7; cbn [snd obind] in E5; [|discriminate].
    apply Ok_inj in E5. subst sky. exists s. split; [reflexivity|]. exact (sky_none stack t u2 s S E7).
Qed.

(** ** truth values *)
Lemma truthy_false : forall a, truthy a = false <-> false_value a.
Proof.
  intros a. split.
  - destruct a as [|b|z|q|s|l]; cbn [truthy]; intro H.
    + constructor.
    + subst b. constructor.
    + apply negb_false_iff, Z.eqb_eq in H. subst z. constructor.
    + apply negb_false_iff, Qeq_bool_iff in H. now constructor.
    + apply negb_false_iff, String.eqb_eq in H. subst s. constructor.
    + destruct l; [constructor|discriminate].
  - intros [| | |q H| |]; try reflexivity. cbn [truthy]. apply negb_false_iff, Qeq_bool_iff. exact H.
Qed.
Lemma truthy_true : forall a, truthy a = true <-> ~ false_value a.
Proof. intros a. rewrite <- truthy_false. destruct (truthy a); split; intro H; congruence. Qed.

(** ** the settings *)
Lemma dd_default_setting : forall stack deb k a, stack_ok stack -> In (k, a) detect_settings ->
  value_at (dd_defaults stack deb) ["detect"; k] = Some a.
Proof.
  intros stack deb k a S I.
  assert (ND : NoDup (map fst detect_settings)) by (cbn; repeat (constructor; [cbn; intuition discriminate|]); constructor).
  pose proof (cget_csets_in detect_settings stack k a (stack_cget stack S) ND I) as G.
  unfold value_at. cbn [field cget dd_defaults sget]. cbn [String.eqb Ascii.eqb Bool.eqb]. now rewrite G.
Qed.
Lemma dd_seed : forall stack t deb u c, detect_and_deblend_config stack t deb None = (u, Ok c) -> value_at c ["seed"] = Some (AInt 42).
Proof.
  intros stack t deb u c H. unfold detect_and_deblend_config in H. destruct (truthy t) eqn:T.
  - cbn [put_threshold sget as_dict obind sput] in H.
    apply pair_equal_spec in H. destruct H as [_ H]. destruct (override _ _) as [c0 [[]|e]] eqn:O; [|discriminate]. apply Ok_inj in H. subst c0.
    assert (D : distinct_keys (ODict (unalias [("detect", ODict [("thresholdValue", OLeaf t)])]))).
    { cbn. constructor; [constructor; [intros []|constructor]|]. intros k o [E|[]]. injection E as <- <-.
      constructor; [constructor; [intros []|constructor]|]. intros k o [E|[]]. injection E as <- <-. constructor. }
    destruct (override_gen _ _ _ D O) as [_ B]. unfold value_at. rewrite (B ["seed"]); [reflexivity|exact I].
  - apply pair_equal_spec in H. destruct H as [_ H]. cbn in H. apply Ok_inj in H. now subst c.
Qed.
Lemma metadetect_settings : forall stack d sky det, stack_ok stack -> metadetect_configs stack d = Ok (sky, det) ->
  (forall k a, In (k, a) fixed_settings -> value_at det ["detect"; k] = Some a) /\
  (forall k, ~ In k (map fst fixed_settings) -> k <> "thresholdValue" -> field det ["detect"; k] = field stack [k]) /\
  value_at det ["seed"] = Some (AInt 42) /\ value_at det ["deblend"; "maxFootprintArea"] = Some (AInt 0) /\
  (forall s, sky = Some s -> value_at s ["iterate_detection_and_skysub"; "back"; "ignoredPixelMask"] = sget "statsMask" fixed_settings).
Proof.
  intros stack d sky det S H. unfold metadetect_configs in H.
  destruct (run_of _) as [c|] eqn:O; cbn [obind] in H; [|discriminate].
  destruct (node_at c "detect") as [dc|] eqn:E1; cbn [obind] in H; [|discriminate].
  destruct (leaf_at dc "thresholdValue") as [t|] eqn:E2; cbn [obind] in H; [|discriminate].
  destruct (leaf_at c "subtract_sky") as [ss|] eqn:E3; cbn [obind] in H; [|discriminate].
  destruct (leaf_at c "deblender") as [deb|] eqn:E4; cbn [obind] in H; [|discriminate].
  destruct (if truthy ss then _ else _) as [sky0|] eqn:E5 in H; cbn [obind] in H; [|discriminate].
  destruct (detect_and_deblend_config stack t (str_of deb) None) as [u [det0|e]] eqn:E6; cbn [snd obind] in H; [|discriminate].
  apply Ok_inj in H. apply pair_equal_spec in H. destruct H as [-> ->].
  destruct (dd_none stack t (str_of deb) u det S E6) as (X1 & X2 & X3 & X4).
  assert (IN : forall k a, In (k, a) fixed_settings -> In (k, a) detect_settings /\ k <> "thresholdValue").
  { intros k a I. cbn in I. repeat (destruct I as [E|I]; [injection E as <- <-; split; [cbn; tauto|discriminate]|]). contradiction. }
  split; [|split; [|split; [|split]]].
  - intros k a I. destruct (IN k a I) as [I1 N]. rewrite (X3 k a I1 N). now apply dd_default_setting.
  - intros k N1 N2. rewrite X2.
    + cbn [field]. now destruct (cget stack k).
    + intro I. cbn in I. repeat (destruct I as [E|I]; [subst k; first [now apply N2 | apply N1; cbn; tauto]|]). contradiction.
  - exact (dd_seed _ _ _ _ _ E6).
  - clear -X4. unfold value_at. cbn [field] in X4 |- *. destruct (cget det "deblend") as [x|]; [|discriminate].
    cbn in X4. injection X4 as ->. destruct (String.eqb (str_of deb) "scarlet"); reflexivity.
  - intros s ->. destruct (truthy ss); [|discriminate].
    destruct (sky_config stack t None) as [u2 [s0|e]] eqn:E7; cbn [snd obind] in E5; [|discriminate].
    apply Ok_inj, Some_inj in E5. subst s0. exact (sky_mask stack t u2 s E7).
Qed.

(** ** subtract_sky_mbexp with a dictionary *)
Lemma sget_unalias_sky : forall d k, sget k (unalias_sky d) =
  match sget k d with
  | Some (ODict l) => Some (ODict (if String.eqb k "iterate_detection_and_skysub" then unalias l else l))
  | x => x
  end.
Proof.
  induction d as [|[k0 o] d IH]; intros k; [reflexivity|]. cbn [unalias_sky map] in *. destruct o as [a|l].
  - cbn [sget]. destruct (String.eqb k k0); [reflexivity|apply IH].
  - destruct (String.eqb_spec k0 "iterate_detection_and_skysub") as [E|N]; cbn [sget]; destruct (String.eqb_spec k k0) as [E2|N2]; try (rewrite E2); try apply IH.
    + rewrite E. reflexivity.
    + destruct (String.eqb_spec k0 "iterate_detection_and_skysub"); [contradiction|reflexivity].
Qed.
Lemma skeys_unalias_sky : forall d, skeys (unalias_sky d) = skeys d.
Proof.
  intros d. unfold skeys, unalias_sky. rewrite map_map. apply map_ext. intros [k [a|l]]; [reflexivity|]. now destruct (String.eqb k "iterate_detection_and_skysub").
Qed.
Lemma sget_first : forall (d : items) k o, NoDup (skeys d) -> In (k, o) d -> sget k d = Some o.
Proof.
  induction d as [|[k1 o1] d IH]; intros k o N I; [contradiction|]. cbn in N. inversion N as [|x y NI N']; subst. cbn [sget].
  destruct I as [E|I0]; [injection E as -> ->; now rewrite String.eqb_refl|].
  destruct (String.eqb_spec k k1) as [<-|_]; [|now apply IH]. exfalso. apply NI. exact (in_map fst _ _ I0).
Qed.
Lemma unalias_sky_distinct : forall d, distinct_keys (ODict d) -> one_name (sky_section d) -> distinct_keys (ODict (unalias_sky d)).
Proof.
  intros d D O. inversion D as [|it ND DK]; subst. constructor; [now rewrite skeys_unalias_sky|].
  intros k o I. unfold unalias_sky in I. apply in_map_iff in I. destruct I as ([k0 o0] & E & I0). specialize (DK k0 o0 I0).
  destruct o0 as [a|l]; [injection E as <- <-; exact DK|].
  destruct (String.eqb_spec k0 "iterate_detection_and_skysub") as [K0|N]; injection E as E1 E2; subst k o; [|exact DK]. subst k0.
  apply unalias_distinct; [exact DK|]. unfold sky_section in O. now rewrite (sget_first d _ _ ND I0) in O.
Qed.
Lemma given_unalias_sky : forall d, one_name (sky_section d) ->
  given (ODict (unalias_sky d)) ["iterate_detection_and_skysub"; "detect"; "thresholdValue"] = user_threshold (sky_section d).
Proof.
  intros d O. unfold sky_section in *. 
  change (given (ODict (unalias_sky d)) ["iterate_detection_and_skysub"; "detect"; "thresholdValue"]) with
    (match sget "iterate_detection_and_skysub" (unalias_sky d) with Some o => given o ["detect"; "thresholdValue"] | None => None end).
  rewrite sget_unalias_sky. destruct (sget "iterate_detection_and_skysub" d) as [[a|l]|]; [reflexivity| |reflexivity].
  rewrite String.eqb_refl. now apply given_unalias.
Qed.
Lemma sky_task_thresh : forall stack t d, ~ false_value t -> distinct_keys (ODict d) ->
  (forall l, sget "detect" (sky_section d) = Some (ODict l) -> ~ In "thresh" (skeys l)) ->
  forall u c, sky_config stack t (Some d) = (u, Ok c) ->
  value_at c ["iterate_detection_and_skysub"; "detect"; "thresholdValue"] = Some t /\
  (forall a, given (ODict d) ["iterate_detection_and_skysub"; "niter"] = Some a -> value_at c ["iterate_detection_and_skysub"; "niter"] = Some a) /\
  (sget "niter" (sky_section d) = None -> value_at c ["iterate_detection_and_skysub"; "niter"] = Some (AInt 2)).
Proof.
  intros stack t d T D NT u c H. apply truthy_true in T. unfold sky_config in H. rewrite T in H.
  destruct (as_dict _) as [l|] eqn:A; cbn [obind] in H; [|apply pair_equal_spec in H; destruct H; discriminate].
  destruct (put_threshold l t) as [l'|] eqn:P; cbn [obind] in H; [|apply pair_equal_spec in H; destruct H; discriminate].
  apply pair_equal_spec in H. destruct H as [_ H]. destruct (override _ _) as [c0 [[]|e]] eqn:O; [|discriminate]. apply Ok_inj in H. subst c0.
  set (d2 := sput "iterate_detection_and_skysub" (ODict l') d) in *.
  inversion D as [|it ND DK]; subst it.
  assert (SL : sky_section d = l).
  { unfold sky_section. destruct (sget "iterate_detection_and_skysub" d) as [[a|l0]|]; cbn in A; [discriminate| |]; now apply Ok_inj in A. }
  assert (DL : distinct_keys (ODict l)).
  { destruct (sget "iterate_detection_and_skysub" d) as [[a|l0]|] eqn:E; cbn in A; [discriminate| |]; apply Ok_inj in A; subst l.
    - apply (DK "iterate_detection_and_skysub"). now apply sget_In_items.
    - apply distinct_nil. }
  assert (DL' := put_threshold_distinct l t l' DL P).
  assert (SS : sky_section d2 = l') by (unfold sky_section, d2; now rewrite sget_put, String.eqb_refl).
  assert (ON : one_name l').
  { rewrite SL in NT. intros m E [C _]. unfold put_threshold in P. destruct (as_dict _) as [l0|] eqn:A0 in P; cbn [obind] in P; [|discriminate]. apply Ok_inj in P. subst l'.
    rewrite sget_put, String.eqb_refl in E. injection E as <-. apply skeys_put in C. destruct C as [C|C]; [discriminate|].
    destruct (sget "detect" l) as [[a|l1]|] eqn:E; cbn in A0; [discriminate| |]; apply Ok_inj in A0; subst l0; [now apply (NT l1)|destruct C]. }
  assert (D2 : distinct_keys (ODict d2)).
  { constructor; [now apply sput_NoDup|]. intros k o I. unfold d2 in I.
    assert (INP : forall (m : list (string * ov)) k v x y, In (x, y) (sput k v m) -> (x, y) = (k, v) \/ In (x, y) m).
    { induction m as [|[k1 v1] m IH]; cbn; intros k0 v x y I0; [destruct I0 as [I0|[]]; left; congruence|].
      destruct (String.eqb_spec k0 k1) as [->|]; destruct I0 as [I0|I0]; auto. destruct (IH _ _ _ _ I0); auto. }
    destruct (INP _ _ _ _ _ I) as [E|I2]; [injection E as -> ->; exact DL'|exact (DK k o I2)]. }
  assert (ON2 : one_name (sky_section d2)) by (now rewrite SS).
  destruct (override_gen _ _ _ (unalias_sky_distinct d2 D2 ON2) O) as [F B].
  destruct (put_threshold_ok l t l' P) as (G1 & G2 & _).
  assert (NI : forall r, given (ODict (unalias_sky d2)) ["iterate_detection_and_skysub"; "niter"] = r <->
    match sget "niter" l with Some o => given o [] | None => None end = r).
  { intro r. change (given (ODict (unalias_sky d2)) ["iterate_detection_and_skysub"; "niter"]) with
      (match sget "iterate_detection_and_skysub" (unalias_sky d2) with
       | Some (ODict m) => match sget "niter" m with Some o => given o [] | None => None end | _ => None end).
    rewrite sget_unalias_sky. unfold d2. rewrite sget_put, !String.eqb_refl, sget_unalias.
    rewrite (G2 "niter") by discriminate. destruct (sget "niter" l) as [[a|m]|]; reflexivity. }
  split; [|split].
  - apply F; [|discriminate]. rewrite given_unalias_sky by exact ON2. rewrite SS. now apply user_threshold_only.
  - intros a G. apply F; [|discriminate]. apply NI. cbn [given] in G.
    destruct (sget "iterate_detection_and_skysub" d) as [[b|l0]|] eqn:E; cbn in A; [discriminate| |discriminate].
    apply Ok_inj in A. subst l0. exact G.
  - intros N. rewrite SL in N. unfold value_at. rewrite (B ["iterate_detection_and_skysub"; "niter"]); [reflexivity|].
    change (untouched (ODict (unalias_sky d2)) ["iterate_detection_and_skysub"; "niter"]) with
      (match sget "iterate_detection_and_skysub" (unalias_sky d2) with Some o => untouched o ["niter"] | None => True end).
    rewrite sget_unalias_sky. unfold d2. rewrite sget_put, !String.eqb_refl. cbn [untouched].
    rewrite sget_unalias, (G2 "niter") by discriminate. rewrite N. exact I.
Qed.
Lemma sky_task_falsy : forall stack t d, stack_ok stack -> false_value t -> distinct_keys (ODict d) -> one_name (sky_section d) ->
  forall u c, sky_config stack t (Some d) = (u, Ok c) ->
  u = Some d /\
  (forall a, user_threshold (sky_section d) = Some a -> value_at c ["iterate_detection_and_skysub"; "detect"; "thresholdValue"] = Some a) /\
  (sget "detect" (sky_section d) = None -> (forall a, sget "iterate_detection_and_skysub" d <> Some (OLeaf a)) ->
     value_at c ["iterate_detection_and_skysub"; "detect"; "thresholdValue"] = Some (AFloat 5)).
Proof.
  intros stack t d S T D ON u c H. apply truthy_false in T. unfold sky_config in H. rewrite T in H.
  apply pair_equal_spec in H. destruct H as [<- H]. split; [reflexivity|].
  destruct (override _ _) as [c0 [[]|e]] eqn:O; [|discriminate]. apply Ok_inj in H. subst c0.
  destruct (override_gen _ _ _ (unalias_sky_distinct d D ON) O) as [A B]. split.
  - intros a G. apply A; [|discriminate]. now rewrite given_unalias_sky.
  - intros U NL. unfold sky_section in U. unfold value_at. rewrite (B ["iterate_detection_and_skysub"; "detect"; "thresholdValue"]).
    + exact (sky_default_thresh stack S).
    + change (match sget "iterate_detection_and_skysub" (unalias_sky d) with Some o => untouched o ["detect"; "thresholdValue"] | None => True end).
      rewrite sget_unalias_sky. destruct (sget "iterate_detection_and_skysub" d) as [[b|l]|]; [now destruct (NL b)| |exact I].
      rewrite String.eqb_refl. cbn [untouched]. rewrite sget_unalias, U. exact I.
Qed.

Lemma used_effective : forall t, used_for t (if truthy t then t else AFloat 5).
Proof. intros t. destruct (truthy t) eqn:T; [left; now apply truthy_true in T|right; now apply truthy_false in T]. Qed.
