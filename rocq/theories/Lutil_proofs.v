From Coq Require Import ZArith QArith List String Bool Lia Sorting.Sorted.
From Verif Require Import Base Arr Dict Lutil_model Lutil_spec.
Import ListNotations.
Local Open Scope string_scope.
Local Open Scope Z_scope.

(** ** C49 *)
Section Config.
Variable h : heap.
Variable u : nat.
Variable cfgd : pdict.
Hypothesis UH : firstn 4 h = default_heap.
Hypothesis UN : nth_error h u = Some cfgd.
Hypothesis ND : forall d, In d h -> NoDup (skeys d).
Hypothesis UR : forall k q, sget k cfgd = Some (VRef q) -> (q < List.length h)%nat.

Let n := List.length h.
Definition st (S : string -> pdict) (T : pdict) : heap := (h ++ [S "detect"; S "metacal"; S "pgauss"; T])%list.
Definition slot (k : string) : nat := if String.eqb k "detect" then 0 else if String.eqb k "metacal" then 1 else 2.
Definition upd (S : string -> pdict) (k : string) (d : pdict) : string -> pdict := fun x => if String.eqb x k then d else S x.
Definition S0 (k : string) : pdict := nth (slot k) default_heap [].
Definition T0 : pdict :=
  [("subtract_sky", VAtom (ABool false)); ("deblender", VAtom (AStr "sdss"));
    ("detect", VRef n); ("metacal", VRef (n+1)); ("pgauss", VRef (n+2));
    ("stamp_size", VAtom (AInt 49)); ("shear_bands", VAtom ANone)].

Lemma h_shape : exists t, h = (default_heap ++ t)%list.
Proof. exists (skipn 4 h). rewrite <- UH. symmetry. apply firstn_skipn. Qed.

Lemma deepcopy_st : deepcopy h DEFAULT = Ok (st S0 T0, (n + 3)%nat).
Proof.
  unfold st, T0, n. destruct h_shape as [t E]. revert E. generalize h. intros g ->. unfold default_heap.
  unfold deepcopy, DEFAULT, hget. cbn [app nth_error obind copy_items copy_val fst snd hget].
  unfold hget. cbn [app nth_error obind copy_items copy_val fst snd List.length].
  rewrite !app_length. cbn [List.length]. unfold S0, default_heap. cbn [slot String.eqb nth Ascii.eqb Bool.eqb].
  rewrite <- !app_assoc. cbn [app]. repeat f_equal; lia.
Qed.

Lemma st_old : forall S T p, (p < n)%nat -> nth_error (st S T) p = nth_error h p.
Proof. intros. unfold st. apply nth_error_app1. exact H. Qed.
Lemma st_top : forall S T, nth_error (st S T) (n + 3) = Some T.
Proof. intros. unfold st, n. rewrite nth_error_app2 by lia. replace (List.length h + 3 - List.length h)%nat with 3%nat by lia. reflexivity. Qed.
Lemma st_slot : forall S T k, In k sub_configs -> nth_error (st S T) (n + slot k) = Some (S k).
Proof.
  intros S T k H. unfold st, n. rewrite nth_error_app2 by lia.
  replace (List.length h + slot k - List.length h)%nat with (slot k) by lia.
  destruct H as [<-|[<-|[<-|[]]]]; reflexivity.
Qed.
Lemma hset_app : forall (a b : heap) p d, hset (a ++ b)%list (List.length a + p) d = (a ++ hset b p d)%list.
Proof. induction a as [|x a IH]; intros; cbn; [reflexivity|]. now rewrite IH. Qed.
Lemma st_set_top : forall S T T', hset (st S T) (n + 3) T' = st S T'.
Proof. intros. unfold st, n. rewrite hset_app. reflexivity. Qed.
Lemma st_set_slot : forall S T k d, In k sub_configs -> hset (st S T) (n + slot k) d = st (upd S k d) T.
Proof. intros S T k d H. unfold st, n. rewrite hset_app. destruct H as [<-|[<-|[<-|[]]]]; reflexivity. Qed.

Definition dkeys : list string :=
  ["subtract_sky"; "deblender"; "detect"; "metacal"; "pgauss"; "stamp_size"; "shear_bands"].
Lemma default_old : nth_error h DEFAULT = Some (nth 3 default_heap []).
Proof. destruct h_shape as [t ->]. reflexivity. Qed.
Lemma n_ge : (4 <= n)%nat.
Proof. unfold n. destruct h_shape as [t ->]. rewrite app_length. cbn. lia. Qed.
Lemma u_lt : (u < n)%nat.
Proof. unfold n. apply nth_error_Some. congruence. Qed.

Definition sub_of (k : string) : pdict :=
  match sget k cfgd with Some (VRef q) => match nth_error h q with Some d => d | None => [] end | _ => [] end.
Definition refs_ok (T : pdict) : Prop := forall k, In k sub_configs -> sget k T = Some (VRef (n + slot k)).

Definition key_ok (k : string) : Prop :=
  In k dkeys /\ (In k sub_configs -> exists q, sget k cfgd = Some (VRef q)).

Lemma apply_key_st : forall S T k v, refs_ok T -> sget k cfgd = Some v ->
  apply_key u (n + 3) (st S T) k =
    if smem k dkeys then
      if smem k sub_configs then
        match v with VRef q => Ok (st (upd S k (supdate (S k) (sub_of k))) T) | VAtom _ => Raise TypeError end
      else Ok (st S (sput k v T))
    else Raise ValueError.
Proof.
  intros S T k v R G. unfold apply_key, hget. rewrite st_old, default_old by (unfold DEFAULT; pose proof n_ge; lia).
  cbn [obind nth default_heap]. change (skeys _) with dkeys.
  destruct (smem k dkeys); [|reflexivity]. cbn [negb]. rewrite st_old, UN by apply u_lt. cbn [obind].
  rewrite st_top. cbn [obind]. rewrite G. destruct (smem k sub_configs) eqn:E; [|now rewrite st_set_top].
  apply smem_In in E. rewrite (R k E). destruct v as [a|q]; [reflexivity|].
  rewrite st_slot by exact E. cbn [obind]. pose proof (UR _ _ G) as L. rewrite st_old by exact L.
  unfold sub_of. rewrite G. destruct (nth_error h q) eqn:Nq; [|apply nth_error_None in Nq; unfold n in L; lia].
  cbn [obind]. now rewrite st_set_slot.
Qed.

Lemma refs_put : forall T k v, refs_ok T -> ~ In k sub_configs -> refs_ok (sput k v T).
Proof.
  intros T k v R N k' H. rewrite sget_put. destruct (String.eqb_spec k' k) as [->|_]; [contradiction|]. apply R; exact H.
Qed.
Lemma upd_same : forall S k d, upd S k d k = d.
Proof. intros. unfold upd. now rewrite String.eqb_refl. Qed.
Lemma upd_other : forall S k d x, x <> k -> upd S k d x = S x.
Proof. intros. unfold upd. destruct (String.eqb_spec x k); [contradiction|reflexivity]. Qed.

(** The loop over the user's keys. *)
Lemma loop_st : forall ks S T, NoDup ks -> (forall k, In k ks -> exists v, sget k cfgd = Some v) -> refs_ok T ->
  exists S' T' r, heap_loop (apply_key u (n + 3)) ks (st S T) = (st S' T', r) /\
    (r = Ok tt <-> forall k, In k ks -> key_ok k) /\
    (forall e, r = Raise e -> (e = ValueError /\ exists k, In k ks /\ ~ In k dkeys) \/ (e = TypeError /\ exists k, In k ks /\ In k sub_configs /\ exists a, sget k cfgd = Some (VAtom a))) /\
    (r = Ok tt -> refs_ok T' /\
      (forall k, sget k T' = if smem k ks && negb (smem k sub_configs) then sget k cfgd else sget k T) /\
      (forall k, In k sub_configs -> S' k = if smem k ks then supdate (S k) (sub_of k) else S k)).
Proof.
  induction ks as [|k ks IH]; intros S T N U R; cbn [heap_loop].
  - exists S, T, (Ok tt). repeat split; auto; try (intros; contradiction); try discriminate.
  - inversion N; subst. destruct (U k (or_introl eq_refl)) as [v G]. rewrite (apply_key_st S T k v R G).
    assert (U' : forall k0, In k0 ks -> exists v0, sget k0 cfgd = Some v0) by (intros; apply U; now right).
    destruct (smem k dkeys) eqn:ED.
    2: { apply smem_false in ED. exists S, T, (Raise ValueError). split; [reflexivity|]. split.
         - split; [discriminate|]. intros K. destruct (K k (or_introl eq_refl)). contradiction.
         - split; [|discriminate]. intros e E. left. split; [congruence|]. exists k. split; [now left|exact ED]. }
    apply smem_In in ED. destruct (smem k sub_configs) eqn:ES.
    + apply smem_In in ES. destruct v as [a|q].
      * exists S, T, (Raise TypeError). split; [reflexivity|]. split.
        -- split; [discriminate|]. intros K. destruct (K k (or_introl eq_refl)) as [_ K2]. destruct (K2 ES) as [q Q]. congruence.
        -- split; [|discriminate]. intros e E. right. split; [congruence|]. exists k. split; [now left|]. split; [exact ES|]. eauto.
      * destruct (IH (upd S k (supdate (S k) (sub_of k))) T H2 U' R) as (S' & T' & r & HL & IFF & ER & EFF).
        exists S', T', r. split; [exact HL|]. split; [|split].
        -- rewrite IFF. split.
           ++ intros K k' [<-|I]; [|auto]. split; [exact ED|]. intros _. eauto.
           ++ intros K k' I. apply K. now right.
        -- intros e E. destruct (ER e E) as [[E1 (k' & I & J)]|[E1 (k' & I & J)]]; [left|right]; (split; [exact E1|exists k'; split; [now right|exact J]]).
        -- intros E. destruct (EFF E) as (R' & GT & GS). split; [exact R'|]. split.
           ++ intros k'. rewrite GT. unfold smem at 3. cbn [existsb]. fold (smem k' ks).
              destruct (String.eqb_spec k' k) as [->|_]; [|reflexivity].
              apply smem_In in ES. rewrite ES. now rewrite !andb_false_r.
           ++ intros k' I. rewrite (GS k' I). unfold smem at 2. cbn [existsb]. fold (smem k' ks).
              destruct (String.eqb_spec k' k) as [->|Ne].
              ** apply smem_false in H1. rewrite H1. apply upd_same.
              ** cbn [orb]. now rewrite upd_other.
    + apply smem_false in ES. destruct (IH S (sput k v T) H2 U' (refs_put T k v R ES)) as (S' & T' & r & HL & IFF & ER & EFF).
      exists S', T', r. split; [exact HL|]. split; [|split].
      * rewrite IFF. split.
        -- intros K k' [<-|I]; [|auto]. split; [exact ED|]. intros. contradiction.
        -- intros K k' I. apply K. now right.
      * intros e E. destruct (ER e E) as [[E1 (k' & I & J)]|[E1 (k' & I & J)]]; [left|right]; (split; [exact E1|exists k'; split; [now right|exact J]]).
      * intros E. destruct (EFF E) as (R' & GT & GS). split; [exact R'|]. split.
        -- intros k'. rewrite GT. unfold smem at 3. cbn [existsb]. fold (smem k' ks). rewrite sget_put.
           destruct (String.eqb_spec k' k) as [->|_]; [|reflexivity].
           apply smem_false in H1. rewrite H1. apply smem_false in ES. rewrite ES. cbn. congruence.
        -- intros k' I. rewrite (GS k' I). unfold smem at 2. cbn [existsb]. fold (smem k' ks).
           destruct (String.eqb_spec k' k) as [->|Ne]; [contradiction|]. reflexivity.
Qed.

Definition only_key (d : pdict) (key : string) : Prop := forall s, In s (skeys d) <-> s = key.
Lemma verify_st : forall S T name key, refs_ok T -> In name sub_configs ->
  (verify (st S T) (n + 3) name key = Ok tt <-> only_key (S name) key) /\
  (verify (st S T) (n + 3) name key = Ok tt \/ verify (st S T) (n + 3) name key = Raise ValueError).
Proof.
  intros S T name key R I. unfold verify, hget. rewrite st_top. cbn [obind]. rewrite (R name I), (st_slot _ _ _ I). cbn [obind].
  unfold check_required, check_keywords. cbn [forallb]. rewrite andb_true_r.
  destruct (smem key (skeys (S name))) eqn:E1; cbn [obind].
  - destruct (forallb _ _) eqn:E2.
    + split; [|now left]. split; [|auto]. intros _ s. rewrite forallb_forall in E2. apply smem_In in E1. split; [|intros ->; exact E1].
      intros I2. specialize (E2 s I2). apply smem_In in E2. destruct E2 as [<-|[]]. reflexivity.
    + split; [|now right]. split; [discriminate|]. intros O. exfalso. rewrite <- not_true_iff_false in E2. apply E2.
      apply forallb_forall. intros s I2. apply O in I2. subst. apply smem_In. now left.
  - split; [|now right]. split; [discriminate|]. intros O. apply smem_false in E1. exfalso. apply E1, O. reflexivity.
Qed.

Lemma cfgd_nodup : NoDup (skeys cfgd).
Proof. apply ND. eapply nth_error_In. exact UN. Qed.
Lemma sub_nodup : forall k, NoDup (skeys (sub_of k)).
Proof.
  intros k. unfold sub_of. destruct (sget k cfgd) as [[a|q]|]; [constructor| |constructor].
  destruct (nth_error h q) eqn:E; [|constructor]. apply ND. eapply nth_error_In. exact E.
Qed.
Lemma refs_T0 : refs_ok T0.
Proof. intros k H. destruct H as [<-|[<-|[<-|[]]]]; unfold slot; cbn; rewrite ?Nat.add_0_r; reflexivity. Qed.

Definition final_sub (k : string) : pdict := if smem k (skeys cfgd) then supdate (S0 k) (sub_of k) else S0 k.
Lemma final_sub_get : forall k s, sget s (final_sub k) = match sget s (sub_of k) with Some v => Some v | None => sget s (S0 k) end.
Proof.
  intros k s. unfold final_sub. destruct (smem k (skeys cfgd)) eqn:E; [apply sget_update, sub_nodup|].
  unfold sub_of. apply smem_false in E. apply sget_None in E. now rewrite E.
Qed.

Theorem get_config_user : exists S T r,
  get_config h (Some u) = (st S T, r) /\
  (r = Ok (n + 3)%nat <-> (forall k, In k (skeys cfgd) -> key_ok k) /\
     (forall s, In s (skeys (sub_of "pgauss")) -> s = "fwhm") /\ (forall s, In s (skeys (sub_of "detect")) -> s = "thresh")) /\
  (r = Ok (n + 3)%nat \/ r = Raise ValueError \/
     r = Raise TypeError /\ exists k a, In k sub_configs /\ sget k cfgd = Some (VAtom a)) /\
  (r = Ok (n + 3)%nat -> refs_ok T /\
     (forall k, sget k T = if negb (smem k sub_configs) then match sget k cfgd with Some v => Some v | None => sget k T0 end else sget k T0) /\
     forall k, In k sub_configs -> S k = final_sub k).
Proof.
  unfold get_config. rewrite deepcopy_st. unfold hget. rewrite st_old, UN by apply u_lt.
  destruct (loop_st (skeys cfgd) S0 T0 cfgd_nodup (fun k I => proj1 (sget_In _ k cfgd) I) refs_T0) as (S & T & r & HL & IFF & ER & EFF).
  rewrite HL. eexists S, T, _. split; [reflexivity|].
  destruct r as [[]|e]; cbn [obind].
  - destruct (EFF eq_refl) as (R & GT & GS). pose proof (proj1 IFF eq_refl) as KO.
    destruct (verify_st S T "pgauss" "fwhm" R) as [VP VP2]; [cbn; tauto|].
    destruct (verify_st S T "detect" "thresh" R) as [VD VD2]; [cbn; tauto|].
    assert (OP : only_key (S "pgauss") "fwhm" <-> forall s, In s (skeys (sub_of "pgauss")) -> s = "fwhm").
    { rewrite GS by (cbn; tauto). fold (final_sub "pgauss"). unfold only_key. split.
      - intros O s I. apply O. apply sget_In. rewrite final_sub_get. apply sget_In in I. destruct I as [v ->]. eauto.
      - intros O s. rewrite sget_In, final_sub_get. split.
        + intros [v E]. destruct (sget s (sub_of "pgauss")) eqn:E2; [apply O, sget_In; eauto|].
          assert (I : In s (skeys (S0 "pgauss"))) by (apply sget_In; eauto). destruct I as [<-|[]]. reflexivity.
        + intros ->. destruct (sget "fwhm" (sub_of "pgauss")); eauto. cbn. eauto. }
    assert (OD : only_key (S "detect") "thresh" <-> forall s, In s (skeys (sub_of "detect")) -> s = "thresh").
    { rewrite GS by (cbn; tauto). fold (final_sub "detect"). unfold only_key. split.
      - intros O s I. apply O. apply sget_In. rewrite final_sub_get. apply sget_In in I. destruct I as [v ->]. eauto.
      - intros O s. rewrite sget_In, final_sub_get. split.
        + intros [v E]. destruct (sget s (sub_of "detect")) eqn:E2; [apply O, sget_In; eauto|].
          assert (I : In s (skeys (S0 "detect"))) by (apply sget_In; eauto). destruct I as [<-|[]]. reflexivity.
        + intros ->. destruct (sget "thresh" (sub_of "detect")); eauto. cbn. eauto. }
    split; [|split].
    + rewrite <- OP, <- OD, <- VP, <- VD. destruct VP2 as [->| ->]; cbn [obind]; [|split; [discriminate|intros (_ & X & _); discriminate]].
      destruct VD2 as [->| ->]; cbn [obind]; [|split; [discriminate|intros (_ & _ & X); discriminate]]. split; auto.
    + destruct VP2 as [->| ->]; cbn [obind]; [|auto]. destruct VD2 as [->| ->]; cbn [obind]; auto.
    + intros _. split; [exact R|]. split; [|exact GS].
      intros k. rewrite GT. destruct (smem k sub_configs); [now rewrite andb_false_r|]. rewrite andb_true_r. cbn [negb].
      destruct (smem k (skeys cfgd)) eqn:E.
      * apply smem_In, sget_In in E. destruct E as [v ->]. reflexivity.
      * apply smem_false, sget_None in E. now rewrite E.
  - split; [|split].
    + split; [discriminate|]. intros (K & _). apply IFF in K. discriminate.
    + destruct (ER e eq_refl) as [[-> _]|[-> (k & I & J & a & A)]]; [auto|]. right. right. split; [reflexivity|]. eauto.
    + discriminate.
Qed.
End Config.

Lemma heap_eq_firstn : forall (h t : heap), firstn (List.length h) (h ++ t)%list = h.
Proof. intros. now rewrite firstn_app, Nat.sub_diag, firstn_all, app_nil_r. Qed.

Lemma user_heap_get : forall h u, user_heap h u -> exists d, nth_error h u = Some d.
Proof.
  intros h u (_ & L & _). destruct (nth_error h u) eqn:E; [eauto|]. apply nth_error_None in E. lia.
Qed.

Lemma get_config_unchanged : forall h u, user_heap h u ->
  firstn (List.length h) (fst (get_config h (Some u))) = h /\ firstn (List.length h) (fst (get_config h None)) = h.
Proof.
  intros h u W. destruct (user_heap_get h u W) as [d E]. destruct W as (W1 & W2 & W3 & W4).
  split.
  - destruct (get_config_user h u d W1 E W3) as (S & T & r & HG & _).
    { intros k q G. apply (W4 k q). unfold option_of. now rewrite E. }
    rewrite HG. cbn [fst]. apply heap_eq_firstn.
  - unfold get_config. rewrite (deepcopy_st h W1). cbn [fst]. apply heap_eq_firstn.
Qed.

Lemma suboption_sub_of : forall h u d k s, nth_error h u = Some d ->
  suboption_of h u k s = sget s (sub_of h d k).
Proof.
  intros h u d k s E. unfold suboption_of, option_of, sub_of. rewrite E. destruct (sget k d) as [[a|q]|]; try reflexivity.
  destruct (nth_error h q); reflexivity.
Qed.

Lemma get_config_values : forall h u h' r, user_heap h u -> get_config h (Some u) = (h', Ok r) ->
  r = (List.length h + 3)%nat /\
  (forall k, In k (keys_of h' r) <-> In k (keys_of h DEFAULT)) /\
  (forall k, ~ In k sub_configs ->
     option_of h' r k = match option_of h u k with Some v => Some v | None => option_of h DEFAULT k end) /\
  (forall k s, In k sub_configs ->
     suboption_of h' r k s = match suboption_of h u k s with Some v => Some v | None => suboption_of h DEFAULT k s end) /\
  (forall k q, In k sub_configs -> option_of h' r k = Some (VRef q) -> (List.length h <= q)%nat).
Proof.
  intros h u h' r W G. destruct (user_heap_get h u W) as [d E]. destruct W as (W1 & W2 & W3 & W4).
  assert (UR : forall k q, sget k d = Some (VRef q) -> (q < List.length h)%nat).
  { intros k q G2. apply (W4 k q). unfold option_of. now rewrite E. }
  destruct (get_config_user h u d W1 E W3 UR) as (S & T & r' & HG & IFF & OC & EFF). rewrite HG in G.
  apply pair_equal_spec in G. destruct G as [<- ->].
  destruct OC as [OC|[OC|[OC _]]]; try discriminate. apply Ok_inj in OC. subst r.
  destruct (EFF eq_refl) as (R & GT & GS). pose proof (proj1 IFF eq_refl) as (KO & _ & _).
  destruct (h_shape h W1) as [t SH].
  assert (DK : skeys T = skeys T \/ True) by auto.
  assert (D3 : nth_error h DEFAULT = Some (nth 3 default_heap [])) by (rewrite SH; reflexivity).
  assert (KEYS : forall k, In k (skeys T) <-> In k dkeys).
  { intros k. rewrite sget_In, GT. split.
    - destruct (smem k sub_configs) eqn:ES; cbn [negb].
      + intros [v V]. assert (I : In k (skeys (T0 h))) by (apply sget_In; eauto). exact I.
      + destruct (sget k d) eqn:EK.
        * intros _. apply KO. apply sget_In. eauto.
        * intros [v V]. assert (I : In k (skeys (T0 h))) by (apply sget_In; eauto). exact I.
    - intros I. assert (J : In k (skeys (T0 h))) by exact I. apply sget_In in J. destruct J as [v V].
      destruct (smem k sub_configs); cbn [negb]; [eauto|]. destruct (sget k d); eauto. }
  split; [reflexivity|]. split; [|split; [|split]].
  - intros k. unfold keys_of. rewrite st_top, D3. apply KEYS.
  - intros k N. unfold option_of. rewrite st_top, E, D3, GT. apply smem_false in N. rewrite N. cbn [negb].
    destruct (sget k d); [reflexivity|]. apply smem_false in N. unfold T0. cbn [nth default_heap sget].
    destruct (String.eqb_spec k "subtract_sky"); [reflexivity|]. destruct (String.eqb_spec k "deblender"); [reflexivity|].
    destruct (String.eqb_spec k "detect"); [subst; destruct N; cbn; tauto|]. destruct (String.eqb_spec k "metacal"); [subst; destruct N; cbn; tauto|].
    destruct (String.eqb_spec k "pgauss"); [subst; destruct N; cbn; tauto|]. reflexivity.
  - intros k s I. rewrite (suboption_sub_of h u d k s E). unfold suboption_of, option_of at 1. rewrite st_top, (R k I).
    unfold option_of at 1. rewrite (st_slot h S T k I), (GS k I). rewrite final_sub_get by exact W3.
    destruct (sget s (sub_of h d k)); [reflexivity|]. unfold option_of. rewrite D3. rewrite SH.
    destruct I as [<-|[<-|[<-|[]]]]; reflexivity.
  - intros k q I. unfold option_of. rewrite st_top, (R k I). intros Q. injection Q as <-. lia.
Qed.

Lemma get_config_ok_iff : forall h u, user_heap h u ->
  ((exists r, snd (get_config h (Some u)) = Ok r) <->
   (forall k, In k (keys_of h u) -> In k (keys_of h DEFAULT)) /\
   (forall k a, In k sub_configs -> option_of h u k <> Some (VAtom a)) /\
   (forall s v, suboption_of h u "detect" s = Some v -> s = "thresh") /\
   (forall s v, suboption_of h u "pgauss" s = Some v -> s = "fwhm")).
Proof.
  intros h u W. destruct (user_heap_get h u W) as [d E]. destruct W as (W1 & W2 & W3 & W4).
  assert (UR : forall k q, sget k d = Some (VRef q) -> (q < List.length h)%nat).
  { intros k q G2. apply (W4 k q). unfold option_of. now rewrite E. }
  destruct (get_config_user h u d W1 E W3 UR) as (S & T & r' & HG & IFF & OC & EFF). rewrite HG. cbn [snd].
  destruct (h_shape h W1) as [t SH].
  assert (D3 : keys_of h DEFAULT = dkeys) by (unfold keys_of; rewrite SH; reflexivity).
  rewrite D3. unfold keys_of. rewrite E.
  assert (X : (exists r, r' = Ok r) <-> r' = Ok (List.length h + 3)%nat).
  { split; [|eauto]. intros [r ->]. destruct OC as [OC|[OC|[OC _]]]; try discriminate. exact OC. }
  rewrite X, IFF. split.
  - intros (K & P & D). split; [intros k I; apply (K k I)|]. split; [|split].
    + intros k a I. unfold option_of. rewrite E. intros Q. destruct (K k) as [_ K2]; [apply sget_In; eauto|].
      destruct (K2 I) as [q Q2]. congruence.
    + intros s v. rewrite (suboption_sub_of h u d _ s E). intros Q. apply D, sget_In. eauto.
    + intros s v. rewrite (suboption_sub_of h u d _ s E). intros Q. apply P, sget_In. eauto.
  - intros (K & A & D & P). split; [|split].
    + intros k I. split; [apply K, I|]. intros J. apply sget_In in I. destruct I as [[a|q] V]; [|eauto].
      exfalso. apply (A k a J). unfold option_of. now rewrite E.
    + intros s I. apply sget_In in I. destruct I as [v V]. apply (P s v). now rewrite (suboption_sub_of h u d _ s E).
    + intros s I. apply sget_In in I. destruct I as [v V]. apply (D s v). now rewrite (suboption_sub_of h u d _ s E).
Qed.

Lemma get_config_unknown : forall h u k, user_heap h u -> In k (keys_of h u) -> ~ In k (keys_of h DEFAULT) ->
  (forall k a, In k sub_configs -> option_of h u k <> Some (VAtom a)) ->
  snd (get_config h (Some u)) = Raise ValueError.
Proof.
  intros h u k W I N A. pose proof (get_config_ok_iff h u W) as F.
  destruct (user_heap_get h u W) as [d E]. destruct W as (W1 & W2 & W3 & W4).
  assert (UR : forall k q, sget k d = Some (VRef q) -> (q < List.length h)%nat).
  { intros k' q G2. apply (W4 k' q). unfold option_of. now rewrite E. }
  destruct (get_config_user h u d W1 E W3 UR) as (S & T & r' & HG & IFF & OC & EFF). rewrite HG in F |- *. cbn [snd] in *.
  destruct OC as [->|[->|[-> (k' & a & J & V)]]]; [|reflexivity|].
  - exfalso. apply N. apply F; eauto.
  - exfalso. apply (A k' a J). unfold option_of. now rewrite E.
Qed.

(** ** C50 *)
Fixpoint oloop (c : cfg) (items : list (string * ov)) : cfg * outcome unit :=
  match items with
  | [] => (c, Ok tt)
  | (key, value) :: rest =>
    match value with
    | ODict _ =>
      match cget c key with
      | None => (c, Raise AttributeError)
      | Some sub =>
        let '(sub', r) := override sub value in
        let c' := cset c key sub' in
        match r with Ok _ => oloop c' rest | Raise e => (c', Raise e) end
      end
    | OLeaf a =>
      if String.eqb key "stamp_size" then
        match c with CLeaf _ => (c, Raise AttributeError) | CNode _ => oloop c rest end
      else
        match cget c key with
        | None => (c, Raise AttributeError)
        | Some _ => oloop (cset c key (CLeaf a)) rest
        end
    end
  end.
Lemma override_dict : forall c items, override c (ODict items) = oloop c items.
Proof. intros. reflexivity. Qed.

Section OvInd.
Variable P : ov -> Prop.
Hypothesis HL : forall a, P (OLeaf a).
Hypothesis HD : forall items, (forall k o, In (k, o) items -> P o) -> P (ODict items).
Fixpoint ov_ind2 (o : ov) : P o :=
  match o with
  | OLeaf a => HL a
  | ODict items => HD items
      ((fix go (l : list (string * ov)) : forall k o, In (k, o) l -> P o :=
          match l with
          | [] => fun k o I => match I with end
          | (k0, o0) :: r => fun k o I =>
              match I with
              | or_introl E => match E in _ = kv return P (snd kv) with eq_refl => ov_ind2 o0 end
              | or_intror J => go r k o J
              end
          end) items)
  end.
End OvInd.

Lemma cget_cset : forall c k k' v w, cget c k = Some w -> cget (cset c k v) k' = if String.eqb k' k then Some v else cget c k'.
Proof. intros [a|l] k k' v w H; cbn in *; [discriminate|]. apply sget_put. Qed.

(** The result of one entry. *)
Definition entry_result (c : cfg) (k : string) (o : ov) (x : cfg) : Prop :=
  match o with
  | OLeaf a => x = CLeaf a
  | ODict _ => exists sub, cget c k = Some sub /\ override sub o = (x, Ok tt)
  end.

Lemma oloop_ok : forall items c c', NoDup (skeys items) ->
  (forall k a, In (k, OLeaf a) items -> k <> "stamp_size") ->
  oloop c items = (c', Ok tt) ->
  (forall k o, In (k, o) items -> exists x, cget c' k = Some x /\ entry_result c k o x) /\
  (forall k, ~ In k (skeys items) -> cget c' k = cget c k) /\
  (forall k o, In (k, o) items -> exists sub, cget c k = Some sub).
Proof.
  induction items as [|[k o] items IH]; intros c c' N NS H; cbn [oloop] in H.
  - apply pair_equal_spec in H. destruct H as [<- _]. repeat split; auto; intros; contradiction.
  - cbn in N. inversion N as [|x l NI N']; subst.
    assert (NS' : forall k a, In (k, OLeaf a) items -> k <> "stamp_size") by (intros; apply (NS k0 a); now right).
    assert (STEP : exists w v, cget c k = Some w /\ entry_result c k o v /\ oloop (cset c k v) items = (c', Ok tt)).
    { destruct o as [a|l].
      - destruct (String.eqb_spec k "stamp_size") as [E|_]; [exfalso; apply (NS k a); [now left|exact E]|].
        destruct (cget c k) as [w|] eqn:G; [|discriminate]. exists w, (CLeaf a). repeat split; auto.
      - destruct (cget c k) as [w|] eqn:G; [|discriminate]. destruct (override w (ODict l)) as [sub' r] eqn:O.
        destruct r as [[]|e]; [|discriminate]. exists w, sub'. split; [reflexivity|]. split; [|exact H]. exists w. split; auto. }
    destruct STEP as (w & v & G & ER & H2). destruct (IH (cset c k v) c' N' NS' H2) as (A & B & C).
    split; [|split].
    + intros k1 o1 [E|I].
      * injection E as <- <-. exists v. split; [|exact ER]. rewrite (B k NI), (cget_cset c k k v w G), String.eqb_refl. reflexivity.
      * destruct (A k1 o1 I) as (x & X1 & X2). exists x. split; [exact X1|].
        destruct o1 as [a1|l1]; [exact X2|]. destruct X2 as (sub & S1 & S2). exists sub. split; [|exact S2].
        rewrite (cget_cset c k k1 v w G) in S1. destruct (String.eqb_spec k1 k) as [->|_]; [|exact S1].
        exfalso. apply NI. apply (in_map fst) in I. exact I.
    + intros k1 NI1. cbn in NI1. rewrite B by tauto. rewrite (cget_cset c k k1 v w G).
      destruct (String.eqb_spec k1 k) as [->|_]; [tauto|reflexivity].
    + intros k1 o1 [E|I]; [injection E as <- <-; eauto|]. destruct (C k1 o1 I) as [s S].
      rewrite (cget_cset c k k1 v w G) in S. destruct (String.eqb_spec k1 k) as [->|_]; eauto.
Qed.

Lemma sget_In_items : forall (items : list (string * ov)) k o, sget k items = Some o -> In (k, o) items.
Proof.
  induction items as [|[a b] items IH]; cbn; [discriminate|]. intros k o. destruct (String.eqb_spec k a) as [->|_]; [intros [= ->]; now left|].
  intros H. right. auto.
Qed.

Lemma override_effect : forall o c c', distinct_keys o -> no_stamp_size o -> override c o = (c', Ok tt) ->
  (forall p a, given o p = Some a -> value_at c' p = Some a) /\
  (forall p, untouched o p -> field c' p = field c p).
Proof.
  induction o as [a|items IH] using ov_ind2; intros c c' D N H; [cbn in H; discriminate|].
  rewrite override_dict in H. inversion D as [|it ND DK]; subst. inversion N as [|it NS]; subst.
  destruct (oloop_ok items c c' ND (fun k a I => proj2 (NS k (OLeaf a) I) a eq_refl) H) as (A & B & C).
  split.
  - intros [|k p] a G; cbn [given] in G; [discriminate|]. destruct (sget k items) as [o|] eqn:E; [|discriminate].
    apply sget_In_items in E. destruct (A k o E) as (x & X1 & X2). unfold value_at. cbn [field]. rewrite X1.
    destruct o as [b|l].
    + cbn in X2. subst x. destruct p; cbn in G; [|discriminate]. injection G as ->. reflexivity.
    + destruct X2 as (sub & S1 & S2). destruct (IH k (ODict l) E sub x (DK k _ E) (proj1 (NS k _ E)) S2) as [F _].
      apply F. exact G.
  - intros [|k p] U; cbn [untouched] in U; [contradiction|]. cbn [field]. destruct (sget k items) as [o|] eqn:E.
    + apply sget_In_items in E. destruct (A k o E) as (x & X1 & X2). rewrite X1.
      destruct o as [b|l]; [destruct p; cbn in U; contradiction|]. destruct X2 as (sub & S1 & S2). rewrite S1.
      destruct (IH k (ODict l) E sub x (DK k _ E) (proj1 (NS k _ E)) S2) as [_ F]. apply F. exact U.
    + rewrite B; [reflexivity|]. now apply sget_None.
Qed.

Lemma override_raises_only : forall o c c' r, override c o = (c', r) -> r = Ok tt \/ r = Raise AttributeError.
Proof.
  induction o as [a|items IH] using ov_ind2; intros c c' r H; [cbn in H; apply pair_equal_spec in H as [_ <-]; auto|].
  rewrite override_dict in H. revert c H. induction items as [|[k o] items IH2]; intros c H; cbn [oloop] in H.
  - apply pair_equal_spec in H as [_ <-]. auto.
  - assert (IHo : forall k o, In (k, o) items -> forall c c' r, override c o = (c', r) -> r = Ok tt \/ r = Raise AttributeError) by (intros k1 o1 I; apply (IH k1 o1); now right).
    destruct o as [a|l].
    + destruct (String.eqb k "stamp_size").
      * destruct c; [apply pair_equal_spec in H as [_ <-]; auto|eapply IH2; eauto].
      * destruct (cget c k); [eapply IH2; eauto|apply pair_equal_spec in H as [_ <-]; auto].
    + destruct (cget c k) as [w|]; [|apply pair_equal_spec in H as [_ <-]; auto].
      destruct (override w (ODict l)) as [s q] eqn:O. pose proof (IH k (ODict l) (or_introl eq_refl) w s q O) as Q.
      destruct q as [[]|e]; [eapply IH2; eauto|]. apply pair_equal_spec in H as [_ <-]. exact Q.
Qed.

Lemma override_known : forall o c, (exists l, o = ODict l) -> distinct_keys o -> no_stamp_size o ->
  (snd (override c o) = Ok tt <-> known_keys c o).
Proof.
  induction o as [a|items IH] using ov_ind2; intros c L D N; [destruct L; discriminate|]. clear L.
  inversion D as [|it ND DK]; subst. inversion N as [|it NS]; subst. split.
  - destruct (override c (ODict items)) as [c' r] eqn:H. cbn [snd]. intros ->. rewrite override_dict in H.
    destruct (oloop_ok items c c' ND (fun k a I => proj2 (NS k (OLeaf a) I) a eq_refl) H) as (A & B & C).
    constructor. intros k o I. destruct (C k o I) as [sub S]. exists sub. split; [exact S|].
    destruct o as [a|l]; [constructor|]. destruct (A k _ I) as (x & _ & sub' & S1 & S2).
    assert (sub' = sub) by congruence. subst sub'. apply (IH k (ODict l) I sub); eauto; [apply (NS k _ I)|]. now rewrite S2.
  - intros K. inversion K as [|c0 it KK]; subst. rewrite override_dict. clear K D N. revert c KK.
    induction items as [|[k o] items IH2]; intros c KK; [reflexivity|]. cbn [oloop].
    cbn in ND. inversion ND as [|x l NI N']; subst.
    assert (CONT : forall w v, cget c k = Some w -> snd (oloop (cset c k v) items) = Ok tt).
    { intros w v G. apply IH2; auto.
      - intros k1 o1 I. apply (IH k1 o1). now right.
      - intros k1 o1 I. apply (DK k1 o1). now right.
      - intros k1 o1 I. apply (NS k1 o1). now right.
      - intros k1 o1 I. destruct (KK k1 o1) as (sub & S1 & S2); [now right|]. exists sub. split; [|exact S2].
        rewrite (cget_cset c k k1 v w G). destruct (String.eqb_spec k1 k) as [->|_]; [|exact S1].
        exfalso. apply NI. apply (in_map fst) in I. exact I. }
    destruct (KK k o (or_introl eq_refl)) as (sub & S1 & S2). destruct o as [a|l].
    + destruct (String.eqb_spec k "stamp_size") as [E|_]; [exfalso; apply (proj2 (NS k _ (or_introl eq_refl)) a eq_refl E)|].
      rewrite S1. eapply CONT. exact S1.
    + rewrite S1. pose proof (proj2 (IH k (ODict l) (or_introl eq_refl) sub (ex_intro _ l eq_refl) (DK k _ (or_introl eq_refl)) (proj1 (NS k _ (or_introl eq_refl)))) S2) as OK.
      destruct (override sub (ODict l)) as [s q]. cbn [snd] in OK. subst q. eapply CONT. exact S1.
Qed.

(** ** C51 *)
Lemma zrange_len : forall (A : Type) (l : list A), zrange (zlen l) = map Z.of_nat (seq 0 (List.length l)).
Proof.
  intros. unfold zrange, zrange2, zlen. rewrite Z.sub_0_r, Nat2Z.id. apply map_ext. intros. lia.
Qed.
Lemma zrange_combine : forall (A : Type) (l : list A) i a,
  In (i, a) (combine (zrange (zlen l)) l) <-> 0 <= i /\ nth_error l (Z.to_nat i) = Some a.
Proof.
  intros A l. assert (G : forall s i a, In (i, a) (combine (map Z.of_nat (seq s (List.length l))) l) <->
    exists j, i = Z.of_nat (s + j) /\ nth_error l j = Some a).
  { induction l as [|x l IH]; intros s i a; cbn.
    - split; [tauto|]. intros ([|j] & _ & H); discriminate.
    - rewrite IH. split.
      + intros [E|(j & -> & H)]; [injection E as <- <-; exists 0%nat; split; [f_equal; lia|reflexivity]|].
        exists (S j). split; [f_equal; lia|exact H].
      + intros ([|j] & -> & H); cbn in H; [left; f_equal; [f_equal; lia|congruence]|].
        right. exists j. split; [f_equal; lia|exact H]. }
  intros i a. rewrite zrange_len, G. split.
  - intros (j & -> & H). rewrite Nat2Z.id. cbn. split; [lia|exact H].
  - intros [P H]. exists (Z.to_nat i). cbn. rewrite Z2Nat.id by exact P. auto.
Qed.

Definition asked (bands : list string) (requested : option (list string)) : list string :=
  match requested with Some (x :: l) => x :: l | _ => bands end.

Lemma shear_bands_exact : forall bands requested r, extract_shear_band_indices bands requested = Ok r ->
  forall i, In i r <-> 0 <= i /\ exists b, nth_error bands (Z.to_nat i) = Some b /\ In b (asked bands requested).
Proof.
  intros bands requested r H i. unfold extract_shear_band_indices in H. fold (asked bands requested) in H.
  destruct (forallb _ _); [|discriminate]. apply Ok_inj in H. subst r. rewrite in_map_iff. split.
  - intros ([j b] & <- & I). apply filter_In in I. destruct I as [I M]. apply zrange_combine in I. cbn in *.
    destruct I. split; [assumption|]. exists b. split; [assumption|]. now apply smem_In.
  - intros (P & b & N & I). exists (i, b). split; [reflexivity|]. apply filter_In. split; [now apply zrange_combine|]. now apply smem_In.
Qed.
Lemma shear_bands_error : forall bands requested,
  (exists b, In b (asked bands requested) /\ ~ In b bands) <-> extract_shear_band_indices bands requested = Raise RuntimeError.
Proof.
  intros bands requested. unfold extract_shear_band_indices. fold (asked bands requested). split.
  - intros (b & I & N). destruct (forallb _ _) eqn:E; [|reflexivity]. rewrite forallb_forall in E. apply E in I.
    apply smem_In in I. contradiction.
  - destruct (forallb _ _) eqn:E; [discriminate|]. intros _. induction (asked bands requested) as [|b l IH]; [discriminate|].
    cbn in E. destruct (smem b bands) eqn:M; [|exists b; split; [now left|now apply smem_false]]. destruct (IH E) as (b' & I & N).
    exists b'. split; [now right|exact N].
Qed.
Lemma shear_bands_sorted : forall bands requested r, extract_shear_band_indices bands requested = Ok r ->
  StronglySorted Z.lt r.
Proof.
  intros bands requested r H. unfold extract_shear_band_indices in H. fold (asked bands requested) in H.
  destruct (forallb _ _); [|discriminate]. apply Ok_inj in H. subst r. generalize (asked bands requested). intros names.
  rewrite zrange_len. generalize 0%nat as s. induction bands as [|b bands IH]; intros s; cbn; [constructor|].
  destruct (smem b names); cbn; [|apply IH]. constructor; [apply IH|]. apply Forall_forall. intros x I. apply in_map_iff in I.
  destruct I as ([j c] & <- & I). apply filter_In in I. destruct I as [I _]. apply in_combine_l in I. apply in_map_iff in I.
  destruct I as (m & E & M). apply in_seq in M. cbn. lia.
Qed.

Lemma sorted_nodup : forall l, StronglySorted Z.lt l -> NoDup l.
Proof.
  intros l S. induction S as [|a l S IH F]; constructor; auto. intros I. rewrite Forall_forall in F. specialize (F a I). lia.
Qed.

(** ** C52 *)
Lemma in_norm_box : forall b x y, in_box (norm_box b) x y <-> bx0 b <= x <= bx1 b /\ by0 b <= y <= by1 b.
Proof.
  intros b x y. unfold norm_box. destruct (_ || _) eqn:E; cbn; [|tauto].
  apply orb_true_iff in E. rewrite !Z.ltb_lt in E. split; [tauto|lia].
Qed.
Lemma in_grow : forall k x y x' y', 0 <= k ->
  in_box (grow k (Some (mkBox x y x y))) x' y' <-> x - k <= x' <= x + k /\ y - k <= y' <= y + k.
Proof. intros. unfold grow. rewrite in_norm_box. cbn. lia. Qed.
Lemma in_clip : forall b e x y, in_box (clip_box b e) x y <-> in_box b x y /\ in_box e x y.
Proof.
  intros [b|] [e|] x y; cbn; try tauto. rewrite in_norm_box. cbn. lia.
Qed.

(** ** C53 *)
Lemma trim_square : forall A (im : img A), nr im = nc im -> trim_odd_image im = Ok im.
Proof. intros A im E. unfold trim_odd_image. now rewrite E, Z.eqb_refl. Qed.

Lemma trim_nonsquare : forall A (im : img A), 1 <= nr im -> 1 <= nc im -> nr im <> nc im ->
  nr im mod 2 = 1 -> nc im mod 2 = 1 ->
  exists r, trim_odd_image im = Ok r /\ nr r = Z.min (nr im) (nc im) /\ nc r = Z.min (nr im) (nc im) /\
    forall i j, px r i j = px im (i + (nr im - nr r) / 2) (j + (nc im - nc r) / 2).
Proof.
  intros A im Hr Hc N Or Oc. unfold trim_odd_image. destruct (nr im =? nc im) eqn:E; [lia|]. clear E.
  rewrite Or, Oc. cbn [Z.eqb orb].
  set (cr := (nr im - 1) / 2). set (cc := (nc im - 1) / 2).
  assert (Er : nr im = 2 * cr + 1) by (unfold cr; Z.div_mod_to_equations; lia).
  assert (Ec : nc im = 2 * cc + 1) by (unfold cc; Z.div_mod_to_equations; lia).
  clearbody cr cc. set (d := Z.min _ _). assert (Ed : d = Z.min cr cc) by (unfold d; lia). clearbody d. subst d.
  assert (NB : forall n b, 0 <= b <= n -> norm_bound n b = b) by (intros n b B; unfold norm_bound; destruct (b <? 0) eqn:?; lia).
  eexists. split; [reflexivity|]. unfold slice, slice_len, slice_lo. cbn [nr nc px]. rewrite !NB by lia.
  split; [lia|]. split; [lia|]. intros i j.
  replace (nr im - Z.max 0 (cr + Z.min cr cc + 1 - (cr - Z.min cr cc))) with ((cr - Z.min cr cc) * 2) by lia.
  replace (nc im - Z.max 0 (cc + Z.min cr cc + 1 - (cc - Z.min cr cc))) with ((cc - Z.min cr cc) * 2) by lia.
  now rewrite !Z.div_mul by lia.
Qed.

Lemma get_bbox_noclip : forall e x y ps s, 0 <= s ->
  let k := s / 2 in
  let inside_image := forall x' y', x - k <= x' <= x + k -> y - k <= y' <= y + k -> in_box e x' y' in
  (inside_image -> get_bbox e ((x, y) :: ps) s false = Ok (Some (mkBox (x - k) (y - k) (x + k) (y + k)))) /\
  (~ inside_image -> get_bbox e ((x, y) :: ps) s false = Raise LengthError).
Proof.
  intros e x y ps s Hs k inside_image.
  assert (Hk : 0 <= k) by (apply Z.div_pos; lia).
  assert (G : grow k (Some (mkBox x y x y)) = Some (mkBox (x - k) (y - k) (x + k) (y + k))).
  { unfold grow, norm_box. cbn. destruct (_ || _) eqn:E; [|reflexivity]. apply orb_true_iff in E. lia. }
  unfold get_bbox. fold k. rewrite G.
  assert (C : contains_box e (Some (mkBox (x - k) (y - k) (x + k) (y + k))) = true <-> inside_image).
  { unfold inside_image. clear inside_image. destruct e as [[ex0 ey0 ex1 ey1]|]; cbn.
    - rewrite !andb_true_iff, !Z.leb_le. split; [lia|]. intros I.
      pose proof (I (x - k) (y - k) ltac:(lia) ltac:(lia)). pose proof (I (x + k) (y + k) ltac:(lia) ltac:(lia)). lia.
    - split; [discriminate|]. intros I. exfalso. apply (I x y); lia. }
  destruct (contains_box e _); split; intros H; try reflexivity.
  - exfalso. apply H, C. reflexivity.
  - apply C in H. discriminate.
Qed.

Lemma get_bbox_clip : forall e x y ps s, 0 <= s ->
  exists b, get_bbox e ((x, y) :: ps) s true = Ok b /\
    forall x' y', in_box b x' y' <-> in_box e x' y' /\ x - s / 2 <= x' <= x + s / 2 /\ y - s / 2 <= y' <= y + s / 2.
Proof.
  intros e x y ps s Hs. eexists. split; [reflexivity|]. intros x' y'. rewrite in_clip, in_grow by (apply Z.div_pos; lia). tauto.
Qed.

(** ** A "stamp_size" value is skipped *)
Lemma override_skips : forall items fields,
  override (CNode fields) (ODict items) =
  override (CNode fields) (ODict (filter (fun kv => match snd kv with OLeaf _ => negb (String.eqb (fst kv) "stamp_size") | ODict _ => true end) items)).
Proof.
  induction items as [|[k v] items IH]; intros fields; [reflexivity|]. destruct v as [a|sub].
  - cbn [filter fst snd]. destruct (String.eqb k "stamp_size") eqn:E; cbn [negb].
    + rewrite <- IH. cbn [override]. rewrite E. reflexivity.
    + cbn [override]. rewrite E. destruct (cget (CNode fields) k); [|reflexivity]. cbn [cset]. exact (IH _).
  - cbn [filter fst snd]. cbn [override]. destruct (cget (CNode fields) k) as [c|]; [|reflexivity].
    match goal with |- context [let '(sub', r) := ?x in _] => destruct x as [c' r] end. destruct r as [u|e]; [|reflexivity].
    cbn [cset]. exact (IH _).
Qed.

(** ** The indices are in the order of the data *)
Lemma filter_map_sorted : forall (f : Z * string -> bool) l, StronglySorted Z.lt (map fst l) -> StronglySorted Z.lt (map fst (filter f l)).
Proof.
  intros f l. induction l as [|a l IH]; cbn [map filter]; intros H; [constructor|]. inversion H as [|? ? H1 H2]; subst.
  destruct (f a); [|exact (IH H1)]. cbn [map]. constructor; [exact (IH H1)|]. rewrite Forall_forall in *. intros x Hx.
  apply H2. apply in_map_iff in Hx. destruct Hx as (y & <- & Hy). apply in_map. apply filter_In in Hy. exact (proj1 Hy).
Qed.
Lemma combine_fst : forall A B (l : list A) (l' : list B), List.length l = List.length l' -> map fst (combine l l') = l.
Proof. intros A B l. induction l as [|a l IH]; intros [|b l'] H; cbn in *; try reflexivity; try discriminate H. rewrite IH; [reflexivity|lia]. Qed.
Lemma zrange2_increasing : forall lo hi, StronglySorted Z.lt (zrange2 lo hi).
Proof.
  intros lo hi. unfold zrange2. generalize (Z.to_nat (hi - lo)) as n. intros n. generalize 0%nat. induction n as [|n IH]; intros k; cbn [seq map]; constructor; [apply IH|].
  apply Forall_forall. intros x Hx. apply in_map_iff in Hx. destruct Hx as (y & <- & Hy). apply in_seq in Hy. lia.
Qed.
Lemma indices_sorted : forall bands requested r, extract_shear_band_indices bands requested = Ok r -> StronglySorted Z.lt r.
Proof.
  intros bands requested r H. unfold extract_shear_band_indices in H. cbv zeta in H. destruct (forallb _ _); [|discriminate H]. apply Ok_inj in H. subst r.
  apply filter_map_sorted. rewrite combine_fst; [apply zrange2_increasing|].
  unfold zrange. rewrite zrange2_length. unfold zlen. lia.
Qed.
