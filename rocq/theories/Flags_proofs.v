From Coq Require Import ZArith List String Bool Lia FinFun.
From Verif Require Import Base Flags_model Flags_spec.
Import ListNotations.
Local Open Scope Z_scope.

Definition flag_bit (f : procflag) : Z :=
  match f with
  | SHEAR_RANGE_ERROR => 19 | EDGE_HIT => 20 | PSF_FAILURE => 21
  | OBJ_FAILURE => 22 | NOMOMENTS_FAILURE => 23 | BAD_BBOX => 24
  | ZERO_WEIGHTS => 25 | NO_DATA => 26 | MISSING_BAND => 27
  | INCONSISTENT_BANDS => 28 | CENTROID_FAILURE => 29 | DEBLEND_FAILURE => 30
  end.

Lemma flag_value_bit : forall f, flag_value f = 2 ^ flag_bit f.
Proof. destruct f; reflexivity. Qed.

Lemma flag_bit_range : forall f, 19 <= flag_bit f <= 30.
Proof. destruct f; simpl; lia. Qed.

Lemma flag_bit_inj : forall f g, flag_bit f = flag_bit g -> f = g.
Proof. destruct f, g; simpl; intro H; try reflexivity; discriminate H. Qed.

Lemma or_flags_testbit : forall fs low i, 0 <= i ->
  Z.testbit (or_flags low fs) i =
  (Z.testbit low i || existsb (fun f => Z.eqb (flag_bit f) i) fs)%bool.
Proof.
  unfold or_flags.
  induction fs as [|f fs IH]; intros low i Hi; simpl.
  - now rewrite orb_false_r.
  - rewrite IH by assumption. rewrite Z.lor_spec, flag_value_bit.
    rewrite Z.pow2_bits_eqb by (pose proof (flag_bit_range f); lia).
    now rewrite orb_assoc.
Qed.

Lemma or_flags_nonneg : forall fs low, 0 <= low -> 0 <= or_flags low fs.
Proof.
  unfold or_flags. induction fs as [|f fs IH]; intros low H; simpl; [assumption|].
  apply IH. apply Z.lor_nonneg. split; [assumption|].
  rewrite flag_value_bit. apply Z.pow_nonneg. lia.
Qed.

Lemma land_pow2_nonzero : forall v n, 0 <= n ->
  (Z.land v (2 ^ n) <> 0 <-> Z.testbit v n = true).
Proof.
  intros v n Hn. split.
  - intros H. destruct (Z.testbit v n) eqn:E; [reflexivity|].
    exfalso. apply H. apply Z.bits_inj_0. intro i.
    rewrite Z.land_spec. destruct (Z_lt_le_dec i 0) as [Hi|Hi].
    + rewrite Z.testbit_neg_r by assumption. reflexivity.
    + rewrite Z.pow2_bits_eqb by assumption.
      destruct (Z.eqb_spec n i) as [->|]; [now rewrite E|]. apply andb_false_r.
  - intros H Hz.
    assert (Z.testbit (Z.land v (2 ^ n)) n = false) by (rewrite Hz; apply Z.bits_0).
    rewrite Z.land_spec, H, Z.pow2_bits_true in H0 by assumption. discriminate.
Qed.

Lemma low_bits_above : forall low i, 0 <= low < 2 ^ 19 -> 19 <= i -> Z.testbit low i = false.
Proof.
  intros low i H Hi. destruct (Z.eq_dec low 0) as [->|Hne]; [apply Z.bits_0|].
  apply Z.bits_above_log2; [lia|].
  assert (Z.log2 low < 19) by (apply Z.log2_lt_pow2; lia). lia.
Qed.

Lemma or_flags_has_flag : forall low fs f, 0 <= low < 2 ^ 19 ->
  (has_flag (or_flags low fs) f <-> In f fs).
Proof.
  intros low fs f Hlow. unfold has_flag. rewrite flag_value_bit.
  pose proof (flag_bit_range f) as Hr.
  rewrite land_pow2_nonzero by lia. rewrite or_flags_testbit by lia.
  rewrite low_bits_above by lia. simpl. rewrite existsb_exists. split.
  - intros [g [Hin He]]. apply Z.eqb_eq in He. apply flag_bit_inj in He. now subst.
  - intros Hin. exists f. split; [assumption|]. apply Z.eqb_refl.
Qed.

Lemma or_flags_low : forall low fs, 0 <= low < 2 ^ 19 ->
  ngmix_part (or_flags low fs) = low.
Proof.
  intros low fs Hlow. unfold ngmix_part. apply Z.bits_inj'. intros i Hi.
  destruct (Z_lt_le_dec i 19) as [Hl|Hge].
  - rewrite Z.mod_pow2_bits_low by assumption.
    rewrite or_flags_testbit by assumption.
    replace (existsb (fun f => flag_bit f =? i) fs) with false; [apply orb_false_r|].
    symmetry. apply not_true_is_false. intro H. apply existsb_exists in H.
    destruct H as [f [_ Hf]]. apply Z.eqb_eq in Hf. pose proof (flag_bit_range f). lia.
  - rewrite Z.mod_pow2_bits_high by lia. symmetry. now apply low_bits_above.
Qed.

Lemma or_flags_range : forall low fs, 0 <= low < 2 ^ 19 -> 0 <= or_flags low fs < 2 ^ 31.
Proof.
  intros low fs Hlow. split; [apply or_flags_nonneg; lia|].
  destruct (Z.eq_dec (or_flags low fs) 0) as [->|Hne]; [reflexivity|].
  pose proof (or_flags_nonneg fs low (proj1 Hlow)).
  apply Z.log2_lt_pow2; [lia|].
  destruct (Z_lt_le_dec (Z.log2 (or_flags low fs)) 31) as [|Hge]; [assumption|exfalso].
  assert (Hb : Z.testbit (or_flags low fs) (Z.log2 (or_flags low fs)) = true)
    by (apply Z.bit_log2; lia).
  rewrite or_flags_testbit in Hb by lia.
  rewrite low_bits_above in Hb by lia. simpl in Hb.
  apply existsb_exists in Hb. destruct Hb as [f [_ Hf]].
  apply Z.eqb_eq in Hf. pose proof (flag_bit_range f). lia.
Qed.

Lemma or_flags_unique : forall low fs low' fs',
  0 <= low < 2 ^ 19 -> 0 <= low' < 2 ^ 19 ->
  or_flags low fs = or_flags low' fs' ->
  low = low' /\ forall f, In f fs <-> In f fs'.
Proof.
  intros low fs low' fs' H H' E. split.
  - rewrite <- (or_flags_low low fs H), <- (or_flags_low low' fs' H'). now rewrite E.
  - intro f. rewrite <- (or_flags_has_flag low fs f H), <- (or_flags_has_flag low' fs' f H').
    now rewrite E.
Qed.

(** * Dictionaries *)
Lemma key_eqb_eq : forall a b, key_eqb a b = true <-> a = b.
Proof.
  destruct a, b; simpl; split; intro H; try discriminate.
  - apply Z.eqb_eq in H. now subst.
  - inversion H. apply Z.eqb_refl.
  - apply String.eqb_eq in H. now subst.
  - inversion H. apply String.eqb_refl.
Qed.

Lemma key_eqb_refl : forall a, key_eqb a a = true.
Proof. intro. now apply key_eqb_eq. Qed.

Lemma key_eqb_neq : forall a b, a <> b -> key_eqb a b = false.
Proof.
  intros a b H. apply not_true_is_false. intro E. apply key_eqb_eq in E. contradiction.
Qed.

Lemma dict_get_set_same : forall d k v, dict_get (dict_set d k v) k = Some v.
Proof.
  induction d as [|[k' v'] d IH]; intros k v; simpl.
  - now rewrite key_eqb_refl.
  - destruct (key_eqb k' k) eqn:E; simpl; rewrite E; [reflexivity|apply IH].
Qed.

Lemma dict_get_set_other : forall d k v k', k <> k' ->
  dict_get (dict_set d k v) k' = dict_get d k'.
Proof.
  induction d as [|[k0 v0] d IH]; intros k v k' Hne; simpl.
  - now rewrite key_eqb_neq.
  - destruct (key_eqb k0 k) eqn:E; simpl.
    + apply key_eqb_eq in E. subst k0. rewrite key_eqb_neq by assumption. reflexivity.
    + destruct (key_eqb k0 k'); [reflexivity|]. now apply IH.
Qed.

Lemma dict_get_in : forall d k v, NoDup (map fst d) ->
  (dict_get d k = Some v <-> In (k, v) d).
Proof.
  induction d as [|[k0 v0] d IH]; intros k v Hnd; simpl.
  - split; [discriminate|tauto].
  - inversion Hnd as [|? ? Hni Hnd']; subst. destruct (key_eqb k0 k) eqn:E.
    + apply key_eqb_eq in E. subst k0. split.
      * intros H. inversion H. now left.
      * intros [H|H]; [inversion H; reflexivity|].
        exfalso. apply Hni. apply in_map_iff. exists (k, v). now split.
    + rewrite IH by assumption. split; [tauto|].
      intros [H|H]; [|assumption]. inversion H. subst.
      rewrite key_eqb_refl in E. discriminate.
Qed.

Lemma dict_set_keys_in : forall d k v x, In x (map fst (dict_set d k v)) <-> x = k \/ In x (map fst d).
Proof.
  induction d as [|[k0 v0] d IH]; intros k v x; simpl.
  - intuition.
  - destruct (key_eqb k0 k) eqn:E; simpl.
    + apply key_eqb_eq in E. subst. intuition.
    + rewrite IH. intuition.
Qed.

Lemma dict_set_nodup : forall d k v, NoDup (map fst d) -> NoDup (map fst (dict_set d k v)).
Proof.
  induction d as [|[k0 v0] d IH]; intros k v H; simpl.
  - constructor; [simpl; tauto|constructor].
  - inversion H as [|? ? Hni Hnd]; subst. destruct (key_eqb k0 k) eqn:E; simpl.
    + constructor; assumption.
    + constructor; [|now apply IH]. rewrite dict_set_keys_in. intros [->|Hin]; [|contradiction].
      rewrite key_eqb_refl in E. discriminate.
Qed.

(** General fact on the reversal loop: if the value side is injective, after the
    loop each value leads back to its key, other keys are untouched. *)
Lemma reverse_loop_other : forall l d k,
  ~ In k (map snd l) ->
  dict_get (fold_left (fun d' kv => dict_set d' (snd kv) (fst kv)) l d) k = dict_get d k.
Proof.
  induction l as [|[a b] l IH]; intros d k H; simpl; [reflexivity|].
  simpl in H. rewrite IH by tauto. apply dict_get_set_other. simpl. intro E; apply H; now left.
Qed.

Lemma reverse_loop_hit : forall l d a b,
  NoDup (map snd l) -> In (a, b) l ->
  dict_get (fold_left (fun d' kv => dict_set d' (snd kv) (fst kv)) l d) b = Some a.
Proof.
  induction l as [|[x y] l IH]; intros d a b Hnd Hin; simpl in *; [tauto|].
  inversion Hnd as [|? ? Hni Hnd']; subst. destruct Hin as [E|Hin].
  - inversion E; subst. rewrite reverse_loop_other by assumption. apply dict_get_set_same.
  - now apply IH.
Qed.

(** Entries of the forward table. *)
Lemma dict_set_fresh : forall d k v, ~ In k (map fst d) -> dict_set d k v = d ++ [(k, v)].
Proof.
  induction d as [|[k0 v0] d IH]; intros k v H; simpl; [reflexivity|].
  simpl in H. rewrite key_eqb_neq by tauto. f_equal. apply IH. tauto.
Qed.

Lemma fold_set_fresh : forall (fs : list procflag) d,
  NoDup fs ->
  (forall f, In f fs -> ~ In (KInt (flag_value f)) (map fst d)) ->
  fold_left (fun d f => dict_set d (KInt (flag_value f)) (KStr (flag_name f))) fs d
  = d ++ map (fun f => (KInt (flag_value f), KStr (flag_name f))) fs.
Proof.
  induction fs as [|f fs IH]; intros d Hnd H; simpl.
  - now rewrite app_nil_r.
  - inversion Hnd as [|? ? Hni Hnd']; subst.
    rewrite dict_set_fresh by (apply H; now left).
    rewrite IH.
    + rewrite <- app_assoc. reflexivity.
    + assumption.
    + intros g Hg. rewrite map_app, in_app_iff. simpl. intros [Hin|[E|[]]].
      * now apply (H g); [right|].
      * inversion E as [E']. rewrite !flag_value_bit in E'.
        apply Z.pow_inj_r in E'; [|lia|pose proof (flag_bit_range f); lia|pose proof (flag_bit_range g); lia].
        apply flag_bit_inj in E'. subst. contradiction.
Qed.

Lemma all_flags_nodup : NoDup all_flags.
Proof. unfold all_flags. repeat constructor; simpl; intuition discriminate. Qed.

Lemma all_flags_complete : forall f, In f all_flags.
Proof. destruct f; simpl; intuition. Qed.

Lemma flag_name_inj : forall f g, flag_name f = flag_name g -> f = g.
Proof. destruct f, g; intro H; try reflexivity; discriminate H. Qed.

Lemma flag_value_big : forall f, 2 ^ 19 <= flag_value f.
Proof.
  intro f. rewrite flag_value_bit. apply Z.pow_le_mono_r; [lia|].
  pose proof (flag_bit_range f). lia.
Qed.

Lemma forward_shape : forall m, ngmix_table_ok m ->
  name_map_forward m = m ++ map (fun f => (KInt (flag_value f), KStr (flag_name f))) all_flags.
Proof.
  intros m [_ [_ H]]. unfold name_map_forward. apply fold_set_fresh.
  - apply all_flags_nodup.
  - intros f _ Hin. apply in_map_iff in Hin. destruct Hin as [[k v] [E Hin]]. simpl in E. subst.
    destruct (H _ _ Hin) as [H1 _]. specialize (H1 _ eq_refl). pose proof (flag_value_big f). lia.
Qed.

Lemma forward_values_nodup : forall m, ngmix_table_ok m -> NoDup (map snd (name_map_forward m)).
Proof.
  intros m Hm. rewrite forward_shape by assumption. rewrite map_app, map_map. simpl.
  destruct Hm as [_ [Hnd H]].
  assert (Hdis : forall x, In x (map snd m) ->
            ~ In x (map (fun f => KStr (flag_name f)) all_flags)).
  { intros x Hx Hx'. apply in_map_iff in Hx. destruct Hx as [[k v] [E Hin]]. simpl in E. subst.
    apply in_map_iff in Hx'. destruct Hx' as [f [E _]].
    destruct (H _ _ Hin) as [_ [_ [H3 _]]]. destruct (H3 f) as [_ Hv]. now apply Hv. }
  assert (Hnd2 : NoDup (map (fun f => KStr (flag_name f)) all_flags)).
  { apply FinFun.Injective_map_NoDup; [|apply all_flags_nodup].
    intros a b E. inversion E. now apply flag_name_inj. }
  clear H. induction (map snd m) as [|x l IH]; simpl; [assumption|].
  inversion Hnd as [|? ? Hni Hnd']; subst. constructor.
  - rewrite in_app_iff. intros [Hx|Hx]; [contradiction|]. apply (Hdis x); [now left|assumption].
  - apply IH; [assumption|]. intros y Hy. apply Hdis. now right.
Qed.

Lemma name_map_flag_value : forall m f, ngmix_table_ok m ->
  dict_get (name_map m) (KInt (flag_value f)) = Some (KStr (flag_name f)).
Proof.
  intros m f Hm. unfold name_map. rewrite reverse_loop_other.
  - rewrite forward_shape by assumption. apply dict_get_in.
    + rewrite <- forward_shape by assumption. unfold name_map_forward.
      assert (Hnd : NoDup (map fst m)) by apply Hm. clear Hm.
      generalize all_flags as fs. intro fs. revert m Hnd.
      induction fs as [|g fs IH]; intros m Hnd; simpl; [assumption|].
      apply IH. now apply dict_set_nodup.
    + rewrite in_app_iff. right. apply in_map_iff. exists f. split; [reflexivity|apply all_flags_complete].
  - rewrite forward_shape by assumption. rewrite map_app, in_app_iff.
    intros [Hin|Hin]; apply in_map_iff in Hin.
    + destruct Hin as [[k v] [E Hin]]. simpl in E. subst.
      destruct Hm as [_ [_ H]]. destruct (H _ _ Hin) as [_ [H2 _]].
      specialize (H2 _ eq_refl). pose proof (flag_value_big f). lia.
    + destruct Hin as [[k v] [E Hin]]. simpl in E. subst.
      apply in_map_iff in Hin. destruct Hin as [g [E _]]. discriminate E.
Qed.

Lemma name_map_flag_name : forall m f, ngmix_table_ok m ->
  dict_get (name_map m) (KStr (flag_name f)) = Some (KInt (flag_value f)).
Proof.
  intros m f Hm. unfold name_map. apply reverse_loop_hit.
  - now apply forward_values_nodup.
  - rewrite forward_shape by assumption. apply in_app_iff. right.
    apply in_map_iff. exists f. split; [reflexivity|apply all_flags_complete].
Qed.

Lemma name_map_keeps_ngmix : forall m k v, ngmix_table_ok m -> In (k, v) m ->
  dict_get (name_map m) k = Some v /\ dict_get (name_map m) v = Some k.
Proof.
  intros m k v Hm Hin. split.
  - unfold name_map.
    destruct (in_dec (fun a b => match key_eqb a b as c return (key_eqb a b = c -> _) with
                      | true => fun H => left (proj1 (key_eqb_eq a b) H)
                      | false => fun H => right (fun E => eq_ind false (fun c => if c then False else True) I true
                           (eq_trans (eq_sym H) (proj2 (key_eqb_eq a b) E)))
                      end eq_refl) k (map snd (name_map_forward m))) as [Hi|Hni].
    + apply in_map_iff in Hi. destruct Hi as [[a b] [E Hab]]. simpl in E. subst b.
      rewrite (reverse_loop_hit _ _ a k); [|now apply forward_values_nodup|assumption].
      rewrite forward_shape in Hab by assumption. apply in_app_iff in Hab. destruct Hab as [Hab|Hab].
      * destruct Hm as [_ [_ H]]. destruct (H _ _ Hab) as [_ [_ [_ H4]]].
        rewrite (H4 _ Hin). reflexivity.
      * apply in_map_iff in Hab. destruct Hab as [f [E _]]. inversion E. subst.
        destruct Hm as [_ [_ H]]. destruct (H _ _ Hin) as [_ [_ [H3 _]]].
        destruct (H3 f) as [Hk _]. now contradiction Hk.
    + rewrite reverse_loop_other by assumption.
      rewrite forward_shape by assumption. clear Hni.
      destruct Hm as [Hnd _]. apply (dict_get_in m k v Hnd) in Hin.
      revert Hin. induction m as [|[a b] m IH]; simpl; [discriminate|].
      destruct (key_eqb a k); [tauto|]. apply IH. now inversion Hnd.
  - unfold name_map. apply reverse_loop_hit; [now apply forward_values_nodup|].
    rewrite forward_shape by assumption. apply in_app_iff. now left.
Qed.

(** The pieces for a value made of metadetect flags only. *)
Lemma pieces_or_flags : forall m fs, ngmix_table_ok m ->
  get_procflags_pieces m (or_flags 0 fs) =
  map (fun f => KStr (flag_name f))
      (filter (fun f => existsb (fun g => Z.eqb (flag_value g) (flag_value f)) fs) all_flags).
Proof.
  intros m fs Hm. unfold get_procflags_pieces, get_flags_pieces.
  set (F := fun p : Z => _).
  assert (Hlow : forall p, 0 <= p < 19 -> F p = []).
  { intros p Hp. unfold F.
    replace (Z.land (or_flags 0 fs) (2 ^ p)) with 0; [reflexivity|].
    symmetry. destruct (Z.eq_dec (Z.land (or_flags 0 fs) (2 ^ p)) 0) as [|Hne]; [assumption|].
    apply land_pow2_nonzero in Hne; [|lia]. rewrite or_flags_testbit in Hne by lia.
    rewrite Z.bits_0 in Hne. simpl in Hne. apply existsb_exists in Hne.
    destruct Hne as [f [_ Hf]]. apply Z.eqb_eq in Hf. pose proof (flag_bit_range f). lia. }
  assert (H31 : F 31 = []).
  { unfold F. destruct (Z.eq_dec (Z.land (or_flags 0 fs) (2 ^ 31)) 0) as [->|Hne]; [reflexivity|].
    apply land_pow2_nonzero in Hne; [|lia]. rewrite or_flags_testbit in Hne by lia.
    rewrite Z.bits_0 in Hne. simpl in Hne. apply existsb_exists in Hne.
    destruct Hne as [f [_ Hf]]. apply Z.eqb_eq in Hf. pose proof (flag_bit_range f). lia. }
  assert (Hf : forall f, F (flag_bit f) =
     if existsb (fun g => Z.eqb (flag_value g) (flag_value f)) fs then [KStr (flag_name f)] else []).
  { intro f. unfold F. rewrite <- flag_value_bit. rewrite name_map_flag_value by assumption.
    assert (Hin : has_flag (or_flags 0 fs) f <-> In f fs) by (apply or_flags_has_flag; lia).
    unfold has_flag in Hin.
    destruct (existsb (fun g => flag_value g =? flag_value f) fs) eqn:E.
    - apply existsb_exists in E. destruct E as [g [Hg E]]. apply Z.eqb_eq in E.
      rewrite !flag_value_bit in E.
      apply Z.pow_inj_r in E; [|lia|pose proof (flag_bit_range g); lia|pose proof (flag_bit_range f); lia].
      apply flag_bit_inj in E. subst g. apply Hin in Hg. apply Z.eqb_neq in Hg. now rewrite Hg.
    - destruct (Z.eqb_spec (Z.land (or_flags 0 fs) (flag_value f)) 0) as [|Hne]; [reflexivity|].
      exfalso. apply Hin in Hne. apply not_true_iff_false in E. apply E.
      apply existsb_exists. exists f. split; [assumption|apply Z.eqb_refl]. }
  change (zrange 32) with ([0;1;2;3;4;5;6;7;8;9;10;11;12;13;14;15;16;17;18]
     ++ map flag_bit all_flags ++ [31]).
  rewrite !flat_map_app.
  assert (E1 : flat_map F [0;1;2;3;4;5;6;7;8;9;10;11;12;13;14;15;16;17;18] = []).
  { simpl. rewrite !Hlow by lia. reflexivity. }
  assert (E2 : flat_map F [31] = []).
  { cbn [flat_map]. rewrite H31. reflexivity. }
  rewrite E1, E2, app_nil_l, app_nil_r.
  clear E1 E2 H31 Hlow. generalize all_flags as l. intro l.
  induction l as [|f l IH]; [reflexivity|].
  cbn [map flat_map filter]. rewrite Hf, IH.
  destruct (existsb _ fs); reflexivity.
Qed.
