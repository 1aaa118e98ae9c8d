From Coq Require Import ZArith Reals List String Bool Lia.
From Verif Require Import Base Arr Dict Masking_model Masking_spec Masking_proofs Lmask_model Lmask_spec Lmask_proofs Lplane_model Lplane_spec.
Import ListNotations.
Local Open Scope string_scope.
Local Open Scope Z_scope.

Lemma unused_Some : forall reg i, unused reg = Some i -> 0 <= i < 32 /\ ~ In i (map snd reg).
Proof.
  intros reg i H. unfold unused in H. apply find_some in H. destruct H as [A B]. apply in_zrange in A. split; [exact A|].
  intros I. apply negb_true_iff in B. assert (existsb (Z.eqb i) (map snd reg) = true); [|congruence].
  apply existsb_exists. exists i. split; [exact I|apply Z.eqb_refl].
Qed.
Lemma unused_None : forall reg, unused reg = None <-> full reg.
Proof.
  intros reg. unfold unused, full. split.
  - intros H i B. pose proof (find_none _ _ H i (proj2 (in_zrange 32 i) B)) as N. apply negb_false_iff in N.
    apply existsb_exists in N. destruct N as (k & I & E). apply Z.eqb_eq in E. subst k. apply in_map_iff in I.
    destruct I as ([n k] & <- & I). exists n. exact I.
  - intros H. destruct (find _ _) as [i|] eqn:E; [|reflexivity]. exfalso. apply unused_Some in E. destruct E as [B N].
    destruct (H i B) as [n I]. apply N. apply in_map_iff. exists (n, i). split; [reflexivity|exact I].
Qed.

Lemma sget_app : forall V k (d e : list (string * V)), sget k (d ++ e)%list = match sget k d with Some v => Some v | None => sget k e end.
Proof. intros V k d e. induction d as [|[a v] d IH]; cbn [List.app sget]; [reflexivity|]. destruct (String.eqb k a); [reflexivity|exact IH]. Qed.

Lemma In_sget : forall reg n i, table reg -> In (n, i) reg -> sget n reg = Some i.
Proof. intros reg n i [T _] I. apply sget_In_pair; [exact T|exact I]. Qed.

Lemma NoDup_app_one : forall A (l : list A) x, NoDup l -> ~ In x l -> NoDup (l ++ [x])%list.
Proof.
  intros A l x N H. induction N as [|a l Ha N IH]; cbn [List.app]; [constructor; [intros []|constructor]|]. constructor.
  - intros I. apply in_app_iff in I. destruct I as [I|[<-|[]]]; [contradiction|]. apply H. now left.
  - apply IH. intros I. apply H. now right.
Qed.

(** What adding a plane does. *)
Definition extends (reg reg' : registry) (name : string) : Prop :=
  table reg' /\ (forall n i, In (n, i) reg -> In (n, i) reg') /\
  (forall n i, In (n, i) reg' -> In (n, i) reg \/ n = name) /\ exists i, In (name, i) reg'.

Lemma add_ok : forall reg name reg', table reg -> add_plane reg name = Ok reg' -> extends reg reg' name.
Proof.
  intros reg name reg' T H. unfold add_plane in H. destruct (smem name (skeys reg)) eqn:E.
  - apply Ok_inj in H. subst reg'. split; [exact T|]. split; [auto|]. split; [auto|]. apply smem_In in E.
    unfold skeys in E. apply in_map_iff in E. destruct E as ([n i] & <- & I). exists i. exact I.
  - destruct (unused reg) as [i|] eqn:U; [|discriminate]. apply Ok_inj in H. subst reg'. apply unused_Some in U. destruct U as [B N].
    apply smem_false in E. destruct T as (T1 & T2 & T3). split; [split; [|split]|split; [|split]].
    + rewrite map_app. cbn [map fst]. apply NoDup_app_one; assumption.
    + rewrite map_app. cbn [map snd]. apply NoDup_app_one; assumption.
    + intros n k I. apply in_app_iff in I. destruct I as [I|[I|[]]]; [eauto|]. inversion I; subst; exact B.
    + intros n k I. apply in_app_iff. auto.
    + intros n k I. apply in_app_iff in I. destruct I as [I|[I|[]]]; [auto|]. inversion I; auto.
    + exists i. apply in_app_iff. right. now left.
Qed.
Lemma add_again : forall reg name, In name (map fst reg) -> add_plane reg name = Ok reg.
Proof. intros reg name I. unfold add_plane. apply smem_In in I. unfold skeys. rewrite I. reflexivity. Qed.
Lemma add_fails : forall reg name, (exists e, add_plane reg name = Raise e) <-> full reg /\ ~ In name (map fst reg).
Proof.
  intros reg name. unfold add_plane. destruct (smem name (skeys reg)) eqn:E.
  - apply smem_In in E. split; [intros [e H]; discriminate|intros [_ N]; elim N; exact E].
  - apply smem_false in E. destruct (unused reg) as [i|] eqn:U.
    + split; [intros [e H]; discriminate|]. intros [F _]. apply unused_None in F. congruence.
    + split; [|eauto]. intros _. apply unused_None in U. split; [exact U|exact E].
Qed.

(** ** Histories *)
Definition grows (reg reg' : registry) : Prop := table reg' /\ forall n i, In (n, i) reg -> In (n, i) reg'.
Lemma grows_refl : forall reg, table reg -> grows reg reg.
Proof. intros reg T. split; auto. Qed.
Lemma grows_trans : forall a b c, grows a b -> grows b c -> grows a c.
Proof. intros a b c [_ A] [T B]. split; auto. Qed.
Lemma adding_grows : forall A reg name (k : registry -> call A), table reg ->
  (forall reg', extends reg reg' name -> grows reg' (fst (k reg'))) -> grows reg (fst (adding reg name k)).
Proof.
  intros A reg name k T H. unfold adding. destruct (add_plane reg name) as [reg'|e] eqn:E; [|now apply grows_refl].
  pose proof (add_ok _ _ _ T E) as X. specialize (H _ X). destruct X as (T' & X & _). eapply grows_trans; [|exact H]. split; assumption.
Qed.
Lemma step_grows : forall reg o, table reg -> grows reg (step reg o).
Proof.
  intros reg o T. destruct o as [n| | |w|wcs xy0 info w]; cbn [step]; unfold get_stats_mask, get_detection_mask, edge_masks, bright_masks.
  5: { apply adding_grows; [exact T|]. intros reg' X. apply adding_grows; [apply X|]. intros reg'' Y. cbn [fst]. apply grows_refl. apply Y. }
  all: apply adding_grows; [exact T|]; intros reg' X; cbn [fst]; apply grows_refl; apply X.
Qed.
Lemma history_grows : forall l reg, table reg -> grows reg (history reg l).
Proof.
  induction l as [|o l IH]; intros reg T; [now apply grows_refl|]. unfold history. cbn [fold_left]. pose proof (step_grows reg o T) as G.
  eapply grows_trans; [exact G|]. apply IH. apply G.
Qed.

(** ** Bits *)
Lemma bit_mask_land : forall names reg m, table reg -> bit_mask reg names = Ok m ->
  forall v, Z.land v m <> 0 <-> left_out reg names v.
Proof.
  induction names as [|n r IH]; intros reg m T H v; cbn [bit_mask] in H.
  - apply Ok_inj in H. subst m. rewrite Z.land_0_r. split; [congruence|]. intros (k & [] & _).
  - destruct (sget n reg) as [i|] eqn:E; [|discriminate]. destruct (bit_mask reg r) as [m'|] eqn:Em; cbn [obind] in H; [|discriminate].
    apply Ok_inj in H. subst m. assert (I : In (n, i) reg) by (apply sget_In_pair; [apply T|exact E]).
    assert (B : 0 <= i < 32) by (destruct T as (_ & _ & T); exact (T n i I)).
    rewrite Z.land_lor_distr_r. rewrite Z.shiftl_mul_pow2, Z.mul_1_l by lia.
    assert (P : Z.land v (2 ^ i) <> 0 <-> Z.testbit v i = true).
    { split.
      - intros N. destruct (Z.testbit v i) eqn:Tb; [reflexivity|]. elim N. apply Z.bits_inj'. intros k Hk. rewrite Z.land_spec, Z.bits_0.
        rewrite Z.pow2_bits_eqb by lia. destruct (Z.eqb_spec i k) as [->|]; [rewrite Tb; reflexivity|apply andb_false_r].
      - intros Tb Z0. assert (X : Z.testbit (Z.land v (2 ^ i)) i = true) by (rewrite Z.land_spec, Tb, Z.pow2_bits_true by lia; reflexivity).
        rewrite Z0, Z.bits_0 in X. discriminate. }
    specialize (IH reg m' T Em v). split.
    + intros N. destruct (Z.testbit v i) eqn:Tb.
      * exists n. split; [now left|]. exists i. split; assumption.
      * assert (Z.land v m' <> 0).
        { intros Z0. apply N. rewrite Z0, Z.lor_0_r. destruct (Z.eq_dec (Z.land v (2 ^ i)) 0) as [|X]; [assumption|]. apply P in X. congruence. }
        apply IH in H. destruct H as (k & Ik & Pk). exists k. split; [now right|exact Pk].
    + intros (k & Ik & i' & Ii & Tb) Z0. apply Z.lor_eq_0_iff in Z0. destruct Z0 as [Z1 Z2]. destruct Ik as [<-|Ik].
      * assert (i' = i) by (apply In_sget in Ii; [|exact T]; congruence). subst i'. apply P in Tb. contradiction.
      * apply (proj2 IH); [|exact Z2]. exists k. split; [exact Ik|]. exists i'. split; assumption.
Qed.
Lemma bit_mask_ok : forall names reg, (forall n, In n names -> exists i, In (n, i) reg) -> exists m, bit_mask reg names = Ok m.
Proof.
  induction names as [|n r IH]; intros reg H; [exists 0; reflexivity|]. cbn [bit_mask]. destruct (H n (or_introl eq_refl)) as [i I].
  assert (exists j, sget n reg = Some j) as [j ->] by (apply sget_In; unfold skeys; apply in_map_iff; exists (n, i); auto).
  destruct (IH reg) as [m ->]; [intros k Ik; apply H; now right|]. eexists. reflexivity.
Qed.
Lemma bit_mask_one : forall reg n m, bit_mask reg [n] = Ok m -> exists i, sget n reg = Some i /\ m = Z.shiftl 1 i.
Proof.
  intros reg n m H. cbn [bit_mask] in H. destruct (sget n reg) as [i|]; [|discriminate]. cbn [obind] in H. apply Ok_inj in H. exists i.
  split; [reflexivity|]. rewrite Z.lor_0_r in H. auto.
Qed.

(** Adding the bit of a plane to a value. *)
Lemma left_out_lor : forall reg names v n i, table reg -> In (n, i) reg ->
  (left_out reg names (Z.lor v (Z.shiftl 1 i)) <-> left_out reg names v \/ In n names).
Proof.
  intros reg names v n i T I. assert (B : 0 <= i < 32) by (destruct T as (_ & _ & T); exact (T n i I)).
  assert (S : forall k, 0 <= k -> Z.testbit (Z.lor v (Z.shiftl 1 i)) k = Z.testbit v k || (i =? k)).
  { intros k Hk. rewrite Z.lor_spec. f_equal. rewrite Z.shiftl_mul_pow2, Z.mul_1_l by lia. apply Z.pow2_bits_eqb; lia. }
  split.
  - intros (m & Im & k & Ik & Tb). assert (0 <= k < 32) by (destruct T as (_ & _ & T); exact (T m k Ik)). rewrite S in Tb by lia.
    apply orb_true_iff in Tb. destruct Tb as [Tb|Tb]; [left; exists m; split; [exact Im|]; exists k; split; assumption|].
    apply Z.eqb_eq in Tb. subst k. right. assert (m = n); [|subst; exact Im].
    destruct T as (_ & T & _). clear -T I Ik. induction reg as [|[a b] reg IH]; [destruct I|]. cbn [map snd] in T. inversion T; subst.
    destruct I as [I|I], Ik as [Ik|Ik].
    + congruence.
    + inversion I; subst. elim H1. apply in_map_iff. exists (m, i). auto.
    + inversion Ik; subst. elim H1. apply in_map_iff. exists (n, i). auto.
    + auto.
  - intros [(m & Im & k & Ik & Tb)|In_].
    + assert (0 <= k < 32) by (destruct T as (_ & _ & T); exact (T m k Ik)). exists m. split; [exact Im|]. exists k. split; [exact Ik|].
      rewrite S by lia. rewrite Tb. reflexivity.
    + exists n. split; [exact In_|]. exists i. split; [exact I|]. rewrite S by lia. rewrite Z.eqb_refl. apply orb_true_r.
Qed.

(** ** The masks *)
Lemma grows_left_out : forall reg reg' names v, table reg -> grows reg reg' -> (forall n, In n names -> exists i, In (n, i) reg) ->
  (left_out reg' names v <-> left_out reg names v).
Proof.
  intros reg reg' names v T [T' G] H. split.
  - intros (n & In_ & i & I & B). exists n. split; [exact In_|]. exists i. split; [|exact B]. destruct (H n In_) as [k K].
    assert (i = k); [|subst; exact K]. apply G in K. apply In_sget in K; [|exact T']. apply In_sget in I; [|exact T']. congruence.
  - intros (n & In_ & i & I & B). exists n. split; [exact In_|]. exists i. split; auto.
Qed.
Lemma bright_ok : forall wcs xy0 info w reg reg1 w', table reg -> bright_masks wcs xy0 info w reg = (reg1, Ok w') ->
  grows reg reg1 /\ exists b x, In ("BRIGHT", b) reg1 /\ In ("BRIGHT_EXPANDED", x) reg1 /\
    apply_bright wcs xy0 info (Z.shiftl 1 b) (Z.shiftl 1 x) w = Ok w'.
Proof.
  intros wcs xy0 info w reg reg1 w' T H. unfold bright_masks, adding in H.
  destruct (add_plane reg "BRIGHT") as [r1|] eqn:E1; [|discriminate]. apply add_ok in E1; [|exact T].
  destruct (add_plane r1 "BRIGHT_EXPANDED") as [r2|] eqn:E2; [|discriminate]. apply add_ok in E2; [|apply E1].
  apply pair_equal_spec in H. destruct H as [-> H].
  destruct (bit_mask reg1 ["BRIGHT"]) as [b|] eqn:B; cbn [obind] in H; [|discriminate].
  destruct (bit_mask reg1 ["BRIGHT_EXPANDED"]) as [x|] eqn:X; cbn [obind] in H; [|discriminate].
  apply bit_mask_one in B. destruct B as (b' & B & ->). apply bit_mask_one in X. destruct X as (x' & X & ->).
  destruct E1 as (T1 & G1 & _). destruct E2 as (T2 & G2 & _). split; [split; [exact T2|auto]|]. exists b', x'.
  split; [apply sget_In_pair; [apply T2|exact B]|]. split; [apply sget_In_pair; [apply T2|exact X]|exact H].
Qed.
Lemma edge_ok : forall w reg reg1 w', table reg -> edge_masks w reg = (reg1, Ok w') ->
  grows reg reg1 /\ exists b, In ("APODIZED_EDGE", b) reg1 /\ apply_edge (Z.shiftl 1 b) w = Ok w'.
Proof.
  intros w reg reg1 w' T H. unfold edge_masks, adding in H.
  destruct (add_plane reg "APODIZED_EDGE") as [r1|] eqn:E1; [|discriminate]. apply add_ok in E1; [|exact T].
  apply pair_equal_spec in H. destruct H as [-> H].
  destruct (bit_mask reg1 ["APODIZED_EDGE"]) as [b|] eqn:B; cbn [obind] in H; [|discriminate].
  apply bit_mask_one in B. destruct B as (b' & B & ->). destruct E1 as (T1 & G1 & _). split; [split; assumption|]. exists b'.
  split; [apply sget_In_pair; [apply T1|exact B]|exact H].
Qed.

Lemma became_masked : forall r c a bit extra w w' e e', masked_world r c a bit extra w w' -> became w w' e e' -> masked_exp r c a bit extra e e'.
Proof.
  intros r c a bit extra w w' e e' M (band & I & B). destruct M as (M1 & M2 & _). destruct B as [[B1 B2]|(d & d' & D & D' & B1 & B2)].
  - destruct M1 as (_ & M1 & _). destruct (M1 band e I B1) as (x & Ex & Mx). congruence.
  - rewrite D, D' in M2. cbn [opt_rel] in M2. destruct M2 as (_ & M2 & _). destruct (M2 band e I B1) as (x & Ex & Mx). congruence.
Qed.
Lemma covers_dec : forall holes i j, (exists h, In h holes /\ covers h i j) \/ ~ (exists h, In h holes /\ covers h i j).
Proof.
  intros holes i j. induction holes as [|h l IH]; [right; intros (h & [] & _)|]. destruct IH as [(k & I & K)|N].
  - left. exists k. split; [now right|exact K].
  - destruct (Rlt_dec (dist h i j) (h_r h)) as [L|L].
    + left. exists h. split; [now left|exact L].
    + right. intros (k & [<-|I] & K); [exact (L K)|]. apply N. exists k. split; assumption.
Qed.

(** The bright object masks, for planes that are skipped with BRIGHT but without
    BRIGHT_EXPANDED. *)
Lemma bright_left_out : forall reg wcs xy0 info w r c reg1 w' names e e' i j, table reg -> (forall b, In b info -> (0 <= br_rad b)%R) ->
  world_ok r c w -> bright_masks wcs xy0 info w reg = (reg1, Ok w') -> In "BRIGHT" names -> ~ In "BRIGHT_EXPANDED" names ->
  became w w' e e' -> 0 <= i < r -> 0 <= j < c ->
  (left_out reg1 names (px (e_mask e') i j) <-> left_out reg1 names (px (e_mask e) i j) \/ in_circle wcs xy0 info i j).
Proof.
  intros reg wcs xy0 info w r c reg1 w' names e e' i j T Rd Ok_w H Nb Nx B Hi Hj.
  destruct (bright_ok _ _ _ _ _ _ _ T H) as [[T1 G] (b & x & Ib & Ix & A)].
  destruct (bright_spec wcs xy0 info (Z.shiftl 1 b) (Z.shiftl 1 x) r c w Rd Ok_w) as (w'' & extra & E & M & X).
  rewrite E in A. apply Ok_inj in A. subst w''. apply (became_masked _ _ _ _ _ _ _ _ _ M) in B. destruct B as [_ B].
  destruct (B i j Hi Hj) as (_ & B1 & B2).
  destruct (cat_factor_spec AP_RAD (map (local_hole wcs xy0) info) i j ap_rad_pos) as [_ Fc].
  assert (C : (cat_factor AP_RAD (map (local_hole wcs xy0) info) i j < 1)%R <-> in_circle wcs xy0 info i j).
  { rewrite Fc. unfold in_circle, covers, dist. split.
    - intros (h & Ih & L). apply in_map_iff in Ih. destruct Ih as (b0 & <- & Ih). exists b0. split; [exact Ih|]. exact L.
    - intros (b0 & Ih & L). exists (local_hole wcs xy0 b0). split; [apply in_map; exact Ih|]. exact L. }
  assert (Y : forall v, left_out reg1 names (Z.lor v (extra i j)) <-> left_out reg1 names v).
  { intros v. destruct (X i j Hi Hj) as [X1 X2].
    destruct (covers_dec (grow EXPAND_RAD (map (local_hole wcs xy0) info)) i j) as [N|N].
    - rewrite (X1 N). rewrite (left_out_lor reg1 names v "BRIGHT_EXPANDED" x T1 Ix). tauto.
    - rewrite (X2 N), Z.lor_0_r. tauto. }
  destruct (Rlt_dec (cat_factor AP_RAD (map (local_hole wcs xy0) info) i j) 1) as [L|L].
  - destruct (B1 L) as [_ ->]. rewrite Y, (left_out_lor reg1 names _ "BRIGHT" b T1 Ib). tauto.
  - destruct (B2 L) as [_ ->]. rewrite Y. tauto.
Qed.
(** The edge masks, for planes without APODIZED_EDGE. *)
Lemma edge_left_out : forall reg w r c reg1 w' names e e' i j, table reg -> world_ok r c w -> edge_masks w reg = (reg1, Ok w') ->
  ~ In "APODIZED_EDGE" names -> became w w' e e' -> 0 <= i < r -> 0 <= j < c ->
  (left_out reg1 names (px (e_mask e') i j) <-> left_out reg1 names (px (e_mask e) i j)).
Proof.
  intros reg w r c reg1 w' names e e' i j T Ok_w H Ne B Hi Hj. destruct (edge_ok _ _ _ _ T H) as [[T1 G] (b & Ib & A)].
  destruct (edge_spec r c (Z.shiftl 1 b) w Ok_w) as (w'' & E & M). rewrite E in A. apply Ok_inj in A. subst w''.
  apply (became_masked _ _ _ _ _ _ _ _ _ M) in B. destruct B as [_ B]. destruct (B i j Hi Hj) as (_ & B1 & B2).
  destruct (Rlt_dec (edge_factor AP_RAD r c i j) 1) as [L|L].
  - destruct (B1 L) as [_ ->]. rewrite Z.lor_0_r, (left_out_lor reg1 names _ "APODIZED_EDGE" b T1 Ib). tauto.
  - destruct (B2 L) as [_ ->]. rewrite Z.lor_0_r. tauto.
Qed.

(** Both lists of planes. *)
Definition mask_list (get : registry -> call (list string)) (names : list string) : Prop :=
  get = get_stats_mask /\ names = skipped_by_statistics \/ get = get_detection_mask /\ names = skipped_by_detection.
Lemma mask_list_call : forall get names reg, mask_list get names ->
  get reg = match add_plane reg "BRIGHT" with Ok reg' => (reg', Ok names) | Raise e => (reg, Raise e) end.
Proof. intros get names reg [[-> ->]|[-> ->]]; reflexivity. Qed.
Lemma mask_list_known : forall get names reg reg' out, mask_list get names -> table reg -> has_standard reg -> get reg = (reg', Ok out) ->
  out = names /\ extends reg reg' "BRIGHT" /\ forall n, In n names -> exists i, In (n, i) reg'.
Proof.
  intros get names reg reg' out L T S H. rewrite (mask_list_call _ _ _ L) in H. destruct (add_plane reg "BRIGHT") as [r|] eqn:E; [|discriminate].
  apply pair_equal_spec in H. destruct H as [-> H]. apply Ok_inj in H. subst out. split; [reflexivity|]. apply add_ok in E; [|exact T]. split; [exact E|].
  intros n I. destruct E as (T' & G & _ & Eb). assert (D : n = "BRIGHT" \/ In n ["BAD"; "EDGE"; "DETECTED"; "DETECTED_NEGATIVE"; "NO_DATA"]).
  { destruct L as [[_ ->]|[_ ->]]; unfold skipped_by_statistics, skipped_by_detection in I; cbn [In] in *; intuition auto. }
  destruct D as [->|D]; [exact Eb|]. destruct (S n D) as [i K]. exists i. auto.
Qed.
Lemma standard_grows : forall reg reg', has_standard reg -> grows reg reg' -> has_standard reg'.
Proof. intros reg reg' S [_ G] n I. destruct (S n I) as [i K]. exists i. auto. Qed.
