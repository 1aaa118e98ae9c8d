From Coq Require Import ZArith Reals List String Bool Lia Lra Permutation Btauto.
From Verif Require Import Base Arr Dict Masking_model Masking_spec Masking_proofs Mcomp_proofs Lmask_model Lmask_spec Lmask_proofs Lmask_props Lcomp_spec.
Import ListNotations.
Local Open Scope Z_scope.

(** ** A step told by three functions of the pixel *)
Definition told_exp (r c : Z) (A : Z -> Z -> R) (P : Z -> Z -> bool) (B : Z -> Z -> Z) (e e' : exposure) : Prop :=
  exp_shape r c e' /\ forall i j, 0 <= i < r -> 0 <= j < c ->
    px (e_image e') i j = (px (e_image e) i j * A i j)%R /\
    px (e_var e') i j = (if P i j then None else px (e_var e) i j) /\
    px (e_mask e') i j = Z.lor (px (e_mask e) i j) (B i j).
Definition told_mfrac (r c : Z) (P : Z -> Z -> bool) (m m' : img R) : Prop :=
  has_shape r c m' /\ forall i j, 0 <= i < r -> 0 <= j < c -> px m' i j = (if P i j then 1%R else px m i j).
Definition told_ormask (r c : Z) (B : Z -> Z -> Z) (m m' : img Z) : Prop :=
  has_shape r c m' /\ forall i j, 0 <= i < r -> 0 <= j < c -> px m' i j = Z.lor (px m i j) (B i j).
Definition told (r c : Z) A P B (w w' : world) : Prop :=
  let bands := skeys (w_exp w) in
  dict_rel bands (told_exp r c A P B) (w_exp w) (w_exp w') /\
  opt_rel (dict_rel bands (told_exp r c A P B)) (w_noise w) (w_noise w') /\
  opt_rel (dict_rel bands (told_mfrac r c P)) (w_mfrac w) (w_mfrac w') /\
  opt_rel (Forall2 (told_ormask r c B)) (w_ormasks w) (w_ormasks w').

Lemma dict_rel_weaken : forall V (S T : V -> V -> Prop) l a b, (forall x y, S x y -> T x y) -> dict_rel l S a b -> dict_rel l T a b.
Proof. intros V S T l a b H (K & X & O). split; [exact K|]. split; [|exact O]. intros k v Hk E. destruct (X k v Hk E) as (v' & E' & Y). exists v'. auto. Qed.
Lemma opt_rel_weaken : forall V (S T : V -> V -> Prop) a b, (forall x y, S x y -> T x y) -> opt_rel S a b -> opt_rel T a b.
Proof. intros V S T [a|] [b|] H; cbn; auto. Qed.
Lemma opt_rel_trans : forall V (S T U : V -> V -> Prop) a b c, (forall x y z, S x y -> T y z -> U x z) -> opt_rel S a b -> opt_rel T b c -> opt_rel U a c.
Proof. intros V S T U [a|] [b|] [c|] H; cbn; try tauto. apply H. Qed.
Lemma F2_weaken0 : forall A B (S T : A -> B -> Prop) l l', (forall x y, S x y -> T x y) -> Forall2 S l l' -> Forall2 T l l'.
Proof. intros A B S T l l' H F. induction F; constructor; auto. Qed.
Lemma F2_trans0 : forall A B C (S : A -> B -> Prop) (T : B -> C -> Prop) (U : A -> C -> Prop) l m n, (forall x y z, S x y -> T y z -> U x z) ->
  Forall2 S l m -> Forall2 T m n -> Forall2 U l n.
Proof. intros A B C S T U l m n H F. revert n. induction F; intros n G; inversion G; subst; constructor; eauto. Qed.


Definition below (a : Z -> Z -> R) (i j : Z) : bool := Rltb (a i j) 1.
Definition bits (a : Z -> Z -> R) (bit : Z) (extra : Z -> Z -> Z) (i j : Z) : Z := Z.lor (if below a i j then bit else 0) (extra i j).

Lemma told_of_masked : forall r c a bit extra w w', masked_world r c a bit extra w w' -> told r c a (below a) (bits a bit extra) w w'.
Proof.
  intros r c a bit extra w w' (H1 & H2 & H3 & H4).
  assert (E : forall x y, masked_exp r c a bit extra x y -> told_exp r c a (below a) (bits a bit extra) x y).
  { intros x y (S & Q). split; [exact S|]. intros i j Hi Hj. destruct (Q i j Hi Hj) as (I & L & N). split; [exact I|]. unfold bits, below.
    destruct (Rltb (a i j) 1) eqn:D.
    - apply Rltb_spec in D. destruct (L D) as [L1 L2]. split; [exact L1|]. rewrite L2, Z.lor_assoc. reflexivity.
    - assert (D' : ~ (a i j < 1)%R) by (intros X; apply Rltb_spec in X; congruence). destruct (N D') as [N1 N2]. split; [exact N1|]. rewrite N2. reflexivity. }
  split; [exact (dict_rel_weaken _ _ _ _ _ _ E H1)|]. split; [|split].
  - refine (opt_rel_weaken _ _ _ _ _ _ H2). intros x y. apply dict_rel_weaken. exact E.
  - refine (opt_rel_weaken _ _ _ _ _ _ H3). intros x y. apply dict_rel_weaken. intros m m' (S & Q). split; [exact S|]. intros i j Hi Hj.
    destruct (Q i j Hi Hj) as (L & N). unfold below. destruct (Rltb (a i j) 1) eqn:D; [apply L, Rltb_spec, D|].
    apply N. intros X. apply Rltb_spec in X. congruence.
  - refine (opt_rel_weaken _ _ _ _ _ _ H4). intros x y. apply F2_weaken0. intros m m' (S & Q). split; [exact S|]. intros i j Hi Hj.
    destruct (Q i j Hi Hj) as (L & N). unfold bits, below. destruct (Rltb (a i j) 1) eqn:D.
    + rewrite L by (apply Rltb_spec, D). rewrite Z.lor_assoc. reflexivity.
    + rewrite N by (intros X; apply Rltb_spec in X; congruence). reflexivity.
Qed.

Lemma told_chain : forall r c A P B A' P' B' w w1 w2, told r c A P B w w1 -> told r c A' P' B' w1 w2 ->
  told r c (fun i j => (A i j * A' i j)%R) (fun i j => P i j || P' i j) (fun i j => Z.lor (B i j) (B' i j)) w w2.
Proof.
  intros r c A P B A' P' B' w w1 w2 (H1 & H2 & H3 & H4) (G1 & G2 & G3 & G4). unfold told. rewrite (proj1 H1) in G1, G2, G3.
  assert (E : forall x y z, told_exp r c A P B x y -> told_exp r c A' P' B' y z ->
    told_exp r c (fun i j => (A i j * A' i j)%R) (fun i j => P i j || P' i j) (fun i j => Z.lor (B i j) (B' i j)) x z).
  { intros x y z (S & Q) (S' & Q'). split; [exact S'|]. intros i j Hi Hj. destruct (Q i j Hi Hj) as (I & V & M). destruct (Q' i j Hi Hj) as (I' & V' & M').
    rewrite I', V', M', I, V, M. split; [ring|]. split; [destruct (P i j), (P' i j); reflexivity|rewrite Z.lor_assoc; reflexivity]. }
  split; [exact (dict_rel_trans _ _ _ _ _ _ _ _ E H1 G1)|]. split; [|split].
  - refine (opt_rel_trans _ _ _ _ _ _ _ _ H2 G2). intros x y z. apply dict_rel_trans. exact E.
  - refine (opt_rel_trans _ _ _ _ _ _ _ _ H3 G3). intros x y z. apply dict_rel_trans. intros m m' m'' (S & Q) (S' & Q'). split; [exact S'|].
    intros i j Hi Hj. rewrite Q', Q by assumption. destruct (P i j), (P' i j); reflexivity.
  - refine (opt_rel_trans _ _ _ _ _ _ _ _ H4 G4). intros x y z. apply F2_trans0. intros m m' m'' (S & Q) (S' & Q'). split; [exact S'|].
    intros i j Hi Hj. rewrite Q', Q by assumption. rewrite Z.lor_assoc. reflexivity.
Qed.

(** Two results told by the same functions. *)
Lemma told_dicts : forall V (S T U : V -> V -> Prop) l (a b c : list (string * V)), (forall v, U v v) ->
  (forall x y z, S x y -> T x z -> U y z) -> dict_rel l S a b -> dict_rel l T a c -> same_dict U b c.
Proof.
  intros V S T U l a b c R H (K & X & O) (K' & X' & O'). split; [congruence|]. intros k v v' E E'.
  destruct (in_dec string_dec k l) as [I|N].
  - assert (Ka : In k (skeys a)) by (rewrite <- K; apply sget_In; eauto). apply sget_In in Ka. destruct Ka as [v0 E0].
    destruct (X k v0 I E0) as (v1 & E1 & S1). destruct (X' k v0 I E0) as (v2 & E2 & S2).
    assert (v1 = v) by congruence. assert (v2 = v') by congruence. subst. exact (H _ _ _ S1 S2).
  - rewrite O in E by exact N. rewrite O' in E' by exact N. assert (v = v') by congruence. subst. apply R.
Qed.
Lemma told_opts : forall V (S T U : V -> V -> Prop) a b c, (forall x y z, S x y -> T x z -> U y z) -> opt_rel S a b -> opt_rel T a c -> opt_rel U b c.
Proof. intros V S T U [a|] [b|] [c|] H; cbn; try tauto. apply H. Qed.
Lemma told_lists : forall V (S T U : V -> V -> Prop) a b c, (forall x y z, S x y -> T x z -> U y z) -> Forall2 S a b -> Forall2 T a c -> Forall2 U b c.
Proof. intros V S T U a b c H F. revert c. induction F; intros c G; inversion G; subst; constructor; eauto. Qed.

Lemma same_plane_refl : forall A (m : img A), same_plane m m.
Proof. intros A m. split; [reflexivity|]. split; reflexivity. Qed.
Lemma plane_by : forall A r c (m m' : img A), has_shape r c m -> has_shape r c m' -> (forall i j, 0 <= i < r -> 0 <= j < c -> px m i j = px m' i j) -> same_plane m m'.
Proof. intros A r c m m' [H1 H2] [H3 H4] E. split; [congruence|]. split; [congruence|]. intros i j [Hi Hj]. apply E; congruence. Qed.

Lemma told_same_but : forall (at_ : Z -> Z -> Prop) r c A P B A' P' B' w w1 w2, told r c A P B w w1 -> told r c A' P' B' w w2 ->
  (forall i j, 0 <= i < r -> 0 <= j < c -> (~ at_ i j -> A i j = A' i j) /\ P i j = P' i j /\ B i j = B' i j) -> same_world_but at_ w1 w2.
Proof.
  intros at_ r c A P B A' P' B' w w1 w2 (H1 & H2 & H3 & H4) (G1 & G2 & G3 & G4) Q.
  assert (E : forall x y z, told_exp r c A P B x y -> told_exp r c A' P' B' x z -> same_exp_but at_ y z).
  { intros x y z ((S1 & S2 & S3) & K) ((S1' & S2' & S3') & K'). split; [destruct S1, S1'; congruence|]. split; [destruct S1, S1'; congruence|]. split; [|split].
    - intros i j [Hi Hj] N. destruct S1 as [N1 N2]. rewrite N1 in Hi. rewrite N2 in Hj.
      destruct (K i j Hi Hj) as (I & _). destruct (K' i j Hi Hj) as (I' & _). destruct (Q i j Hi Hj) as (A1 & _). rewrite I, I', (A1 N). reflexivity.
    - apply (plane_by _ r c _ _ S2 S2'). intros i j Hi Hj. destruct (K i j Hi Hj) as (_ & I & _). destruct (K' i j Hi Hj) as (_ & I' & _). destruct (Q i j Hi Hj) as (_ & A1 & _). rewrite I, I', A1. reflexivity.
    - apply (plane_by _ r c _ _ S3 S3'). intros i j Hi Hj. destruct (K i j Hi Hj) as (_ & _ & I). destruct (K' i j Hi Hj) as (_ & _ & I'). destruct (Q i j Hi Hj) as (_ & _ & A1). rewrite I, I', A1. reflexivity. }
  assert (Er : forall e, same_exp_but at_ e e) by (intros e; repeat split; auto).
  split; [exact (told_dicts _ _ _ _ _ _ _ _ Er E H1 G1)|]. split; [|split].
  - refine (told_opts _ _ _ _ _ _ _ _ H2 G2). intros x y z. apply told_dicts; assumption.
  - refine (told_opts _ _ _ _ _ _ _ _ H3 G3). intros x y z. apply told_dicts; [apply same_plane_refl|]. intros m m' m'' (S & K) (S' & K').
    apply (plane_by _ r c _ _ S S'). intros i j Hi Hj. rewrite K, K' by assumption. destruct (Q i j Hi Hj) as (_ & A1 & _). rewrite A1. reflexivity.
  - refine (told_opts _ _ _ _ _ _ _ _ H4 G4). intros x y z. apply told_lists. intros m m' m'' (S & K) (S' & K').
    apply (plane_by _ r c _ _ S S'). intros i j Hi Hj. rewrite K, K' by assumption. destruct (Q i j Hi Hj) as (_ & _ & A1). rewrite A1. reflexivity.
Qed.
Lemma same_but_none : forall w w', same_world_but (fun _ _ => False) w w' -> same_world w w'.
Proof.
  assert (E : forall e e', same_exp_but (fun _ _ => False) e e' -> same_exp e e').
  { intros e e' (N1 & N2 & I & V & M). split; [|split; assumption]. split; [exact N1|]. split; [exact N2|]. intros i j H. apply I; auto. }
  assert (D : forall d d', same_dict (same_exp_but (fun _ _ => False)) d d' -> same_dict same_exp d d').
  { intros d d' (K & X). split; [exact K|]. intros k v v' H H'. apply E. exact (X k v v' H H'). }
  intros w w' (H1 & H2 & H3 & H4). split; [exact (D _ _ H1)|]. split; [|split; assumption]. exact (opt_rel_weaken _ _ _ _ _ D H2).
Qed.

(** ** The steps *)
Lemma near_dec : forall extra wcs xy0 info i j, within_circle extra wcs xy0 info i j \/ ~ within_circle extra wcs xy0 info i j.
Proof.
  intros extra wcs xy0 info i j. induction info as [|b info IH].
  - right. intros (b & [] & _).
  - destruct (Rlt_dec (dist (circle_of wcs xy0 b) i j) (br_rad b + extra)) as [L|L].
    + left. exists b. split; [left; reflexivity|exact L].
    + destruct IH as [(b' & Hb & L')|N]; [left; exists b'; split; [right; exact Hb|exact L']|]. right. intros (b' & [<-|Hb] & L'); [exact (L L')|].
      apply N. exists b'. auto.
Qed.
Lemma edge_step : forall r c edge w, world_ok r c w -> exists w', apply_edge edge w = Ok w' /\ world_ok r c w' /\
  told r c (edge_factor (3 / 2) r c) (below (edge_factor (3 / 2) r c)) (bits (edge_factor (3 / 2) r c) edge (fun _ _ => 0)) w w'.
Proof.
  intros r c edge w H. destruct (C66_edge r c edge w H) as (w' & E & M). exists w'. split; [exact E|]. split; [exact (masked_world_ok _ _ _ _ _ _ _ H M)|].
  exact (told_of_masked _ _ _ _ _ _ _ M).
Qed.
Lemma bright_step : forall wcs xy0 info bright be r c w, (forall b, In b info -> (0 <= br_rad b)%R) -> world_ok r c w ->
  exists w' extra, apply_bright wcs xy0 info bright be w = Ok w' /\ world_ok r c w' /\
    told r c (cat_factor (3 / 2) (map (circle_of wcs xy0) info)) (below (cat_factor (3 / 2) (map (circle_of wcs xy0) info)))
      (bits (cat_factor (3 / 2) (map (circle_of wcs xy0) info)) bright extra) w w' /\
    forall i j, 0 <= i < r -> 0 <= j < c ->
      (within_circle 16 wcs xy0 info i j -> extra i j = be) /\ (~ within_circle 16 wcs xy0 info i j -> extra i j = 0).
Proof.
  intros wcs xy0 info bright be r c w Hr H. destruct (C66_bright wcs xy0 info bright be r c w Hr H) as (w' & extra & E & M & X).
  exists w', extra. split; [exact E|]. split; [exact (masked_world_ok _ _ _ _ _ _ _ H M)|]. split; [exact (told_of_masked _ _ _ _ _ _ _ M)|exact X].
Qed.

Lemma either_order : forall wcs xy0 info edge bright be r c w, (forall b, In b info -> (0 <= br_rad b)%R) -> world_ok r c w ->
  exists w1 w2 v1 v2, apply_edge edge w = Ok w1 /\ apply_bright wcs xy0 info bright be w1 = Ok w2 /\
    apply_bright wcs xy0 info bright be w = Ok v1 /\ apply_edge edge v1 = Ok v2 /\ same_world w2 v2.
Proof.
  intros wcs xy0 info edge bright be r c w Hr H.
  destruct (edge_step r c edge w H) as (w1 & E1 & K1 & T1). destruct (bright_step wcs xy0 info bright be r c w1 Hr K1) as (w2 & x2 & E2 & _ & T2 & X2).
  destruct (bright_step wcs xy0 info bright be r c w Hr H) as (v1 & y1 & F1 & L1 & U1 & Y1). destruct (edge_step r c edge v1 L1) as (v2 & F2 & _ & U2).
  exists w1, w2, v1, v2. split; [exact E1|]. split; [exact E2|]. split; [exact F1|]. split; [exact F2|].
  apply same_but_none. refine (told_same_but _ r c _ _ _ _ _ _ w w2 v2 (told_chain _ _ _ _ _ _ _ _ _ _ _ T1 T2) (told_chain _ _ _ _ _ _ _ _ _ _ _ U1 U2) _).
  intros i j Hi Hj. split; [intros _; ring|]. split; [apply orb_comm|].
  assert (E : x2 i j = y1 i j).
  { destruct (X2 i j Hi Hj) as [A1 A2]. destruct (Y1 i j Hi Hj) as [B1 B2]. destruct (near_dec 16 wcs xy0 info i j) as [D|D]; [rewrite A1, B1 by exact D|rewrite A2, B2 by exact D]; reflexivity. }
  unfold bits. rewrite E. apply Z.bits_inj. intros n. rewrite !Z.lor_spec, Z.bits_0. btauto.
Qed.

Lemma within_app : forall extra wcs xy0 l1 l2 i j, within_circle extra wcs xy0 (l1 ++ l2) i j <-> within_circle extra wcs xy0 l1 i j \/ within_circle extra wcs xy0 l2 i j.
Proof.
  intros extra wcs xy0 l1 l2 i j. split.
  - intros (b & Hb & L). apply in_app_or in Hb. destruct Hb as [Hb|Hb]; [left|right]; exists b; auto.
  - intros [(b & Hb & L)|(b & Hb & L)]; exists b; (split; [apply in_or_app; auto|exact L]).
Qed.
Lemma cat_app : forall h l1 l2 i j, cat_factor h (l1 ++ l2) i j = (cat_factor h l1 i j * cat_factor h l2 i j)%R.
Proof. intros h l1 l2 i j. unfold cat_factor. rewrite !map_app, !rprod_app. reflexivity. Qed.
Lemma below_mul : forall a b : R, (0 <= a <= 1)%R -> (0 <= b <= 1)%R -> Rltb (a * b) 1 = Rltb a 1 || Rltb b 1.
Proof.
  intros a b Ha Hb. apply eq_true_iff_eq. rewrite orb_true_iff, !Rltb_spec. split.
  - intros H. destruct (Rlt_dec a 1) as [L|L]; [left; exact L|]. right. assert (a = 1%R) by lra. subst a. lra.
  - intros [L|L]; nra.
Qed.

Lemma two_lists : forall wcs xy0 l1 l2 bright be r c w, (forall b, In b (l1 ++ l2) -> (0 <= br_rad b)%R) -> world_ok r c w ->
  exists w1 w2 v, apply_bright wcs xy0 l1 bright be w = Ok w1 /\ apply_bright wcs xy0 l2 bright be w1 = Ok w2 /\
    apply_bright wcs xy0 (l1 ++ l2) bright be w = Ok v /\ same_world w2 v.
Proof.
  intros wcs xy0 l1 l2 bright be r c w Hr H.
  destruct (bright_step wcs xy0 l1 bright be r c w) as (w1 & x1 & E1 & K1 & T1 & X1); [intros b Hb; apply Hr, in_or_app; auto|exact H|].
  destruct (bright_step wcs xy0 l2 bright be r c w1) as (w2 & x2 & E2 & _ & T2 & X2); [intros b Hb; apply Hr, in_or_app; auto|exact K1|].
  destruct (bright_step wcs xy0 (l1 ++ l2) bright be r c w Hr H) as (v & y & F & _ & U & Y).
  exists w1, w2, v. split; [exact E1|]. split; [exact E2|]. split; [exact F|].
  apply same_but_none. refine (told_same_but _ r c _ _ _ _ _ _ w w2 v (told_chain _ _ _ _ _ _ _ _ _ _ _ T1 T2) U _).
  intros i j Hi Hj. rewrite !map_app.
  pose proof (cat_factor_spec (3 / 2) (map (circle_of wcs xy0) l1) i j ltac:(lra)) as [R1 _]. pose proof (cat_factor_spec (3 / 2) (map (circle_of wcs xy0) l2) i j ltac:(lra)) as [R2 _].
  split; [intros _; symmetry; apply cat_app|]. unfold bits, below. rewrite cat_app, (below_mul _ _ R1 R2). split; [reflexivity|].
  assert (E : y i j = Z.lor (x1 i j) (x2 i j)).
  { destruct (X1 i j Hi Hj) as [A1 A2]. destruct (X2 i j Hi Hj) as [B1 B2]. destruct (Y i j Hi Hj) as [C1 C2]. rewrite within_app in C1, C2.
    destruct (near_dec 16 wcs xy0 l1 i j) as [D1|D1]; destruct (near_dec 16 wcs xy0 l2 i j) as [D2|D2].
    - rewrite C1, A1, B1 by auto. rewrite Z.lor_diag. reflexivity.
    - rewrite C1, A1, B2 by auto. rewrite Z.lor_0_r. reflexivity.
    - rewrite C1, A2, B1 by auto. reflexivity.
    - rewrite C2, A2, B2 by tauto. reflexivity. }
  rewrite E. destruct (Rltb (cat_factor (3 / 2) (map (circle_of wcs xy0) l1) i j) 1), (Rltb (cat_factor (3 / 2) (map (circle_of wcs xy0) l2) i j) 1); cbn [orb];
    apply Z.bits_inj; intros n; rewrite ?Z.lor_spec, ?Z.bits_0; btauto.
Qed.

Lemma list_order : forall wcs xy0 l1 l2 bright be r c w, (forall b, In b l1 -> (0 <= br_rad b)%R) -> world_ok r c w -> Permutation l1 l2 ->
  exists w1 w2, apply_bright wcs xy0 l1 bright be w = Ok w1 /\ apply_bright wcs xy0 l2 bright be w = Ok w2 /\ same_world w1 w2.
Proof.
  intros wcs xy0 l1 l2 bright be r c w Hr H Hp.
  destruct (bright_step wcs xy0 l1 bright be r c w Hr H) as (w1 & x1 & E1 & _ & T1 & X1).
  destruct (bright_step wcs xy0 l2 bright be r c w) as (w2 & x2 & E2 & _ & T2 & X2); [intros b Hb; apply Hr; exact (Permutation_in b (Permutation_sym Hp) Hb)|exact H|].
  exists w1, w2. split; [exact E1|]. split; [exact E2|]. apply same_but_none. refine (told_same_but _ r c _ _ _ _ _ _ w w1 w2 T1 T2 _).
  intros i j Hi Hj.
  assert (A : cat_factor (3 / 2) (map (circle_of wcs xy0) l1) i j = cat_factor (3 / 2) (map (circle_of wcs xy0) l2) i j).
  { clear -Hp. induction Hp; [reflexivity| | |congruence].
    - change (x :: l) with ([x] ++ l). change (x :: l') with ([x] ++ l'). rewrite !map_app, !cat_app, IHHp. reflexivity.
    - change (y :: x :: l) with ([y] ++ [x] ++ l). change (x :: y :: l) with ([x] ++ [y] ++ l). rewrite !map_app, !cat_app. ring. }
  assert (B : within_circle 16 wcs xy0 l1 i j <-> within_circle 16 wcs xy0 l2 i j).
  { split; intros (b & Hb & L); exists b; (split; [|exact L]); [exact (Permutation_in b Hp Hb)|exact (Permutation_in b (Permutation_sym Hp) Hb)]. }
  unfold bits, below. rewrite A. split; [reflexivity|]. split; [reflexivity|]. f_equal.
  destruct (X1 i j Hi Hj) as [A1 A2]. destruct (X2 i j Hi Hj) as [B1 B2].
  destruct (near_dec 16 wcs xy0 l1 i j) as [D|D]; [rewrite A1 by exact D; rewrite B1 by tauto|rewrite A2 by exact D; rewrite B2 by tauto]; reflexivity.
Qed.

Lemma edge_again : forall edge r c w, world_ok r c w ->
  exists w1 w2, apply_edge edge w = Ok w1 /\ apply_edge edge w1 = Ok w2 /\ same_world_but (fun i j => edge_distance r c i j < 9) w1 w2.
Proof.
  intros edge r c w H. destruct (edge_step r c edge w H) as (w1 & E1 & K1 & T1). destruct (edge_step r c edge w1 K1) as (w2 & E2 & _ & T2).
  exists w1, w2. split; [exact E1|]. split; [exact E2|].
  refine (told_same_but _ r c _ _ _ _ _ _ w w1 w2 T1 (told_chain _ _ _ _ _ _ _ _ _ _ _ T1 T2) _).
  intros i j Hi Hj. destruct (C66_edge_where r c i j Hi Hj) as [R W]. split.
  - intros N. assert (L : ~ (edge_factor (3 / 2) r c i j < 1)%R) by (intros X; apply W in X; tauto).
    assert (E : edge_factor (3 / 2) r c i j = 1%R) by lra. rewrite E. lra.
  - split; [destruct (below _ i j); reflexivity|rewrite Z.lor_diag; reflexivity].
Qed.
Lemma bright_again : forall wcs xy0 info bright be r c w, (forall b, In b info -> (0 <= br_rad b)%R) -> world_ok r c w ->
  exists w1 w2, apply_bright wcs xy0 info bright be w = Ok w1 /\ apply_bright wcs xy0 info bright be w1 = Ok w2 /\
    same_world_but (within_circle 0 wcs xy0 info) w1 w2.
Proof.
  intros wcs xy0 info bright be r c w Hr H. destruct (bright_step wcs xy0 info bright be r c w Hr H) as (w1 & x1 & E1 & K1 & T1 & X1).
  destruct (bright_step wcs xy0 info bright be r c w1 Hr K1) as (w2 & x2 & E2 & _ & T2 & X2).
  exists w1, w2. split; [exact E1|]. split; [exact E2|].
  refine (told_same_but _ r c _ _ _ _ _ _ w w1 w2 T1 (told_chain _ _ _ _ _ _ _ _ _ _ _ T1 T2) _).
  intros i j Hi Hj. destruct (C66_bright_where wcs xy0 info i j) as [R W]. split.
  - intros N. assert (L : ~ (cat_factor (3 / 2) (map (circle_of wcs xy0) info) i j < 1)%R).
    { intros X. apply W in X. destruct X as (b & Hb & X). apply N. exists b. split; [exact Hb|]. rewrite Rplus_0_r. exact X. }
    assert (E : cat_factor (3 / 2) (map (circle_of wcs xy0) info) i j = 1%R) by lra. rewrite E. lra.
  - split; [destruct (below _ i j); reflexivity|].
    assert (E : x2 i j = x1 i j).
    { destruct (X1 i j Hi Hj) as [A1 A2]. destruct (X2 i j Hi Hj) as [B1 B2]. destruct (near_dec 16 wcs xy0 info i j) as [D|D]; [rewrite A1, B1 by exact D|rewrite A2, B2 by exact D]; reflexivity. }
    unfold bits. rewrite E. rewrite Z.lor_diag. reflexivity.
Qed.
