From Coq Require Import ZArith Reals QArith Qreals List Lia Lra Permutation.
From Flocq Require Import Core Relative Plus_error.
From Verif Require Import Median Fp_model Fp_spec Fp_proofs Fpe_model Fpe_spec.
Import ListNotations.
Local Open Scope Z_scope.
Local Open Scope R_scope.

Section Err.
Variable f : fmt.
Notation u := (unit_roundoff f).
Notation eta := (least f / 2).
Definition g (k : nat) : R := (1 + u) ^ k.

Lemma u_pos : 0 < u. Proof. apply bpow_gt_0. Qed.
Lemma least_pos : 0 < least f. Proof. apply bpow_gt_0. Qed.
Lemma u_ro_u : u_ro radix2 (Zpos (f_prec f)) = u.
Proof.
  unfold u_ro, unit_roundoff. rewrite bpow_plus. change (bpow radix2 1) with 2. field.
Qed.
Lemma g_ge_1 : forall k, 1 <= g k.
Proof. intro k. apply pow_R1_Rle. pose proof u_pos. lra. Qed.
Lemma g_S : forall k, g (S k) = g k * (1 + u).
Proof. intro k. unfold g. cbn [pow]. ring. Qed.
Lemma g_add : forall j k, g (j + k) = g j * g k.
Proof. intros. apply pow_add. Qed.
Lemma g_mono : forall j k, (j <= k)%nat -> g j <= g k.
Proof. intros j k H. apply Rle_pow; [pose proof u_pos; lra|exact H]. Qed.
Lemma g_bernoulli : forall k, g k * (1 - INR k * u) <= 1.
Proof.
  induction k as [|k IH]; [unfold g; cbn; lra|]. rewrite g_S, S_INR. pose proof u_pos. pose proof (g_ge_1 k). pose proof (pos_INR k).
  apply Rle_trans with (g k * (1 - INR k * u)); [|exact IH].
  replace (g k * (1 + u) * (1 - (INR k + 1) * u)) with (g k * (1 - INR k * u) - g k * (u * u) * (INR k + 1)) by ring.
  assert (0 <= g k * (u * u) * (INR k + 1)) by (apply Rmult_le_pos; [apply Rmult_le_pos; [lra|nra]|lra]). lra.
Qed.
Lemma g_small : forall k, INR k * u <= / 2 -> g k <= 2 /\ g k - 1 <= 2 * INR k * u.
Proof.
  intros k H. pose proof (g_bernoulli k) as B. pose proof (g_ge_1 k). assert (G : g k <= 2) by nra. split; [exact G|].
  assert (0 <= INR k * u) by (apply Rmult_le_pos; [apply pos_INR|pose proof u_pos; lra]). nra.
Qed.

(** ** One rounding *)
Definition btw (j : nat) (x y : R) : Prop := x <= y * g j /\ y <= x * g j.
Lemma eps_btw : forall e x, 0 <= x -> Rabs e <= u / (1 + u) -> btw 1 x (x * (1 + e)).
Proof.
  intros e x Hx He. pose proof u_pos as Hu. apply Rabs_le_inv in He. unfold btw, g. rewrite pow_1.
  assert (E : u / (1 + u) * (1 + u) = u) by (field; lra).
  assert (E2 : u / (1 + u) <= u). { apply Rmult_le_reg_r with (1 + u); [lra|]. rewrite E. nra. }
  split.
  - assert (1 <= (1 + e) * (1 + u)) by nra. nra.
  - apply Rmult_le_compat_l; lra.
Qed.
Lemma fl_plus_btw : forall a b, number_of f a -> number_of f b -> 0 <= a + b -> btw 1 (a + b) (fl f (a + b)).
Proof.
  intros a b A B P. apply format_number in A. apply format_number in B.
  destruct (FLT_plus_error_N_ex radix2 (Zneg (f_tiny f)) (Zpos (f_prec f)) (fun x => negb (Z.even x)) a b A B) as (e & E & H).
  unfold fl. rewrite H. apply eps_btw; [exact P|]. now rewrite u_ro_u in E.
Qed.
Lemma fl_plus_err : forall a b, number_of f a -> number_of f b -> Rabs (fl f (a + b) - (a + b)) <= u * Rabs (a + b).
Proof.
  intros a b A B. apply format_number in A. apply format_number in B.
  destruct (FLT_plus_error_N_ex radix2 (Zneg (f_tiny f)) (Zpos (f_prec f)) (fun x => negb (Z.even x)) a b A B) as (e & E & H).
  unfold fl. rewrite H. rewrite u_ro_u in E. pose proof u_pos as Hu.
  assert (E2 : u / (1 + u) <= u). { apply Rmult_le_reg_r with (1 + u); [lra|]. unfold Rdiv. rewrite Rmult_assoc, Rinv_l by lra. nra. }
  replace ((a + b) * (1 + e) - (a + b)) with (e * (a + b)) by ring. rewrite Rabs_mult. apply Rmult_le_compat_r; [apply Rabs_pos|lra].
Qed.
Definition normal (x : R) : Prop := bpow radix2 (Zneg (f_tiny f) + Zpos (f_prec f) - 1) <= Rabs x.
Lemma fl_normal_btw : forall x, 0 <= x -> normal x -> btw 1 x (fl f x).
Proof.
  intros x Hx N.
  destruct (relative_error_N_FLX'_ex radix2 (Zpos (f_prec f)) eq_refl (fun x => negb (Z.even x)) x) as (e & E & H).
  unfold fl. rewrite round_FLT_FLX by exact N. rewrite H. apply eps_btw; [exact Hx|]. now rewrite u_ro_u in E.
Qed.
Lemma fl_any : forall x, Rabs (fl f x - x) <= u * Rabs x + eta.
Proof.
  intro x. destruct (error_N_FLT radix2 (Zneg (f_tiny f)) (Zpos (f_prec f)) eq_refl (fun x => negb (Z.even x)) x) as (e & t & E & T & _ & H).
  unfold fl. rewrite H. fold (u_ro radix2 (Zpos (f_prec f))) in E. rewrite u_ro_u in E.
  replace (x * (1 + e) + t - x) with (e * x + t) by ring. eapply Rle_trans; [apply Rabs_triang|]. rewrite Rabs_mult.
  apply Rplus_le_compat; [apply Rmult_le_compat_r; [apply Rabs_pos|exact E]|]. unfold least in *. lra.
Qed.

(** ** Positive quantities *)
Lemma btw_refl : forall x, btw 0 x x. Proof. intro x. unfold btw, g. cbn. lra. Qed.
Lemma btw_pos : forall j x y, btw j x y -> 0 < x -> 0 < y.
Proof. intros j x y [A B] H. pose proof (g_ge_1 j). nra. Qed.
Lemma btw_trans : forall j k x y z, btw j x y -> btw k y z -> btw (j + k) x z.
Proof.
  intros j k x y z [A B] [C D]. unfold btw. rewrite g_add. pose proof (g_ge_1 j). pose proof (g_ge_1 k). split; nra.
Qed.
Lemma btw_mono : forall j k x y, (j <= k)%nat -> 0 <= x -> btw j x y -> btw k x y.
Proof. intros j k x y H Hx [A B]. pose proof (g_mono j k H). pose proof (g_ge_1 j). unfold btw. assert (0 <= y) by nra. split; nra. Qed.
Lemma btw_plus : forall j x y x' y', btw j x y -> btw j x' y' -> btw j (x + x') (y + y').
Proof. intros j x y x' y' [A B] [C D]. unfold btw. split; nra. Qed.
Lemma btw_mult : forall j k x y x' y', 0 < x -> 0 < x' -> btw j x y -> btw k x' y' -> btw (j + k) (x * x') (y * y').
Proof.
  intros j k x y x' y' P P' H H'. pose proof (btw_pos _ _ _ H P). pose proof (btw_pos _ _ _ H' P'). destruct H as [A B], H' as [C D].
  unfold btw. rewrite g_add. pose proof (g_ge_1 j). pose proof (g_ge_1 k). split.
  - replace (y * y' * (g j * g k)) with ((y * g j) * (y' * g k)) by ring. apply Rmult_le_compat; lra.
  - replace (x * x' * (g j * g k)) with ((x * g j) * (x' * g k)) by ring. apply Rmult_le_compat; lra.
Qed.
Lemma btw_inv : forall j x y, 0 < x -> btw j x y -> btw j (/ x) (/ y).
Proof.
  intros j x y P H. pose proof (btw_pos _ _ _ H P) as Py. destruct H as [A B]. pose proof (g_ge_1 j). split.
  - apply Rmult_le_reg_r with (x * y); [nra|]. replace (/ x * (x * y)) with y by (field; lra). replace (/ y * g j * (x * y)) with (x * g j) by (field; lra). exact B.
  - apply Rmult_le_reg_r with (x * y); [nra|]. replace (/ y * (x * y)) with x by (field; lra). replace (/ x * g j * (x * y)) with (y * g j) by (field; lra). exact A.
Qed.
Lemma btw_div : forall j k x y x' y', 0 < x -> 0 < x' -> btw j x y -> btw k x' y' -> btw (j + k) (x / x') (y / y').
Proof. intros. apply btw_mult; [assumption|now apply Rinv_0_lt_compat|assumption|now apply btw_inv]. Qed.
Lemma btw_fl : forall j x y, 0 < x -> btw j x y -> normal y -> btw (S j) x (fl f y).
Proof.
  intros j x y P H N. rewrite <- Nat.add_1_r. apply (btw_trans _ _ _ y); [exact H|]. apply fl_normal_btw; [|exact N].
  left. now apply (btw_pos _ _ _ H).
Qed.
Lemma btw_rsum : forall A (p q : A -> R) j l, (forall a, In a l -> btw j (p a) (q a)) -> btw j (rsum (map p l)) (rsum (map q l)).
Proof.
  intros A p q j l H. induction l as [|a l IH]; cbn [map rsum fold_right]; [unfold btw; lra|].
  apply btw_plus; [apply H; now left|]. apply IH. intros b I. apply H. now right.
Qed.
Lemma rsum_app : forall a b, rsum (a ++ b) = rsum a + rsum b.
Proof. induction a as [|x a IH]; intro b; unfold rsum in *; cbn [fold_right app]; [lra|]. rewrite IH. lra. Qed.
Lemma rsum_perm : forall a b, Permutation a b -> rsum a = rsum b.
Proof. intros a b P. induction P; cbn [rsum fold_right] in *; unfold rsum in *; lra. Qed.
Lemma rsum_nonneg : forall l, Forall (fun w => 0 <= w) l -> 0 <= rsum l.
Proof. intros l H. induction H; cbn [rsum fold_right]; unfold rsum in *; lra. Qed.
Lemma rsum_pos : forall l, l <> [] -> Forall (fun w => 0 < w) l -> 0 < rsum l.
Proof.
  intros l N H. destruct H as [|x l Hx H]; [congruence|]. cbn [rsum fold_right].
  assert (0 <= rsum l) by (apply rsum_nonneg; eapply Forall_impl; [|exact H]; intros; cbn in *; lra). unfold rsum in *. lra.
Qed.
Lemma rsum_scale : forall A (p : A -> R) c l, rsum (map (fun a => p a * c) l) = rsum (map p l) * c.
Proof. intros. induction l as [|a l IH]; cbn [map rsum fold_right]; [ring|]. unfold rsum in *. rewrite IH. ring. Qed.
Lemma rsum_div : forall A (p : A -> R) c l, rsum (map (fun a => p a / c) l) = rsum (map p l) / c.
Proof. intros. unfold Rdiv. apply rsum_scale. Qed.
Lemma rsum_const : forall A (c : R) (l : list A), rsum (map (fun _ => c) l) = INR (List.length l) * c.
Proof. intros. induction l as [|a l IH]; [cbn; ring|]. cbn [map rsum fold_right List.length]. rewrite S_INR. unfold rsum in *. rewrite IH. ring. Qed.
Lemma rsum_le : forall A (p q : A -> R) l, (forall a, In a l -> p a <= q a) -> rsum (map p l) <= rsum (map q l).
Proof.
  intros A p q l H. induction l as [|a l IH]; cbn [map rsum fold_right]; [lra|].
  apply Rplus_le_compat; [apply H; now left|]. apply IH. intros; apply H; now right.
Qed.
Lemma rsum_abs : forall A (p q : A -> R) l, (forall a, In a l -> Rabs (p a) <= q a) -> Rabs (rsum (map p l)) <= rsum (map q l).
Proof.
  intros A p q l H. induction l as [|a l IH]; cbn [map rsum fold_right]; [rewrite Rabs_R0; lra|].
  eapply Rle_trans; [apply Rabs_triang|]. apply Rplus_le_compat; [apply H; now left|]. apply IH. intros; apply H; now right.
Qed.

(** Sums in the order of the list and in any order. *)
Lemma fold_btw : forall l a, number_of f a -> 0 <= a -> Forall (fun w => number_of f w /\ 0 <= w) l ->
  btw (List.length l) (a + rsum l) (fold_left (fun a x => fl f (a + x)) l a).
Proof.
  induction l as [|x l IH]; intros a N P H; cbn [fold_left rsum fold_right List.length]; [rewrite Rplus_0_r; apply btw_refl|].
  inversion H as [|? ? [Nx Px] H']; subst.
  assert (B : btw 1 (a + x) (fl f (a + x))) by (apply fl_plus_btw; [assumption|assumption|lra]).
  assert (R0 : 0 <= rsum l) by (apply rsum_nonneg; eapply Forall_impl; [|exact H']; intros; cbn in *; tauto).
  assert (P0 : 0 <= a + x) by lra.
  pose proof (IH (fl f (a + x)) (fl_number _ _) (fl_nonneg _ _ P0) H') as C.
  change (S (List.length l)) with (1 + List.length l)%nat. apply (btw_trans _ _ _ (fl f (a + x) + rsum l)); [|exact C].
  replace (a + (x + fold_right Rplus 0 l)) with ((a + x) + rsum l) by (unfold rsum; ring).
  apply btw_plus; [exact B|]. apply (btw_mono 0); [lia|exact R0|apply btw_refl].
Qed.
Lemma fsum_btw : forall l, Forall (fun w => number_of f w /\ 0 <= w) l -> btw (List.length l) (rsum l) (fsum f l).
Proof. intros l H. pose proof (fold_btw l 0 (number_0 f) (Rle_refl 0) H) as B. rewrite Rplus_0_l in B. exact B. Qed.
Lemma leaves_len : forall t, (1 <= List.length (leaves t))%nat.
Proof. intro t. pose proof (leaves_nonempty t). lia. Qed.
Lemma tsum_number : forall t, Forall (fun w => number_of f w /\ 0 <= w) (leaves t) -> number_of f (tsum f t) /\ 0 <= tsum f t.
Proof.
  induction t as [x|a IHa b IHb]; cbn [leaves tsum]; intro H; [now inversion H|].
  apply Forall_app in H. destruct H as [A B]. split; [apply fl_number|]. apply fl_nonneg. pose proof (IHa A). pose proof (IHb B). lra.
Qed.
Lemma tsum_btw : forall t, Forall (fun w => number_of f w /\ 0 <= w) (leaves t) -> btw (List.length (leaves t)) (rsum (leaves t)) (tsum f t).
Proof.
  induction t as [x|a IHa b IHb]; cbn [leaves tsum]; intro H.
  - inversion H as [|? ? [_ P] _]; subst. cbn [rsum fold_right List.length]. rewrite Rplus_0_r. apply (btw_mono 0); [lia|exact P|apply btw_refl].
  - apply Forall_app in H. destruct H as [A B]. rewrite rsum_app, app_length.
    destruct (tsum_number a A) as [Na Pa], (tsum_number b B) as [Nb Pb].
    pose proof (leaves_len a). pose proof (leaves_len b).
    assert (R1 : 0 <= rsum (leaves a)) by (apply rsum_nonneg; eapply Forall_impl; [|exact A]; intros; cbn in *; tauto).
    assert (R2 : 0 <= rsum (leaves b)) by (apply rsum_nonneg; eapply Forall_impl; [|exact B]; intros; cbn in *; tauto).
    apply (btw_mono (Nat.max (List.length (leaves a)) (List.length (leaves b)) + 1)); [lia|lra|].
    apply (btw_trans _ _ _ (tsum f a + tsum f b)).
    + apply btw_plus; [apply (btw_mono (List.length (leaves a))); [lia|exact R1|auto]|apply (btw_mono (List.length (leaves b))); [lia|exact R2|auto]].
    + apply fl_plus_btw; [exact Na|exact Nb|lra].
Qed.

(** ** Signed quantities *)
Definition near (k : nat) (A e x y : R) : Prop := Rabs x <= A /\ 0 <= e /\ Rabs (y - x) <= (g k - 1) * A + e.
Lemma near_A : forall k A e x y, near k A e x y -> 0 <= A.
Proof. intros k A e x y [H _]. pose proof (Rabs_pos x). lra. Qed.
Lemma near_size : forall k A e x y, near k A e x y -> Rabs y <= g k * A + e.
Proof. intros k A e x y (H & E & D). replace y with (x + (y - x)) by ring. eapply Rle_trans; [apply Rabs_triang|]. lra. Qed.
Lemma near_refl : forall x, near 0 (Rabs x) 0 x x.
Proof. intro x. unfold near, g. cbn. rewrite Rminus_diag_eq by reflexivity. rewrite Rabs_R0. lra. Qed.
Lemma near_fl : forall k A e x y, near k A e x y -> near (S k) A (e * (1 + u) + eta) x (fl f y).
Proof.
  intros k A e x y H. pose proof (near_size _ _ _ _ _ H) as Sz. pose proof (near_A _ _ _ _ _ H) as PA. destruct H as (X & E & D).
  pose proof u_pos. pose proof least_pos. pose proof (g_ge_1 k). split; [exact X|]. split; [nra|].
  replace (fl f y - x) with ((fl f y - y) + (y - x)) by ring. eapply Rle_trans; [apply Rabs_triang|].
  pose proof (fl_any y) as F. rewrite g_S.
  assert (u * Rabs y <= u * (g k * A + e)) by (apply Rmult_le_compat_l; lra). nra.
Qed.
Lemma near_scale : forall k j A e x y c0 c, 0 < c0 -> near k A e x y -> btw j c0 c -> near (k + j) (A * c0) (e * g j * c0) (x * c0) (y * c).
Proof.
  intros k j A e x y c0 c P H B. pose proof (near_size _ _ _ _ _ H) as Sz. pose proof (near_A _ _ _ _ _ H) as PA. pose proof (btw_pos _ _ _ B P) as Pc.
  destruct H as (X & E & D), B as [B1 B2]. pose proof (g_ge_1 k) as G1. pose proof (g_ge_1 j) as G2.
  split; [rewrite Rabs_mult, (Rabs_pos_eq c0) by lra; nra|]. split; [apply Rmult_le_pos; [apply Rmult_le_pos; lra|lra]|].
  replace (y * c - x * c0) with (y * (c - c0) + (y - x) * c0) by ring. eapply Rle_trans; [apply Rabs_triang|].
  rewrite !Rabs_mult, (Rabs_pos_eq c0) by lra. rewrite g_add.
  assert (C : Rabs (c - c0) <= (g j - 1) * c0).
  { apply Rabs_le. split; [|lra]. assert (c0 * (2 - g j) <= c); [|lra].
    destruct (Rle_or_lt (2 - g j) 0); [nra|]. assert ((2 - g j) * g j <= 1) by nra. nra. }
  assert (Rabs y * Rabs (c - c0) <= (g k * A + e) * ((g j - 1) * c0)).
  { apply Rmult_le_compat; [apply Rabs_pos|apply Rabs_pos|exact Sz|exact C]. }
  assert (Rabs (y - x) * c0 <= ((g k - 1) * A + e) * c0) by (apply Rmult_le_compat_r; lra). nra.
Qed.
Lemma fold_err : forall l a, number_of f a -> Forall (number_of f) l ->
  Rabs (fold_left (fun a x => fl f (a + x)) l a - (a + rsum l)) <= (g (List.length l) - 1) * (Rabs a + rsum (map Rabs l)).
Proof.
  induction l as [|x l IH]; intros a N H; cbn [fold_left rsum fold_right map List.length].
  - replace (a - (a + 0)) with 0 by ring. rewrite Rabs_R0. unfold g. cbn. lra.
  - inversion H as [|? ? Nx H']; subst. pose proof (IH (fl f (a + x)) (fl_number _ _) H') as C. fold (rsum l). fold (rsum (map Rabs l)).
    pose proof (fl_plus_err a x N Nx) as E. pose proof u_pos. pose proof (g_ge_1 (List.length l)) as G.
    set (fd := fold_left _ l _) in *. set (a' := fl f (a + x)) in *.
    replace (fd - (a + (x + rsum l))) with ((fd - (a' + rsum l)) + (a' - (a + x))) by ring.
    eapply Rle_trans; [apply Rabs_triang|]. rewrite g_S.
    assert (T : Rabs (a + x) <= Rabs a + Rabs x) by apply Rabs_triang.
    assert (A' : Rabs a' <= (1 + u) * (Rabs a + Rabs x)).
    { replace a' with ((a + x) + (a' - (a + x))) by ring. eapply Rle_trans; [apply Rabs_triang|]. nra. }
    assert (S0 : 0 <= rsum (map Rabs l)) by (apply rsum_nonneg; apply Forall_map, Forall_forall; intros; apply Rabs_pos).
    assert ((g (List.length l) - 1) * (Rabs a' + rsum (map Rabs l)) <= (g (List.length l) - 1) * ((1 + u) * (Rabs a + Rabs x) + rsum (map Rabs l))) by (apply Rmult_le_compat_l; lra).
    pose proof (Rabs_pos a). pose proof (Rabs_pos x). set (G0 := g (List.length l)) in *. set (T0 := Rabs a + Rabs x) in *. set (S' := rsum (map Rabs l)) in *.
    assert (U : u * Rabs (a + x) <= u * T0) by (apply Rmult_le_compat_l; lra).
    assert (W : 0 <= G0 * u * S') by (apply Rmult_le_pos; [apply Rmult_le_pos; lra|exact S0]).
    replace (Rabs a + (Rabs x + S')) with (T0 + S') by (unfold T0; ring).
    replace ((G0 * (1 + u) - 1) * (T0 + S')) with ((G0 - 1) * ((1 + u) * T0 + S') + u * T0 + G0 * u * S') by ring. lra.
Qed.
Lemma near_sum : forall T k (A x y : T -> R) e l, 0 <= e -> (forall a, In a l -> near k (A a) e (x a) (y a)) -> (forall a, In a l -> number_of f (y a)) ->
  near (k + List.length l) (rsum (map A l)) (INR (List.length l) * e * g (List.length l)) (rsum (map x l)) (fsum f (map y l)).
Proof.
  intros T k A x y e l E H N. pose proof (g_ge_1 (List.length l)) as G1. pose proof (g_ge_1 k) as G2.
  assert (X : Rabs (rsum (map x l)) <= rsum (map A l)) by (apply rsum_abs; intros a I; apply (H a I)).
  split; [exact X|]. split; [apply Rmult_le_pos; [apply Rmult_le_pos; [apply pos_INR|exact E]|lra]|].
  assert (F : Forall (number_of f) (map y l)) by (apply Forall_map, Forall_forall, N).
  pose proof (fold_err (map y l) 0 (number_0 f) F) as D. rewrite map_length, Rplus_0_l, Rabs_R0, Rplus_0_l in D. fold (fsum f (map y l)) in D.
  replace (fsum f (map y l) - rsum (map x l)) with ((fsum f (map y l) - rsum (map y l)) + (rsum (map y l) - rsum (map x l))) by ring.
  eapply Rle_trans; [apply Rabs_triang|].
  assert (S1 : rsum (map Rabs (map y l)) <= g k * rsum (map A l) + INR (List.length l) * e).
  { clear -H. induction l as [|a l IH]; [cbn; lra|]. cbn [map List.length]. rewrite S_INR.
    pose proof (near_size _ _ _ _ _ (H a (or_introl eq_refl))). assert (I : forall a0, In a0 l -> near k (A a0) e (x a0) (y a0)) by (intros; apply H; now right).
    specialize (IH I). unfold rsum in *. cbn [fold_right]. lra. }
  assert (S2 : Rabs (rsum (map y l) - rsum (map x l)) <= (g k - 1) * rsum (map A l) + INR (List.length l) * e).
  { clear -H. induction l as [|a l IH]; [cbn; rewrite Rminus_diag_eq by reflexivity; rewrite Rabs_R0; lra|]. cbn [map List.length]. rewrite S_INR.
    destruct (H a (or_introl eq_refl)) as (_ & _ & D). assert (I : forall a0, In a0 l -> near k (A a0) e (x a0) (y a0)) by (intros; apply H; now right).
    specialize (IH I). unfold rsum in *. cbn [fold_right].
    match goal with |- Rabs ?t <= _ => replace t with ((y a - x a) + (fold_right Rplus 0 (map y l) - fold_right Rplus 0 (map x l))) by ring end.
    eapply Rle_trans; [apply Rabs_triang|]. lra. }
  rewrite g_add.
  assert ((g (List.length l) - 1) * rsum (map Rabs (map y l)) <= (g (List.length l) - 1) * (g k * rsum (map A l) + INR (List.length l) * e)) by (apply Rmult_le_compat_l; lra).
  pose proof (pos_INR (List.length l)). nra.
Qed.

(** fwsum is a sum of rounded products. *)
Lemma fwsum_fold : forall l a, number_of f a ->
  fold_left (fun a wv => match snd wv with Some v => fl f (a + fl f (v * fst wv)) | None => a end) l a =
  fold_left (fun a x => fl f (a + x)) (map (fun wv : R * option R => match snd wv with Some v => fl f (v * fst wv) | None => 0 end) l) a.
Proof.
  induction l as [|[w [v|]] l IH]; intros a N; cbn [fold_left map snd fst]; [reflexivity| |].
  - apply IH, fl_number.
  - rewrite Rplus_0_r, (fl_id f a N). now apply IH.
Qed.
Lemma fwsum_fsum : forall l, fwsum f l = fsum f (map (fun wv => match snd wv with Some v => fl f (v * fst wv) | None => 0 end) l).
Proof. intro l. apply fwsum_fold, number_0. Qed.

(** ** Ranges *)
Lemma number_bpow : forall e, (Zneg (f_tiny f) <= e)%Z -> number_of f (bpow radix2 e).
Proof.
  intros e H. exists 1%Z, e. split; [|split; [exact H|ring]].
  change (Z.abs 1) with (2 ^ 0)%Z. apply Z.pow_lt_mono_r; lia.
Qed.
Lemma near_weaken : forall k A e e' x y, near k A e x y -> e <= e' -> near k A e' x y.
Proof. intros k A e e' x y (H & E & D) L. split; [exact H|]. split; lra. Qed.
Lemma near_count : forall k k' A e x y, k = k' -> near k A e x y -> near k' A e x y.
Proof. intros. now subst. Qed.
Lemma near_x : forall k A A' e x x' y, A = A' -> x = x' -> near k A e x y -> near k A' e x' y.
Proof. intros. now subst. Qed.
Lemma btw_abs : forall k x y, 0 <= x -> btw k x y -> Rabs (y - x) <= (g k - 1) * x.
Proof.
  intros k x y P [A B]. pose proof (g_ge_1 k). apply Rabs_le. split; [|lra].
  assert (x * (2 - g k) <= y); [|lra]. assert (0 <= y) by nra.
  destruct (Rle_or_lt (2 - g k) 0); [nra|]. assert ((2 - g k) * g k <= 1) by nra. nra.
Qed.

Section Room.
Variable b : Z.
Hypothesis Hb : (0 <= b)%Z.
Hypothesis Hroom : (4 * b + Zpos (f_prec f) <= Zpos (f_tiny f))%Z.
Notation B := (bpow radix2 b).
Notation B' := (bpow radix2 (- b)).
Lemma B_ge_1 : 1 <= B. Proof. change 1 with (bpow radix2 0). apply bpow_le. exact Hb. Qed.
Lemma B_inv : / B = B'. Proof. symmetry. apply bpow_opp. Qed.
Lemma normal_ge : forall e x, (- (4 * b) - 1 <= e)%Z -> bpow radix2 e <= x -> normal x.
Proof.
  intros e x E H. unfold normal. pose proof (bpow_gt_0 radix2 e). rewrite Rabs_pos_eq by lra.
  eapply Rle_trans; [|exact H]. apply bpow_le. lia.
Qed.
Lemma number_B : number_of f B. Proof. apply number_bpow. lia. Qed.
Lemma number_B' : number_of f B'. Proof. apply number_bpow. lia. Qed.

(** A weight inverted once and twice. *)
Lemma inv_range : forall m, B' <= m <= B -> B' <= 1 / m <= B.
Proof.
  intros m [L U]. pose proof (bpow_gt_0 radix2 (- b)). pose proof (bpow_gt_0 radix2 b).
  unfold Rdiv. rewrite Rmult_1_l. split; [rewrite <- B_inv; apply Rinv_le_contravar; lra|].
  rewrite <- (Rinv_inv B). apply Rinv_le_contravar; [rewrite B_inv; lra|rewrite B_inv; exact L].
Qed.
Lemma fl_range : forall x, B' <= x <= B -> B' <= fl f x <= B.
Proof. intros x [L U]. split; [apply fl_ge_number; [exact L|apply number_B']|apply fl_le_number; [exact U|apply number_B]]. Qed.
Lemma range_normal : forall x, B' <= x <= B -> normal x.
Proof. intros x [L _]. apply (normal_ge (- b)); [lia|exact L]. Qed.
Lemma B'_pos : 0 < B'. Proof. apply bpow_gt_0. Qed.
Lemma inv_weight : forall m, B' <= m <= B -> btw 1 (1 / m) (fl f (1 / m)) /\ number_of f (fl f (1 / m)) /\ B' <= fl f (1 / m) <= B.
Proof.
  intros m H. pose proof (inv_range m H) as I. split; [|split; [apply fl_number|now apply fl_range]].
  apply fl_normal_btw; [pose proof B'_pos; lra|now apply range_normal].
Qed.
Lemma det_weight_near : forall m, B' <= m <= B -> btw 2 m (det_weight f m) /\ number_of f (det_weight f m) /\ B' <= det_weight f m <= B.
Proof.
  intros m H. destruct (inv_weight m H) as (A & N & I). destruct (inv_weight _ I) as (A2 & N2 & I2).
  split; [|split; [exact N2|exact I2]]. unfold det_weight. pose proof B'_pos.
  replace 2%nat with (1 + 1)%nat by reflexivity. apply (btw_trans _ _ _ (1 / fl f (1 / m))); [|exact A2].
  replace m with (/ (1 / m)) at 1 by (field; lra). unfold Rdiv at 2. rewrite Rmult_1_l. apply btw_inv; [|exact A].
  pose proof (inv_range m H). lra.
Qed.

(** Exact weights [d] and computed weights [c] of a list. *)
Section Means.
Variable T : Type.
Variables d c : T -> R.
Variable v : T -> R.
Variable j : nat.
Variable l : list T.
Notation n := (List.length l).
Hypothesis Hne : l <> [].
Hypothesis Hn : INR n <= B.
Hypothesis Hu : INR (4 * n + 8) * u <= / 2.
Hypothesis Hj : (j <= 2)%nat.
Hypothesis Hd : forall a, In a l -> B' <= d a <= B.
Hypothesis Hc : forall a, In a l -> btw j (d a) (c a) /\ number_of f (c a) /\ B' <= c a <= B.
Notation W0 := (rsum (map d l)).
Notation A0 := (rsum (map (fun a => Rabs (v a) * d a) l)).
Notation X0 := (rsum (map (fun a => v a * d a) l)).

Lemma small : forall k, (k <= 4 * n + 8)%nat -> g k <= 2 /\ g k - 1 <= 2 * INR k * u.
Proof.
  intros k H. apply g_small. eapply Rle_trans; [|exact Hu]. apply Rmult_le_compat_r; [pose proof u_pos; lra|]. now apply le_INR.
Qed.
Lemma W0_ge : B' <= W0.
Proof.
  pose proof Hd as D. clear -D Hne. destruct l as [|a r]; [congruence|]. cbn [map rsum fold_right]. fold (rsum (map d r)).
  assert (0 <= rsum (map d r)).
  { apply rsum_nonneg, Forall_map, Forall_forall. intros x I. pose proof (D x (or_intror I)). pose proof B'_pos. lra. }
  pose proof (D a (or_introl eq_refl)). unfold rsum in *. lra.
Qed.
Lemma W0_pos : 0 < W0. Proof. pose proof W0_ge. pose proof B'_pos. lra. Qed.
Lemma weights_numbers : Forall (fun w => number_of f w /\ 0 <= w) (map c l).
Proof. apply Forall_map, Forall_forall. intros a I. destruct (Hc a I) as (_ & N & R). pose proof B'_pos. split; [exact N|lra]. Qed.
Lemma csum_le : rsum (map c l) <= B * B.
Proof.
  apply Rle_trans with (rsum (map (fun _ => B) l)); [apply rsum_le; intros a I; apply (Hc a I)|].
  rewrite rsum_const. apply Rmult_le_compat_r; [pose proof B_ge_1; lra|exact Hn].
Qed.
Lemma total_upper : forall W, btw n (rsum (map c l)) W -> W <= bpow radix2 (2 * b + 1).
Proof.
  intros W [_ H]. destruct (small n) as [G _]; [lia|]. pose proof csum_le. pose proof (g_ge_1 n).
  replace (2 * b + 1)%Z with (b + b + 1)%Z by ring. rewrite !bpow_plus. change (bpow radix2 1) with 2. pose proof B_ge_1.
  assert (0 <= rsum (map c l)) by (apply rsum_nonneg; eapply Forall_impl; [|apply weights_numbers]; intros; cbn in *; tauto). nra.
Qed.
Lemma total_pos : forall W, btw n (rsum (map c l)) W -> 0 < W.
Proof.
  intros W H. apply (btw_pos _ _ _ H). apply rsum_pos; [intro E; apply Hne; now apply map_eq_nil in E|].
  apply Forall_map, Forall_forall. intros a I. destruct (Hc a I) as (_ & _ & R). pose proof B'_pos. lra.
Qed.
Lemma total_btw : forall W, btw n (rsum (map c l)) W -> btw (j + n) W0 W.
Proof. intros W H. apply (btw_trans _ _ _ (rsum (map c l))); [|exact H]. apply btw_rsum. intros a I. apply (Hc a I). Qed.
Lemma tsum_total : forall order, sums_all order -> btw n (rsum (map c l)) (tsum f (order (map c l))).
Proof.
  intros order O. assert (P : Permutation (leaves (order (map c l))) (map c l)) by (apply O; intro E; apply Hne; now apply map_eq_nil in E).
  rewrite <- (rsum_perm _ _ P). replace n with (List.length (leaves (order (map c l)))) by (rewrite (Permutation_length P); apply map_length).
  apply tsum_btw. eapply Permutation_Forall; [apply Permutation_sym, P|apply weights_numbers].
Qed.
Lemma fsum_total : btw n (rsum (map c l)) (fsum f (map c l)).
Proof. pose proof (fsum_btw (map c l) weights_numbers) as H. now rewrite map_length in H. Qed.
Lemma inv_total_normal : forall W, 0 < W -> W <= bpow radix2 (2 * b + 1) -> normal (1 / W).
Proof.
  intros W P U. apply (normal_ge (- (2 * b + 1))); [lia|]. rewrite bpow_opp. unfold Rdiv. rewrite Rmult_1_l. apply Rinv_le_contravar; [exact P|exact U].
Qed.
Lemma quotient_ge : forall W a, 0 < W -> W <= bpow radix2 (2 * b + 1) -> In a l -> bpow radix2 (- (3 * b) - 1) <= c a / W.
Proof.
  intros W a P U I. destruct (Hc a I) as (_ & _ & R). replace (- (3 * b) - 1)%Z with (- b + - (2 * b + 1))%Z by ring. rewrite bpow_plus.
  apply Rmult_le_compat; [apply bpow_ge_0|apply bpow_ge_0|tauto|]. rewrite bpow_opp. now apply Rinv_le_contravar.
Qed.
Lemma norm_weight : forall W a, btw n (rsum (map c l)) W -> In a l -> btw (S (j + (j + n))) (d a / W0) (fl f (c a / W)).
Proof.
  intros W a HW I. pose proof (Hd a I) as D. pose proof B'_pos. pose proof W0_pos. pose proof (total_pos W HW) as P.
  apply btw_fl; [apply Rdiv_lt_0_compat; lra| |].
  - apply btw_div; [lra|lra|apply (Hc a I)|now apply total_btw].
  - apply (normal_ge (- (3 * b) - 1)); [lia|]. apply quotient_ge; [exact P|now apply total_upper|exact I].
Qed.
Lemma norm_near : forall W, btw n (rsum (map c l)) W ->
  near (2 * n + 2 * j + 2) (A0 / W0) (INR n * least f) (X0 / W0) (fsum f (map (fun a => fl f (v a * fl f (c a / W))) l)).
Proof.
  intros W HW. pose proof least_pos. pose proof W0_pos as P0.
  assert (HN : forall a, In a l -> near (j + (j + n) + 2) (Rabs (v a) * (d a / W0)) eta (v a * (d a / W0)) (fl f (v a * fl f (c a / W)))).
  { intros a I. apply (near_count (S (0 + S (j + (j + n))))); [lia|].
    pose proof (Hd a I) as D. pose proof B'_pos.
    assert (Q : 0 < d a / W0) by (apply Rdiv_lt_0_compat; lra).
    pose proof (near_fl _ _ _ _ _ (near_scale _ _ _ _ _ _ _ _ Q (near_refl (v a)) (norm_weight W a HW I))) as N.
    eapply near_weaken; [exact N|]. rewrite !Rmult_0_l. lra. }
  assert (E0 : 0 <= eta) by lra.
  pose proof (near_sum _ _ _ _ _ _ l E0 HN (fun a _ => fl_number _ _)) as S0.
  apply (near_count _ (2 * n + 2 * j + 2)) in S0; [|lia].
  eapply near_weaken; [eapply near_x; [| |exact S0]|].
  - unfold Rdiv. rewrite <- rsum_scale. f_equal. apply map_ext. intro a. ring.
  - unfold Rdiv. rewrite <- rsum_scale. f_equal. apply map_ext. intro a. ring.
  - destruct (small n) as [G _]; [lia|]. pose proof (pos_INR n). pose proof (g_ge_1 n).
    replace (INR n * least f) with (INR n * eta * 2) by field. apply Rmult_le_compat_l; [apply Rmult_le_pos; lra|exact G].
Qed.

(** A sum of products times or divided by the total. *)
Lemma wsum_near : near (j + 1 + n) A0 (INR n * eta * g n) X0 (fsum f (map (fun a => fl f (v a * c a)) l)).
Proof.
  pose proof least_pos.
  apply (near_sum T (j + 1) (fun a => Rabs (v a) * d a) (fun a => v a * d a) (fun a => fl f (v a * c a))); [lra| |intros; apply fl_number].
  intros a I. pose proof (Hd a I) as D. pose proof B'_pos. apply (near_count (S (0 + j))); [lia|].
  assert (Q : 0 < d a) by lra.
  pose proof (near_fl _ _ _ _ _ (near_scale _ _ _ _ _ _ _ _ Q (near_refl (v a)) (proj1 (Hc a I)))) as N.
  eapply near_weaken; [exact N|]. rewrite !Rmult_0_l. lra.
Qed.
Lemma mean_extra : forall k, (n + k + 1 <= 4 * n + 8)%nat ->
  INR n * eta * g n * g k * / W0 * (1 + u) + eta <= (INR n * B + 1) * least f.
Proof.
  intros k K. destruct (small (n + k + 1) K) as [G _]. rewrite !g_add in G. unfold g in G at 3. rewrite pow_1 in G.
  pose proof least_pos. pose proof W0_ge. pose proof W0_pos. pose proof (pos_INR n). pose proof B_ge_1.
  assert (I : / W0 <= B). { rewrite <- (Rinv_inv B). apply Rinv_le_contravar; rewrite B_inv; [apply B'_pos|assumption]. }
  assert (I0 : 0 < / W0) by (apply Rinv_0_lt_compat; lra).
  replace (INR n * eta * g n * g k * / W0 * (1 + u) + eta) with ((INR n * least f) * / W0 * (g n * g k * (1 + u) / 2) + eta) by (generalize (/ W0); intro; field).
  replace ((INR n * B + 1) * least f) with ((INR n * least f) * B * 1 + least f) by ring.
  pose proof (g_ge_1 n). pose proof (g_ge_1 k). pose proof u_pos.
  apply Rplus_le_compat; [|lra]. assert (0 <= INR n * least f) by (apply Rmult_le_pos; lra).
  apply Rmult_le_compat; [apply Rmult_le_pos; lra| |apply Rmult_le_compat_l; lra|lra].
  assert (0 <= g n * g k) by (apply Rmult_le_pos; lra). assert (0 <= g n * g k * (1 + u)) by (apply Rmult_le_pos; lra). lra.
Qed.
Lemma mean_near : near (2 * n + 2 * j + 2) (A0 / W0) ((INR n * B + 1) * least f) (X0 / W0)
  (fl f (fsum f (map (fun a => fl f (v a * c a)) l) / fsum f (map c l))).
Proof.
  pose proof W0_pos as P0.
  pose proof (near_fl _ _ _ _ _ (near_scale _ _ _ _ _ _ _ _ (Rinv_0_lt_compat _ P0) wsum_near (btw_inv _ _ _ P0 (total_btw _ fsum_total)))) as N.
  apply (near_count _ (2 * n + 2 * j + 2)) in N; [|lia]. eapply near_weaken; [exact N|].
  apply (mean_extra (j + n)). lia.
Qed.
Lemma recip_near : near (2 * n + 2 * j + 3) (A0 / W0) ((INR n * B + 1) * least f) (X0 / W0)
  (fl f (fsum f (map (fun a => fl f (v a * c a)) l) * fl f (1 / fsum f (map c l)))).
Proof.
  pose proof W0_pos as P0. pose proof fsum_total as F.
  assert (R : btw (S (j + n)) (/ W0) (fl f (1 / fsum f (map c l)))).
  { apply btw_fl; [now apply Rinv_0_lt_compat| |apply inv_total_normal; [now apply total_pos|now apply total_upper]].
    unfold Rdiv. rewrite Rmult_1_l. apply btw_inv; [exact P0|now apply total_btw]. }
  pose proof (near_fl _ _ _ _ _ (near_scale _ _ _ _ _ _ _ _ (Rinv_0_lt_compat _ P0) wsum_near R)) as N.
  apply (near_count _ (2 * n + 2 * j + 3)) in N; [|lia]. eapply near_weaken; [exact N|].
  apply (mean_extra (S (j + n))). lia.
Qed.
End Means.
End Room.
End Err.

(** ** The averages of the code *)
Lemma rsum_member : forall A (l : list (R * A)) a, (forall x, In x l -> 0 <= fst x) -> In a l -> fst a <= rsum (map fst l).
Proof.
  intros A l a H I. induction l as [|x l IH]; [destruct I|]. cbn [map rsum fold_right]. fold (rsum (map fst l)).
  assert (P : 0 <= rsum (map fst l)) by (apply rsum_nonneg, Forall_map, Forall_forall; intros y J; apply H; now right).
  destruct I as [->|I]; [unfold rsum in *; lra|]. pose proof (IH (fun y J => H y (or_intror J)) I). pose proof (H x (or_introl eq_refl)). unfold rsum in *. lra.
Qed.
Section Pixels.
Variable f : fmt.
Variable b : Z.
Notation u := (unit_roundoff f).
Lemma bands_facts : forall A (l : list (R * A)), bands_ok f b l ->
  l <> [] /\ INR (List.length l) <= bpow radix2 b /\ INR (4 * List.length l + 8) * u <= / 2 /\ (0 <= b)%Z /\
  (4 * b + Zpos (f_prec f) <= Zpos (f_tiny f))%Z /\
  (forall a, In a l -> number_of f (fst a) /\ bpow radix2 (- b) <= fst a <= bpow radix2 b).
Proof.
  intros A l (N & P & L & Hb & Hr & F). split; [exact N|]. split; [|split; [|split; [exact Hb|split; [exact Hr|]]]].
  - rewrite INR_IZR_INZ. rewrite <- (IZR_Zpower radix2 b Hb). apply IZR_le. exact L.
  - apply IZR_le in P. change (2 ^ Zpos (f_prec f))%Z with (radix2 ^ Zpos (f_prec f))%Z in P. rewrite (IZR_Zpower radix2) in P by lia.
    rewrite <- INR_IZR_INZ in P. replace (8 * List.length l + 16)%nat with (2 * (4 * List.length l + 8))%nat in P by lia.
    rewrite mult_INR in P. change (INR 2) with 2 in P. unfold unit_roundoff. rewrite bpow_opp. pose proof (bpow_gt_0 radix2 (Zpos (f_prec f))) as G.
    apply Rmult_le_reg_r with (bpow radix2 (Zpos (f_prec f))); [exact G|]. rewrite Rmult_assoc, Rinv_l by lra. lra.
  - intros a I. rewrite Forall_forall in F. exact (F a I).
Qed.
Lemma near_within : forall A (l : list (R * A)) k e a lo y, INR (4 * List.length l + 8) * u <= / 2 -> (k <= 4 * List.length l + 8)%nat ->
  near f k (size_mean lo) e (exact_mean lo) y -> e <= a * least f -> within f (INR k) a lo y.
Proof.
  intros A l k e a lo y Hu K N E. pose proof (near_A _ _ _ _ _ _ N) as P. destruct N as (_ & _ & D).
  assert (G : g f k - 1 <= 2 * INR k * u).
  { apply g_small. eapply Rle_trans; [|exact Hu]. apply Rmult_le_compat_r; [pose proof (u_pos f); lra|]. now apply le_INR. }
  unfold within. eapply Rle_trans; [exact D|]. apply Rplus_le_compat; [apply Rmult_le_compat_r; assumption|exact E].
Qed.
Lemma map_all : forall (h : R * option R -> R) l, map h (all l) = map (fun a => h (fst a, Some (snd a))) l.
Proof. intros. unfold all. apply map_map. Qed.
Lemma size_all : forall l, rsum (map (fun a : R * R => Rabs (snd a) * fst a) l) / rsum (map fst l) = size_mean (all l).
Proof. intro l. unfold size_mean. rewrite !map_all. cbn [fst snd value]. f_equal. f_equal. apply map_ext. intro a. ring. Qed.
Lemma exact_all : forall l, rsum (map (fun a : R * R => snd a * fst a) l) / rsum (map fst l) = exact_mean (all l).
Proof. intro l. unfold exact_mean. rewrite !map_all. cbn [fst snd value]. f_equal. f_equal. apply map_ext. intro a. ring. Qed.
Lemma size_opt : forall l, rsum (map (fun a : R * option R => Rabs (value (snd a)) * fst a) l) / rsum (map fst l) = size_mean l.
Proof. intro l. unfold size_mean. f_equal. f_equal. apply map_ext. intro a. ring. Qed.
Lemma exact_opt : forall l, rsum (map (fun a : R * option R => value (snd a) * fst a) l) / rsum (map fst l) = exact_mean l.
Proof. intro l. unfold exact_mean. f_equal. f_equal. apply map_ext. intro a. ring. Qed.
Lemma exact_inv : forall l, rsum (map (fun a : R * option R => value (snd a) * (1 / fst a)) l) / rsum (map (fun a => 1 / fst a) l) = exact_mean (inverse l).
Proof. intro l. unfold exact_mean, inverse. rewrite !map_map. cbn [fst snd]. f_equal. f_equal. apply map_ext. intro a. ring. Qed.
Lemma size_inv : forall l, rsum (map (fun a : R * option R => Rabs (value (snd a)) * (1 / fst a)) l) / rsum (map (fun a => 1 / fst a) l) = size_mean (inverse l).
Proof. intro l. unfold size_mean, inverse. rewrite !map_map. cbn [fst snd]. f_equal. f_equal. apply map_ext. intro a. ring. Qed.
Lemma fwsum_value : forall T (c : T -> R) (v : T -> option R) l, fwsum f (map (fun a => (c a, v a)) l) = fsum f (map (fun a => fl f (value (v a) * c a)) l).
Proof.
  intros. rewrite fwsum_fsum, map_map. f_equal. apply map_ext. intro a. cbn [fst snd]. destruct (v a); [reflexivity|].
  cbn [value]. rewrite Rmult_0_l. symmetry. apply fl_id, number_0.
Qed.
Lemma pair_map : forall A (l : list (R * A)), map (fun a => (fst a, snd a)) l = l.
Proof. intros. rewrite <- (map_id l) at 2. apply map_ext. now intros []. Qed.

Lemma det_pixel_within : forall order l, bands_ok f b l -> sums_all order ->
  within f (INR (2 * List.length l + 6)) (INR (List.length l)) (all l) (det_pixel f order l).
Proof.
  intros order l Ok O. destruct (bands_facts _ l Ok) as (N & Hn & Hu & Hb & Hr & F).
  assert (Hd : forall a, In a l -> bpow radix2 (- b) <= fst a <= bpow radix2 b) by (intros a I; apply (F a I)).
  assert (Hc : forall a, In a l -> btw f 2 (fst a) (det_weight f (fst a)) /\ number_of f (det_weight f (fst a)) /\ bpow radix2 (- b) <= det_weight f (fst a) <= bpow radix2 b)
    by (intros a I; apply (det_weight_near f b Hb Hr), (F a I)).
  pose proof (tsum_total f b (R * R) fst (fun a => det_weight f (fst a)) 2 l N Hc order O) as T.
  pose proof (norm_near f b Hb Hr _ fst (fun a => det_weight f (fst a)) snd 2 l N Hn Hu ltac:(lia) Hd Hc _ T) as R0.
  unfold det_pixel, norm_mean. rewrite !map_map. cbn [fst snd].
  apply (near_within _ l _ (INR (List.length l) * least f)); [exact Hu|lia| |lra].
  eapply near_x; [apply size_all|apply exact_all|]. eapply near_count; [|exact R0]. lia.
Qed.
Lemma id_weights : forall A (l : list (R * A)), bands_ok f b l ->
  forall a, In a l -> btw f 0 (fst a) (fst a) /\ number_of f (fst a) /\ bpow radix2 (- b) <= fst a <= bpow radix2 b.
Proof. intros A l Ok a I. split; [apply btw_refl|]. destruct (bands_facts _ l Ok) as (_ & _ & _ & _ & _ & F). apply (F a I). Qed.
Lemma coadd_pixel_within : forall order l, bands_ok f b l -> sums_all order ->
  within f (INR (2 * List.length l + 2)) (INR (List.length l)) (all l) (coadd_pixel f order l).
Proof.
  intros order l Ok O. destruct (bands_facts _ l Ok) as (N & Hn & Hu & Hb & Hr & F).
  assert (Hd : forall a, In a l -> bpow radix2 (- b) <= fst a <= bpow radix2 b) by (intros a I; apply (F a I)).
  pose proof (id_weights _ l Ok) as Hc.
  pose proof (tsum_total f b (R * R) fst fst 0 l N Hc order O) as T.
  pose proof (norm_near f b Hb Hr _ fst fst snd 0 l N Hn Hu ltac:(lia) Hd Hc _ T) as R0.
  apply (near_within _ l _ (INR (List.length l) * least f)); [exact Hu|lia| |lra].
  eapply near_x; [apply size_all|apply exact_all|]. eapply near_count; [|exact R0]. lia.
Qed.
Lemma task_pixel_within : forall l, bands_ok f b l ->
  within f (INR (2 * List.length l + 5)) (INR (List.length l) * bpow radix2 b + 1) (inverse l) (task_pixel f l).
Proof.
  intros l Ok. destruct (bands_facts _ l Ok) as (N & Hn & Hu & Hb & Hr & F).
  assert (Hd : forall a, In a l -> bpow radix2 (- b) <= 1 / fst a <= bpow radix2 b) by (intros a I; apply (inv_range b), (F a I)).
  assert (Hc : forall a, In a l -> btw f 1 (1 / fst a) (fl f (1 / fst a)) /\ number_of f (fl f (1 / fst a)) /\ bpow radix2 (- b) <= fl f (1 / fst a) <= bpow radix2 b)
    by (intros a I; apply (inv_weight f b Hb Hr), (F a I)).
  pose proof (recip_near f b Hb Hr _ (fun a => 1 / fst a) (fun a => fl f (1 / fst a)) (fun a => value (snd a)) 1 l N Hn Hu ltac:(lia) Hd Hc) as R0.
  unfold task_pixel. rewrite fwsum_value, map_map. cbn [fst].
  apply (near_within _ l _ ((INR (List.length l) * bpow radix2 b + 1) * least f)); [exact Hu|lia| |lra].
  eapply near_x; [apply size_inv|apply exact_inv|]. eapply near_count; [|exact R0]. lia.
Qed.
Lemma band_mean_within : forall l, bands_ok f b l ->
  within f (INR (2 * List.length l + 2)) (INR (List.length l) * bpow radix2 b + 1) l (band_mean f l).
Proof.
  intros l Ok. destruct (bands_facts _ l Ok) as (N & Hn & Hu & Hb & Hr & F).
  assert (Hd : forall a, In a l -> bpow radix2 (- b) <= fst a <= bpow radix2 b) by (intros a I; apply (F a I)).
  pose proof (id_weights _ l Ok) as Hc.
  pose proof (mean_near f b Hb _ fst fst (fun a => value (snd a)) 0 l N Hu ltac:(lia) Hd Hc) as R0.
  pose proof (total_pos f b _ fst fst 0 l N Hc _ (fsum_total f b _ fst fst 0 l Hc)) as P.
  unfold band_mean. destruct (Rlt_dec 0 (fsum f (map fst l))) as [_|C]; [|contradiction].
  assert (E : fwsum f l = fsum f (map (fun a => fl f (value (snd a) * fst a)) l)) by (rewrite <- (fwsum_value _ fst snd l), pair_map; reflexivity).
  rewrite E.
  apply (near_within _ l _ ((INR (List.length l) * bpow radix2 b + 1) * least f)); [exact Hu|lia| |lra].
  eapply near_x; [apply size_opt|apply exact_opt|]. eapply near_count; [|exact R0]. lia.
Qed.
Lemma pixel_mean_within : forall l, bands_ok f b l ->
  within f (INR (2 * List.length l + 2)) (INR (List.length l) * bpow radix2 b + 1) (all l) (pixel_mean f l).
Proof.
  intros l Ok. destruct (bands_facts _ l Ok) as (N & Hn & Hu & Hb & Hr & F).
  assert (Hd : forall a, In a l -> bpow radix2 (- b) <= fst a <= bpow radix2 b) by (intros a I; apply (F a I)).
  pose proof (id_weights _ l Ok) as Hc.
  pose proof (mean_near f b Hb _ fst fst snd 0 l N Hu ltac:(lia) Hd Hc) as R0.
  unfold pixel_mean. rewrite fwsum_value. cbn [value].
  apply (near_within _ l _ ((INR (List.length l) * bpow radix2 b + 1) * least f)); [exact Hu|lia| |lra].
  eapply near_x; [apply size_all|apply exact_all|]. eapply near_count; [|exact R0]. lia.
Qed.
Lemma recip_mean_within : forall l, bands_ok f b l ->
  within f (INR (2 * List.length l + 3)) (INR (List.length l) * bpow radix2 b + 1) (all l) (recip_mean f l).
Proof.
  intros l Ok. destruct (bands_facts _ l Ok) as (N & Hn & Hu & Hb & Hr & F).
  assert (Hd : forall a, In a l -> bpow radix2 (- b) <= fst a <= bpow radix2 b) by (intros a I; apply (F a I)).
  pose proof (id_weights _ l Ok) as Hc.
  pose proof (recip_near f b Hb Hr _ fst fst snd 0 l N Hn Hu ltac:(lia) Hd Hc) as R0.
  unfold recip_mean. rewrite fwsum_value. cbn [value].
  apply (near_within _ l _ ((INR (List.length l) * bpow radix2 b + 1) * least f)); [exact Hu|lia| |lra].
  eapply near_x; [apply size_all|apply exact_all|]. eapply near_count; [|exact R0]. lia.
Qed.

(** The weight of the coadd. *)
Lemma coadd_weight_within : forall order l, bands_ok f b l -> sums_all order ->
  (7 * b + Zpos (f_prec f) + 1 <= Zpos (f_tiny f))%Z -> Forall (fun wp => tame f b (snd wp)) l ->
  let x := 1 / mean_var l in
  0 < x /\ Rabs (coadd_weight f order l - x) <= 2 * INR (3 * List.length l + 5) * u * x.
Proof.
  intros order l Ok O Room Fp x. destruct (bands_facts _ l Ok) as (N & Hn & Hu & Hb & Hr & F).
  assert (Hd : forall a, In a l -> bpow radix2 (- b) <= fst a <= bpow radix2 b) by (intros a I; apply (F a I)).
  pose proof (id_weights _ l Ok) as Hc. rewrite Forall_forall in Fp.
  pose proof (tsum_total f b (R * R) fst fst 0 l N Hc order O) as T.
  set (W := tsum f (order (map fst l))) in *.
  pose proof (total_pos f b _ fst fst 0 l N Hc W T) as PW.
  pose proof (total_upper f b Hb _ fst fst 0 l Hn Hu ltac:(lia) Hc W T) as UW.

  set (n := List.length l) in *. pose proof (bpow_gt_0 radix2 (- b)) as PB'. pose proof (bpow_gt_0 radix2 b) as PB.
  pose proof (W0_pos b _ fst l N Hd) as P0. set (W0 := rsum (map fst l)) in *.
  assert (Hp : forall a, In a l -> bpow radix2 (- b) <= snd a <= bpow radix2 b) by (intros a I; apply (Fp a I)).
  assert (Nor : forall e y, (Zneg (f_tiny f) + Zpos (f_prec f) - 1 <= e)%Z -> bpow radix2 e <= y -> normal f y).
  { intros e y E H. unfold normal. pose proof (bpow_gt_0 radix2 e). rewrite Rabs_pos_eq by lra. eapply Rle_trans; [|exact H]. now apply bpow_le. }
  set (q := fun a : R * R => fl f (fst a / W)). set (t := fun a : R * R => fl f (fl f (q a * q a) / snd a)).
  assert (Q1 : forall a, In a l -> bpow radix2 (- (3 * b) - 1) <= q a).
  { intros a I. apply fl_ge_number; [|apply number_bpow; lia]. apply (quotient_ge f b _ fst fst snd 0 l Hc W a PW UW I). }
  assert (Q2 : forall a, In a l -> bpow radix2 (- (6 * b) - 2) <= q a * q a).
  { intros a I. replace (- (6 * b) - 2)%Z with ((- (3 * b) - 1) + (- (3 * b) - 1))%Z by ring. rewrite bpow_plus.
    pose proof (bpow_gt_0 radix2 (- (3 * b) - 1)). apply Rmult_le_compat; try lra; now apply Q1. }
  assert (Q3 : forall a, In a l -> bpow radix2 (- (6 * b) - 2) <= fl f (q a * q a)).
  { intros a I. apply fl_ge_number; [now apply Q2|apply number_bpow; lia]. }
  assert (Q4 : forall a, In a l -> bpow radix2 (- (7 * b) - 2) <= fl f (q a * q a) / snd a).
  { intros a I. pose proof (Hp a I). replace (- (7 * b) - 2)%Z with ((- (6 * b) - 2) + - b)%Z by ring. rewrite bpow_plus.
    apply Rmult_le_compat; [apply bpow_ge_0|apply bpow_ge_0|now apply Q3|]. rewrite bpow_opp. apply Rinv_le_contravar; lra. }
  assert (Bt : forall a, In a l -> btw f (2 * n + 4) (fst a / W0 * (fst a / W0) / snd a) (t a)).
  { intros a I. pose proof (Hd a I). pose proof (Hp a I). assert (D : 0 < fst a / W0) by (apply Rdiv_lt_0_compat; lra).
    assert (Dd : 0 < fst a / W0 * (fst a / W0)) by (apply Rmult_lt_0_compat; exact D).
    pose proof (norm_weight f b Hb Hr _ fst fst snd 0 l N Hn Hu ltac:(lia) Hd Hc W a T I) as C1. fold W0 in C1. fold n in C1. change (fl f (fst a / W)) with (q a) in C1.
    pose proof (btw_mult _ _ _ _ _ _ _ D D C1 C1) as C2.
    assert (C3 := btw_fl _ _ _ _ Dd C2 (Nor (- (6 * b) - 2)%Z _ ltac:(lia) (Q2 a I))).
    assert (Dp : 0 < snd a) by lra. assert (Dq : 0 < fst a / W0 * (fst a / W0) / snd a) by (apply Rdiv_lt_0_compat; lra).
    assert (C4 := btw_div _ _ _ _ _ _ _ Dd Dp C3 (btw_refl f (snd a))).
    assert (C5 := btw_fl _ _ _ _ Dq C4 (Nor (- (7 * b) - 2)%Z _ ltac:(lia) (Q4 a I))).
    replace (2 * n + 4)%nat with (S (S (S (0 + (0 + n)) + S (0 + (0 + n))) + 0))%nat by lia. exact C5. }
  assert (Nt : Forall (fun w => number_of f w /\ 0 <= w) (map t l)).
  { apply Forall_map, Forall_forall. intros a I. split; [apply fl_number|]. apply fl_nonneg. pose proof (Q4 a I). pose proof (bpow_gt_0 radix2 (- (7 * b) - 2)). lra. }
  assert (E : mean_var l = rsum (map (fun a => fst a / W0 * (fst a / W0) / snd a) l)).
  { unfold mean_var. fold W0. rewrite <- rsum_div. f_equal. apply map_ext_in. intros a I. pose proof (Hp a I). field. split; lra. }
  assert (Term : forall a, In a l -> 0 < fst a / W0 * (fst a / W0) / snd a <= bpow radix2 b).
  { intros a I. pose proof (Hd a I). pose proof (Hp a I). assert (D : 0 < fst a / W0) by (apply Rdiv_lt_0_compat; lra).
    assert (D1 : fst a / W0 <= 1). { apply Rmult_le_reg_r with W0; [exact P0|]. unfold Rdiv. rewrite Rmult_assoc, Rinv_l by lra. rewrite Rmult_1_r, Rmult_1_l. unfold W0. apply rsum_member; [|exact I]. intros y J. pose proof (Hd y J). lra. }
    split; [apply Rdiv_lt_0_compat; [apply Rmult_lt_0_compat; exact D|lra]|].
    rewrite <- (Rmult_1_l (bpow radix2 b)). apply Rmult_le_compat; [nra|left; apply Rinv_0_lt_compat; lra|nra|].
    rewrite <- (Rinv_inv (bpow radix2 b)), <- bpow_opp. apply Rinv_le_contravar; lra. }
  assert (V1 : 0 < mean_var l).
  { rewrite E. apply rsum_pos; [intro C; apply N; now apply map_eq_nil in C|]. apply Forall_map, Forall_forall. intros a I. apply (Term a I). }
  assert (V2 : mean_var l <= bpow radix2 b * bpow radix2 b).
  { rewrite E. eapply Rle_trans; [apply rsum_le with (q := fun _ => bpow radix2 b); intros a I; apply (Term a I)|]. rewrite rsum_const. apply Rmult_le_compat_r; [lra|exact Hn]. }
  assert (S0 : btw f (3 * n + 4) (mean_var l) (fsum f (map t l))).
  { replace (3 * n + 4)%nat with (2 * n + 4 + n)%nat by lia. apply (btw_trans _ _ _ _ (rsum (map t l))).
    - rewrite E. apply btw_rsum. exact Bt.
    - pose proof (fsum_btw f (map t l) Nt) as H. now rewrite map_length in H. }
  assert (G : g f (3 * n + 4) <= 2) by (apply (small f _ l Hu); fold n; lia).
  assert (Sp : 0 < fsum f (map t l)) by exact (btw_pos _ _ _ _ S0 V1).
  assert (R1 : btw f (S (3 * n + 4)) (1 / mean_var l) (coadd_weight f order l)).
  { change (coadd_weight f order l) with (fl f (1 / fsum f (map t l))). unfold Rdiv. rewrite !Rmult_1_l.
    apply btw_fl; [now apply Rinv_0_lt_compat|now apply btw_inv|]. apply (Nor (- (2 * b + 1))%Z); [lia|]. rewrite bpow_opp. apply Rinv_le_contravar; [exact Sp|].
    replace (2 * b + 1)%Z with (b + b + 1)%Z by ring. rewrite !bpow_plus. change (bpow radix2 1) with 2. destruct S0 as [_ S0]. nra. }
  assert (X0 : 0 < x) by (apply Rdiv_lt_0_compat; lra).
  split; [exact X0|]. eapply Rle_trans; [apply btw_abs; [left; exact X0|exact R1]|]. apply Rmult_le_compat_r; [lra|].
  replace (3 * n + 5)%nat with (S (3 * n + 4)) by lia. apply (small f _ l Hu). fold n. lia.
Qed.
End Pixels.

(** ** The noise of the detection image *)
Lemma btw_sqrt : forall f k x y, 0 <= x -> btw f k x y -> btw f k (sqrt x) (sqrt y).
Proof.
  intros f k x y P [A B]. pose proof (g_ge_1 f k) as G. assert (Q : 0 <= y) by nra.
  assert (S : sqrt (g f k) <= g f k). { rewrite <- (sqrt_square (g f k)) at 2 by lra. apply sqrt_le_1; nra. }
  split.
  - apply Rle_trans with (sqrt (y * g f k)); [apply sqrt_le_1; nra|]. rewrite sqrt_mult by lra. apply Rmult_le_compat_l; [apply sqrt_pos|exact S].
  - apply Rle_trans with (sqrt (x * g f k)); [apply sqrt_le_1; nra|]. rewrite sqrt_mult by lra. apply Rmult_le_compat_l; [apply sqrt_pos|exact S].
Qed.
Lemma det_noise_within : forall f b order (l : list (R * unit)), bands_ok f b l -> sums_all order ->
  let x := sqrt (1 / rsum (map fst l)) in
  0 < x /\ Rabs (det_noise f order (map fst l) - x) <= 2 * INR (List.length l + 4) * unit_roundoff f * x.
Proof.
  intros f b order l Ok O x. destruct (bands_facts f b _ l Ok) as (N & Hn & Hu & Hb & Hr & F).
  assert (Hd : forall a, In a l -> bpow radix2 (- b) <= fst a <= bpow radix2 b) by (intros a I; apply (F a I)).
  assert (Hc : forall a, In a l -> btw f 2 (fst a) (det_weight f (fst a)) /\ number_of f (det_weight f (fst a)) /\ bpow radix2 (- b) <= det_weight f (fst a) <= bpow radix2 b)
    by (intros a I; apply (det_weight_near f b Hb Hr), (F a I)).
  pose proof (tsum_total f b _ fst (fun a => det_weight f (fst a)) 2 l N Hc order O) as T.
  unfold det_noise. rewrite map_map. set (W := tsum f (order (map (fun a => det_weight f (fst a)) l))) in *.
  pose proof (total_pos f b _ fst (fun a => det_weight f (fst a)) 2 l N Hc W T) as PW.
  pose proof (total_upper f b Hb _ fst (fun a => det_weight f (fst a)) 2 l Hn Hu ltac:(lia) Hc W T) as UW.
  pose proof (total_btw f b _ fst (fun a => det_weight f (fst a)) 2 l Hc W T) as B0.
  pose proof (W0_pos b _ fst l N Hd) as P0.
  assert (E1 : bpow radix2 (- (2 * b + 1)) <= 1 / W) by (rewrite bpow_opp; unfold Rdiv; rewrite Rmult_1_l; now apply Rinv_le_contravar).
  assert (Nor : forall y, bpow radix2 (- (2 * b + 1)) <= y -> normal f y) by (intros y Hy; apply (normal_ge f b Hr (- (2 * b + 1))); [lia|exact Hy]).
  assert (P1 : 0 < 1 / rsum (map fst l)) by (apply Rdiv_lt_0_compat; lra).
  assert (B1 : btw f (S (2 + List.length l)) (1 / rsum (map fst l)) (fl f (1 / W))).
  { apply btw_fl; [exact P1| |now apply Nor]. unfold Rdiv. rewrite !Rmult_1_l. now apply btw_inv. }
  assert (E2 : bpow radix2 (- (2 * b + 1)) <= fl f (1 / W)) by (apply fl_ge_number; [exact E1|apply number_bpow; lia]).
  assert (B2 := btw_sqrt _ _ _ _ (Rlt_le _ _ P1) B1). fold x in B2.
  assert (X0 : 0 < x) by (apply sqrt_lt_R0; exact P1).
  assert (E3 : bpow radix2 (- (2 * b + 1)) <= sqrt (fl f (1 / W))).
  { pose proof (bpow_gt_0 radix2 (- (2 * b + 1))) as Q. apply Rle_trans with (sqrt (bpow radix2 (- (2 * b + 1)))); [|apply sqrt_le_1; lra].
    assert (Q1 : bpow radix2 (- (2 * b + 1)) <= 1) by (change 1 with (bpow radix2 0); apply bpow_le; lia).
    rewrite <- (sqrt_square (bpow radix2 (- (2 * b + 1)))) at 1 by lra. apply sqrt_le_1; nra. }
  assert (B3 := btw_fl _ _ _ _ X0 B2 (Nor _ E3)).
  split; [exact X0|]. eapply Rle_trans; [apply btw_abs; [left; exact X0|exact B3]|]. apply Rmult_le_compat_r; [lra|].
  replace (List.length l + 4)%nat with (S (S (2 + List.length l))) by lia. apply (small f _ l Hu). lia.
Qed.

(** ** Consequences *)
Lemma size_mean_le : forall l V, l <> [] -> Forall (fun wv => 0 < fst wv) l -> Forall (fun wv => Rabs (value (snd wv)) <= V) l -> size_mean l <= V.
Proof.
  intros l V N P H. unfold size_mean.
  assert (P0 : 0 < rsum (map fst l)) by (apply rsum_pos; [intro E; apply N; now apply map_eq_nil in E|apply Forall_map; exact P]).
  apply Rmult_le_reg_r with (rsum (map fst l)); [exact P0|]. unfold Rdiv. rewrite Rmult_assoc, Rinv_l by lra. rewrite Rmult_1_r, Rmult_comm, <- rsum_scale.
  apply rsum_le. intros a I. rewrite Forall_forall in P, H. pose proof (P a I). pose proof (H a I). apply Rmult_le_compat_l; lra.
Qed.
Lemma means_perm : forall l l', Permutation l l' -> exact_mean l = exact_mean l' /\ size_mean l = size_mean l'.
Proof.
  intros l l' P. unfold exact_mean, size_mean. split; f_equal; try (f_equal; apply rsum_perm, Permutation_map, P); apply rsum_perm, Permutation_map, P.
Qed.
Lemma tame_pos : forall f b w, tame f b w -> 0 < w.
Proof. intros f b w [_ H]. pose proof (bpow_gt_0 radix2 (- b)). lra. Qed.
Lemma within_bound : forall f k a l x V, within f k a l x -> 0 <= k -> l <> [] -> Forall (fun wv => 0 < fst wv) l ->
  Forall (fun wv => Rabs (value (snd wv)) <= V) l -> Rabs (x - exact_mean l) <= 2 * k * unit_roundoff f * V + a * least f.
Proof.
  intros f k a l x V H K N P B. unfold within in H. pose proof (size_mean_le l V N P B) as S. pose proof (u_pos f).
  eapply Rle_trans; [exact H|]. apply Rplus_le_compat_r, Rmult_le_compat_l; [apply Rmult_le_pos; lra|exact S].
Qed.
Lemma within_two : forall f k a l l' x x', Permutation l l' -> within f k a l x -> within f k a l' x' ->
  Rabs (x - x') <= 2 * (2 * k * unit_roundoff f * size_mean l + a * least f).
Proof.
  intros f k a l l' x x' P H H'. destruct (means_perm l l' P) as [E S]. unfold within in *. rewrite <- E, <- S in H'.
  replace (x - x') with ((x - exact_mean l) - (x' - exact_mean l)) by ring. eapply Rle_trans; [apply Rabs_triang|]. rewrite Rabs_Ropp. lra.
Qed.
Lemma bands_ok_perm : forall A f b (l l' : list (R * A)), Permutation l l' -> bands_ok f b l -> bands_ok f b l'.
Proof.
  intros A f b l l' P (N & H1 & H2 & H3 & H4 & F). unfold bands_ok. rewrite <- (Permutation_length P). split; [|split; [|split; [|split; [|split]]]]; try assumption.
  - intro E. subst. apply N. now apply Permutation_nil, Permutation_sym.
  - eapply Permutation_Forall; eassumption.
Qed.

Lemma rsum_Q : forall A (h : A -> Q) l, rsum (map (fun a => Q2R (h a)) l) = Q2R (qsum (map h l)).
Proof.
  intros A h l. induction l as [|a l IH]; cbn [map rsum qsum fold_right]; [unfold Q2R; cbn; lra|].
  rewrite Q2R_plus. fold (rsum (map (fun a => Q2R (h a)) l)) (qsum (map h l)). now rewrite IH.
Qed.
Lemma exact_mean_Q : forall A (h : A -> Q) xs ws, List.length xs = List.length ws -> ~ (qsum ws == 0)%Q ->
  exact_mean (all (map (fun bw => (Q2R (snd bw), Q2R (h (fst bw)))) (combine xs ws))) =
  Q2R (qsum (map (fun bw => snd bw * h (fst bw))%Q (combine xs ws)) / qsum ws).
Proof.
  intros A h xs ws E N. rewrite Q2R_div by exact N. unfold exact_mean, all. rewrite !map_map. cbn [fst snd value].
  rewrite <- rsum_Q. f_equal.
  - f_equal. apply map_ext. intro a. now rewrite Q2R_mult.
  - rewrite rsum_Q. f_equal. f_equal. clear N. revert ws E. induction xs as [|x xs IH]; intros [|w ws] E; cbn in *; try discriminate; [reflexivity|].
    f_equal. apply IH. congruence.
Qed.
Lemma qsum_positive : forall ws, ws <> [] -> (forall w, In w ws -> 0 < w)%Q -> ~ (qsum ws == 0)%Q.
Proof.
  intros ws N P E. assert (H : forall l, (forall w, In w l -> 0 < w)%Q -> (0 <= qsum l)%Q).
  { induction l as [|w l IH]; intro Q; [apply Qle_refl|]. change (0 + 0 <= w + qsum l)%Q. apply Qplus_le_compat; [apply Qlt_le_weak, Q; now left|apply IH; intros; apply Q; now right]. }
  destruct ws as [|w ws]; [congruence|]. change (w + qsum ws == 0)%Q in E. pose proof (P w (or_introl eq_refl)) as A. pose proof (H ws (fun x I => P x (or_intror I))) as B.
  assert (C : (0 < w + qsum ws)%Q). { change (0 + 0 < w + qsum ws)%Q. apply Qplus_lt_le_compat; assumption. }
  rewrite E in C. now apply Qlt_irrefl in C.
Qed.
