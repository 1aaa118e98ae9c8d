(** numpy.median over exact rationals, and sums of rationals. *)
From Coq Require Import ZArith QArith List Bool Lia Permutation Sorted Lqa.
From Verif Require Import Base.
Import ListNotations.
Local Open Scope Q_scope.

(** Insertion sort. *)
Fixpoint qinsert (x : Q) (l : list Q) : list Q :=
  match l with
  | [] => [x]
  | y :: r => if Qle_bool x y then x :: l else y :: qinsert x r
  end.
Definition qsort (l : list Q) : list Q := fold_right qinsert [] l.

(** numpy.median: middle element, or mean of the two middle elements; nan (None)
    for an empty array. *)
Definition qmedian (l : list Q) : option Q :=
  let s := qsort l in
  let n := List.length s in
  if Nat.eqb n 0 then None
  else if Nat.odd n then Some (nth (Nat.div n 2) s 0)
  else Some ((nth (Nat.div n 2 - 1) s 0 + nth (Nat.div n 2) s 0) / 2).

(** numpy sum. *)
Definition qsum (l : list Q) : Q := fold_right Qplus 0 l.

Lemma qinsert_perm : forall x l, Permutation (x :: l) (qinsert x l).
Proof.
  induction l as [|y l IH]; simpl; [reflexivity|].
  destruct (Qle_bool x y); [reflexivity|].
  rewrite perm_swap. now constructor.
Qed.

Lemma qsort_perm : forall l, Permutation l (qsort l).
Proof.
  induction l as [|x l IH]; simpl; [reflexivity|].
  rewrite <- qinsert_perm. now constructor.
Qed.

Lemma qsort_length : forall l, List.length (qsort l) = List.length l.
Proof. intro l. symmetry. apply Permutation_length. apply qsort_perm. Qed.

Lemma qmedian_none : forall l, qmedian l = None <-> l = [].
Proof.
  intro l. unfold qmedian. rewrite qsort_length. destruct l as [|x l]; simpl.
  - split; reflexivity.
  - split; [|discriminate]. destruct (Nat.odd _); discriminate.
Qed.

Lemma nth_in_sorted : forall l n, (n < List.length (qsort l))%nat -> In (nth n (qsort l) 0) l.
Proof.
  intros l n H. apply (Permutation_in _ (Permutation_sym (qsort_perm l))).
  now apply nth_In.
Qed.

(** The median lies between any bounds on the data. *)
Lemma qmedian_bounds : forall l m lo hi,
  (forall x, In x l -> lo <= x /\ x <= hi) -> qmedian l = Some m -> lo <= m /\ m <= hi.
Proof.
  intros l m lo hi Hb H. unfold qmedian in H.
  destruct (Nat.eqb_spec (List.length (qsort l)) 0) as [|Hn]; [discriminate|].
  assert (Hpos : (0 < List.length (qsort l))%nat) by lia.
  assert (Hhalf : (Nat.div (List.length (qsort l)) 2 < List.length (qsort l))%nat)
    by (apply Nat.div_lt; lia).
  destruct (Nat.odd _).
  - apply Some_inj in H. subst m. apply Hb. now apply nth_in_sorted.
  - apply Some_inj in H. subst m.
    destruct (Hb (nth (Nat.div (List.length (qsort l)) 2) (qsort l) 0)) as [A1 A2];
      [now apply nth_in_sorted|].
    destruct (Hb (nth (Nat.div (List.length (qsort l)) 2 - 1) (qsort l) 0)) as [B1 B2];
      [apply nth_in_sorted; lia|].
    set (a := nth (Nat.div (List.length (qsort l)) 2) (qsort l) 0) in *.
    set (b := nth (Nat.div (List.length (qsort l)) 2 - 1) (qsort l) 0) in *.
    split; [apply Qle_shift_div_l|apply Qle_shift_div_r]; lra.
Qed.

Lemma qmedian_pos : forall l m, (forall x, In x l -> 0 < x) -> qmedian l = Some m -> 0 < m.
Proof.
  intros l m Hp H. unfold qmedian in H.
  destruct (Nat.eqb_spec (List.length (qsort l)) 0) as [|Hn]; [discriminate|].
  assert (Hpos : (0 < List.length (qsort l))%nat) by lia.
  assert (Hhalf : (Nat.div (List.length (qsort l)) 2 < List.length (qsort l))%nat)
    by (apply Nat.div_lt; lia).
  destruct (Nat.odd _).
  - apply Some_inj in H. subst m. apply Hp. now apply nth_in_sorted.
  - apply Some_inj in H. subst m.
    assert (A : 0 < nth (Nat.div (List.length (qsort l)) 2) (qsort l) 0)
      by (apply Hp; now apply nth_in_sorted).
    assert (B : 0 < nth (Nat.div (List.length (qsort l)) 2 - 1) (qsort l) 0)
      by (apply Hp; apply nth_in_sorted; lia).
    apply Qlt_shift_div_l; lra.
Qed.

(** Scaling all data by a positive constant scales the median. *)
Lemma Qle_bool_scale : forall c x y, 0 < c -> Qle_bool (c * x) (c * y) = Qle_bool x y.
Proof.
  intros c x y Hc.
  destruct (Qle_bool x y) eqn:E.
  - apply Qle_bool_iff in E. apply Qle_bool_iff. nra.
  - destruct (Qle_bool (c * x) (c * y)) eqn:E'; [|reflexivity].
    apply Qle_bool_iff in E'.
    assert (x <= y) by nra. apply Qle_bool_iff in H. congruence.
Qed.

Lemma qsort_scale : forall c l, 0 < c -> qsort (map (Qmult c) l) = map (Qmult c) (qsort l).
Proof.
  intros c l Hc.
  assert (Hi : forall x s, qinsert (c * x) (map (Qmult c) s) = map (Qmult c) (qinsert x s)).
  { intros x s. induction s as [|y s IH]; simpl; [reflexivity|].
    rewrite Qle_bool_scale by assumption. destruct (Qle_bool x y); simpl; [reflexivity|].
    now rewrite IH. }
  induction l as [|x l IH]; simpl; [reflexivity|]. rewrite IH. apply Hi.
Qed.

Lemma qmedian_scale : forall c l m, 0 < c -> qmedian l = Some m ->
  exists m', qmedian (map (Qmult c) l) = Some m' /\ m' == c * m.
Proof.
  intros c l m Hc H. unfold qmedian in *. rewrite qsort_scale by assumption.
  rewrite map_length.
  destruct (Nat.eqb_spec (List.length (qsort l)) 0) as [|Hn]; [discriminate|].
  assert (Hz : forall n, nth n (map (Qmult c) (qsort l)) 0 == c * nth n (qsort l) 0).
  { intro n. destruct (Nat.lt_ge_cases n (List.length (qsort l))) as [Hl|Hl].
    - rewrite nth_indep with (d' := c * 0) by now rewrite map_length.
      rewrite map_nth. reflexivity.
    - rewrite !nth_overflow; [ring|assumption|now rewrite map_length]. }
  destruct (Nat.odd _); apply Some_inj in H; subst m; eexists; (split; [reflexivity|]).
  - apply Hz.
  - rewrite !Hz. field.
Qed.

(** Sums. *)
Lemma fold_left_qsum : forall A (f : A -> Q) l a,
  fold_left (fun s x => s + f x) l a == a + qsum (map f l).
Proof.
  induction l as [|x l IH]; intro a; simpl.
  - ring.
  - rewrite IH. ring.
Qed.

Lemma qsum_app : forall a b, qsum (a ++ b) == qsum a + qsum b.
Proof. induction a as [|x a IH]; intro b; simpl; [ring|]. rewrite IH. ring. Qed.

Lemma qsum_pos : forall l, l <> [] -> (forall x, In x l -> 0 < x) -> 0 < qsum l.
Proof.
  induction l as [|x l IH]; intros Hne H; [contradiction|]. simpl.
  assert (0 < x) by (apply H; now left).
  destruct l as [|y l].
  - simpl. lra.
  - assert (0 < qsum (y :: l)) by (apply IH; [discriminate|]; intros; apply H; now right). lra.
Qed.

Lemma qsum_nonneg : forall l, (forall x, In x l -> 0 <= x) -> 0 <= qsum l.
Proof.
  induction l as [|x l IH]; intro H; simpl; [lra|].
  assert (0 <= x) by (apply H; now left).
  assert (0 <= qsum l) by (apply IH; intros; apply H; now right). lra.
Qed.

Lemma qsum_mult_l : forall c l, qsum (map (Qmult c) l) == c * qsum l.
Proof. induction l as [|x l IH]; simpl; [ring|]. rewrite IH. ring. Qed.

Lemma qsum_map_mult : forall A (f : A -> Q) c l,
  qsum (map (fun x => c * f x) l) == c * qsum (map f l).
Proof. induction l as [|x l IH]; simpl; [ring|]. rewrite IH. ring. Qed.

Lemma qsum_map_plus : forall A (f g : A -> Q) l,
  qsum (map (fun x => f x + g x) l) == qsum (map f l) + qsum (map g l).
Proof. induction l as [|x l IH]; simpl; [ring|]. rewrite IH. ring. Qed.

Lemma qsum_map_ext : forall A (f g : A -> Q) l,
  (forall x, In x l -> f x == g x) -> qsum (map f l) == qsum (map g l).
Proof.
  induction l as [|x l IH]; intro H; simpl; [reflexivity|].
  rewrite (H x) by now left. rewrite IH; [reflexivity|]. intros; apply H; now right.
Qed.

Lemma qsum_map_le : forall A (f g : A -> Q) l,
  (forall x, In x l -> f x <= g x) -> qsum (map f l) <= qsum (map g l).
Proof.
  induction l as [|x l IH]; intro H; simpl; [lra|].
  assert (f x <= g x) by (apply H; now left).
  assert (qsum (map f l) <= qsum (map g l)) by (apply IH; intros; apply H; now right). lra.
Qed.

Lemma qsum_perm : forall a b, Permutation a b -> qsum a == qsum b.
Proof.
  induction 1; simpl.
  - reflexivity.
  - now rewrite IHPermutation.
  - ring.
  - now rewrite IHPermutation1.
Qed.

(** A weighted mean with positive total weight lies between bounds. *)
Lemma weighted_mean_bounds : forall A (w v : A -> Q) l lo hi,
  (forall x, In x l -> 0 <= w x) ->
  (forall x, In x l -> 0 < w x -> lo <= v x /\ v x <= hi) ->
  0 < qsum (map w l) ->
  lo <= qsum (map (fun x => w x * v x) l) / qsum (map w l) /\
  qsum (map (fun x => w x * v x) l) / qsum (map w l) <= hi.
Proof.
  intros A w v l lo hi Hw Hv Hs. split.
  - apply Qle_shift_div_l; [assumption|].
    rewrite <- qsum_map_mult. apply qsum_map_le. intros x Hx.
    specialize (Hw x Hx). destruct (Qlt_le_dec 0 (w x)) as [Hp|Hp].
    + destruct (Hv x Hx Hp). nra.
    + assert (E : w x == 0) by lra. rewrite E. lra.
  - apply Qle_shift_div_r; [assumption|].
    rewrite <- qsum_map_mult. apply qsum_map_le. intros x Hx.
    specialize (Hw x Hx). destruct (Qlt_le_dec 0 (w x)) as [Hp|Hp].
    + destruct (Hv x Hx Hp). nra.
    + assert (E : w x == 0) by lra. rewrite E. lra.
Qed.

(** ** Specification of the median (independent of the sort used) *)

Definition is_median (m : Q) (l : list Q) : Prop :=
  exists s, Permutation l s /\ StronglySorted Qle s /\ l <> [] /\
    m == (nth ((List.length s - 1) / 2) s 0 + nth (List.length s / 2) s 0) / 2.

Lemma qinsert_sorted : forall x l, StronglySorted Qle l -> StronglySorted Qle (qinsert x l).
Proof.
  induction l as [|y l IH]; intro H; simpl.
  - repeat constructor.
  - destruct (Qle_bool x y) eqn:E.
    + apply Qle_bool_iff in E. constructor; [assumption|].
      constructor; [assumption|]. inversion H; subst.
      eapply Forall_impl; [|eassumption]. intros a Ha. cbv beta in Ha. lra.
    + assert (Hxy : y < x).
      { destruct (Qlt_le_dec y x) as [|Hle]; [assumption|].
        apply Qle_bool_iff in Hle. congruence. }
      inversion H; subst. constructor; [now apply IH|].
      apply Forall_forall. intros a Ha.
      apply (Permutation_in _ (Permutation_sym (qinsert_perm x l))) in Ha.
      destruct Ha as [<-|Ha]; [lra|]. rewrite Forall_forall in H3. now apply H3.
Qed.

Lemma qsort_sorted : forall l, StronglySorted Qle (qsort l).
Proof. induction l as [|x l IH]; simpl; [constructor|]. now apply qinsert_sorted. Qed.

Lemma qmedian_is_median : forall l m, qmedian l = Some m -> is_median m l.
Proof.
  intros l m H. exists (qsort l). split; [apply qsort_perm|]. split; [apply qsort_sorted|].
  assert (Hne : l <> []).
  { intro E. apply qmedian_none in E. congruence. }
  split; [assumption|]. unfold qmedian in H.
  destruct (Nat.eqb_spec (List.length (qsort l)) 0) as [|Hn]; [discriminate|].
  destruct (Nat.odd (List.length (qsort l))) eqn:Eo; apply Some_inj in H; subst m.
  - apply Nat.odd_spec in Eo. destruct Eo as [k Ek]. rewrite Ek.
    replace ((2 * k + 1 - 1) / 2)%nat with k by (replace (2 * k + 1 - 1)%nat with (k * 2)%nat by lia; now rewrite Nat.div_mul).
    replace ((2 * k + 1) / 2)%nat with k.
    2:{ replace (2 * k + 1)%nat with (1 + k * 2)%nat by lia. rewrite Nat.div_add by lia. reflexivity. }
    field.
  - assert (Ee : Nat.even (List.length (qsort l)) = true).
    { rewrite <- Nat.negb_odd, Eo. reflexivity. }
    apply Nat.even_spec in Ee. destruct Ee as [k Ek]. rewrite Ek in *.
    destruct k as [|k]; [lia|].
    replace ((2 * S k - 1) / 2)%nat with k.
    2:{ replace (2 * S k - 1)%nat with (1 + k * 2)%nat by lia. rewrite Nat.div_add by lia. reflexivity. }
    replace ((2 * S k) / 2)%nat with (S k).
    2:{ replace (2 * S k)%nat with (S k * 2)%nat by lia. now rewrite Nat.div_mul. }
    replace (S k - 1)%nat with k by lia. reflexivity.
Qed.
