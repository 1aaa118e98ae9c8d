(** Shared vocabulary: Python exceptions as values, ranges, small list helpers.
    Nothing here models a particular function of /repo; it models the Python
    and numpy notions the other files use. *)
From Coq Require Import ZArith List String Bool Lia FinFun.
Import ListNotations.
Local Open Scope Z_scope.

(** The exception classes raised by the modelled code (or by the numpy/Python
    operations it uses). *)
Inductive exn : Type :=
| ValueError | RuntimeError | AssertionError | IndexError | KeyError
| TypeError | AttributeError | UnboundLocalError | ZeroDivisionError
| LinAlgError
| LengthError        (* lsst.pex.exceptions.LengthError *)
| LSSTRuntimeError   (* lsst.pex.exceptions.RuntimeError / TaskError *)
| BootPSFFailure     (* ngmix.gexceptions.BootPSFFailure *)
| GMixFatalError     (* ngmix.gexceptions *)
| OtherError (n : nat).

(** Result of running a Python function: a value or an exception. *)
Inductive outcome (A : Type) : Type :=
| Ok (a : A)
| Raise (e : exn).
Arguments Ok {A} a.
Arguments Raise {A} e.

Definition obind {A B} (x : outcome A) (f : A -> outcome B) : outcome B :=
  match x with
  | Ok a => f a
  | Raise e => Raise e
  end.

Notation "'do' x <- e ; f" := (obind e (fun x => f))
  (at level 200, x pattern, e at level 100, f at level 200, right associativity).

Fixpoint omap {A B} (f : A -> outcome B) (l : list A) : outcome (list B) :=
  match l with
  | nil => Ok nil
  | x :: r => do y <- f x; do ys <- omap f r; Ok (y :: ys)
  end.

Lemma Ok_inj : forall A (a b : A), Ok a = Ok b -> a = b.
Proof. intros A a b H. now inversion H. Qed.

Lemma Some_inj : forall A (a b : A), Some a = Some b -> a = b.
Proof. intros A a b H. now inversion H. Qed.

(** Python [range(n)] and [range(lo, hi)]. *)
Definition zrange2 (lo hi : Z) : list Z :=
  map (fun k => lo + Z.of_nat k) (seq 0 (Z.to_nat (hi - lo))).
Definition zrange (n : Z) : list Z := zrange2 0 n.

(** Python [len]. *)
Definition zlen {A} (l : list A) : Z := Z.of_nat (List.length l).

(** Python list/array indexing with negative indices counted from the end. *)
Definition py_index {A} (l : list A) (i : Z) : outcome A :=
  let n := zlen l in
  let j := if i <? 0 then i + n else i in
  if (0 <=? j) && (j <? n) then
    match nth_error l (Z.to_nat j) with
    | Some a => Ok a
    | None => Raise IndexError
    end
  else Raise IndexError.

Lemma in_zrange2 : forall lo hi x, In x (zrange2 lo hi) <-> lo <= x < hi.
Proof.
  intros lo hi x. unfold zrange2. rewrite in_map_iff. split.
  - intros [k [<- Hk]]. apply in_seq in Hk. lia.
  - intros H. exists (Z.to_nat (x - lo)). split; [lia|]. apply in_seq. lia.
Qed.

Lemma in_zrange : forall n x, In x (zrange n) <-> 0 <= x < n.
Proof. intros. unfold zrange. apply in_zrange2. Qed.

Lemma zrange2_nodup : forall lo hi, NoDup (zrange2 lo hi).
Proof.
  intros. unfold zrange2. apply FinFun.Injective_map_NoDup.
  - intros a b H. lia.
  - apply seq_NoDup.
Qed.

Lemma zrange_nodup : forall n, NoDup (zrange n).
Proof. intros. apply zrange2_nodup. Qed.

Lemma zrange2_length : forall lo hi, List.length (zrange2 lo hi) = Z.to_nat (hi - lo).
Proof. intros. unfold zrange2. rewrite map_length, seq_length. reflexivity. Qed.

Lemma zrange2_empty : forall lo hi, hi <= lo -> zrange2 lo hi = nil.
Proof.
  intros. unfold zrange2. replace (Z.to_nat (hi - lo)) with O by lia. reflexivity.
Qed.

Lemma zrange2_cons : forall lo hi, lo < hi -> zrange2 lo hi = lo :: zrange2 (lo + 1) hi.
Proof.
  intros. unfold zrange2.
  replace (Z.to_nat (hi - lo)) with (S (Z.to_nat (hi - (lo + 1)))) by lia.
  simpl. f_equal; [lia|].
  rewrite <- seq_shift, map_map. apply map_ext. intros. lia.
Qed.

Lemma zrange2_snoc : forall lo hi, lo <= hi -> zrange2 lo (hi + 1) = zrange2 lo hi ++ [hi].
Proof.
  intros. unfold zrange2.
  replace (Z.to_nat (hi + 1 - lo)) with (Z.to_nat (hi - lo) + 1)%nat by lia.
  rewrite seq_app, map_app. simpl. f_equal. f_equal. lia.
Qed.

Lemma omap_ok_length : forall A B (f : A -> outcome B) l r,
  omap f l = Ok r -> List.length r = List.length l.
Proof.
  induction l as [|x l IH]; simpl; intros r H.
  - inversion H; reflexivity.
  - destruct (f x); simpl in H; [|discriminate].
    destruct (omap f l) eqn:E; simpl in H; [|discriminate].
    inversion H; subst. simpl. f_equal. apply IH. reflexivity.
Qed.

Lemma omap_ok_Forall2 : forall A B (f : A -> outcome B) l r,
  omap f l = Ok r -> Forall2 (fun a b => f a = Ok b) l r.
Proof.
  induction l as [|x l IH]; simpl; intros r H.
  - inversion H; constructor.
  - destruct (f x) eqn:Ef; simpl in H; [|discriminate].
    destruct (omap f l) eqn:E; simpl in H; [|discriminate].
    inversion H; subst. constructor; auto.
Qed.

(** A loop whose body may raise. *)
Fixpoint ofold {A S} (f : S -> A -> outcome S) (l : list A) (s : S) : outcome S :=
  match l with
  | nil => Ok s
  | x :: r => do s' <- f s x; ofold f r s'
  end.

Lemma ofold_app : forall A S (f : S -> A -> outcome S) l1 l2 s,
  ofold f (l1 ++ l2) s = do s' <- ofold f l1 s; ofold f l2 s'.
Proof.
  induction l1 as [|x l1 IH]; intros l2 s; simpl; [reflexivity|].
  destruct (f s x); simpl; [apply IH|reflexivity].
Qed.
