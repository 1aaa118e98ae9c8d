(** Python dictionaries with string keys: association lists in insertion order,
    and their elementary facts. *)
From Coq Require Import List String Bool.
Import ListNotations.

(** [k in l] for a list of strings. *)
Definition smem (k : string) (l : list string) : bool := existsb (String.eqb k) l.
(** d.get(k) *)
Fixpoint sget {V} (k : string) (d : list (string * V)) : option V :=
  match d with
  | [] => None
  | (k', v) :: r => if String.eqb k k' then Some v else sget k r
  end.
(** d[k] = v *)
Fixpoint sput {V} (k : string) (v : V) (d : list (string * V)) : list (string * V) :=
  match d with
  | [] => [(k, v)]
  | (k', w) :: r => if String.eqb k k' then (k', v) :: r else (k', w) :: sput k v r
  end.
(** d.update(e) *)
Definition supdate {V} (d e : list (string * V)) : list (string * V) :=
  fold_left (fun acc kv => sput (fst kv) (snd kv) acc) e d.
Definition skeys {V} (d : list (string * V)) : list string := map fst d.

Lemma smem_In : forall k l, smem k l = true <-> In k l.
Proof.
  intros k l. unfold smem. rewrite existsb_exists. split.
  - intros [x [H E]]. apply String.eqb_eq in E. now subst.
  - intros H. exists k. split; auto. apply String.eqb_refl.
Qed.
Lemma smem_false : forall k l, smem k l = false <-> ~ In k l.
Proof. intros k l. rewrite <- smem_In. destruct (smem k l); split; congruence. Qed.
Lemma sget_In : forall V k (d : list (string * V)), In k (skeys d) <-> exists v, sget k d = Some v.
Proof.
  intros V k d. induction d as [|[k' v] d IH]; cbn; [split; [tauto|intros [v H]; discriminate]|].
  destruct (String.eqb_spec k k') as [<-|N]; [split; eauto|]. rewrite <- IH. split; [intros [H|H]; [congruence|auto]|auto].
Qed.
Lemma sget_None : forall V k (d : list (string * V)), sget k d = None <-> ~ In k (skeys d).
Proof.
  intros V k d. rewrite sget_In. destruct (sget k d) as [v|]; split; try congruence.
  - intros H. destruct H. eauto.
  - intros _ [v H]. discriminate.
Qed.
Lemma sget_put : forall V k k' (v : V) d, sget k (sput k' v d) = if String.eqb k k' then Some v else sget k d.
Proof.
  intros V k k' v d. induction d as [|[a w] d IH]; cbn; [destruct (String.eqb_spec k k'); reflexivity|].
  destruct (String.eqb_spec k' a) as [<-|N]; cbn.
  - destruct (String.eqb_spec k k'); reflexivity.
  - destruct (String.eqb_spec k a) as [->|N2]; [|exact IH]. destruct (String.eqb_spec a k'); congruence.
Qed.
Lemma skeys_put : forall V k k' (v : V) d, In k (skeys (sput k' v d)) <-> k = k' \/ In k (skeys d).
Proof.
  intros V k k' v d. rewrite !sget_In, sget_put. destruct (String.eqb_spec k k') as [->|N]; [split; eauto|].
  split; [auto|intros [H|H]; [congruence|auto]].
Qed.
Lemma sget_update : forall V (e d : list (string * V)) k, NoDup (skeys e) ->
  sget k (supdate d e) = match sget k e with Some v => Some v | None => sget k d end.
Proof.
  unfold supdate. intros V e. induction e as [|[a v] e IH]; intros d k N; [reflexivity|]. cbn in N. inversion N; subst.
  cbn [fold_left fst snd sget]. rewrite IH by auto. rewrite sget_put. destruct (String.eqb_spec k a) as [->|Ne]; [|reflexivity].
  destruct (sget a e) eqn:E; [|reflexivity]. exfalso. apply H1. apply sget_In. eauto.
Qed.
Lemma sget_In_pair : forall V k (v : V) d, NoDup (skeys d) -> (In (k, v) d <-> sget k d = Some v).
Proof.
  intros V k v d N. induction d as [|[a w] d IH]; cbn; [split; [tauto|discriminate]|]. inversion N; subst.
  destruct (String.eqb_spec k a) as [->|Ne].
  - split; [intros [H|H]; [congruence|]|intros H; left; congruence]. exfalso. apply H1. apply (in_map fst) in H. exact H.
  - rewrite <- IH by auto. split; [intros [H|H]; [congruence|auto]|auto].
Qed.
Lemma sput_NoDup : forall V k (v : V) d, NoDup (skeys d) -> NoDup (skeys (sput k v d)).
Proof.
  intros V k v d N. induction d as [|[a w] d IH]; cbn; [constructor; [intros []|constructor]|]. inversion N; subst.
  destruct (String.eqb_spec k a) as [->|Ne]; cbn; [exact N|]. constructor; auto. intros H. apply skeys_put in H.
  destruct H; [congruence|auto].
Qed.
