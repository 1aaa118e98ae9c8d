From Coq Require Import List String Bool Ascii Lia.
From Verif Require Import Naming_model.
Local Open Scope string_scope.

Lemma append_inj_l : forall a b c, a ++ b = a ++ c -> b = c.
Proof.
  induction a as [|x a IH]; simpl; intros b c H; [assumption|].
  inversion H. now apply IH.
Qed.

Lemma append_length : forall a b, length (a ++ b) = (length a + length b)%nat.
Proof. induction a as [|x a IH]; simpl; intro b; [reflexivity|]. now rewrite IH. Qed.

Lemma append_inj_r : forall a b c, a ++ c = b ++ c -> a = b.
Proof.
  induction a as [|x a IH]; destruct b as [|y b]; simpl; intros c H.
  - reflexivity.
  - exfalso. apply (f_equal length) in H. simpl in H. rewrite append_length in H. lia.
  - exfalso. apply (f_equal length) in H. simpl in H. rewrite append_length in H. lia.
  - inversion H. f_equal. eapply IH. eassumption.
Qed.

Lemma append_assoc : forall a b c, (a ++ b) ++ c = a ++ b ++ c.
Proof. induction a as [|x a IH]; simpl; intros; [reflexivity|]. now rewrite IH. Qed.

Lemma namer_injective : forall front back n m,
  namer front back n = namer front back m -> n = m.
Proof.
  intros front back n m. unfold namer.
  destruct (namer_front front) as [f|], (namer_back back) as [b|]; intro H.
  - apply append_inj_r in H. apply append_inj_l in H. now apply append_inj_l in H.
  - apply append_inj_l in H. now apply append_inj_l in H.
  - now apply append_inj_r in H.
  - assumption.
Qed.

Lemma namer_plain : forall front back n,
  (front = None \/ front = Some "") ->
  (back = None \/ back = Some "" \/ back = Some "noshear") ->
  namer front back n = n.
Proof.
  intros front back n [->| ->] [->|[->| ->]]; reflexivity.
Qed.

(** A string without underscore is determined by what precedes the first one. *)
Fixpoint no_underscore (s : string) : bool :=
  match s with
  | EmptyString => true
  | String c r => negb (Ascii.eqb c "_") && no_underscore r
  end.

Lemma prefix_split : forall a b r s,
  no_underscore a = true -> no_underscore b = true ->
  a ++ "_" ++ r = b ++ "_" ++ s -> a = b /\ r = s.
Proof.
  induction a as [|x a IH]; destruct b as [|y b]; simpl; intros r s Ha Hb H.
  - inversion H. now split.
  - inversion H. subst. simpl in Hb. discriminate.
  - inversion H. subst. simpl in Ha. discriminate.
  - inversion H. subst. apply andb_true_iff in Ha. apply andb_true_iff in Hb.
    destruct (IH b r s) as [-> ->]; try tauto; try assumption.
Qed.

Lemma namer_distinct_kinds : forall k1 k2 n1 n2,
  no_underscore k1 = true -> no_underscore k2 = true -> k1 <> "" -> k2 <> "" ->
  namer (Some k1) None n1 = namer (Some k2) None n2 -> k1 = k2 /\ n1 = n2.
Proof.
  intros k1 k2 n1 n2 H1 H2 E1 E2. unfold namer, namer_front, namer_back.
  apply String.eqb_neq in E1. apply String.eqb_neq in E2. rewrite E1, E2.
  now apply prefix_split.
Qed.
