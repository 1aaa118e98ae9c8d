(** Property C03: column names. *)
From Coq Require Import List String Bool.
From Verif Require Import Naming_model Naming_proofs.
Local Open Scope string_scope.

(** C03: for a fixed prefix and suffix, different names give different columns. *)
Theorem C03_namer_injective : forall (front back : option string) (n m : string),
  namer front back n = namer front back m -> n = m.
Proof. exact namer_injective. Qed.
Print Assumptions C03_namer_injective.

(** C03: an empty prefix and an empty or "noshear" suffix change nothing. *)
Theorem C03_namer_plain : forall front back n,
  (front = None \/ front = Some "") ->
  (back = None \/ back = Some "" \/ back = Some "noshear") ->
  namer front back n = n.
Proof. exact namer_plain. Qed.
Print Assumptions C03_namer_plain.

(** C03: the columns of two fitters whose kinds contain no underscore (all the
    kinds in use: wmom, ksigma, pgauss, am, gauss) never coincide. *)
Theorem C03_namer_distinct_kinds : forall k1 k2 n1 n2,
  no_underscore k1 = true -> no_underscore k2 = true -> k1 <> "" -> k2 <> "" ->
  namer (Some k1) None n1 = namer (Some k2) None n2 -> k1 = k2 /\ n1 = n2.
Proof. exact namer_distinct_kinds. Qed.
Print Assumptions C03_namer_distinct_kinds.

Example C03_example :
  namer (Some "wmom") (Some "noshear") "psf_T" = "wmom_psf_T" /\
  namer (Some "wmom") (Some "1p") "psf_T" = "wmom_psf_T_1p" /\
  namer (Some "") (Some "1p") "g" = "g_1p" /\
  forallb no_underscore ("wmom" :: "ksigma" :: "pgauss" :: "am" :: "gauss" :: nil) = true.
Proof. repeat split. Qed.
