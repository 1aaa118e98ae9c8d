(** Properties C01 and C02: processing flags. *)
From Coq Require Import ZArith List String Bool Lia.
From Verif Require Import Base Flags_model Flags_spec Flags_proofs.
Import ListNotations.
Local Open Scope Z_scope.

(** C01: a flag column value built from an ngmix value below 2^19 and any list
    of metadetect flags shows exactly those flags and exactly that value, and
    fits in an int32 column. *)
Theorem C01_flags_decode : forall (low : Z) (fs : list procflag),
  0 <= low < 2 ^ 19 ->
  0 <= or_flags low fs < 2 ^ 31 /\
  ngmix_part (or_flags low fs) = low /\
  forall f, has_flag (or_flags low fs) f <-> In f fs.
Proof.
  exact (fun low fs H => conj (or_flags_range low fs H)
           (conj (or_flags_low low fs H) (fun f => or_flags_has_flag low fs f H))).
Qed.
Print Assumptions C01_flags_decode.

(** C01: two different situations never give the same value. *)
Theorem C01_flags_unique : forall low fs low' fs',
  0 <= low < 2 ^ 19 -> 0 <= low' < 2 ^ 19 ->
  or_flags low fs = or_flags low' fs' ->
  low = low' /\ forall f, In f fs <-> In f fs'.
Proof. exact or_flags_unique. Qed.
Print Assumptions C01_flags_unique.

Example C01_example :
  or_flags 5 [PSF_FAILURE; ZERO_WEIGHTS; PSF_FAILURE] = 5 + 2 ^ 21 + 2 ^ 25.
Proof. reflexivity. Qed.

(** C02: every metadetect flag is found by value and by name. *)
Theorem C02_name_map_two_way : forall (ngmix_map : dict) (f : procflag),
  ngmix_table_ok ngmix_map ->
  dict_get (name_map ngmix_map) (KInt (flag_value f)) = Some (KStr (flag_name f)) /\
  dict_get (name_map ngmix_map) (KStr (flag_name f)) = Some (KInt (flag_value f)).
Proof.
  exact (fun m f H => conj (name_map_flag_value m f H) (name_map_flag_name m f H)).
Qed.
Print Assumptions C02_name_map_two_way.

(** C02: the ngmix entries survive and become two-way. *)
Theorem C02_name_map_keeps_ngmix : forall (ngmix_map : dict) k v,
  ngmix_table_ok ngmix_map -> In (k, v) ngmix_map ->
  dict_get (name_map ngmix_map) k = Some v /\ dict_get (name_map ngmix_map) v = Some k.
Proof. exact name_map_keeps_ngmix. Qed.
Print Assumptions C02_name_map_keeps_ngmix.

(** C02: the descriptive string of a value made of metadetect flags lists
    exactly the descriptions of the flags that are set, in bit order. *)
Theorem C02_description_exact : forall (ngmix_map : dict) (fs : list procflag),
  ngmix_table_ok ngmix_map ->
  get_procflags_pieces ngmix_map (or_flags 0 fs) =
  map (fun f => KStr (flag_name f))
      (filter (fun f => existsb (fun g => flag_value g =? flag_value f) fs) all_flags).
Proof. exact pieces_or_flags. Qed.
Print Assumptions C02_description_exact.

(** A table of the shape ngmix uses meets the hypotheses. *)
Example C02_table :
  ngmix_table_ok [(KInt 1, KStr "no attempt"%string); (KInt 2, KStr "bad var"%string);
                  (KStr "no attempt"%string, KInt 1); (KStr "bad var"%string, KInt 2)].
Proof.
  split; [|split].
  - repeat constructor; simpl; intuition discriminate.
  - repeat constructor; simpl; intuition discriminate.
  - intros k v H. simpl in H.
    destruct H as [E|[E|[E|[E|[]]]]]; inversion E; subst; clear E;
      (split; [intros z E; inversion E; subst; try lia|]);
      (split; [intros z E; inversion E; subst; try lia|]);
      (split; [intro f; split; destruct f; discriminate|]);
      intros w H; simpl in H;
      repeat (destruct H as [E|H]; [inversion E; subst; reflexivity|]); tauto.
Qed.

Example C02_example :
  get_procflags_pieces
    [(KInt 1, KStr "no attempt"%string); (KStr "no attempt"%string, KInt 1)]
    (or_flags 1 [NO_DATA; PSF_FAILURE])
  = [KStr "no attempt"%string; KStr "PSF fit failed"%string; KStr "no data"%string].
Proof. reflexivity. Qed.
