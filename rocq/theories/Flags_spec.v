(** Specification vocabulary for the flag properties C01, C02. *)
From Coq Require Import ZArith List String.
From Verif Require Import Base Flags_model.
Local Open Scope Z_scope.

(** The user's test for a flag: [value & FLAG != 0]. *)
Definition has_flag (v : Z) (f : procflag) : Prop := Z.land v (flag_value f) <> 0.

(** The ngmix part of a value: its low 19 bits. *)
Definition ngmix_part (v : Z) : Z := v mod 2 ^ 19.

(** An ngmix name table obeying the bit partition of procflags.py:6-7:
    integer keys and values below 2^19, no metadetect description used, and
    whenever it maps k to v and v to w, then w is k (two-way table). *)
Definition ngmix_table_ok (m : dict) : Prop :=
  NoDup (map fst m) /\
  NoDup (map snd m) /\
  (forall k v, In (k, v) m ->
     (forall z, k = KInt z -> 0 <= z < 2 ^ 19) /\
     (forall z, v = KInt z -> 0 <= z < 2 ^ 19) /\
     (forall f, k <> KStr (flag_name f) /\ v <> KStr (flag_name f)) /\
     (forall w, In (v, w) m -> w = k)).
