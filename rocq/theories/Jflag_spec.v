(** Specification vocabulary for C113: the causes of the flags of the joint
    fitters. *)
From Coq Require Import ZArith QArith List String Bool.
From Verif Require Import Base Arr Median Flags_model Coadd_model Coadd_spec Wavg_model Wavg_spec Joint_model Joint_spec Wflag_spec.
Import ListNotations.
Local Open Scope Z_scope.

(** What can be wrong with the data of an object: a band without stamp, a band
    with several, a stamp without positive weight, a masked pixel. *)
Inductive data_problem (bm : Z) (mbobs : list (list fobs)) : Z -> Prop :=
| band_empty : In [] mbobs -> data_problem bm mbobs (flag_value MISSING_BAND)
| band_many : forall ol, In ol mbobs -> (2 <= List.length ol)%nat -> data_problem bm mbobs (flag_value INCONSISTENT_BANDS)
| no_weight : forall o, In [o] mbobs -> ~ has_positive (f_weight o) -> data_problem bm mbobs (flag_value ZERO_WEIGHTS)
| masked : forall o m i j, In [o] mbobs -> f_bmask o = Some m -> inside m i j -> Z.land (px m i j) bm <> 0 ->
    data_problem bm mbobs (flag_value EDGE_HIT).
(** A shear band that does not exist. *)
Definition band_beyond (mbobs : list (list fobs)) (sb : list Z) (f : Z) : Prop :=
  f = flag_value INCONSISTENT_BANDS /\ exists b, In b sb /\ zlen mbobs <= b.

(** Nothing was fit: every flag column keeps its initial value and the flags
    have in addition exactly the given causes. *)
Definition not_tried (ng : ngcodes) (r : row) (cause : Z -> Prop) : Prop :=
  bits_from (o_flags r) (fun f => f = NO_ATTEMPT ng \/ cause f) /\
  o_obj_flags r = NO_ATTEMPT ng /\ o_T_flags r = NO_ATTEMPT ng /\ o_psf_flags r = NO_ATTEMPT ng /\
  forall f, In f (o_band_flux_flags r) -> f = NO_ATTEMPT ng.

(** Band [k] of [n] is among the (possibly negative, counted from the end)
    numbers [sb]. *)
Definition names_band (n : Z) (sb : list Z) (k : nat) : Prop :=
  exists b, In b sb /\ (b = Z.of_nat k \/ b = Z.of_nat k - n).
