(** Specification vocabulary for the detection with the scarlet deblender. *)
From Coq Require Import ZArith QArith List String Bool.
From Verif Require Import Base Arr Dict Lutil_model Lexp_model Lthr_model Lmeas_model Lrun_model Ldeb_model.
Import ListNotations.
Local Open Scope string_scope.

Section S.
Context {Dec : Type} (D : deblender Dec).

(** The models are made for the bands of the exposure only, and footprints can
    be attached in a band for which there are models only. *)
Definition models_of_bands : Prop :=
  forall mb dec found cat sc, db_deblend D mb dec found = Ok (cat, sc) -> incl (sc_bands sc) (map fst mb).
Definition attaches_modelled : Prop :=
  forall sc cat b cat', db_attach D sc cat b = Ok cat' -> In b (sc_bands sc).

(** The deconvolved exposures: one for each band, in the same order, made from
    the exposure of that band, under the name of that band, for the same
    detected sources. *)
Definition deconvolved_bands (found : list source) (mb : list (string * exposure)) (decs : list (string * Dec)) : Prop :=
  List.length decs = List.length mb /\
  forall i name e, nth_error mb i = Some (name, e) ->
    exists d, nth_error decs i = Some d /\ db_deconvolve D e found name = Ok d.

(** Nothing of the stack fails: detection, each deconvolution, the deblender,
    and attaching footprints in the bands of the models. The models are for
    every band of the exposure. *)
Definition works : Prop :=
  (forall d, exists r, db_detect D d = Ok r) /\
  (forall e found name, exists d, db_deconvolve D e found name = Ok d) /\
  (forall mb dec found, exists cat sc, db_deblend D mb dec found = Ok (cat, sc) /\ incl (map fst mb) (sc_bands sc)) /\
  (forall sc cat b, In b (sc_bands sc) -> exists cat', db_attach D sc cat b = Ok cat').
End S.
