(** What C85 says: the stamp a source of the model data is measured on. *)
From Coq Require Import ZArith QArith List String Bool.
From Verif Require Import Base Arr Dict Lutil_model Lexp_model Lmeas_model Lmeas_spec Lsub_model Lsub_spec Lscar_model.
Import ListNotations.
Local Open Scope string_scope.
Local Open Scope Z_scope.

(** Two observations that may differ in the image only. *)
Definition same_but_image (o o' : lobs) : Prop :=
  o_weight o = o_weight o' /\ o_bmask o = o_bmask o' /\ o_ormask o = o_ormask o' /\ o_noise o = o_noise o' /\
  o_jac o = o_jac o' /\ o_psf o = o_psf o'.

Section Spec.
Variables (P : Type) (sub : P -> P -> P) (val : P -> Q).

(** The observation [o] of band [name] around the first peak of [s] shows the
    pixels of [orig] minus the models of the sources [others]. *)
Definition shows_minus (env : menv) (foot : Z -> option (box * list (Z * Z))) (orig : images P) (others : list (blend_source P))
  (s : source) (name : string) (o : lobs) : Prop :=
  forall x y, hd_error (s_peaks s) = Some (x, y) ->
  let k := m_stamp_size env / 2 in
  nr (o_image o) = 2 * k + 1 /\ nc (o_image o) = 2 * k + 1 /\
  forall i j, exists ms, values_at P foot name (x - k + j) (y - k + i) others ms /\
    px (o_image o) i j = val (minus_all P sub (orig name (x - k + j) (y - k + i)) ms).

(** The observations of a source: everything but the images as they are cut out
    of the caller's exposures, and the images minus the models of all sources of
    [all] but this one. *)
Definition isolated (env : menv) (names : list string) (foot : Z -> option (box * list (Z * Z))) (orig : images P)
  (all : list (blend_source P)) (s : source) (obs : list lobs) : Prop :=
  (exists obs0, source_mbobs env s = Ok obs0 /\ Forall2 same_but_image obs obs0) /\
  Forall2 (shows_minus env foot orig (filter (fun b => negb (b_id P b =? s_id s)) all) s) names obs.
End Spec.
