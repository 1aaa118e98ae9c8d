(** C34, C67: construction of a Metadetect object. *)
From Coq Require Import ZArith QArith List String Bool Lia.
From Verif Require Import Base Conf_model Conf_spec Conf_proofs.
Import ListNotations.
Local Open Scope string_scope.
Local Open Scope Z_scope.

(** C34: construction succeeds exactly on the usable configurations, whatever
    the band combinations. *)
Theorem C34_accepts_exactly : forall cfg nband keyf cobs sa da,
  (exists m, construct cfg nband keyf cobs sa da = Ok m) <-> usable_config cfg keyf cobs.
Proof. exact construct_ok. Qed.
Print Assumptions C34_accepts_exactly.

(** C34: an accepted configuration has one complete fitter per fitter
    configuration, in order, with the configured aperture and switches. *)
Theorem C34_complete_fitters : forall cfg nband keyf cobs sa da m,
  construct cfg nband keyf cobs sa da = Ok m ->
  Forall2 fitter_for (fitter_configs cfg) (md_fitters m).
Proof. exact construct_for. Qed.
Print Assumptions C34_complete_fitters.

(** C34: what the exception says about the configuration. *)
Theorem C34_errors : forall cfg nband keyf cobs sa da e,
  construct cfg nband keyf cobs sa da = Raise e ->
  (e = AssertionError /\ (cf_metacal cfg = false \/ cf_meds cfg = false)) \/
  (e = RuntimeError /\ (keyf <> cobs \/ (cf_fitters cfg <> None /\ some_top_entry (cf_top cfg)))) \/
  (exists c m, In c (fitter_configs cfg) /\ asks_for c m /\
     ((e = ValueError /\ ~ In m moment_models /\ ~ In m joint_models) \/
      (e = KeyError /\ In m moment_models /\ no_aperture c) \/
      (e = AttributeError /\ In m joint_models /\ exists r, regularised c r))).
Proof. exact construct_errors. Qed.
Print Assumptions C34_errors.

(** C34: the band combinations: all bands by default, the given lists otherwise. *)
Theorem C34_band_combinations : forall cfg nband keyf cobs sa da m,
  construct cfg nband keyf cobs sa da = Ok m ->
  (sa = None -> md_shear m = [zrange nband]) /\
  (forall l, sa = Some l -> md_shear m = l) /\
  (da = DetNone -> List.length (md_det m) = List.length (md_shear m) /\
                   forall d, In d (md_det m) -> d = zrange nband) /\
  (da = DetShear -> md_det m = md_shear m) /\
  (forall l, da = DetList l -> md_det m = l) /\
  (cf_nodet cfg = None -> md_nodet m = 0) /\ (forall f, cf_nodet cfg = Some f -> md_nodet m = f).
Proof.
  intros cfg nband keyf cobs sa da m H. apply construct_inv in H. destruct H as [r [_ ->]].
  cbn [md_shear md_det md_nodet]. repeat split; intros; subst; auto.
  - apply repeat_length.
  - eapply repeat_spec; eauto.
  - now rewrite H.
  - now rewrite H.
Qed.
Print Assumptions C34_band_combinations.

(** C34 is REFUTED for an empty list of fitters: it is accepted, but leaves no
    fitter and no aperture, so that every later measurement fails (the
    combination of no results is a TypeError, see Joint). *)
Theorem C34_empty_fitters_refuted : exists cfg m,
  construct cfg 1 false false None DetNone = Ok m /\ md_fitters m = [].
Proof.
  exists (mkConfig true true None (Some []) (mkFc None None None None)). eexists. split; reflexivity.
Qed.
Print Assumptions C34_empty_fitters_refuted.

(** C34: without that, an accepted configuration has a first fitter, hence the
    aperture used for the masked fractions. *)
Theorem C34_has_fitter_partial : forall cfg nband keyf cobs sa da m,
  construct cfg nband keyf cobs sa da = Ok m -> cf_fitters cfg <> Some [] ->
  exists f rest, md_fitters m = f :: rest.
Proof.
  intros cfg nband keyf cobs sa da m H N. apply construct_for in H. unfold fitter_configs in H.
  destruct (cf_fitters cfg) as [[|c l]|]; try congruence; inversion H; subst; eauto.
Qed.
Print Assumptions C34_has_fitter_partial.

(** C67 is REFUTED: an adaptive moments configuration without an aperture is
    changed in place in the caller's dictionary. *)
Theorem C67_config_unchanged_refuted : exists cfg m,
  construct cfg 1 false false None DetNone = Ok m /\ md_config m <> cfg.
Proof.
  exists (mkConfig true true None (Some [mkFc (Some "am") None None None]) (mkFc None None None None)).
  eexists. split; [reflexivity|]. discriminate.
Qed.
Print Assumptions C67_config_unchanged_refuted.

(** C67: with an aperture in every fitter configuration nothing is changed. *)
Theorem C67_config_unchanged_partial : forall cfg nband keyf cobs sa da m,
  construct cfg nband keyf cobs sa da = Ok m ->
  (forall c, In c (fitter_configs cfg) -> exists w, has_aperture c w) -> md_config m = cfg.
Proof. exact construct_same_config. Qed.
Print Assumptions C67_config_unchanged_partial.

(** Witnesses. *)
Example C34_mixed :
  let cfg := mkConfig true true (Some 3)
     (Some [mkFc (Some "pgauss") (Some (mkW (Some 2%Q) (Some (8 # 10)) (Some (1 # 2)))) None None;
            mkFc (Some "gauss") None (Some false) (Some true)]) (mkFc None None None None) in
  exists m, construct cfg 2 true true (Some [[0]; [1]]) DetShear = Ok m /\
    md_fitters m = [mkFitter "pgauss" (Some (1 # 2)) (Some 2%Q) (Some (8 # 10)) 2 (1 # 2) true true false;
                    mkFitter "gauss" None None None (12 # 10) 0 false false true] /\
    md_det m = [[0]; [1]].
Proof. eexists. repeat split. Qed.
Example C34_reg_am :
  construct (mkConfig true true None None (mkFc (Some "am") (Some (mkW None None (Some 1%Q))) None None))
            1 false false None DetNone = Raise AttributeError.
Proof. reflexivity. Qed.
