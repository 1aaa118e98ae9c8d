(** Specification vocabulary for C34: which configurations are acceptable. *)
From Coq Require Import ZArith QArith List String Bool.
From Verif Require Import Base Conf_model.
Import ListNotations.
Local Open Scope string_scope.

Definition moment_models : list string := ["wmom"; "ksigma"; "pgauss"].
Definition joint_models : list string := ["admom"; "am"; "gauss"].

(** The model a fitter configuration asks for. *)
Definition asks_for (c : fcfg) (m : string) : Prop :=
  fc_model c = Some m \/ (fc_model c = None /\ m = "wmom").
Definition has_aperture (c : fcfg) (f : Q) : Prop :=
  exists w, fc_weight c = Some w /\ w_fwhm w = Some f.
Definition no_aperture (c : fcfg) : Prop := forall f, ~ has_aperture c f.
Definition regularised (c : fcfg) (r : Q) : Prop :=
  exists w, fc_weight c = Some w /\ w_reg w = Some r.

(** A fitter configuration that can be used. *)
Definition usable_fitter (c : fcfg) : Prop :=
  exists m, asks_for c m /\
    ((In m moment_models /\ exists f, has_aperture c f) \/
     (In m joint_models /\ forall r, ~ regularised c r)).

Definition some_top_entry (c : fcfg) : Prop :=
  fc_model c <> None \/ fc_weight c <> None \/ fc_symm c <> None \/ fc_coadd c <> None.

Definition usable_config (cfg : config) (keyf cobs : bool) : Prop :=
  cf_metacal cfg = true /\ cf_meds cfg = true /\ keyf = cobs /\
  match cf_fitters cfg with
  | Some l => ~ some_top_entry (cf_top cfg) /\ Forall usable_fitter l
  | None => usable_fitter (cf_top cfg)
  end.

(** The fitter does what its configuration says. *)
Definition fitter_for (c : fcfg) (f : fitter) : Prop :=
  asks_for c (fi_base f) /\
  (fi_wavg f = true <-> In (fi_base f) moment_models) /\
  (fi_wavg f = false <-> In (fi_base f) joint_models) /\
  (* the aperture *)
  (forall w, has_aperture c w -> fi_fwhm f = w) /\
  (no_aperture c -> fi_fwhm f = (12 # 10) /\ fi_wavg f = false) /\
  (fi_wavg f = true -> fi_aper f = Some (fi_fwhm f)) /\
  (* regularisation *)
  (forall r, regularised c r -> fi_reg f = r /\ fi_suffix f = Some r) /\
  ((forall r, ~ regularised c r) -> fi_reg f = 0%Q /\ fi_suffix f = None) /\
  (* switches *)
  fi_symm f = match fc_symm c with Some b => b | None => true end /\
  (fi_wavg f = true -> fi_coadd f = false) /\
  (fi_wavg f = false -> fi_coadd f = match fc_coadd c with Some b => b | None => false end).

(** The fitter configurations of a configuration, in order. *)
Definition fitter_configs (cfg : config) : list fcfg :=
  match cf_fitters cfg with Some l => l | None => [cf_top cfg] end.
