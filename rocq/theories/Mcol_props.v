(** C84: the added columns of the catalogue; further statements of C27 and C33. *)
From Coq Require Import ZArith QArith Lia List String Bool.
From Verif Require Import Base Arr Median Flags_model Detect_model Summ_model Summ_spec Wavg_model Conf_model
  Mdet_model Mdet_spec Mdet_props Mcol_spec Mcol_proofs.
Import ListNotations.
Local Open Scope string_scope.
Local Open Scope Z_scope.

(** C84: every row of every table of a run (on a new object or after any history
    without exceptions) has the columns of a detection of its band combination. *)
Theorem C84_columns : forall O SEG ST FL FR (sob : O -> sobs) (e : env O SEG ST FL FR) h s' r t rows row,
  env_uniform sob e -> env_pixels sob e -> metacal_types e -> e_color e = None ->
  healthy sob e h -> go sob e (after sob e h) = (Ok tt, s') -> result_property s' = Ok (Some r) ->
  table r t = Some (Some rows) -> In row rows ->
  exists sb db d, In (sb, db) (combine (e_shear e) (e_det e)) /\ columns sob e None sb db t d (r_extra row) /\
    exists m cat seg, detected e m db cat seg /\ In d cat.
Proof. exact plain_columns. Qed.
Print Assumptions C84_columns.

(** C84 with colours: the columns come from the observations of the detection's
    own colour. *)
Theorem C84_colour_columns : forall O SEG ST FL FR (sob : O -> sobs) (e : env O SEG ST FL FR) keyf dep h s' r t rows row,
  env_uniform sob e -> env_pixels sob e -> metacal_types e -> e_color e = Some (keyf, dep) ->
  healthy sob e h -> go sob e (after sob e h) = (Ok tt, s') -> result_property s' = Ok (Some r) ->
  table r t = Some (Some rows) -> In row rows ->
  exists sb db d key m cat seg, In (sb, db) (combine (e_shear e) (e_det e)) /\
    detected e m db cat seg /\ In d cat /\ colour_of e keyf sb m seg d key /\
    columns sob e key sb db t d (r_extra row).
Proof. exact colour_columns. Qed.
Print Assumptions C84_colour_columns.

(** C33: with colours there are tables only when the first fitter measures the
    flux of each band (the weighted average fitters). *)
Theorem C33_first_fitter : forall O SEG ST FL FR (sob : O -> sobs) (e : env O SEG ST FL FR) keyf dep h s' r,
  env_uniform sob e -> metacal_types e -> e_color e = Some (keyf, dep) ->
  healthy sob e h -> go sob e (after sob e h) = (Ok tt, s') -> result_property s' = Ok (Some r) ->
  e_types e <> [] -> combine (e_shear e) (e_det e) <> [] ->
  exists f0 rest, e_fitters e = f0 :: rest /\ fi_wavg f0 = true.
Proof. exact colour_first_fitter. Qed.
Print Assumptions C33_first_fitter.

(** C27: as long as no go() has ended without exception, asking for the result is
    an error, whatever else was done with the object. *)
Theorem C27_no_result : forall O SEG ST FL FR (sob : O -> sobs) (e : env O SEG ST FL FR) h,
  (forall i a, nth_error h i = Some Go -> nth_error (fst (run_ops sob e h init_state)) i <> Some (Ok a)) ->
  result_property (after sob e h) = Raise RuntimeError.
Proof.
  intros O SEG ST FL FR sob e h H. unfold result_property, after.
  rewrite (no_result O SEG ST FL FR sob e h init_state eq_refl H). reflexivity.
Qed.
Print Assumptions C27_no_result.

(** The example of Mdet_props, plain and with colours: all hypotheses hold; the
    first row of the second combination. *)
Lemma env22_pixels : forall c m s d, (forall keyf dep k x, c = Some (keyf, dep) -> dep k = Some (Other x) -> x = main22 \/ x = red22) ->
  env_pixels (fun o => o) (env22 c m s d).
Proof.
  intros c m s d H. split.
  - intros ol o [<-|[<-|[]]] [<-|[]]; repeat split; reflexivity.
  - intros keyf dep k x E1 E2. destruct (H _ _ _ _ E1 E2) as [-> | ->]; intros ol o [<-|[<-|[]]] [<-|[]]; repeat split; reflexivity.
Qed.
Example C84_example : let e := env22 None mc22 [[0; 1]; [1]] [[0]; [1; 0]] in exists s' r rows row,
  env_uniform (fun o => o) e /\ env_pixels (fun o => o) e /\ metacal_types e /\ healthy (fun o => o) e [] /\
  go (fun o => o) e (after (fun o => o) e []) = (Ok tt, s') /\ result_property s' = Ok (Some r) /\
  table r "1p" = Some (Some rows) /\ In row rows /\
  x_row (r_extra row) = 0%Q /\ x_col (r_extra row) = 1%Q /\ x_ormask (r_extra row) = 1 /\ x_bmask (r_extra row) = 2 /\
  x_det_bands (r_extra row) = "01".
Proof.
  do 4 eexists. split; [apply env22_uniform; discriminate|]. split; [apply env22_pixels; discriminate|].
  split; [apply env22_types|]. split; [intros x []|]. split; [vm_compute; reflexivity|]. split; [vm_compute; reflexivity|].
  split; [vm_compute; reflexivity|]. split; [right; right; left; reflexivity|]. repeat split; reflexivity.
Qed.
Example C84_colour_example : let e := env22 (Some (fun fl => Ok (Some fl),
      fun k => if k =? 2 then Some (Other main22) else Some SameObject)) mc22 [[0; 1]] [[0]] in exists s' r rows row,
  env_uniform (fun o => o) e /\ env_pixels (fun o => o) e /\ metacal_types e /\
  go (fun o => o) e init_state = (Ok tt, s') /\ result_property s' = Ok (Some r) /\
  table r "noshear" = Some (Some rows) /\ In row rows /\ e_types e <> [] /\ combine (e_shear e) (e_det e) <> [].
Proof.
  do 4 eexists.
  assert (K : forall (keyf : Z -> outcome (option Z)) dep k x, Some (fun fl : Z => Ok (Some fl), fun k : Z => if k =? 2 then Some (Other main22) else Some (@SameObject sobs)) = Some (keyf, dep) ->
     dep k = Some (Other x) -> x = main22 \/ x = red22).
  { intros keyf dep k x H1 H2. apply Some_inj, pair_equal_spec in H1. destruct H1 as [_ <-]. cbv beta in H2.
    destruct (k =? 2); [|discriminate]. left. congruence. }
  split; [apply env22_uniform; exact K|]. split; [apply env22_pixels; exact K|].
  split; [apply env22_types|]. split; [vm_compute; reflexivity|]. split; [vm_compute; reflexivity|].
  split; [vm_compute; reflexivity|]. split; [left; reflexivity|]. split; vm_compute; discriminate.
Qed.
(** A go() that fails and some requests leave the object without a result. *)
Example C27_no_result_example : let e := env22 None (fun _ => Raise ValueError) [[0]] [[0]] in
  let h := [Request None [0]; Go; Request None [1]] in
  (forall i a, nth_error h i = Some Go -> nth_error (fst (run_ops (fun o => o) e h init_state)) i <> Some (Ok a)).
Proof.
  intros e h i a. destruct i as [|[|[|[|i]]]]; unfold h; cbn [nth_error]; try (intros X; discriminate X). intros _. vm_compute. discriminate.
Qed.
