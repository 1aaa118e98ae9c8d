(** C27, C28, C29, C30 (go), C32, C33: the driver. *)
From Coq Require Import ZArith QArith List String Bool Permutation.
From Verif Require Import Base Arr Median Flags_model Detect_model Wavg_model Wavg_proofs Joint_model Summ_model Conf_model
  Mdet_model Mdet_spec Mcache_proofs Mdet_proofs.
Import ListNotations.
Local Open Scope string_scope.
Local Open Scope Z_scope.

(** C27: when go() ends without exception (on a new object or after any history
    without exceptions), the result is None exactly in the four cases. *)
Theorem C27_none_iff : forall O SEG ST FL FR (sob : O -> sobs) (e : env O SEG ST FL FR) h s',
  env_uniform sob e -> healthy sob e h -> go sob e (after sob e h) = (Ok tt, s') ->
  (result_property s' = Ok None <->
   no_usable_pixel sob e \/ zero_weight_observation sob e \/ excluded_observation sob e \/ metacal_psf_failure e).
Proof.
  intros O SEG ST FL FR sob e h s' U Hh Hg. assert (S := go_sem _ _ _ _ _ sob e U _ (good_after _ _ _ _ _ sob e h Hh)).
  rewrite Hg in S. cbn [fst snd] in S. destruct (pgo O SEG ST FL FR sob e) as [r|] eqn:Ep; [|contradiction].
  destruct S as [r' [Hr [S _]]]. rewrite Hr.
  destruct (pgo_inv _ _ _ _ _ sob e r Ep) as [[-> C]|(mcal & all & _ & _ & -> & C)].
  - split; auto. intros _. destruct r'; [destruct S|reflexivity].
  - split; [|tauto]. intros X. apply Ok_inj in X. subst r'. destruct S.
Qed.
Print Assumptions C27_none_iff.

(** C27: in the first three cases go() never fails, in any state. *)
Theorem C27_gives_up : forall O SEG ST FL FR (sob : O -> sobs) (e : env O SEG ST FL FR) s mf,
  get_mfrac (map (map sob) (e_main e)) = Ok mf ->
  no_usable_pixel sob e \/ zero_weight_observation sob e \/ excluded_observation sob e ->
  exists s', go sob e s = (Ok tt, s') /\ result_property s' = Ok None /\ s_log s' = s_log s.
Proof.
  intros O SEG ST FL FR sob e s mf Hm H. apply (give_up_iff _ _ _ _ _ sob e mf Hm) in H.
  unfold go, mbind, lift. rewrite Hm, H. eexists. repeat split.
Qed.
Print Assumptions C27_gives_up.

(** C27: otherwise the result has exactly one entry for each requested type. *)
Theorem C27_types : forall O SEG ST FL FR (sob : O -> sobs) (e : env O SEG ST FL FR) h s' r,
  env_uniform sob e -> metacal_types e -> healthy sob e h ->
  go sob e (after sob e h) = (Ok tt, s') -> result_property s' = Ok (Some r) ->
  NoDup (map fst r) /\ forall t, In t (map fst r) <-> In t (e_types e).
Proof. exact go_types. Qed.
Print Assumptions C27_types.

(** C28 (no colours): for each type the table is the concatenation, in order, of
    the blocks of the combinations; each block has one row per detection. A type
    without any row is None. *)
Theorem C28_blocks : forall O SEG ST FL FR (sob : O -> sobs) (e : env O SEG ST FL FR) h s' r,
  env_uniform sob e -> metacal_types e -> e_color e = None -> healthy sob e h ->
  go sob e (after sob e h) = (Ok tt, s') -> result_property s' = Ok (Some r) ->
  exists mcal, e_metacal e (e_main e) = Ok mcal /\ forall t m, In (t, m) mcal ->
  exists blocks, Forall2 (block_of sob e t m) (combine (e_shear e) (e_det e)) blocks /\
    table r t = Some (match List.concat blocks with [] => None | l => Some l end).
Proof. intros. eapply go_plain_blocks; eauto. Qed.
Print Assumptions C28_blocks.

(** C28, C33 (colours): the same with the blocks of the colour path. *)
Theorem C28_colour_blocks : forall O SEG ST FL FR (sob : O -> sobs) (e : env O SEG ST FL FR) keyf dep h s' r,
  env_uniform sob e -> metacal_types e -> e_color e = Some (keyf, dep) -> healthy sob e h ->
  go sob e (after sob e h) = (Ok tt, s') -> result_property s' = Ok (Some r) ->
  exists mcal, e_metacal e (e_main e) = Ok mcal /\ forall t m, In (t, m) mcal ->
  exists blocks, Forall2 (colour_block_of sob e keyf t m) (combine (e_shear e) (e_det e)) blocks /\
    table r t = Some (match List.concat blocks with [] => None | l => Some l end).
Proof. intros. eapply go_colour_blocks; eauto. Qed.
Print Assumptions C28_colour_blocks.

(** C28: every row of a block carries the label of its own detection bands, and
    of its own shear bands when the fitters label their rows so (C38). *)
Theorem C28_labels : forall O SEG ST FL FR (sob : O -> sobs) (e : env O SEG ST FL FR) (lab : FR -> string) t m sd rows keyf,
  (forall f sb st x, e_fit e f sb st = Ok x -> lab x = band_label sb) ->
  block_of sob e t m sd rows \/ colour_block_of sob e keyf t m sd rows ->
  forall r, In r rows -> x_det_bands (r_extra r) = band_label (snd sd) /\
    forall x, In x (r_fits r) -> lab x = band_label (fst sd).
Proof. exact block_labels. Qed.
Print Assumptions C28_labels.

(** C29: when there are as many detection combinations as shear combinations,
    every combination is run: the block of the i-th one is the i-th block. *)
Theorem C29_all_run_partial : forall O SEG ST FL FR (sob : O -> sobs) (e : env O SEG ST FL FR) h s' r t,
  env_uniform sob e -> metacal_types e -> e_color e = None -> healthy sob e h ->
  go sob e (after sob e h) = (Ok tt, s') -> result_property s' = Ok (Some r) ->
  List.length (e_shear e) = List.length (e_det e) -> In t (e_types e) ->
  exists mcal m blocks, e_metacal e (e_main e) = Ok mcal /\ In (t, m) mcal /\
    List.length blocks = List.length (e_shear e) /\
    (forall i sb db, nth_error (e_shear e) i = Some sb -> nth_error (e_det e) i = Some db ->
       exists block, nth_error blocks i = Some block /\ block_of sob e t m (sb, db) block) /\
    table r t = Some (match List.concat blocks with [] => None | l => Some l end).
Proof. exact go_all_run. Qed.
Print Assumptions C29_all_run_partial.

(** C30 for go(): after any history without exceptions go() gives what it gives
    on a new object: the same exception or the same result. *)
Theorem C30_go_transparent : forall O SEG ST FL FR (sob : O -> sobs) (e : env O SEG ST FL FR) h,
  env_uniform sob e -> healthy sob e h ->
  match go sob e (after sob e h), go sob e init_state with
  | (Ok _, s1), (Ok _, s2) => exists r1 r2, result_property s1 = Ok r1 /\ result_property s2 = Ok r2 /\ result_eqv r1 r2
  | (Raise x, _), (Raise y, _) => x = y
  | _, _ => False
  end.
Proof. exact go_transparent. Qed.
Print Assumptions C30_go_transparent.

(** C32: when every colour key leads to observations with the content of the
    main ones, a plain run that succeeds is reproduced by the colour run: same
    tables, same order. The stamps must not depend on the segmentation map
    (weight type "weight"; the colour path never uses it), the first fitter must
    give fluxes for what it can fit. *)
Theorem C32_same_tables : forall O SEG ST FL FR (sob : O -> sobs) (e : env O SEG ST FL FR) keyf dep f0 fs s' r,
  env_uniform sob e -> metacal_types e ->
  e_color e = Some (keyf, dep) -> e_fitters e = f0 :: fs -> fi_wavg f0 = true ->
  (forall sb st x, e_fit e f0 sb st = Ok x -> exists fl, e_flux e f0 sb st = Ok fl) ->
  (forall fl, exists key, keyf fl = Ok key /\
     (key = None \/ exists k, key = Some k /\ (dep k = Some SameObject \/ dep k = Some (Other (e_main e))))) ->
  (forall m seg d, e_stamp e m None d = e_stamp e m (Some seg) d) ->
  go sob (without_colour e) init_state = (Ok tt, s') -> result_property s' = Ok r ->
  exists s2 r2, go sob e init_state = (Ok tt, s2) /\ result_property s2 = Ok r2 /\ result_eqv r2 r.
Proof. exact colour_run_same. Qed.
Print Assumptions C32_same_tables.

(** C33: when the PSF step of metacal fails for no colour, each block of the
    colour path has exactly one row per detection, in order, measured on the
    data of its own colour key. *)
Theorem C33_one_row_partial : forall O SEG ST FL FR (sob : O -> sobs) (e : env O SEG ST FL FR) keyf t m sd rows,
  (forall key k mm, obs_of e key = Ok (k, mm) -> e_metacal e mm <> Raise BootPSFFailure) ->
  colour_block_of sob e keyf t m sd rows ->
  exists cat seg keys, detected e m (snd sd) cat seg /\ Forall2 (colour_of e keyf (fst sd) m seg) cat keys /\
    List.length rows = List.length cat /\
    Forall2 (fun dk r => colour_rows sob e (fst sd) (snd sd) t (snd dk) (fst dk) [r]) (combine cat keys) rows.
Proof. exact colour_one_row. Qed.
Print Assumptions C33_one_row_partial.

(** ** A concrete setting: two bands of 2x2 pixels, two detections; the row of a
    fitter records the shear bands and the stamp. *)
Definition w22 (q : Q) : sobs := mkSobs (mkImg 2 2 (fun _ _ => q)) (Some (mkImg 2 2 (fun i _ => if i =? 0 then (1 # 2)%Q else 0%Q)))
  (mkImg 2 2 (fun i j => i + 2 * j)) (mkImg 2 2 (fun _ j => j)).
Definition main22 : mb sobs := [[w22 1]; [w22 2]].
Definition red22 : mb sobs := [[w22 3]; [w22 3]].
Definition psf22 (t : Q) : pobs := mkPobs 1 (Some (mkPsfres 0 (Some t) (Some ((1 # 10)%Q, 0%Q)) None)).
Definition fit0 : fitter := mkFitter "wmom" None (Some 2%Q) None 2 0 true false false.
Definition env22 (color : option ((Z -> outcome (option Z)) * (Z -> option (cobs sobs))))
  (mc : mb sobs -> outcome (list (string * mb sobs))) (sh dt : list (list Z)) : env sobs unit Z Z (list Z) :=
  mkEnv main22 color (fun _ => ([[psf22 1]; [psf22 2]], Ok tt)) mc ["noshear"; "1p"] 1024 [fit0] sh dt
    (fun m => Ok ([mkDetc 1 0 2 1; mkDetc 0 1 2 2], tt)) (fun m _ d => Ok (dc_number d))
    (fun _ sb st => Ok (st :: sb)) (fun _ => "wmom") (fun _ _ st => Ok st)
    (fun _ a b => Ok (a, b)) None None (fun _ _ _ => (fun _ _ => 1%Q, fun _ _ => true)).
Definition mc22 (m : mb sobs) : outcome (list (string * mb sobs)) :=
  if Qeq_bool (px (so_weight (match m with (o :: _) :: _ => o | _ => w22 3 end)) 0 0) 1 then Ok [("noshear", m); ("1p", m)] else Raise BootPSFFailure.
Definition rows_fits (s : state sobs (list Z)) : option (list (string * option (list (list (list Z))))) :=
  match result_property s with
  | Ok (Some r) => Some (map (fun kv => (fst kv, option_map (map (@r_fits (list Z))) (snd kv))) r)
  | _ => None
  end.

Lemma env22_uniform : forall c m s d, (forall keyf dep k x, c = Some (keyf, dep) -> dep k = Some (Other x) -> x = main22 \/ x = red22) ->
  env_uniform (fun o => o) (env22 c m s d).
Proof.
  intros c m s d H. split.
  - exists 2, 2. intros ol o [<-|[<-|[]]] [<-|[]]; repeat split.
  - intros keyf dep k x E1 E2. destruct (H _ _ _ _ E1 E2) as [-> | ->].
    + exists 2, 2. intros ol o [<-|[<-|[]]] [<-|[]]; repeat split.
    + exists 2, 2. intros ol o [<-|[<-|[]]] [<-|[]]; repeat split.
Qed.
Lemma env22_types : forall c s d, metacal_types (env22 c mc22 s d).
Proof.
  intros c s d m dict H. cbn in H. unfold mc22 in H. destruct (Qeq_bool _ _) in H; [|discriminate]. apply Ok_inj in H. subst.
  cbn. split; [|tauto]. constructor; [cbn; intuition congruence|]. constructor; [intros []|constructor].
Qed.

(** C29 is REFUTED: two shear band combinations and one detection band
    combination are accepted; the second shear combination is silently left out:
    no row of the result belongs to it. *)
Theorem C29_missing_refuted : exists cfg md s',
  construct cfg 2 false false (Some [[0]; [1]]) (DetList [[0]]) = Ok md /\
  List.length (md_shear md) <> List.length (md_det md) /\
  go (fun o => o) (env22 None mc22 (md_shear md) (md_det md)) init_state = (Ok tt, s') /\
  rows_fits s' = Some [("noshear", Some [[[1; 0]]; [[2; 0]]]); ("1p", Some [[[1; 0]]; [[2; 0]]])].
Proof.
  exists (mkConfig true true None (Some [mkFc (Some "wmom") (Some (mkW (Some 2%Q) None None)) None None]) (mkFc None None None None)). eexists. eexists.
  split; [reflexivity|]. split; [discriminate|]. split; [vm_compute; reflexivity|]. vm_compute. reflexivity.
Qed.
Print Assumptions C29_missing_refuted.

(** C33 is REFUTED: the PSF step of metacal fails for the colour of the second
    of two detections; the detection is missing from the table. *)
Theorem C33_dropped_refuted : exists (e : env sobs unit Z Z (list Z)) s',
  env_uniform (fun o => o) e /\ metacal_types e /\
  e_detect e (e_main e) = Ok ([mkDetc 1 0 2 1; mkDetc 0 1 2 2], tt) /\
  go (fun o => o) e init_state = (Ok tt, s') /\
  rows_fits s' = Some [("noshear", Some [[[1; 0; 1]]]); ("1p", Some [[[1; 0; 1]]])].
Proof.
  exists (env22 (Some (fun fl => Ok (Some fl), fun k => if k =? 1 then Some SameObject else Some (Other red22)))
                mc22 [[0; 1]] [[0; 1]]). eexists.
  split. { apply env22_uniform. intros keyf dep k x H1 H2. apply Some_inj, pair_equal_spec in H1. destruct H1 as [_ <-].
           destruct (k =? 1); [discriminate|]. right. congruence. }
  split; [apply env22_types|]. split; [reflexivity|]. split; [vm_compute; reflexivity|]. vm_compute. reflexivity.
Qed.
Print Assumptions C33_dropped_refuted.

(** Witnesses. *)

(** The hypotheses of C27, C28 and C29 hold together; two combinations, two
    detections: four rows per type. *)
Example C28_runs : let e := env22 None mc22 [[0; 1]; [1]] [[0]; [1; 0]] in exists s',
  env_uniform (fun o => o) e /\ metacal_types e /\ healthy (fun o => o) e [Go; Request None [1]] /\
  go (fun o => o) e (after (fun o => o) e [Go; Request None [1]]) = (Ok tt, s') /\
  rows_fits s' = Some [("noshear", Some [[[1; 0; 1]]; [[2; 0; 1]]; [[1; 1]]; [[2; 1]]]);
                       ("1p", Some [[[1; 0; 1]]; [[2; 0; 1]]; [[1; 1]]; [[2; 1]]])].
Proof.
  eexists. split; [apply env22_uniform; discriminate|]. split; [apply env22_types|].
  split. { intros x H. vm_compute in H. repeat (destruct H as [<-|H]; [eexists; reflexivity|]). destruct H. }
  split; [vm_compute; reflexivity|]. vm_compute. reflexivity.
Qed.
(** All four reasons for None can occur. *)
Example C27_metacal_failure : exists s',
  go (fun o => o) (env22 None (fun _ => Raise BootPSFFailure) [[0]] [[0]]) init_state = (Ok tt, s') /\
  result_property s' = Ok None /\ metacal_psf_failure (env22 None (fun _ => Raise BootPSFFailure) [[0]] [[0]]).
Proof. eexists. split; [vm_compute; reflexivity|]. split; reflexivity. Qed.
Example C27_zero_weight : exists s', let e := mkEnv [[w22 1]; [w22 0]] None (fun _ => ([], Ok tt)) (fun _ => Raise ValueError) ["noshear"] 0
    [fit0] [[0]] [[0]] (fun _ => Raise ValueError) (fun _ (_ : option unit) _ => Raise ValueError) (fun _ _ (_ : Z) => Raise ValueError)
    (fun _ => "wmom") (fun _ _ _ => Raise ValueError) (fun _ _ _ => Raise ValueError) None None (fun _ _ _ => (fun _ _ => 1%Q, fun _ _ => true)) : env sobs unit Z Z Z in
  zero_weight_observation (fun o => o) e /\ go (fun o => o) e init_state = (Ok tt, s') /\ result_property s' = Ok None.
Proof.
  eexists. intros e. split; [exists [w22 0], (w22 0); repeat split; [right; left; reflexivity|left; reflexivity]|].
  split; [vm_compute; reflexivity|reflexivity].
Qed.
(** C32: three colour keys, all with the main content. *)
Example C32_runs : let e := env22 (Some (fun fl => Ok (if fl =? 1 then None else Some fl),
      fun k => if k =? 2 then Some (Other main22) else Some SameObject)) mc22 [[0; 1]; [1]] [[0]; [1; 0]] in exists s',
  env_uniform (fun o => o) e /\ metacal_types e /\
  (forall fl, exists key, (fun fl => Ok (if fl =? 1 then None else Some fl)) fl = Ok key /\ (key = None \/
     exists k, key = Some k /\ ((if k =? 2 then Some (Other main22) else Some SameObject) = Some SameObject \/
       (if k =? 2 then Some (Other main22) else Some SameObject) = Some (Other (e_main e))))) /\
  (forall m seg d, e_stamp e m None d = e_stamp e m (Some seg) d) /\
  go (fun o => o) (without_colour e) init_state = (Ok tt, s') /\
  rows_fits s' = Some [("noshear", Some [[[1; 0; 1]]; [[2; 0; 1]]; [[1; 1]]; [[2; 1]]]);
                       ("1p", Some [[[1; 0; 1]]; [[2; 0; 1]]; [[1; 1]]; [[2; 1]]])].
Proof.
  intros e. eexists. split. { apply env22_uniform. intros keyf dep k x H1 H2. apply Some_inj, pair_equal_spec in H1. destruct H1 as [_ <-].
    destruct (k =? 2); [|discriminate]. left. congruence. }
  split; [apply env22_types|].
  split. { intros fl. destruct (fl =? 1); eexists; (split; [reflexivity|]); [now left|right]. eexists. split; [reflexivity|].
           destruct (fl =? 2); auto. }
  split; [reflexivity|]. split; [vm_compute; reflexivity|]. vm_compute. reflexivity.
Qed.
(** C33: two detections with two colours, both good: two rows, each with its own
    colour's data. *)
Example C33_runs : let e := env22 (Some (fun fl => Ok (Some fl),
      fun k => if k =? 2 then Some (Other main22) else Some SameObject)) mc22 [[0; 1]] [[0]] in exists s',
  (forall key k mm, obs_of e key = Ok (k, mm) -> e_metacal e mm <> Raise BootPSFFailure) /\
  go (fun o => o) e init_state = (Ok tt, s') /\
  rows_fits s' = Some [("noshear", Some [[[1; 0; 1]]; [[2; 0; 1]]]); ("1p", Some [[[1; 0; 1]]; [[2; 0; 1]]])].
Proof.
  intros e. eexists. split; [|split; vm_compute; reflexivity].
  intros [k|] k' mm H; cbn in H; [destruct (k =? 2)|]; apply Ok_inj, pair_equal_spec in H; destruct H as [_ <-]; vm_compute; discriminate.
Qed.
