(** C143: measurements and runs with the scarlet deblender return. *)
From Coq Require Import ZArith QArith Qcanon List String Bool Lia Lqa Permutation.
From Verif Require Import Base Arr Median Dict Flags_model Coadd_model Wavg_model Joint_model Lutil_model Lutil_spec Lexp_model Lexp_spec Lthr_model Lmdet_model
  Lmeas_model Lmeas_spec Lsub_model Lscar_model Ltot_spec Lphot_model Lfit_model Lrun_model Lown_model Lrtot_spec Lstot_spec Lstot_proofs.
From Verif Require Lrun_props Lown_props Lrtot_props.
Import ListNotations.
Local Open Scope string_scope.
Local Open Scope Z_scope.

(** The measurement returns a row for each source of the models (None without
    sources), whatever the values of pixels and models and the operations on
    them are; the caller's pixels are what they were. *)
Theorem C143_measure : forall P add sub val env names mbands fbox blends orig label cat,
  can_measure_models env names mbands fbox (model_sources P blends) cat ->
  (model_sources P blends = [] -> measure_scarlet P add sub val env names mbands fbox blends orig label cat = (orig, Ok None)) /\
  (model_sources P blends <> [] -> exists rows, measure_scarlet P add sub val env names mbands fbox blends orig label cat = (orig, Ok (Some rows)) /\
     List.length rows = List.length (model_sources P blends)).
Proof.
  intros P add sub val env names mbands fbox blends orig label cat H. destruct (scarlet_returns P add sub val env names mbands fbox blends orig label cat H) as (rows & E & L & _).
  split; intros X.
  - rewrite X in L. destruct rows; [exact E|discriminate].
  - destruct rows as [|r rows]; [destruct (model_sources P blends); [congruence|discriminate]|]. exists (r :: rows). split; [exact E|exact L].
Qed.
Print Assumptions C143_measure.

(** The whole run, given third party code that returns, with two bands or more
    and objects placed within the exposure.
    Missing: one band (C85_single_band_refuted: it raises as soon as there is a
    model), and objects placed elsewhere (below). *)
Theorem C143_run_partial : forall Prof (R : mrun Prof) F user names bands bands1 noise ms ormasks get_psf_stats s x0 y0 r c n,
  scarlet_ready R F user names bands bands1 noise ms ormasks s x0 y0 r c n -> scarlet_placed R x0 y0 r c ->
  exists res, run_metadetect (own_run F R) user names bands noise (Some ms) ormasks get_psf_stats = (bands1, Ok res).
Proof. exact scarlet_run_returns. Qed.
Print Assumptions C143_run_partial.

(** ** Concrete cases: the field of C141 with two models *)
Definition call8s (x : Q) :=
  run_metadetect (own_run Lrtot_props.fits8 (Lrtot_props.run8 x)) (Some (Lrun_props.user2 "scarlet")) ["g"; "r"] [Lrun_props.plane 1 2; Lrun_props.plane 3 4]
    [Lrun_props.plane 5 2; Lrun_props.plane 6 4] (Some Lrun_props.mf2) (Some [Lrun_props.om2; ifill 51 51 2]) false.
Lemma ready8s : forall x, exists s bands1, scarlet_ready (Lrtot_props.run8 x) Lrtot_props.fits8 (Some (Lrun_props.user2 "scarlet")) ["g"; "r"]
  [Lrun_props.plane 1 2; Lrun_props.plane 3 4] bands1 [Lrun_props.plane 5 2; Lrun_props.plane 6 4] Lrun_props.mf2 (Some [Lrun_props.om2; ifill 51 51 2]) s 100 200 51 51 3.
Proof.
  intros x. destruct (Lrtot_props.basics8 x "scarlet" (or_intror (or_introl eq_refl))) as (s & bands1 & Sd & B). exists s, bands1.
  split; [exact B|]. split; [exact Sd|]. split; [cbn; lia|]. intros cfg mc d D1 D2 D3. eexists. split; [reflexivity|]. intros cat sc E.
  apply Some_inj, pair_equal_spec in E. destruct E as [<- <-]. split; [repeat constructor; cbn; intuition lia|].
  split. { intros so [<-|[<-|[]]]; do 2 eexists; (split; [reflexivity|]); unfold inside; cbn; lia. }
  split; [repeat constructor; cbn; intuition discriminate|]. split; [intros b; reflexivity|]. split; [repeat constructor; cbn; intuition lia|].
  intros b [<-|[<-|[]]]; cbn [b_id Lrun_props.model].
  - split; [exists Lrun_props.edge; cbn; tauto|]. eexists. split; [reflexivity|]. cbn. lia.
  - split; [exists Lrun_props.star; cbn; tauto|]. eexists. split; [reflexivity|]. cbn. lia.
Qed.
Example C143_example : scarlet_placed (Lrtot_props.run8 125) 100 200 51 51 /\
  exists bands' a b c d, call8s 125 = (bands', Ok [("noshear", Table (Some [a; b])); ("1p", Table (Some [c; d]))]) /\
    sget "stamp_flags" a = Some (CInt (2 ^ 20)) /\ sget "stamp_flags" b = Some (CInt 0).
Proof.
  split.
  - intros cfg mc d cat sc so _ _. split; split; vm_compute; congruence.
  - do 5 eexists. split; [vm_compute; reflexivity|]. split; reflexivity.
Qed.
(** The hypotheses of the first theorem hold for two models on two bands. *)
Definition env8 : menv := phot_env (own_phot Lrtot_props.fits8 Lrun_props.phot2) (CNode [])
  (mkCo (ifill 51 51 None) (ifill 51 51 None) (ifill 51 51 0) (ifill 3 3 None) (Some 7) 100 200) [Lrun_props.plane 1 2; Lrun_props.plane 3 4] 49 ANone [0; 1].
Example C143_measure_example : can_measure_models env8 ["g"; "r"] ["g"; "r"] (fun _ => Some (mkBox 102 202 148 248))
  (model_sources Qc [[[Lrun_props.model 3 3; Lrun_props.model 5 2]]]) [Lrun_props.star; Lrun_props.edge].
Proof.
  split; [repeat constructor; cbn; intuition lia|]. split; [cbn; lia|].
  split. { intros e [<-|[<-|[]]]; (split; [discriminate|]); eexists; (split; [reflexivity|]); intros; split; reflexivity. }
  split. { intros so [<-|[<-|[]]]; do 2 eexists; (split; [reflexivity|]); unfold inside; cbn; lia. }
  split. { apply own_fits_images; [cbn; lia| |].
    - split; [discriminate|]. split; [repeat constructor; cbn; intuition discriminate|]. split; [cbn; lia|]. intros b [<-|[<-|[]]]; cbn; lia.
    - split.
      + intros mb g p E _. destruct mb as [|o mb]; [discriminate|]. cbn in E. inversion E. cbn. rewrite !map_length. auto.
      + intros fwhm. split; [discriminate|]. split; intros; eexists; reflexivity. }
  split; [exists [0; 1]; reflexivity|]. split; [repeat constructor; cbn; intuition discriminate|]. split; [reflexivity|]. split; [cbn; lia|].
  split; [repeat constructor; cbn; intuition discriminate|]. split; [intros b; reflexivity|]. split; [repeat constructor; cbn; intuition lia|].
  intros b [<-|[<-|[]]]; cbn [b_id Lrun_props.model].
  - split; [exists Lrun_props.edge; cbn; tauto|]. eexists. split; [reflexivity|]. cbn. lia.
  - split; [exists Lrun_props.star; cbn; tauto|]. eexists. split; [reflexivity|]. cbn. lia.
Qed.
(** As in C141, a centroid a tenth of a pixel beyond the last column. *)
Theorem C143_centroid_refuted : exists s bands1,
  scarlet_ready (Lrtot_props.run8 (1506 # 10)) Lrtot_props.fits8 (Some (Lrun_props.user2 "scarlet")) ["g"; "r"]
    [Lrun_props.plane 1 2; Lrun_props.plane 3 4] bands1 [Lrun_props.plane 5 2; Lrun_props.plane 6 4] Lrun_props.mf2 (Some [Lrun_props.om2; ifill 51 51 2]) s 100 200 51 51 3 /\
  snd (call8s (1506 # 10)) = Raise IndexError.
Proof. destruct (ready8s (1506 # 10)) as (s & bands1 & H). exists s, bands1. split; [exact H|]. vm_compute. reflexivity. Qed.
Print Assumptions C143_centroid_refuted.
