(** C141: run_metadetect returns. *)
From Coq Require Import ZArith QArith Qcanon List String Bool Lia Lqa Permutation.
From Verif Require Import Base Arr Median Dict Flags_model Coadd_model Wavg_model Joint_model Lutil_model Lutil_spec Lexp_model Lexp_spec Lthr_model Lmdet_model
  Lmeas_model Lmeas_spec Lphot_model Lfit_model Lrun_model Lown_model Lrtot_spec Lrtot_proofs.
From Verif Require Lsky_model Lrun_props Lown_props Ltot_props.
Import ListNotations.
Local Open Scope string_scope.
Local Open Scope Z_scope.

(** Given third party code that returns, run_metadetect returns for every image,
    whatever the pixels, masks, objects at the edges and failures of fits are, as
    long as every object is placed within the exposure.
    Missing: objects placed elsewhere (see below). The scarlet deblender is C143. *)
Theorem C141_run_partial : forall Prof (R : mrun Prof) F user names bands bands1 noise ms ormasks get_psf_stats s x0 y0 r c n,
  run_ready R F user names bands bands1 noise ms ormasks s x0 y0 r c n -> placed_inside (r_phot R) x0 y0 r c ->
  exists res, run_metadetect (own_run F R) user names bands noise (Some ms) ormasks get_psf_stats = (bands1, Ok res).
Proof. exact run_returns. Qed.
Print Assumptions C141_run_partial.

(** The sky subtraction that [run_ready] asks for returns for all exposures, even
    if the background or the detection fails. *)
Theorem C141_sky : forall P thresh bands, sky_tasks_return P thresh -> exists bands1, subtract_sky_mbexp P thresh bands = (bands1, Ok tt).
Proof. exact sky_tasks. Qed.
Print Assumptions C141_sky.

(** ** Concrete cases: the field of Lrun_props *)
Definition fits8 : fits := Lown_props.fits7 1.
(** The same with the centroids at column [x]. *)
Definition run8 (x : Q) : mrun unit :=
  let P := Lrun_props.phot2 in let R := Lrun_props.run2 in
  mkRun (mkPhot (ph_stack P) (ph_back P) (ph_skydetect P) (ph_psffit P) (ph_to_g P) (ph_W P) (ph_rad P) (ph_single P) (ph_isfloat P)
           (ph_detect P) (ph_detmask P) (fun d id => Some (x, (2251 # 10)%Q)) (ph_skypix P) (ph_wcs P) (ph_radec P) (ph_gauss P) (ph_pgauss P)
           (ph_nanpos P) (ph_no_attempt P) (ph_detected P) (ph_label P) (ph_order P))
    (r_dilation R) (r_gaussian R) (r_target R) (r_dilate R) (r_drawpsf R) (r_draw R) (r_scarlet R).
Definition call8 (x : Q) :=
  run_metadetect (own_run fits8 (run8 x)) (Some (Lrun_props.user2 "sdss")) ["g"; "r"] [Lrun_props.plane 1 2; Lrun_props.plane 3 4]
    [Lrun_props.plane 5 2; Lrun_props.plane 6 4] (Some Lrun_props.mf2) (Some [Lrun_props.om2; ifill 51 51 2]) false.
Lemma basics8 : forall x deb, In deb ["sdss"; "scarlet"] -> exists s bands1, s_deblender s = deb /\
  run_basics (run8 x) fits8 (Some (Lrun_props.user2 deb)) ["g"; "r"] [Lrun_props.plane 1 2; Lrun_props.plane 3 4] bands1
    [Lrun_props.plane 5 2; Lrun_props.plane 6 4] Lrun_props.mf2 (Some [Lrun_props.om2; ifill 51 51 2]) s 100 200 51 51 3.
Proof.
  intros x deb Hd.
  assert (Cf : exists s bands1, s_deblender s = deb /\ config_fine (run8 x) (Some (Lrun_props.user2 deb)) ["g"; "r"] s /\
    sky_returns (run8 x) s [Lrun_props.plane 1 2; Lrun_props.plane 3 4] bands1).
  { destruct Hd as [<-|[<-|[]]]; do 2 eexists.
    all: split; [|split; [split; [vm_compute; reflexivity|]; split; [intros l b E; apply Some_inj in E; subst l; intros [<-|[]]; cbn; tauto|]; eexists; vm_compute; reflexivity|]];
      [reflexivity|split; [intros _; vm_compute; reflexivity|discriminate]]. }
  destruct Cf as (s & bands1 & Sd & Cf & Sk). exists s, bands1. split; [exact Sd|]. split; [exact Cf|]. split; [exact Sk|].
  split; [repeat constructor; cbn; intuition discriminate|]. do 3 (split; [reflexivity|]). split; [cbn; lia|]. do 2 (split; [lia|]). split; [reflexivity|].
  assert (Pl : forall a b, plain 100 200 51 51 3 (Lrun_props.plane a b)).
  { intros a b. do 4 (split; [reflexivity|]). split; [discriminate|]. eexists. split; [reflexivity|]. intros; split; reflexivity. }
  split; [intros e [<-|[<-|[]]]; apply Pl|]. split; [intros e [<-|[<-|[]]]; apply Pl|].
  split. { split.
    - intros e [<-|[<-|[]]]; [exists 25, 0, 2%Q|exists 25, 0, 4%Q]; (split; [unfold inside; cbn; lia|]); split; reflexivity.
    - exists (Lrun_props.plane 1 2). split; [now left|]. intro U. vm_compute in U. lia. }
  split; [intros m [<-|[<-|[]]]; split; reflexivity|].
  split; [split; [discriminate|intros m [<-|[<-|[]]]; split; reflexivity]|].
  split. { split; [intros e _; eexists; split; reflexivity|intros a b; eexists; reflexivity]. }
  split. { split; [eexists; reflexivity|]. split; [eexists; reflexivity|]. split; [intros; eexists; split; [reflexivity|split; reflexivity]|]. intros; split; reflexivity. }
  split. { split.
    - intros mb g p E _. destruct mb as [|o mb]; [discriminate|]. cbn in E. inversion E. cbn. rewrite !map_length. auto.
    - intros fwhm. split; [discriminate|]. split; intros; eexists; reflexivity. }
  intros e; split; [reflexivity|split; [reflexivity|split; reflexivity]].
Qed.
Lemma ready8 : forall x, exists s bands1, run_ready (run8 x) fits8 (Some (Lrun_props.user2 "sdss")) ["g"; "r"] [Lrun_props.plane 1 2; Lrun_props.plane 3 4] bands1
  [Lrun_props.plane 5 2; Lrun_props.plane 6 4] Lrun_props.mf2 (Some [Lrun_props.om2; ifill 51 51 2]) s 100 200 51 51 3.
Proof.
  intros x. destruct (basics8 x "sdss" (or_introl eq_refl)) as (s & bands1 & Sd & B). exists s, bands1. split; [exact B|]. split; [rewrite Sd; discriminate|]. split.
  - intros cfg d D1 D2 D3. eexists. split; [reflexivity|]. intros cat E. apply Some_inj in E. subst cat. split; [repeat constructor; cbn; intuition lia|].
    intros so [<-|[<-|[]]]; do 2 eexists; (split; [reflexivity|]); unfold inside; cbn; lia.
  - intros l _. apply Permutation_refl.
Qed.
(** One object in the middle and one at the edge, both placed in column 125. *)
Example C141_example : placed_inside (r_phot (run8 125)) 100 200 51 51 /\
  exists bands' a b c d, call8 125 = (bands', Ok [("noshear", Table (Some [a; b])); ("1p", Table (Some [c; d]))]) /\
    sget "stamp_flags" a = Some (CInt 0) /\ sget "stamp_flags" b = Some (CInt (2 ^ 20)).
Proof.
  split.
  - intros cfg d cat so _ _ _ _ _. split; split; vm_compute; congruence.
  - do 5 eexists. split; [vm_compute; reflexivity|]. split; reflexivity.
Qed.
Example C141_sky_example : sky_tasks_return Lrun_props.phot2 (AFloat 8) /\
  (let P := Lrun_props.phot2 in let failing := mkPhot (ph_stack P) (fun _ _ => inl Lsky_model.StackError) (ph_skydetect P) (ph_psffit P) (ph_to_g P) (ph_W P) (ph_rad P)
     (ph_single P) (ph_isfloat P) (ph_detect P) (ph_detmask P) (ph_cen P) (ph_skypix P) (ph_wcs P) (ph_radec P) (ph_gauss P) (ph_pgauss P)
     (ph_nanpos P) (ph_no_attempt P) (ph_detected P) (ph_label P) (ph_order P) in sky_tasks_return failing (AFloat 8)).
Proof.
  split; (split; [eexists; vm_compute; reflexivity|]); split; intros; discriminate.
Qed.
(** A centroid beyond the last column by a tenth of a pixel: the run, which has
    everything else that it needs, raises, and no object is returned. *)
Theorem C141_centroid_refuted : exists s bands1,
  run_ready (run8 (1506 # 10)) fits8 (Some (Lrun_props.user2 "sdss")) ["g"; "r"] [Lrun_props.plane 1 2; Lrun_props.plane 3 4] bands1
    [Lrun_props.plane 5 2; Lrun_props.plane 6 4] Lrun_props.mf2 (Some [Lrun_props.om2; ifill 51 51 2]) s 100 200 51 51 3 /\
  snd (call8 (1506 # 10)) = Raise IndexError.
Proof. destruct (ready8 (1506 # 10)) as (s & bands1 & H). exists s, bands1. split; [exact H|]. vm_compute. reflexivity. Qed.
Print Assumptions C141_centroid_refuted.
