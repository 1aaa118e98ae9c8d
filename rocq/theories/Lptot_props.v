(** C142: run_photometry returns. *)
From Coq Require Import ZArith QArith Qcanon List String Bool Lia Lqa Permutation.
From Verif Require Import Base Arr Median Dict Flags_model Coadd_model Wavg_model Joint_model Lutil_model Lutil_spec Lexp_model Lexp_spec Lthr_model Lmdet_model
  Lmeas_model Lmeas_spec Lphot_model Lfit_model Lrun_model Lown_model Lrtot_spec Lptot_spec Lptot_proofs.
From Verif Require Lphot_props Lown_props Lrtot_props.
Import ListNotations.
Local Open Scope string_scope.
Local Open Scope Z_scope.

(** Given third party code that returns, run_photometry returns for every image,
    whatever the pixels, masks, objects at the edges and failures of fits are, as
    long as every object is placed within the exposure.
    Missing: objects placed elsewhere (see below). *)
Theorem C142_photometry_partial : forall P F h user names bands bands1 ms ormasks h1 x0 y0 r c n,
  phot_ready P F h user names bands bands1 ms ormasks h1 x0 y0 r c n -> placed_inside P x0 y0 r c ->
  exists bands' res, run_photometry (own_phot F P) h user names bands (Some ms) ormasks = (h1, bands', Ok res).
Proof. exact phot_returns. Qed.
Print Assumptions C142_photometry_partial.

(** ** Concrete cases: the field of Lphot_props, with the centroids at column [x] *)
Definition phot9 (x : Q) : phot :=
  let P := Lphot_props.phot1 in
  mkPhot (ph_stack P) (ph_back P) (ph_skydetect P) (ph_psffit P) (ph_to_g P) (ph_W P) (ph_rad P) (ph_single P) (ph_isfloat P)
    (ph_detect P) (ph_detmask P) (fun d id => Some (x, (2051 # 10)%Q)) (ph_skypix P) (ph_wcs P) (ph_radec P) (ph_gauss P) (ph_pgauss P)
    (ph_nanpos P) (ph_no_attempt P) (ph_detected P) (ph_label P) (ph_order P).
Definition call9 (x : Q) :=
  run_photometry (own_phot Lrtot_props.fits8 (phot9 x)) Lphot_props.user1 (Some 4%nat) ["g"; "r"] [Lphot_props.exA; Lphot_props.exB]
    (Some Lphot_props.mf1) (Some [Lphot_props.om1; ifill 9 9 2]).
Lemma ready9 : forall x, exists h1 bands1, phot_ready (phot9 x) Lrtot_props.fits8 Lphot_props.user1 (Some 4%nat) ["g"; "r"] [Lphot_props.exA; Lphot_props.exB] bands1
  Lphot_props.mf1 (Some [Lphot_props.om1; ifill 9 9 2]) h1 100 200 9 9 3.
Proof.
  intros x. do 2 eexists. split.
  { do 8 eexists. split; [vm_compute; reflexivity|]. do 4 (split; [vm_compute; reflexivity|]).
    split; [intros l b E; apply Some_inj in E; subst l; intros [<-|[]]; cbn; tauto|]. do 3 (split; [vm_compute; reflexivity|]).
    split; [eexists; vm_compute; reflexivity|]. split; [intros _; vm_compute; reflexivity|discriminate]. }
  split; [repeat constructor; cbn; intuition discriminate|]. do 2 (split; [reflexivity|]). split; [cbn; lia|]. do 2 (split; [lia|]). split; [reflexivity|].
  assert (Pl : forall e, In e [Lphot_props.exA; Lphot_props.exB] -> plain 100 200 9 9 3 e).
  { intros e [<-|[<-|[]]]; do 4 (split; [reflexivity|]); (split; [discriminate|]); eexists; (split; [reflexivity|]); intros; split; reflexivity. }
  split; [exact Pl|].
  split. { split.
    - intros e [<-|[<-|[]]]; [exists 0, 0, 2%Q|exists 0, 0, 4%Q]; (split; [unfold inside; cbn; lia|]); split; reflexivity.
    - exists Lphot_props.exA. split; [now left|]. intro U. vm_compute in U. lia. }
  split; [intros m [<-|[<-|[]]]; split; reflexivity|].
  split; [split; [discriminate|intros m [<-|[<-|[]]]; split; reflexivity]|].
  split. { split; [intros e _; eexists; split; reflexivity|intros a b; eexists; reflexivity]. }
  split. { split.
    - intros mb g p E _. destruct mb as [|o mb]; [discriminate|]. cbn in E. inversion E. cbn. rewrite !map_length. auto.
    - intros fwhm. split; [discriminate|]. split; intros; eexists; reflexivity. }
  split; [intros e; split; [reflexivity|split; [reflexivity|split; reflexivity]]|].
  split.
  - intros cfg d D1 D2 D3. eexists. split; [reflexivity|]. intros cat E. apply Some_inj in E. subst cat. split; [repeat constructor; cbn; intuition lia|].
    intros so [<-|[<-|[]]]; do 2 eexists; (split; [reflexivity|]); unfold inside; cbn; lia.
  - intros l _. apply Permutation_refl.
Qed.
(** One object in the middle and one whose stamp would cross the edge. *)
Example C142_example : placed_inside (phot9 105) 100 200 9 9 /\
  exists h1 bands' a b, call9 105 = (h1, bands', Ok (Some [a; b])) /\
    sget "stamp_flags" a = Some (CInt 0) /\ sget "stamp_flags" b = Some (CInt (2 ^ 20)).
Proof.
  split.
  - intros cfg d cat so _ _ _ _ _. split; split; vm_compute; congruence.
  - do 4 eexists. split; [vm_compute; reflexivity|]. split; reflexivity.
Qed.
(** A centroid beyond the last column by a tenth of a pixel: the call, which has
    everything else that it needs, raises. *)
Theorem C142_centroid_refuted : exists h1 bands1,
  phot_ready (phot9 (1086 # 10)) Lrtot_props.fits8 Lphot_props.user1 (Some 4%nat) ["g"; "r"] [Lphot_props.exA; Lphot_props.exB] bands1
    Lphot_props.mf1 (Some [Lphot_props.om1; ifill 9 9 2]) h1 100 200 9 9 3 /\
  snd (call9 (1086 # 10)) = Raise IndexError.
Proof. destruct (ready9 (1086 # 10)) as (h1 & bands1 & H). exists h1, bands1. split; [exact H|]. vm_compute. reflexivity. Qed.
Print Assumptions C142_centroid_refuted.
