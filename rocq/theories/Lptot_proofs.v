(** Proofs of C142. *)
From Coq Require Import ZArith QArith Qcanon List String Bool Lia Lqa Permutation.
From Verif Require Import Base Arr Median Dict Flags_model Coadd_model Wavg_model Joint_model Mtot_spec Lutil_model Lutil_spec Lutil_proofs Lexp_model Lexp_spec Lexp_proofs
  Lthr_model Lmdet_model Lmdet_spec Lmdet_proofs Lmeas_model Lmeas_spec Lmeas_proofs Lphot_model Lphot_spec Lphot_proofs Lfit_model Lrun_model Lrun_spec Lrun_proofs Lown_model Ltot_spec Ltot_proofs Lrtot_spec Lrtot_proofs Lptot_spec.
From Verif Require Lmcal_proofs.
Import ListNotations.
Local Open Scope string_scope.
Local Open Scope Z_scope.

Lemma plain_after : forall P cfg d x0 y0 r c n l, (forall e, In e l -> plain x0 y0 r c n e) -> forall e, In e (after_detection P cfg d l) -> plain x0 y0 r c n e.
Proof.
  intros P cfg d x0 y0 r c n l H e I. unfold after_detection in I. destruct l as [|a [|b l]]; [destruct I| |now apply H].
  destruct (ph_isfloat P); [|now apply H]. destruct I as [<-|[]]. exact (H a (or_introl eq_refl)).
Qed.
Lemma after_zlen : forall P cfg d l, zlen (after_detection P cfg d l) = zlen l.
Proof. intros P cfg d l. unfold after_detection. destruct l as [|a [|b l]]; [reflexivity| |reflexivity]. now destruct (ph_isfloat P). Qed.
Lemma fine_usable : forall l, variances_fine l -> usable l.
Proof.
  intros l [V W]. split; [|exact W]. intros e I. destruct (V e I) as (i & j & q & Ii & Eq & Q0). exists i, j. split; [exact Ii|]. unfold good. now rewrite Eq.
Qed.
Lemma phot_returns : forall P F h user names bands bands1 ms ormasks h1 x0 y0 r c n,
  phot_ready P F h user names bands bands1 ms ormasks h1 x0 y0 r c n -> placed_inside P x0 y0 r c ->
  exists bands' res, run_photometry (own_phot F P) h user names bands (Some ms) ormasks = (h1, bands', Ok res).
Proof.
  intros P F h user names bands bands1 ms ormasks h1 x0 y0 r c n
    ((cfg & ss & thresh & sba & sb & fwhm & a & sz & Cg & Cs & Ct & Cb & Cn & Cw & Cf & Ca & Ci & (cd & Cd) & Sk1 & Sk2) &
     Nn & Ln & Lm & Hb & Hr & Hc & On & Pl & Vf & Hm & Mk & [Pf Tg] & Ff & Sk & Dr & Ls) Pi.
  assert (Nb : bands <> []) by (intros ->; cbn in Hb; lia).
  assert (Eom : exists om, match ormasks, bands with None, [] => Raise IndexError | None, e :: _ => combine_ormasks (nr (e_image e), nc (e_image e)) None
      | Some l, _ => combine_ormasks (0, 0) (Some l) end = Ok om /\ of_size r c om).
  { destruct (masks_return r c ormasks Mk) as (om & E & S). exists om. split; [|exact S]. destruct ormasks as [l|]; [exact E|].
    destruct bands as [|e bands']; [congruence|]. destruct (Pl e (or_introl eq_refl)) as (_ & _ & P3 & P4 & _). rewrite P3, P4. exact E. }
  destruct Eom as (om & Eom & Som).
  destruct (mfrac_returns r c bands ms Nb Lm (proj1 Vf) Hm) as (mf & ws & Emf).
  destruct (get_mfrac_spec _ _ _ _ Emf) as (Mw & _); [now rewrite map_length|].
  assert (Esk : (if truthy ss then subtract_sky_mbexp P thresh bands else (bands, Ok tt)) = (bands1, Ok tt)).
  { destruct (truthy ss); [now apply Sk1|]. now rewrite (Sk2 eq_refl). }
  assert (Lo : Forall2 sky_lowered bands bands1).
  { destruct (truthy ss); [exact (subtract_lowered _ _ _ _ _ Esk)|]. inversion Esk. apply Forall2_refl', sky_lowered_refl. }
  assert (Lb : List.length bands1 = List.length bands) by (symmetry; exact (Lmcal_proofs.Forall2_length' _ _ _ _ _ Lo)).
  destruct (sky_fine _ _ _ _ _ _ _ Lo Pl Vf) as [Pl1 Vf1].
  destruct (shear_good names sb) as (shear & Esh & Gb); [destruct names; [destruct bands; [congruence|discriminate]|discriminate]|unfold zlen in *; lia|exact Cw|].
  assert (Efs : exists fs, map (ph_psffit P) bands1 = map Ok fs /\ (forall f, In f fs -> pf_flags f = 0) /\ List.length fs = List.length bands1).
  { clear -Pf. induction bands1 as [|e l IH]; [exists []; cbn; intuition|]. destruct (Pf e (or_introl eq_refl)) as (f & E & Z).
    destruct IH as (fs & E2 & Z2 & L2); [intros; apply Pf; now right|]. exists (f :: fs). cbn [map List.length]. rewrite E, E2, L2.
    split; [reflexivity|]. split; [|reflexivity]. intros g [<-|I]; auto. }
  destruct Efs as (fs & Efs & Zfs & Lfs). assert (Lws : List.length ws = List.length bands) by (rewrite <- (Lmcal_proofs.Forall2_length' _ _ _ _ _ Mw); apply map_length).
  destruct Gb as (G1 & G2 & G3 & G4).
  destruct (psf_returns (ph_to_g P) shear _ fs ws _ Efs Zfs Mw) as (p & Ep); auto; [congruence|intros i I; specialize (G4 i I); unfold zlen in *; lia|].
  assert (Em : exists bands' t, phot_measure (own_phot F P) h1 cfg bands1 thresh shear = (bands', Ok t) /\
    match t with None => True | Some rows => exists rows', finish (own_phot F P) om mf p rows = Ok rows' end).
  { unfold phot_measure. change (ph_stack (own_phot F P)) with (ph_stack P). rewrite Cd. unfold dd_run.
    change (ph_single (own_phot F P)) with (ph_single P). change (ph_detect (own_phot F P)) with (ph_detect P).
    destruct (detexp_returns P x0 y0 r c n bands1 Sk Pl1 (fine_usable _ Vf1)) as (d & -> & D1 & D2 & D3). cbn [obind].
    destruct (Dr cd d D1 D2 D3) as (found & Ef & _). rewrite Ef. cbn [obind]. cbv zeta.
    destruct (cat_returns (own_phot F P) cd d found (after_detection (own_phot F P) cd d bands1) sz fwhm shear x0 y0 r c n om mf p) as (t & Et & Ht); auto.
    - exact (plain_after _ _ _ _ _ _ _ _ _ Pl1).
    - intro X. apply (f_equal zlen) in X. rewrite after_zlen in X. unfold zlen in *. cbn in X. lia.
    - apply own_fits_return; [rewrite after_zlen; unfold zlen in *; lia| |exact Ff].
      replace (zlen (after_detection (own_phot F P) cd d bands1)) with (zlen names) by (rewrite after_zlen; unfold zlen; lia). split; [exact G1|]. auto.
    - destruct (match found with Some l => l | None => [] end) as [|s0 l0] eqn:Es.
      + exists (after_detection (own_phot F P) cd d bands1), None. auto.
      + exists (after_detection (own_phot F P) cd d bands1), t. split; [|exact Ht]. f_equal. rewrite Cf, Ca. cbn [obind]. rewrite Ci. cbn [obind]. exact Et. }
  destruct Em as (bands' & t & Em & Ht).
  unfold run_photometry. rewrite Cg, Eom. cbn [obind]. rewrite Emf. cbn [obind]. rewrite Cs. cbn [obind]. rewrite Ct. cbn [obind].
  rewrite own_sky, Esk, Cb. cbn [obind]. rewrite Cn. cbn [obind]. rewrite Esh. cbn [obind fst snd].
  change (ph_to_g (own_phot F P)) with (ph_to_g P). change (ph_psffit (own_phot F P)) with (ph_psffit P). rewrite Ep. cbn [obind]. rewrite Em. cbn [obind].
  destruct t as [rows|]; [destruct Ht as [rows' Er]; rewrite Er; cbn [obind]|]; eauto.
Qed.
