(** C87: run_metadetect from end to end. *)
From Coq Require Import ZArith QArith Qcanon List String Bool Lia Permutation.
From Verif Require Import Base Arr Median Dict Lutil_model Lutil_spec Lutil_proofs Lexp_model Lthr_model Lthr_spec Lthr_proofs
  Lmdet_model Lmdet_spec Lmdet_proofs Lmeas_model Lmeas_spec Lsub_model Lsub_spec Lscar_model Lscar_spec Lphot_model Lphot_spec Lphot_proofs Lphot_props
  Lrun_model Lrun_spec Lrun_proofs.
From Verif Require Lmcal_model Lmcal_spec Lmcal_proofs Lsky_model Lsky_spec Lscar_proofs.
Import ListNotations.
Local Open Scope string_scope.
Local Open Scope Z_scope.
Local Notation value_at := Lutil_spec.value_at.

(** The result has a table for every requested type, and the PSF statistics when
    they are asked for. The table of a type is that of the exposures sheared by
    the documented shear of that type, with fixed noise, where the sky is
    subtracted first if that is asked for: detection with the requested threshold
    on their coadd, one row for each object without children (with the scarlet
    deblender: for each model, measured on the pixels minus the models of all
    other sources), with the fits for the shear bands, the union of the masks at
    its own pixel and the mean PSF of the original exposures in every row.
    Missing: the columns bmask (C61) and mfrac (C57) are not those of the object
    ([table_of] says what they are); as many names, noise exposures and mask
    fractions as bands are assumed. *)
Theorem C87_tables_partial : forall Prof (R : mrun Prof) user names bands noise ms ormasks get_psf_stats bands1 res,
  let P := r_phot R in
  stack_ok (ph_stack P) -> lists_set (ph_order P) ->
  (forall c d cat, ph_detect P c d = Ok (Some cat) -> catalogue cat) -> scarlet_ok R names ->
  (forall c e, Lsky_spec.no_reestimate (ph_skydetect P c e)) -> Lmcal_spec.draw_shape (middle_galsim R) ->
  weight_ok (ph_W P) -> 0 <= ph_rad P ->
  distinct_keys (ODict (given_items user)) -> one_name (given_items user) ->
  NoDup names -> List.length names = List.length bands -> List.length noise = List.length bands -> List.length ms = List.length bands ->
  one_box bands ->
  run_metadetect R user names bands noise (Some ms) ormasks get_psf_stats = (bands1, Ok res) ->
  exists s want shear fs p mf,
    settings_of (ph_stack P) user s /\
    (Forall2 sky_lowered bands bands1 /\ (truthy (s_sky s) = false -> bands1 = bands) /\
     (truthy (s_sky s) = true -> exists cs,
        value_at cs ["iterate_detection_and_skysub"; "detect"; "thresholdValue"] = Some (effective (s_thresh s)) /\
        Forall2 (sky_iterated (ph_back P) (ph_skydetect P cs)) bands bands1)) /\
    (shear_wanted user names want /\ NoDup shear /\
     forall i, In i shear <-> 0 <= i /\ exists b, nth_error names (Z.to_nat i) = Some b /\ In b want) /\
    (map (ph_psffit P) bands1 = map Ok fs /\ (forall f, In f fs -> pf_flags f = 0) /\
     mean_psf (ph_to_g P) shear fs (map e_var bands) p) /\
    mean_map (map e_var bands) ms mf /\
    (forall t, In t (skeys res) <-> In t (s_types s) \/ (get_psf_stats = true /\ t = "psf_stats")) /\
    (get_psf_stats = true -> sget "psf_stats" res = Some (PsfStats p)) /\
    forall t, In t (s_types s) -> exists sh out tab,
      sget t Lmcal_spec.documented = Some sh /\
      sheared_bands R names bands1 noise
        (if String.eqb (s_reconv s) "fitgauss" then Some (map (fun f => Lmcal_model.mkPs (pf_e1 f) (pf_e2 f) (pf_T f)) fs) else None) sh out /\
      sget t res = Some (Table tab) /\ table_of R s shear names ormasks mf p (map of_mcal out) tab.
Proof.
  intros Prof R user names bands noise ms ormasks gp bands1 res P So Ls Cat Sc NR Ds Wk Rk Dk On Nn Ln Lno Lm Ob H.
  destruct (run_ok R _ _ _ _ _ _ _ _ _ H) as (s & dims & om & mf & ws & shear & p & d & nd & res0 & E1 & E2 & E3 & E4 & E5 & E6 & E7 & E8 & E9).
  fold P in E4, E6, E7. clear H. destruct (read_config_ok R user s Dk On E1) as [Se Wa]. fold P in Se.
  destruct (Wa names) as (want & Wa1 & Wa2). clear Wa. destruct (sky_part R s bands bands1 (Ok tt) E4) as [Lo Same].
  assert (Lb : List.length bands1 = List.length bands) by (clear -Lo; induction Lo; cbn; congruence).
  assert (Ob1 : one_box bands1) by (exact (box_Forall2 _ _ _ sky_lowered_box Lo Ob)).
  pose proof (sorted_nodup _ (shear_bands_sorted names _ shear E5)) as Nd.
  pose proof (shear_bands_exact names _ shear E5) as Exact.
  assert (Rng : forall i, In i shear -> 0 <= i < zlen (map (ph_psffit P) bands1)).
  { intros i I. apply Exact in I. destruct I as (I0 & b & I1 & _). assert (X : nth_error names (Z.to_nat i) <> None) by congruence.
    apply nth_error_Some in X. unfold zlen. rewrite map_length, Lb. lia. }
  destruct (fit_original_means _ _ _ _ _ Nd Rng E6) as (Lw & fs & Ef & Gf & Tot & Fl & Nv & M1 & M2 & M3 & M4).
  destruct (get_mfrac_spec _ _ _ _ E3) as (Mw & Mq & Ms & Mx). { now rewrite map_length. }
  assert (Lf : List.length fs = List.length bands1). { apply (f_equal (@List.length _)) in Ef. rewrite !map_length in Ef. auto. }
  assert (Nb : bands1 <> []).
  { intros ->. destruct fs; [|discriminate]. unfold sum_over in Tot. destruct ws as [|w ws]; cbn in Tot; [discriminate Tot|].
    unfold zlen in Lw. cbn in Lw. lia. }
  exists s, want, shear, fs, p, mf.
  split; [exact Se|].
  split; [split; [exact Lo|]; split; [exact Same|]; intro T; rewrite T in E4; exact (subtract_iterated _ _ _ _ So NR E4)|].
  split; [split; [exact Wa1|]; split; [exact Nd|]; subst want; exact Exact|].
  split. { split; [exact Ef|]. split; [exact Gf|]. exists ws. split; [exact Mw|]. cbv zeta. repeat (split; [assumption|]). assumption. }
  split; [exists ws; auto|].
  assert (Fmf : forall l l', Forall2 (finished P om mf p) l l' -> forall r, In r l' -> mfrac_column (ph_W P) (ph_rad P) mf r).
  { clear -Wk Rk. intros l l' Fn r Ir. induction Fn as [|a b l l' A F IH]; [destruct Ir|destruct Ir as [<-|Ir]; [exact (finished_mfrac _ _ _ _ _ _ Wk Rk A)|now apply IH]]. }
  set (stats := if String.eqb (s_reconv s) "fitgauss" then Some (map (fun f => Lmcal_model.mkPs (pf_e1 f) (pf_e2 f) (pf_T f)) fs) else None).
  assert (E7' : Lmcal_model.get_metacal_mbexps_fixnoise (mcal_galsim R) (map to_mcal (combine names bands1)) (map to_mcal (combine names noise))
      (Some (s_types s)) stats = Ok (d, nd)).
  { rewrite <- E7. unfold stats. rewrite Ef, perband_ok. reflexivity. }
  assert (Lmm : List.length (map to_mcal (combine names noise)) = List.length (map to_mcal (combine names bands1))) by (rewrite !map_length, !combine_length; lia).
  destruct (Lmcal_proofs.mbexps_fixnoise_spec (mcal_galsim R) _ _ _ _ _ _ Lmm E7') as (Kd & _ & _ & Sd).
  cbn [Lmcal_spec.requested] in Kd, Sd.
  pose proof (Lmcal_proofs.mbexps_fixnoise_nodup (mcal_galsim R) _ _ _ _ _ _ E7') as Ndd.
  destruct (entries_ok R s shear names om mf p d [] res0 Ndd E8) as [A B].
  assert (NP : ~ In "psf_stats" (s_types s)).
  { intro I. destruct Se as (_ & _ & _ & _ & Inc & _). apply Inc in I. cbn in I. intuition discriminate. }
  assert (K0 : forall t, In t (skeys res0) <-> In t (s_types s)).
  { intro t. rewrite <- Kd. split; intro I.
    - destruct (in_dec string_dec t (skeys d)) as [Y|Y]; [exact Y|]. apply sget_In in I. destruct I as [v I]. rewrite (B t Y) in I. discriminate.
    - apply sget_In in I. destruct I as [out I]. destruct (A t out I) as (r & tab & _ & G & _). apply sget_In. eauto. }
  split; [|split].
  - intro t. subst res. destruct gp; [|rewrite K0; intuition discriminate]. rewrite sget_In, sget_put.
    destruct (String.eqb_spec t "psf_stats") as [->|N]; [split; [auto|eauto]|]. rewrite <- sget_In, K0. intuition.
  - intros ->. subst res. rewrite sget_put. reflexivity.
  - intros t It. destruct (Sd t It) as (sh & es & ns & out & D1 & D2 & D3 & D4 & _ & D5 & D6).
    assert (Nm : map to_mcal (combine names bands1) <> []).
    { intro X. apply map_eq_nil in X. destruct bands1; [congruence|]. destruct names; [cbn in Ln, Lb; lia|discriminate]. }
    specialize (D1 Nm).
    assert (Sh : sheared_bands R names bands1 noise stats sh out) .
    { exists es, ns. split; [|split; [|auto]].
      - eapply Lscar_proofs.Forall2_weaken; [|exact D2]. intros a b. apply middle_exp.
      - eapply Lscar_proofs.Forall2_weaken; [|exact D3]. intros a b. apply middle_exp. }
    destruct (A t out D4) as (r & tab & Mt & G & Fn). exists sh, out, tab. split; [exact D1|]. split; [exact Sh|].
    split. { subst res. destruct gp; [|exact G]. rewrite sget_put. destruct (String.eqb_spec t "psf_stats") as [->|]; [contradiction|exact G]. }
    assert (Lo1 : List.length out = List.length bands1).
    { apply (sheared_length R names bands1 noise stats sh out); [|lia|exact Sh]. unfold stats. destruct (String.eqb _ _); [|exact Logic.I]. now rewrite map_length. }
    assert (Sz : 0 <= s_stamp s). { destruct Se as (_ & _ & _ & _ & _ & _ & _ & ->). lia. }
    assert (Lm1 : List.length names = List.length (map of_mcal out)) by (rewrite map_length; unfold mexp in *; congruence).
    destruct (measure_type_ok R s shear names (map of_mcal out) r So Ls Cat Sc Nn Lm1
      (sheared_box R names bands1 noise stats sh out Ds Ob1 Sh) Sz Mt) as (c & dd & T1 & T2 & T3 & T4). fold P in T3, T4.
    exists c, dd. split; [exact T1|]. split; [exact T2|]. cbv zeta. fold P. split; intro Es.
    + destruct (T3 Es) as (found & F1 & F2 & F3). exists found. split; [exact F1|]. split.
      * rewrite <- F2. destruct r as [rows|]; [|subst tab; tauto]. destruct Fn as (rows' & _ & ->). split; discriminate.
      * intros rows' ->. destruct r as [rows|]; [|discriminate]. destruct Fn as (rows2 & Fn & X). apply Some_inj in X. subst rows2.
        destruct (F3 rows eq_refl) as (cat & cs & G1 & G2 & G3 & G4). exists cat, cs. split; [exact G1|]. split; [exact G2|].
        apply finish_ok in Fn. fold P in Fn. split; [|split; [exact (finished_masks _ _ _ _ _ _ _ _ Fn G4)|exact (Fmf _ _ Fn)]].
        assert (X : Forall2 (fun (b : source) r => exists o, b = o /\ object_row_on (fun obs => source_mbobs (phot_env P c dd (map of_mcal out) (s_stamp s) (s_fwhm s) shear) o = Ok obs)
            (phot_env P c dd (map of_mcal out) (s_stamp s) (s_fwhm s) shear) (ph_label P shear) o r) cs rows).
        { eapply Lscar_proofs.Forall2_weaken; [|exact G3]. intros a b X. exists a. split; [reflexivity|exact X]. }
        apply (finished_rows R source (fun _ o obs => source_mbobs (phot_env P c dd (map of_mcal out) (s_stamp s) (s_fwhm s) shear) o = Ok obs) (fun b o => b = o)
          dims ormasks om mf p _ _ _ _ rows' E2 Fl) in X; [|exact Fn].
        eapply Lscar_proofs.Forall2_weaken; [|exact X]. intros a b (o & <- & Y). exact Y.
    + destruct (T4 Es) as (found & F1 & F2 & F3). exists found. split; [exact F1|]. split.
      * rewrite <- F2. destruct r as [rows|]; [|subst tab; tauto]. destruct Fn as (rows' & _ & ->). split; discriminate.
      * intros rows' ->. destruct r as [rows|]; [|discriminate]. destruct Fn as (rows2 & Fn & X). apply Some_inj in X. subst rows2.
        destruct (F3 rows eq_refl) as (cat & sc & orig & G1 & G2 & G3 & G4). exists cat, sc, orig. split; [exact G1|]. split; [exact G2|].
        apply finish_ok in Fn. fold P in Fn. split; [|split; [exact (finished_masks _ _ _ _ _ _ _ _ Fn G4)|exact (Fmf _ _ Fn)]].
        exact (finished_rows R (blend_source Qc) (fun _ o => isolated Qc Qcminus this (phot_env P c dd (map of_mcal out) (s_stamp s) (s_fwhm s) shear) names (foot_of cat (sc_fbox sc))
          orig (model_sources Qc (sc_blends sc)) o) (fun b o => find_source cat (b_id Qc b) = Some o)
          dims ormasks om mf p _ _ _ _ rows' E2 Fl G3 Fn).
Qed.
Print Assumptions C87_tables_partial.

(** Whatever the outcome, the caller's exposures lose at most some sky, and
    nothing when no sky subtraction is asked for, with one band too; a
    configuration that cannot be read leaves them as they are. *)
Theorem C87_input : forall Prof (R : mrun Prof) user names bands noise mfracs ormasks gp bands1 o,
  distinct_keys (ODict (given_items user)) -> one_name (given_items user) ->
  run_metadetect R user names bands noise mfracs ormasks gp = (bands1, o) ->
  Forall2 sky_lowered bands bands1 /\
  (untouched (ODict (given_items user)) ["subtract_sky"] \/
   (exists a, given (ODict (given_items user)) ["subtract_sky"] = Some a /\ truthy a = false) -> bands1 = bands).
Proof.
  intros Prof R user names bands noise mfracs ormasks gp bands1 o Dk On H. unfold run_metadetect in H.
  assert (Rf : Forall2 sky_lowered bands bands) by apply Forall2_refl', sky_lowered_refl.
  destruct (obind (read_config R user) _) as [[[s om] mw]|x] eqn:E; [|inversion H; subst; auto].
  destruct (read_config R user) as [s0|] eqn:E1; cbn [obind] in E; [|discriminate].
  match type of E with obind ?a _ = _ => destruct a as [om0|] eqn:E2; cbn [obind] in E; [|discriminate] end.
  destruct (get_mfrac_mbexp (map e_var bands) mfracs) as [mw0|] eqn:E3; cbn [obind] in E; [|discriminate].
  apply Ok_inj in E. inversion E; subst s0 om0 mw0. clear E.
  assert (X : exists r, (if truthy (s_sky s) then subtract_sky_mbexp (r_phot R) (s_thresh s) bands else (bands, Ok tt)) = (bands1, r)).
  { destruct (if truthy (s_sky s) then _ else _) as [b1 [[]|x]]; inversion H; eauto. }
  destruct X as [r X]. destruct (sky_part R s bands bands1 r X) as [A B]. split; [exact A|]. intros U. apply B.
  destruct (read_config_ok R user s Dk On E1) as [([S1 S2] & _) _]. destruct U as [U|(a & U & T)]; [now rewrite (S2 U)|now rewrite (S1 a U)].
Qed.
Print Assumptions C87_input.

(** An option that does not exist is an AttributeError, a type of metacal that
    does not exist an error too, before anything is changed. *)
Theorem C87_unknown_option : forall Prof (R : mrun Prof) user names bands noise mfracs ormasks gp k,
  In k (skeys (given_items user)) ->
  ~ In k ["subtract_sky"; "pgauss"; "detect"; "deblender"; "metacal"; "stamp_size"; "shear_bands"] ->
  run_metadetect R user names bands noise mfracs ormasks gp = (bands, Raise AttributeError).
Proof.
  intros Prof R user names bands noise mfracs ormasks gp k I N. unfold run_metadetect, read_config.
  change (match user with Some d => d | None => [] end) with (given_items user).
  destruct (override _ _) as [c r] eqn:O. destruct (override_raises_only _ _ _ _ O) as [-> | ->]; [exfalso|reflexivity].
  rewrite override_dict in O. rewrite <- skeys_unalias in I.
  apply (oloop_known _ _ _ _ O I); [intros ->; apply N; cbn; tauto|]. cbn [mdet_defaults cget sget].
  repeat (match goal with |- context[String.eqb k ?x] => destruct (String.eqb_spec k x) as [->|_]; [destruct N; cbn; tauto|] end). reflexivity.
Qed.
Print Assumptions C87_unknown_option.
Theorem C87_unknown_type : forall Prof (R : mrun Prof) user names bands noise mfracs ormasks gp l t,
  distinct_keys (ODict (given_items user)) -> one_name (given_items user) ->
  given (ODict (given_items user)) ["metacal"; "types"] = Some (ANames l) -> In t l -> sget t Lmcal_spec.documented = None ->
  exists x, run_metadetect R user names bands noise mfracs ormasks gp = (bands, Raise x) /\ (x = ValueError \/ x = AttributeError).
Proof.
  intros Prof R user names bands noise mfracs ormasks gp l t D ON G I Nd. unfold run_metadetect, read_config.
  change (match user with Some d => d | None => [] end) with (given_items user).
  destruct (override _ _) as [c r] eqn:O. destruct (override_raises_only _ _ _ _ O) as [-> | ->]; [|exists AttributeError; auto].
  destruct (override_gen _ _ _ (unalias_distinct _ D ON) O) as [A _]. cbn [run_of obind].
  rewrite <- (proj1 (unalias_other (given_items user) "metacal" ["types"] ltac:(discriminate))) in G. apply A in G; [|discriminate].
  unfold Lutil_spec.value_at in G. cbn [field] in G. unfold node_at. destruct (cget c "metacal") as [mc|]; [|discriminate].
  destruct mc as [a|m]; [discriminate|]. cbn [obind]. unfold leaf_at. destruct (cget (CNode m) "types") as [[b|m2]|]; try discriminate.
  apply Some_inj in G. subst b. cbn [obind]. unfold validate. destruct (forallb _ l) eqn:F; [|exists ValueError; auto].
  exfalso. rewrite forallb_forall in F. apply F in I. cbn in Nd. cbn in I.
  repeat (match goal with K : context[String.eqb t ?x] |- _ => destruct (String.eqb t x); [discriminate|] end). discriminate.
Qed.
Print Assumptions C87_unknown_type.

(** A shear band that is not among the bands raises; a PSF fit that fails raises
    too; so does every call without masked fractions, the default. *)
Theorem C87_missing_band : forall Prof (R : mrun Prof) user names bands noise mfracs ormasks gp bands1 o want b,
  distinct_keys (ODict (given_items user)) -> one_name (given_items user) ->
  given (ODict (given_items user)) ["shear_bands"] = Some (ANames want) -> In b want -> ~ In b names ->
  run_metadetect R user names bands noise mfracs ormasks gp = (bands1, o) -> exists x, o = Raise x.
Proof.
  intros Prof R user names bands noise mfracs ormasks gp bands1 o want b D ON G I N H. destruct o as [res|x]; [exfalso|eauto].
  destruct (run_ok R _ _ _ _ _ _ _ _ _ H) as (s & dims & om & mf & ws & shear & p & d & nd & res0 & E1 & E2 & E3 & E4 & E5 & _).
  destruct (read_config_ok R user s D ON E1) as [_ W]. destruct (W names) as (w & (a & [Ga _] & Ca) & Ew). rewrite (Ga _ G) in Ca.
  assert (Ew2 : w = want). { destruct Ca as [[T _]|[_ C]]; [destruct want; [destruct I|discriminate]|congruence]. } rewrite Ew in Ew2. clear Ew Ca Ga.
  assert (X : extract_shear_band_indices names (s_shear s) = Raise RuntimeError).
  { apply shear_bands_error. exists b. split; [|exact N]. now rewrite Ew2. }
  congruence.
Qed.
Print Assumptions C87_missing_band.
Theorem C87_psf_failure_raises : forall Prof (R : mrun Prof) user names bands noise mfracs ormasks gp bands1 o,
  (exists e, In e bands /\ forall e', same_frame e e' -> psf_failed (ph_psffit (r_phot R) e')) ->
  (forall e x, ph_psffit (r_phot R) e = Raise x -> x = BootPSFFailure \/ x = GMixFatalError) ->
  run_metadetect R user names bands noise mfracs ormasks gp = (bands1, o) -> exists x, o = Raise x.
Proof.
  intros Prof R user names bands noise mfracs ormasks gp bands1 o (e0 & I0 & F) Oth H. destruct o as [res|x]; [exfalso|eauto].
  destruct (run_ok R _ _ _ _ _ _ _ _ _ H) as (s & dims & om & mf & ws & shear & p & d & nd & res0 & E1 & E2 & E3 & E4 & E5 & E6 & _).
  destruct (sky_part R s bands bands1 (Ok tt) E4) as [Lo _].
  assert (L : zlen ws = zlen (map (ph_psffit (r_phot R)) bands1)).
  { unfold fit_original_psfs in E6. destruct (zlen ws =? zlen (map (ph_psffit (r_phot R)) bands1)) eqn:E; [now apply Z.eqb_eq|discriminate]. }
  destruct (fit_original_failure (ph_to_g (r_phot R)) shear (map (ph_psffit (r_phot R)) bands1) ws L) as [X|X].
  - assert (X : exists e1, In e1 bands1 /\ sky_lowered e0 e1).
    { clear -Lo I0. induction Lo as [|a b l l' A F IH]; [destruct I0|]. destruct I0 as [<-|I0]; [exists b; cbn; auto|]. destruct (IH I0) as (e1 & I1 & S1). exists e1. cbn. auto. }
    destruct X as (e1 & I1 & [Sf _]). exists (ph_psffit (r_phot R) e1). split; [now apply in_map|now apply F].
  - intros x I. apply in_map_iff in I. destruct I as (e & E & _). exact (Oth e x E).
  - congruence.
  - congruence.
Qed.
Print Assumptions C87_psf_failure_raises.
Theorem C87_no_mfrac_raises : forall Prof (R : mrun Prof) user names bands noise ormasks gp bands1 o,
  run_metadetect R user names bands noise None ormasks gp = (bands1, o) -> exists x, o = Raise x.
Proof.
  intros Prof R user names bands noise ormasks gp bands1 o H. destruct o as [res|x]; [exfalso|eauto].
  destruct (run_ok R _ _ _ _ _ _ _ _ _ H) as (s & dims & om & mf & ws & shear & p & d & nd & res0 & E1 & E2 & E3 & _). discriminate.
Qed.
Print Assumptions C87_no_mfrac_raises.

(** ** A concrete run: two bands of 51 x 51 pixels at corner (100, 200). Drawing
    scales the image by 1 + g1 + 2 g2; the fits report the pixel in the middle of
    the stamp in the last band. *)
Definition plane (im var : Q) : exposure :=
  mkExp 100 200 (ifill 51 51 im) (mkImg 51 51 (fun i j => Some (if i =? 25 then var else 0)%Q)) (ifill 51 51 0) (Some (fun _ _ => ifill 3 3 1%Q)) (Some 7).
Definition middle (obs : list lobs) : outcome (string -> cell) :=
  match rev obs with o :: _ => Ok (fun _ => CNum (Some (Qred (px (o_image o) 24 24)))) | [] => Raise IndexError end.
Definition star : source := mkSrc 2 0 [(125, 225)] ((1251 # 10)%Q, (2252 # 10)%Q).
Definition edge : source := mkSrc 3 0 [(108, 205)] ((1081 # 10)%Q, (2052 # 10)%Q).
Definition phot2 : phot :=
  mkPhot field_stack (fun _ _ => inr (ifill 51 51 (1 # 2))) quiet_detect (fun e => Ok (mkPf 0 (1 # 10) 0 (px (e_image e) 0 0))) (fun a b => Some (a, b)) (fun _ _ => 1%Q) 2
    (fun e => mkCo (imap Some (e_image e)) (e_var e) (e_mask e) (ifill 3 3 (Some 1%Q)) (e_wcs e) (e_x0 e) (e_y0 e)) true
    (fun c d => Ok (Some [star; edge])) (fun c d => ifill 51 51 32) (fun d id => Some (inject_Z (123 + id), (2251 # 10))%Q) (fun _ => None)
    (fun _ _ _ => mkMat 1 0 0 1) (fun c => c) (fun sh obs => middle obs) (fun fw obs => middle obs)
    (0%Q, 0%Q) 1 32 (fun _ => "1") (fun l => l).
Definition model (v : Q) (id : Z) : blend_source Qc := mkBlend Qc id (fun band x y => Some (Q2Qc v)).
Definition run2 : mrun unit :=
  mkRun phot2 (fun _ _ _ => 1%Q) (fun _ _ => Ok tt) (fun _ _ _ => Ok tt) (fun p _ => p) (fun _ k _ => k)
    (fun im _ _ s _ => Ok (imap (fun v => v * match s with None => 1 | Some (a, b) => 1 + a + 2 * b end)%Q im))
    (fun c bands d => Ok (Some ([star; edge], mkScar ["g"; "r"] (fun _ => Some (mkBox 102 202 148 248)) [[[model 3 3; model 5 2]]]))).
Definition user2 (deb : string) : items :=
  [("subtract_sky", OLeaf (ABool true)); ("shear_bands", OLeaf (ANames ["r"])); ("deblender", OLeaf (AStr deb));
   ("metacal", ODict [("types", OLeaf (ANames ["noshear"; "1p"]))])].
Lemma user2_ok : forall deb, distinct_keys (ODict (user2 deb)) /\ one_name (user2 deb).
Proof.
  intro deb. split.
  - constructor; [repeat constructor; cbn; intuition discriminate|]. intros k o [E|[E|[E|[E|[]]]]]; injection E as <- <-; try constructor.
    + repeat constructor. intros [].
    + intros k o [E|[]]. injection E as <- <-. constructor.
  - intros l E. discriminate.
Qed.
Definition om2 : img Z := mkImg 51 51 (fun i j => if (i =? 25) && (j =? 25) then 5 else 0).
Definition mf2 : list (img Q) := [ifill 51 51 0%Q; ifill 51 51 (1 # 4)].
Lemma run2_ok : stack_ok (ph_stack phot2) /\ lists_set (ph_order phot2) /\ (forall c d cat, ph_detect phot2 c d = Ok (Some cat) -> catalogue cat) /\
  scarlet_ok run2 ["g"; "r"] /\ (forall c e, Lsky_spec.no_reestimate (ph_skydetect phot2 c e)) /\ Lmcal_spec.draw_shape (middle_galsim run2) /\ weight_ok (ph_W phot2) /\
  one_box [plane 1 2; plane 3 4].
Proof.
  split; [exact field_stack_ok|]. split; [intros l _; apply Permutation_refl|].
  split; [intros c d cat E; apply Ok_inj, Some_inj in E; subst cat; repeat constructor; cbn; intuition lia|].
  split. { intros c mc d cat sc E. inversion E; subst. cbn. split; [repeat constructor; cbn; intuition discriminate|]. split; [intros x Ix; exact Ix|]. repeat constructor; cbn; intuition lia. }
  split; [intros c e x m r bg E; inversion E; reflexivity|].
  split; [intros im w k s p im' E; cbn in E; apply Ok_inj in E; subst im'; split; reflexivity|].
  split; [split; [intros; discriminate|intros; reflexivity]|].
  intros e e' [<-|[<-|[]]] [<-|[<-|[]]]; reflexivity.
Qed.
Example C87_example : exists bands' a b c d p,
  run_metadetect run2 (Some (user2 "sdss")) ["g"; "r"] [plane 1 2; plane 3 4] [plane 5 2; plane 6 4] (Some mf2) (Some [om2; ifill 51 51 2]) true =
    (bands', Ok [("noshear", Table (Some [a; b])); ("1p", Table (Some [c; d])); ("psf_stats", PsfStats p)]) /\
  map (fun e => Qred (px (e_image e) 0 0)) bands' = [0%Q; 2%Q] /\
  sget "gauss_T" a = Some (CNum (Some (8 # 1))) /\ sget "gauss_T" c = Some (CNum (Some (Qred (8 * (101 # 100))))) /\
  sget "stamp_flags" c = Some (CInt 0) /\ sget "stamp_flags" d = Some (CInt (2 ^ 20)) /\
  sget "ormask" c = Some (CInt 7) /\ sget "bmask" c = Some (CInt 0) /\ sget "psfrec_navg" c = Some (CInt 1) /\ (st_T p == 2)%Q.
Proof. do 6 eexists. split; [vm_compute; reflexivity|]. repeat split. Qed.
Example C87_example_scarlet : exists bands' a b c d,
  run_metadetect run2 (Some (user2 "scarlet")) ["g"; "r"] [plane 1 2; plane 3 4] [plane 5 2; plane 6 4] (Some mf2) (Some [om2; ifill 51 51 2]) false =
    (bands', Ok [("noshear", Table (Some [a; b])); ("1p", Table (Some [c; d]))]) /\
  (* the first model hits the edge; the second is measured without the first *)
  sget "stamp_flags" c = Some (CInt (2 ^ 20)) /\ sget "stamp_flags" d = Some (CInt 0) /\
  sget "gauss_T" b = Some (CNum (Some (5 # 1))) /\ sget "gauss_T" d = Some (CNum (Some (Qred (8 * (101 # 100) - 3)))).
Proof. do 5 eexists. split; [vm_compute; reflexivity|]. repeat split. Qed.
(** A stamp size in the configuration has no effect. *)
Theorem C87_stamp_size_refuted : exists bands' a b,
  run_metadetect run2 (Some [("stamp_size", OLeaf (AInt 3)); ("metacal", ODict [("types", OLeaf (ANames ["noshear"]))])]) ["g"; "r"]
    [plane 1 2; plane 3 4] [plane 5 2; plane 6 4] (Some mf2) None false = (bands', Ok [("noshear", Table (Some [a; b]))]) /\
  sget "stamp_size" a = Some (CInt 49).
Proof. do 3 eexists. split; [vm_compute; reflexivity|]. reflexivity. Qed.
Print Assumptions C87_stamp_size_refuted.
(** A failing call can leave the caller's exposures with the sky subtracted. *)
Theorem C87_failed_changes_refuted : exists bands' x,
  run_metadetect run2 (Some (user2 "sdss")) ["g"; "i"] [plane 1 2; plane 3 4] [plane 5 2; plane 6 4] (Some mf2) None false = (bands', Raise x) /\
  map (fun e => Qred (px (e_image e) 0 0)) [plane 1 2; plane 3 4] <> map (fun e => Qred (px (e_image e) 0 0)) bands'.
Proof. do 2 eexists. split; [vm_compute; reflexivity|]. discriminate. Qed.
Print Assumptions C87_failed_changes_refuted.
