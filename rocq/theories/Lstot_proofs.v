(** Proofs of C143. *)
From Coq Require Import ZArith QArith List String Bool Lia Permutation.
From Verif Require Import Base Arr Median Flags_model Dict Lutil_model Lutil_spec Lutil_proofs Lexp_model Lexp_spec Lexp_proofs Lmeas_model Lmeas_spec
  Lmeas_proofs Lsub_model Lsub_spec Lsub_proofs Lscar_model Lscar_spec Lscar_proofs Ltot_spec Ltot_proofs Lstot_spec.
Import ListNotations.
Local Open Scope string_scope.
Local Open Scope Z_scope.

Definition row_of_source (env : menv) (s : source) (r : row) : Prop := exists fl g p bm, get_output env s (base_row fl g p) bm = Ok r.
(** As Ltot_proofs.one_returns, for any stamp. *)
Lemma one_returns_any : forall env label st bmasks i s x y b,
  (forall obs, st = Ok obs -> (exists g, m_gauss env obs = Ok g) /\ exists p, m_pgauss env obs = Ok p) -> hd_error (s_peaks s) = Some (x, y) ->
  mbexp_box env <> None -> handled st -> nth_error bmasks i = Some b ->
  exists r, measure_one env label (fun _ => st) bmasks i s = Ok r /\ row_of_source env s r.
Proof.
  intros env label st bmasks i s x y b Hf Hp Hb Hs Hn. unfold measure_one. rewrite Hn. cbn [obind].
  assert (F : exists fl g p, fit_stamp env label st = Ok (fl, struct "gauss" g, struct "pgauss" p)).
  { unfold fit_stamp. destruct st as [obs|e]; cbn [handled] in Hs.
    - destruct (Hf obs eq_refl) as [(g & ->) (p & ->)]. cbn [obind]. eauto.
    - destruct e; try contradiction; [eauto|]. destruct n as [|[|n]]; try contradiction. eauto. }
  destruct F as (fl & g & p & ->). cbn [obind fst snd]. rewrite combined_ok. cbn [obind].
  match goal with |- exists r, get_output env s ?b _ = _ /\ _ => replace b with (base_row fl g p) by reflexivity end.
  assert (G : exists r, get_output env s (base_row fl g p) b = Ok r). 2: { destruct G as [r G]. exists r. split; [exact G|]. exists fl, g, p, b. exact G. }
  unfold get_output.
  assert (E : get_output_struct env (base_row fl g p) = Ok (base_row fl g p ++ map (fun nt => (fst nt, output_default env nt)) output_dtype)%list).
  { vm_compute. reflexivity. }
  rewrite E. cbn [obind]. unfold first_peak. destruct (s_peaks s); [discriminate|]. cbn [obind].
  destruct (mbexp_box env); [|congruence]. destruct (m_cen env (s_id s)) as [[cx cy]|].
  - cbn [obind]. eexists. reflexivity.
  - destruct (s_peakpos s). cbn [obind]. eexists. reflexivity.
Qed.

Section S.
Variables (P : Type) (add sub : P -> P -> P) (val : P -> Q).
Variables (env : menv) (names mbands : list string) (cat : list source) (fbox : Z -> box) (l : list (blend_source P)) (orig : images P).
Notation foot := (foot_of cat fbox).
Notation exps := (exposures P val names (m_bands env)).
Hypothesis C : catalogue cat.
Hypothesis M : models_fit env names mbands fbox l cat.
Hypothesis Hb : forall e, In e (m_bands env) -> has_wcs_psf e.
Hypothesis Hp : peaks_on_mask env cat.
Hypothesis Hf : fits_return_images env.
Hypothesis Px : has_pixels (m_bands env).

Lemma touches : forall b, In b l -> foot (b_id P b) <> None /\ touch_ok P names (mbexp_box env) (entry_of P mbands foot b) mbands.
Proof.
  intros b I. destruct M as (_ & _ & L2 & _ & Same & _ & Mb). destruct (Mb b I) as ((s & Is & Es) & c & Ec & Cx & Cy & V0 & V1).
  assert (Ef : foot (b_id P b) = Some (Some c, s_peaks s)) by (unfold foot_of; rewrite <- Es, (find_source_In cat s C Is), Es, Ec; reflexivity).
  split; [congruence|]. unfold entry_of. rewrite Ef. apply Forall_forall. intros band Ib. cbn [en_heavy en_box]. split; [|split; [now apply Same|]].
  - unfold to_heavy. destruct mbands as [|b0 [|b1 mb]]; [destruct Ib|cbn in L2; lia|]. cbn [band_of].
    assert (G : forall ll : list string, In band ll -> exists p, sget band (map (fun b2 => (b2, b_pix P b b2)) ll) = Some p).
    { induction ll as [|a ll IH]; [intros []|]. intros [->|J]; cbn [map sget]; [rewrite String.eqb_refl; eauto|]. destruct (String.eqb band a); eauto. }
    destruct (G _ Ib) as [p ->]. eauto.
  - apply box_covered in V0, V1. destruct (mbexp_box env) as [m|]; [|destruct V0]. cbn in V0, V1. cbn [contains_box].
    rewrite !andb_true_iff, !Z.leb_le. lia.
Qed.
Lemma build_returns : forall l' im d, incl l' l -> exists r, build P sub mbands names (mbexp_box env) foot l' im d = Ok r.
Proof.
  induction l' as [|b l' IH]; intros im d Inc; cbn [build]; [eauto|]. destruct (touches b (Inc b (or_introl eq_refl))) as [Nf To].
  destruct (foot (b_id P b)) as [[bx pks]|] eqn:Ef; [|congruence].
  assert (Ee : mkEntry P bx pks (to_heavy P mbands b) = entry_of P mbands foot b) by (unfold entry_of; now rewrite Ef).
  rewrite Ee. destruct (touch_all_ok P sub names (mbexp_box env) _ mbands im To) as [im' ->]. cbn [obind].
  apply IH. intros x I. apply Inc. now right.
Qed.
Lemma made_returns : exists s0, make_subtractor P sub mbands names (mbexp_box env) foot l orig = Ok s0.
Proof. unfold make_subtractor. destruct (build_returns l orig [] (incl_refl l)) as [r ->]. cbn [obind]. eauto. Qed.

Variable s0 : subtractor P.
Hypothesis Hs : make_subtractor P sub mbands names (mbexp_box env) foot l orig = Ok s0.

Lemma made0 : good P s0 /\ s_box P s0 = mbexp_box env /\ s_entries P s0 = map (fun b => (b_id P b, entry_of P mbands foot b)) l.
Proof.
  destruct M as (Nn & _ & _ & Nm & Same & Ni & _).
  destruct (made P sub mbands names (mbexp_box env) foot l orig s0 Nm Nn) as (G & _ & _ & B & _ & En & _); auto. intros b I. now apply Same.
Qed.
Lemma entry0 : forall b, In b l -> exists src, In src cat /\ find_source cat (b_id P b) = Some src /\
  zget (b_id P b) (s_entries P s0) = Some (mkEntry P (fbox (b_id P b)) (s_peaks src) (to_heavy P mbands b)).
Proof.
  intros b I. destruct made0 as (_ & _ & En). destruct M as (_ & _ & _ & _ & _ & Ni & Mb). destruct (Mb b I) as ((s & Is & Es) & _).
  exists s. split; [exact Is|]. assert (F : find_source cat (b_id P b) = Some s) by (rewrite <- Es; now apply find_source_In).
  split; [exact F|]. rewrite En, zget_map by assumption. unfold entry_of, foot_of. now rewrite F.
Qed.
Lemma with_source_returns : forall A im b (body : subtractor P -> outcome A), In b l ->
  exists im1 im2, with_source P add sub (with_cur P s0 im) (b_id P b) body = (with_cur P s0 im2, body (with_cur P s0 im1)).
Proof.
  intros A im b body I. destruct (entry0 b I) as (src & _ & _ & Ee). destruct made0 as ([G1 G2] & _ & _). unfold with_source, check_source_id.
  change (s_entries P (with_cur P s0 im)) with (s_entries P s0). rewrite Ee.
  destruct (add_or_subtract_value P add (with_cur P s0 im) (b_id P b) _ (conj G1 G2) Ee) as (im1 & -> & _).
  destruct (add_or_subtract_value P sub (with_cur P (with_cur P s0 im) im1) (b_id P b) _ (conj G1 G2) Ee) as (im2 & -> & _).
  exists im1, im2. reflexivity.
Qed.
Lemma sub_mbobs_is : forall b src im, In b l -> find_source cat (b_id P b) = Some src ->
  sub_mbobs P val env names (m_bands env) cat false (with_cur P s0 im) (b_id P b) = source_mbobs (with_bands env (exps im)) src.
Proof.
  intros b src im I F. destruct (entry0 b I) as (src' & _ & F' & Ee). rewrite F in F'. apply Some_inj in F'. subst src'. destruct made0 as (_ & Bx & _).
  unfold sub_mbobs, sub_bbox, check_source_id. change (s_entries P (with_cur P s0 im)) with (s_entries P s0). rewrite Ee. cbn [obind en_peaks].
  change (s_box P (with_cur P s0 im)) with (s_box P s0). rewrite Bx. unfold source_mbobs. destruct M as (_ & Ln & _). rewrite (exps_box P val env names Ln).
  cbn [m_stamp_size with_bands m_bands]. destruct (get_bbox _ _ _ _) as [bx|]; cbn [obind]; [|reflexivity]. rewrite F. reflexivity.
Qed.
Lemma stamps_alike : forall im s obs, source_mbobs (with_bands env (exps im)) s = Ok obs ->
  exists obs0, source_mbobs env s = Ok obs0 /\ Forall2 same_but_image obs obs0.
Proof.
  intros im s obs H. destruct M as (_ & Ln & _). unfold source_mbobs in *. rewrite (exps_box P val env names Ln) in H. cbn [m_stamp_size with_bands m_bands] in H.
  destruct (get_bbox _ _ _ _) as [b|]; cbn [obind] in *; [|discriminate]. apply omap_ok_Forall2 in H.
  assert (X : forall ns es, List.length ns = List.length es -> forall obs, Forall2 (fun e o => band_obs (with_bands env (exps im)) s b e = Ok o) (map (band_exposure P val im) (combine ns es)) obs ->
    exists obs0, Forall2 (fun e o => band_obs env s b e = Ok o) es obs0 /\ Forall2 same_but_image obs obs0).
  { induction ns as [|nm ns IH]; intros [|e es] L ob H1; try discriminate; cbn [combine map] in H1.
    - inversion H1. exists []. split; constructor.
    - inversion H1 as [|e1 o r1 r2 Ho Hr]; subst. destruct (band_obs_image P val env names Ln s b im nm e o Ho) as (o0 & E0 & S0 & _).
      destruct (IH es (eq_add_S _ _ L) r2 Hr) as (ob0 & F0 & G0). exists (o0 :: ob0). split; constructor; assumption. }
  destruct (X names (m_bands env) Ln obs H) as (obs0 & F0 & G0). exists obs0. split; [|exact G0]. now apply omap_Forall2_raw.
Qed.
Lemma copy_handled : forall im s x y, hd_error (s_peaks s) = Some (x, y) -> handled (source_mbobs (with_bands env (exps im)) s).
Proof.
  intros im s x y E. apply (source_handled _ s x y E). intros e I. cbn [m_bands with_bands] in I. unfold exposures in I. apply in_map_iff in I.
  destruct I as ([nm e0] & <- & I). apply in_combine_r in I. exact (Hb e0 I).
Qed.
Lemma scar_loop_returns : forall label bmasks bs i im, incl bs l -> (i + List.length bs <= List.length bmasks)%nat ->
  exists im' rows, scar_loop P add sub val env names (m_bands env) cat label bmasks i (with_cur P s0 im) (map (b_id P) bs) = (with_cur P s0 im', Ok rows) /\
    List.length rows = List.length bs /\ forall r, In r rows -> exists src, In src cat /\ row_of_source env src r.
Proof.
  intros label bmasks. induction bs as [|b bs IH]; intros i im Inc Hl; cbn [map scar_loop]; [exists im, []; split; [reflexivity|]; split; [reflexivity|intros r []]|].
  assert (I : In b l) by (apply Inc; now left). destruct (entry0 b I) as (src & Is & F & _). rewrite F.
  destruct (with_source_returns _ im b (fun s' => sub_mbobs P val env names (m_bands env) cat false s' (b_id P b)) I) as (im1 & im2 & ->).
  rewrite (sub_mbobs_is b src im1 I F). destruct (Hp src Is) as (x & y & Ep & _).
  destruct (nth_error bmasks i) as [bm|] eqn:En. 2: { apply nth_error_None in En. cbn in Hl. lia. }
  destruct (one_returns_any env label (source_mbobs (with_bands env (exps im1)) src) bmasks i src x y bm) as (r & -> & Hr); auto.
  - intros obs Eo. destruct (stamps_alike im1 src obs Eo) as (obs0 & E0 & S0). exact (Hf src obs0 obs E0 S0).
  - exact (has_box env Px).
  - exact (copy_handled im1 src x y Ep).
  - destruct (IH (S i) im2) as (im' & rows & -> & L & Hrs); [intros z J; apply Inc; now right|cbn in Hl; lia|]. cbn [obind]. exists im', (r :: rows).
    split; [reflexivity|]. split; [cbn; auto|]. intros r0 [<-|I0]; [eauto|auto].
Qed.
Lemma models_few : (List.length l <= List.length cat)%nat.
Proof.
  destruct M as (_ & _ & _ & _ & _ & Ni & Mb). rewrite <- (map_length (b_id P) l), <- (map_length s_id cat). apply NoDup_incl_length; [exact Ni|].
  intros id I. apply in_map_iff in I. destruct I as (b & <- & I). destruct (Mb b I) as ((s & Is & <-) & _). now apply in_map.
Qed.
End S.

Lemma scarlet_returns : forall P add sub val env names mbands fbox blends orig label cat,
  can_measure_models env names mbands fbox (model_sources P blends) cat ->
  exists rows, measure_scarlet P add sub val env names mbands fbox blends orig label cat = (orig, Ok (match rows with [] => None | _ => Some rows end)) /\
    List.length rows = List.length (model_sources P blends) /\ forall r, In r rows -> exists src, In src cat /\ row_of_source env src r.
Proof.
  intros P add sub val env names mbands fbox blends orig label cat (C & Px & Hb & Hp & Hf & (sb & Hsb) & M).
  pose proof (models_few P env names mbands cat fbox (model_sources P blends) M) as Few. unfold measure_scarlet.
  destruct cat as [|c0 cat'] eqn:Ec.
  { exists []. split; [reflexivity|]. split; [cbn in Few |- *; lia|intros r []]. }
  rewrite <- Ec in *. clear Ec c0 cat'. rewrite Hsb. cbn [obind]. destruct (bmasks_return env cat Hp) as (bm & -> & L). cbn [obind].
  assert (Ecp : copy_mbexp false (m_bands env) = Ok (m_bands env)).
  { destruct (omap_returns _ _ (copy_exposure false) (m_bands env)) as (r & Er & _).
    - intros e I. destruct (Hb e I) as (_ & d & Ed & _). unfold copy_exposure, try_clone_psf. rewrite Ed. cbn [obind]. eauto.
    - unfold copy_mbexp. rewrite Er. f_equal. exact (copy_mbexp_ok _ _ Er). }
  rewrite Ecp. cbn [obind]. destruct (made_returns P sub env names mbands cat fbox (model_sources P blends) orig C M) as [s0 Es]. rewrite Es. cbn [obind].
  destruct (made0 P sub env names mbands cat fbox (model_sources P blends) orig M s0 Es) as (_ & _ & En).
  assert (Ei : Lsub_model.child_ids P s0 = map (b_id P) (model_sources P blends)).
  { unfold Lsub_model.child_ids. rewrite En, map_map. reflexivity. }
  rewrite Ei. assert (E0 : s0 = with_cur P s0 (s_cur P s0)) by (destruct s0; reflexivity).
  destruct (scar_loop_returns P add sub val env names mbands cat fbox (model_sources P blends) orig C M Hb Hp Hf Px s0 Es (label sb) bm (model_sources P blends) 0 (s_cur P s0))
    as (im' & rows & E & Lr & Hr); [apply incl_refl|lia|]. rewrite <- E0 in E. rewrite E. cbn [obind caller_after clone_storage].
  exists rows. split; [destruct rows; reflexivity|]. split; [exact Lr|exact Hr].
Qed.

(** ** The run *)
From Verif Require Import Coadd_model Wavg_model Joint_model Mtot_spec Mtot_proofs Lthr_model Lmdet_model Lmdet_spec Lmdet_proofs Lphot_model Lfit_model Lrun_model Lown_model Lrtot_spec Lrtot_proofs.
From Verif Require Lmcal_proofs Lrun_proofs.
From Coq Require Import Qcanon.
Lemma good_images : forall jid n obs0 obs, good_stamps n (stamps_of jid obs0) -> Forall2 same_but_image obs obs0 -> good_stamps n (stamps_of jid obs).
Proof.
  intros jid n obs0 obs [G1 G2] S. split.
  - rewrite <- G1. unfold stamps_of, zlen. rewrite !map_length. now rewrite (Lmcal_proofs.Forall2_length' _ _ _ _ _ S).
  - intros ol o Ho Io. apply in_map_iff in Ho. destruct Ho as (lo & <- & Il). destruct Io as [<-|[]].
    assert (X : exists l0, In l0 obs0 /\ same_but_image lo l0).
    { clear -S Il. induction S as [|a b l m H S IH]; [destruct Il|]. destruct Il as [<-|Il]; [exists b; split; [now left|exact H]|]. destruct (IH Il) as (l0 & I0 & H0). exists l0. split; [now right|exact H0]. }
    destruct X as (l0 & I0 & (E1 & E2 & _)). destruct (G2 [stamp_of jid l0] (stamp_of jid l0)) as (A & B & D).
    { unfold stamps_of. apply in_map_iff. exists l0. auto. }
    { now left. }
    unfold good_obs, stamp_of in *. cbn [f_bmask f_psf f_weight] in *. rewrite E1, E2. split; [exact A|]. split; [discriminate|exact D].
Qed.
Lemma own_fits_images : forall P F cfg d mc sz fwhm shear, 0 < zlen mc <= 6 -> good_bands (zlen mc) shear -> fitters_return F ->
  fits_return_images (phot_env (own_phot F P) cfg d mc sz fwhm shear).
Proof.
  intros P F cfg d mc sz fwhm shear Hn Gb [Hboot Hk] so obs0 obs Hs Sm. destruct (Hk fwhm) as (K1 & K2 & K3).
  pose proof (stamps_good (f_jid F) _ so obs0 Hs) as G0. change (m_bands (phot_env (own_phot F P) cfg d mc sz fwhm shear)) with mc in G0.
  pose proof (good_images _ _ _ _ G0 Sm) as G.
  change (m_gauss (phot_env (own_phot F P) cfg d mc sz fwhm shear)) with (lsst_gauss (f_ng F) (f_boot F) (f_jid F) shear).
  change (m_pgauss (phot_env (own_phot F P) cfg d mc sz fwhm shear)) with (lsst_pgauss (f_ng F) (f_mk F) (f_toT F) (f_sqrt F) (f_pgauss F fwhm) (f_jid F)).
  unfold lsst_gauss, lsst_pgauss.
  destruct (gauss_total (f_ng F) (f_boot F) _ 0 shear false _ G Gb Hboot) as (r & ->). cbn [obind]. split; [eauto|].
  replace (fit_mbobs_wavg (f_ng F) (f_mk F) (f_toT F) (f_sqrt F) (stamps_of (f_jid F) obs) (f_pgauss F fwhm) 0 None 0 true)
    with (fit_mbobs_wavg (f_ng F) (f_mk F) (f_toT F) (f_sqrt F) (stamps_of (f_jid F) obs) (f_pgauss F fwhm) 0 (Some (zrange (zlen (stamps_of (f_jid F) obs)))) 0 true) by reflexivity.
  destruct (wavg_total (f_ng F) (f_mk F) (f_toT F) (f_sqrt F) (stamps_of (f_jid F) obs) (f_pgauss F fwhm) 0 (zrange (zlen (stamps_of (f_jid F) obs))) 0 true _ G) as (r' & ->); auto.
  - rewrite (proj1 G). apply zrange_good. exact Hn.
  - cbn [obind]. eauto.
Qed.
Lemma row_position : forall env so x x0 y0 r c n (om : img Z), row_of_source env so x -> m_bands env <> [] -> (forall e, In e (m_bands env) -> plain x0 y0 r c n e) -> of_size r c om ->
  let pl := match m_cen env (s_id so) with Some p => p | None => s_peakpos so end in within x0 c (fst pl) -> within y0 r (snd pl) ->
  exists l, lrow_of x = Ok l /\ position_inside om l.
Proof.
  intros env so x x0 y0 r c n om (fl & g & p & bm & Go) Ne Pl [O1 O2] pl Wx Wy.
  destruct (output_facts _ _ _ _ _ _ _ Go) as (_ & [(xx & yy & C1 & C2 & C3) _] & _ & _ & _ & _ & _ & Cn & _). clear Go.
  assert (Cn' : sget "row0" x = Some (CInt y0) /\ sget "col0" x = Some (CInt x0)).
  { destruct (m_bands env) as [|e mc']; [congruence|]. cbn in Cn. destruct (Pl e (or_introl eq_refl)) as (P1 & P2 & _). rewrite P1, P2 in Cn. exact Cn. }
  destruct Cn' as [Cr Cc]. unfold lrow_of. rewrite C1, C2, Cr, Cc. eexists. split; [reflexivity|].
  subst pl. rewrite <- C3 in Wx, Wy. cbn [fst snd] in Wx, Wy.
  destruct (nearest_within _ _ _ Wx) as [Nx Bx]. destruct (nearest_within _ _ _ Wy) as [Ny By].
  exists (nearest (yy - inject_Z y0)), (nearest (xx - inject_Z x0)). split; [split; cbn; [exact Ny|exact Nx]|]. unfold inside. rewrite O1, O2. lia.
Qed.
Lemma scarlet_run_returns : forall Prof (R : mrun Prof) F user names bands bands1 noise ms ormasks gp s x0 y0 r c n,
  scarlet_ready R F user names bands bands1 noise ms ormasks s x0 y0 r c n -> scarlet_placed R x0 y0 r c ->
  exists res, run_metadetect (own_run F R) user names bands noise (Some ms) ormasks gp = (bands1, Ok res).
Proof.
  intros Prof R F user names bands bands1 noise ms ormasks gp s x0 y0 r c n (B & Cs & L2 & Dr) Pi. apply (basics_return _ _ _ _ _ _ _ _ _ _ _ _ _ _ _ _ _ B).
  destruct B as ((Cf & Cw & (cfg & Cd)) & _ & Nn & Ln & _ & _ & H6 & Hr & Hc & On & _ & _ & _ & _ & _ & _ & _ & Ff & Sk).
  intros shear mc om mf p Pl Us Lmc Gb Som. unfold measure_type. change (r_phot (own_run F R)) with (own_phot F (r_phot R)).
  change (ph_stack (own_phot F (r_phot R))) with (ph_stack (r_phot R)). rewrite Cd. cbn [obind]. rewrite Cs, String.eqb_refl.
  change (ph_single (own_phot F (r_phot R))) with (ph_single (r_phot R)).
  destruct (detexp_returns (r_phot R) x0 y0 r c n mc Sk Pl Us) as (d & -> & D1 & D2 & D3). cbn [obind].
  change (r_scarlet (own_run F R)) with (r_scarlet R). destruct (Dr cfg mc d D1 D2 D3) as (out & Eo & Ho). rewrite Eo. cbn [obind].
  destruct out as [[cat sc]|]; [|exists None; auto]. destruct (Ho cat sc eq_refl) as (C & Pk & Nb & Same & Ni & Mb).
  assert (Nmc : mc <> []) by (intros ->; destruct Us as [_ (e & [] & _)]).
  set (env := type_env (own_run F R) cfg s shear mc d).
  assert (M : can_measure_models env names (sc_bands sc) (sc_fbox sc) (model_sources Qc (sc_blends sc)) cat).
  { split; [exact C|]. split.
    { change (m_bands env) with mc. destruct mc as [|e mc']; [congruence|]. destruct (Pl e (or_introl eq_refl)) as (_ & _ & P3 & P4 & _). cbn. lia. }
    split.
    { intros e I. destruct (Pl e I) as (_ & _ & _ & _ & P5 & draw & P6 & P7). split; [exact P5|]. exists draw. split; [exact P6|].
      intros x y. destruct (P7 x y) as [-> ->]. auto. }
    split.
    { intros so I. destruct (Pk so I) as (x & y & E1 & E2). exists x, y. split; [exact E1|]. cbn. rewrite D1, D2. exact E2. }
    split; [apply (own_fits_images (r_phot R) F cfg d mc (s_stamp s) (s_fwhm s) shear); [unfold zlen in *; lia|now rewrite Lmc|exact Ff]|].
    split; [exists shear; reflexivity|]. split; [exact Nn|]. change (m_bands env) with mc. split; [unfold zlen in *; lia|].
    split. { apply (Nat.le_trans _ _ _ L2). apply NoDup_incl_length; [exact Nn|]. intros b I. now apply Same. }
    split; [exact Nb|]. split; [exact Same|]. split; [exact Ni|]. intros b I. destruct (Mb b I) as (Is & k & Ek & K1 & K2 & K3 & K4).
    split; [exact Is|]. exists k. split; [exact Ek|]. split; [lia|]. split; [lia|]. destruct mc as [|e mc']; [congruence|].
    destruct (Pl e (or_introl eq_refl)) as (P1 & P2 & P3 & P4 & _). cbn. rewrite P1, P2, P3, P4. lia. }
  destruct (scarlet_returns Qc Qcplus Qcminus this env names (sc_bands sc) (sc_fbox sc) (sc_blends sc) (pixels_of names mc) (ph_label (own_phot F (r_phot R))) cat M)
    as (rows & E & _ & Hrow). rewrite E. cbn [snd]. eexists. split; [reflexivity|]. destruct rows as [|r0 rows]; [exact Logic.I|].
  apply rows_finish. intros x I. destruct (Hrow x I) as (so & Is & Rs). destruct (Pi cfg mc d cat sc so Eo Is) as [Wx Wy].
  apply (row_position env so x x0 y0 r c n om Rs); auto.
Qed.
