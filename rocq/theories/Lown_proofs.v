(** Proofs for C134 and C135. *)
From Coq Require Import ZArith QArith List String Bool Lia.
From Verif Require Import Base Arr Median Flags_model Dict Coadd_model Wavg_model Wavg_proofs Joint_model Lutil_model Clean_spec Clean_proofs
  Lfit_model Lfit_spec Lfit_proofs Lown_model Lown_spec.
From Verif Require Mtab_proofs Lscar_model Lscar_spec.
From Verif Require Lexp_model Lmeas_model Lmeas_spec Lphot_model Lphot_spec.
Import ListNotations.
Local Open Scope string_scope.
Local Open Scope Z_scope.

(** ** The averaged measurement: the flags of the object stand for those of its PSF *)
Lemma wavg_psf_flag : forall ng mk to_T qsqrt mbobs ft bm sb fw sym q,
  fit_mbobs_wavg ng mk to_T qsqrt mbobs ft bm sb fw sym = Ok q -> o_obj_flags q = 0 -> o_psf_flags q = 0.
Proof.
  intros ng mk to_T qsqrt mbobs ft bm sb fw sym q H Hz. unfold fit_mbobs_wavg in H. destruct (_ && _); [discriminate|].
  destruct (omap (fun ol => fit_obslist ol ft bm sym) mbobs) as [fits|] eqn:E; [|discriminate]. cbn [obind] in H.
  destruct (combine_flags _ _ _ _ _ _ _ _ _ _ _ _ H) as [H1 _].
  destruct (Z.eq_dec (o_psf_flags q) 0) as [X|X]; [exact X|]. apply H1, has_flag_nonzero in X. contradiction.
Qed.

(** ** The cells of a row *)
Lemma num2 : forall a b, is_num a -> is_num b -> num_cell (Lmeas_model.CNums [a; b]).
Proof. intros a b A B. split; [discriminate|]. repeat constructor; assumption. Qed.
Lemma num4 : forall m, is_mat m -> num_cell (Lmeas_model.CNums [m 0 0; m 0 1; m 1 0; m 1 1]%nat).
Proof. intros m M. split; [discriminate|]. repeat constructor; apply M; lia. Qed.

Lemma wavg_width_none : forall ng mk to_T qsqrt mb ft bm fw sym q, fit_mbobs_wavg ng mk to_T qsqrt mb ft bm None fw sym = Ok q ->
  exists n, List.length (o_band_flux_flags q) = S n /\ List.length (o_band_flux q) = S n /\ List.length (o_band_flux_err q) = S n.
Proof.
  intros ng mk to_T qsqrt mb ft bm fw sym q H.
  destruct (Mtab_proofs.wavg_width ng mk to_T qsqrt mb ft bm (zrange (zlen mb)) fw sym q H) as (A & B & C & _).
  exists (Nat.pred (Nat.max (List.length mb) 1)). lia.
Qed.
Lemma all_bands : forall ff (l : list Wavg_model.num) n, Forall (eq 0) ff -> List.length ff = S n -> List.length l = S n ->
  (forall k, nth_error ff k = Some 0 -> exists v, nth_error l k = Some v /\ is_num v) -> l <> [] /\ Forall is_num l.
Proof.
  intros ff l n Z0 L1 L2 B. split; [intros ->; discriminate|]. apply Forall_forall. intros v Hv. apply In_nth_error in Hv. destruct Hv as (k & Hv).
  assert (Hk : (k < List.length ff)%nat) by (rewrite L1, <- L2; apply nth_error_Some; congruence).
  destruct (nth_error ff k) as [z|] eqn:Ez; [|apply nth_error_None in Ez; lia].
  assert (z = 0) by (rewrite Forall_forall in Z0; symmetry; apply Z0; exact (nth_error_In _ _ Ez)). subst z.
  destruct (B k Ez) as (u & X & Y). congruence.
Qed.

(** ** One row *)
Section Row.
Variable F : fits.
Hypothesis HF : honest_fits F.

Lemma fits_numbers : forall fwhm sb mb mb' q q' r,
  fit_mbobs_gauss (f_ng F) (f_boot F) mb 0 (Some sb) false = Ok q ->
  fit_mbobs_wavg (f_ng F) (f_mk F) (f_toT F) (f_sqrt F) mb' (f_pgauss F fwhm) 0 None 0 true = Ok q' ->
  Lmeas_spec.has_fits (fit_cells "gauss" q) (fit_cells "pgauss" q') r -> row_numbers r /\ row_summary r.
Proof.
  intros fwhm sb mb mb' q q' r Hq Hq' [G P].
  destruct HF as [[H0 H1] H2 H3 HS H4 H5].
  destruct (gauss_numbers _ _ _ _ _ _ _ H0 H5 Hq) as [(U1 & U2 & U3 & U4 & U5) Us].
  assert (V := wavg_numbers _ _ _ _ H0 H1 H2 H3 _ (f_pgauss F fwhm) _ _ _ _ _ (H4 fwhm) Hq').
  assert (Vc := wavg_covers _ _ _ _ _ _ _ _ _ _ _ Hq'). assert (Vp := wavg_psf_flag _ _ _ _ _ _ _ _ _ _ _ Hq').
  assert (Vt := wavg_sized _ _ _ _ _ _ _ _ _ _ _ HS Hq'). destruct (wavg_width_none _ _ _ _ _ _ _ _ _ _ Hq') as (n & W1 & W2 & W3).
  destruct V as (V1 & V2 & V3 & V4 & V5).
  assert (GF : forall c, In c Lmeas_spec.gauss_columns -> forall z, sget c r = Some (Lmeas_model.CInt z) -> fit_cells "gauss" q c = Lmeas_model.CInt z).
  { intros c I z E. rewrite (G c I) in E. now apply Some_inj in E. }
  assert (PF : forall c, In c Lmeas_spec.pgauss_columns -> forall z, sget c r = Some (Lmeas_model.CInt z) -> fit_cells "pgauss" q' c = Lmeas_model.CInt z).
  { intros c I z E. rewrite (P c I) in E. now apply Some_inj in E. }
  assert (K1 : sget "gauss_psf_flags" r = Some (Lmeas_model.CInt 0) -> o_psf_flags q = 0).
  { intros E. apply GF in E; [|cbn; tauto]. now injection E. }
  assert (K2 : sget "gauss_obj_flags" r = Some (Lmeas_model.CInt 0) -> o_obj_flags q = 0).
  { intros E. apply GF in E; [|cbn; tauto]. now injection E. }
  assert (K3 : sget "gauss_T_flags" r = Some (Lmeas_model.CInt 0) -> o_T_flags q = 0).
  { intros E. apply GF in E; [|cbn; tauto]. now injection E. }
  assert (K4 : sget "gauss_flags" r = Some (Lmeas_model.CInt 0) -> o_flags q = 0).
  { intros E. apply GF in E; [|cbn; tauto]. now injection E. }
  assert (L2 : sget "pgauss_obj_flags" r = Some (Lmeas_model.CInt 0) -> o_obj_flags q' = 0).
  { intros E. apply PF in E; [|cbn; tauto]. now injection E. }
  assert (L3 : sget "pgauss_T_flags" r = Some (Lmeas_model.CInt 0) -> o_T_flags q' = 0).
  { intros E. apply PF in E; [|cbn; tauto]. now injection E. }
  assert (L4 : sget "pgauss_flags" r = Some (Lmeas_model.CInt 0) -> o_flags q' = 0).
  { intros E. apply PF in E; [|cbn; tauto]. now injection E. }
  assert (GC : forall c v, In c Lmeas_spec.gauss_columns -> fit_cells "gauss" q c = v -> num_cell v -> exists v, sget c r = Some v /\ num_cell v).
  { intros c v I E N. exists v. split; [rewrite (G c I); now f_equal|exact N]. }
  assert (PC : forall c v, In c Lmeas_spec.pgauss_columns -> fit_cells "pgauss" q' c = v -> num_cell v -> exists v, sget c r = Some v /\ num_cell v).
  { intros c v I E N. exists v. split; [rewrite (P c I); now f_equal|exact N]. }
  assert (G1 : o_psf_flags q = 0 -> forall c, In c ["gauss_psf_g"; "gauss_psf_T"] -> exists v, sget c r = Some v /\ num_cell v).
  { intros Z c I. destruct (U1 Z) as [[A A'] B]. destruct I as [<-|[<-|[]]]; (eapply GC; [cbn; tauto|reflexivity|]); [apply num2; assumption|exact B]. }
  assert (G2 : o_obj_flags q = 0 -> forall c, In c ["gauss_s2n"; "gauss_g"; "gauss_g_cov"] -> exists v, sget c r = Some v /\ num_cell v).
  { intros Z c I. destruct (U2 Z) as (A & [B B'] & C). destruct I as [<-|[<-|[<-|[]]]]; (eapply GC; [cbn; tauto|reflexivity|]);
      [exact A|apply num2; assumption|now apply num4]. }
  assert (G3 : o_T_flags q = 0 -> forall c, In c ["gauss_T"; "gauss_T_err"] -> exists v, sget c r = Some v /\ num_cell v).
  { intros Z c I. destruct (U3 Z) as [A B]. destruct I as [<-|[<-|[]]]; (eapply GC; [cbn; tauto|reflexivity|]); [exact A|exact B]. }
  assert (G4 : o_psf_flags q = 0 -> o_T_flags q = 0 -> forall c, In c ["gauss_T_ratio"] -> exists v, sget c r = Some v /\ num_cell v).
  { intros Z Z' c [<-|[]]. eapply GC; [cbn; tauto|reflexivity|]. exact (U4 Z Z'). }
  assert (P2 : o_obj_flags q' = 0 -> forall c, In c ["pgauss_s2n"] -> exists v, sget c r = Some v /\ num_cell v).
  { intros Z c [<-|[]]. eapply PC; [cbn; tauto|reflexivity|]. exact (proj1 (V2 Z)). }
  assert (P3 : o_T_flags q' = 0 -> forall c, In c ["pgauss_T"; "pgauss_T_err"] -> exists v, sget c r = Some v /\ num_cell v).
  { intros Z c I. destruct (V3 Z) as [A B]. destruct I as [<-|[<-|[]]]; (eapply PC; [cbn; tauto|reflexivity|]); [exact A|exact B]. }
  assert (P4 : o_obj_flags q' = 0 -> o_T_flags q' = 0 -> forall c, In c ["pgauss_T_ratio"] -> exists v, sget c r = Some v /\ num_cell v).
  { intros Z Z' c [<-|[]]. eapply PC; [cbn; tauto|reflexivity|]. exact (V4 (Vp Z) Z'). }
  split.
  - split; [intros Z; apply G1, K1, Z; now left|]. split; [intros Z; apply G2, K2, Z; now left|]. split; [intros Z; apply G3, K3, Z; now left|].
    split; [intros Z; apply G4; [apply K1, Z; now left|apply K3, Z; right; now left]|].
    split. { intros fl k E N c I. rewrite (G "gauss_band_flux_flags") in E by (cbn; tauto). apply Some_inj in E.
      assert (E' : o_band_flux_flags q = fl) by (now injection E). subst fl. destruct (U5 k N) as [(v & A & b & ->) (v' & A' & b' & ->)].
      destruct I as [<-|[<-|[]]]; [exists (o_band_flux q), b|exists (o_band_flux_err q), b']; (split; [rewrite G by (cbn; tauto); reflexivity|assumption]). }
    split; [intros Z; apply P2, L2, Z; now left|]. split; [intros Z; apply P3, L3, Z; now left|].
    split; [intros Z; apply P4; [apply L2, Z; now left|apply L3, Z; right; now left]|].
    intros fl k E N c I. rewrite (P "pgauss_band_flux_flags") in E by (cbn; tauto). apply Some_inj in E.
    assert (E' : o_band_flux_flags q' = fl) by (now injection E). subst fl. destruct (V5 k N) as [(v & A & b & ->) (v' & A' & b' & ->)].
    destruct I as [<-|[<-|[]]]; [exists (o_band_flux q'), b|exists (o_band_flux_err q'), b']; (split; [rewrite P by (cbn; tauto); reflexivity|assumption]).
  - split; intros Z c I.
    + assert (Z1 : o_flags q = 0) by (apply K4, Z; now left). destruct (Us Z1) as (Z2 & Z3 & Z4).
      destruct I as [<-|[<-|[<-|[<-|[<-|[<-|[<-|[<-|[]]]]]]]]]; first [now apply (G1 Z2); cbn; tauto|now apply (G2 Z3); cbn; tauto|now apply (G3 Z4); cbn; tauto|now apply (G4 Z2 Z4); cbn; tauto].
    + assert (Z1 : o_flags q' = 0) by (apply L4, Z; now left). destruct (Vc Z1) as (Z2 & Z3 & Z4). assert (Z5 := Vt Z3).
      destruct I as [<-|[<-|[<-|[<-|[<-|[<-|[]]]]]]];
        [apply (P2 Z3); cbn; tauto|apply (P3 Z5); cbn; tauto|apply (P3 Z5); cbn; tauto|apply (P4 Z3 Z5); cbn; tauto| |];
        (eapply PC; [cbn; tauto|reflexivity|]).
      * refine (all_bands _ _ _ Z4 W1 W2 _). intros k Hk. exact (proj1 (V5 k Hk)).
      * refine (all_bands _ _ _ Z4 W1 W3 _). intros k Hk. exact (proj2 (V5 k Hk)).
Qed.

Lemma blank_numbers : forall env r, Lmeas_model.m_no_attempt env = NO_ATTEMPT (f_ng F) -> Lmeas_spec.not_attempted env r -> row_numbers r /\ row_summary r.
Proof.
  intros env r E N. destruct (hf_codes F HF) as [H0 _].
  assert (A : forall f rest vals, In f (Lmeas_spec.gauss_columns ++ Lmeas_spec.pgauss_columns)%list -> f <> "shear_bands" ->
    Lmeas_model.has_sub "flags" f = true -> unflagged r (f :: rest) vals).
  { intros f rest vals I D S Z. specialize (Z f (or_introl eq_refl)). rewrite (N f I D), S, E in Z. congruence. }
  assert (B : forall f vals, In f (Lmeas_spec.gauss_columns ++ Lmeas_spec.pgauss_columns)%list -> f <> "shear_bands" ->
    Lmeas_model.has_sub "flags" f = true -> unflagged_bands r f vals).
  { intros f vals I D S fl k Z. rewrite (N f I D), S in Z. discriminate. }
  unfold row_numbers, row_summary.
  repeat split; first [apply A|apply B]; first [cbn; tauto|discriminate|reflexivity].
Qed.

Lemma object_numbers : forall env on fwhm shear label s r,
  Lmeas_model.m_gauss env = lsst_gauss (f_ng F) (f_boot F) (f_jid F) shear ->
  Lmeas_model.m_pgauss env = lsst_pgauss (f_ng F) (f_mk F) (f_toT F) (f_sqrt F) (f_pgauss F fwhm) (f_jid F) ->
  Lmeas_model.m_no_attempt env = NO_ATTEMPT (f_ng F) ->
  Lphot_spec.object_row_on on env label s r -> row_numbers r /\ row_summary r.
Proof.
  intros env on fwhm shear label s r G1 G2 G3 (_ & _ & _ & _ & fl & _ & _ & _ & _ & A & B).
  destruct (Z.eq_dec fl 0) as [Z|Z].
  - destruct (A Z) as (obs & g & p & _ & Eg & Ep & Hf). rewrite G1 in Eg. rewrite G2 in Ep.
    unfold lsst_gauss in Eg. destruct (fit_mbobs_gauss _ _ _ _ _ _) as [q|] eqn:Eq; cbn [obind] in Eg; [|discriminate]. apply Ok_inj in Eg. subst g.
    unfold lsst_pgauss in Ep. destruct (fit_mbobs_wavg _ _ _ _ _ _ _ _ _ _) as [q'|] eqn:Eq'; cbn [obind] in Ep; [|discriminate]. apply Ok_inj in Ep. subst p.
    exact (fits_numbers _ _ _ _ _ _ _ Eq Eq' Hf).
  - destruct (B Z) as [N _]. exact (blank_numbers _ _ G3 N).
Qed.
End Row.

(** ** The flags *)
Lemma object_flags : forall F env (on : list Lexp_model.lobs -> Prop) fwhm shear label s r,
  Lmeas_model.m_gauss env = lsst_gauss (f_ng F) (f_boot F) (f_jid F) shear ->
  Lmeas_model.m_pgauss env = lsst_pgauss (f_ng F) (f_mk F) (f_toT F) (f_sqrt F) (f_pgauss F fwhm) (f_jid F) ->
  Lmeas_model.m_no_attempt env = NO_ATTEMPT (f_ng F) ->
  (forall obs, on obs -> Forall good_stamp obs /\ obs <> [] /\ forall b, In b shear -> 0 <= b < zlen obs) ->
  Lphot_spec.object_row_on on env label s r -> flags_of_fits F fwhm shear on r.
Proof.
  intros F env on fwhm shear label s r G1 G2 G3 Hon (_ & _ & _ & _ & fl & E & _ & _ & _ & A & B). exists fl. split; [exact E|].
  split; [intros Z; unfold nothing_fit; rewrite <- G3; exact (proj1 (B Z))|]. intros Z. destruct (A Z) as (obs & g & p & On & Eg & Ep & Hf).
  destruct (Hon obs On) as (G & Ne & Rg). rewrite G1 in Eg. rewrite G2 in Ep.
  unfold lsst_gauss in Eg. destruct (fit_mbobs_gauss _ _ _ _ _ _) as [q|] eqn:Eq; cbn [obind] in Eg; [|discriminate]. apply Ok_inj in Eg. subst g.
  unfold lsst_pgauss in Ep. destruct (fit_mbobs_wavg _ _ _ _ _ _ _ _ _ _) as [q'|] eqn:Eq'; cbn [obind] in Ep; [|discriminate]. apply Ok_inj in Ep. subst p.
  destruct (gauss_says _ _ _ _ _ _ _ _ G Rg Eq Hf) as (mb & X & Y). exists obs, mb. split; [exact On|]. split; [exact X|]. split; [exact Y|].
  exact (pgauss_says _ _ _ _ _ _ _ _ _ _ G Ne Eq' Hf).
Qed.
Lemma same_good : forall obs obs0, Forall2 Lscar_spec.same_but_image obs obs0 -> Forall good_stamp obs0 -> Forall good_stamp obs.
Proof.
  intros obs obs0 F. induction F as [|o o0 l l0 S F IH]; intros G; [constructor|]. inversion G as [|? ? G1 G2]; subst. constructor; [|now apply IH].
  destruct S as (W & B & _). unfold good_stamp. rewrite W, B. exact G1.
Qed.
Lemma stamps_usable : forall env shear s obs, 0 <= Lmeas_model.m_stamp_size env -> (forall b, In b shear -> 0 <= b < zlen (Lmeas_model.m_bands env)) ->
  Lmeas_model.source_mbobs env s = Ok obs -> Forall good_stamp obs /\ obs <> [] /\ forall b, In b shear -> 0 <= b < zlen obs.
Proof.
  intros env shear s obs Sz R So. split; [exact (source_good _ _ _ So)|]. split; [exact (stamps_not_empty _ _ _ Sz So)|].
  intros b Ib. unfold zlen in *. rewrite (bands_of_stamps _ _ _ So). now apply R.
Qed.
Lemma isolated_usable : forall A sub val env names foot orig all shear s obs, 0 <= Lmeas_model.m_stamp_size env ->
  (forall b, In b shear -> 0 <= b < zlen (Lmeas_model.m_bands env)) ->
  Lscar_spec.isolated A sub val env names foot orig all s obs -> Forall good_stamp obs /\ obs <> [] /\ forall b, In b shear -> 0 <= b < zlen obs.
Proof.
  intros A sub val env names foot orig all shear s obs Sz R [(obs0 & So & Sm) _].
  destruct (stamps_usable env shear s obs0 Sz R So) as (G & Ne & Rg).
  assert (L : List.length obs = List.length obs0) by (clear -Sm; induction Sm; cbn; congruence).
  split; [exact (same_good _ _ Sm G)|]. split; [intros ->; destruct obs0; [congruence|discriminate]|].
  intros b Ib. unfold zlen. rewrite L. now apply Rg.
Qed.
