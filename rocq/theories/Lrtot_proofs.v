From Coq Require Import ZArith QArith Qcanon List String Bool Lia Lqa Permutation.
From Verif Require Import Base Arr Median Dict Flags_model Coadd_model Wavg_model Joint_model Mtot_spec Lutil_model Lutil_spec Lutil_proofs Lexp_model Lexp_spec Lexp_proofs
  Lthr_model Lthr_spec Lthr_proofs Lmdet_model Lmdet_spec Lmdet_proofs Lmeas_model Lmeas_spec Lmeas_proofs Lphot_model Lphot_spec Lphot_proofs
  Lfit_model Lrun_model Lrun_spec Lrun_proofs Lown_model Ltot_spec Ltot_proofs Lrtot_spec.
From Verif Require Lmcal_model Lmcal_spec Lmcal_proofs Lsky_model Lsky_spec.
Import ListNotations.
Local Open Scope string_scope.
Local Open Scope Z_scope.

(** ** The metacal images: they can be made for exposures with wcs and PSF *)
Section M.
Import Lmcal_model Lmcal_spec Lmcal_proofs.
Context {PSF I W P : Type} (g : galsim PSF I W P).
Definition ready (e : Lmcal_model.exposure PSF I) : Prop := (exists w, g_jac g e = Ok w) /\ exists k, g_kernel g e = Ok k.
Definition draws : Prop :=
  (forall s f, exists p, g_gaussian g s f = Ok p) /\ (forall k w f, exists p, g_target g k w f = Ok p) /\
  (forall im w k s p, exists m, g_draw g im w k s p = Ok m).
Lemma exps_return : draws -> forall exp stats types rot, ready exp -> (forall t, In t (requested types) -> sget t documented <> None) ->
  exists d, get_metacal_exps g exp stats types rot = Ok d.
Proof.
  intros [W3 [W4 W5]] exp stats types rot [[w Ew] [k Ek]] H. unfold get_metacal_exps. rewrite Ew, Ek. cbn [obind].
  assert (X : exists t, match stats with Some s => get_fitgauss_target_psf g s (qsum (pixels k)) | None => g_target g k w (qsum (pixels k)) end = Ok t)
    by (destruct stats; unfold get_fitgauss_target_psf; auto).
  destruct X as [t ->]. cbn [obind]. apply fill_loop_total. intros ty Hty. unfold get_metacal_exp. rewrite shear_documented.
  specialize (H ty Hty). destruct (sget ty documented) as [s|]; [|congruence]. cbn [obind].
  destruct (W5 (if rot then rot90 (Lmcal_model.e_image exp) else Lmcal_model.e_image exp) w k s (g_dilate g t (1 + 2 * STEP)%Q)) as [m ->]. cbn [obind]. eauto.
Qed.
Lemma band_loop_returns : draws -> forall mbexp stats types rot lists, Forall ready mbexp -> (forall t, In t types -> sget t documented <> None) ->
  match stats with Some s => List.length s = List.length mbexp | None => True end ->
  (forall t, In t types -> exists l, sget t lists = Some l) ->
  exists d, band_loop g mbexp stats types rot lists = Ok d.
Proof.
  intros Wk. induction mbexp as [|exp mb IH]; intros stats types rot lists HR HT HL HK; cbn [band_loop]; [eauto|]. inversion HR as [|x1 x2 R1 R2]; subst x1 x2.
  assert (X : exists st, match stats with None => Ok None | Some [] => Raise IndexError | Some (s :: _) => Ok (Some s) end = Ok st /\
      match option_map (@tl pstats) stats with Some s => List.length s = List.length mb | None => True end).
  { destruct stats as [[|s r]|]; [discriminate| |]; [exists (Some s)|exists None]; (split; [reflexivity|]); cbn in *; lia. }
  destruct X as [st [E0 HL2]]. rewrite E0. cbn [obind]. destruct (exps_return Wk exp st (Some types) rot R1 HT) as [this E1]. rewrite E1. cbn [obind].
  destruct (exps_spec g _ _ _ _ _ E1) as [N1 [K1 _]]. cbn [requested] in K1.
  destruct (append_loop_total _ this lists) as [l1 E2]; [intros t Ht; apply HK; apply K1; exact Ht|]. rewrite E2. cbn [obind].
  apply IH; [exact R2|exact HT|exact HL2|]. intros t Ht. destruct (append_loop _ _ _ _ N1 E2) as [_ A]. rewrite A. destruct (HK t Ht) as [l ->].
  destruct (sget t this); cbn; eauto.
Qed.
Lemma mbexps_return : draws -> forall mbexp types rot stats, Forall ready mbexp -> (forall t, In t (requested types) -> sget t documented <> None) ->
  match stats with Some s => List.length s = List.length mbexp | None => True end ->
  exists d, get_metacal_mbexps g mbexp types rot stats = Ok d.
Proof.
  intros Wk mbexp types rot stats HR HT HL. unfold get_metacal_mbexps. change (match types with None => DEFAULT_TYPES | Some l => l end) with (requested types).
  assert (E0 : match stats with Some s => negb (zlen s =? zlen mbexp) | None => false end = false).
  { destruct stats as [s|]; [|reflexivity]. apply negb_false_iff. apply Z.eqb_eq. unfold zlen. lia. }
  rewrite E0.
  assert (HK : forall t, In t (requested types) -> exists l, sget t (fold_left (fun d t => sput t [] d) (requested types) []) = Some (l : list (Lmcal_model.exposure PSF I))).
  { intros t Ht. rewrite init_lists. apply smem_In in Ht. rewrite Ht. eauto. }
  destruct (band_loop_returns Wk mbexp stats (requested types) rot _ HR HT HL HK) as [lists E1]. rewrite E1. cbn [obind].
  apply (fill_loop_total _ (fun t => dget t lists)). intros t Ht.
  destruct (band_loop_spec g _ _ _ _ _ _ HL HK E1 t Ht) as [s [l0 [es [_ [G2 _]]]]]. unfold dget. rewrite G2. eauto.
Qed.
Lemma mbexps_fixnoise_return : draws -> forall mbexp nmbexp types stats, Forall ready mbexp -> Forall ready nmbexp ->
  (forall t, In t (requested types) -> sget t documented <> None) -> List.length nmbexp = List.length mbexp ->
  match stats with Some s => List.length s = List.length mbexp | None => True end ->
  exists d nd, get_metacal_mbexps_fixnoise g mbexp nmbexp types stats = Ok (d, nd).
Proof.
  intros Wk mbexp nmbexp types stats R1 R2 HT HL HS. unfold get_metacal_mbexps_fixnoise.
  destruct (mbexps_return Wk mbexp types false stats R1 HT HS) as [d E1]. rewrite E1. cbn [obind].
  destruct (mbexps_return Wk nmbexp types true stats R2 HT) as [n E2]; [destruct stats; auto; congruence|]. rewrite E2. cbn [obind].
  destruct (mbexps_spec g _ _ _ _ _ E1) as [N1 [K1 _]]. destruct (mbexps_spec g _ _ _ _ _ E2) as [N2 [K2 _]].
  destruct (change_loop_total _ _ (fun t => dget t n) fix_zip (skeys d) d) as [d1 E3].
  - intros t Ht. split; [apply sget_In; exact Ht|]. unfold dget. apply K1, K2 in Ht. apply sget_In in Ht. destruct Ht as [v ->]. eauto.
  - rewrite E3. cbn [obind]. eauto.
Qed.
End M.

(** ** The masks and the masked fractions *)
Lemma ofold_or_sized : forall l m r c, of_size r c m -> (forall x, In x l -> of_size r c x) ->
  exists om, ofold or_into l m = Ok om /\ of_size r c om.
Proof.
  induction l as [|a l IH]; intros m r c [M1 M2] H; cbn [ofold]; [exists m; split; [reflexivity|split; assumption]|].
  destruct (H a (or_introl eq_refl)) as [A1 A2]. unfold or_into at 1. rewrite M1, M2, A1, A2, !Z.eqb_refl. cbn [andb obind].
  apply IH; [split; assumption|]. intros x Hx. apply H. now right.
Qed.
Lemma masks_return : forall r c ormasks, masks_fine r c ormasks -> exists om, combine_ormasks (r, c) ormasks = Ok om /\ of_size r c om.
Proof.
  intros r c [[|m l]|] H; cbn [combine_ormasks].
  - destruct H as [H _]. congruence.
  - destruct H as [_ H]. apply ofold_or_sized; [apply H; now left|]. intros x Hx. apply H. now right.
  - eexists. split; [reflexivity|]. split; reflexivity.
Qed.
Lemma wgt_returns : forall e, some_variance e -> exists w, band_wgt (e_var e) = Ok w.
Proof.
  intros e (i & j & q & I & E & Q0). unfold band_wgt. destruct (qmedian (good_vars (e_var e))) as [m|] eqn:Em; [eauto|]. exfalso.
  assert (X : In q (good_vars (e_var e))).
  { unfold good_vars. apply in_flat_map. exists (Some q). split; [rewrite <- E; now apply pixels_at|].
    destruct (Qle_bool q 0) eqn:B; [|now left]. apply Qle_bool_iff in B. lra. }
  assert (Y : good_vars (e_var e) <> []) by (intro Z; rewrite Z in X; destruct X).
  apply qmedian_none in Em. contradiction.
Qed.
Lemma sum_returns : forall r c vars ms a, (forall v, In v vars -> exists w, band_wgt v = Ok w) -> (forall m, In m ms -> of_size r c m) ->
  match a with Some b => of_size r c b | None => True end -> (a = None -> combine vars ms <> []) ->
  exists b ws, sum_mfracs (combine vars ms) a = Ok (Some b, ws).
Proof.
  intros r c. induction vars as [|v vars IH]; intros ms a Hv Hm Ha Hn; cbn [combine sum_mfracs].
  - destruct a as [b|]; [eauto|]. now specialize (Hn eq_refl).
  - destruct ms as [|m ms]; cbn [sum_mfracs]. { destruct a as [b|]; [eauto|]. now specialize (Hn eq_refl). }
    destruct (Hv v (or_introl eq_refl)) as [w ->]. cbn [obind]. destruct (Hm m (or_introl eq_refl)) as [M1 M2].
    assert (X : exists b, match a with None => Ok (scale w m) | Some a0 => add_img a0 (scale w m) end = Ok b /\ of_size r c b).
    { destruct a as [b|].
      - destruct Ha as [B1 B2]. unfold add_img. cbn [scale imap nr nc]. rewrite B1, B2, M1, M2, !Z.eqb_refl. cbn [andb]. eexists. split; [reflexivity|]. split; assumption.
      - eexists. split; [reflexivity|]. split; assumption. }
    destruct X as (b & -> & Sb). cbn [obind].
    destruct (IH ms (Some b)) as (b2 & ws & ->); [intros; apply Hv; now right|intros; apply Hm; now right|exact Sb|discriminate|]. cbn [obind fst snd]. eauto.
Qed.
Lemma mfrac_returns : forall r c bands ms, bands <> [] -> List.length ms = List.length bands -> (forall e, In e bands -> some_variance e) ->
  (forall m, In m ms -> of_size r c m) -> exists mf ws, get_mfrac_mbexp (map e_var bands) (Some ms) = Ok (mf, ws).
Proof.
  intros r c bands ms N L V S. unfold get_mfrac_mbexp.
  destruct (sum_returns r c (map e_var bands) ms None) as (b & ws & ->).
  - intros v Hv. apply in_map_iff in Hv. destruct Hv as (e & <- & I). apply wgt_returns, V, I.
  - exact S.
  - exact Logic.I.
  - intros _. destruct bands as [|e bands]; [congruence|]. destruct ms; [discriminate|]. cbn. discriminate.
  - cbn [obind fst snd]. eauto.
Qed.

(** ** The mean PSF *)
Lemma combine_assoc : forall A B C (a : list A) (b : list B) (c : list C) x y z,
  In (x, y, z) (combine (combine a b) c) <-> In (x, (y, z)) (combine a (combine b c)).
Proof.
  induction a as [|a0 a IH]; intros [|b0 b] [|c0 c] x y z; cbn [combine]; try tauto.
  cbn [In]. rewrite IH. split; (intros [E|I]; [left; congruence|now right]).
Qed.
Lemma sum_over_pos : forall shear fs ws, List.length ws = List.length fs -> shear <> [] -> (forall i, In i shear -> 0 <= i < zlen fs) ->
  (forall w, In w ws -> (0 < w)%Q) -> (0 < sum_over shear (fun _ => 1) fs ws)%Q.
Proof.
  intros shear fs ws L N Rg Pw. unfold sum_over. apply qsum_pos_one.
  - intros x I. apply in_map_iff in I. destruct I as (((i & f) & w) & <- & I). cbn [fst snd]. apply in_combine_r in I. specialize (Pw w I).
    destruct (existsb _ _); lra.
  - destruct shear as [|i sh]; [congruence|]. specialize (Rg i (or_introl eq_refl)).
    assert (X : exists f, nth_error fs (Z.to_nat i) = Some f).
    { destruct (nth_error fs (Z.to_nat i)) eqn:E; [eauto|]. apply nth_error_None in E. unfold zlen in Rg. lia. }
    destruct X as [f Ef]. assert (X : exists w, nth_error ws (Z.to_nat i) = Some w).
    { destruct (nth_error ws (Z.to_nat i)) eqn:E; [eauto|]. apply nth_error_None in E. unfold zlen in Rg. lia. }
    destruct X as [w Ew]. exists (1 * w)%Q. split; [|specialize (Pw w (nth_error_In _ _ Ew)); lra].
    apply in_map_iff. exists (i, f, w). cbn [fst snd existsb]. rewrite Z.eqb_refl. cbn [orb]. split; [reflexivity|].
    apply combine_assoc. replace (zlen fs) with (zlen (combine fs ws)) by (unfold zlen; rewrite combine_length; lia).
    apply zrange_combine. split; [lia|]. clear -Ef Ew. revert ws Ew fs Ef. induction (Z.to_nat i) as [|k IH]; intros [|b ws] Ew [|a fs] Ef; try discriminate; cbn in *.
    + congruence.
    + now apply IH.
Qed.
Lemma weights_pos : forall vars ws, Forall2 median_weight vars ws -> forall w, In w ws -> (0 < w)%Q.
Proof.
  intros vars ws H. induction H as [|v w vs ws (a & b & m & _ & _ & _ & _ & M & E) F IH]; intros x I; [destruct I|].
  destruct I as [<-|I]; [|now apply IH]. rewrite E. apply Qlt_shift_div_l; [exact M|lra].
Qed.
Lemma psf_returns : forall to_g shear fits fs ws vars, fits = map Ok fs -> (forall f, In f fs -> pf_flags f = 0) ->
  Forall2 median_weight vars ws -> List.length ws = List.length fs -> NoDup shear -> shear <> [] -> (forall i, In i shear -> 0 <= i < zlen fs) ->
  (forall a b, exists g, to_g a b = Some g) -> exists p, fit_original_psfs to_g shear fits ws = Ok p.
Proof.
  intros to_g shear fits fs ws vars -> Hf Hw L Nd Ne Rg Tg.
  destruct (fit_original_success to_g shear fs ws) as (p & E & _); auto; [unfold zlen; lia| |eauto].
  apply sum_over_pos; auto. exact (weights_pos _ _ Hw).
Qed.

(** ** The sheared exposures are like the original ones *)
Section R.
Context {Prof : Type} (R : mrun Prof).
Let P := r_phot R.
Lemma plain_ready : forall x0 y0 r c n name e, plain x0 y0 r c n e -> ready (mcal_galsim R) (to_mcal (name, e)).
Proof.
  intros x0 y0 r c n name e (_ & _ & _ & _ & Hw & draw & Hd & _). unfold ready. cbn [mcal_galsim Lmcal_model.g_jac Lmcal_model.g_kernel].
  unfold mcal_jac, mcal_kernel. rewrite of_to. rewrite Hd. unfold get_jacobian. destruct (e_wcs e) as [w|]; [|congruence].
  cbn [some_or_attr obind]. split; eauto.
Qed.
Lemma sheared_plain : forall x0 y0 r c n names bands noise stats s out, galsim_returns R ->
  (forall e, In e bands -> plain x0 y0 r c n e) -> sheared_bands R names bands noise stats s out ->
  forall e', In e' (map of_mcal out) -> plain x0 y0 r c n e' /\
    exists e, In e bands /\ nr (e_var e') = nr (e_var e) /\ nc (e_var e') = nc (e_var e) /\
      forall i j, Lmcal_spec.twice (px (e_var e) i j) (px (e_var e') i j).
Proof.
  intros x0 y0 r c n names bands noise stats s out (G1 & G2 & G3 & G4) Pl (es & ns & F1 & F2 & L & F3) e' I.
  apply in_map_iff in I. destruct I as (m & <- & I). destruct (Forall2_In_r _ _ _ _ _ _ F3 I) as ([d nn] & I2 & Fx). cbn [fst snd] in Fx.
  apply in_combine_l in I2. destruct (Forall2_In_r _ _ _ _ _ _ F1 I2) as (es0 & I3 & M). apply with_stats_In in I3. apply in_map_iff in I3.
  destruct I3 as ([nm e] & E & I3). apply in_combine_r in I3. specialize (Pl e I3). rewrite <- E in M. clear E.
  destruct M as (Mi & (p & k & w & _ & Mk & _ & Mp) & Mv & _ & _ & Minf). destruct Fx as (X1 & X2 & X3 & X4 & _ & X6 & _ & X8 & _ & X10).
  destruct Pl as (P1 & P2 & P3 & P4 & P5 & draw & P6 & P7).
  destruct Mi as (w' & k' & p' & _ & _ & _ & D). destruct (G3 (Lmcal_model.e_image (to_mcal (nm, e))) w' k' s p') as (m' & D' & D1 & D2).
  cbn [middle_galsim Lmcal_model.g_draw] in D. cbn [fst] in D. rewrite D' in D. apply Ok_inj in D. subst m'.
  cbn [fst] in *. unfold to_mcal in Mv, Minf, D1, D2, Mk. cbn in Mv, Minf, D1, D2, Mk. rewrite P6 in Mk. apply Ok_inj in Mk.
  unfold of_mcal. rewrite X10, Minf. cbn. split.
  - split; [exact P1|]. split; [exact P2|]. split; [exact (eq_trans X1 (eq_trans D1 P3))|]. split; [exact (eq_trans X2 (eq_trans D2 P4))|]. split; [exact P5|]. rewrite X8, Mp. cbn.
    eexists. split; [reflexivity|]. intros x y. destruct (G4 p k w) as [K1 K2]. rewrite K1, K2, <- Mk. apply P7.
  - exists e. split; [exact I3|]. split; [exact (eq_trans X3 (f_equal nr Mv))|]. split; [exact (eq_trans X4 (f_equal nc Mv))|].
    intros i j. pose proof (X6 i j) as Y. rewrite Mv in Y. exact Y.
Qed.

(** Twice the variances can be used like the variances. *)
Lemma twice_some : forall v v', Lmcal_spec.twice v v' -> finite_positive v' = finite_positive v /\ infinite v' = infinite v.
Proof.
  intros [a|] [b|] H; cbn in *; try contradiction; (split; [|reflexivity]); [|reflexivity]. f_equal.
  destruct (Qle_bool a 0) eqn:A; destruct (Qle_bool b 0) eqn:B; try reflexivity; exfalso.
  - apply Qle_bool_iff in A. assert (~ (b <= 0)%Q) by (intro X; apply Qle_bool_iff in X; congruence). lra.
  - apply Qle_bool_iff in B. assert (~ (a <= 0)%Q) by (intro X; apply Qle_bool_iff in X; congruence). lra.
Qed.
Lemma twice_unusable : forall (v v' : img evar), nr v' = nr v -> nc v' = nc v -> (forall i j, Lmcal_spec.twice (px v i j) (px v' i j)) ->
  unusable (pixels v') -> unusable (pixels v).
Proof.
  intros v v' N C T. unfold pixels. rewrite N, C. unfold unusable.
  assert (X : forall l, List.length (filter finite_positive (map (fun ij => px v' (fst ij) (snd ij)) l)) = List.length (filter finite_positive (map (fun ij => px v (fst ij) (snd ij)) l)) /\
    List.length (filter infinite (map (fun ij => px v' (fst ij) (snd ij)) l)) = List.length (filter infinite (map (fun ij => px v (fst ij) (snd ij)) l))).
  { induction l as [|[i j] l [IH1 IH2]]; [auto|]. cbn [map filter fst snd]. destruct (twice_some _ _ (T i j)) as [-> ->].
    destruct (finite_positive (px v i j)), (infinite (px v i j)); cbn [List.length]; rewrite IH1, IH2; auto. }
  destruct (X (coords (nr v) (nc v))) as [X1 X2]. unfold pixels in *. rewrite X1, X2. auto.
Qed.
Lemma sheared_fine : forall x0 y0 r c n names bands noise stats s out, galsim_returns R -> (forall e, In e bands -> plain x0 y0 r c n e) ->
  List.length names = List.length bands -> match stats with Some l => List.length l = List.length bands | None => True end ->
  variances_fine bands -> sheared_bands R names bands noise stats s out -> usable (map of_mcal out).
Proof.
  intros x0 y0 r c n names bands noise stats s out Gs Pl Ln Ls [V1 (e & Ie & Ve)] Sh. split.
  - intros e' I. destruct (sheared_plain _ _ _ _ _ _ _ _ _ _ _ Gs Pl Sh e' I) as (_ & e0 & I0 & N1 & N2 & T).
    destruct (V1 e0 I0) as (i & j & q & Ii & Eq & Q0). exists i, j. split; [unfold inside in *; rewrite N1, N2; exact Ii|].
    unfold good. specialize (T i j). rewrite Eq in T. destruct (px (e_var e') i j) as [q'|]; cbn in T; [lra|contradiction].
  - destruct (In_nth_error _ _ Ie) as [k Ek]. pose proof (sheared_length R names bands noise stats s out Ls Ln Sh) as Lo.
    destruct Sh as (es & ns & F1 & F2 & L & F3).
    assert (Ew : exists nm st, nth_error (Lmcal_spec.with_stats (map to_mcal (combine names bands)) stats) k = Some (to_mcal (nm, e), st)).
    { assert (En : exists nm, nth_error (map to_mcal (combine names bands)) k = Some (to_mcal (nm, e))).
      { clear -Ek Ln. revert names k Ek Ln. induction bands as [|b bands IH]; intros [|nm names] [|k] Ek Ln; try discriminate; cbn in *.
        - apply Some_inj in Ek. subst b. eauto.
        - apply IH; [exact Ek|lia]. }
      destruct En as [nm En]. exists nm. unfold Lmcal_spec.with_stats. destruct stats as [l|].
      - assert (El : exists x, nth_error (map Some l) k = Some x).
        { destruct (nth_error (map Some l) k) eqn:E; [eauto|]. apply nth_error_None in E. rewrite map_length in E.
          assert (nth_error bands k <> None) by congruence. apply nth_error_Some in H. lia. }
        destruct El as [x El]. exists x. clear -En El. revert En El. generalize (map to_mcal (combine names bands)) (map Some l). revert k.
        induction k as [|k IH]; intros [|a l1] [|b l2] En El; try discriminate; cbn [nth_error combine] in *; [apply Some_inj in En, El; subst; reflexivity|now apply IH].
      - exists None. exact (map_nth_error (fun e0 : mexp => (e0, @None Lmcal_model.pstats)) k _ En). }
    destruct Ew as (nm & st & Ew). 
    assert (Fn : forall A B (Q : A -> B -> Prop) l m j a, Forall2 Q l m -> nth_error l j = Some a -> exists b, nth_error m j = Some b /\ Q a b).
    { clear. intros A B Q l m j a F. revert j. induction F as [|x y l m Hq F IH]; intros [|j] E; try discriminate; cbn in *; [apply Some_inj in E; subst; eauto|now apply IH]. }
    destruct (Fn _ _ _ _ _ _ _ F1 Ew) as (d & Ed & M).
    assert (Ec : exists x, nth_error (combine es ns) k = Some (d, x)).
    { clear -Ed L. revert es ns Ed L. induction k as [|k IH]; intros [|a es] [|b ns] Ed L; try discriminate; cbn in *; [apply Some_inj in Ed; subst; eauto|apply IH; [exact Ed|lia]]. }
    destruct Ec as [x Ec]. destruct (Fn _ _ _ _ _ _ _ F3 Ec) as (m & Em & Fx). exists (of_mcal m).
    split; [apply in_map; exact (nth_error_In _ _ Em)|]. intro U. apply Ve. destruct Fx as (_ & _ & X3 & X4 & _ & X6 & _). destruct M as (_ & _ & Mv & _). cbn [fst snd] in *.
    apply (twice_unusable (e_var e) (e_var (of_mcal m))); [| | |exact U].
    + unfold of_mcal. destruct (Lmcal_model.e_info m) as [[u v] w]. cbn. exact (eq_trans X3 (f_equal nr Mv)).
    + unfold of_mcal. destruct (Lmcal_model.e_info m) as [[u v] w]. cbn. exact (eq_trans X4 (f_equal nc Mv)).
    + intros i j. unfold of_mcal. destruct (Lmcal_model.e_info m) as [[u v] w]. cbn. pose proof (X6 i j) as Y. rewrite Mv in Y. exact Y.
Qed.

End R.

(** ** One detection *)
Section P.
Context (P : phot).
Lemma nearest_within : forall x0 n x, within x0 n x -> pixel_of (x - inject_Z x0) (nearest (x - inject_Z x0)) /\ 0 <= nearest (x - inject_Z x0) < n.
Proof.
  intros x0 n x [L H]. pose proof (nearest_spec (x - inject_Z x0)) as N. split; [exact N|]. destruct N as [N1 N2]. set (i := nearest (x - inject_Z x0)) in *.
  rewrite inject_Z_plus in H. split.
  - assert (Y : (inject_Z (-1) < inject_Z i)%Q) by (change (inject_Z (-1)) with (- 1 # 1)%Q; lra). rewrite <- Zlt_Qlt in Y. lia.
  - assert (Y : (inject_Z i < inject_Z n)%Q) by lra. now rewrite <- Zlt_Qlt in Y.
Qed.
Lemma coadd_corner : forall e0 es co, coadd_exposures (e0 :: es) = Ok (Some co) -> c_x0 co = e_x0 e0 /\ c_y0 co = e_y0 e0.
Proof.
  intros e0 es co H. cbn [coadd_exposures] in H. destruct (psf_at_center e0) as [p0|]; cbn [obind] in H; [|discriminate].
  destruct (omap _ _) as [psfs|] in H; cbn [obind] in H; [|discriminate]. destruct (negb _ && _) in H; [discriminate|].
  apply Ok_inj, Some_inj in H. subst co. split; reflexivity.
Qed.
Lemma detexp_returns : forall x0 y0 r c n mc, single_keeps P -> (forall e, In e mc -> plain x0 y0 r c n e) -> usable mc ->
  exists d, match mc with [] => Raise IndexError | [e] => Ok (Some (ph_single P e)) | _ => coadd_exposures mc end = Ok (Some d) /\
    c_x0 d = x0 /\ c_y0 d = y0 /\ of_size r c (c_image d).
Proof.
  intros x0 y0 r c n mc Sk Pl Us. destruct mc as [|a [|b mc]].
  - destruct Us as [_ (e & [] & _)].
  - exists (ph_single P a). split; [reflexivity|]. destruct (Sk a) as (S1 & S2 & S3).
    destruct (Pl a (or_introl eq_refl)) as (P1 & P2 & P3 & P4 & _). rewrite P3, P4 in S3. split; [congruence|]. split; [congruence|exact S3].
  - destruct (coadd_ok (a :: b :: mc)) as (co & psfs & E & _ & _ & S & _).
    + discriminate.
    + exists r, c, n. intros e I. destruct (Pl e I) as (_ & _ & P3 & P4 & _ & draw & P6 & P7). split; [exact P3|]. split; [exact P4|]. exists draw. auto.
    + exact Us.
    + exists co. split; [exact E|]. destruct (coadd_corner _ _ _ E) as [C1 C2]. destruct (Pl a (or_introl eq_refl)) as (P1 & P2 & P3 & P4 & _).
      destruct (S a (or_introl eq_refl)) as [S1 S2]. split; [congruence|]. split; [congruence|]. split; congruence.
Qed.
Lemma rows_finish : forall om mf p rows, (forall x, In x rows -> exists l, lrow_of x = Ok l /\ position_inside om l) ->
  exists rows', finish P om mf p rows = Ok rows'.
Proof.
  intros om mf p rows H. unfold finish.
  assert (X : exists xs, omap lrow_of rows = Ok xs /\ Forall (position_inside om) xs).
  { induction rows as [|x rows IH]; cbn [omap]; [exists []; auto|]. destruct (H x (or_introl eq_refl)) as (l & -> & Hl). cbn [obind].
    destruct IH as (xs & -> & Hx); [intros; apply H; now right|]. cbn [obind]. eauto. }
  destruct X as (xs & -> & Hx). cbn [obind]. cbv zeta. destruct (add_ormask_total om xs Hx) as [ys ->]. cbn [obind]. eauto.
Qed.
Lemma cat_returns : forall cfg d found mc sz fwhm shear x0 y0 r c n om mf p, ph_detect P cfg d = Ok found -> c_x0 d = x0 -> c_y0 d = y0 -> of_size r c (c_image d) ->
  (forall e, In e mc -> plain x0 y0 r c n e) -> mc <> [] -> n mod 2 = 1 -> 0 < r -> 0 < c ->
  detection_returns P x0 y0 r c -> placed_inside P x0 y0 r c -> lists_set (ph_order P) -> fits_return (phot_env P cfg d mc sz fwhm shear) -> of_size r c om ->
  exists t, measure (phot_env P cfg d mc sz fwhm shear) (ph_label P) (ph_order P) (match found with Some l => l | None => [] end) = Ok t /\
    match t with None => True | Some rows => exists rows', finish P om mf p rows = Ok rows' end.
Proof.
  intros cfg d found mc sz fwhm shear x0 y0 r c n om mf p Ef D1 D2 D3 Pl Ne On Hr Hc Dr Pi Ls Fr [O1 O2].
  destruct (Dr cfg d D1 D2 D3) as (found' & Ef2 & Hf). rewrite Ef in Ef2. apply Ok_inj in Ef2. subst found'.
  set (cat := match found with Some l => l | None => [] end). set (env := phot_env P cfg d mc sz fwhm shear).
  assert (Hcat : catalogue cat /\ peaks_on_mask env cat).
  { destruct found as [cat0|]; [|split; [constructor|intros x []]]. destruct (Hf cat0 eq_refl) as [A B]. split; [exact A|]. intros x Hx.
    destruct (B x Hx) as (u & v & E1 & E2). exists u, v. split; [exact E1|]. cbn. rewrite D1, D2. exact E2. }
  destruct Hcat as [Hcat Hpk].
  assert (Hp : has_pixels mc).
  { destruct mc as [|e mc']; [congruence|]. destruct (Pl e (or_introl eq_refl)) as (_ & _ & P3 & P4 & _). cbn. lia. }
  assert (Hcm : can_measure env cat).
  { split; [exact Hcat|]. split; [exact Hp|]. split.
    { intros e I. destruct (Pl e I) as (_ & _ & _ & _ & P5 & draw & P6 & P7). split; [exact P5|]. exists draw. split; [exact P6|].
      intros x y. destruct (P7 x y) as [-> ->]. auto. }
    split; [exact Hpk|]. split; [apply Fr|]. exists shear. reflexivity. }
  destruct (measure_returns env (ph_label P) (ph_order P) cat Hcm Ls) as (rows & E & _). rewrite E. eexists. split; [reflexivity|].
  pose proof (measure_ok _ _ _ _ _ Hcat Ls E) as (cs & sb & bms & Mi & Pm & _ & Mr). destruct rows as [|r0 rows0]; [exact Logic.I|]. set (rows := r0 :: rows0) in *.
  destruct Mr as (_ & Lr & Mr). apply rows_finish. intros x Hx. destruct (In_nth_error _ _ Hx) as [k Ek].
  assert (Es : exists so, nth_error cs k = Some so).
  { destruct (nth_error cs k) eqn:En; [eauto|]. apply nth_error_None in En. assert (Y : nth_error rows k <> None) by congruence. apply nth_error_Some in Y. lia. }
  destruct Es as [so Es]. destruct (Mr k so Es) as (x' & fl & g & pg & bm & E1 & _ & _ & Go). rewrite Ek in E1. apply Some_inj in E1. subst x'.
  destruct (output_facts _ _ _ _ _ _ _ Go) as (_ & [(xx & yy & C1 & C2 & C3) _] & _ & _ & _ & _ & _ & Cn & _). clear Go.
  assert (Cn' : sget "row0" x = Some (CInt y0) /\ sget "col0" x = Some (CInt x0)).
  { change (m_bands env) with mc in Cn. destruct mc as [|e mc']; [destruct Hp|]. cbn in Cn. destruct (Pl e (or_introl eq_refl)) as (P1 & P2 & _). rewrite P1, P2 in Cn. exact Cn. }
  destruct Cn' as [Cr Cc]. unfold lrow_of. rewrite C1, C2, Cr, Cc. eexists. split; [reflexivity|].
  assert (Ics : In so cat).
  { apply nth_error_In in Es. apply (Permutation_in _ Pm) in Es. apply filter_In in Es. tauto. }
  assert (Ef' : ph_detect P cfg d = Ok (Some cat)). { destruct found as [cat0|]; [exact Ef|destruct Ics]. }
  destruct (Pi cfg d cat so D1 D2 D3 Ef' Ics) as [Wx Wy]. unfold place in Wx, Wy. 
  change (m_cen env (s_id so)) with (ph_cen P d (s_id so)) in C3. rewrite <- C3 in Wx, Wy. cbn [fst snd] in Wx, Wy.
  destruct (nearest_within _ _ _ Wx) as [Nx Bx]. destruct (nearest_within _ _ _ Wy) as [Ny By].
  exists (nearest (yy - inject_Z y0)), (nearest (xx - inject_Z x0)). split; [split; cbn; [exact Ny|exact Nx]|]. unfold inside. rewrite O1, O2. lia.
Qed.
End P.

(** ** One type *)
Section R2.
Context {Prof : Type} (R : mrun Prof).
Let P := r_phot R.
Lemma type_returns : forall s shear names mc x0 y0 r c n om mf p,
  s_deblender s <> "scarlet" -> (exists c, snd (detect_and_deblend_config (ph_stack P) (s_thresh s) (s_deblender s) None) = Ok c) ->
  (forall e, In e mc -> plain x0 y0 r c n e) -> usable mc -> n mod 2 = 1 -> 0 < r -> 0 < c -> single_keeps P ->
  detection_returns P x0 y0 r c -> placed_inside P x0 y0 r c -> lists_set (ph_order P) ->
  (forall cfg d, fits_return (type_env R cfg s shear mc d)) -> of_size r c om ->
  exists t, measure_type R s shear names mc = Ok t /\ match t with None => True | Some rows => exists rows', finish P om mf p rows = Ok rows' end.
Proof.
  intros s shear names mc x0 y0 r c n om mf p Nsc (cfg & Ec) Pl Us On Hr Hc Sk Dr Pi Ls Fr [O1 O2]. unfold measure_type. fold P. rewrite Ec. cbn [obind].
  destruct (String.eqb_spec (s_deblender s) "scarlet") as [X|_]; [contradiction|]. unfold detect_deblend_and_measure, dd_run.
  destruct (detexp_returns P x0 y0 r c n mc Sk Pl Us) as (d & -> & D1 & D2 & D3). cbn [obind].
  destruct (Dr cfg d D1 D2 D3) as (found & Ef & _). fold P in Ef. rewrite Ef. cbn [obind].
  apply (cat_returns P cfg d found mc (s_stamp s) (s_fwhm s) shear x0 y0 r c n om mf p); auto.
  - intros ->. destruct Us as [_ (e & [] & _)].
  - apply Fr.
  - split; assumption.
Qed.
Lemma entries_return : forall s shear names om mf p l res,
  (forall tm, In tm l -> exists t, measure_type R s shear names (map of_mcal (snd tm)) = Ok t /\
     match t with None => True | Some rows => exists rows', finish P om mf p rows = Ok rows' end) ->
  exists res', ofold (type_entry R s shear names om mf p) l res = Ok res'.
Proof.
  intros s shear names om mf p. induction l as [|tm l IH]; intros res H; cbn [ofold]; [eauto|].
  destruct (H tm (or_introl eq_refl)) as (t & Et & Ht). unfold type_entry at 1. rewrite Et. cbn [obind]. fold P.
  destruct t as [rows|]; [destruct Ht as [rows' Er]; rewrite Er|]; cbn [obind]; apply IH; intros; apply H; now right.
Qed.
End R2.

(** ** The fits of the package, and the whole run *)
From Verif Require Import Mtot_proofs.
Lemma own_fits_return : forall P F cfg d mc sz fwhm shear, 0 < zlen mc <= 6 -> good_bands (zlen mc) shear -> fitters_return F ->
  fits_return (phot_env (own_phot F P) cfg d mc sz fwhm shear).
Proof.
  intros P F cfg d mc sz fwhm shear Hn Gb [Hboot Hk] so obs Hs. destruct (Hk fwhm) as (K1 & K2 & K3).
  pose proof (stamps_good (f_jid F) _ so obs Hs) as G. change (m_bands (phot_env (own_phot F P) cfg d mc sz fwhm shear)) with mc in G.
  change (m_gauss (phot_env (own_phot F P) cfg d mc sz fwhm shear)) with (lsst_gauss (f_ng F) (f_boot F) (f_jid F) shear).
  change (m_pgauss (phot_env (own_phot F P) cfg d mc sz fwhm shear)) with (lsst_pgauss (f_ng F) (f_mk F) (f_toT F) (f_sqrt F) (f_pgauss F fwhm) (f_jid F)).
  unfold lsst_gauss, lsst_pgauss.
  destruct (gauss_total (f_ng F) (f_boot F) _ 0 shear false _ G Gb Hboot) as (r & ->). cbn [obind]. split; [eauto|].
  replace (fit_mbobs_wavg (f_ng F) (f_mk F) (f_toT F) (f_sqrt F) (stamps_of (f_jid F) obs) (f_pgauss F fwhm) 0 None 0 true)
    with (fit_mbobs_wavg (f_ng F) (f_mk F) (f_toT F) (f_sqrt F) (stamps_of (f_jid F) obs) (f_pgauss F fwhm) 0 (Some (zrange (zlen (stamps_of (f_jid F) obs)))) 0 true) by reflexivity.
  destruct (wavg_total (f_ng F) (f_mk F) (f_toT F) (f_sqrt F) (stamps_of (f_jid F) obs) (f_pgauss F fwhm) 0 (zrange (zlen (stamps_of (f_jid F) obs))) 0 true _ G) as (r' & ->); auto.
  - rewrite (proj1 G). apply zrange_good. exact Hn.
  - cbn [obind]. eauto.
Qed.
Lemma run_fits_return : forall Prof (R : mrun Prof) F cfg s shear mc d, 0 < zlen mc <= 6 -> good_bands (zlen mc) shear -> fitters_return F ->
  fits_return (type_env (own_run F R) cfg s shear mc d).
Proof. intros Prof R F cfg s shear mc d A B C. exact (own_fits_return (r_phot R) F cfg d mc (s_stamp s) (s_fwhm s) shear A B C). Qed.
Lemma shear_good : forall names want, names <> [] -> zlen names <= 6 -> (forall l b, want = Some l -> In b l -> In b names) ->
  exists shear, extract_shear_band_indices names want = Ok shear /\ good_bands (zlen names) shear.
Proof.
  intros names want Ne H6 Hw. destruct (extract_shear_band_indices names want) as [shear|x] eqn:E.
  - exists shear. split; [reflexivity|]. pose proof (shear_bands_exact _ _ _ E) as Ex. pose proof (sorted_nodup _ (shear_bands_sorted _ _ _ E)) as Nd.
    assert (Rg : forall b, In b shear -> 0 <= b < zlen names).
    { intros b I. apply Ex in I. destruct I as (I0 & nm & I1 & _). assert (X : nth_error names (Z.to_nat b) <> None) by congruence. apply nth_error_Some in X. unfold zlen. lia. }
    split; [|split; [exact Nd|split; [|exact Rg]]].
    + assert (X : exists b, In b (Lutil_proofs.asked names want) /\ In b names).
      { unfold Lutil_proofs.asked. destruct want as [[|b l]|]; [| |]; try (destruct names as [|b l0]; [congruence|]; exists b; split; now left).
        exists b. split; [now left|]. apply (Hw (b :: l) b eq_refl). now left. }
      destruct X as (b & A & B). destruct (In_nth_error _ _ B) as [k Ek]. intros ->. apply (proj2 (Ex (Z.of_nat k))). split; [lia|]. exists b. rewrite Nat2Z.id. auto.
    + assert (X : incl shear (zrange (zlen names))) by (intros b I; apply in_zrange; apply Rg, I).
      apply (NoDup_incl_length Nd) in X. rewrite zrange_len, map_length, seq_length in X. unfold zlen in H6. lia.
  - exfalso. assert (X : x = RuntimeError). { unfold extract_shear_band_indices in E. destruct (forallb _ _); [discriminate|]. congruence. }
    subst x. apply shear_bands_error in E. destruct E as (b & A & B). apply B. unfold Lutil_proofs.asked in A. destruct want as [[|a l]|]; auto. exact (Hw _ _ eq_refl A).
Qed.
Lemma types_known : forall Prof (R : mrun Prof) user s, read_config R user = Ok s -> forall t, In t (s_types s) -> sget t Lmcal_spec.documented <> None.
Proof.
  intros Prof R user s H t I. unfold read_config in H.
  repeat match type of H with obind ?a _ = _ => let E := fresh "E" in destruct a eqn:E; cbn [obind] in H; [|discriminate] end.
  apply Ok_inj in H. subst s. cbn [s_types] in I.
  match goal with E : validate _ = Ok _ |- _ => unfold validate in E; destruct (forallb _ _) eqn:Fb in E; [|discriminate] end.
  rewrite forallb_forall in Fb. apply Fb in I. unfold allowed_types in I. cbn [existsb] in I. cbn [Lmcal_spec.documented sget].
  repeat (match goal with |- context[String.eqb t ?x] => destruct (String.eqb t x); [discriminate|] end). discriminate.
Qed.
Lemma sky_fine : forall x0 y0 r c n bands bands1, Forall2 sky_lowered bands bands1 -> (forall e, In e bands -> plain x0 y0 r c n e) -> variances_fine bands ->
  (forall e, In e bands1 -> plain x0 y0 r c n e) /\ variances_fine bands1.
Proof.
  intros x0 y0 r c n bands bands1 Fl Pl [V1 (e & Ie & Ve)]. split.
  - intros e1 I. destruct (Forall2_In_r _ _ _ _ _ _ Fl I) as (e0 & I0 & Hs). pose proof (sky_lowered_box _ _ Hs) as Bx.
    destruct Hs as ((A1 & A2 & A3 & A4 & A5) & bgs & Lb). destruct (Pl e0 I0) as (P1 & P2 & P3 & P4 & P5 & draw & P6 & P7).
    destruct Lb as (L1 & L2 & _). split; [congruence|]. split; [congruence|]. split; [congruence|]. split; [congruence|].
    split; [congruence|]. exists draw. split; [congruence|exact P7].
  - split.
    + intros e1 I. destruct (Forall2_In_r _ _ _ _ _ _ Fl I) as (e0 & I0 & (A1 & A2 & A3 & A4 & A5) & _). destruct (V1 e0 I0) as (i & j & q & X).
      exists i, j, q. rewrite A3. exact X.
    + clear -Fl Ie Ve. induction Fl as [|a b l l1 Hs Fl IH]; [destruct Ie|]. destruct Ie as [->|Ie].
      * exists b. split; [now left|]. destruct Hs as [(_ & _ & A3 & _) _]. rewrite A3. exact Ve.
      * destruct (IH Ie) as (e1 & I1 & V1). exists e1. split; [now right|exact V1].
Qed.
Lemma own_sky : forall F P t l, subtract_sky_mbexp (own_phot F P) t l = subtract_sky_mbexp P t l.
Proof.
  intros F P t l. unfold subtract_sky_mbexp. change (ph_stack (own_phot F P)) with (ph_stack P). destruct (snd _) as [c|]; [|reflexivity].
  destruct (niter_of c) as [n|]; [|reflexivity]. induction l as [|e l IH]; [reflexivity|]. cbn [sky_bands].
  change (sky_band (own_phot F P) c n e) with (sky_band P c n e). now rewrite IH.
Qed.
Lemma iterate_handled : forall Res back detect n sky res e (e' : Lsky_model.exposure) x,
  (forall e err, back e <> inl (Lsky_model.OtherFailure err)) -> (forall e m err, detect e <> (m, inl (Lsky_model.OtherFailure err))) ->
  Lsky_model.iterate Res back detect n sky res e <> (e', inl (Lsky_model.OtherFailure x)).
Proof.
  intros Res back detect n. induction n as [|n IH]; intros sky res e e' x Hb Hd H; cbn [Lsky_model.iterate] in H; [discriminate|].
  unfold Lsky_model.run_back in H. destruct (back e) as [f|bg] eqn:Eb.
  - inversion H. subst. exact (Hb _ _ Eb).
  - set (e1 := Lsky_model.mkX _ _ _) in H. unfold Lsky_model.run_detect in H. destruct (detect e1) as [m [f|[r [b|]]]] eqn:Ed.
    + inversion H. subst. exact (Hd _ _ _ Ed).
    + cbn [Lsky_model.x_bgmean e1] in H. exact (IH _ _ _ _ _ Hb Hd H).
    + cbn [Lsky_model.x_bgmean e1] in H. exact (IH _ _ _ _ _ Hb Hd H).
Qed.
Lemma sky_tasks : forall P thresh bands, sky_tasks_return P thresh -> exists bands1, subtract_sky_mbexp P thresh bands = (bands1, Ok tt).
Proof.
  intros P thresh bands ((c & Ec) & Hb & Hd). unfold subtract_sky_mbexp. destruct (sky_config (ph_stack P) thresh None) as [u o] eqn:E. cbn [snd] in *. subst o.
  rewrite (sky_niter _ _ _ _ E). induction bands as [|e l IH]; cbn [sky_bands]; [eauto|]. destruct IH as [l1 ->].
  unfold sky_band, Lsky_model.run. change (2 <? 1) with false. cbv iota.
  destruct (Lsky_model.iterate _ _ _ _ _ _ _) as [x [f|[sk rs]]] eqn:Ei; [|eauto]. destruct f as [| |err]; [eauto|eauto|].
  exfalso. exact (iterate_handled _ _ _ _ _ _ _ _ _ (Hb e) (Hd c e) Ei).
Qed.
Lemma basics_return : forall Prof (R : mrun Prof) F user names bands bands1 noise ms ormasks gp s x0 y0 r c n,
  run_basics R F user names bands bands1 noise ms ormasks s x0 y0 r c n ->
  (forall shear mc om mf p, (forall e, In e mc -> plain x0 y0 r c n e) -> usable mc -> zlen mc = zlen names -> good_bands (zlen names) shear -> of_size r c om ->
     exists t, measure_type (own_run F R) s shear names mc = Ok t /\ match t with None => True | Some rows => exists rows', finish (own_phot F (r_phot R)) om mf p rows = Ok rows' end) ->
  exists res, run_metadetect (own_run F R) user names bands noise (Some ms) ormasks gp = (bands1, Ok res).
Proof.
  intros Prof R F user names bands bands1 noise ms ormasks gp s x0 y0 r c n
    ((Cf & Cw & Cd) & [Sk1 Sk2] & Nn & Ln & Lno & Lm & Hb & Hr & Hc & On & Pl & Pn & Vf & Hm & Mk & [Pf Tg] & Gs & Ff & Sk) Step.
  assert (Nb : bands <> []) by (intros ->; cbn in Hb; lia).
  assert (Eom : exists om, match ormasks, bands with None, [] => Raise IndexError | None, e :: _ => combine_ormasks (nr (e_image e), nc (e_image e)) None
      | Some l, _ => combine_ormasks (0, 0) (Some l) end = Ok om /\ of_size r c om).
  { destruct (masks_return r c ormasks Mk) as (om & E & S). exists om. split; [|exact S]. destruct ormasks as [l|]; [exact E|].
    destruct bands as [|e bands']; [congruence|]. destruct (Pl e (or_introl eq_refl)) as (_ & _ & P3 & P4 & _). rewrite P3, P4. exact E. }
  destruct Eom as (om & Eom & Som).
  destruct (mfrac_returns r c bands ms Nb Lm (proj1 Vf) Hm) as (mf & ws & Emf).
  destruct (get_mfrac_spec _ _ _ _ Emf) as (Mw & _); [now rewrite map_length|].
  assert (Esk : (if truthy (s_sky s) then subtract_sky_mbexp (r_phot R) (s_thresh s) bands else (bands, Ok tt)) = (bands1, Ok tt)).
  { destruct (truthy (s_sky s)); [now apply Sk1|]. now rewrite (Sk2 eq_refl). }
  destruct (sky_part R s bands bands1 (Ok tt) Esk) as [Lo _].
  assert (Lb : List.length bands1 = List.length bands) by (symmetry; exact (Lmcal_proofs.Forall2_length' _ _ _ _ _ Lo)).
  destruct (sky_fine _ _ _ _ _ _ _ Lo Pl Vf) as [Pl1 Vf1].
  destruct (shear_good names (s_shear s)) as (shear & Esh & Gb); [destruct names; [destruct bands; [congruence|discriminate]|discriminate]|unfold zlen in *; lia|exact Cw|].
  assert (Efs : exists fs, map (ph_psffit (r_phot R)) bands1 = map Ok fs /\ (forall f, In f fs -> pf_flags f = 0) /\ List.length fs = List.length bands1).
  { clear -Pf. induction bands1 as [|e l IH]; [exists []; cbn; intuition|]. destruct (Pf e (or_introl eq_refl)) as (f & E & Z).
    destruct IH as (fs & E2 & Z2 & L2); [intros; apply Pf; now right|]. exists (f :: fs). cbn [map List.length]. rewrite E, E2, L2.
    split; [reflexivity|]. split; [|reflexivity]. intros g [<-|I]; auto. }
  destruct Efs as (fs & Efs & Zfs & Lfs). assert (Lws : List.length ws = List.length bands) by (rewrite <- (Lmcal_proofs.Forall2_length' _ _ _ _ _ Mw); apply map_length).
  destruct Gb as (G1 & G2 & G3 & G4).
  destruct (psf_returns (ph_to_g (r_phot R)) shear _ fs ws _ Efs Zfs Mw) as (p & Ep); auto; [congruence|intros i I; specialize (G4 i I); unfold zlen in *; lia|].
  set (stats := if String.eqb (s_reconv s) "fitgauss" then Some (perband (map (ph_psffit (r_phot R)) bands1)) else None).
  assert (Lst : match stats with Some l => List.length l = List.length bands1 | None => True end).
  { unfold stats. destruct (String.eqb _ _); [|exact Logic.I]. rewrite Efs, perband_ok, map_length. exact Lfs. }
  assert (Lmm : List.length (map to_mcal (combine names noise)) = List.length (map to_mcal (combine names bands1))) by (rewrite !map_length, !combine_length; lia).
  assert (Rd : forall l, (forall e, In e l -> plain x0 y0 r c n e) -> Forall (ready (mcal_galsim R)) (map to_mcal (combine names l))).
  { intros l Hl. apply Forall_forall. intros m I. apply in_map_iff in I. destruct I as ([nm e] & <- & I). apply (plain_ready R x0 y0 r c n). apply Hl. exact (in_combine_r _ _ _ _ I). }
  destruct (mbexps_fixnoise_return (mcal_galsim R)) with (mbexp := map to_mcal (combine names bands1)) (nmbexp := map to_mcal (combine names noise))
    (types := Some (s_types s)) (stats := stats) as (d & nd & Emc).
  - destruct Gs as (A1 & A2 & A3 & _). split; [exact A1|]. split; [exact A2|]. intros im w k sh pr. destruct (A3 im w k sh pr) as (m & E & _). eauto.
  - now apply Rd.
  - now apply Rd.
  - exact (types_known _ R user s Cf).
  - exact Lmm.
  - destruct stats; [|exact Logic.I]. rewrite map_length, combine_length. lia.
  - destruct (Lmcal_proofs.mbexps_fixnoise_spec (mcal_galsim R) _ _ _ _ _ _ Lmm Emc) as (Kd & _ & _ & Sd). cbn [Lmcal_spec.requested] in Kd, Sd.
    pose proof (Lmcal_proofs.mbexps_fixnoise_nodup (mcal_galsim R) _ _ _ _ _ _ Emc) as Ndd.
    assert (Nm : map to_mcal (combine names bands1) <> []).
    { intro X. apply map_eq_nil in X. destruct bands1; [destruct bands; [congruence|discriminate]|]. destruct names; [cbn in Ln, Lb; lia|discriminate]. }
    destruct (entries_return (own_run F R) s shear names om mf p d []) as (res & Eres).
    { intros [t out] I. cbn [snd].
      assert (St : sget t d = Some out).
      { clear -I Ndd. induction d as [|[k v] d IH]; [destruct I|]. cbn [skeys map fst] in Ndd. inversion Ndd as [|a b N1 N2]; subst a b. cbn [sget].
        destruct I as [E|I]; [inversion E; subst; now rewrite String.eqb_refl|]. destruct (String.eqb_spec t k) as [->|_]; [|now apply IH].
        exfalso. apply N1. change k with (fst (k, out)). now apply in_map. }
      assert (It : In t (s_types s)) by (apply Kd, sget_In; eauto).
      destruct (Sd t It) as (sh & es & ns & out' & D1 & D2 & D3 & D4 & _ & D5 & D6). specialize (D1 Nm). rewrite St in D4. apply Some_inj in D4. subst out'.
      assert (Sh : sheared_bands R names bands1 noise stats sh out).
      { exists es, ns. split; [|split; [|auto]].
        - eapply Lexp_proofs.Forall2_weaken; [|exact D2]. intros a b. apply middle_exp.
        - eapply Lexp_proofs.Forall2_weaken; [|exact D3]. intros a b. apply middle_exp. }
      assert (Lo1 : zlen (map of_mcal out) = zlen names).
      { unfold zlen. rewrite map_length. f_equal. rewrite Ln, <- Lb. apply (sheared_length R names bands1 noise stats sh out Lst); [lia|exact Sh]. }
      apply Step; [| |exact Lo1|split; auto|exact Som].
      - intros e I1. exact (proj1 (sheared_plain R _ _ _ _ _ _ _ _ _ _ _ Gs Pl1 Sh e I1)).
      - apply (sheared_fine R x0 y0 r c n names bands1 noise stats sh out Gs Pl1); auto; lia. }
    unfold run_metadetect. change (read_config (own_run F R) user) with (read_config R user). rewrite Cf. cbn [obind].
    rewrite Eom. cbn [obind]. rewrite Emf. cbn [obind].
    change (r_phot (own_run F R)) with (own_phot F (r_phot R)). rewrite own_sky, Esk. rewrite Esh. cbn [obind fst snd].
    change (ph_to_g (own_phot F (r_phot R))) with (ph_to_g (r_phot R)). change (ph_psffit (own_phot F (r_phot R))) with (ph_psffit (r_phot R)). rewrite Ep. cbn [obind].
    cbv zeta. fold stats. change (mcal_galsim (own_run F R)) with (mcal_galsim R). rewrite Emc. cbn [obind fst]. rewrite Eres. cbn [obind]. eauto.
Qed.
Lemma run_returns : forall Prof (R : mrun Prof) F user names bands bands1 noise ms ormasks gp s x0 y0 r c n,
  run_ready R F user names bands bands1 noise ms ormasks s x0 y0 r c n -> placed_inside (r_phot R) x0 y0 r c ->
  exists res, run_metadetect (own_run F R) user names bands noise (Some ms) ormasks gp = (bands1, Ok res).
Proof.
  intros Prof R F user names bands bands1 noise ms ormasks gp s x0 y0 r c n (B & Cs & Dr & Ls) Pi. apply (basics_return _ _ _ _ _ _ _ _ _ _ _ _ _ _ _ _ _ B).
  destruct B as ((Cf & Cw & Cd) & _ & _ & Ln & _ & _ & H6 & Hr & Hc & On & _ & _ & _ & _ & _ & _ & _ & Ff & Sk).
  intros shear mc om mf p Pl Us Lmc Gb Som. apply (type_returns (own_run F R) s shear names mc x0 y0 r c n om mf p); auto.
  intros cfg d. apply run_fits_return; [unfold zlen in *; lia|now rewrite Lmc|exact Ff].
Qed.
