From Coq Require Import ZArith QArith List String Bool Lia.
From Verif Require Import Base Conf_model Conf_spec.
Import ListNotations.
Local Open Scope string_scope.
Local Open Scope Z_scope.

Lemma asks_for_default : forall c m, asks_for c m <-> m = default "wmom" (fc_model c).
Proof.
  intros c m. unfold asks_for, default. destruct (fc_model c); split.
  - intros [H|[H _]]; congruence.
  - intros ->. now left.
  - intros [H|[_ H]]; congruence.
  - intros ->. right. auto.
Qed.

Lemma weight_fwhm_spec : forall c f, weight_fwhm c = Ok f <-> has_aperture c f.
Proof.
  intros c f. unfold weight_fwhm, has_aperture. destruct (fc_weight c) as [w|].
  - destruct (w_fwhm w) as [g|] eqn:E; split.
    + intros H. apply Ok_inj in H; subst. eauto.
    + intros [w' [H1 H2]]. apply Some_inj in H1; subst. rewrite E in H2. now apply Some_inj in H2; subst.
    + discriminate.
    + intros [w' [H1 H2]]. apply Some_inj in H1; subst. congruence.
  - split; [discriminate|]. intros [w [H _]]. discriminate.
Qed.

Lemma weight_reg_spec : forall c r, weight_reg c = Some r <-> regularised c r.
Proof.
  intros c r. unfold weight_reg, regularised. destruct (fc_weight c) as [w|].
  - split; [eauto|]. intros [w' [H1 H2]]. apply Some_inj in H1; subst; auto.
  - split; [discriminate|]. intros [w [H _]]. discriminate.
Qed.

Lemma joint_reg : forall c, weight_reg (joint_defaults c) = weight_reg c.
Proof.
  intros [m [[f s r]|] sy co]; unfold joint_defaults, weight_reg, default; cbn; auto.
  destruct f; auto.
Qed.

Lemma joint_fwhm : forall c, weight_fwhm (joint_defaults c) =
  Ok (match weight_fwhm c with Ok f => f | Raise _ => (12 # 10) end).
Proof.
  intros [m [[f s r]|] sy co]; unfold joint_defaults, weight_fwhm, default; cbn; auto.
  destruct f; auto.
Qed.

Lemma in_moment : forall m, In m moment_models <->
  String.eqb m "wmom" = true \/ (String.eqb m "ksigma" || String.eqb m "pgauss") = true.
Proof.
  intros m. unfold moment_models. rewrite orb_true_iff, !String.eqb_eq. cbn. intuition auto.
Qed.
Lemma in_joint : forall m, In m joint_models <->
  (String.eqb m "admom" || String.eqb m "am" || String.eqb m "gauss") = true.
Proof.
  intros m. unfold joint_models. rewrite !orb_true_iff, !String.eqb_eq. cbn. intuition auto.
Qed.
Lemma moment_not_joint : forall m, In m moment_models -> In m joint_models -> False.
Proof. intros m H1 H2. unfold moment_models, joint_models in *. cbn in *. intuition (subst; discriminate). Qed.

(** The four possible behaviours of _get_fitter. *)
Lemma get_fitter_moment : forall c, let m := default "wmom" (fc_model c) in
  In m moment_models -> forall f, weight_fwhm c = Ok f ->
  get_fitter c = Ok (mkFitter m (weight_reg c) (Some f)
     (if String.eqb m "wmom" then None else weight_smooth c) f (default 0%Q (weight_reg c)) true
     (default true (fc_symm c)) false, c).
Proof.
  intros c m Hm f Hf. unfold get_fitter. fold m. apply in_moment in Hm.
  destruct (String.eqb m "wmom") eqn:E1.
  - rewrite Hf. cbn [obind]. destruct (weight_reg c); cbn [obind]; rewrite Hf; reflexivity.
  - destruct Hm as [Hm|Hm]; [discriminate|]. rewrite Hm, Hf. cbn [obind].
    destruct (weight_reg c); cbn [obind]; rewrite Hf; reflexivity.
Qed.

Lemma get_fitter_moment_err : forall c, let m := default "wmom" (fc_model c) in
  In m moment_models -> (forall f, weight_fwhm c <> Ok f) -> get_fitter c = Raise KeyError.
Proof.
  intros c m Hm Hf. unfold get_fitter. fold m. apply in_moment in Hm.
  assert (Hk : weight_fwhm c = Raise KeyError).
  { unfold weight_fwhm in *. destruct (fc_weight c) as [w|]; auto. destruct (w_fwhm w); auto.
    exfalso. eapply Hf. reflexivity. }
  destruct (String.eqb m "wmom"); [now rewrite Hk|].
  destruct Hm as [Hm|Hm]; [discriminate|]. now rewrite Hm, Hk.
Qed.

Lemma get_fitter_joint : forall c, let m := default "wmom" (fc_model c) in
  In m joint_models ->
  get_fitter c = match weight_reg c with
    | Some _ => Raise AttributeError
    | None => Ok (mkFitter m None None None
                   (match weight_fwhm c with Ok f => f | Raise _ => (12 # 10) end) 0%Q false
                   (default true (fc_symm c)) (default false (fc_coadd c)), joint_defaults c)
    end.
Proof.
  intros c m Hm. unfold get_fitter. fold m.
  assert (N : ~ In m moment_models) by (intros H; eapply moment_not_joint; eauto).
  rewrite in_moment in N. apply in_joint in Hm.
  destruct (String.eqb m "wmom"); [exfalso; auto|].
  destruct (String.eqb m "ksigma" || String.eqb m "pgauss"); [exfalso; auto|].
  rewrite Hm. cbn [obind]. rewrite joint_reg.
  destruct (weight_reg c); cbn [obind]; auto. rewrite joint_fwhm. reflexivity.
Qed.

Lemma get_fitter_bad : forall c, let m := default "wmom" (fc_model c) in
  ~ In m moment_models -> ~ In m joint_models -> get_fitter c = Raise ValueError.
Proof.
  intros c m H1 H2. unfold get_fitter. fold m. rewrite in_moment in H1. rewrite in_joint in H2.
  destruct (String.eqb m "wmom"); [exfalso; auto|].
  destruct (String.eqb m "ksigma" || String.eqb m "pgauss"); [exfalso; auto|].
  destruct (String.eqb m "admom" || String.eqb m "am" || String.eqb m "gauss"); [exfalso; auto|].
  reflexivity.
Qed.

Lemma models_dec : forall m, In m moment_models \/ In m joint_models \/
  (~ In m moment_models /\ ~ In m joint_models).
Proof.
  intros m. destruct (in_dec string_dec m moment_models); auto.
  destruct (in_dec string_dec m joint_models); auto.
Qed.

Lemma fwhm_dec : forall c, (exists f, weight_fwhm c = Ok f) \/ weight_fwhm c = Raise KeyError.
Proof.
  intros c. unfold weight_fwhm. destruct (fc_weight c) as [w|]; auto. destruct (w_fwhm w); eauto.
Qed.

Lemma get_fitter_usable : forall c, (exists r, get_fitter c = Ok r) <-> usable_fitter c.
Proof.
  intros c. unfold usable_fitter. set (m := default "wmom" (fc_model c)). split.
  - intros [r H]. exists m. split; [now apply asks_for_default|].
    destruct (models_dec m) as [Hm|[Hm|[H1 H2]]].
    + left. split; auto. destruct (fwhm_dec c) as [[f Hf]|Hf].
      * exists f. now apply weight_fwhm_spec.
      * rewrite get_fitter_moment_err in H; auto; try discriminate.
        intros f E. rewrite Hf in E. discriminate.
    + right. split; auto. rewrite get_fitter_joint in H by auto.
      intros q Hq. apply weight_reg_spec in Hq. rewrite Hq in H. discriminate.
    + rewrite get_fitter_bad in H; auto; discriminate.
  - intros [m' [Ha [[Hm [f Hf]]|[Hm Hr]]]]; apply asks_for_default in Ha; subst m'.
    + apply weight_fwhm_spec in Hf. rewrite (get_fitter_moment c Hm f Hf). eauto.
    + rewrite (get_fitter_joint c Hm). destruct (weight_reg c) eqn:E; [|eauto].
      exfalso. apply (Hr q). now apply weight_reg_spec.
Qed.

Lemma get_fitter_for : forall c f c', get_fitter c = Ok (f, c') -> fitter_for c f.
Proof.
  intros c f c' H. set (m := default "wmom" (fc_model c)).
  destruct (models_dec m) as [Hm|[Hm|[H1 H2]]].
  - assert (N : ~ In m joint_models) by (intros X; eapply moment_not_joint; eauto).
    destruct (fwhm_dec c) as [[q Hq]|Hq].
    + rewrite (get_fitter_moment c Hm q Hq) in H. apply Ok_inj in H. apply pair_equal_spec in H.
      destruct H as [Hf Hc]. subst f c'. unfold fitter_for.
      cbn [fi_base fi_wavg fi_fwhm fi_aper fi_reg fi_suffix fi_symm fi_coadd]. fold m.
      repeat split; try (now apply asks_for_default); auto; try discriminate; try tauto.
      * intros w Hw. apply weight_fwhm_spec in Hw. congruence.
      * exfalso. eapply (H q). now apply weight_fwhm_spec.
      * exfalso. eapply (H q). now apply weight_fwhm_spec.
      * apply weight_reg_spec in H. rewrite H. reflexivity.
      * apply weight_reg_spec in H. now rewrite H.
      * destruct (weight_reg c) eqn:E; auto. exfalso. eapply (H q0). now apply weight_reg_spec.
      * destruct (weight_reg c) eqn:E; auto. exfalso. eapply (H q0). now apply weight_reg_spec.
    + rewrite get_fitter_moment_err in H; auto; try discriminate. intros q E. rewrite Hq in E. discriminate.
  - assert (N : ~ In m moment_models) by (intros X; eapply moment_not_joint; eauto).
    rewrite (get_fitter_joint c Hm) in H. destruct (weight_reg c) eqn:E; [discriminate|].
    apply Ok_inj in H. apply pair_equal_spec in H. destruct H as [Hf Hc]. subst f c'. unfold fitter_for.
    cbn [fi_base fi_wavg fi_fwhm fi_aper fi_reg fi_suffix fi_symm fi_coadd]. fold m.
    repeat split; try (now apply asks_for_default); auto; try discriminate; try tauto.
    + intros w Hw. apply weight_fwhm_spec in Hw. now rewrite Hw.
    + destruct (fwhm_dec c) as [[q Hq]|Hq]; [|now rewrite Hq]. exfalso. apply (H q). now apply weight_fwhm_spec.
    + apply weight_reg_spec in H. congruence.
    + apply weight_reg_spec in H. congruence.
  - rewrite get_fitter_bad in H; auto; discriminate.
Qed.

(** The dictionary left behind: only a missing weight or aperture is filled in. *)
Lemma top_given_spec : forall c, top_given c = true <-> some_top_entry c.
Proof.
  intros [[m|] [w|] [s|] [co|]]; unfold some_top_entry; cbn; split; intros; auto; try discriminate;
    try (left; discriminate); try (right; left; discriminate); try (right; right; left; discriminate);
    try (right; right; right; discriminate).
  destruct H as [H|[H|[H|H]]]; congruence.
Qed.

Lemma omap_usable : forall l, (exists r, omap get_fitter l = Ok r) <-> Forall usable_fitter l.
Proof.
  induction l as [|c l IH].
  - split; [constructor|]. intros _. now exists [].
  - cbn [omap]. split.
    + intros [r H]. destruct (get_fitter c) as [x|] eqn:E; [|discriminate]. cbn [obind] in H.
      destruct (omap get_fitter l) as [y|] eqn:E2; [|discriminate]. constructor.
      * apply get_fitter_usable. eauto.
      * apply IH. eauto.
    + intros H. inversion H; subst. apply get_fitter_usable in H2. destruct H2 as [x ->].
      apply IH in H3. destruct H3 as [y ->]. cbn [obind]. eauto.
Qed.

Lemma omap_for : forall l r, omap get_fitter l = Ok r -> Forall2 fitter_for l (map fst r).
Proof.
  induction l as [|c l IH]; intros r H; cbn [omap] in H.
  - apply Ok_inj in H; subst. constructor.
  - destruct (get_fitter c) as [[f c']|] eqn:E; [|discriminate]. cbn [obind] in H.
    destruct (omap get_fitter l) as [y|] eqn:E2; [|discriminate]. cbn [obind] in H.
    apply Ok_inj in H; subst. cbn [map fst]. constructor; auto. eapply get_fitter_for; eauto.
Qed.

Lemma set_fitter_ok : forall cfg,
  (exists r, set_fitter cfg = Ok r) <->
  match cf_fitters cfg with
  | Some l => ~ some_top_entry (cf_top cfg) /\ Forall usable_fitter l
  | None => usable_fitter (cf_top cfg)
  end.
Proof.
  intros cfg. unfold set_fitter. destruct (cf_fitters cfg) as [l|].
  - rewrite <- top_given_spec. destruct (top_given (cf_top cfg)).
    + split; [intros [r H]; discriminate|intros [H _]; congruence].
    + rewrite <- omap_usable. destruct (omap get_fitter l) as [y|]; cbn [obind].
      * split; [split; [discriminate|eauto]|eauto].
      * split; [intros [r H]; discriminate|]. intros [_ [r H]]. discriminate.
  - rewrite <- get_fitter_usable. destruct (get_fitter (cf_top cfg)); cbn [obind].
    + split; eauto.
    + split; intros [r H]; discriminate.
Qed.

Lemma construct_ok : forall cfg nband keyf cobs sa da,
  (exists m, construct cfg nband keyf cobs sa da = Ok m) <-> usable_config cfg keyf cobs.
Proof.
  intros cfg nband keyf cobs sa da. unfold usable_config, construct. rewrite <- set_fitter_ok.
  destruct (cf_metacal cfg); cbn [negb]; [|split; [intros [m H]|intros [H _]]; discriminate].
  destruct (cf_meds cfg); cbn [negb]; [|split; [intros [m H]|intros [_ [H _]]]; discriminate].
  destruct keyf, cobs; cbn [andb orb negb];
    try (split; [intros [m H]; discriminate|intros (_ & _ & H & _); discriminate]).
  - destruct (set_fitter cfg); cbn [obind]; split; eauto.
    + intros [m H]; discriminate.
    + intros (_ & _ & _ & r & H); discriminate.
  - destruct (set_fitter cfg); cbn [obind]; split; eauto.
    + intros [m H]; discriminate.
    + intros (_ & _ & _ & r & H); discriminate.
Qed.

Lemma construct_inv : forall cfg nband keyf cobs sa da m,
  construct cfg nband keyf cobs sa da = Ok m -> exists r, set_fitter cfg = Ok r /\
    m = mkMdet (default 0 (cf_nodet cfg)) (fst r) (default [zrange nband] sa)
          (match da with DetNone => repeat (zrange nband) (List.length (default [zrange nband] sa))
                       | DetShear => default [zrange nband] sa | DetList l => l end) (snd r).
Proof.
  intros cfg nband keyf cobs sa da m H. unfold construct in H.
  destruct (negb (cf_metacal cfg)); [discriminate|]. destruct (negb (cf_meds cfg)); [discriminate|].
  destruct ((cobs && negb keyf) || (negb cobs && keyf)); [discriminate|].
  destruct (set_fitter cfg) as [r|]; [|discriminate]. cbn [obind] in H. apply Ok_inj in H; subst. eauto.
Qed.

Lemma set_fitter_for : forall cfg r, set_fitter cfg = Ok r ->
  Forall2 fitter_for (fitter_configs cfg) (fst r).
Proof.
  intros cfg r H. unfold set_fitter, fitter_configs in *. destruct (cf_fitters cfg) as [l|].
  - destruct (top_given (cf_top cfg)); [discriminate|].
    destruct (omap get_fitter l) as [y|] eqn:E; [|discriminate]. cbn [obind] in H. apply Ok_inj in H; subst.
    cbn [fst]. now apply omap_for.
  - destruct (get_fitter (cf_top cfg)) as [[f c]|] eqn:E; [|discriminate]. cbn [obind] in H.
    apply Ok_inj in H; subst. cbn [fst]. constructor; [eapply get_fitter_for; eauto|constructor].
Qed.

Lemma construct_for : forall cfg nband keyf cobs sa da m,
  construct cfg nband keyf cobs sa da = Ok m ->
  Forall2 fitter_for (fitter_configs cfg) (md_fitters m).
Proof.
  intros cfg nband keyf cobs sa da m H. apply construct_inv in H. destruct H as [r [H ->]].
  cbn [md_fitters]. now apply set_fitter_for.
Qed.

(** Which exception. *)
Lemma construct_errors : forall cfg nband keyf cobs sa da e,
  construct cfg nband keyf cobs sa da = Raise e ->
  (e = AssertionError /\ (cf_metacal cfg = false \/ cf_meds cfg = false)) \/
  (e = RuntimeError /\ (keyf <> cobs \/ (cf_fitters cfg <> None /\ some_top_entry (cf_top cfg)))) \/
  (exists c m, In c (fitter_configs cfg) /\ asks_for c m /\
     ((e = ValueError /\ ~ In m moment_models /\ ~ In m joint_models) \/
      (e = KeyError /\ In m moment_models /\ no_aperture c) \/
      (e = AttributeError /\ In m joint_models /\ exists r, regularised c r))).
Proof.
  assert (G : forall c e, get_fitter c = Raise e -> exists m, asks_for c m /\
     ((e = ValueError /\ ~ In m moment_models /\ ~ In m joint_models) \/
      (e = KeyError /\ In m moment_models /\ no_aperture c) \/
      (e = AttributeError /\ In m joint_models /\ exists r, regularised c r))).
  { intros c e H. exists (default "wmom" (fc_model c)). split; [now apply asks_for_default|].
    destruct (models_dec (default "wmom" (fc_model c))) as [Hm|[Hm|[H1 H2]]].
    - right. left. destruct (fwhm_dec c) as [[q Hq]|Hq].
      + rewrite (get_fitter_moment c Hm q Hq) in H. discriminate.
      + assert (N : forall f, weight_fwhm c <> Ok f) by (intros f E; rewrite Hq in E; discriminate).
        rewrite (get_fitter_moment_err c Hm N) in H. repeat split; auto; try congruence.
        intros f Hf. apply weight_fwhm_spec in Hf. now apply N in Hf.
    - right. right. rewrite (get_fitter_joint c Hm) in H. destruct (weight_reg c) eqn:E; [|discriminate].
      repeat split; auto; try congruence. exists q. now apply weight_reg_spec.
    - left. rewrite (get_fitter_bad c H1 H2) in H. repeat split; auto; congruence. }
  intros cfg nband keyf cobs sa da e H. unfold construct in H.
  destruct (cf_metacal cfg); cbn [negb] in H; [|left; split; auto; congruence].
  destruct (cf_meds cfg); cbn [negb] in H; [|left; split; auto; congruence].
  destruct keyf, cobs; cbn [andb orb negb] in H;
    try (right; left; split; [congruence|left; discriminate]);
    unfold set_fitter, fitter_configs in *; destruct (cf_fitters cfg) as [l|].
  1,3: destruct (top_given (cf_top cfg)) eqn:ET;
      [right; left; cbn [obind] in H; split; [congruence|right; split; [discriminate|now apply top_given_spec]]|];
      right; right; destruct (omap get_fitter l) as [y|e'] eqn:E; [discriminate|]; cbn [obind] in H;
      assert (e' = e) by congruence; subst e'; clear - E G; induction l as [|c l IH]; [discriminate|];
      cbn [omap] in E; destruct (get_fitter c) as [f|e2] eqn:E1;
      [cbn [obind] in E; destruct (omap get_fitter l); [discriminate|]; cbn [obind] in E;
       destruct (IH E) as [c' [m [Hin Hr]]]; exists c', m; split; [now right|auto]
      |cbn [obind] in E; assert (e2 = e) by congruence; subst e2;
       destruct (G c e E1) as [m Hm]; exists c, m; split; [now left|auto]].
  1,2: right; right; destruct (get_fitter (cf_top cfg)) as [f|e2] eqn:E1; [discriminate|];
      cbn [obind] in H; assert (e2 = e) by congruence; subst e2;
      destruct (G _ e E1) as [m Hm]; exists (cf_top cfg), m; split; [now left|auto].
Qed.

(** The dictionaries left behind. *)
Lemma get_fitter_config : forall c f c', get_fitter c = Ok (f, c') ->
  (fi_wavg f = true -> c' = c) /\
  (forall w, has_aperture c w -> c' = c) /\
  (no_aperture c -> fi_wavg f = false -> c' = joint_defaults c).
Proof.
  intros c f c' H. destruct (models_dec (default "wmom" (fc_model c))) as [Hm|[Hm|[H1 H2]]].
  - destruct (fwhm_dec c) as [[q Hq]|Hq].
    + rewrite (get_fitter_moment c Hm q Hq) in H. apply Ok_inj in H. apply pair_equal_spec in H.
      destruct H as [Hf Hc]. subst f c'. cbn [fi_wavg]. repeat split; auto. intros _ X; discriminate X.
    + rewrite get_fitter_moment_err in H; auto; try discriminate. intros q E. rewrite Hq in E. discriminate.
  - rewrite (get_fitter_joint c Hm) in H. destruct (weight_reg c) eqn:E; [discriminate|].
    apply Ok_inj in H. apply pair_equal_spec in H. destruct H as [Hf Hc]. subst f c'. cbn [fi_wavg].
    repeat split; auto; try discriminate.
    intros w [ww [A B]]. unfold joint_defaults. destruct c as [m wo s co]; cbn in *. subst wo. cbn.
    rewrite B. reflexivity.
  - rewrite get_fitter_bad in H; auto; discriminate.
Qed.

Lemma omap_same_config : forall l r, omap get_fitter l = Ok r ->
  (forall c, In c l -> exists w, has_aperture c w) -> map snd r = l.
Proof.
  induction l as [|c l IH]; intros r H Ha; cbn [omap] in H.
  - apply Ok_inj in H; now subst.
  - destruct (get_fitter c) as [[f c']|] eqn:E; [|discriminate]. cbn [obind] in H.
    destruct (omap get_fitter l) as [y|] eqn:E2; [|discriminate]. cbn [obind] in H.
    apply Ok_inj in H; subst. cbn [map snd]. destruct (Ha c (or_introl eq_refl)) as [w Hw].
    destruct (get_fitter_config c f c' E) as (_ & H2 & _). rewrite (H2 w Hw). f_equal.
    apply IH; auto. intros d Hd. apply Ha. now right.
Qed.

Lemma construct_same_config : forall cfg nband keyf cobs sa da m,
  construct cfg nband keyf cobs sa da = Ok m ->
  (forall c, In c (fitter_configs cfg) -> exists w, has_aperture c w) -> md_config m = cfg.
Proof.
  intros cfg nband keyf cobs sa da m H Ha. apply construct_inv in H. destruct H as [r [H ->]].
  cbn [md_config]. unfold set_fitter, fitter_configs in *. destruct cfg as [a b c fi top].
  cbn [cf_fitters cf_top cf_metacal cf_meds cf_nodet] in *. destruct fi as [l|].
  - destruct (top_given top); [discriminate|]. destruct (omap get_fitter l) as [y|] eqn:E; [|discriminate].
    cbn [obind] in H. apply Ok_inj in H; subst. cbn [snd]. f_equal. f_equal. now apply omap_same_config.
  - destruct (get_fitter top) as [[f c']|] eqn:E; [|discriminate]. cbn [obind] in H. apply Ok_inj in H; subst.
    cbn [snd]. f_equal. destruct (Ha top (or_introl eq_refl)) as [w Hw].
    destruct (get_fitter_config top f c' E) as (_ & H2 & _). now apply (H2 w).
Qed.
