(** Proofs about Ldeb_model. *)
From Coq Require Import ZArith QArith Qcanon List String Bool Lia.
From Verif Require Import Base Arr Dict Lutil_model Lutil_spec Lexp_model Lthr_model Lthr_spec Lmdet_model Lmeas_model Lmeas_spec Lsub_model
  Lscar_model Lphot_model Lphot_spec Lrun_model Lrun_spec Lrun_proofs Ldeb_model Ldeb_spec.
From Verif Require Lmcal_model Lmcal_proofs.
Import ListNotations.
Local Open Scope string_scope.

Lemma omap_nth : forall A B (f : A -> outcome B) l m, omap f l = Ok m ->
  List.length m = List.length l /\ forall i a, nth_error l i = Some a -> exists b, nth_error m i = Some b /\ f a = Ok b.
Proof.
  intros A B f. induction l as [|a l IH]; intros m H; cbn [omap] in H.
  - apply Ok_inj in H. subst m. split; [reflexivity|]. intros [|i] a E; discriminate.
  - destruct (f a) as [b|] eqn:E; cbn [obind] in H; [|discriminate]. destruct (omap f l) as [m0|] eqn:E2; cbn [obind] in H; [|discriminate].
    apply Ok_inj in H. subst m. destruct (IH m0 eq_refl) as [L N]. split; [cbn; congruence|]. intros [|i] x X; cbn in X.
    + apply Some_inj in X. subst x. exists b. auto.
    + exact (N i x X).
Qed.
Lemma omap_works : forall A B (f : A -> outcome B) l, (forall a, exists b, f a = Ok b) -> exists m, omap f l = Ok m.
Proof.
  intros A B f l F. induction l as [|a l [m IH]]; [exists []; reflexivity|]. destruct (F a) as [b E]. exists (b :: m). cbn [omap].
  now rewrite E, IH.
Qed.

Section P.
Context {Dec : Type} (D : deblender Dec).
Lemma run_with_scarlet_ok : forall mb d cat sc, run_with_scarlet D mb d = Ok (cat, sc) ->
  (db_detect D d = Ok None /\ cat = [] /\ sc = None) \/
  exists found decs cat0 sc0, db_detect D d = Ok (Some found) /\ deconvolved_bands D found mb decs /\
    db_deblend D mb decs found = Ok (cat0, sc0) /\ db_attach D sc0 cat0 "i" = Ok cat /\ sc = Some sc0.
Proof.
  intros mb d cat sc H. unfold run_with_scarlet in H. destruct (db_detect D d) as [[found|]|] eqn:E; cbn [obind] in H; [| |discriminate].
  - right. destruct (make_deconvolved_mbexp D mb found) as [decs|] eqn:E1; cbn [obind] in H; [|discriminate].
    destruct (db_deblend D mb decs found) as [[cat0 sc0]|] eqn:E2; cbn [obind fst snd] in H; [|discriminate].
    destruct (db_attach D sc0 cat0 footprint_band) as [cat1|] eqn:E3; cbn [obind] in H; [|discriminate]. apply Ok_inj in H.
    apply pair_equal_spec in H. destruct H as [<- <-]. exists found, decs, cat0, sc0. split; [reflexivity|].
    split; [|auto]. unfold make_deconvolved_mbexp in E1. apply omap_nth in E1. destruct E1 as [L N]. split; [exact L|].
    intros i name e X. exact (N i _ X).
  - left. apply Ok_inj in H. apply pair_equal_spec in H. destruct H as [<- <-]. auto.
Qed.
Lemma run_works : forall mb d, works D -> In "i" (map fst mb) -> exists r, run_with_scarlet D mb d = Ok r.
Proof.
  intros mb d (W1 & W2 & W3 & W4) I. unfold run_with_scarlet. destruct (W1 d) as [[found|] E]; rewrite E; cbn [obind]; [|eauto].
  destruct (omap_works _ _ (fun ne => db_deconvolve D (snd ne) found (fst ne)) mb) as [decs E1]; [intros [n e]; apply W2|].
  unfold make_deconvolved_mbexp. rewrite E1. cbn [obind]. destruct (W3 mb decs found) as (cat0 & sc0 & E2 & Inc). rewrite E2. cbn [obind fst snd].
  destruct (W4 sc0 cat0 footprint_band) as [cat1 E3]; [apply Inc; exact I|]. rewrite E3. cbn [obind]. eauto.
Qed.
Lemma without_i : forall mb d r, models_of_bands D -> attaches_modelled D -> ~ In "i" (map fst mb) ->
  scarlet_found D mb d = Ok r -> db_detect D d = Ok None /\ r = None.
Proof.
  intros mb d r M A N H. unfold scarlet_found in H. destruct (run_with_scarlet D mb d) as [[cat sc]|] eqn:E; cbn [obind] in H; [|discriminate].
  apply Ok_inj in H. apply run_with_scarlet_ok in E. destruct E as [(E & -> & ->)|(found & decs & cat0 & sc0 & _ & _ & E2 & E3 & _)].
  - now subst r.
  - destruct N. exact (M _ _ _ _ _ E2 _ (A _ _ _ _ E3)).
Qed.
End P.

Section Run.
Context {Prof Dec : Type} (R : mrun Prof) (D : cfg -> deblender Dec).
Lemma measure_without_i : forall s shear names mc r,
  (forall c, models_of_bands (D c)) -> (forall c, attaches_modelled (D c)) -> ~ In "i" names -> s_deblender s = "scarlet" ->
  measure_type (with_deblender R D names) s shear names mc = Ok r -> r = None /\ exists c d, db_detect (D c) d = Ok None.
Proof.
  intros s shear names mc r M A N S H. unfold measure_type in H.
  destruct (snd (detect_and_deblend_config _ (s_thresh s) (s_deblender s) None)) as [c|] eqn:E in H; cbn [obind] in H; [|discriminate].
  rewrite S in H. cbn [String.eqb Ascii.eqb Bool.eqb] in H.
  match type of H with obind ?a _ = _ => destruct a as [[d|]|] eqn:E1; cbn [obind] in H; try discriminate end.
  cbn [with_deblender r_scarlet] in H. destruct (scarlet_found (D c) (combine names mc) d) as [found|] eqn:F; cbn [obind] in H; [|discriminate].
  apply without_i in F; auto.
  - destruct F as [F ->]. apply Ok_inj in H. subst r. eauto.
  - intro I. apply in_map_iff in I. destruct I as ([n e] & Q & I). cbn in Q. subst n. apply in_combine_l in I. contradiction.
Qed.
Lemma scarlet_without_i : forall user names bands noise mfracs ormasks gp bands1 res,
  (forall c, models_of_bands (D c)) -> (forall c, attaches_modelled (D c)) -> ~ In "i" names ->
  distinct_keys (ODict (given_items user)) -> one_name (given_items user) ->
  given (ODict (given_items user)) ["deblender"] = Some (AStr "scarlet") ->
  scarlet_metadetect R D user names bands noise mfracs ormasks gp = (bands1, Ok res) ->
  forall t tab, sget t res = Some (Table tab) -> tab = None /\ exists c d, db_detect (D c) d = Ok None.
Proof.
  intros user names bands noise mfracs ormasks gp bands1 res M A N Dk On G H t tab T. unfold scarlet_metadetect in H.
  destruct (run_ok _ _ _ _ _ _ _ _ _ _ H) as (s & dims & om & mf & ws & shear & p & d & nd & res0 & E1 & E2 & E3 & E4 & E5 & E6 & E7 & E8 & E9).
  destruct (read_config_ok _ user s Dk On E1) as [(_ & _ & (a & [Ga _] & Sd) & _) _]. rewrite (Ga _ G) in Sd. cbn [str_of] in Sd.
  pose proof (Lmcal_proofs.mbexps_fixnoise_nodup _ _ _ _ _ _ _ E7) as Nd.
  destruct (entries_ok _ s shear names om mf p d [] res0 Nd E8) as [En Eo].
  assert (T0 : sget t res0 = Some (Table tab)).
  { subst res. destruct gp; [|exact T]. rewrite sget_put in T. destruct (String.eqb t "psf_stats"); [discriminate|exact T]. }
  destruct (in_dec string_dec t (skeys d)) as [I|I]; [|rewrite (Eo t I) in T0; discriminate].
  apply sget_In in I. destruct I as [out I]. destruct (En t out I) as (r & tab' & Mt & G' & Fn). rewrite G' in T0.
  assert (tab' = tab) by congruence. subst tab'.
  destruct (measure_without_i _ _ _ _ _ M A N Sd Mt) as [-> X]. split; [exact Fn|exact X].
Qed.
End Run.
