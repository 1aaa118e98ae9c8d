(** C65, C73. *)
From Coq Require Import ZArith QArith List String Bool Lia.
From Verif Require Import Base Dict Lutil_model Lutil_spec Lthr_model Lthr_spec Lthr_proofs.
Import ListNotations.
Local Open Scope string_scope.
Local Open Scope Z_scope.

(** C65. run_metadetect: the threshold of the user's detection section, or else the
    default of the stack, is used to detect and to subtract the sky, unless it is
    zero. *)
Theorem C65_metadetect_partial : forall stack d sky det, stack_ok stack -> distinct_keys (ODict d) -> one_name d ->
  metadetect_configs stack (Some d) = Ok (sky, det) ->
  exists t used,
    (forall a, user_threshold d = Some a -> t = a) /\
    (untouched (ODict (unalias d)) ["detect"; "thresholdValue"] -> value_at stack ["thresholdValue"] = Some t) /\
    used_for t used /\
    value_at det ["detect"; "thresholdValue"] = Some used /\
    forall s, sky = Some s -> value_at s ["iterate_detection_and_skysub"; "detect"; "thresholdValue"] = Some used.
Proof.
  intros stack d sky det S D ON H. destruct (metadetect_thresh stack d sky det S D ON H) as (t & deb & ss & A & B & _ & _ & _ & _ & C & _ & _ & E & F).
  exists t, (if truthy t then t else AFloat 5). split; [exact A|]. split; [exact B|]. split; [apply used_effective|]. split; [exact C|]. intros s ->. destruct (truthy ss) eqn:T; [destruct (F eq_refl) as (s' & E1 & E2); injection E1 as <-; exact E2|].
  discriminate (E eq_refl).
Qed.
Print Assumptions C65_metadetect_partial.
(** The sky is subtracted exactly when the user asks for it. *)
Theorem C65_subtract_sky : forall stack d sky det, stack_ok stack -> distinct_keys (ODict d) -> one_name d ->
  metadetect_configs stack (Some d) = Ok (sky, det) ->
  (forall a, given (ODict d) ["subtract_sky"] = Some a -> (sky <> None <-> ~ false_value a)) /\
  (sget "subtract_sky" d = None -> sky = None).
Proof.
  intros stack d sky det S D ON H. destruct (metadetect_thresh stack d sky det S D ON H) as (t & deb & ss & _ & _ & _ & _ & A & B & _ & _ & _ & E & F).
  split.
  - intros a G. rewrite <- (A a G), <- truthy_true. destruct (truthy ss) eqn:T.
    + destruct (F eq_refl) as (s & -> & _). split; [reflexivity|discriminate].
    + rewrite (E eq_refl). split; [tauto|discriminate].
  - intros N. rewrite (B N) in E. now apply E.
Qed.
Print Assumptions C65_subtract_sky.
(** get_detect_and_deblend_task called with a threshold and a dictionary of
    settings: the threshold argument, and every other setting of the dictionary. *)
Theorem C65_task : forall stack t deb d, stack_ok stack -> ~ false_value t -> distinct_keys (ODict d) ->
  (forall l, sget "detect" d = Some (ODict l) -> ~ In "thresh" (skeys l)) ->
  forall u c, detect_and_deblend_config stack t deb (Some d) = (u, Ok c) ->
  value_at c ["detect"; "thresholdValue"] = Some t /\
  (forall p a, given (ODict d) p = Some a -> last p "" <> "stamp_size" -> firstn 2 p <> ["detect"; "thresholdValue"] -> value_at c p = Some a).
Proof. intros stack t deb d S T. apply truthy_true in T. exact (dd_thresh stack t deb d S T). Qed.
Print Assumptions C65_task.
(** With a threshold argument of zero or None: that of the dictionary, which is
    then left alone. *)
Theorem C65_task_no_threshold : forall stack t deb d, stack_ok stack -> false_value t -> distinct_keys (ODict d) -> one_name d ->
  forall u c, detect_and_deblend_config stack t deb (Some d) = (u, Ok c) ->
  u = Some d /\
  (forall a, user_threshold d = Some a -> value_at c ["detect"; "thresholdValue"] = Some a) /\
  (untouched (ODict (unalias d)) ["detect"; "thresholdValue"] -> value_at c ["detect"; "thresholdValue"] = Some (AFloat 5)).
Proof. intros stack t deb d S T. apply truthy_false in T. exact (dd_falsy stack t deb d S T). Qed.
Print Assumptions C65_task_no_threshold.
(** iterate_detection_and_skysub: threshold and number of iterations are those of
    the arguments; fewer than one iteration is refused. *)
Theorem C65_iterate : forall stack t n d u c, distinct_keys (ODict d) ->
  (forall l, sget "detect" d = Some (ODict l) -> ~ In "thresh" (skeys l)) ->
  iterate_config stack t n (Some d) = (u, Ok c) ->
  value_at c ["detect"; "thresholdValue"] = Some t /\ value_at c ["niter"] = Some (AInt n) /\ 1 <= n.
Proof. exact iterate_thresh. Qed.
Print Assumptions C65_iterate.
Theorem C65_iterate_refused : forall stack t n d, n < 1 -> iterate_config stack t n d = (d, Raise ValueError).
Proof. intros stack t n d H. unfold iterate_config. apply Z.ltb_lt in H. rewrite H. now destruct d. Qed.
Print Assumptions C65_iterate_refused.
(** run_photometry *)
Theorem C65_photometry_partial : forall stack t ss deb sky det, stack_ok stack -> photometry_configs stack t ss deb = Ok (sky, det) ->
  (exists used, used_for t used /\ value_at det ["detect"; "thresholdValue"] = Some used /\
     forall s, sky = Some s -> value_at s ["iterate_detection_and_skysub"; "detect"; "thresholdValue"] = Some used) /\
  (sky <> None <-> ~ false_value ss).
Proof.
  intros stack t ss deb sky det S H. unfold photometry_configs in H.
  destruct (if truthy ss then _ else _) as [sky0|] eqn:E5 in H; cbn [obind] in H; [|discriminate].
  destruct (detect_and_deblend_config stack t _ None) as [u [det0|e]] eqn:E6; cbn [snd obind] in H; [|discriminate].
  apply Ok_inj in H. apply pair_equal_spec in H. destruct H as [-> ->].
  rewrite <- truthy_true. destruct (truthy ss).
  - destruct (sky_config stack t None) as [u2 [s|e]] eqn:E7; cbn [snd obind] in E5; [|discriminate]. apply Ok_inj in E5. subst sky. split.
    + exists (if truthy t then t else AFloat 5). split; [apply used_effective|]. split; [exact (proj1 (dd_none stack t "sdss" u det S E6))|].
      intros s0 [= <-]. exact (sky_none stack t u2 s S E7).
    + split; [reflexivity|discriminate].
  - apply Ok_inj in E5. subst sky. split.
    + exists (if truthy t then t else AFloat 5). split; [apply used_effective|]. split; [exact (proj1 (dd_none stack t "sdss" u det S E6))|discriminate].
    + split; [tauto|discriminate].
Qed.
Print Assumptions C65_photometry_partial.

(** subtract_sky_mbexp called with a threshold and a dictionary of settings: the
    threshold argument, and the number of iterations of the dictionary or two. *)
Theorem C65_sky_task : forall stack t d, ~ false_value t -> distinct_keys (ODict d) ->
  (forall l, sget "detect" (sky_section d) = Some (ODict l) -> ~ In "thresh" (skeys l)) ->
  forall u c, sky_config stack t (Some d) = (u, Ok c) ->
  value_at c ["iterate_detection_and_skysub"; "detect"; "thresholdValue"] = Some t /\
  (forall a, given (ODict d) ["iterate_detection_and_skysub"; "niter"] = Some a -> value_at c ["iterate_detection_and_skysub"; "niter"] = Some a) /\
  (sget "niter" (sky_section d) = None -> value_at c ["iterate_detection_and_skysub"; "niter"] = Some (AInt 2)).
Proof. exact sky_task_thresh. Qed.
Print Assumptions C65_sky_task.
(** With a threshold argument of zero or None: that of the dictionary, under either
    name, or else five; the dictionary is left alone. *)
Theorem C65_sky_task_no_threshold : forall stack t d, stack_ok stack -> false_value t -> distinct_keys (ODict d) -> one_name (sky_section d) ->
  forall u c, sky_config stack t (Some d) = (u, Ok c) ->
  u = Some d /\
  (forall a, user_threshold (sky_section d) = Some a -> value_at c ["iterate_detection_and_skysub"; "detect"; "thresholdValue"] = Some a) /\
  (sget "detect" (sky_section d) = None -> (forall a, sget "iterate_detection_and_skysub" d <> Some (OLeaf a)) ->
     value_at c ["iterate_detection_and_skysub"; "detect"; "thresholdValue"] = Some (AFloat 5)).
Proof. exact sky_task_falsy. Qed.
Print Assumptions C65_sky_task_no_threshold.
(** run_metadetect: the other settings of the detection are the fixed ones,
    whatever the dictionary of the user says; those the package does not set are
    those of the stack. The background of the sky subtraction ignores the same mask
    planes as the detection's statistics. *)
Theorem C65_settings : forall stack d sky det, stack_ok stack -> metadetect_configs stack d = Ok (sky, det) ->
  (forall k a, In (k, a) fixed_settings -> value_at det ["detect"; k] = Some a) /\
  (forall k, ~ In k (map fst fixed_settings) -> k <> "thresholdValue" -> field det ["detect"; k] = field stack [k]) /\
  value_at det ["seed"] = Some (AInt 42) /\ value_at det ["deblend"; "maxFootprintArea"] = Some (AInt 0) /\
  (forall s, sky = Some s -> value_at s ["iterate_detection_and_skysub"; "back"; "ignoredPixelMask"] = sget "statsMask" fixed_settings).
Proof. exact metadetect_settings. Qed.
Print Assumptions C65_settings.
(** What [truthy] says of a value (also used in C86 and C87). *)
Theorem C65_truth : forall a, (truthy a = true <-> ~ false_value a) /\ (truthy a = false <-> false_value a) /\ used_for a (effective a).
Proof. intros a. split; [apply truthy_true|]. split; [apply truthy_false|]. apply used_effective. Qed.
Print Assumptions C65_truth.

(** A stack configuration to instantiate the theorems. *)
Definition ex_stack : cfg :=
  CNode [("thresholdValue", CLeaf (AFloat 5)); ("minPixels", CLeaf (AInt 1)); ("isotropicGrow", CLeaf (ABool true));
   ("combinedGrow", CLeaf (ABool true)); ("nSigmaToGrow", CLeaf (AFloat (24 # 10))); ("returnOriginalFootprints", CLeaf (ABool false));
   ("includeThresholdMultiplier", CLeaf (AFloat 1)); ("thresholdPolarity", CLeaf (AStr "positive")); ("adjustBackground", CLeaf (AFloat 0));
   ("doApplyFlatBackgroundRatio", CLeaf (ABool false)); ("nPeaksMaxSimple", CLeaf (AInt 1)); ("nSigmaForKernel", CLeaf (AFloat 7));
   ("thresholdType", CLeaf (AStr "pixel_stdev")); ("reEstimateBackground", CLeaf (ABool true)); ("doBlah", CLeaf (ABool true));
   ("excludeMaskPlanes", CLeaf (ANames [])); ("statsMask", CLeaf (ANames ["BAD"]))].
Lemma ex_stack_ok : stack_ok ex_stack.
Proof. intros k a H. cbn in H. repeat (destruct H as [E|H]; [injection E as <- _; eexists; reflexivity|]). contradiction. Qed.

(** A threshold of zero is not used: five is. *)
Theorem C65_zero_refuted : exists stack d det, stack_ok stack /\ user_threshold d = Some (AFloat 0) /\
  metadetect_configs stack (Some d) = Ok (None, det) /\ value_at det ["detect"; "thresholdValue"] = Some (AFloat 5).
Proof.
  exists ex_stack, [("detect", ODict [("thresh", OLeaf (AFloat 0))])]. eexists. split; [exact ex_stack_ok|]. split; [reflexivity|]. split; reflexivity.
Qed.
Print Assumptions C65_zero_refuted.
(** The other detection options of the user are accepted and not used. *)
Theorem C65_other_options_refuted : exists stack d det, stack_ok stack /\ given (ODict d) ["detect"; "minPixels"] = Some (AInt 9) /\
  metadetect_configs stack (Some d) = Ok (None, det) /\ value_at det ["detect"; "minPixels"] = Some (AInt 1).
Proof.
  exists ex_stack, [("detect", ODict [("minPixels", OLeaf (AInt 9))])]. eexists. split; [exact ex_stack_ok|]. split; [reflexivity|]. split; reflexivity.
Qed.
Print Assumptions C65_other_options_refuted.
(** A threshold in the dictionary is overridden by the default of the argument, and
    the dictionary of the caller is changed; the same for subtract_sky_mbexp. *)
Theorem C65_dictionary_refuted : exists stack d u c, stack_ok stack /\ user_threshold d = Some (AFloat 10) /\
  detect_and_deblend_config stack DEFAULT_THRESH "sdss" (Some d) = (Some u, Ok c) /\
  value_at c ["detect"; "thresholdValue"] = Some (AFloat 5) /\ user_threshold u = Some (AFloat 5).
Proof.
  exists ex_stack, [("detect", ODict [("thresholdValue", OLeaf (AFloat 10))])]. do 2 eexists. split; [exact ex_stack_ok|].
  split; [reflexivity|]. split; [reflexivity|]. split; reflexivity.
Qed.
Print Assumptions C65_dictionary_refuted.
Theorem C65_sky_dictionary_refuted : exists stack d u c, stack_ok stack /\
  sky_config stack DEFAULT_THRESH (Some d) = (Some u, Ok c) /\ u <> d /\
  given (ODict d) ["iterate_detection_and_skysub"; "detect"; "thresholdValue"] = Some (AFloat 10) /\
  value_at c ["iterate_detection_and_skysub"; "detect"; "thresholdValue"] = Some (AFloat 5).
Proof.
  exists ex_stack, [("iterate_detection_and_skysub", ODict [("detect", ODict [("thresholdValue", OLeaf (AFloat 10))])])]. do 2 eexists. split; [exact ex_stack_ok|].
  split; [reflexivity|]. split; [discriminate|]. split; reflexivity.
Qed.
Print Assumptions C65_sky_dictionary_refuted.
Definition ex_user : items := [("subtract_sky", OLeaf (ABool true)); ("deblender", OLeaf (AStr "scarlet")); ("detect", ODict [("thresh", OLeaf (AFloat 8))])].
Lemma ex_user_ok : distinct_keys (ODict ex_user) /\ one_name ex_user.
Proof.
  split.
  - constructor; [repeat (constructor; [cbn; intuition discriminate|]); constructor|].
    intros k o [E|[E|[E|[]]]]; injection E as <- <-; try constructor; [repeat (constructor; [cbn; intuition discriminate|]); constructor|].
    intros k o [E|[]]. injection E as <- <-. constructor.
  - intros l E [_ C]. cbn in E. injection E as <-. cbn in C. intuition discriminate.
Qed.
Example C65_example : stack_ok ex_stack /\ distinct_keys (ODict ex_user) /\ one_name ex_user /\
  exists s det, metadetect_configs ex_stack (Some ex_user) = Ok (Some s, det) /\
    value_at det ["detect"; "thresholdValue"] = Some (AFloat 8) /\
    value_at s ["iterate_detection_and_skysub"; "detect"; "thresholdValue"] = Some (AFloat 8).
Proof.
  split; [exact ex_stack_ok|]. split; [apply ex_user_ok|]. split; [apply ex_user_ok|]. do 2 eexists. split; [reflexivity|]. split; reflexivity.
Qed.

Definition ex_sky_user (l : items) : items := [("iterate_detection_and_skysub", ODict [("detect", ODict l); ("niter", OLeaf (AInt 3))])].
Example C65_sky_example :
  (~ false_value (AFloat 8) /\ distinct_keys (ODict (ex_sky_user [("thresholdValue", OLeaf (AFloat 7))])) /\
   (forall l, sget "detect" (sky_section (ex_sky_user [("thresholdValue", OLeaf (AFloat 7))])) = Some (ODict l) -> ~ In "thresh" (skeys l)) /\
   exists u c, sky_config ex_stack (AFloat 8) (Some (ex_sky_user [("thresholdValue", OLeaf (AFloat 7))])) = (u, Ok c)) /\
  (false_value ANone /\ distinct_keys (ODict (ex_sky_user [("thresh", OLeaf (AFloat 7))])) /\ one_name (sky_section (ex_sky_user [("thresh", OLeaf (AFloat 7))])) /\
   user_threshold (sky_section (ex_sky_user [("thresh", OLeaf (AFloat 7))])) = Some (AFloat 7) /\
   exists u c, sky_config ex_stack ANone (Some (ex_sky_user [("thresh", OLeaf (AFloat 7))])) = (u, Ok c)).
Proof.
  assert (D : forall k, distinct_keys (ODict (ex_sky_user [(k, OLeaf (AFloat 7))]))).
  { intro k. constructor; [repeat (constructor; [cbn; intuition discriminate|]); constructor|].
    intros k0 o [E|[]]. injection E as <- <-. constructor; [repeat (constructor; [cbn; intuition discriminate|]); constructor|].
    intros k0 o [E|[E|[]]]; injection E as <- <-; [|constructor]. constructor; [repeat (constructor; [cbn; intuition discriminate|]); constructor|].
    intros k0 o [E|[]]. injection E as <- <-. constructor. }
  split.
  - split; [apply truthy_true; reflexivity|]. split; [apply D|]. split; [intros l E; cbn in E; injection E as <-; cbn; intuition discriminate|].
    do 2 eexists. reflexivity.
  - split; [constructor|]. split; [apply D|]. split; [intros l E [_ C]; cbn in E; injection E as <-; cbn in C; intuition discriminate|].
    split; [reflexivity|]. do 2 eexists. reflexivity.
Qed.

(** C73. run_metadetect uses the deblender of the configuration: only the scarlet
    deblender has the setting processSingles. *)
Theorem C73_metadetect : forall stack d sky det, stack_ok stack -> distinct_keys (ODict d) -> one_name d ->
  metadetect_configs stack (Some d) = Ok (sky, det) ->
  (forall s, given (ODict d) ["deblender"] = Some (AStr s) ->
     (s = "scarlet" <-> value_at det ["deblend"; "processSingles"] = Some (ABool true)) /\
     (s <> "scarlet" <-> field det ["deblend"; "processSingles"] = None)) /\
  (sget "deblender" d = None -> field det ["deblend"; "processSingles"] = None).
Proof.
  intros stack d sky det S D ON H. destruct (metadetect_thresh stack d sky det S D ON H) as (t & deb & ss & _ & _ & A & B & _ & _ & _ & F & _).
  assert (G : forall k, field det ["deblend"; k] = field (dd_defaults stack (str_of deb)) ["deblend"; k]).
  { intros k. cbn [field] in F |- *. cbn in F. destruct (cget det "deblend"); [|discriminate]. injection F as ->. reflexivity. }
  unfold value_at. rewrite !G. split.
  - intros s E. rewrite (A _ E). cbn. destruct (String.eqb_spec s "scarlet") as [->|N]; cbn; (split; split; intuition congruence).
  - intros E. rewrite (B E). reflexivity.
Qed.
Print Assumptions C73_metadetect.
(** Whatever the settings are: the task of run_photometry is always the one for sdss. *)
Theorem C73_photometry_sdss : forall stack t ss deb sky det, stack_ok stack -> photometry_configs stack t ss deb = Ok (sky, det) ->
  field det ["deblend"; "processSingles"] = None.
Proof.
  intros stack t ss deb sky det S H. unfold photometry_configs in H.
  destruct (if truthy ss then _ else _) as [sky0|] in H; cbn [obind] in H; [|discriminate].
  destruct (detect_and_deblend_config stack t _ None) as [u [det0|e]] eqn:E6; cbn [snd obind] in H; [|discriminate].
  apply Ok_inj in H. apply pair_equal_spec in H. destruct H as [-> ->].
  destruct (dd_none stack t "sdss" u det S E6) as (_ & _ & _ & F). cbn [field] in F |- *. cbn in F.
  destruct (cget det "deblend"); [|discriminate]. injection F as ->. reflexivity.
Qed.
Print Assumptions C73_photometry_sdss.
(** run_photometry does not: the configuration accepts scarlet, the task is the one
    for sdss. *)
Definition ex_heap_scarlet : heap := (default_heap ++ [[("deblender", VAtom (AStr "scarlet"))]])%list.
Theorem C73_photometry_refuted : exists stack h u h' r det, stack_ok stack /\ get_config h (Some u) = (h', Ok r) /\
  option_of h' r "deblender" = Some (VAtom (AStr "scarlet")) /\
  photometry_configs stack (AFloat 5) (ABool false) (AStr "scarlet") = Ok (None, det) /\
  field det ["deblend"; "processSingles"] = None.
Proof.
  exists ex_stack, ex_heap_scarlet, 4%nat. do 3 eexists. split; [exact ex_stack_ok|]. split; [reflexivity|]. split; [reflexivity|]. split; reflexivity.
Qed.
Print Assumptions C73_photometry_refuted.
Example C73_example : exists s det, metadetect_configs ex_stack (Some ex_user) = Ok (s, det) /\
  given (ODict ex_user) ["deblender"] = Some (AStr "scarlet") /\ value_at det ["deblend"; "processSingles"] = Some (ABool true).
Proof. do 2 eexists. split; [reflexivity|]. split; reflexivity. Qed.
