(** Property C64: iterated detection and sky subtraction. *)
From Coq Require Import ZArith QArith List Bool Lia Lqa.
From Verif Require Import Base Arr Median Lsky_model Lsky_spec Lsky_proofs.
Import ListNotations.
Local Open Scope Z_scope.

(** C64: a run that returns a result did exactly niter iterations; the image is
    lowered by the sum of their backgrounds, the recorded level is the sum of
    their means, which is by how much the image's mean was lowered, and the result
    is that of the last detection. Without the detection's own re-estimate. *)
Theorem C64_accumulates_partial : forall Res back (detect : exposure -> img Z * (failure + Res * option (img Q))) niter e e' r,
  no_reestimate detect -> back_shape back ->
  run Res back detect niter e = (e', Ok (Some r)) ->
  exists l e1 sky, iterations back detect e l e1 /\ Z.of_nat (List.length l) = niter /\ 1 <= niter /\
    lowered_by (x_image e) (map fst l) (x_image e') /\
    x_bgmean e' = Some sky /\
    (sky == qsum (map (fun p => mean (fst p)) l))%Q /\
    (sky == mean (x_image e) - mean (x_image e'))%Q /\
    x_mask e' = x_mask e1 /\ exists l0 bg, l = (l0 ++ [(bg, r)])%list.
Proof.
  intros Res back detect niter e e' r NR BS H. destruct (run_success Res back detect NR niter e e' r H) as [L [l [e1 [sky [It [Len [-> [S R]]]]]]]].
  exists l, e1, sky. cbn [x_image x_mask x_bgmean]. assert (Im := iterations_image Res back detect _ _ _ It).
  split; [exact It|]. split; [exact Len|]. split; [exact L|]. split; [exact Im|]. split; [reflexivity|]. split; [exact S|]. split; [|split; [reflexivity|]].
  - rewrite (mean_lowered _ _ _ (iterations_shape Res back detect BS _ _ _ It) Im). rewrite S, map_map. reflexivity.
  - unfold last_res in R. destruct (rev l) as [|[bg r0] q] eqn:Rl; [discriminate|]. apply Some_inj in R. cbn in R. subst r0.
    exists (rev q), bg. rewrite <- (rev_involutive l), Rl. reflexivity.
Qed.
Print Assumptions C64_accumulates_partial.

(** C64: it does return a result when niter iterations can be made. *)
Theorem C64_succeeds : forall Res back (detect : exposure -> img Z * (failure + Res * option (img Q))) niter e l e1,
  no_reestimate detect -> 1 <= niter -> iterations back detect e l e1 -> Z.of_nat (List.length l) = niter ->
  exists e' r, run Res back detect niter e = (e', Ok (Some r)).
Proof. intros Res back detect niter e l e1 NR L It Len. exact (run_total Res back detect NR niter e l e1 L It Len). Qed.
Print Assumptions C64_succeeds.

(** C64: fewer than one iteration raises and changes nothing. *)
Theorem C64_niter : forall Res back (detect : exposure -> img Z * (failure + Res * option (img Q))) niter e, niter < 1 ->
  run Res back detect niter e = (e, Raise ValueError) /\
  iterate_detection_and_skysub Res back detect niter e = (e, Raise ValueError).
Proof.
  intros Res back detect niter e H. apply Z.ltb_lt in H. unfold iterate_detection_and_skysub, run. rewrite H. split; reflexivity.
Qed.
Print Assumptions C64_niter.

(** C64: with no result, a stack or task error stopped the run; the exposure has
    the iterations completed before, and the recorded level is that of the last
    background subtracted alone, or what it was before the run. *)
Theorem C64_failed : forall Res back (detect : exposure -> img Z * (failure + Res * option (img Q))) niter e e',
  no_reestimate detect ->
  run Res back detect niter e = (e', Ok None) ->
  exists l e1 f, iterations back detect e l e1 /\ Z.of_nat (List.length l) < niter /\ (f = StackError \/ f = TaskFailure) /\
    ((back e1 = inl f /\ e' = e1 /\ lowered_by (x_image e) (map fst l) (x_image e') /\
      (l = [] -> x_bgmean e' = x_bgmean e) /\ (forall l0 bg r, l = (l0 ++ [(bg, r)])%list -> x_bgmean e' = Some (mean bg))) \/
     (exists bg m, back e1 = inr bg /\ detect (mkX (lowered (x_image e1) bg) (x_mask e1) (Some (mean bg))) = (m, inl f) /\
      lowered_by (x_image e) (map fst l ++ [bg]) (x_image e') /\ x_mask e' = m /\ x_bgmean e' = Some (mean bg))).
Proof.
  intros Res back detect niter e e' NR H. destruct (run_none Res back detect NR niter e e' H) as [l [e1 [f [It [Len [Hf St]]]]]].
  exists l, e1, f. split; [exact It|]. split; [exact Len|]. split; [exact Hf|]. assert (Im := iterations_image Res back detect _ _ _ It).
  destruct St as [[A ->]|[bg [m [A [B ->]]]]].
  - left. split; [exact A|]. split; [reflexivity|]. split; [exact Im|]. assert (Bm := iterations_bgmean Res back detect _ _ _ It). split.
    + intros ->. exact Bm.
    + intros l0 bg r ->. rewrite rev_app_distr in Bm. exact Bm.
  - right. exists bg, m. split; [exact A|]. split; [exact B|]. split; [|split; reflexivity]. destruct Im as [I1 [I2 I3]].
    split; [exact I1|]. split; [exact I2|]. intros i j. cbn [x_image lowered imap2 px]. rewrite map_app, qsum_app, I3. cbn. ring.
Qed.
Print Assumptions C64_failed.

(** C64: an exception leaves the run only for fewer than one iteration, or when the
    background or the detection raised it and it is neither a stack nor a task
    error. *)
Theorem C64_raises : forall Res back (detect : exposure -> img Z * (failure + Res * option (img Q))) niter e e' x,
  no_reestimate detect -> run Res back detect niter e = (e', Raise x) ->
  (niter < 1 /\ x = ValueError /\ e' = e) \/
  exists l e1, iterations back detect e l e1 /\ Z.of_nat (List.length l) < niter /\
    ((back e1 = inl (OtherFailure x) /\ e' = e1) \/
     (exists bg m, back e1 = inr bg /\ e' = mkX (lowered (x_image e1) bg) m (Some (mean bg)) /\
        detect (mkX (lowered (x_image e1) bg) (x_mask e1) (Some (mean bg))) = (m, inl (OtherFailure x)))).
Proof.
  intros Res back detect niter e e' x NR H. destruct (run_raise Res back detect NR niter e e' x H) as [A|[l [e1 [A [B C]]]]]; [auto|].
  right. exists l, e1. split; [exact A|]. split; [exact B|]. unfold stopped in C.
  destruct C as [C|C]; [left; tauto|right]. destruct C as [bg [m C]]. exists bg, m. tauto.
Qed.
Print Assumptions C64_raises.

(** C64: the bands' exposures are treated separately and in order; a stack or task
    error in one does not keep the others from being treated, any other exception
    leaves the later ones untouched. *)
Theorem C64_bands : forall Res back (detect : exposure -> img Z * (failure + Res * option (img Q))) niter l l' o,
  run_bands Res back detect niter l = (l', o) ->
  (o = Ok tt -> l' = map (fun e => fst (run Res back detect niter e)) l) /\
  (forall x, o = Raise x -> exists a e b, l = (a ++ e :: b)%list /\ snd (run Res back detect niter e) = Raise x /\
    l' = (map (fun e => fst (run Res back detect niter e)) (a ++ [e]) ++ b)%list /\
    forall e, In e a -> exists r, snd (run Res back detect niter e) = Ok r).
Proof.
  intros Res back detect niter l l' o H. split.
  - intros ->. exact (proj1 (run_bands_ok Res back detect niter l l' H)).
  - intros x ->. exact (run_bands_raise Res back detect niter l l' x H).
Qed.
Print Assumptions C64_bands.

(** C64: the one-shot function lowers the image by the background it returns. *)
Theorem C64_one_shot : forall back e e' bg, determine_and_subtract_sky back e = (e', inr bg) ->
  back e = inr bg /\ lowered_by (x_image e) [bg] (x_image e') /\ x_bgmean e' = Some (mean bg) /\ x_mask e' = x_mask e.
Proof.
  intros back e e' bg. unfold determine_and_subtract_sky, run_back. destruct (back e) as [f|b] eqn:E; intros H; [discriminate|].
  cbn [fst] in H. apply pair_equal_spec in H. destruct H as [<- H]. inversion H; subst b. cbn [x_image x_mask x_bgmean].
  split; [reflexivity|]. split; [|split; reflexivity]. split; [reflexivity|]. split; [reflexivity|]. intros i j. cbn. ring.
Qed.
Print Assumptions C64_one_shot.

(** ** A concrete run: the background is half of the first pixel. *)
Definition half_back (e : exposure) : failure + img Q := inr (ifill (nr (x_image e)) (nc (x_image e)) (px (x_image e) 0 0 / 2)%Q).
Definition count_detect (e : exposure) : img Z * (failure + Z * option (img Q)) :=
  (ifill 2 2 (px (x_mask e) 0 0 + 1), inr (px (x_mask e) 0 0, None)).
Definition sky8 := mkX (ifill 2 2 8%Q) (ifill 2 2 0) None.
Example C64_example : exists e' sky,
  no_reestimate count_detect /\ back_shape half_back /\
  run Z half_back count_detect 3 sky8 = (e', Ok (Some 2)) /\ x_bgmean e' = Some sky /\ (sky == 7)%Q /\ (px (x_image e') 1 1 == 1)%Q.
Proof.
  destruct (run Z half_back count_detect 3 sky8) as [e' o] eqn:E. assert (E' := E). vm_compute in E'. 
  apply pair_equal_spec in E'. destruct E' as [<- <-]. eexists. eexists. split; [intros e m r bg H; inversion H; reflexivity|].
  split; [intros e bg H; inversion H; cbn; auto|].
  split; [reflexivity|]. split; [reflexivity|]. split; vm_compute; reflexivity.
Qed.

(** C64: with no result the recorded level is not what was subtracted. Here the
    second detection fails: the image was lowered by 6, 2 is recorded. *)
Definition failing_detect (e : exposure) : img Z * (failure + Z * option (img Q)) :=
  if px (x_mask e) 0 0 =? 1 then (x_mask e, inl TaskFailure) else count_detect e.
Theorem C64_failed_level_refuted : exists (back : exposure -> failure + img Q) (detect : exposure -> img Z * (failure + Z * option (img Q))) e e' sky,
  no_reestimate detect /\
  run Z back detect 2 e = (e', Ok None) /\ x_bgmean e' = Some sky /\ ~ (sky == mean (x_image e) - mean (x_image e'))%Q.
Proof.
  exists half_back, failing_detect, sky8, (fst (run Z half_back failing_detect 2 sky8)). eexists. split.
  - intros e m r bg. unfold failing_detect. destruct (px (x_mask e) 0 0 =? 1); intros H; inversion H; reflexivity.
  - split; [reflexivity|]. split; [reflexivity|]. vm_compute. discriminate.
Qed.
Print Assumptions C64_failed_level_refuted.

(** C64: when the detection re-estimates the background, which its configuration
    may ask for, that part of what was subtracted is not recorded. *)
Definition again_detect (e : exposure) : img Z * (failure + Z * option (img Q)) := (x_mask e, inr (0, Some (ifill 2 2 1%Q))).
Theorem C64_reestimate_refuted : exists (back : exposure -> failure + img Q) (detect : exposure -> img Z * (failure + Z * option (img Q))) e e' r sky,
  run Z back detect 2 e = (e', Ok (Some r)) /\ x_bgmean e' = Some sky /\ ~ (sky == mean (x_image e) - mean (x_image e'))%Q.
Proof.
  exists half_back, again_detect, sky8, (fst (run Z half_back again_detect 2 sky8)), 0. eexists.
  split; [reflexivity|]. split; [reflexivity|]. vm_compute. discriminate.
Qed.
Print Assumptions C64_reestimate_refuted.
