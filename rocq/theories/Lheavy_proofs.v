From Coq Require Import ZArith QArith Qcanon List String Bool Lia.
From Verif Require Import Base Dict Lutil_model Lsub_model Lsub_spec Lsub_proofs Lheavy_model Lheavy_spec.
Import ListNotations.
Local Open Scope Z_scope.

Lemma norm_in : forall c x y, in_box (norm_box c) x y <-> in_box (Some c) x y.
Proof.
  intros c x y. unfold norm_box. destruct ((bx1 c <? bx0 c) || (by1 c <? by0 c)) eqn:E; [|reflexivity].
  apply orb_true_iff in E. rewrite !Z.ltb_lt in E. cbn. lia.
Qed.
Lemma clip_in : forall a b x y, in_box (clip_box a b) x y <-> in_box a x y /\ in_box b x y.
Proof.
  intros [a|] [b|] x y; cbn [clip_box]; try (cbn; tauto). rewrite norm_in. cbn. lia.
Qed.
Lemma grow2_in : forall dw dh b x y i j, - dw <= i <= dw -> - dh <= j <= dh -> in_box b (x - i) (y - j) -> in_box (grow2 dw dh b) x y.
Proof. intros dw dh [b|] x y i j Hi Hj H; [|destruct H]. cbn [grow2]. rewrite norm_in. cbn in *. lia. Qed.

Lemma qcsum_nonneg : forall l, (forall v, In v l -> 0 <= v)%Qc -> (0 <= qcsum l)%Qc.
Proof.
  induction l as [|v l IH]; intros H; [apply Qcle_refl|]. cbn [qcsum fold_right]. fold (qcsum l).
  replace 0%Qc with (0 + 0)%Qc by ring. apply Qcplus_le_compat; [apply H; now left | apply IH; intros w K; apply H; now right].
Qed.
Lemma qcsum_zero : forall l, (forall v, In v l -> v = 0%Qc) -> qcsum l = 0%Qc.
Proof.
  induction l as [|v l IH]; intros H; [reflexivity|]. cbn [qcsum fold_right]. fold (qcsum l). rewrite (H v), IH; [ring | | now left].
  intros w K. apply H. now right.
Qed.
(** The terms of a convolution. *)
Lemma convolution_terms : forall rw rh k m x y v,
  In v (flat_map (fun j => map (fun i => (k i j * m (x - i)%Z (y - j)%Z)%Qc) (zrange2 (- rw) (rw + 1))) (zrange2 (- rh) (rh + 1))) ->
  exists i j, - rw <= i <= rw /\ - rh <= j <= rh /\ v = (k i j * m (x - i)%Z (y - j)%Z)%Qc.
Proof.
  intros rw rh k m x y v H. apply in_flat_map in H. destruct H as (j & Hj & H). apply in_map_iff in H. destruct H as (i & <- & Hi).
  apply in_zrange2 in Hi. apply in_zrange2 in Hj. exists i, j. repeat split; lia.
Qed.
Lemma convolution_ext : forall rw rh k m m' x y,
  (forall i j, - rw <= i <= rw -> - rh <= j <= rh -> m (x - i)%Z (y - j)%Z = m' (x - i)%Z (y - j)%Z) ->
  convolution rw rh k m x y = convolution rw rh k m' x y.
Proof.
  intros rw rh k m m' x y H. unfold convolution. f_equal.
  assert (E : forall lj li, (forall j, In j lj -> - rh <= j <= rh) -> (forall i, In i li -> - rw <= i <= rw) ->
    flat_map (fun j => map (fun i => (k i j * m (x - i)%Z (y - j)%Z)%Qc) li) lj
    = flat_map (fun j => map (fun i => (k i j * m' (x - i)%Z (y - j)%Z)%Qc) li) lj).
  { induction lj as [|j lj IH]; intros li Hj Hi; [reflexivity|]. cbn [flat_map]. f_equal.
    - apply map_ext_in. intros i K. rewrite H; [reflexivity | apply Hi; exact K | apply Hj; now left].
    - apply IH; [intros j' K; apply Hj; now right | exact Hi]. }
  apply E; intros z Hz; apply in_zrange2 in Hz; lia.
Qed.

Lemma half_nonneg : forall ob, kernel_fits ob -> 0 <= fst (ob_psf_shape ob) / 2 /\ 0 <= snd (ob_psf_shape ob) / 2.
Proof. intros ob [[A B] [C D]]. lia. Qed.

(** In the box of the model the image is the complete model. *)
Lemma heavy_image_full : forall ob s band x y, kernel_fits ob -> inside ob s ->
  heavy_image ob s false band x y = full_model_at ob s band x y.
Proof.
  intros ob s band x y K I. unfold heavy_image, full_model_at. apply convolution_ext. intros i j Hi Hj. unfold boxed.
  destruct (in_boxb (so_box s) (x - i) (y - j)) eqn:E; [|destruct (in_boxb (heavy_box ob s false) (x - i) (y - j)); reflexivity].
  assert (B := proj1 (in_boxb_spec _ _ _) E).
  assert (O : in_box (heavy_box ob s false) (x - i) (y - j)).
  { unfold heavy_box. apply clip_in. split; [|apply I; exact B]. destruct (half_nonneg ob K).
    apply (grow2_in _ _ _ _ _ 0 0); [lia | lia |]. rewrite !Z.sub_0_r. exact B. }
  apply in_boxb_spec in O. rewrite O. reflexivity.
Qed.
(** Outside of it, but in the observation, the complete model is zero. *)
Lemma outside_zero : forall ob s band x y, kernel_fits ob -> in_box (ob_box ob) x y -> ~ in_box (heavy_box ob s false) x y ->
  full_model_at ob s band x y = 0%Qc.
Proof.
  intros ob s band x y K O N. unfold full_model_at, convolution. apply qcsum_zero. intros v Hv.
  apply (convolution_terms (fst (ob_half ob)) (snd (ob_half ob)) (ob_kernel ob band)
    (fun x y => if in_boxb (so_box s) x y then so_model s band x y else 0%Qc)) in Hv. destruct Hv as (i & j & Hi & Hj & ->).
  destruct (in_boxb (so_box s) (x - i) (y - j)) eqn:E; [|ring]. exfalso. apply N. apply in_boxb_spec in E.
  unfold heavy_box. apply clip_in. split; [|exact O]. destruct K as [[A B] [C D]].
  apply (grow2_in _ _ _ _ _ i j); [lia | lia | exact E].
Qed.

Lemma qcmax2_spec : forall a b, (a <= qcmax2 a b /\ b <= qcmax2 a b)%Qc /\ (qcmax2 a b = a \/ qcmax2 a b = b).
Proof.
  intros a b. unfold qcmax2. destruct (a ?= b)%Qc eqn:E.
  - apply Qceq_alt in E. subst b. repeat split; auto using Qcle_refl.
  - apply Qclt_alt in E. repeat split; auto using Qcle_refl. now apply Qclt_le_weak.
  - apply Qcgt_alt in E. repeat split; auto using Qcle_refl. now apply Qclt_le_weak.
Qed.
Lemma fold_max_spec : forall l a, (a <= fold_left qcmax2 l a)%Qc /\ (forall v, In v l -> (v <= fold_left qcmax2 l a)%Qc) /\
  In (fold_left qcmax2 l a) (a :: l).
Proof.
  induction l as [|b l IH]; intros a; cbn [fold_left]; [split; [apply Qcle_refl | split; [intros v [] | now left]]|].
  destruct (IH (qcmax2 a b)) as (A & B & C). destruct (qcmax2_spec a b) as ((D & E) & F). split; [now apply (Qcle_trans _ _ _ D)|].
  split.
  - intros v [<-|Hv]; [now apply (Qcle_trans _ _ _ E) | auto].
  - destruct C as [C|C]; [|right; now right]. rewrite <- C. destruct F as [F|F]; rewrite F; [now left | right; now left].
Qed.
Lemma qcmax_zero : forall l, l <> [] -> qcmax l = 0%Qc -> (forall v, In v l -> (v <= 0)%Qc) /\ In 0%Qc l.
Proof.
  intros [|a l] N H; [congruence|]. cbn [qcmax] in H. destruct (fold_max_spec l a) as (A & B & C). rewrite H in A, B, C.
  split; [|exact C]. intros v [<-|Hv]; auto.
Qed.

Lemma heavy_pixel : forall ob s band x y v, kernel_fits ob -> inside ob s ->
  heavy_pixels ob s false band x y = Some v -> in_box (ob_box ob) x y /\ v = full_model_at ob s band x y.
Proof.
  intros ob s band x y v K I H. unfold heavy_pixels in H.
  destruct (in_boxb (heavy_box ob s false) x y) eqn:E; cbn [andb] in H; [|discriminate].
  destruct (negb _); [|discriminate]. apply Some_inj in H. subst v. split; [|now apply heavy_image_full].
  apply in_boxb_spec in E. unfold heavy_box in E. now apply clip_in in E.
Qed.
Lemma no_heavy_pixel : forall ob s band x y, kernel_fits ob -> inside ob s -> In band (ob_bands ob) -> in_box (ob_box ob) x y ->
  heavy_pixels ob s false band x y = None ->
  (forall b, In b (ob_bands ob) -> (full_model_at ob s b x y <= 0)%Qc) /\
  (exists b, In b (ob_bands ob) /\ full_model_at ob s b x y = 0%Qc).
Proof.
  intros ob s band x y K I Hb O H. unfold heavy_pixels in H.
  destruct (in_boxb (heavy_box ob s false) x y) eqn:E; cbn [andb] in H.
  - destruct (negb _) eqn:N; [discriminate|]. apply negb_false_iff in N. apply Qc_eq_bool_correct in N. apply qcmax_zero in N.
    + destruct N as [A B]. split.
      * intros b Q. rewrite <- heavy_image_full by assumption. apply A. apply in_map_iff. eauto.
      * apply in_map_iff in B. destruct B as (b & B & Q). exists b. split; [exact Q|]. now rewrite <- heavy_image_full.
    + destruct (ob_bands ob); [destruct Hb | discriminate].
  - assert (N : ~ in_box (heavy_box ob s false) x y).
    { intros Q. apply in_boxb_spec in Q. congruence. }
    split; [intros b _; rewrite outside_zero by assumption; apply Qcle_refl|]. exists band. split; [exact Hb | now apply outside_zero].
Qed.

Lemma full_nonneg : forall ob s band x y, nonnegative ob s -> (0 <= full_model_at ob s band x y)%Qc.
Proof.
  intros ob s band x y [A B]. unfold full_model_at, convolution. apply qcsum_nonneg. intros v Hv.
  apply (convolution_terms (fst (ob_half ob)) (snd (ob_half ob)) (ob_kernel ob band)
    (fun x y => if in_boxb (so_box s) x y then so_model s band x y else 0%Qc)) in Hv. destruct Hv as (i & j & _ & _ & ->).
  assert (M : forall a b : Qc, (0 <= a -> 0 <= b -> 0 <= a * b)%Qc).
  { intros a b Ha Hb. replace 0%Qc with (0 * b)%Qc by ring. now apply Qcmult_le_compat_r. }
  apply M; [apply A|]. destruct (in_boxb (so_box s) (x - i) (y - j)) eqn:E; [apply B; now apply in_boxb_spec | apply Qcle_refl].
Qed.
Lemma contribution_nonneg : forall ob s band x y, kernel_fits ob -> inside ob s -> nonnegative ob s -> In band (ob_bands ob) ->
  in_box (ob_box ob) x y -> contribution (heavy_pixels ob s false band x y) = full_model_at ob s band x y.
Proof.
  intros ob s band x y K I N Hb O. destruct (heavy_pixels ob s false band x y) as [v|] eqn:E; cbn [contribution].
  - now apply heavy_pixel in E.
  - apply (no_heavy_pixel ob s band x y K I Hb O) in E. destruct E as [E _]. apply Qcle_antisym; [now apply full_nonneg | now apply E].
Qed.

(** ** The subtracted image *)
Lemma qc_exact : exact_arith Qcplus Qcminus 0%Qc.
Proof. constructor; intros; ring. Qed.

Lemma fold_minus : forall l x, fold_left Qcminus l x = (x - qcsum l)%Qc.
Proof.
  induction l as [|v l IH]; intros x; cbn [fold_left qcsum fold_right]; [ring|]. fold (qcsum l). rewrite IH. ring.
Qed.

(** The sources of a blend. *)
Lemma blend_sources_ok : forall b l, blend_sources b = Ok l ->
  l = map (fun s => mkBlend Qc (so_id s) (heavy_pixels (fst b) s false)) (snd b).
Proof.
  intros [ob ss] l. unfold blend_sources. cbn [fst snd]. revert l. induction ss as [|s ss IH]; cbn [omap map]; intros l H.
  - apply Ok_inj in H. now subst.
  - destruct (scarlet_model_to_heavy ob s false); cbn [obind] in H; [|discriminate].
    destruct (omap _ ss) as [r|] eqn:E; cbn [obind] in H; [|discriminate]. apply Ok_inj in H. subst l. f_equal. now apply IH.
Qed.
Definition as_blend (os : observation * source) : blend_source Qc := mkBlend Qc (so_id (snd os)) (heavy_pixels (fst os) (snd os) false).
Lemma blends_ok : forall blends l, omap blend_sources blends = Ok l -> List.concat l = map as_blend (all_sources blends).
Proof.
  induction blends as [|b blends IH]; cbn [omap]; intros l H.
  - apply Ok_inj in H. now subst.
  - destruct (blend_sources b) as [x|] eqn:E; cbn [obind] in H; [|discriminate].
    destruct (omap blend_sources blends) as [r|] eqn:F; cbn [obind] in H; [|discriminate]. apply Ok_inj in H. subst l.
    cbn [List.concat all_sources flat_map]. fold (all_sources blends). rewrite map_app. rewrite (IH r eq_refl). f_equal.
    rewrite (blend_sources_ok _ _ E). rewrite map_map. reflexivity.
Qed.

(** What the sources contribute, when the boxes of the catalogue hold the models. *)
Lemma values_sum : forall foot band x y srcs vals,
  (forall os v, In os srcs -> heavy_pixels (fst os) (snd os) false band x y = Some v ->
     exists bx pks, foot (so_id (snd os)) = Some (bx, pks) /\ in_box bx x y) ->
  values_at Qc foot band x y (map as_blend srcs) vals ->
  qcsum vals = qcsum (map (fun os => contribution (heavy_pixels (fst os) (snd os) false band x y)) srcs).
Proof.
  intros foot band x y srcs. induction srcs as [|os srcs IH]; intros vals C V; cbn [map] in V.
  - inversion V; subst. reflexivity.
  - cbn [map qcsum fold_right]. fold (qcsum (map (fun os => contribution (heavy_pixels (fst os) (snd os) false band x y)) srcs)).
    assert (C' : forall os v, In os srcs -> heavy_pixels (fst os) (snd os) false band x y = Some v ->
       exists bx pks, foot (so_id (snd os)) = Some (bx, pks) /\ in_box bx x y) by (intros; eapply C; [now right | eassumption]).
    inversion V as [|b l m ms H1 H2|b l ms H1 H2]; subst.
    + destruct H1 as (bx & pks & _ & _ & E). cbn [as_blend b_pix] in E. rewrite E. cbn [contribution qcsum fold_right].
      fold (qcsum ms). rewrite (IH ms C' H2). reflexivity.
    + rewrite (IH vals C' H2). destruct (heavy_pixels (fst os) (snd os) false band x y) as [v|] eqn:E; cbn [contribution]; [|ring].
      exfalso. destruct (C os v (or_introl eq_refl) E) as (bx & pks & A & B). apply (H1 v). exists bx, pks. auto.
Qed.

Lemma subtracted : forall mbands bands ebox foot blends orig s,
  NoDup mbands -> NoDup bands -> incl bands mbands -> NoDup (map (fun os => so_id (snd os)) (all_sources blends)) ->
  scarlet_subtractor mbands bands ebox foot blends orig = Ok s ->
  forall band x y, In band bands ->
  (forall os v, In os (all_sources blends) -> heavy_pixels (fst os) (snd os) false band x y = Some v ->
     exists bx pks, foot (so_id (snd os)) = Some (bx, pks) /\ in_box bx x y) ->
  s_cur Qc s band x y
  = (orig band x y - qcsum (map (fun os => contribution (heavy_pixels (fst os) (snd os) false band x y)) (all_sources blends)))%Qc.
Proof.
  intros mbands bands ebox foot blends orig s Nm Nb Hi Ni H band x y Hb C. unfold scarlet_subtractor in H.
  destruct (omap blend_sources blends) as [l|] eqn:E; cbn [obind] in H; [|discriminate]. apply blends_ok in E. rewrite E in H.
  assert (N : NoDup (map (b_id Qc) (map as_blend (all_sources blends)))) by (rewrite map_map; exact Ni).
  destruct (none_open Qc Qcplus Qcminus 0%Qc qc_exact mbands bands ebox foot (map as_blend (all_sources blends)) orig s Nm Nb Hi N H
              Look s [([], s_cur Qc s)] (Ok tt) (s_cur Qc s) eq_refl (or_introl eq_refl) band x y Hb) as (vals & V & ->).
  unfold minus_all. rewrite fold_minus. rewrite (values_sum foot band x y (all_sources blends) vals C V). reflexivity.
Qed.
Lemma sum_ext : forall (A : Type) (f g : A -> Qc) l, (forall a, In a l -> f a = g a) -> qcsum (map f l) = qcsum (map g l).
Proof. intros A f g l H. f_equal. apply map_ext_in. exact H. Qed.

Lemma subtracted_full : forall mbands bands ebox foot blends orig s,
  NoDup mbands -> NoDup bands -> incl bands mbands -> NoDup (map (fun os => so_id (snd os)) (all_sources blends)) ->
  (forall ob sr, In (ob, sr) (all_sources blends) -> ob_bands ob = mbands /\ kernel_fits ob /\ inside ob sr /\ nonnegative ob sr) ->
  (forall ob sr x y, In (ob, sr) (all_sources blends) -> in_box (ob_box ob) x y -> (exists band, In band mbands /\ full_model_at ob sr band x y <> 0%Qc) ->
     exists bx pks, foot (so_id sr) = Some (bx, pks) /\ in_box bx x y) ->
  scarlet_subtractor mbands bands ebox foot blends orig = Ok s ->
  forall band x y, In band bands ->
  s_cur Qc s band x y
  = (orig band x y - qcsum (map (fun os => full_model_at (fst os) (snd os) band x y)
       (filter (fun os => in_boxb (ob_box (fst os)) x y) (all_sources blends))))%Qc.
Proof.
  intros mbands bands ebox foot blends orig s Nm Nb Hi Ni G C H band x y Hb.
  rewrite (subtracted mbands bands ebox foot blends orig s Nm Nb Hi Ni H band x y Hb).
  - f_equal. clear -G Hb Hi. induction (all_sources blends) as [|[ob sr] l IH]; [reflexivity|].
    destruct (G ob sr (or_introl eq_refl)) as (Eb & K & I & N).
    assert (IH' := IH (fun ob sr K => G ob sr (or_intror K))). clear IH G.
    cbn [map filter fst snd]. destruct (in_boxb (ob_box ob) x y) eqn:E; cbn [map qcsum fold_right fst snd].
    + apply in_boxb_spec in E. rewrite contribution_nonneg; try assumption; [|rewrite Eb; now apply Hi].
      unfold qcsum in IH'. rewrite IH'. reflexivity.
    + unfold qcsum in IH'. rewrite IH'. destruct (heavy_pixels ob sr false band x y) as [v|] eqn:P; cbn [contribution]; [|unfold qcsum; ring].
      apply heavy_pixel in P; try assumption. destruct P as [P _]. apply in_boxb_spec in P. congruence.
  - intros [ob sr] v Ho P. cbn [fst snd] in P |- *. destruct (G ob sr Ho) as (Eb & K & I & N).
    destruct (Qc_eq_dec (full_model_at ob sr band x y) 0%Qc) as [Z0|NZ].
    + (* the value is zero here, so another band is not *)
      assert (P' := P). apply heavy_pixel in P'; try assumption. destruct P' as [O _].
      apply (C ob sr x y Ho O). unfold heavy_pixels in P. destruct (in_boxb (heavy_box ob sr false) x y); cbn [andb] in P; [|discriminate].
      destruct (Qc_eq_bool _ _) eqn:M; cbn [negb] in P; [discriminate|].
      rewrite Eb in M.
      assert (X : In (qcmax (map (fun b => heavy_image ob sr false b x y) mbands)) (map (fun b => heavy_image ob sr false b x y) mbands)).
      { assert (Hm := Hi band Hb). destruct mbands as [|m0 mb]; [destruct Hm|]. cbn [map qcmax].
        destruct (fold_max_spec (map (fun b => heavy_image ob sr false b x y) mb) (heavy_image ob sr false m0 x y)) as (_ & _ & Q). exact Q. }
      apply in_map_iff in X. destruct X as (b & Q & Hbm). exists b. split; [exact Hbm|]. rewrite <- heavy_image_full by assumption.
      rewrite Q. intros Z1. rewrite Z1 in M. discriminate M.
    + assert (P' := P). apply heavy_pixel in P'; try assumption. destruct P' as [O _]. apply (C ob sr x y Ho O).
      exists band. split; [now apply Hi | exact NZ].
Qed.
