From Coq Require Import ZArith QArith Qround Qabs Lqa Lia List String Bool.
From Verif Require Import Base Arr Median Flags_model Detect_spec Detect_proofs Masking_proofs Summ_model Summ_spec.
Import ListNotations.
Local Open Scope Z_scope.

(** ** C24 *)
Lemma pixels_scale : forall c im, pixels (imap (Qmult c) im) = map (Qmult c) (pixels im).
Proof. intros. unfold pixels. now rewrite map_map. Qed.

Lemma positive_pixels_in : forall w v, In v (positive_pixels w) <-> In v (pixels w) /\ (0 < v)%Q.
Proof. intros. unfold positive_pixels. rewrite filter_In, negb_true_iff, Qle_bool_false. tauto. Qed.

Lemma band_weight_spec : forall o, weight_of o (band_weight o).
Proof.
  intro o. unfold band_weight, weight_of.
  destruct (qmedian (positive_pixels (so_weight o))) as [m|] eqn:E.
  - left. exists (positive_pixels (so_weight o)). split; [now apply qmedian_is_median|]. split.
    + intro v. rewrite positive_pixels_in. tauto.
    + intros v Hv. apply positive_pixels_in in Hv. unfold positive_pixels.
      apply count_occ_filter. rewrite negb_true_iff. now apply Qle_bool_false.
  - right. split; [reflexivity|]. intros v Hv. apply qmedian_none in E.
    destruct (Qlt_le_dec 0 v) as [H|H]; [|assumption].
    assert (Hin : In v (positive_pixels (so_weight o))) by (apply positive_pixels_in; tauto).
    rewrite E in Hin. destruct Hin.
Qed.

Lemma band_weight_nonneg : forall o, (0 <= band_weight o)%Q.
Proof.
  intro o. unfold band_weight.
  destruct (qmedian (positive_pixels (so_weight o))) as [m|] eqn:E; [|lra].
  apply Qlt_le_weak. apply (qmedian_pos _ _) with (2 := E). intros x Hx.
  now apply positive_pixels_in in Hx.
Qed.

Lemma band_weight_pos : forall o, (0 < band_weight o)%Q <->
  exists i j, inside (so_weight o) i j /\ (0 < px (so_weight o) i j)%Q.
Proof.
  intro o. split.
  - intro H. destruct (positive_pixels (so_weight o)) as [|v l] eqn:E.
    + unfold band_weight in H. rewrite E in H. cbn in H. lra.
    + assert (Hin : In v (positive_pixels (so_weight o))) by (rewrite E; now left).
      apply positive_pixels_in in Hin. destruct Hin as [Hin Hv]. unfold pixels in Hin.
      apply in_map_iff in Hin. destruct Hin as [[i j] [<- Hij]]. apply in_coords in Hij.
      exists i, j. split; [exact Hij|exact Hv].
  - intros [i [j [Hin Hp]]]. unfold band_weight.
    destruct (qmedian (positive_pixels (so_weight o))) as [m|] eqn:E.
    + apply (qmedian_pos _ _) with (2 := E). intros x Hx. now apply positive_pixels_in in Hx.
    + apply qmedian_none in E.
      assert (Hi : In (px (so_weight o) i j) (positive_pixels (so_weight o))).
      { apply positive_pixels_in. split; [|assumption]. unfold pixels. apply in_map_iff.
        exists (i, j). split; [reflexivity|]. now apply in_coords. }
      rewrite E in Hi. destruct Hi.
Qed.

Lemma single_epoch_map : forall A (obs : list A), omap single_epoch (map (fun o => [o]) obs) = Ok obs.
Proof. induction obs as [|o obs IH]; [reflexivity|]. cbn [map omap single_epoch obind]. now rewrite IH. Qed.

Lemma single_epoch_ok : forall A (mb : list (list A)) obs, omap single_epoch mb = Ok obs ->
  mb = map (fun o => [o]) obs.
Proof.
  induction mb as [|l mb IH]; intros obs H; cbn [omap] in H.
  - apply Ok_inj in H. now subst.
  - destruct l as [|o [|o' l]]; cbn [single_epoch obind] in H; try discriminate.
    destruct (omap single_epoch mb) as [r|] eqn:E; cbn [obind] in H; [|discriminate].
    apply Ok_inj in H. subst. cbn [map]. now rewrite (IH r eq_refl).
Qed.

Definition msum (obs : list sobs) (i j : Z) : Q :=
  qsum (map (fun o => band_weight o * mfrac_at o i j)%Q obs).

Lemma mfrac_fold : forall obs acc,
  let r := fold_left (fun acc o =>
        match so_mfrac o with
        | Some mf => imap2 (fun a m => (a + m * band_weight o)%Q) acc mf
        | None => acc
        end) obs acc in
  nr r = nr acc /\ nc r = nc acc /\ forall i j, (px r i j == px acc i j + msum obs i j)%Q.
Proof.
  induction obs as [|o obs IH]; intros acc; cbn [fold_left].
  - split; [reflexivity|]. split; [reflexivity|]. intros. unfold msum. cbn. lra.
  - cbv zeta in *.
    destruct (IH (match so_mfrac o with
        | Some mf => imap2 (fun a m => (a + m * band_weight o)%Q) acc mf
        | None => acc end)) as [E1 [E2 E3]].
    split; [rewrite E1; now destruct (so_mfrac o)|]. split; [rewrite E2; now destruct (so_mfrac o)|].
    intros i j. rewrite E3. unfold msum. cbn [map qsum fold_right]. unfold mfrac_at at 2.
    fold (qsum (map (fun o => band_weight o * mfrac_at o i j)%Q obs)).
    destruct (so_mfrac o); cbn [px imap2]; lra.
Qed.

Lemma get_mfrac_val : forall obs o0 rest, obs = o0 :: rest ->
  exists im, get_mfrac (map (fun o => [o]) obs) = Ok im /\
    nr im = nr (so_weight o0) /\ nc im = nc (so_weight o0) /\
    ((0 < qsum (map band_weight obs))%Q -> forall i j, (px im i j == msum obs i j / qsum (map band_weight obs))%Q) /\
    (~ (0 < qsum (map band_weight obs))%Q -> forall i j, px im i j = 1%Q).
Proof.
  intros obs o0 rest Eo. unfold get_mfrac.
  assert (Eh : exists mb, map (fun o => [o]) obs = (o0 :: []) :: mb) by (subst; eexists; reflexivity).
  destruct Eh as [mb Eh]. rewrite Eh. rewrite <- Eh. rewrite single_epoch_map. cbn [obind].
  destruct (mfrac_fold obs (ifill (nr (so_weight o0)) (nc (so_weight o0)) 0%Q)) as [E1 [E2 E3]].
  destruct (Qle_bool (qsum (map band_weight obs)) 0) eqn:E; cbn [negb].
  - apply Qle_bool_iff in E. eexists. split; [reflexivity|]. cbn [imap nr nc px].
    split; [exact E1|]. split; [exact E2|]. split; [intro; lra|]. reflexivity.
  - apply Qle_bool_false in E. eexists. split; [reflexivity|]. cbn [imap nr nc px].
    split; [exact E1|]. split; [exact E2|]. split; [|intro; lra].
    intros _ i j. rewrite E3. cbn [ifill px]. setoid_replace (0 + msum obs i j)%Q with (msum obs i j) by lra.
    reflexivity.
Qed.

Lemma combine_map_self' : forall A B (f : A -> B) l, combine l (map f l) = map (fun x => (x, f x)) l.
Proof. induction l as [|a l IH]; cbn; [reflexivity|now rewrite IH]. Qed.

Lemma mean_mfrac_val : forall obs i j,
  (mean_mfrac obs (map band_weight obs) i j == msum obs i j / qsum (map band_weight obs))%Q.
Proof. intros. unfold mean_mfrac, msum. rewrite combine_map_self', map_map. cbn [fst snd]. reflexivity. Qed.

Lemma weight_of_forall2 : forall obs, Forall2 weight_of obs (map band_weight obs).
Proof. induction obs; constructor; auto using band_weight_spec. Qed.

Lemma mfrac_mean : forall o0 rest, let obs := o0 :: rest in
  exists im ws, get_mfrac (map (fun o => [o]) obs) = Ok im /\
    nr im = nr (so_weight o0) /\ nc im = nc (so_weight o0) /\
    Forall2 weight_of obs ws /\ (forall w, In w ws -> 0 <= w)%Q /\
    ((exists o i j, In o obs /\ inside (so_weight o) i j /\ (0 < px (so_weight o) i j)%Q) ->
      (0 < qsum ws)%Q /\ forall i j, (px im i j == mean_mfrac obs ws i j)%Q) /\
    ((forall o i j, In o obs -> inside (so_weight o) i j -> (px (so_weight o) i j <= 0)%Q) ->
      forall i j, px im i j = 1%Q).
Proof.
  intros o0 rest obs. destruct (get_mfrac_val obs o0 rest eq_refl) as [im [E [E1 [E2 [Ep En]]]]].
  assert (Hnn : forall w, In w (map band_weight obs) -> (0 <= w)%Q).
  { intros w Hw. apply in_map_iff in Hw. destruct Hw as [o [<- _]]. apply band_weight_nonneg. }
  exists im, (map band_weight obs). split; [exact E|]. split; [exact E1|]. split; [exact E2|].
  split; [apply weight_of_forall2|]. split; [exact Hnn|]. split.
  - intros [o [i [j [Ho [Hin Hp]]]]].
    assert (H0 : (0 < band_weight o)%Q) by (apply band_weight_pos; eauto).
    assert (H1 : (band_weight o <= qsum (map band_weight obs))%Q).
    { apply qsum_le_member; [|assumption]. intros; apply band_weight_nonneg. }
    split; [lra|]. intros k l. rewrite mean_mfrac_val. apply Ep. lra.
  - intros Hall. apply En. intro Hs.
    assert (Hz : (qsum (map band_weight obs) == 0)%Q).
    { assert (Hb : forall o, In o obs -> (band_weight o <= 0)%Q).
      { intros o Ho. destruct (Qlt_le_dec 0 (band_weight o)) as [H|H]; [|assumption].
        apply band_weight_pos in H. destruct H as [i [j [Hin Hp]]]. specialize (Hall o i j Ho Hin). lra. }
      assert (Hle : (qsum (map band_weight obs) <= qsum (map (fun _ : sobs => 0%Q) obs))%Q)
        by (apply qsum_map_le; exact Hb).
      assert (Hzero : forall l : list sobs, (qsum (map (fun _ => 0%Q) l) == 0)%Q).
      { induction l as [|a l IH]; cbn; [reflexivity|]. unfold qsum in IH. rewrite IH. lra. }
      rewrite Hzero in Hle. lra. }
    lra.
Qed.

Lemma mfrac_between : forall obs im lo hi i j,
  (exists o k l, In o obs /\ inside (so_weight o) k l /\ (0 < px (so_weight o) k l)%Q) ->
  get_mfrac (map (fun o => [o]) obs) = Ok im ->
  (forall o, In o obs -> (exists k l, inside (so_weight o) k l /\ (0 < px (so_weight o) k l)%Q) ->
     lo <= mfrac_at o i j /\ mfrac_at o i j <= hi)%Q ->
  (lo <= px im i j /\ px im i j <= hi)%Q.
Proof.
  intros obs im lo hi i j Hu Him Hb. destruct obs as [|o0 rest]; [destruct Hu as [? [? [? [[] _]]]]|].
  destruct (get_mfrac_val (o0 :: rest) o0 rest eq_refl) as [im' [E [_ [_ [Ep _]]]]].
  rewrite E in Him. apply Ok_inj in Him. subst im'.
  destruct Hu as [o [k [l [Ho [Hin Hp]]]]].
  assert (H0 : (0 < band_weight o)%Q) by (apply band_weight_pos; eauto).
  assert (H1 : (band_weight o <= qsum (map band_weight (o0 :: rest)))%Q).
  { apply qsum_le_member; [|assumption]. intros; apply band_weight_nonneg. }
  assert (Hs : (0 < qsum (map band_weight (o0 :: rest)))%Q) by lra.
  rewrite (Ep Hs i j). unfold msum. apply weighted_mean_bounds; [| |exact Hs].
  - intros; apply band_weight_nonneg.
  - intros x Hx Hw. apply Hb; [assumption|]. now apply band_weight_pos.
Qed.

Lemma mfrac_unit : forall obs im i j, obs <> [] ->
  get_mfrac (map (fun o => [o]) obs) = Ok im ->
  (forall o mf, In o obs -> so_mfrac o = Some mf -> 0 <= px mf i j /\ px mf i j <= 1)%Q ->
  (0 <= px im i j /\ px im i j <= 1)%Q.
Proof.
  intros obs im i j Hne Him Hb.
  destruct (Qlt_le_dec 0 (qsum (map band_weight obs))) as [Hs|Hs].
  - destruct obs as [|o0 rest]; [contradiction|].
    destruct (get_mfrac_val (o0 :: rest) o0 rest eq_refl) as [im' [E [_ [_ [Ep _]]]]].
    rewrite E in Him. apply Ok_inj in Him. subst im'.
    rewrite (Ep Hs i j). unfold msum. apply weighted_mean_bounds; [| |exact Hs].
    + intros; apply band_weight_nonneg.
    + intros x Hx _. unfold mfrac_at. destruct (so_mfrac x) as [mf|] eqn:Em; [eauto|lra].
  - destruct obs as [|o0 rest]; [contradiction|].
    destruct (get_mfrac_val (o0 :: rest) o0 rest eq_refl) as [im' [E [_ [_ [_ En]]]]].
    rewrite E in Him. apply Ok_inj in Him. subst im'.
    rewrite En; lra.
Qed.

Lemma band_weight_scale : forall c o, (0 < c)%Q -> (band_weight (scale_obs c o) == c * band_weight o)%Q.
Proof.
  intros c o Hc. unfold band_weight, scale_obs. cbn [so_weight]. unfold positive_pixels.
  rewrite pixels_scale.
  assert (Ef : filter (fun v => negb (Qle_bool v 0)) (map (Qmult c) (pixels (so_weight o)))
             = map (Qmult c) (filter (fun v => negb (Qle_bool v 0)) (pixels (so_weight o)))).
  { induction (pixels (so_weight o)) as [|v l IH]; [reflexivity|]. cbn [map filter].
    assert (Eb : Qle_bool (c * v) 0 = Qle_bool v 0).
    { apply eq_true_iff_eq. rewrite !Qle_bool_iff. split; intro; nra. }
    rewrite Eb. destruct (Qle_bool v 0); cbn [negb]; [apply IH|]. cbn [map]. now rewrite IH. }
  rewrite Ef. set (p := filter _ _). clearbody p.
  destruct (qmedian p) as [m|] eqn:E.
  - destruct (qmedian_scale c p m Hc E) as [m' [E' Hm]]. rewrite E'. exact Hm.
  - apply qmedian_none in E. subst. cbn. lra.
Qed.

Lemma mfrac_scale : forall c obs, (0 < c)%Q -> obs <> [] ->
  exists im im', get_mfrac (map (fun o => [o]) obs) = Ok im /\
    get_mfrac (map (fun o => [o]) (map (scale_obs c) obs)) = Ok im' /\
    nr im = nr im' /\ nc im = nc im' /\ forall i j, (px im i j == px im' i j)%Q.
Proof.
  intros c obs Hc Hne. destruct obs as [|o0 rest]; [contradiction|].
  destruct (get_mfrac_val (o0 :: rest) o0 rest eq_refl) as [im [E [E1 [E2 [Ep En]]]]].
  destruct (get_mfrac_val (map (scale_obs c) (o0 :: rest)) (scale_obs c o0) (map (scale_obs c) rest) eq_refl)
    as [im' [E' [E1' [E2' [Ep' En']]]]].
  exists im, im'. split; [exact E|]. split; [exact E'|]. split; [now rewrite E1, E1'|].
  split; [now rewrite E2, E2'|]. intros i j. set (obs := o0 :: rest) in *. clearbody obs.
  assert (Hw : (qsum (map band_weight (map (scale_obs c) obs)) == c * qsum (map band_weight obs))%Q).
  { rewrite map_map. rewrite (qsum_map_ext _ _ (fun o => c * band_weight o)%Q).
    - apply qsum_map_mult.
    - intros; now apply band_weight_scale. }
  assert (Hm : (msum (map (scale_obs c) obs) i j == c * msum obs i j)%Q).
  { unfold msum. rewrite map_map. rewrite <- qsum_map_mult. apply qsum_map_ext. intros o _.
    rewrite band_weight_scale by assumption. unfold mfrac_at. cbn [so_mfrac scale_obs]. ring. }
  destruct (Qlt_le_dec 0 (qsum (map band_weight obs))) as [Hs|Hs].
  - assert (Hs' : (0 < qsum (map band_weight (map (scale_obs c) obs)))%Q) by (rewrite Hw; nra).
    rewrite (Ep Hs), (Ep' Hs'), Hw, Hm. field. split; lra.
  - assert (Hs' : ~ (0 < qsum (map band_weight (map (scale_obs c) obs)))%Q) by (rewrite Hw; nra).
    rewrite En, En'; [reflexivity|assumption|lra].
Qed.

Lemma mfrac_epochs : forall mb im, get_mfrac mb = Ok im ->
  exists obs, obs <> [] /\ mb = map (fun o => [o]) obs.
Proof.
  intros mb im H. unfold get_mfrac in H. destruct mb as [|[|o0 l] mb]; try discriminate.
  destruct (omap single_epoch ((o0 :: l) :: mb)) as [obs|] eqn:E; cbn [obind] in H; [|discriminate].
  apply single_epoch_ok in E. exists obs. split; [|assumption]. intros ->. discriminate.
Qed.

Lemma ormask_fold : forall rest a b,
  let r := fold_left (fun acc o => (imap2 Z.lor (fst acc) (so_ormask o), imap2 Z.lor (snd acc) (so_bmask o)))
                  rest (a, b) in
  nr (fst r) = nr a /\ nc (fst r) = nc a /\ nr (snd r) = nr b /\ nc (snd r) = nc b /\
  forall i j n,
  (Z.testbit (px (fst r) i j) n = true <->
     Z.testbit (px a i j) n = true \/ exists o, In o rest /\ Z.testbit (px (so_ormask o) i j) n = true) /\
  (Z.testbit (px (snd r) i j) n = true <->
     Z.testbit (px b i j) n = true \/ exists o, In o rest /\ Z.testbit (px (so_bmask o) i j) n = true).
Proof.
  induction rest as [|o rest IH]; intros a b; cbv zeta.
  - cbn [fold_left fst snd]. repeat (split; [reflexivity|]). intros i j n. split; split; try tauto.
    + intros [H|[o [[] _]]]; assumption.
    + intros [H|[o [[] _]]]; assumption.
  - cbn [fold_left fst snd]. destruct (IH (imap2 Z.lor a (so_ormask o)) (imap2 Z.lor b (so_bmask o)))
      as [E1 [E2 [E3 [E4 Hb]]]].
    split; [exact E1|]. split; [exact E2|]. split; [exact E3|]. split; [exact E4|].
    intros i j n. destruct (Hb i j n) as [H1 H2]. rewrite H1, H2. cbn [imap2 px].
    rewrite !Z.lor_spec, !orb_true_iff. split; split.
    + intros [[H|H]|[x [Hx H]]]; [now left|right; exists o; split; [now left|assumption]|
        right; exists x; split; [now right|assumption]].
    + intros [H|[x [[<-|Hx] H]]]; [tauto|tauto|]. right. now exists x.
    + intros [[H|H]|[x [Hx H]]]; [now left|right; exists o; split; [now left|assumption]|
        right; exists x; split; [now right|assumption]].
    + intros [H|[x [[<-|Hx] H]]]; [tauto|tauto|]. right. now exists x.
Qed.

Lemma combined_masks : forall o0 rest, let obs := o0 :: rest in
  exists om bm, get_ormask_and_bmask (map (fun o => [o]) obs) = Ok (om, bm) /\
    nr om = nr (so_ormask o0) /\ nc om = nc (so_ormask o0) /\
    nr bm = nr (so_bmask o0) /\ nc bm = nc (so_bmask o0) /\
    forall i j n,
    (Z.testbit (px om i j) n = true <-> exists o, In o obs /\ Z.testbit (px (so_ormask o) i j) n = true) /\
    (Z.testbit (px bm i j) n = true <-> exists o, In o obs /\ Z.testbit (px (so_bmask o) i j) n = true).
Proof.
  intros o0 rest obs. unfold get_ormask_and_bmask. rewrite single_epoch_map. cbn [obind]. unfold obs.
  destruct (ormask_fold rest (so_ormask o0) (so_bmask o0)) as [E1 [E2 [E3 [E4 H]]]].
  destruct (fold_left _ rest _) as [om bm]. cbn [fst snd] in *.
  exists om, bm. split; [reflexivity|]. repeat (split; [assumption|]).
  intros i j n. destruct (H i j n) as [H1 H2]. rewrite H1, H2. split; split.
  - intros [Hb|[o [Ho Hb]]]; [exists o0|exists o]; split; auto; [now left|now right].
  - intros [o [[<-|Ho] Hb]]; [now left|right; eauto].
  - intros [Hb|[o [Ho Hb]]]; [exists o0|exists o]; split; auto; [now left|now right].
  - intros [o [[<-|Ho] Hb]]; [now left|right; eauto].
Qed.

(** ** C25 *)
Lemma qrint_half : forall q, (- (1 # 2) <= q - inject_Z (qrint q) <= 1 # 2)%Q.
Proof.
  intro q. unfold qrint. pose proof (Qfloor_le q) as H1. pose proof (Qlt_floor q) as H2.
  rewrite inject_Z_plus in H2. change (inject_Z 1) with 1%Q in H2.
  destruct (Qle_bool (1 # 2) (q - inject_Z (Qfloor q))) eqn:E1.
  - apply Qle_bool_iff in E1.
    destruct (Qle_bool (q - inject_Z (Qfloor q)) (1 # 2)) eqn:E2.
    + apply Qle_bool_iff in E2. destruct (Z.even (Qfloor q)); [lra|].
      rewrite inject_Z_plus. change (inject_Z 1) with 1%Q. lra.
    + rewrite inject_Z_plus. change (inject_Z 1) with 1%Q. lra.
  - apply Qle_bool_false in E1. lra.
Qed.

Lemma qrint_even : forall q, (Qabs (q - inject_Z (qrint q)) == 1 # 2)%Q -> Z.even (qrint q) = true.
Proof.
  intros q. unfold qrint. pose proof (Qfloor_le q) as H1. pose proof (Qlt_floor q) as H2.
  rewrite inject_Z_plus in H2. change (inject_Z 1) with 1%Q in H2.
  destruct (Qle_bool (1 # 2) (q - inject_Z (Qfloor q))) eqn:E1.
  - apply Qle_bool_iff in E1.
    destruct (Qle_bool (q - inject_Z (Qfloor q)) (1 # 2)) eqn:E2.
    + destruct (Z.even (Qfloor q)) eqn:Ev; [auto|]. intros _.
      rewrite Z.even_add, Ev. reflexivity.
    + apply Qle_bool_false in E2. rewrite inject_Z_plus. change (inject_Z 1) with 1%Q.
      intro H. rewrite Qabs_neg in H by lra. lra.
  - apply Qle_bool_false in E1. intro H. rewrite Qabs_pos in H by lra. lra.
Qed.

Lemma clip_nearest : forall x n, 0 < n -> nearest_pixel n x (clip_and_round x n).
Proof.
  intros x n Hn. unfold nearest_pixel, clip_and_round. split; [lia|].
  intros i Hi. pose proof (qrint_half x) as [H1 H2]. set (k := qrint x) in *. clearbody k.
  destruct (Z.lt_ge_cases k 0) as [Hk|Hk].
  - replace (Z.min (Z.max k 0) (n - 1)) with 0 by lia.
    assert (Hki : (inject_Z k <= - (1))%Q) by (change (-(1))%Q with (inject_Z (-1)); rewrite <- Zle_Qle; lia).
    assert (Hii : (0 <= inject_Z i)%Q) by (change 0%Q with (inject_Z 0); rewrite <- Zle_Qle; lia).
    change (inject_Z 0) with 0%Q.
    rewrite (Qabs_neg (x - 0)) by lra. rewrite (Qabs_neg (x - inject_Z i)) by lra. lra.
  - destruct (Z.lt_ge_cases (n - 1) k) as [Hk2|Hk2].
    + replace (Z.min (Z.max k 0) (n - 1)) with (n - 1) by lia.
      assert (Hki : (inject_Z (n - 1) + 1 <= inject_Z k)%Q).
      { change 1%Q with (inject_Z 1). rewrite <- inject_Z_plus, <- Zle_Qle. lia. }
      assert (Hii : (inject_Z i <= inject_Z (n - 1))%Q) by (rewrite <- Zle_Qle; lia).
      rewrite (Qabs_pos (x - inject_Z (n - 1))) by lra. rewrite (Qabs_pos (x - inject_Z i)) by lra. lra.
    + replace (Z.min (Z.max k 0) (n - 1)) with k by lia.
      assert (Hle : (Qabs (x - inject_Z k) <= 1 # 2)%Q) by (apply Qabs_Qle_condition; lra).
      destruct (Z.eq_dec i k) as [->|N]; [lra|].
      apply Qle_trans with (1 # 2)%Q; [assumption|].
      destruct (Z.lt_ge_cases i k) as [L|G].
      * assert (Hik : (inject_Z i + 1 <= inject_Z k)%Q).
        { change 1%Q with (inject_Z 1). rewrite <- inject_Z_plus, <- Zle_Qle. lia. }
        rewrite Qabs_pos by lra. lra.
      * assert (Hik : (inject_Z k + 1 <= inject_Z i)%Q).
        { change 1%Q with (inject_Z 1). rewrite <- inject_Z_plus, <- Zle_Qle. lia. }
        rewrite Qabs_neg by lra. lra.
Qed.

Lemma fold_lor_bits : forall l a n, Z.testbit (fold_left Z.lor l a) n = true <->
  Z.testbit a n = true \/ exists v, In v l /\ Z.testbit v n = true.
Proof.
  induction l as [|v l IH]; intros a n; cbn [fold_left].
  - split; [auto|]. intros [H|[v [[] _]]]; assumption.
  - rewrite IH, Z.lor_spec, orb_true_iff. split.
    + intros [[H|H]|[x [Hx H]]]; [now left|right; exists v|right; exists x]; split; auto; [now left|now right].
    + intros [H|[x [[<-|Hx] H]]]; [tauto|tauto|right; eauto].
Qed.

Lemma slice_pixels_in : forall A (im : img A) r0 r1 c0 c1 v,
  0 <= r0 <= nr im -> 0 <= r1 <= nr im -> 0 <= c0 <= nc im -> 0 <= c1 <= nc im ->
  (In v (pixels (slice im r0 r1 c0 c1)) <->
   exists i j, r0 <= i < r1 /\ c0 <= j < c1 /\ px im i j = v).
Proof.
  intros A im r0 r1 c0 c1 v H1 H2 H3 H4. unfold pixels. rewrite in_map_iff.
  unfold slice. cbn [nr nc px]. unfold slice_len, slice_lo, norm_bound.
  destruct (Z.ltb_spec r0 0), (Z.ltb_spec r1 0), (Z.ltb_spec c0 0), (Z.ltb_spec c1 0); try lia.
  rewrite !Z.min_l by lia. split.
  - intros [[i j] [<- Hij]]. apply in_coords in Hij. cbn [fst snd].
    exists (i + r0), (j + c0). split; [lia|]. split; [lia|]. reflexivity.
  - intros [i [j [Hi [Hj <-]]]]. exists (i - r0, j - c0). cbn [fst snd]. split.
    + f_equal; lia.
    + apply in_coords. lia.
Qed.

Lemma fill_in_window : forall reg row col mask, 1 < reg -> 0 < nr mask -> 0 < nc mask ->
  exists r c v, nearest_pixel (nr mask) row r /\ nearest_pixel (nc mask) col c /\
    fill_in_mask reg row col mask = Ok v /\
    forall n, Z.testbit v n = true <-> window_bit mask reg r c n.
Proof.
  intros reg row col mask Hreg Hr Hc.
  pose proof (clip_nearest row _ Hr) as Nr. pose proof (clip_nearest col _ Hc) as Nc.
  unfold fill_in_mask. destruct (Z.ltb_spec 1 reg); [|lia].
  destruct Nr as [Br Nr']. destruct Nc as [Bc Nc'].
  set (r := clip_and_round row (nr mask)) in *. set (c := clip_and_round col (nc mask)) in *.
  clearbody r c. eexists r, c, _. split; [now split|]. split; [now split|]. split; [reflexivity|].
  intro n. rewrite fold_lor_bits, Z.bits_0. split.
  - intros [E|[v [Hv Hb]]]; [discriminate|].
    apply slice_pixels_in in Hv; try lia. destruct Hv as [i [j [Hi [Hj <-]]]].
    exists i, j. unfold inside. repeat split; try lia. assumption.
  - intros [i [j [Hin [Hi [Hj Hb]]]]]. right. exists (px mask i j). split; [|assumption].
    unfold inside in Hin. apply slice_pixels_in; try lia. exists i, j. repeat split; try lia.
Qed.

Lemma fill_in_pixel : forall reg row col mask, reg <= 1 -> 0 < nr mask -> 0 < nc mask ->
  exists r c, nearest_pixel (nr mask) row r /\ nearest_pixel (nc mask) col c /\
    fill_in_mask reg row col mask = Ok (px mask r c).
Proof.
  intros reg row col mask Hreg Hr Hc.
  pose proof (clip_nearest row _ Hr) as Nr. pose proof (clip_nearest col _ Hc) as Nc.
  exists (clip_and_round row (nr mask)), (clip_and_round col (nc mask)).
  split; [assumption|]. split; [assumption|]. unfold fill_in_mask.
  destruct (Z.ltb_spec 1 reg); [lia|]. destruct Nr as [Br _]. destruct Nc as [Bc _].
  destruct (Z.leb_spec 0 (clip_and_round row (nr mask))); [|lia].
  destruct (Z.ltb_spec (clip_and_round row (nr mask)) (nr mask)); [|lia].
  destruct (Z.leb_spec 0 (clip_and_round col (nc mask))); [|lia].
  destruct (Z.ltb_spec (clip_and_round col (nc mask)) (nc mask)); [|lia]. reflexivity.
Qed.

Lemma fill_col_total : forall reg pos mask, 0 < nr mask -> 0 < nc mask ->
  exists vs, fill_in_mask_col reg pos mask = Ok vs /\ List.length vs = List.length pos /\
    Forall2 (fun rc v => fill_in_mask reg (fst rc) (snd rc) mask = Ok v) pos vs.
Proof.
  intros reg pos mask Hr Hc. unfold fill_in_mask_col.
  assert (T : exists vs, omap (fun rc => fill_in_mask reg (fst rc) (snd rc) mask) pos = Ok vs).
  { induction pos as [|[y x] pos [vs E]]; [now exists []|]. cbn [omap fst snd].
    assert (Hv : exists v, fill_in_mask reg y x mask = Ok v).
    { destruct (Z.lt_ge_cases 1 reg) as [L|G].
      - destruct (fill_in_window reg y x mask L Hr Hc) as [r [c [v [_ [_ [E' _]]]]]]. eauto.
      - destruct (fill_in_pixel reg y x mask G Hr Hc) as [r [c [_ [_ E']]]]. eauto. }
    destruct Hv as [v Ev]. rewrite Ev. cbn [obind]. rewrite E. cbn [obind]. eauto. }
  destruct T as [vs E]. exists vs. split; [assumption|]. split; [now apply omap_ok_length in E|].
  now apply omap_ok_Forall2.
Qed.

(** ** C26 *)
Lemma ofold_psf : forall obs vals s, Forall2 psf_values obs vals ->
  exists t, ofold add_psf obs s = Ok t /\
   (fst (fst (fst t)) == fst (fst (fst s)) + qsum (map (fun wx => fst wx * snd wx) (combine (map po_maxw obs) (map (fun v => fst (fst v)) vals))))%Q /\
   (snd (fst (fst t)) == snd (fst (fst s)) + qsum (map (fun wx => fst wx * snd wx) (combine (map po_maxw obs) (map (fun v => snd (fst v)) vals))))%Q /\
   (snd (fst t) == snd (fst s) + qsum (map (fun wx => fst wx * snd wx) (combine (map po_maxw obs) (map snd vals))))%Q /\
   (snd t == snd s + qsum (map po_maxw obs))%Q.
Proof.
  intros obs vals s H. revert s. induction H as [|o v obs vals Hv H IH]; intro s.
  - exists s. split; [reflexivity|]. cbn. repeat split; lra.
  - cbn [ofold]. destruct Hv as [r [T [[g1 g2] [Er [ET [Eg ->]]]]]].
    destruct s as [[[a b] c] d].
    assert (Ea : add_psf (a, b, c, d) o = Ok (a + g1 * po_maxw o, b + g2 * po_maxw o, c + T * po_maxw o, d + po_maxw o)%Q).
    { unfold add_psf. rewrite Er, ET. destruct Eg as [Eg|[En Eg]]; [now rewrite Eg|]. now rewrite En, Eg. }
    rewrite Ea. cbn [obind].
    destruct (IH (a + g1 * po_maxw o, b + g2 * po_maxw o, c + T * po_maxw o, d + po_maxw o)%Q) as [t [Et [H1 [H2 [H3 H4]]]]].
    exists t. split; [exact Et|]. cbn [fst snd map combine qsum fold_right] in *.
    rewrite H1, H2, H3, H4. unfold qsum. repeat split; ring.
Qed.

Lemma psf_stats_ok : forall mbobs vals, Forall2 psf_values (List.concat mbobs) vals ->
  let ws := map po_maxw (List.concat mbobs) in
  exists s, get_psf_stats mbobs 0 = Ok s /\
    ((0 < qsum ws)%Q -> exists g1 g2 T, s = mkStats 0 (Some g1) (Some g2) (Some T) /\
        (g1 == wmean ws (map (fun v => fst (fst v)) vals) /\ g2 == wmean ws (map (fun v => snd (fst v)) vals) /\
         T == wmean ws (map snd vals))%Q) /\
    ((qsum ws <= 0)%Q -> s = mkStats (flag_value PSF_FAILURE) None None None).
Proof.
  intros mbobs vals H ws. unfold get_psf_stats. cbn [Z.eqb negb].
  destruct (ofold_psf _ _ (0, 0, 0, 0)%Q H) as [[[[a b] c] d] [E [H1 [H2 [H3 H4]]]]].
  cbn [fst snd] in *. rewrite E. cbn [obind]. fold ws in H1, H2, H3, H4.
  destruct (Qle_bool d 0) eqn:El.
  - apply Qle_bool_iff in El. eexists. split; [reflexivity|]. split; [intro; lra|reflexivity].
  - apply Qle_bool_false in El. eexists. split; [reflexivity|]. split; [|intro; lra].
    intros _. exists (a / d)%Q, (b / d)%Q, (c / d)%Q. split; [reflexivity|]. unfold wmean.
    assert (Hd : (d == qsum ws)%Q) by lra.
    rewrite Hd, H1, H2, H3. rewrite !Qplus_0_l. split; [reflexivity|]. split; reflexivity.
Qed.

Lemma psf_stats_flagged : forall mbobs fl, fl <> 0 ->
  exists s, get_psf_stats mbobs fl = Ok s /\ ps_g1 s = None /\ ps_g2 s = None /\ ps_T s = None /\
    forall n, Z.testbit (ps_flags s) n = true <->
      Z.testbit (flag_value PSF_FAILURE) n = true \/ Z.testbit fl n = true.
Proof.
  intros mbobs fl Hf. unfold get_psf_stats. destruct (Z.eqb_spec fl 0); [contradiction|]. cbn [negb].
  eexists. split; [reflexivity|]. cbn [ps_g1 ps_g2 ps_T ps_flags]. repeat (split; [reflexivity|]).
  intro n0. rewrite Z.lor_spec, orb_true_iff. reflexivity.
Qed.

Lemma psf_stats_keyerror : forall mbobs o, In o (List.concat mbobs) ->
  (po_result o = None \/ exists r, po_result o = Some r /\ (pr_T r = None \/ (pr_e r = None /\ pr_g r = None))) ->
  get_psf_stats mbobs 0 = Raise KeyError.
Proof.
  intros mbobs o Ho Hbad. unfold get_psf_stats. cbn [Z.eqb negb].
  assert (E : forall l s, In o l -> ofold add_psf l s = Raise KeyError).
  { induction l as [|x l IH]; intros s [].
    - subst x. cbn [ofold]. destruct s as [[[a b] c] d]. unfold add_psf.
      destruct Hbad as [->|[r [-> [->|[-> ->]]]]]; try reflexivity.
      now destruct (pr_T r).
    - cbn [ofold]. destruct (add_psf s x) as [t|e] eqn:Ex; cbn [obind]; [now apply IH|].
      revert Ex. destruct s as [[[a b] c] d]. unfold add_psf.
      destruct (po_result x) as [r|]; [|now intros [= <-]].
      destruct (pr_T r); [|now intros [= <-]].
      destruct (match pr_e r with Some e0 => Some e0 | None => pr_g r end) as [[g1 g2]|];
        [discriminate|now intros [= <-]]. }
  now rewrite E.
Qed.

(** fit_all_psfs *)
Lemma fit_all_ok : forall fit bands k,
  (forall i, (k <= i < k + List.length bands)%nat -> pr_flags (fit i) = 0) ->
  fit_all_psfs_from fit k (map (fun o => [o]) bands) =
    (map (fun io => [mkPobs (po_maxw (snd io)) (Some (fit (fst io)))]) (combine (seq k (List.length bands)) bands), Ok tt).
Proof.
  intros fit bands. induction bands as [|o bands IH]; intros k H; [reflexivity|].
  cbn [map fit_all_psfs_from List.length seq combine fst snd].
  rewrite (H k) by (cbn; lia). cbn [Z.eqb negb]. rewrite IH; [reflexivity|].
  intros i Hi. apply H. cbn. lia.
Qed.

Lemma fit_all_fail : forall fit bands k,
  (exists i, (k <= i < k + List.length bands)%nat /\ pr_flags (fit i) <> 0) ->
  exists mb, fit_all_psfs_from fit k (map (fun o => [o]) bands) = (mb, Raise BootPSFFailure) /\
    List.length mb = List.length bands.
Proof.
  intros fit bands. induction bands as [|o bands IH]; intros k [i [Hi Hf]].
  - cbn in Hi. lia.
  - cbn [map fit_all_psfs_from]. destruct (Z.eqb_spec (pr_flags (fit k)) 0) as [E|N]; cbn [negb].
    + destruct (IH (S k)) as [mb [Em El]].
      { exists i. split; [|assumption]. cbn in Hi. destruct (Nat.eq_dec i k); [subst; contradiction|lia]. }
      rewrite Em. eexists. split; [reflexivity|]. cbn. now rewrite El.
    + eexists. split; [reflexivity|]. cbn. now rewrite map_length.
Qed.

Lemma omap_py_index_in : forall A (l : list A) bs,
  (forall b, In b bs -> 0 <= b < zlen l) -> exists r, omap (py_index l) bs = Ok r /\ List.length r = List.length bs.
Proof.
  intros A l bs. induction bs as [|b bs IH]; intro H; [now exists []|].
  cbn [omap]. destruct IH as [r [E El]]; [intros; apply H; now right|].
  assert (Hb : 0 <= b < zlen l) by (apply H; now left).
  unfold py_index at 1. destruct (Z.ltb_spec b 0); [lia|].
  destruct (Z.leb_spec 0 b); [|lia]. destruct (Z.ltb_spec b (zlen l)); [|lia]. cbn [andb].
  destruct (nth_error l (Z.to_nat b)) as [v|] eqn:En.
  - cbn [obind]. rewrite E. cbn [obind]. eexists. split; [reflexivity|]. cbn. now rewrite El.
  - apply nth_error_None in En. unfold zlen in *. lia.
Qed.

Lemma psf_columns_fail : forall fit bands sb,
  (exists i, (i < List.length bands)%nat /\ pr_flags (fit i) <> 0) ->
  (forall b, In b sb -> 0 <= b < zlen bands) ->
  exists s, psf_columns fit (map (fun o => [o]) bands) sb = Ok s /\
    ps_g1 s = None /\ ps_g2 s = None /\ ps_T s = None /\ ps_flags s = flag_value PSF_FAILURE.
Proof.
  intros fit bands sb [i [Hi Hf]] Hsb. unfold psf_columns, fit_all_psfs.
  destruct (fit_all_fail fit bands O) as [mb [E El]]; [exists i; split; [lia|assumption]|].
  rewrite E. cbn [obind].
  destruct (omap_py_index_in _ mb sb) as [r [Er _]].
  { intros b Hb. specialize (Hsb b Hb). unfold zlen in *. now rewrite El. }
  rewrite Er. cbn [obind]. eexists. split; [reflexivity|]. now cbn.
Qed.

Lemma py_index_map_combine : forall bands (fit : nat -> psfres) b, 0 <= b < zlen bands ->
  exists o, nth_error bands (Z.to_nat b) = Some o /\
   py_index (map (fun io => [mkPobs (po_maxw (snd io)) (Some (fit (fst io)))])
                 (combine (seq 0 (List.length bands)) bands)) b
   = Ok [mkPobs (po_maxw o) (Some (fit (Z.to_nat b)))].
Proof.
  intros bands fit b Hb. unfold zlen in Hb.
  destruct (nth_error bands (Z.to_nat b)) as [o|] eqn:E.
  - exists o. split; [reflexivity|]. unfold py_index, zlen.
    rewrite map_length, combine_length, seq_length, Nat.min_id.
    destruct (Z.ltb_spec b 0); [lia|]. destruct (Z.leb_spec 0 b); [|lia].
    destruct (Z.ltb_spec b (Z.of_nat (List.length bands))); [|lia]. cbn [andb].
    rewrite (map_nth_error (fun io => [mkPobs (po_maxw (snd io)) (Some (fit (fst io)))]) (Z.to_nat b) _ (d := (Z.to_nat b, o))); [reflexivity|].
    assert (G : forall k n, nth_error bands n = Some o ->
      nth_error (combine (seq k (List.length bands)) bands) n = Some ((k + n)%nat, o)).
    { clear. induction bands as [|x bands IH]; intros k n Hn; [now destruct n|].
      destruct n as [|n].
      - cbn in Hn. apply Some_inj in Hn. subst. cbn. now rewrite Nat.add_0_r.
      - cbn in Hn. cbn [List.length seq combine nth_error]. rewrite (IH (S k) n Hn).
        f_equal. f_equal. lia. }
    exact (G O _ E).
  - apply nth_error_None in E. lia.
Qed.

Lemma psf_columns_ok : forall fit bands sb os vals,
  (forall i, (i < List.length bands)%nat -> pr_flags (fit i) = 0) ->
  Forall2 (fun b o => 0 <= b < zlen bands /\ nth_error bands (Z.to_nat b) = Some o) sb os ->
  Forall2 (fun b v => psf_values (mkPobs 0 (Some (fit (Z.to_nat b)))) v) sb vals ->
  let ws := map po_maxw os in
  exists s, psf_columns fit (map (fun o => [o]) bands) sb = Ok s /\
    ((0 < qsum ws)%Q -> exists g1 g2 T, s = mkStats 0 (Some g1) (Some g2) (Some T) /\
        (g1 == wmean ws (map (fun v => fst (fst v)) vals) /\ g2 == wmean ws (map (fun v => snd (fst v)) vals) /\
         T == wmean ws (map snd vals))%Q) /\
    ((qsum ws <= 0)%Q -> s = mkStats (flag_value PSF_FAILURE) None None None).
Proof.
  intros fit bands sb os vals Hf Hsb Hv ws. unfold psf_columns, fit_all_psfs.
  rewrite fit_all_ok by (intros; apply Hf; lia). cbn [obind].
  set (mb := map _ (combine _ _)).
  assert (E : exists sel, omap (py_index mb) sb = Ok sel /\ map po_maxw (List.concat sel) = ws /\
              Forall2 psf_values (List.concat sel) vals).
  { unfold ws. clear ws. revert vals Hv. induction Hsb as [|b o sb os [Hb Eo] H IH]; intros vals Hv.
    - inversion Hv; subst. exists []. split; [reflexivity|]. split; [reflexivity|constructor].
    - inversion Hv as [|? v ? vals' Hv1 Hv2]; subst. destruct (IH vals' Hv2) as [sel [Es [Ew Ef]]].
      destruct (py_index_map_combine bands fit b Hb) as [o' [Eo' Ei]].
      rewrite Eo in Eo'. apply Some_inj in Eo'. subst o'. fold mb in Ei.
      cbn [omap]. rewrite Ei. cbn [obind]. rewrite Es. cbn [obind].
      eexists. split; [reflexivity|]. cbn [List.concat app map po_maxw]. split; [now rewrite Ew|].
      constructor; [|assumption]. exact Hv1. }
  destruct E as [sel [Es [Ew Ef]]]. rewrite Es. cbn [obind].
  destruct (psf_stats_ok sel vals Ef) as [s [E1 [E2 E3]]]. rewrite Ew in E2, E3.
  exists s. now repeat split.
Qed.

Lemma fit_all_epochs : forall fit mb mb' k, fit_all_psfs_from fit k mb = (mb', Ok tt) ->
  exists bands, mb = map (fun o => [o]) bands /\
    forall i, (k <= i < k + List.length bands)%nat -> pr_flags (fit i) = 0.
Proof.
  intros fit mb. induction mb as [|l mb IH]; intros mb' k H.
  - exists []. split; [reflexivity|]. cbn. intros; lia.
  - destruct l as [|o [|o' l]]; cbn [fit_all_psfs_from] in H; try discriminate.
    destruct (Z.eqb_spec (pr_flags (fit k)) 0) as [E0|N]; cbn [negb] in H; [|discriminate].
    destruct (fit_all_psfs_from fit (S k) mb) as [r e] eqn:E. inversion H; subst.
    destruct (IH _ _ E) as [bands [-> Hb]]. exists (o :: bands). split; [reflexivity|].
    intros i Hi. cbn in Hi. destruct (Nat.eq_dec i k); [now subst|]. apply Hb. lia.
Qed.
