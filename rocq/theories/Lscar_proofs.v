From Coq Require Import ZArith QArith List String Bool Lia Permutation.
From Verif Require Import Base Arr Median Flags_model Dict Lutil_model Lutil_spec Lutil_proofs Lexp_model Lexp_proofs Lmeas_model Lmeas_spec Lmeas_proofs
  Lsub_model Lsub_spec Lsub_proofs Lscar_model Lscar_spec.
Import ListNotations.
Local Open Scope string_scope.
Local Open Scope Z_scope.

Lemma copy_exposure_ok : forall e n, copy_exposure false e = Ok n -> n = e.
Proof.
  intros e n H. unfold copy_exposure, try_clone_psf in H. destruct (e_psf e) as [d|] eqn:D; cbn [obind] in H; [|discriminate].
  apply Ok_inj in H. subst n. unfold set_wcs, set_psf, clone_exposure. cbn [e_x0 e_y0 e_image e_var e_mask e_psf e_wcs]. destruct e. cbn in *. now subst.
Qed.
Lemma copy_mbexp_ok : forall l n, copy_mbexp false l = Ok n -> n = l.
Proof.
  intros l n H. unfold copy_mbexp in H. apply omap_ok_Forall2 in H. induction H as [|e n0 l l' E F IH]; [reflexivity|].
  apply copy_exposure_ok in E. now subst.
Qed.

Lemma Forall2_weaken : forall A B (R S : A -> B -> Prop), (forall a b, R a b -> S a b) -> forall x y, Forall2 R x y -> Forall2 S x y.
Proof. intros A B R S H x y F. induction F; constructor; auto. Qed.

(** The same surroundings with other exposures. *)
Definition with_bands (env : menv) (l : list exposure) : menv :=
  mkMenv l (m_detx0 env) (m_dety0 env) (m_detmask env) (m_cen env) (m_skypix env) (m_W env) (m_radec env) (m_gauss env) (m_pgauss env)
    (m_nanpos env) (m_no_attempt env) (m_detected env) (m_stamp_size env) (m_shear_bands env).

Section Scar.
Variables (P : Type) (add sub : P -> P -> P) (zero : P) (val : P -> Q).
Hypothesis E : exact_arith add sub zero.
Variables (env : menv) (names mbands : list string) (cat : list source) (fbox : Z -> box) (l : list (blend_source P)) (orig : images P).
Variable s0 : subtractor P.
Hypothesis Nm : NoDup mbands.
Hypothesis Nb : NoDup names.
Hypothesis Hi : incl names mbands.
Hypothesis Ni : NoDup (map (b_id P) l).
Hypothesis Hs : make_subtractor P sub mbands names (mbexp_box env) (foot_of cat fbox) l orig = Ok s0.
Hypothesis Hlen : List.length names = List.length (m_bands env).
Notation foot := (foot_of cat fbox).
Notation exps := (exposures P val names (m_bands env)).

Definition reachable (s : subtractor P) : Prop := exists p t, exec P add sub p [] s0 = (s, t, Ok tt).
Lemma reachable_start : reachable s0.
Proof. exists Done, []. reflexivity. Qed.
Lemma reachable_same : forall s, reachable s -> same_state P s0 s.
Proof. intros s (p & t & H). exact (proj1 (exec_made P add sub zero E mbands names _ foot l orig s0 Nm Nb Hi Ni Hs p s t _ H)). Qed.
Lemma reachable_good : forall s, reachable s -> good P s.
Proof.
  intros s R. apply (good_same P s0 s); [exact (reachable_same s R)|].
  exact (proj1 (made P sub mbands names _ foot l orig s0 Nm Nb Hi Ni Hs)).
Qed.

Definition clean (im : images P) (id : Z) : Prop :=
  forall band x y, In band names -> exists others,
    values_at P foot band x y (filter (fun b => negb (b_id P b =? id)) l) others /\ im band x y = minus_all P sub (orig band x y) others.

Lemma with_source_made : forall A s id (body : subtractor P -> outcome A) s' r, reachable s -> In id (map (b_id P) l) ->
  with_source P add sub s id body = (s', r) ->
  reachable s' /\ exists im, clean im id /\ r = body (with_cur P s im).
Proof.
  intros A s id body s' r R I H. unfold with_source in H.
  pose proof (reachable_same s R) as (A1 & A2 & A3 & A4 & A5). pose proof (reachable_good s R) as G.
  destruct (made P sub mbands names _ foot l orig s0 Nm Nb Hi Ni Hs) as (_ & _ & _ & _ & _ & He & _).
  assert (X : exists e, zget id (s_entries P s) = Some e).
  { rewrite A3, He. apply in_map_iff in I. destruct I as (b & <- & I). rewrite zget_map by assumption. eauto. }
  destruct X as [e Ee]. unfold check_source_id in H. rewrite Ee in H.
  destruct (add_or_subtract_value P add s id e G Ee) as (im1 & H1 & V1). rewrite H1 in H.
  set (s1 := with_cur P s im1) in *.
  assert (G1 : good P s1) by (destruct G; split; auto).
  assert (Ee1 : zget id (s_entries P s1) = Some e) by exact Ee.
  destruct (add_or_subtract_value P sub s1 id e G1 Ee1) as (im2 & H2 & V2). rewrite H2 in H.
  apply pair_equal_spec in H. destruct H as [<- <-].
  destruct R as (p & t & Hp).
  assert (Hp' : exec P add sub (Seq p (Catch (Add id Look))) [] s0 = (with_cur P s1 im2, (t ++ [([id], im1)])%list, Ok tt)).
  { cbn [exec]. rewrite Hp. unfold check_source_id. rewrite Ee, H1. fold s1. rewrite H2. reflexivity. }
  split; [eexists; eexists; exact Hp'|]. exists im1. split; [|reflexivity].
  intros band x y Hb.
  assert (It : In ([id], im1) (t ++ [([id], im1)])%list) by (apply in_or_app; right; now left).
  exact (one_open P add sub zero E mbands names _ foot l orig s0 Nm Nb Hi Ni Hs _ _ _ _ id im1 Hp' It band x y Hb).
Qed.

(** *** The exposures of the copy *)
Lemma exps_box : forall im, mbexp_box (with_bands env (exps im)) = mbexp_box env.
Proof.
  intro im. unfold mbexp_box, exposures. cbn [m_bands with_bands]. clear - Hlen. destruct names as [|n ns], (m_bands env) as [|e es]; try reflexivity; discriminate.
Qed.
Lemma exps_map : forall im A (f : exposure -> A), (forall ne, f (band_exposure P val im ne) = f (snd ne)) -> map f (exps im) = map f (m_bands env).
Proof.
  intros im A f H. unfold exposures. rewrite map_map, (map_ext _ (fun ne => f (snd ne)) H). rewrite <- (map_map snd f).
  f_equal. clear - Hlen. revert Hlen. generalize (m_bands env). clear. induction names as [|n ns IH]; intros [|e es] L; cbn in *; try discriminate; [reflexivity|]. f_equal. apply IH. lia.
Qed.
Lemma exps_In : forall im e', In e' (exps im) -> exists e, In e (m_bands env) /\ exp_box e' = exp_box e /\ e_var e' = e_var e /\ e_x0 e' = e_x0 e /\ e_y0 e' = e_y0 e.
Proof.
  intros im e' I. unfold exposures in I. apply in_map_iff in I. destruct I as ([n e] & <- & I). exists e.
  split; [eapply in_combine_r; exact I|]. repeat split; reflexivity.
Qed.
Lemma exps_In_inv : forall im e, In e (m_bands env) -> exists e', In e' (exps im) /\ e_var e' = e_var e /\ e_x0 e' = e_x0 e /\ e_y0 e' = e_y0 e.
Proof.
  intros im e I. unfold exposures.
  assert (X : exists n, In (n, e) (combine names (m_bands env))).
  { revert Hlen I. generalize (m_bands env). clear. induction names as [|n ns IH]; intros [|b es] L I; cbn in *; try discriminate; [destruct I|].
    destruct I as [->|I]; [exists n; now left|]. destruct (IH es) as [m M]; [lia|exact I|]. exists m. now right. }
  destruct X as [n X]. exists (band_exposure P val im (n, e)). split; [apply in_map; exact X|]. repeat split; reflexivity.
Qed.
Lemma exps_one_box : forall im, one_box (m_bands env) -> one_box (m_bands (with_bands env (exps im))).
Proof.
  intros im O a b Ia Ib. cbn [m_bands with_bands] in Ia, Ib. apply exps_In in Ia. apply exps_In in Ib.
  destruct Ia as (a' & Ia & -> & _). destruct Ib as (b' & Ib & -> & _). now apply O.
Qed.
Lemma exps_inside : forall im s, stamp_inside (with_bands env (exps im)) s <-> stamp_inside env s.
Proof.
  intros im s. unfold stamp_inside. assert (C : forall x y, covered (m_bands (with_bands env (exps im))) x y <-> covered (m_bands env) x y).
  { intros x y. rewrite <- !box_covered, exps_box. reflexivity. }
  cbn [m_stamp_size with_bands] in *. cbv zeta. split; intros H x y x' y' Ep Hx Hy; apply C, (H x y x' y' Ep Hx Hy).
Qed.
Lemma exps_unusable : forall im s, some_band_unusable (with_bands env (exps im)) s <-> some_band_unusable env s.
Proof.
  intros im s. unfold some_band_unusable. cbn [m_bands m_stamp_size with_bands]. split.
  - intros (x & y & e & F & I & U). apply exps_In in I. destruct I as (e' & I & _ & Ev & Ex & Ey). exists x, y, e'.
    split; [exact F|]. split; [exact I|]. unfold stamp_variances in *. now rewrite Ev, Ex, Ey in U.
  - intros (x & y & e & F & I & U). apply (exps_In_inv im) in I. destruct I as (e' & I & Ev & Ex & Ey). exists x, y, e'.
    split; [exact F|]. split; [exact I|]. unfold stamp_variances in *. now rewrite Ev, Ex, Ey.
Qed.

Lemma sub_mbobs_made : forall s id src im, reachable s -> In id (map (b_id P) l) -> find_source cat id = Some src ->
  sub_mbobs P val env names (m_bands env) cat false (with_cur P s im) id = source_mbobs (with_bands env (exps im)) src.
Proof.
  intros s id src im R I F. unfold sub_mbobs, sub_bbox, check_source_id. cbn [with_cur s_entries].
  pose proof (reachable_same s R) as (A1 & A2 & A3 & A4 & A5).
  destruct (made P sub mbands names _ foot l orig s0 Nm Nb Hi Ni Hs) as (_ & Gs & _ & Hb & _ & He & _).
  apply in_map_iff in I. destruct I as (b & Eb & I).
  assert (Ee : zget id (s_entries P s) = Some (mkEntry P (fbox id) (s_peaks src) (to_heavy P mbands b))).
  { rewrite A3, He. rewrite <- Eb, zget_map by assumption. unfold entry_of, foot_of. rewrite Eb, F. reflexivity. }
  rewrite Ee. cbn [obind en_peaks s_box with_cur]. rewrite A2, Hb. unfold source_mbobs. rewrite exps_box. cbn [m_stamp_size with_bands m_bands].
  destruct (get_bbox _ _ _ _) as [bx|]; cbn [obind]; [|reflexivity]. rewrite F. cbn [some_or_attr obind s_cur with_cur].
  reflexivity.
Qed.

(** *** The observations of an isolated source *)
Lemma omap_Forall2_raw : forall A B (f : A -> outcome B) a b, Forall2 (fun x y => f x = Ok y) a b -> omap f a = Ok b.
Proof. induction 1 as [|x y a b H F IH]; [reflexivity|]. cbn. rewrite H. cbn. rewrite IH. reflexivity. Qed.

Lemma band_obs_image : forall s b im n e o, band_obs (with_bands env (exps im)) s b (band_exposure P val im (n, e)) = Ok o ->
  exists o0, band_obs env s b e = Ok o0 /\ same_but_image o o0 /\
  exists c, b = Some c /\ nr (o_image o) = by1 c - by0 c + 1 /\ nc (o_image o) = bx1 c - bx0 c + 1 /\
    forall i j, px (o_image o) i j = val (im n (bx0 c + j) (by0 c + i)).
Proof.
  intros s b im n e o H. unfold band_obs in *. cbn [m_W m_skypix m_cen m_nanpos with_bands] in H.
  destruct b as [c|]; [|discriminate]. unfold sub_exp in *.
  assert (EB : exp_box (band_exposure P val im (n, e)) = exp_box e) by reflexivity. rewrite EB in H.
  destruct (contains_box (exp_box e) (Some c)); cbn [obind] in *; [|discriminate].
  destruct (first_peak s) as [pk|]; cbn [obind] in *; [|discriminate].
  unfold extract_obs in *. cbn [e_x0 e_y0 e_image e_var e_mask e_psf e_wcs band_exposure snd fst] in H.
  set (w := extract_weight (mkExp _ _ _ _ _ _ _)) in H at 1.
  assert (Ew : w = extract_weight (mkExp (bx0 c) (by0 c) (cut e c (e_image e)) (cut e c (e_var e)) (cut e c (e_mask e)) (e_psf e) (e_wcs e))) by reflexivity.
  rewrite Ew in H. clear w Ew. destruct (forallb _ _); [discriminate|].
  match type of H with context [get_jacobian ?W ?ee ?u ?v] =>
    change (get_jacobian W ee u v) with (get_jacobian W (mkExp (bx0 c) (by0 c) (cut e c (e_image e)) (cut e c (e_var e)) (cut e c (e_mask e)) (e_psf e) (e_wcs e)) u v) in H end.
  destruct (get_jacobian _ _ _ _) as [jac|]; cbn [obind] in *; [|discriminate].
  cbn [e_psf] in *. destruct (some_or_attr (e_psf e)) as [d|]; cbn [obind] in *; [|discriminate].
  destruct (negb _); [discriminate|]. apply Ok_inj in H. subst o. eexists. split; [reflexivity|].
  split; [repeat split; reflexivity|]. exists c. split; [reflexivity|]. cbn [o_image]. split; [reflexivity|]. split; [reflexivity|].
  intros i j. cbn [cut px e_image e_x0 e_y0 fst snd]. change (e_x0 (band_exposure P val im (n, e))) with (e_x0 e). change (e_y0 (band_exposure P val im (n, e))) with (e_y0 e). f_equal. f_equal; lia.
Qed.

Lemma isolated_ok : forall s im obs, clean im (s_id s) -> 0 <= m_stamp_size env -> s_peaks s <> [] ->
  source_mbobs (with_bands env (exps im)) s = Ok obs -> isolated P sub val env names foot orig l s obs.
Proof.
  intros s im obs C Sz Np H. unfold source_mbobs in H. rewrite exps_box in H. cbn [m_stamp_size with_bands m_bands] in H.
  destruct (get_bbox (mbexp_box env) (s_peaks s) (m_stamp_size env) false) as [b|] eqn:Eb; cbn [obind] in H; [|discriminate].
  apply omap_ok_Forall2 in H. unfold exposures in H.
  assert (Hc : forall ne, In ne (combine names (m_bands env)) -> In (fst ne) names) by (intros [n e] I; eapply in_combine_l; exact I).
  assert (G : Forall2 (fun ne o => exists o0, In (fst ne) names /\ band_obs env s b (snd ne) = Ok o0 /\ same_but_image o o0 /\
       exists c, b = Some c /\ nr (o_image o) = by1 c - by0 c + 1 /\ nc (o_image o) = bx1 c - bx0 c + 1 /\
       forall i j, px (o_image o) i j = val (im (fst ne) (bx0 c + j) (by0 c + i))) (combine names (m_bands env)) obs).
  { revert obs H Hc. generalize (combine names (m_bands env)). induction l0 as [|[n e] ne IH]; intros obs H Hc; inversion H; subst; constructor.
    - destruct (band_obs_image _ _ _ _ _ _ H2) as (o0 & A & B & D). exists o0. split; [apply Hc; now left|]. auto.
    - apply IH; [assumption|]. intros. apply Hc. now right. }
  clear H. split.
  - assert (X : exists obs0, Forall2 (fun e o => band_obs env s b e = Ok o) (m_bands env) obs0 /\ Forall2 same_but_image obs obs0).
    { assert (G' : Forall2 (fun ne o => exists o0, band_obs env s b (snd ne) = Ok o0 /\ same_but_image o o0) (combine names (m_bands env)) obs)
        by (eapply Forall2_weaken; [|exact G]; cbv beta; intros ne o (o0 & _ & A & B & _); eauto).
      clear G. rename G' into G. revert obs G Hlen. clear. generalize (m_bands env). induction names as [|n ns IH]; intros [|e es] obs G L; try discriminate; cbn in G; inversion G; subst.
      - exists []. split; constructor.
      - destruct H1 as (o0 & A & B). destruct (IH es l' H3) as (obs0 & F1 & F2); [cbn in L; lia|]. exists (o0 :: obs0). split; constructor; auto. }
    destruct X as (obs0 & F1 & F2). exists obs0. split; [|exact F2]. unfold source_mbobs. rewrite Eb. cbn [obind]. now apply omap_Forall2_raw.
  - assert (X : Forall2 (fun n o => In n names /\ exists c, b = Some c /\ nr (o_image o) = by1 c - by0 c + 1 /\ nc (o_image o) = bx1 c - bx0 c + 1 /\
       forall i j, px (o_image o) i j = val (im n (bx0 c + j) (by0 c + i))) names obs).
    { set (P0 := fun n => In n names) in *. revert obs G Hlen. generalize (m_bands env).
      assert (Y : forall ns es obs, Forall2 (fun ne o => exists o0, P0 (fst ne) /\ band_obs env s b (snd ne) = Ok o0 /\ same_but_image o o0 /\
         exists c, b = Some c /\ nr (o_image o) = by1 c - by0 c + 1 /\ nc (o_image o) = bx1 c - bx0 c + 1 /\
         forall i j, px (o_image o) i j = val (im (fst ne) (bx0 c + j) (by0 c + i))) (combine ns es) obs -> List.length ns = List.length es ->
         Forall2 (fun n o => P0 n /\ exists c, b = Some c /\ nr (o_image o) = by1 c - by0 c + 1 /\ nc (o_image o) = bx1 c - bx0 c + 1 /\
       forall i j, px (o_image o) i j = val (im n (bx0 c + j) (by0 c + i))) ns obs).
      { induction ns as [|n ns IH]; intros [|e es] obs G L; try discriminate; cbn in G; inversion G; subst; constructor.
        - destruct H1 as (o0 & A & _ & _ & B). auto.
        - apply (IH es); [assumption|cbn in L; lia]. }
      intros es obs G L. exact (Y names es obs G L). }
    clear G Hc. eapply Forall2_weaken; [|exact X]. clear X. intros n o (In_n & c & -> & R1 & R2 & V). unfold shows_minus. intros x y Fp. set (k := m_stamp_size env / 2).
    destruct (s_peaks s) as [|p pks] eqn:Ep; [congruence|]. cbn [hd_error] in Fp. apply Some_inj in Fp. subst p.
    assert (Hk : 0 <= k) by (apply Z.div_pos; lia).
    unfold get_bbox in Eb. fold k in Eb. unfold grow, norm_box in Eb. cbn [bx0 by0 bx1 by1] in Eb.
    rewrite (proj2 (Z.ltb_ge (x + k) (x - k))), (proj2 (Z.ltb_ge (y + k) (y - k))) in Eb by lia. cbn [orb] in Eb.
    destruct (contains_box (mbexp_box env) _); [|discriminate]. apply Ok_inj, Some_inj in Eb. subst c. cbn [bx0 by0 bx1 by1] in *.
    split; [lia|]. split; [lia|]. intros i j. rewrite V. destruct (C n (x - k + j) (y - k + i) In_n) as (ms & A & B). exists ms. split; [exact A|]. now rewrite B.
Qed.

(** *** The loop *)
Lemma scar_loop_ok : forall label bmasks ids i s s' rows, reachable s -> incl ids (map (b_id P) l) ->
  scar_loop P add sub val env names (m_bands env) cat label bmasks i s ids = (s', Ok rows) ->
  reachable s' /\ Forall2 (fun id r => exists src im flags g p bmask, find_source cat id = Some src /\ clean im id /\
    stamp_case env label (source_mbobs (with_bands env (exps im)) src) flags g p /\ get_output env src (base_row flags g p) bmask = Ok r) ids rows.
Proof.
  intros label bmasks. induction ids as [|id ids IH]; intros i s s' rows R I H; cbn [scar_loop] in H.
  - apply pair_equal_spec in H. destruct H as [<- H]. apply Ok_inj in H. subst rows. split; [exact R|constructor].
  - destruct (find_source cat id) as [src|] eqn:F; [|apply pair_equal_spec in H; destruct H; discriminate].
    destruct (with_source P add sub s id _) as [s1 st] eqn:W.
    destruct (with_source_made _ _ _ _ _ _ R (I id (or_introl eq_refl)) W) as (R1 & im & C & ->).
    rewrite (sub_mbobs_made _ _ src im R (I id (or_introl eq_refl)) F) in H.
    destruct (measure_one _ _ _ _ _ _) as [x|] eqn:M; [|apply pair_equal_spec in H; destruct H; discriminate].
    destruct (scar_loop P add sub val env names (m_bands env) cat label bmasks (S i) s1 ids) as [s2 o] eqn:L.
    apply pair_equal_spec in H. destruct H as [<- H]. destruct o as [rs|]; cbn [obind] in H; [|discriminate]. apply Ok_inj in H. subst rows.
    destruct (IH (S i) s1 s2 rs R1 (fun a Ha => I a (or_intror Ha)) L) as [R2 F2]. split; [exact R2|]. constructor; [|exact F2].
    apply measure_one_ok in M. destruct M as (flags & g & p & bm & _ & Sc & Go). exists src, im, flags, g, p, bm. auto.
Qed.
Lemma scar_loop_reach : forall label bmasks ids i s s' o, reachable s -> incl ids (map (b_id P) l) ->
  scar_loop P add sub val env names (m_bands env) cat label bmasks i s ids = (s', o) -> reachable s'.
Proof.
  intros label bmasks. induction ids as [|id ids IH]; intros i s s' o R I H; cbn [scar_loop] in H.
  - apply pair_equal_spec in H. destruct H as [<- _]. exact R.
  - destruct (find_source cat id) as [src|] eqn:F; [|apply pair_equal_spec in H; destruct H as [<- _]; exact R].
    destruct (with_source P add sub s id _) as [s1 st] eqn:W.
    destruct (with_source_made _ _ _ _ _ _ R (I id (or_introl eq_refl)) W) as (R1 & im & C & ->).
    destruct (measure_one _ _ _ _ _ _) as [x|] eqn:M; [|apply pair_equal_spec in H; destruct H as [<- _]; exact R1].
    destruct (scar_loop P add sub val env names (m_bands env) cat label bmasks (S i) s1 ids) as [s2 o2] eqn:L.
    apply pair_equal_spec in H. destruct H as [<- _]. eapply (IH (S i) s1 s2 o2 R1); [|exact L]. intros a Ha. apply I. now right.
Qed.
End Scar.

(** ** The mask column *)
Lemma scar_loop_masks : forall P add sub val env names bands cat label bmasks ids i s s' rows,
  scar_loop P add sub val env names bands cat label bmasks i s ids = (s', Ok rows) ->
  forall n r, nth_error rows n = Some r -> exists bm, nth_error bmasks (i + n) = Some bm /\
    sget "bmask" r = Some (CInt (Z.land bm (Z.lnot (m_detected env)))).
Proof.
  intros P add sub val env names bands cat label bmasks. induction ids as [|id ids IH]; intros i s s' rows H n r En; cbn [scar_loop] in H.
  - apply pair_equal_spec in H. destruct H as [_ H]. apply Ok_inj in H. subst rows. destruct n; discriminate.
  - destruct (find_source cat id) as [src|] eqn:F; [|apply pair_equal_spec in H; destruct H; discriminate].
    destruct (with_source P add sub s id _) as [s1 st] eqn:W.
    destruct (measure_one _ _ _ _ _ _) as [x|] eqn:M; [|apply pair_equal_spec in H; destruct H; discriminate].
    destruct (scar_loop P add sub val env names bands cat label bmasks (S i) s1 ids) as [s2 o] eqn:L.
    apply pair_equal_spec in H. destruct H as [<- H]. destruct o as [rs|]; cbn [obind] in H; [|discriminate]. apply Ok_inj in H. subst rows.
    destruct n as [|n]; cbn [nth_error] in En.
    + apply Some_inj in En. subst x. apply measure_one_ok in M. destruct M as (flags & g & p & bm & B & _ & Go). exists bm.
      rewrite Nat.add_0_r. split; [exact B|]. apply output_facts in Go. apply Go.
    + destruct (IH (S i) s1 s2 rs L n r En) as (bm & B & X). exists bm. split; [|exact X]. now rewrite <- plus_n_Sm.
Qed.
Lemma scarlet_masks : forall P add sub val env names mbands fbox blends orig label cat after rows,
  measure_scarlet P add sub val env names mbands fbox blends orig label cat = (after, Ok (Some rows)) -> masks_by_position env cat rows.
Proof.
  intros P add sub val env names mbands fbox blends orig label cat after rows H n r En.
  unfold measure_scarlet in H. destruct cat as [|c0 cat']; [apply pair_equal_spec in H; destruct H; discriminate|].
  set (cat := c0 :: cat') in *. destruct (m_shear_bands env) as [sb|]; cbn [obind] in H; [|apply pair_equal_spec in H; destruct H; discriminate].
  destruct (get_bmasks env cat) as [bms|] eqn:Bm; cbn [obind] in H; [|apply pair_equal_spec in H; destruct H; discriminate].
  destruct (copy_mbexp false (m_bands env)) as [bands|] eqn:Eb; cbn [obind] in H; [|apply pair_equal_spec in H; destruct H; discriminate].
  destruct (make_subtractor _ _ _ _ _ _ _ _) as [s0|] eqn:Es in H; cbn [obind] in H; [|apply pair_equal_spec in H; destruct H; discriminate].
  destruct (scar_loop _ _ _ _ _ _ _ _ _ _ _ _ _) as [s' o] eqn:L in H.
  apply pair_equal_spec in H. destruct H as [_ H]. destruct o as [rs|]; cbn [obind] in H; [|discriminate].
  assert (rs = rows). { destruct rs; [discriminate|]. apply Ok_inj, Some_inj in H. exact H. } subst rs.
  destruct (scar_loop_masks _ _ _ _ _ _ _ _ _ _ _ _ _ _ _ L n r En) as (bm & B & X).
  destruct (bmasks_nth _ _ _ _ _ Bm B) as (s & E & Mp). eauto.
Qed.

(** ** Flags and columns of one row *)
Lemma row_facts : forall env env' label s flags g p bmask r,
  m_stamp_size env' = m_stamp_size env -> 0 <= m_stamp_size env -> one_box (m_bands env') ->
  (stamp_inside env' s <-> stamp_inside env s) -> (some_band_unusable env' s <-> some_band_unusable env s) ->
  stamp_case env label (source_mbobs env' s) flags g p -> get_output env s (base_row flags g p) bmask = Ok r ->
  s_peaks s <> [] /\ at_position env s r /\ at_sky env s r /\ sget "stamp_flags" r = Some (CInt flags) /\
  (flags = 2 ^ 20 <-> ~ stamp_inside env s) /\
  (flags = 2 ^ 25 <-> stamp_inside env s /\ some_band_unusable env s) /\
  (flags = 0 <-> stamp_inside env s /\ ~ some_band_unusable env s) /\
  (flags = 0 -> exists obs, source_mbobs env' s = Ok obs /\ m_gauss env obs = Ok g /\ m_pgauss env obs = Ok p /\ has_fits g p r) /\
  (flags <> 0 -> not_attempted env r /\ sget "shear_bands" r = Some (CStr label)).
Proof.
  intros env env' label s fl g p bm r Ez Sz Ob Ei Eu S G.
  assert (Pk : s_peaks s <> []). { apply get_output_ok in G. destruct G as (x & y & px & py & pks & b & _ & -> & _). discriminate. }
  split; [exact Pk|]. apply output_facts in G. destruct G as (_ & G1 & G2 & G3 & G4 & _).
  split; [exact G1|]. split; [exact G2|]. split; [exact G4|].
  assert (Sz' : 0 <= m_stamp_size env') by (rewrite Ez; exact Sz).
  pose proof (stamp_edge env' s Sz' Ob Pk) as T1. pose proof (stamp_zero env' s Sz' Pk) as T2. pose proof (stamp_ok env' s Sz' Pk) as T3.
  rewrite Ei in T1, T2. rewrite Eu in T2. setoid_rewrite Ei in T3. setoid_rewrite Eu in T3.
  assert (Def : g = default_cell env label -> p = default_cell env "nan" -> not_attempted env r /\ sget "shear_bands" r = Some (CStr label)).
  { intros -> ->. destruct G3 as [Ga Gb]. split.
    - intros c I Nsb. apply in_app_or in I.
      assert (D : forall l, default_cell env l c = if has_sub "flags" c then CInt (m_no_attempt env) else CNum None).
      { intro l. unfold default_cell. destruct (String.eqb_spec c "shear_bands"); [congruence|reflexivity]. }
      destruct I as [I|I]; [rewrite (Ga c I)|rewrite (Gb c I)]; now rewrite D.
    - rewrite (Ga "shear_bands") by (cbn; tauto). reflexivity. }
  unfold stamp_case in S. destruct (source_mbobs env' s) as [obs|e] eqn:Eo.
  - destruct S as (-> & S1 & S2). destruct (T3 obs eq_refl) as (I & U & Lo).
    split; [split; [intro X; discriminate|tauto]|]. split; [split; [intro X; discriminate|tauto]|]. split; [tauto|].
    split; [intros _; exists obs; auto|congruence].
  - assert (Cs : (e = LengthError \/ e = OtherError 1%nat) /\ g = default_cell env label /\ p = default_cell env "nan" /\
      fl = (if match e with LengthError => true | _ => false end then 2 ^ 20 else 2 ^ 25)).
    { destruct e; try contradiction; [tauto|]. destruct n as [|[|n]]; try contradiction. tauto. }
    destruct Cs as ([-> | ->] & Sg & Sp & Sf); specialize (Def Sg Sp); cbn in Sf; rewrite Sf.
    + destruct T1 as [T1 _]. specialize (T1 eq_refl). split; [split; [auto|reflexivity]|]. split; [split; [discriminate|tauto]|].
      split; [split; [discriminate|tauto]|]. split; [discriminate|auto].
    + destruct (T2 eq_refl) as [I U]. split; [split; [discriminate|tauto]|]. split; [tauto|]. split; [split; [discriminate|tauto]|]. split; [discriminate|auto].
Qed.
