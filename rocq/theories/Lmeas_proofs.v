From Coq Require Import ZArith QArith List String Bool Lia Permutation.
From Verif Require Import Base Arr Median Flags_model Dict Lutil_model Lutil_spec Lutil_proofs Lexp_model Lexp_spec Lexp_proofs Lmeas_model Lmeas_spec.
Import ListNotations.
Local Open Scope string_scope.
Local Open Scope Z_scope.

(** ** The row of one source *)
Lemma combined_ok : forall g p, combined_struct (struct "gauss" g) (struct "pgauss" p) =
  Ok (map (fun c => (c, g c)) gauss_columns ++ ("stamp_flags", CInt 0) :: map (fun c => (c, p c)) pgauss_columns)%list.
Proof. intros g p. vm_compute. reflexivity. Qed.

Definition base_row (flags : Z) (g p : string -> cell) : row :=
  (map (fun c => (c, g c)) gauss_columns ++ ("stamp_flags", CInt flags) :: map (fun c => (c, p c)) pgauss_columns)%list.

Lemma get_output_ok : forall env s flags g p bmask r, get_output env s (base_row flags g p) bmask = Ok r ->
  exists x y px py pks b,
    (x, y) = match m_cen env (s_id s) with Some c => c | None => s_peakpos s end /\
    s_peaks s = (px, py) :: pks /\ mbexp_box env = Some b /\
    r = (base_row flags g p ++
      [("stamp_size", CInt (m_stamp_size env)); ("row0", CInt (by0 b)); ("col0", CInt (bx0 b));
       ("row", CNum (Some y)); ("col", CNum (Some x));
       ("row_diff", CNum (match m_cen env (s_id s) with Some c => Some (snd c - inject_Z py)%Q | None => None end));
       ("col_diff", CNum (match m_cen env (s_id s) with Some c => Some (fst c - inject_Z px)%Q | None => None end));
       ("ra", CNum (match m_cen env (s_id s) with Some c => Some (fst (m_radec env c)) | None => None end));
       ("dec", CNum (match m_cen env (s_id s) with Some c => Some (snd (m_radec env c)) | None => None end));
       ("psfrec_flags", CInt (m_no_attempt env)); ("psfrec_navg", CInt (-9999)); ("psfrec_g", CNum None); ("psfrec_T", CNum None);
       ("bmask", CInt (Z.land bmask (Z.lnot (m_detected env)))); ("ormask", CInt 0); ("mfrac", CNum None)])%list.
Proof.
  intros env s flags g p bmask r H. unfold get_output in H.
  assert (E : get_output_struct env (base_row flags g p) = Ok (base_row flags g p ++ map (fun nt => (fst nt, output_default env nt)) output_dtype)%list).
  { vm_compute. reflexivity. }
  rewrite E in H. clear E. cbn [obind] in H. unfold first_peak in H.
  destruct (s_peaks s) as [|[px py] pks] eqn:Ep; [discriminate|]. cbn [obind] in H.
  destruct (mbexp_box env) as [b|] eqn:Eb.
  2: { destruct (m_cen env (s_id s)) as [[x y]|]; [discriminate|]. destruct (s_peakpos s); discriminate. }
  destruct (m_cen env (s_id s)) as [[x y]|] eqn:Ec.
  - exists x, y, px, py, pks, b. repeat split. apply Ok_inj in H. rewrite <- H.
    set (a1 := m_radec env (x, y)). set (a2 := (x - inject_Z px)%Q). set (a3 := (y - inject_Z py)%Q).
    set (a4 := Z.land bmask (Z.lnot (m_detected env))). cbn [fst snd]. fold a1 a2 a3 a4.
    clearbody a1 a2 a3 a4. vm_compute. reflexivity.
  - destruct (s_peakpos s) as [x y]. exists x, y, px, py, pks, b. repeat split. apply Ok_inj in H. rewrite <- H.
    set (a4 := Z.land bmask (Z.lnot (m_detected env))). clearbody a4. vm_compute. reflexivity.
Qed.

Definition stamp_case (env : menv) (label : string) (st : outcome (list lobs)) (flags : Z) (g p : string -> cell) : Prop :=
  match st with
  | Ok obs => flags = 0 /\ m_gauss env obs = Ok g /\ m_pgauss env obs = Ok p
  | Raise LengthError => flags = flag_value EDGE_HIT /\ g = default_cell env label /\ p = default_cell env "nan"
  | Raise (OtherError 1) => flags = flag_value ZERO_WEIGHTS /\ g = default_cell env label /\ p = default_cell env "nan"
  | Raise _ => False
  end.

Lemma fit_stamp_ok : forall env label st fs, fit_stamp env label st = Ok fs ->
  exists flags g p, fs = (flags, struct "gauss" g, struct "pgauss" p) /\ stamp_case env label st flags g p.
Proof.
  intros env label [obs|e] fs H; unfold fit_stamp in H.
  - destruct (m_gauss env obs) as [g|] eqn:Eg; cbn [obind] in H; [|discriminate].
    destruct (m_pgauss env obs) as [p|] eqn:Ep; cbn [obind] in H; [|discriminate].
    apply Ok_inj in H. exists 0, g, p. split; [congruence|]. unfold stamp_case. auto.
  - unfold stamp_case. destruct e; try discriminate H.
    + apply Ok_inj in H. subst. do 3 eexists. split; [reflexivity|]. auto.
    + destruct n as [|[|n]]; try discriminate H. apply Ok_inj in H. subst. do 3 eexists. split; [reflexivity|]. auto.
Qed.

Lemma measure_one_ok : forall env label stamp bmasks i s r, measure_one env label stamp bmasks i s = Ok r ->
  exists flags g p bmask, nth_error bmasks i = Some bmask /\ stamp_case env label (stamp (s_id s)) flags g p /\
    get_output env s (base_row flags g p) bmask = Ok r.
Proof.
  intros env label stamp bmasks i s r H. unfold measure_one in H.
  destruct (nth_error bmasks i) as [bm|] eqn:Eb; cbn [obind] in H; [|discriminate].
  destruct (fit_stamp env label (stamp (s_id s))) as [fs|] eqn:Ef; cbn [obind] in H; [|discriminate].
  destruct (fit_stamp_ok _ _ _ _ Ef) as (flags & g & p & -> & C). clear Ef. cbn [fst snd] in H.
  rewrite combined_ok in H. cbn [obind] in H.
  exists flags, g, p, bm. split; [reflexivity|]. split; [exact C|]. rewrite <- H. f_equal.
Qed.

Lemma extract_obs_not_length : forall W e sky peak cen, extract_obs W e sky peak cen <> Raise LengthError.
Proof.
  intros W e sky peak cen H. unfold extract_obs in H. destruct (forallb _ _); [discriminate|].
  destruct (match sky with Some p => _ | None => _ end) as [x y]. destruct (get_jacobian _ _ _ _) eqn:J; cbn [obind] in H.
  + destruct (some_or_attr (e_psf e)) as [d|ex] eqn:D; cbn [obind] in H; [destruct (negb _); discriminate|].
    unfold some_or_attr in D. destruct (e_psf e); [discriminate|]. congruence.
  + unfold get_jacobian in J. destruct (e_wcs e); cbn in J; [discriminate|]. congruence.
Qed.

(** ** What the stamp gives *)
Lemma omap_raise : forall A B (f : A -> outcome B) l e, omap f l = Raise e -> exists a, In a l /\ f a = Raise e.
Proof.
  induction l as [|x l IH]; cbn [omap]; intros e H; [discriminate|].
  destruct (f x) as [y|] eqn:E; cbn [obind] in H; [|exists x; split; [now left|congruence]].
  destruct (omap f l) as [ys|e'] eqn:F; cbn [obind] in H; [discriminate|].
  destruct (IH e) as (a & I & X); [congruence|]. exists a. split; [now right|assumption].
Qed.

Lemma get_bbox_length : forall e pks s c, get_bbox e pks s c <> Raise (OtherError 1).
Proof. intros e [|[x y] pks] s [|]; cbn; try discriminate. destruct (contains_box _ _); discriminate. Qed.

Lemma cut_pixels : forall e k x y, 0 <= k -> pixels (cut e (mkBox (x - k) (y - k) (x + k) (y + k)) (e_var e)) = stamp_variances k x y e.
Proof.
  intros e k x y Hk. unfold pixels, stamp_variances, cut. cbn [nr nc px bx0 by0 bx1 by1].
  replace (y + k - (y - k) + 1) with (2 * k + 1) by lia. replace (x + k - (x - k) + 1) with (2 * k + 1) by lia.
  apply map_ext. intros [i j]. cbn [fst snd]. f_equal; lia.
Qed.

(** The box of the model is the set of covered pixels. *)
Lemma box_covered : forall env x y, in_box (mbexp_box env) x y <-> covered (m_bands env) x y.
Proof.
  intros env x y. unfold mbexp_box, covered. destruct (m_bands env) as [|e r]; [reflexivity|].
  unfold exp_box, norm_box. cbn [bx0 by0 bx1 by1].
  destruct (_ || _) eqn:E; cbn [in_box bx0 by0 bx1 by1].
  - split; [intros []|]. intros [H1 H2]. apply orb_true_iff in E. destruct E as [E|E]; apply Z.ltb_lt in E; lia.
  - lia.
Qed.
Lemma box_corner : forall env b r, mbexp_box env = Some b -> sget "row0" r = Some (CInt (by0 b)) -> sget "col0" r = Some (CInt (bx0 b)) ->
  at_corner (m_bands env) r.
Proof.
  intros env b r H A B. unfold mbexp_box in H. unfold at_corner. destruct (m_bands env) as [|e l]; [discriminate|].
  unfold exp_box, norm_box in H. destruct (_ || _); [discriminate|]. apply Some_inj in H. subst b. cbn [bx0 by0] in A, B. now split.
Qed.

Section Stamp.
Variables (env : menv) (s : source).
Hypothesis size : 0 <= m_stamp_size env.
Hypothesis boxes : one_box (m_bands env).
Hypothesis peaks : s_peaks s <> [].

Lemma stamp_edge : source_mbobs env s = Raise LengthError <-> ~ stamp_inside env s.
Proof.
  unfold source_mbobs. destruct (s_peaks s) as [|[x y] pks] eqn:Ep; [congruence|].
  destruct (get_bbox_noclip (mbexp_box env) x y pks (m_stamp_size env) size) as [A B].
  set (k := m_stamp_size env / 2) in *.
  assert (S : stamp_inside env s <-> (forall x' y', x - k <= x' <= x + k -> y - k <= y' <= y + k -> in_box (mbexp_box env) x' y')).
  { unfold stamp_inside. rewrite Ep. cbn [hd_error]. fold k. split.
    - intros H x' y' Hx Hy. apply box_covered. now apply (H x y).
    - intros H x0 y0 x' y' E. apply Some_inj in E. apply pair_equal_spec in E. destruct E as [<- <-]. cbv zeta. intros Hx Hy. apply box_covered. now apply H. }
  split.
  - intro H. intro I. rewrite A in H by (now apply S). cbn [obind] in H.
    apply omap_raise in H. destruct H as (e & Ie & H). unfold band_obs in H.
    assert (Se : sub_exp e (Some (mkBox (x - k) (y - k) (x + k) (y + k))) <> Raise LengthError).
    { unfold sub_exp.
      assert (C : contains_box (exp_box e) (Some (mkBox (x - k) (y - k) (x + k) (y + k))) = true).
      { assert (Em : mbexp_box env = exp_box e).
        { unfold mbexp_box. destruct (m_bands env) as [|e0 r] eqn:Eb; [destruct Ie|]. apply boxes; try rewrite Eb; [now left|assumption]. }
        pose proof (A (proj1 S I)) as G. unfold get_bbox in G. fold k in G. rewrite Em in G.
        assert (Hk : 0 <= k) by (apply Z.div_pos; lia).
        unfold grow, norm_box in G. cbn [bx0 by0 bx1 by1] in G.
        rewrite (proj2 (Z.ltb_ge (x + k) (x - k))), (proj2 (Z.ltb_ge (y + k) (y - k))) in G by lia. cbn [orb] in G.
        destruct (contains_box (exp_box e) _); [reflexivity|discriminate]. }
      rewrite C. discriminate. }
    destruct (sub_exp e _) as [sub|] eqn:E; [|cbn [obind] in H; congruence]. cbn [obind] in H. unfold first_peak in H. rewrite Ep in H. cbn [obind] in H.
    now apply extract_obs_not_length in H.
  - intro H. rewrite B by (intro I; apply H; now apply S). reflexivity.
Qed.

Lemma stamp_zero : source_mbobs env s = Raise (OtherError 1) -> stamp_inside env s /\ some_band_unusable env s.
Proof.
  intro H. unfold source_mbobs in H. destruct (s_peaks s) as [|[x y] pks] eqn:Ep; [congruence|].
  destruct (get_bbox_noclip (mbexp_box env) x y pks (m_stamp_size env) size) as [A B].
  set (k := m_stamp_size env / 2) in *.
  assert (Hk : 0 <= k) by (apply Z.div_pos; lia).
  assert (N : stamp_inside env s).
  { unfold stamp_inside. rewrite Ep. cbn [hd_error]. fold k. intros x0 y0 x' y' E. apply Some_inj in E. apply pair_equal_spec in E. destruct E as [<- <-].
    cbv zeta. destruct (get_bbox (mbexp_box env) ((x, y) :: pks) (m_stamp_size env) false) as [b|ex] eqn:G.
    - intros Hx Hy. apply box_covered. unfold get_bbox in G. fold k in G. unfold grow, norm_box in G. cbn [bx0 by0 bx1 by1] in G.
      rewrite (proj2 (Z.ltb_ge (x + k) (x - k))), (proj2 (Z.ltb_ge (y + k) (y - k))) in G by lia. cbn [orb] in G.
      destruct (contains_box (mbexp_box env) _) eqn:C; [|discriminate].
      unfold contains_box in C. destruct (mbexp_box env) as [m|]; [|discriminate]. cbn [bx0 by0 bx1 by1] in C.
      unfold in_box. rewrite !andb_true_iff, !Z.leb_le in C. lia.
    - exfalso. cbn [obind] in H. pose proof (get_bbox_length (mbexp_box env) ((x, y) :: pks) (m_stamp_size env) false). congruence. }
  split; [exact N|].
  assert (S : forall x' y', x - k <= x' <= x + k -> y - k <= y' <= y + k -> in_box (mbexp_box env) x' y').
  { intros x' y' Hx Hy. apply box_covered. apply (N x y); [|exact Hx|exact Hy]. now rewrite Ep. }
  rewrite A in H by exact S. cbn [obind] in H. apply omap_raise in H. destruct H as (e & Ie & H). unfold band_obs in H.
  destruct (sub_exp e _) as [sub|ex] eqn:E; cbn [obind] in H.
  2: { unfold sub_exp in E. destruct (contains_box _ _); [discriminate|]. congruence. }
  unfold first_peak in H. rewrite Ep in H. cbn [obind] in H. apply extract_obs_zero_iff in H.
  unfold sub_exp in E. destruct (contains_box _ _); [|discriminate]. apply Ok_inj in E. subst sub. cbn [e_var] in H.
  rewrite cut_pixels in H by exact Hk. exists x, y, e. split; [now rewrite Ep|]. split; [exact Ie|]. exact H.
Qed.

Lemma stamp_ok : forall obs, source_mbobs env s = Ok obs -> stamp_inside env s /\ ~ some_band_unusable env s /\
  List.length obs = List.length (m_bands env).
Proof.
  intros obs H. assert (N : stamp_inside env s).
  { destruct (s_peaks s) as [|[x y] pks] eqn:Ep; [congruence|].
    unfold stamp_inside. rewrite Ep. cbn [hd_error]. intros x0 y0 x' y' E. apply Some_inj in E. apply pair_equal_spec in E. destruct E as [<- <-].
    cbv zeta. set (k := m_stamp_size env / 2) in *. assert (Hk : 0 <= k) by (apply Z.div_pos; lia).
    unfold source_mbobs in H. rewrite Ep in H.
    destruct (get_bbox (mbexp_box env) ((x, y) :: pks) (m_stamp_size env) false) as [b|ex] eqn:G; [|discriminate].
    intros Hx Hy. apply box_covered. unfold get_bbox in G. fold k in G. unfold grow, norm_box in G. cbn [bx0 by0 bx1 by1] in G.
    rewrite (proj2 (Z.ltb_ge (x + k) (x - k))), (proj2 (Z.ltb_ge (y + k) (y - k))) in G by lia. cbn [orb] in G.
    destruct (contains_box (mbexp_box env) _) eqn:C; [|discriminate].
    unfold contains_box in C. destruct (mbexp_box env) as [m|]; [|discriminate]. cbn [bx0 by0 bx1 by1] in C.
    unfold in_box. rewrite !andb_true_iff, !Z.leb_le in C. lia. }
  split; [exact N|]. unfold source_mbobs in H.
  destruct (s_peaks s) as [|[x y] pks] eqn:Ep; [congruence|].
  destruct (get_bbox_noclip (mbexp_box env) x y pks (m_stamp_size env) size) as [A B].
  set (k := m_stamp_size env / 2) in *. assert (Hk : 0 <= k) by (apply Z.div_pos; lia).
  rewrite A in H by (intros x' y' Hx Hy; apply box_covered, (N x y); [now rewrite Ep|exact Hx|exact Hy]). cbn [obind] in H.
  split; [|now apply omap_ok_length in H].
  intros (x0 & y0 & e & Fp & Ie & U). rewrite Ep in Fp. cbn [hd_error] in Fp. apply Some_inj in Fp. apply pair_equal_spec in Fp. destruct Fp as [<- <-].
  apply omap_ok_Forall2 in H.
  assert (X : exists o, band_obs env s (Some (mkBox (x - k) (y - k) (x + k) (y + k))) e = Ok o).
  { clear -H Ie. induction H; [destruct Ie|]. destruct Ie as [->|Ie]; [eauto|now apply IHForall2]. }
  destruct X as [o X]. unfold band_obs in X. destruct (sub_exp e _) as [sub|] eqn:E; cbn [obind] in X; [|discriminate].
  unfold first_peak in X. rewrite Ep in X. cbn [obind] in X.
  unfold sub_exp in E. destruct (contains_box _ _); [|discriminate]. apply Ok_inj in E.
  assert (Z : unusable (pixels (e_var sub))). { subst sub. cbn [e_var]. rewrite cut_pixels by exact Hk. exact U. }
  apply (extract_obs_zero_iff (m_W env) sub (m_skypix env (s_id s)) (x, y) (match m_cen env (s_id s) with Some c => c | None => m_nanpos env end)) in Z.
  congruence.
Qed.
End Stamp.

(** ** The loop over sources *)
Lemma measure_loop_ok : forall env label stamp bmasks children i rows,
  measure_loop env label stamp bmasks i children = Ok rows ->
  exists cs, children = map Some cs /\ List.length rows = List.length cs /\
    forall n s, nth_error cs n = Some s -> exists r, nth_error rows n = Some r /\ measure_one env label stamp bmasks (i + n) s = Ok r.
Proof.
  induction children as [|c children IH]; intros i rows H; cbn [measure_loop] in H.
  - apply Ok_inj in H. subst. exists []. split; [reflexivity|]. split; [reflexivity|]. intros [|n] s E; discriminate.
  - destruct c as [s|]; cbn [some_or_attr obind] in H; [|discriminate].
    destruct (measure_one env label stamp bmasks i s) as [x|] eqn:Ex; cbn [obind] in H; [|discriminate].
    destruct (measure_loop env label stamp bmasks (S i) children) as [l|] eqn:El; cbn [obind] in H; [|discriminate].
    apply Ok_inj in H. subst rows. destruct (IH _ _ El) as (cs & -> & L & F).
    exists (s :: cs). split; [reflexivity|]. split; [cbn; now rewrite L|].
    intros [|n] s' E; cbn in E.
    + apply Some_inj in E. subst s'. exists x. split; [reflexivity|]. now rewrite Nat.add_0_r.
    + destruct (F n s' E) as (r & A & B). exists r. split; [exact A|]. now rewrite <- Nat.add_succ_comm.
Qed.

Lemma find_source_In : forall cat s, catalogue cat -> In s cat -> find_source cat (s_id s) = Some s.
Proof.
  unfold catalogue, find_source. induction cat as [|a cat IH]; intros s N I; [destruct I|]. cbn in N. inversion N; subst. cbn [find].
  destruct (Z.eqb_spec (s_id a) (s_id s)) as [E|E].
  - destruct I as [->|I]; [reflexivity|]. exfalso. apply H1. rewrite E. now apply in_map.
  - destruct I as [->|I]; [congruence|]. now apply IH.
Qed.
Lemma find_source_Some : forall cat id s, find_source cat id = Some s -> In s cat /\ s_id s = id.
Proof. intros cat id s H. apply find_some in H. destruct H as [I E]. apply Z.eqb_eq in E. auto. Qed.

Lemma child_ids_In : forall order cat id, lists_set order ->
  (In id (child_ids order cat) <-> exists s, In s (childless cat) /\ s_id s = id).
Proof.
  intros order cat id O. unfold child_ids.
  assert (P : Permutation (order (nodup Z.eq_dec (map s_id (childless cat)))) (nodup Z.eq_dec (map s_id (childless cat)))) by (apply O, NoDup_nodup).
  unfold childless in *. split.
  - intro I. apply (Permutation_in _ P) in I. apply nodup_In in I. apply in_map_iff in I. destruct I as (s & E & I). eauto.
  - intros (s & I & <-). apply (Permutation_in _ (Permutation_sym P)). apply nodup_In. now apply in_map.
Qed.
Lemma child_ids_nodup : forall order cat, lists_set order -> NoDup (child_ids order cat).
Proof. intros order cat O. unfold child_ids. eapply Permutation_NoDup; [apply Permutation_sym, O, NoDup_nodup|apply NoDup_nodup]. Qed.

Lemma children_perm : forall order cat cs, catalogue cat -> lists_set order ->
  map (find_source cat) (child_ids order cat) = map Some cs ->
  map s_id cs = child_ids order cat /\ Permutation cs (childless cat).
Proof.
  intros order cat cs C O E.
  assert (M : map s_id cs = child_ids order cat /\ Forall (fun s => In s cat) cs).
  { revert cs E. generalize (child_ids order cat). induction l as [|id l IH]; intros [|s cs] E; cbn in E; try discriminate; [auto|].
    injection E as E1 E2. apply find_source_Some in E1. destruct E1 as [I <-]. destruct (IH cs E2) as [<- F]. split; [reflexivity|]. now constructor. }
  destruct M as [M F]. split; [exact M|]. apply NoDup_Permutation.
  - eapply NoDup_map_inv. rewrite M. now apply child_ids_nodup.
  - apply NoDup_filter. eapply NoDup_map_inv. exact C.
  - intro s. split.
    + intro I. assert (J : In (s_id s) (child_ids order cat)) by (rewrite <- M; now apply in_map).
      apply child_ids_In in J; [|exact O]. destruct J as (s' & J & Es).
      assert (s' = s); [|congruence]. unfold childless in J. apply filter_In in J. destruct J as [J _].
      rewrite Forall_forall in F. specialize (F s I).
      apply (find_source_In cat) in F; [|exact C]. apply (find_source_In cat) in J; [|exact C]. rewrite Es in J. congruence.
    + intro I. assert (J : In (s_id s) (map s_id cs)) by (rewrite M; apply child_ids_In; eauto).
      apply in_map_iff in J. destruct J as (s' & Es & J). rewrite Forall_forall in F. pose proof (F s' J) as K.
      unfold childless in I. apply filter_In in I. destruct I as [I _].
      apply (find_source_In cat) in K; [|exact C]. apply (find_source_In cat) in I; [|exact C]. rewrite Es in K. congruence.
Qed.

Lemma get_mbobs_child : forall env order cat s, catalogue cat -> lists_set order -> In s (childless cat) ->
  get_mbobs env order cat (s_id s) = source_mbobs env s.
Proof.
  intros env order cat s C O I. unfold get_mbobs, check_source_id.
  assert (J : In (s_id s) (child_ids order cat)) by (apply child_ids_In; eauto).
  rewrite (proj2 (existsb_exists _ _)) by (exists (s_id s); split; [exact J|apply Z.eqb_refl]). cbn [obind].
  unfold childless in I. apply filter_In in I. rewrite find_source_In by tauto. reflexivity.
Qed.

(** A row measured for a source: everything but the mask column. *)
Definition row_for (env : menv) (label : string) (s : source) (r : row) : Prop :=
  exists flags g p bmask, stamp_case env label (source_mbobs env s) flags g p /\ get_output env s (base_row flags g p) bmask = Ok r.

Lemma measure_ok : forall env label order cat res, catalogue cat -> lists_set order ->
  measure env label order cat = Ok res ->
  exists cs sb bms, map s_id cs = child_ids order cat /\ Permutation cs (childless cat) /\
    (cat <> [] -> m_shear_bands env = Ok sb /\ get_bmasks env cat = Ok bms) /\
    match res with
    | None => cs = []
    | Some rows => rows <> [] /\ List.length rows = List.length cs /\
      forall n s, nth_error cs n = Some s -> exists r flags g p bmask, nth_error rows n = Some r /\ nth_error bms n = Some bmask /\
        stamp_case env (label sb) (source_mbobs env s) flags g p /\ get_output env s (base_row flags g p) bmask = Ok r
    end.
Proof.
  intros env label order cat res C O H. unfold measure, measure_with in H. destruct cat as [|c0 cat'] eqn:Ec.
  - apply Ok_inj in H. subst res. exists [], [], []. cbn. split.
    + unfold child_ids. cbn. pose proof (O [] (NoDup_nil _)) as P. apply Permutation_sym, Permutation_nil in P. now rewrite P.
    + split; [constructor|]. split; [congruence|reflexivity].
  - rewrite <- Ec in *. destruct (m_shear_bands env) as [sb|] eqn:Es; cbn [obind] in H; [|discriminate].
    destruct (get_bmasks env cat) as [bms|] eqn:Eb; cbn [obind] in H; [|discriminate].
    destruct (measure_loop env (label sb) (get_mbobs env order cat) bms 0 (map (find_source cat) (child_ids order cat))) as [rows|] eqn:El; cbn [obind] in H; [|discriminate].
    destruct (measure_loop_ok _ _ _ _ _ _ _ El) as (cs & E & L & F). destruct (children_perm _ _ _ C O E) as [M P].
    exists cs, sb, bms. split; [exact M|]. split; [exact P|]. split; [auto|].
    destruct rows as [|r0 rows].
    + apply Ok_inj in H. subst res. destruct cs; [reflexivity|discriminate].
    + apply Ok_inj in H. subst res. split; [discriminate|]. split; [exact L|].
      intros n s En. destruct (F n s En) as (r & A & B). apply measure_one_ok in B. destruct B as (flags & g & p & bm & B1 & B2 & B3).
      rewrite get_mbobs_child in B2; [|exact C|exact O|apply (Permutation_in _ P); eapply nth_error_In; exact En].
      exists r, flags, g, p, bm. auto.
Qed.

(** ** Reading the row *)
Lemma output_facts : forall env s flags g p bmask r, get_output env s (base_row flags g p) bmask = Ok r ->
  skeys r = all_columns /\ at_position env s r /\ at_sky env s r /\ has_fits g p r /\
  sget "stamp_flags" r = Some (CInt flags) /\
  sget "bmask" r = Some (CInt (Z.land bmask (Z.lnot (m_detected env)))) /\
  sget "stamp_size" r = Some (CInt (m_stamp_size env)) /\
  at_corner (m_bands env) r /\
  sget "ormask" r = Some (CInt 0) /\ sget "mfrac" r = Some (CNum None) /\
  sget "psfrec_flags" r = Some (CInt (m_no_attempt env)) /\ sget "psfrec_navg" r = Some (CInt (-9999)) /\
  sget "psfrec_g" r = Some (CNum None) /\ sget "psfrec_T" r = Some (CNum None) /\
  (m_cen env (s_id s) = None -> sget "ra" r = Some (CNum None) /\ sget "dec" r = Some (CNum None)).
Proof.
  intros env s flags g p bmask r H. apply get_output_ok in H.
  destruct H as (x & y & px & py & pks & b & Ec & Ep & Eb & ->).
  split; [reflexivity|].
  split. { split.
    - exists x, y. split; [reflexivity|]. split; [reflexivity|exact Ec].
    - exists px, py, pks. split; [exact Ep|]. destruct (m_cen env (s_id s)) as [[x' y']|]; split; reflexivity. }
  split. { intros c E. rewrite E. split; reflexivity. }
  split. { split; intros c I; cbn in I; repeat (destruct I as [<-|I]; [reflexivity|]); destruct I. }
  do 3 (split; [reflexivity|]). split; [apply (box_corner env b); [exact Eb|reflexivity|reflexivity]|].
  do 6 (split; [reflexivity|]). intros E. rewrite E. split; reflexivity.
Qed.

Lemma same_ids : forall cat, catalogue cat -> forall a b, (forall s, In s a -> In s cat) -> (forall s, In s b -> In s cat) ->
  map s_id a = map s_id b -> a = b.
Proof.
  intros cat C. induction a as [|x a IH]; intros [|y b] A B E; cbn in E; try discriminate; [reflexivity|]. injection E as E1 E2. f_equal.
  - pose proof (find_source_In cat x C (A x (or_introl eq_refl))). pose proof (find_source_In cat y C (B y (or_introl eq_refl))). congruence.
  - apply IH; [intros; apply A; now right|intros; apply B; now right|exact E2].
Qed.

(** ** The mask column *)
Lemma bmask_at_peak : forall env s bm, get_bmask env s = Ok bm -> mask_at_peak env s (Z.land bm (Z.lnot (m_detected env))).
Proof.
  intros env s0 bm Eb. unfold get_bmask in Eb. destruct (first_peak s0) as [[x y]|] eqn:Ep; cbn [obind fst snd] in Eb; [|discriminate].
  destruct (insideb (m_detmask env) (y - m_dety0 env) (x - m_detx0 env)) eqn:I; [|discriminate].
  apply Ok_inj in Eb. subst bm. exists x, y. split; [|split; [now apply insideb_spec|reflexivity]].
  unfold first_peak in Ep. destruct (s_peaks s0); [discriminate|]. apply Ok_inj in Ep. now subst p.
Qed.
Lemma bmasks_nth : forall env cat bms n bm, get_bmasks env cat = Ok bms -> nth_error bms n = Some bm ->
  exists s, nth_error cat n = Some s /\ mask_at_peak env s (Z.land bm (Z.lnot (m_detected env))).
Proof.
  intros env cat bms n bm Bm B. unfold get_bmasks in Bm. apply omap_ok_Forall2 in Bm. revert n B.
  induction Bm as [|s0 b l l' E Bm IH]; intros [|n] B; cbn in *; try discriminate; [|now apply IH].
  apply Some_inj in B. subst b. exists s0. split; [reflexivity|]. now apply bmask_at_peak.
Qed.
Lemma measure_masks : forall env label order cat rows, catalogue cat -> lists_set order ->
  measure env label order cat = Ok (Some rows) -> masks_by_position env cat rows.
Proof.
  intros env label order cat rows C O H n r En. destruct (measure_ok _ _ _ _ _ C O H) as (cs & sb & bms & M & P & Q & Ne & L & F).
  destruct (nth_error cs n) as [s|] eqn:Es.
  2: { exfalso. apply nth_error_None in Es. assert (nth_error rows n <> None) as X by congruence. apply nth_error_Some in X. lia. }
  destruct (F n s Es) as (r' & fl & g & p & bm & A & B & _ & G). rewrite En in A. apply Some_inj in A. subst r'.
  assert (Nc : cat <> []). { intro E. subst cat. unfold childless in P. cbn in P. apply Permutation_sym, Permutation_nil in P. subst cs. now destruct n. }
  destruct (Q Nc) as [_ Bm]. destruct (bmasks_nth _ _ _ _ _ Bm B) as (s0 & E0 & Mp).
  exists s0, (Z.land bm (Z.lnot (m_detected env))). split; [exact E0|]. apply output_facts in G. split; [apply G|exact Mp].
Qed.
