From Coq Require Import ZArith QArith List String Bool Lia Permutation Lqa.
From Verif Require Import Base Arr Median Dict Flags_model Lutil_model Lutil_spec Lutil_proofs Lexp_model Lthr_model Lthr_spec Lthr_proofs
  Lmdet_model Lmdet_spec Lmdet_proofs Lmeas_model Lmeas_spec Lmeas_proofs Lscar_proofs Lphot_model Lphot_spec.
From Verif Require Lsky_model Lsky_spec Lsky_proofs.
Import ListNotations.
Local Open Scope string_scope.
Local Open Scope Z_scope.

(** ** The configuration *)
Lemma get_config_none : forall h h' r, firstn 4 h = default_heap -> get_config h None = (h', Ok r) ->
  (forall k, ~ In k sub_configs -> option_of h' r k = option_of h DEFAULT k) /\
  (forall k s, In k sub_configs -> suboption_of h' r k s = suboption_of h DEFAULT k s).
Proof.
  intros h h' r W G. unfold get_config in G. rewrite (deepcopy_st h W) in G. apply pair_equal_spec in G. destruct G as [<- G].
  cbn [obind] in G. destruct (verify _ _ "pgauss" _) as [[]|]; cbn [obind] in G; [|discriminate].
  destruct (verify _ _ "detect" _) as [[]|]; cbn [obind] in G; [|discriminate]. apply Ok_inj in G. subst r.
  destruct (h_shape h W) as [t SH].
  assert (D3 : nth_error h DEFAULT = Some (nth 3 default_heap [])) by (rewrite SH; reflexivity).
  split.
  - intros k N. unfold option_of. rewrite st_top, D3. unfold T0. cbn [nth default_heap sget].
    destruct (String.eqb_spec k "subtract_sky"); [reflexivity|]. destruct (String.eqb_spec k "deblender"); [reflexivity|].
    destruct (String.eqb_spec k "detect"); [subst; destruct N; cbn; tauto|]. destruct (String.eqb_spec k "metacal"); [subst; destruct N; cbn; tauto|].
    destruct (String.eqb_spec k "pgauss"); [subst; destruct N; cbn; tauto|]. reflexivity.
  - intros k s I. assert (R : sget k (T0 h) = Some (VRef (List.length h + slot k))).
    { destruct I as [<-|[<-|[<-|[]]]]; cbn; repeat f_equal; lia. }
    unfold suboption_of, option_of at 1. rewrite st_top, R. unfold option_of at 1. rewrite (st_slot h S0 (T0 h) k I).
    unfold option_of. rewrite D3, SH. destruct I as [<-|[<-|[<-|[]]]]; reflexivity.
Qed.
Lemma config_values : forall h user h' r, user_heap h (asked user) -> get_config h user = (h', Ok r) ->
  (forall k, ~ In k sub_configs -> option_of h' r k = setting h user k) /\
  (forall k s, In k sub_configs -> suboption_of h' r k s = subsetting h user k s).
Proof.
  intros h [u|] h' r W G.
  - destruct (get_config_values h u h' r W G) as (_ & _ & A & B & _). split; [exact A|exact B].
  - destruct W as (W & _). destruct (get_config_none h h' r W G) as [A B]. unfold setting, subsetting, asked. split.
    + intros k N. rewrite (A k N). destruct (option_of h DEFAULT k); reflexivity.
    + intros k s I. rewrite (B k s I). destruct (suboption_of h DEFAULT k s); reflexivity.
Qed.
Lemma conf_option : forall h p k a, conf h p k = Ok a -> option_of h p k = Some (VAtom a).
Proof.
  intros h p k a H. unfold conf, hget in H. unfold option_of. destruct (nth_error h p) as [d|]; cbn [obind] in H; [|discriminate].
  destruct (sget k d) as [[b|q]|]; try discriminate. apply Ok_inj in H. now subst.
Qed.
Lemma subconf_option : forall h p k s a, subconf h p k s = Ok a -> suboption_of h p k s = Some (VAtom a).
Proof.
  intros h p k s a H. unfold subconf, hget in H. unfold suboption_of, option_of at 1. destruct (nth_error h p) as [d|]; cbn [obind] in H; [|discriminate].
  destruct (sget k d) as [[b|q]|]; try discriminate. now apply conf_option.
Qed.
Lemma option_conf : forall h p k a, option_of h p k = Some (VAtom a) -> conf h p k = Ok a.
Proof.
  intros h p k a H. unfold conf, hget. unfold option_of in H. destruct (nth_error h p) as [d|]; cbn [obind]; [|discriminate]. now rewrite H.
Qed.
Lemma option_subconf : forall h p k s a, suboption_of h p k s = Some (VAtom a) -> subconf h p k s = Ok a.
Proof.
  intros h p k s a H. unfold subconf, hget. unfold suboption_of, option_of at 1 in H. destruct (nth_error h p) as [d|]; cbn [obind]; [|discriminate].
  destruct (sget k d) as [[b|q]|]; try discriminate. now apply option_conf.
Qed.
Lemma config_kept : forall h user, user_heap h (asked user) -> firstn (List.length h) (fst (get_config h user)) = h.
Proof.
  intros h [u|] W; [exact (proj1 (get_config_unchanged h u W))|exact (proj2 (get_config_unchanged h _ W))].
Qed.

(** ** The sky *)
Lemma same_frame_refl : forall e, same_frame e e. Proof. intro e. repeat split. Qed.
Lemma lowered_refl : forall im, Lsky_spec.lowered_by im [] im.
Proof. intro im. split; [reflexivity|]. split; [reflexivity|]. intros i j. cbn. ring. Qed.
Lemma lowered_snoc : forall im bgs im1 bg, Lsky_spec.lowered_by im bgs im1 ->
  Lsky_spec.lowered_by im (bgs ++ [bg]) (Lsky_model.lowered im1 bg).
Proof.
  intros im bgs im1 bg (A & B & C). split; [exact A|]. split; [exact B|]. intros i j. cbn. rewrite C, map_app, Lsky_proofs.qsum_app. cbn. ring.
Qed.
Lemma sky_lowered_refl : forall e, sky_lowered e e.
Proof. intro e. split; [apply same_frame_refl|]. exists []. apply lowered_refl. Qed.
Section Run.
Variable back : Lsky_model.exposure -> Lsky_model.failure + img Q.
Variable detect : Lsky_model.exposure -> img Z * (Lsky_model.failure + unit * option (img Q)).
Lemma iterate_lowers : forall n im0 bgs sky res e e' o,
  Lsky_spec.lowered_by im0 bgs (Lsky_model.x_image e) -> Lsky_model.iterate unit back detect n sky res e = (e', o) ->
  exists bgs', Lsky_spec.lowered_by im0 bgs' (Lsky_model.x_image e').
Proof.
  induction n as [|n IH]; intros im0 bgs sky res e e' o L H; cbn [Lsky_model.iterate] in H.
  - inversion H; subst. eauto.
  - unfold Lsky_model.run_back in H. destruct (back e) as [f|bg]; [inversion H; subst; eauto|].
    unfold Lsky_model.run_detect in H.
    set (e1 := Lsky_model.mkX (Lsky_model.lowered (Lsky_model.x_image e) bg) (Lsky_model.x_mask e) (Some (Lsky_model.mean bg))) in *.
    assert (L1 : Lsky_spec.lowered_by im0 (bgs ++ [bg]) (Lsky_model.x_image e1)) by (apply lowered_snoc; exact L).
    destruct (detect e1) as [m [f|[r [bg2|]]]]; [inversion H; subst; eauto| |]; cbn [Lsky_model.x_bgmean e1] in H.
    + eapply IH; [|exact H]. cbn [Lsky_model.x_image]. apply lowered_snoc. exact L1.
    + eapply IH; [|exact H]. cbn [Lsky_model.x_image]. exact L1.
Qed.
Lemma run_lowers : forall niter e e' o, Lsky_model.run unit back detect niter e = (e', o) ->
  exists bgs, Lsky_spec.lowered_by (Lsky_model.x_image e) bgs (Lsky_model.x_image e').
Proof.
  intros niter e e' o H. unfold Lsky_model.run in H. destruct (niter <? 1).
  - inversion H; subst. exists []. apply lowered_refl.
  - destruct (Lsky_model.iterate _ _ _ _ _ _ _) as [e1 r] eqn:E. destruct (iterate_lowers _ _ [] _ _ _ _ _ (lowered_refl _) E) as [bgs B].
    destruct r as [[| |x]|[sky r]]; inversion H; subst; exists bgs; exact B.
Qed.
End Run.
Lemma sky_band_lowered : forall P c n e e' o, sky_band P c n e = (e', o) -> sky_lowered e e'.
Proof.
  intros P c n e e' o H. unfold sky_band in H. destruct (Lsky_model.run _ _ _ _ _) as [x r] eqn:E. inversion H; subst. split; [repeat split|].
  destruct (run_lowers _ _ _ _ _ _ E) as [bgs B]. exists bgs. exact B.
Qed.
Lemma sky_bands_lowered : forall P c n l l' o, sky_bands P c n l = (l', o) -> Forall2 sky_lowered l l'.
Proof.
  induction l as [|e l IH]; intros l' o H; cbn [sky_bands] in H.
  - inversion H; subst. constructor.
  - destruct (sky_band P c n e) as [e1 r] eqn:E. apply sky_band_lowered in E. destruct r as [r|x].
    + destruct (sky_bands P c n l) as [l1 o1]. inversion H; subst. constructor; [exact E|]. now apply (IH l1 o).
    + inversion H; subst. constructor; [exact E|]. clear. induction l; constructor; [apply sky_lowered_refl|assumption].
Qed.
Lemma Forall2_refl' : forall A (R : A -> A -> Prop) l, (forall x, R x x) -> Forall2 R l l.
Proof. intros A R l H. induction l; constructor; auto. Qed.
Lemma subtract_lowered : forall P t l l' o, subtract_sky_mbexp P t l = (l', o) -> Forall2 sky_lowered l l'.
Proof.
  intros P t l l' o H. unfold subtract_sky_mbexp in H. destruct (snd (sky_config _ _ _)) as [c|x].
  - destruct (niter_of c) as [n|x]; [now apply (sky_bands_lowered P c n l l' o)|]. inversion H; subst. apply Forall2_refl', sky_lowered_refl.
  - inversion H; subst. apply Forall2_refl', sky_lowered_refl.
Qed.
Lemma same_frame_box : forall e e', same_frame e e' -> nr (e_image e') = nr (e_image e) -> nc (e_image e') = nc (e_image e) -> exp_box e' = exp_box e.
Proof. intros e e' (A & B & _) C D. unfold exp_box. now rewrite A, B, C, D. Qed.
Lemma sky_lowered_box : forall e e', sky_lowered e e' -> exp_box e' = exp_box e.
Proof. intros e e' (A & bgs & (C & D & _)). now apply same_frame_box. Qed.

(** ** The mean PSF *)
Lemma psf_loop_ok_inv : forall shear zs (fits : list (outcome psffit)) (ws : list Q) s s',
  List.length zs = List.length fits -> List.length ws = List.length fits ->
  psf_loop shear (combine (combine zs fits) ws) s = (s', Ok tt) ->
  exists fs, fits = map Ok fs /\ forall f, In f fs -> pf_flags f = 0.
Proof.
  intros shear. induction zs as [|z zs IH]; intros [|f fits] [|w ws] s s' L1 L2 H; try discriminate.
  - exists []. split; [reflexivity|intros f []].
  - cbn [combine psf_loop] in H. destruct f as [f|e]; [|discriminate]. destruct (pf_flags f =? 0) eqn:F; cbn [negb] in H; [|discriminate].
    destruct (IH fits ws _ _ ltac:(cbn in L1; lia) ltac:(cbn in L2; lia) H) as (fs & -> & G). exists (f :: fs).
    split; [reflexivity|]. intros g [<-|I]; [now apply Z.eqb_eq|auto].
Qed.
Lemma fit_original_means : forall to_g shear fits wgts p, NoDup shear -> (forall i, In i shear -> 0 <= i < zlen fits) ->
  fit_original_psfs to_g shear fits wgts = Ok p ->
  zlen wgts = zlen fits /\
  exists fs, fits = map Ok fs /\ (forall f, In f fs -> pf_flags f = 0) /\
    let total := sum_over shear (fun _ => 1%Q) fs wgts in
    (0 < total)%Q /\ st_flags p = 0 /\ st_navg p = zlen shear /\
    (st_e1 p * total == sum_over shear pf_e1 fs wgts)%Q /\ (st_e2 p * total == sum_over shear pf_e2 fs wgts)%Q /\
    (st_T p * total == sum_over shear pf_T fs wgts)%Q /\ to_g (st_e1 p) (st_e2 p) = Some (st_g1 p, st_g2 p).
Proof.
  intros to_g shear fits wgts p ND R H. pose proof (fit_original_ok_flags _ _ _ _ _ H) as [Fl _]. unfold fit_original_psfs in H.
  destruct (zlen wgts =? zlen fits) eqn:L; cbn [negb] in H; [|discriminate]. apply Z.eqb_eq in L. split; [exact L|].
  destruct (psf_loop _ _ _) as [s r] eqn:E. destruct r as [[]|e].
  2: { destruct e; cbn [obind] in H; try discriminate; destruct (ps_navg s =? zlen shear); discriminate. }
  destruct (psf_loop_ok_inv shear (zrange (zlen fits)) fits wgts psums0 s) as (fs & -> & G).
  { unfold zrange. rewrite zrange2_length. unfold zlen. lia. } { unfold zlen in L. lia. } { exact E. }
  exists fs. split; [reflexivity|]. split; [exact G|]. cbv zeta.
  assert (LM : zlen (map (@Ok psffit) fs) = zlen fs) by (unfold zlen; now rewrite map_length). rewrite LM in *.
  rewrite lift_combine in E.
  destruct (psf_loop_good shear (combine (combine (zrange (zlen fs)) fs) wgts) psums0) as (s2 & E2 & A & B & C & D & T).
  { apply Forall_forall. intros [[z f] w] I. cbn. apply G. apply in_combine_l in I. now apply in_combine_r in I. }
  rewrite E2 in E. inversion E; subst s2. clear E E2. cbn [psums0 ps_navg ps_w ps_e1 ps_e2 ps_T] in *.
  set (S1 := sum_over shear (fun _ => 1%Q) fs wgts) in *.
  assert (B' : (ps_w s == S1)%Q) by (rewrite B; unfold S1, sum_over; apply Qplus_0_l).
  destruct (Qle_bool (ps_w s) 0) eqn:X; [discriminate|].
  assert (P1 : (0 < S1)%Q). { rewrite <- B'. apply Qnot_le_lt. intro Y. apply Qle_bool_iff in Y. congruence. }
  cbn [obind] in H. destruct (to_g _ _) as [[g1 g2]|] eqn:Eg; cbn [obind] in H; destruct (ps_navg s =? zlen shear) eqn:En; cbn [negb] in H; try discriminate.
  apply Ok_inj in H. subst p. cbn [st_flags st_navg st_e1 st_e2 st_T st_g1 st_g2]. apply Z.eqb_eq in En.
  assert (NZ : ~ (S1 == 0)%Q) by lra.
  split; [exact P1|]. split; [reflexivity|]. split; [exact En|]. split; [|split; [|split; [|exact Eg]]].
  - rewrite B', C. unfold sum_over. change (fun x : Z * psffit * Q => (if existsb (Z.eqb (fst (fst x))) shear then pf_e1 (snd (fst x)) * snd x else 0)%Q) with (term shear pf_e1). field. exact NZ.
  - rewrite B', D. unfold sum_over. change (fun x : Z * psffit * Q => (if existsb (Z.eqb (fst (fst x))) shear then pf_e2 (snd (fst x)) * snd x else 0)%Q) with (term shear pf_e2). field. exact NZ.
  - rewrite B', T. unfold sum_over. change (fun x : Z * psffit * Q => (if existsb (Z.eqb (fst (fst x))) shear then pf_T (snd (fst x)) * snd x else 0)%Q) with (term shear pf_T). field. exact NZ.
Qed.

(** ** The columns added *)
Definition added : list string := ["mfrac"; "ormask"; "psfrec_flags"; "psfrec_navg"; "psfrec_g"; "psfrec_T"].
Definition finished (P : phot) (om : img Z) (mf : img Q) (p : psfstats) (r r' : row) : Prop :=
  (forall c, ~ In c added -> sget c r' = sget c r) /\
  (exists x v m, lrow_of r = Ok x /\ np_get om (nearest (local_row x)) (nearest (local_col x)) = Ok v /\
    sget "ormask" r' = Some (CInt v) /\ sget "mfrac" r' = Some (CNum m) /\
    (m = Some 0%Q /\ (forall q, In q (pixels mf) -> (q <= 0)%Q) \/
     m = weighted_mfrac (ph_W P) (ph_rad P) mf (local_col x) (local_row x) /\ exists q, In q (pixels mf) /\ (0 < q)%Q)) /\
  sget "psfrec_flags" r' = Some (CInt (st_flags p)) /\ sget "psfrec_navg" r' = Some (CInt (st_navg p)) /\
  sget "psfrec_g" r' = Some (CPair (st_g1 p) (st_g2 p)) /\ sget "psfrec_T" r' = Some (CNum (Some (st_T p))).
Lemma finish_ok : forall P om mf p res res', finish P om mf p res = Ok res' -> Forall2 (finished P om mf p) res res'.
Proof.
  intros P om mf p res res' H. unfold finish in H. destruct (omap lrow_of res) as [xs|] eqn:E; cbn [obind] in H; [|discriminate].
  cbv zeta in H. destruct (add_ormask om xs) as [ys|] eqn:Eo; cbn [obind] in H; [|discriminate]. apply Ok_inj in H. subst res'.
  apply omap_ok_Forall2 in E. apply add_ormask_spec in Eo. pose proof (add_mfrac_exact (ph_W P) (ph_rad P) mf xs) as M.
  set (ms := add_mfrac (ph_W P) (ph_rad P) mf xs) in *. clearbody ms. revert xs ys ms E Eo M.
  induction res as [|r res IH]; intros xs ys ms E Eo M; inversion E; subst; [constructor|].
  match goal with K : lrow_of r = Ok _ |- _ => rename K into Ex end.
  inversion Eo; subst. inversion M; subst. cbn [zip_with combine map fst snd].
  match goal with K : np_get _ _ _ = Ok _ /\ _ = _ |- _ => destruct K as [N ->] end.
  match goal with K : exists v, _ = with_mfrac _ v /\ _ |- _ => destruct K as (v & -> & V) end.
  constructor.
  - split; [|split; [|repeat split]].
    + intros c I. unfold set_psfrec, set_ormask, set_mfrac. rewrite !sget_put.
      repeat match goal with |- context[String.eqb c ?k] => destruct (String.eqb_spec c k); [subst; destruct I; cbn; tauto|] end. reflexivity.
    + do 3 eexists. split; [exact Ex|]. split; [exact N|]. split; [unfold set_psfrec, set_ormask, set_mfrac; rewrite !sget_put; reflexivity|].
      split; [unfold set_psfrec, set_ormask, set_mfrac; rewrite !sget_put; reflexivity|]. exact V.
    + unfold set_psfrec, set_ormask, set_mfrac; rewrite !sget_put; reflexivity.
    + unfold set_psfrec, set_ormask, set_mfrac; rewrite !sget_put; reflexivity.
    + unfold set_psfrec, set_ormask, set_mfrac; rewrite !sget_put; reflexivity.
    + unfold set_psfrec, set_ormask, set_mfrac; rewrite !sget_put; reflexivity.
  - eapply IH; eassumption.
Qed.

(** Rows that agree on the other columns say the same about their object. *)
Lemma object_row_ext : forall on env label s r r', (forall c, ~ In c added -> sget c r' = sget c r) ->
  object_row_on on env label s r -> object_row_on on env label s r'.
Proof.
  intros on env label s r r' H (A & B & C & D & fl & E & F1 & F2 & F3 & G & K).
  assert (Hs : forall c, ~ In c added -> forall v, sget c r = v -> sget c r' = v) by (intros c N v <-; now apply H).
  assert (NA : forall c, In c (gauss_columns ++ pgauss_columns)%list -> ~ In c added).
  { intros c I J. cbn in I, J. repeat (destruct J as [<-|J]; [repeat (destruct I as [I|I]; [discriminate|]); exact I|]). exact J. }
  assert (Nc : forall c, In c ["row"; "col"; "row_diff"; "col_diff"; "ra"; "dec"; "row0"; "col0"; "stamp_size"; "stamp_flags"] -> ~ In c added).
  { intros c I J. cbn in I, J. repeat (destruct J as [<-|J]; [repeat (destruct I as [I|I]; [discriminate|]); exact I|]). exact J. }
  split; [|split; [|split; [|split]]].
  - destruct A as [(x & y & A1 & A2 & A3) (px & py & rest & A4 & A5)]. split.
    + exists x, y. split; [apply Hs; [apply Nc; cbn; tauto|exact A1]|]. split; [apply Hs; [apply Nc; cbn; tauto|exact A2]|exact A3].
    + exists px, py, rest. split; [exact A4|]. destruct (m_cen env (s_id s)) as [[a b]|]; destruct A5; split; (apply Hs; [apply Nc; cbn; tauto|assumption]).
  - intros c Ec. destruct (B c Ec). split; (apply Hs; [apply Nc; cbn; tauto|assumption]).
  - unfold at_corner in *. destruct (m_bands env) as [|e0 l0]; [exact C|]. destruct C as [C2 C3]. split; (apply Hs; [apply Nc; cbn; tauto|assumption]).
  - apply Hs; [apply Nc; cbn; tauto|assumption].
  - exists fl. split; [apply Hs; [apply Nc; cbn; tauto|assumption]|]. do 3 (split; [assumption|]). split.
    + intro Z0. destruct (G Z0) as (obs & g & p & G1 & G2 & G3 & [G4 G5]). exists obs, g, p. do 3 (split; [assumption|]). split.
      * intros c I. apply Hs; [apply NA; apply in_or_app; now left|now apply G4].
      * intros c I. apply Hs; [apply NA; apply in_or_app; now right|now apply G5].
    + intro Z0. destruct (K Z0) as [K1 K2]. split.
      * intros c I N. apply Hs; [now apply NA|]. now apply K1.
      * apply Hs; [apply NA; cbn; tauto|exact K2].
Qed.

Lemma measure_objects : forall env label order cat rows, catalogue cat -> lists_set order -> 0 <= m_stamp_size env -> one_box (m_bands env) ->
  measure env label order cat = Ok (Some rows) ->
  exists cs sb, Permutation cs (childless cat) /\ cs <> [] /\ m_shear_bands env = Ok sb /\ Forall2 (object_row env (label sb)) cs rows /\
    masks_by_position env cat rows.
Proof.
  intros env label order cat rows C O Sz Ob H. pose proof (measure_masks _ _ _ _ _ C O H) as Mk. destruct (measure_ok _ _ _ _ _ C O H) as (cs & sb & bms & M & P & Q & Ne & L & F).
  exists cs, sb. split; [exact P|].
  assert (Nc : cs <> []). { intros ->. destruct rows; [congruence|discriminate]. }
  assert (Nk : cat <> []). { intros ->. unfold childless in P. cbn in P. apply Permutation_sym, Permutation_nil in P. congruence. }
  split; [exact Nc|]. split; [now apply Q|]. split; [|exact Mk].
  assert (G : forall n s, nth_error cs n = Some s -> exists r, nth_error rows n = Some r /\ object_row env (label sb) s r).
  { intros n s E. destruct (F n s E) as (r & fl & g & p & bm & A & _ & S & G). exists r. split; [exact A|].
    destruct (row_facts env env (label sb) s fl g p bm r eq_refl Sz Ob (iff_refl _) (iff_refl _) S G) as (_ & R1 & R2 & R3 & R4 & R5 & R6 & R7 & R8).
    apply output_facts in G. split; [exact R1|]. split; [exact R2|]. split; [tauto|]. split; [tauto|]. exists fl. split; [exact R3|].
    split; [exact R4|]. split; [exact R5|]. split; [exact R6|]. split; [|exact R8].
    intro Z0. destruct (R7 Z0) as (obs & X). exists obs, g, p. tauto. }
  clear -L G. revert rows L G. induction cs as [|s cs IH]; intros [|r rows] L G; try discriminate; constructor.
  - destruct (G 0%nat s eq_refl) as (r' & E & X). apply Some_inj in E. now subst r'.
  - apply IH; [now inversion L|]. intros n s' E. exact (G (S n) s' E).
Qed.

Lemma lrow_of_columns : forall r x, lrow_of r = Ok x ->
  sget "row" r = Some (CNum (Some (l_row x))) /\ sget "col" r = Some (CNum (Some (l_col x))) /\
  sget "row0" r = Some (CInt (l_row0 x)) /\ sget "col0" r = Some (CInt (l_col0 x)).
Proof.
  intros r x H. unfold lrow_of in H. destruct (sget "row" r) as [[z|[y|]|s|k|a b|l|l]|]; try discriminate.
  destruct (sget "col" r) as [[z|[c|]|s|k|a b|l|l]|]; try discriminate.
  destruct (sget "row0" r) as [[z|q|s|k|a b|l|l]|]; try discriminate.
  destruct (sget "col0" r) as [[z0|q|s|k|a b|l|l]|]; try discriminate. apply Ok_inj in H. subst x. repeat split.
Qed.
Lemma finished_ormask : forall P dims ormasks om mf p r r', combine_ormasks dims ormasks = Ok om -> finished P om mf p r r' -> ormask_column ormasks r'.
Proof.
  intros P dims ormasks om mf p r r' C (H & (x & v & m & L & N & S & _) & _). exists v. split; [exact S|].
  destruct ormasks as [ms|].
  - intros i j b (y' & x' & (y & c & r0 & c0 & A1 & A2 & A3 & A4 & -> & ->) & B1 & B2) I Hb.
    assert (HH : forall k, ~ In k added -> forall w w', sget k r' = w -> sget k r = w' -> w = w') by (intros k Nk w w' <- <-; now apply H).
    destruct (lrow_of_columns r x L) as (L1 & L2 & L3 & L4).
    assert (E1 : y = l_row x) by (assert (X := HH "row" ltac:(cbn; intuition discriminate) _ _ A1 L1); congruence).
    assert (E2 : c = l_col x) by (assert (X := HH "col" ltac:(cbn; intuition discriminate) _ _ A2 L2); congruence).
    assert (E3 : r0 = l_row0 x) by (assert (X := HH "row0" ltac:(cbn; intuition discriminate) _ _ A3 L3); congruence).
    assert (E4 : c0 = l_col0 x) by (assert (X := HH "col0" ltac:(cbn; intuition discriminate) _ _ A4 L4); congruence).
    subst y c r0 c0. apply pixel_of_nearest in B1, B2. unfold local_row, local_col in N. rewrite <- B1, <- B2 in N.
    destruct ms as [|m0 ms]; [discriminate|].
    assert (Io : inside om i j).
    { cbn [combine_ormasks] in C. destruct (ofold_or _ _ _ C) as (D1 & D2 & _). specialize (I m0 (or_introl eq_refl)). unfold inside in *. rewrite D1, D2. exact I. }
    rewrite np_get_inside in N by exact Io. apply Ok_inj in N. subst v.
    rewrite (combine_ormasks_bits _ _ _ C i j b Hb). split.
    + intros (ms' & m' & E & Im & T). apply Some_inj in E. subst ms'. eauto.
    + intros (m' & Im & T). exists (m0 :: ms), m'. auto.
  - cbn [combine_ormasks] in C. apply Ok_inj in C. subst om. unfold np_get in N. destruct (insideb _ _ _) in N; [|discriminate]. apply Ok_inj in N. now subst v.
Qed.

Lemma finished_place : forall P om mf p r r' y x, finished P om mf p r r' -> place_of_row r' y x ->
  exists l, lrow_of r = Ok l /\ y = local_row l /\ x = local_col l.
Proof.
  intros P om mf p r r' y' x' (H & (x & v & m & L & _) & _) (y & c & r0 & c0 & A1 & A2 & A3 & A4 & -> & ->).
  assert (HH : forall k, ~ In k added -> forall w w', sget k r' = w -> sget k r = w' -> w = w') by (intros k Nk w w' <- <-; now apply H).
  destruct (lrow_of_columns r x L) as (L1 & L2 & L3 & L4). exists x. split; [exact L|].
  assert (E1 : y = l_row x) by (assert (X := HH "row" ltac:(cbn; intuition discriminate) _ _ A1 L1); congruence).
  assert (E2 : c = l_col x) by (assert (X := HH "col" ltac:(cbn; intuition discriminate) _ _ A2 L2); congruence).
  assert (E3 : r0 = l_row0 x) by (assert (X := HH "row0" ltac:(cbn; intuition discriminate) _ _ A3 L3); congruence).
  assert (E4 : c0 = l_col0 x) by (assert (X := HH "col0" ltac:(cbn; intuition discriminate) _ _ A4 L4); congruence).
  subst. split; reflexivity.
Qed.
Lemma in_pixels : forall A (m : img A) q, In q (pixels m) <-> exists i j, inside m i j /\ q = px m i j.
Proof.
  intros A m q. unfold pixels. rewrite in_map_iff. split.
  - intros ([i j] & <- & I). exists i, j. split; [now apply in_coords in I|reflexivity].
  - intros (i & j & I & ->). exists (i, j). split; [reflexivity|now apply in_coords].
Qed.
Lemma finished_mfrac : forall P om mf p r r', weight_ok (ph_W P) -> 0 <= ph_rad P -> finished P om mf p r r' ->
  mfrac_column (ph_W P) (ph_rad P) mf r'.
Proof.
  intros P om mf p r r' Wk Rk F. pose proof F as (_ & (l & v & m & L & _ & _ & M & V) & _). exists m. split; [exact M|]. split.
  - intros Al. destruct V as [[V _]|[_ (q & I & Ps)]]; [exact V|]. apply in_pixels in I. destruct I as (i & j & I & ->). apply Al in I. exfalso. lra.
  - intros y x i j q Eq Pl Py Px (a & b & Iab & Ps) B1 B2 B3 B4. destruct V as [[_ Al]|[V _]].
    + exfalso. assert (I : In (px mf a b) (pixels mf)) by (apply in_pixels; eauto). apply Al in I. lra.
    + destruct (finished_place _ _ _ _ _ _ _ _ F Pl) as (l' & L' & -> & ->). rewrite L in L'. apply Ok_inj in L'. subst l'.
      rewrite Eq in V. symmetry in V. now apply weighted_mfrac_swapped.
Qed.
Lemma finished_masks : forall P om mf p env cat raw rows, Forall2 (finished P om mf p) raw rows ->
  masks_by_position env cat raw -> masks_by_position env cat rows.
Proof.
  intros P om mf p env cat raw rows F M n r E.
  assert (X : exists r0, nth_error raw n = Some r0 /\ sget "bmask" r = sget "bmask" r0).
  { clear -F E. revert n E. induction F as [|a b l l' A F IH]; intros [|n] E; cbn in *; try discriminate; [|now apply IH].
    apply Some_inj in E. subst b. exists a. split; [reflexivity|]. apply A. cbn. intuition discriminate. }
  destruct X as (r0 & E0 & ->). exact (M n r0 E0).
Qed.

(** ** The whole run *)
Lemma phot_ok : forall P h user names bands mfracs ormasks h' bands' res,
  run_photometry P h user names bands mfracs ormasks = (h', bands', Ok res) ->
  exists cfg dims om mf ws ss thresh bands1 sba sb shear p r,
    get_config h user = (h', Ok cfg) /\ combine_ormasks dims ormasks = Ok om /\
    get_mfrac_mbexp (map e_var bands) mfracs = Ok (mf, ws) /\
    conf h' cfg "subtract_sky" = Ok ss /\ subconf h' cfg "detect" "thresh" = Ok thresh /\
    (if truthy ss then subtract_sky_mbexp P thresh bands else (bands, Ok tt)) = (bands1, Ok tt) /\
    conf h' cfg "shear_bands" = Ok sba /\ names_of sba = Ok sb /\ extract_shear_band_indices names sb = Ok shear /\
    fit_original_psfs (ph_to_g P) shear (map (ph_psffit P) bands1) ws = Ok p /\
    phot_measure P h' cfg bands1 thresh shear = (bands', Ok r) /\
    match r with None => res = None | Some l => exists l', finish P om mf p l = Ok l' /\ res = Some l' end.
Proof.
  intros P h user names bands mfracs ormasks h' bands' res H. unfold run_photometry in H.
  destruct (get_config h user) as [h1 [cfg|x]] eqn:G; [|inversion H].
  destruct (obind (match ormasks with Some l => _ | None => _ end) _) as [[[[om mw] ss] thresh]|x] eqn:E; [|inversion H].
  match type of E with obind ?a _ = _ => destruct a as [om0|] eqn:E1; cbn [obind] in E; [|discriminate] end.
  destruct (get_mfrac_mbexp (map e_var bands) mfracs) as [[mf ws]|] eqn:E2; cbn [obind] in E; [|discriminate].
  destruct (conf h1 cfg "subtract_sky") as [ss0|] eqn:E3; cbn [obind] in E; [|discriminate].
  destruct (subconf h1 cfg "detect" "thresh") as [t0|] eqn:E4; cbn [obind] in E; [|discriminate].
  apply Ok_inj in E. inversion E; subst om0 mw ss0 t0. clear E.
  destruct (if truthy ss then subtract_sky_mbexp P thresh bands else (bands, Ok tt)) as [bands1 [[]|x]] eqn:E5; [|inversion H].
  destruct (obind (conf h1 cfg "shear_bands") _) as [[shear p]|x] eqn:E; [|inversion H].
  destruct (conf h1 cfg "shear_bands") as [sba|] eqn:E6; cbn [obind] in E; [|discriminate].
  destruct (names_of sba) as [sb|] eqn:E7; cbn [obind] in E; [|discriminate].
  destruct (extract_shear_band_indices names sb) as [sh|] eqn:E8; cbn [obind] in E; [|discriminate].
  cbn [snd] in E. destruct (fit_original_psfs _ _ _ _) as [p0|] eqn:E9 in E; cbn [obind] in E; [|discriminate].
  apply Ok_inj in E. inversion E; subst sh p0. clear E.
  destruct (phot_measure P h1 cfg bands1 thresh shear) as [b2 r] eqn:E10. cbn [fst] in H.
  inversion H; subst h1 b2. clear H. destruct r as [r|x]; cbn [obind] in H3; [|discriminate].
  assert (Od : exists dims, combine_ormasks dims ormasks = Ok om).
  { destruct ormasks as [l|]; [eauto|]. destruct bands; [discriminate|eauto]. }
  destruct Od as [dims Od].
  exists cfg, dims, om, mf, ws, ss, thresh, bands1, sba, sb, shear, p, r. repeat split; try assumption; try reflexivity.
  destruct r as [l|].
  - destruct (finish P om mf p l) as [l'|] eqn:F; cbn [obind] in H3; [|discriminate]. apply Ok_inj in H3. eauto.
  - apply Ok_inj in H3. auto.
Qed.

Lemma phot_measure_ok : forall P h cfg bands thresh shear bands' r, phot_measure P h cfg bands thresh shear = (bands', Ok r) ->
  exists c d found, snd (detect_and_deblend_config (ph_stack P) thresh "sdss" None) = Ok c /\
    match bands with [e] => d = ph_single P e | _ => coadd_exposures bands = Ok (Some d) end /\
    ph_detect P c d = Ok found /\ bands' = after_detection P c d bands /\ bands <> [] /\
    match found with
    | None | Some [] => r = None
    | Some cat => exists fwhm a sz, subconf h cfg "pgauss" "fwhm" = Ok fwhm /\ conf h cfg "stamp_size" = Ok a /\ int_of a = Ok sz /\
        measure (phot_env P c d bands' sz fwhm shear) (ph_label P) (ph_order P) cat = Ok r
    end.
Proof.
  intros P h cfg bands thresh shear bands' r H. unfold phot_measure in H.
  destruct (snd (detect_and_deblend_config (ph_stack P) thresh "sdss" None)) as [c|x]; [|inversion H].
  destruct (dd_run (ph_single P) (ph_detect P c) bands) as [[l|l d]|x] eqn:D; [inversion H| |inversion H].
  cbv zeta in H. apply pair_equal_spec in H. destruct H as [<- H].
  assert (X : bands <> [] /\ match bands with [e] => d = ph_single P e | _ => coadd_exposures bands = Ok (Some d) end /\
    exists found, ph_detect P c d = Ok found /\ l = match found with Some l => l | None => [] end).
  { unfold dd_run in D. destruct bands as [|a [|b bands]]; [discriminate| |].
    - cbn [obind] in D. destruct (ph_detect P c (ph_single P a)) as [found|] eqn:F; cbn [obind] in D; [|discriminate].
      apply Ok_inj in D. inversion D; subst. split; [discriminate|]. split; [reflexivity|]. eauto.
    - destruct (coadd_exposures (a :: b :: bands)) as [[d0|]|] eqn:Cd; cbn [obind] in D; try discriminate.
      destruct (ph_detect P c d0) as [found|] eqn:F; cbn [obind] in D; [|discriminate].
      apply Ok_inj in D. inversion D; subst. split; [discriminate|]. split; [reflexivity|]. eauto. }
  destruct X as (X1 & X2 & found & X3 & X4). exists c, d, found. split; [reflexivity|]. split; [exact X2|]. split; [exact X3|]. split; [reflexivity|].
  split; [exact X1|]. subst l. destruct found as [[|s cat]|].
  - now apply Ok_inj in H.
  - destruct (subconf h cfg "pgauss" "fwhm") as [fwhm|]; cbn [obind] in H; [|discriminate].
    destruct (conf h cfg "stamp_size") as [a|]; cbn [obind] in H; [|discriminate].
    destruct (int_of a) as [sz|] eqn:Ia; cbn [obind] in H; [|discriminate]. exists fwhm, a, sz. auto.
  - now apply Ok_inj in H.
Qed.

Lemma after_detection_frames : forall P c d l, Forall2 (fun e e' => same_frame e e' /\ e_image e' = e_image e) l (after_detection P c d l).
Proof.
  intros P c d l. destruct l as [|e [|e2 l]]; unfold after_detection.
  - constructor.
  - destruct (ph_isfloat P); constructor; try constructor; try (repeat split); constructor.
  - apply Forall2_refl'. intro x. split; [apply same_frame_refl|reflexivity].
Qed.
Lemma box_Forall2 : forall (R : exposure -> exposure -> Prop) l l', (forall e e', R e e' -> exp_box e' = exp_box e) ->
  Forall2 R l l' -> one_box l -> one_box l'.
Proof.
  intros R l l' HR F O a b Ia Ib.
  assert (G : forall x, In x l' -> exists y, In y l /\ exp_box x = exp_box y).
  { clear -F HR. induction F as [|e e' l l' E F IH]; intros x []; [subst; exists e; split; [now left|auto]|].
    destruct (IH x H) as (y & A & B). exists y. split; [now right|exact B]. }
  destruct (G a Ia) as (a' & A1 & A2). destruct (G b Ib) as (b' & B1 & B2). rewrite A2, B2. now apply O.
Qed.
Lemma Forall2_map_eq : forall A B (f : A -> B) (R : A -> A -> Prop) l l', (forall x y, R x y -> f y = f x) -> Forall2 R l l' -> map f l' = map f l.
Proof. intros A B f R l l' H F. induction F; cbn; [reflexivity|]. f_equal; auto. Qed.

(** ** The caller's exposures and dictionaries, whatever the outcome *)
Lemma phot_measure_bands : forall P h cfg bands thresh shear, exists c d,
  fst (phot_measure P h cfg bands thresh shear) = bands \/ fst (phot_measure P h cfg bands thresh shear) = after_detection P c d bands.
Proof.
  intros P h cfg bands thresh shear. unfold phot_measure. destruct (snd (detect_and_deblend_config _ _ _ _)) as [c|x].
  - destruct (dd_run _ _ _) as [[l|l d]|x] eqn:D.
    + exists c, (mkCo (ifill 0 0 None) (ifill 0 0 None) (ifill 0 0 0) (ifill 0 0 None) None 0 0). now left.
    + exists c, d. now right.
    + exists c, (mkCo (ifill 0 0 None) (ifill 0 0 None) (ifill 0 0 0) (ifill 0 0 None) None 0 0). now left.
  - exists (CNode []), (mkCo (ifill 0 0 None) (ifill 0 0 None) (ifill 0 0 0) (ifill 0 0 None) None 0 0). now left.
Qed.
Lemma lowered_after : forall P c d l l1, Forall2 sky_lowered l l1 -> Forall2 sky_lowered l (after_detection P c d l1).
Proof.
  intros P c d l l1 F. pose proof (after_detection_frames P c d l1) as G. revert G. generalize (after_detection P c d l1) as l2.
  induction F as [|e e1 l l1 A F IH]; intros l2 G; inversion G; subst; constructor; [|now apply IH].
  match goal with K : same_frame e1 _ /\ _ |- _ => destruct K as [(K1 & K2 & K3 & K4 & K5) K6] end.
  destruct A as [(A1 & A2 & A3 & A4 & A5) (bgs & B)]. split; [repeat split; congruence|]. exists bgs. now rewrite K6.
Qed.
Lemma phot_input : forall P h user names bands mfracs ormasks h' bands' o,
  run_photometry P h user names bands mfracs ormasks = (h', bands', o) ->
  h' = fst (get_config h user) /\ Forall2 sky_lowered bands bands' /\
  (forall cfg ss, get_config h user = (h', Ok cfg) -> conf h' cfg "subtract_sky" = Ok ss -> truthy ss = false ->
     (2 <= List.length bands)%nat \/ ph_isfloat P = false -> bands' = bands).
Proof.
  intros P h user names bands mfracs ormasks h' bands' o H. unfold run_photometry in H.
  assert (Rf : Forall2 sky_lowered bands bands) by apply Forall2_refl', sky_lowered_refl.
  destruct (get_config h user) as [h1 [cfg|x]] eqn:G; [|inversion H; subst; repeat split; auto].
  destruct (obind (match ormasks with Some l => _ | None => _ end) _) as [[[[om mw] ss] thresh]|x] eqn:E; [|inversion H; subst; repeat split; auto].
  match type of E with obind ?a _ = _ => destruct a as [om0|] eqn:E1; cbn [obind] in E; [|discriminate] end.
  destruct (get_mfrac_mbexp (map e_var bands) mfracs) as [[mf ws]|] eqn:E2; cbn [obind] in E; [|discriminate].
  destruct (conf h1 cfg "subtract_sky") as [ss0|] eqn:E3; cbn [obind] in E; [|discriminate].
  destruct (subconf h1 cfg "detect" "thresh") as [t0|] eqn:E4; cbn [obind] in E; [|discriminate].
  apply Ok_inj in E. inversion E; subst om0 mw ss0 t0. clear E.
  destruct (if truthy ss then subtract_sky_mbexp P thresh bands else (bands, Ok tt)) as [bands1 o1] eqn:E5.
  assert (L1 : Forall2 sky_lowered bands bands1).
  { destruct (truthy ss); [exact (subtract_lowered _ _ _ _ _ E5)|]. inversion E5; subst. exact Rf. }
  assert (Same : truthy ss = false -> bands1 = bands) by (intro T; rewrite T in E5; congruence).
  destruct o1 as [[]|x].
  2: { inversion H; subst. split; [reflexivity|]. split; [exact L1|]. intros cfg' ss' Ec Es Tf _. inversion Ec; subst. rewrite E3 in Es. apply Ok_inj in Es. subst. auto. }
  destruct (obind (conf h1 cfg "shear_bands") _) as [[shear p]|x] eqn:E.
  2: { inversion H; subst. split; [reflexivity|]. split; [exact L1|]. intros cfg' ss' Ec Es Tf _. inversion Ec; subst. rewrite E3 in Es. apply Ok_inj in Es. subst. auto. }
  destruct (phot_measure_bands P h1 cfg bands1 thresh shear) as (c & d & Hb).
  destruct (phot_measure P h1 cfg bands1 thresh shear) as [b2 r] eqn:E10. cbn [fst] in Hb, H. inversion H; subst h1 b2. clear H.
  split; [reflexivity|]. split.
  - destruct Hb as [->| ->]; [exact L1|now apply lowered_after].
  - intros cfg' ss' Ec Es Tf Two. inversion Ec; subst cfg'. rewrite E3 in Es. apply Ok_inj in Es. subst ss'. rewrite (Same Tf) in Hb.
    destruct Hb as [->| ->]; [reflexivity|]. unfold after_detection. destruct bands as [|a [|b bands]]; try reflexivity.
    destruct Two as [Two| ->]; [cbn in Two; lia|reflexivity].
Qed.

(** ** The iterations *)
Lemma sky_niter : forall stack t u c, sky_config stack t None = (u, Ok c) -> niter_of c = Ok 2.
Proof.
  intros stack t u c H. assert (V : value_at c ["iterate_detection_and_skysub"; "niter"] = Some (AInt 2)).
  { unfold sky_config in H. destruct (truthy t) eqn:T.
    - cbn [put_threshold sget as_dict obind sput] in H.
      apply pair_equal_spec in H. destruct H as [_ H]. destruct (override _ _) as [c0 [[]|e]] eqn:O; [|discriminate]. apply Ok_inj in H. subst c0.
      assert (D1 : forall k o, distinct_keys o -> distinct_keys (ODict [(k, o)])).
      { intros k o Do. constructor; [constructor; [intros []|constructor]|]. intros k1 o1 [E|[]]. injection E as <- <-. exact Do. }
      unfold value_at. rewrite (proj2 (override_gen _ _ _ ltac:(cbn; apply D1, D1, D1; constructor) O) ["iterate_detection_and_skysub"; "niter"]); [reflexivity|].
      cbn. reflexivity.
    - apply pair_equal_spec in H. destruct H as [_ H]. cbn in H. apply Ok_inj in H. subst c. reflexivity. }
  unfold value_at in V. cbn [field] in V. unfold niter_of, node_at. destruct (cget c "iterate_detection_and_skysub") as [[a|l]|]; try discriminate.
  cbn [obind]. unfold leaf_at. destruct (cget (CNode l) "niter") as [[a|l2]|]; try discriminate. cbn [field] in V. injection V as ->. reflexivity.
Qed.
Lemma sky_band_iterated : forall P c e e' r, Lsky_spec.no_reestimate (ph_skydetect P c e) -> sky_band P c 2 e = (e', Ok r) ->
  sky_iterated (ph_back P) (ph_skydetect P c) e e'.
Proof.
  intros P c e e' r NR H. unfold sky_band in H. destruct (Lsky_model.run _ _ _ _ _) as [x o] eqn:E. inversion H; subst. clear H.
  split; [repeat split|]. destruct r as [[]|].
  - destruct (Lsky_proofs.run_success unit _ _ NR _ _ _ _ E) as (_ & l & e1 & sky & It & Len & -> & _ & _).
    exists l, e1. split; [exact It|]. left. cbn. split; [lia|]. auto.
  - destruct (Lsky_proofs.run_none unit _ _ NR _ _ _ E) as (l & e1 & f & It & Len & Hf & [[A ->]|(bg & m & A & B & ->)]).
    + exists l, e1. split; [exact It|]. right. split; [lia|]. exists f. auto.
    + exists l, e1. split; [exact It|]. right. split; [lia|]. exists f. split; [exact Hf|]. right. exists bg, m. auto.
Qed.
Lemma subtract_iterated : forall P t l l', stack_ok (ph_stack P) -> (forall c e, Lsky_spec.no_reestimate (ph_skydetect P c e)) ->
  subtract_sky_mbexp P t l = (l', Ok tt) ->
  exists c, value_at c ["iterate_detection_and_skysub"; "detect"; "thresholdValue"] = Some (effective t) /\
    Forall2 (sky_iterated (ph_back P) (ph_skydetect P c)) l l'.
Proof.
  intros P t l l' So NR H. unfold subtract_sky_mbexp in H. destruct (sky_config (ph_stack P) t None) as [u o] eqn:E. cbn [snd] in H.
  destruct o as [c|x]; [|discriminate]. exists c. split; [exact (sky_none _ _ _ _ So E)|]. rewrite (sky_niter _ _ _ _ E) in H.
  revert l' H. induction l as [|e l IH]; intros l' H; cbn [sky_bands] in H; [inversion H; constructor|].
  destruct (sky_band P c 2 e) as [e1 [r|x]] eqn:B; [|discriminate]. destruct (sky_bands P c 2 l) as [l1 o1] eqn:S. inversion H; subst.
  constructor; [exact (sky_band_iterated _ _ _ _ _ (NR c e) B)|now apply IH].
Qed.
