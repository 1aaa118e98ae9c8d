(** C85: measuring on scarlet models. *)
From Coq Require Import ZArith QArith List String Bool Lia.
From Verif Require Import Base Arr Flags_model Dict Lutil_model Lexp_model Lmeas_model Lmeas_spec Lmeas_proofs Lmeas_props
  Lsub_model Lsub_spec Lsub_proofs Lsub_props Lscar_model Lscar_spec Lscar_proofs.
Import ListNotations.
Local Open Scope string_scope.
Local Open Scope Z_scope.

(** For every model data and every catalogue: one row per source of the model
    data, in that order. Whatever happened to the sources before it (edge hits,
    zero weights), a source is measured on the caller's pixels minus the models of
    all other sources, with the weights, masks, jacobian and psf of the caller's
    exposures. Missing: this holds for pixel arithmetic without rounding
    (C59_float_refuted), and needs a model for every band. *)
Theorem C85_rows_partial : forall P add sub (zero : P) val, exact_arith add sub zero ->
  forall env names mbands fbox blends orig label cat after rows,
  NoDup mbands -> NoDup names -> incl names mbands -> List.length names = List.length (m_bands env) ->
  NoDup (map (b_id P) (model_sources P blends)) -> 0 <= m_stamp_size env -> one_box (m_bands env) ->
  measure_scarlet P add sub val env names mbands fbox blends orig label cat = (after, Ok (Some rows)) ->
  exists sb, m_shear_bands env = Ok sb /\
  Forall2 (fun b r => exists s flags, find_source cat (b_id P b) = Some s /\ at_position env s r /\ at_sky env s r /\
      sget "stamp_flags" r = Some (CInt flags) /\
      (flags = 2 ^ 20 <-> ~ stamp_inside env s) /\
      (flags = 2 ^ 25 <-> stamp_inside env s /\ some_band_unusable env s) /\
      (flags = 0 <-> stamp_inside env s /\ ~ some_band_unusable env s) /\
      (flags = 0 -> exists obs g p, isolated P sub val env names (foot_of cat fbox) orig (model_sources P blends) s obs /\
                      m_gauss env obs = Ok g /\ m_pgauss env obs = Ok p /\ has_fits g p r) /\
      (flags <> 0 -> not_attempted env r /\ sget "shear_bands" r = Some (CStr (label sb))))
    (model_sources P blends) rows.
Proof.
  intros P add sub zero val E env names mbands fbox blends orig label cat after rows Nm Nb Hi Hlen Ni Sz Ob H.
  set (l := model_sources P blends) in *. unfold measure_scarlet in H. fold l in H. destruct cat as [|c0 cat']; [apply pair_equal_spec in H; destruct H; discriminate|].
  set (cat := c0 :: cat') in *. destruct (m_shear_bands env) as [sb|]; cbn [obind] in H; [|apply pair_equal_spec in H; destruct H; discriminate].
  destruct (get_bmasks env cat) as [bms|]; cbn [obind] in H; [|apply pair_equal_spec in H; destruct H; discriminate].
  destruct (copy_mbexp false (m_bands env)) as [bands|] eqn:Eb; cbn [obind] in H; [|apply pair_equal_spec in H; destruct H; discriminate].
  apply copy_mbexp_ok in Eb. subst bands.
  destruct (make_subtractor P sub mbands names (mbexp_box env) (foot_of cat fbox) l orig) as [s0|] eqn:Es; cbn [obind] in H; [|apply pair_equal_spec in H; destruct H; discriminate].
  destruct (scar_loop P add sub val env names (m_bands env) cat (label sb) bms 0 s0 (Lsub_model.child_ids P s0)) as [s' o] eqn:L.
  apply pair_equal_spec in H. destruct H as [_ H]. destruct o as [rs|]; cbn [obind] in H; [|discriminate].
  assert (rs = rows). { destruct rs; [discriminate|]. apply Ok_inj, Some_inj in H. exact H. } subst rs. clear H.
  exists sb. split; [reflexivity|].
  destruct (made P sub mbands names _ _ l orig s0 Nm Nb Hi Ni Es) as (_ & _ & _ & _ & _ & He & _).
  assert (Ids : Lsub_model.child_ids P s0 = map (b_id P) l). { unfold Lsub_model.child_ids. rewrite He, map_map. reflexivity. }
  rewrite Ids in L.
  destruct (scar_loop_ok P add sub zero val E env names mbands cat fbox l orig s0 Nm Nb Hi Ni Es Hlen (label sb) bms _ _ _ _ _
    (reachable_start P add sub s0) (incl_refl _) L) as [_ F].
  assert (G : forall l', Forall2 (fun id r => exists src im flags g p bmask, find_source cat id = Some src /\ clean P sub names cat fbox l orig im id /\
    stamp_case env (label sb) (source_mbobs (with_bands env (exposures P val names (m_bands env) im)) src) flags g p /\ get_output env src (base_row flags g p) bmask = Ok r) (map (b_id P) l') rows ->
    Forall2 (fun b r => exists src im flags g p bmask, find_source cat (b_id P b) = Some src /\ clean P sub names cat fbox l orig im (b_id P b) /\
    stamp_case env (label sb) (source_mbobs (with_bands env (exposures P val names (m_bands env) im)) src) flags g p /\ get_output env src (base_row flags g p) bmask = Ok r) l' rows).
  { clear. revert rows. intros rows l'. revert rows. induction l' as [|b l' IH]; intros rows F; cbn in F; inversion F; subst; constructor; auto. }
  apply G in F. clear G. eapply Forall2_weaken; [|exact F]. clear F L. cbv beta.
  intros b r (src & im & flags & g & p & bm & Fs & C & S & Go).
  destruct (row_facts env (with_bands env (exposures P val names (m_bands env) im)) (label sb) src flags g p bm r eq_refl Sz
    (exps_one_box P val env names im Ob) (exps_inside P val env names Hlen im src) (exps_unusable P val env names Hlen im src) S Go)
    as (Pk & Q1 & Q2 & Q3 & Q4 & Q5 & Q6 & Q7 & Q8).
  exists src, flags. do 7 (split; [assumption|]). split; [|exact Q8].
  intro Z. destruct (Q7 Z) as (obs & O1 & O2 & O3 & O4). exists obs, g, p. split; [|auto].
  pose proof (find_source_Some _ _ _ Fs) as [_ Eid]. rewrite <- Eid in C.
  exact (isolated_ok P sub val env names cat fbox l orig Hlen src im obs C Sz Pk O1).
Qed.
Print Assumptions C85_rows_partial.
(** The mask column goes by position in the catalogue, not by source (as in C61). *)
Theorem C85_bmask_position : forall P add sub val env names mbands fbox blends orig label cat after rows,
  measure_scarlet P add sub val env names mbands fbox blends orig label cat = (after, Ok (Some rows)) -> masks_by_position env cat rows.
Proof. exact scarlet_masks. Qed.
Print Assumptions C85_bmask_position.
(** The caller's pixels are untouched, whether or not the measurement succeeds,
    and when rows are missing it is because there are no models. *)
Theorem C85_input_kept : forall P add sub val env names mbands fbox blends orig label cat after o,
  measure_scarlet P add sub val env names mbands fbox blends orig label cat = (after, o) -> after = orig.
Proof.
  intros P add sub val env names mbands fbox blends orig label cat after o H. unfold measure_scarlet in H.
  destruct cat as [|c0 cat']; [now apply pair_equal_spec in H|].
  destruct (do sb <- m_shear_bands env; _) as [[[[sb bms] bands] s]|]; [|now apply pair_equal_spec in H].
  destruct (scar_loop _ _ _ _ _ _ _ _ _ _ _ _ _) as [s' o']. now apply pair_equal_spec in H.
Qed.
Print Assumptions C85_input_kept.
Theorem C85_none : forall P add sub (zero : P) val, exact_arith add sub zero ->
  forall env names mbands fbox blends orig label cat after,
  NoDup mbands -> NoDup names -> incl names mbands -> List.length names = List.length (m_bands env) ->
  NoDup (map (b_id P) (model_sources P blends)) ->
  measure_scarlet P add sub val env names mbands fbox blends orig label cat = (after, Ok None) ->
  cat = [] \/ model_sources P blends = [].
Proof.
  intros P add sub zero val E env names mbands fbox blends orig label cat after Nm Nb Hi Hlen Ni H.
  set (l := model_sources P blends) in *. unfold measure_scarlet in H. fold l in H. destruct cat as [|c0 cat']; [now left|]. right.
  set (cat := c0 :: cat') in *. destruct (m_shear_bands env) as [sb|]; cbn [obind] in H; [|apply pair_equal_spec in H; destruct H; discriminate].
  destruct (get_bmasks env cat) as [bms|]; cbn [obind] in H; [|apply pair_equal_spec in H; destruct H; discriminate].
  destruct (copy_mbexp false (m_bands env)) as [bands|] eqn:Eb; cbn [obind] in H; [|apply pair_equal_spec in H; destruct H; discriminate].
  apply copy_mbexp_ok in Eb. subst bands.
  destruct (make_subtractor P sub mbands names (mbexp_box env) (foot_of cat fbox) l orig) as [s0|] eqn:Es; cbn [obind] in H; [|apply pair_equal_spec in H; destruct H; discriminate].
  destruct (scar_loop P add sub val env names (m_bands env) cat (label sb) bms 0 s0 (Lsub_model.child_ids P s0)) as [s' o] eqn:L.
  apply pair_equal_spec in H. destruct H as [_ H]. destruct o as [rs|]; cbn [obind] in H; [|discriminate].
  assert (rs = []) by (destruct rs; [reflexivity|discriminate]). subst rs. clear H.
  destruct (made P sub mbands names _ _ l orig s0 Nm Nb Hi Ni Es) as (_ & _ & _ & _ & _ & He & _).
  assert (Ids : Lsub_model.child_ids P s0 = map (b_id P) l). { unfold Lsub_model.child_ids. rewrite He, map_map. reflexivity. }
  rewrite Ids in L.
  destruct (scar_loop_ok P add sub zero val E env names mbands cat fbox l orig s0 Nm Nb Hi Ni Es Hlen (label sb) bms _ _ _ _ _
    (reachable_start P add sub s0) (incl_refl _) L) as [_ F].
  destruct l; [reflexivity|]. inversion F.
Qed.
Print Assumptions C85_none.
(** The psf and wcs survive the copy, and clearing touches the image only. *)
Theorem C85_copy : forall clear bands copies, copy_mbexp clear bands = Ok copies ->
  Forall2 (fun e n => e_x0 n = e_x0 e /\ e_y0 n = e_y0 e /\ e_var n = e_var e /\ e_mask n = e_mask e /\ e_psf n = e_psf e /\ e_wcs n = e_wcs e /\
    nr (e_image n) = nr (e_image e) /\ nc (e_image n) = nc (e_image e) /\
    forall i j, px (e_image n) i j = if clear then 0%Q else px (e_image e) i j) bands copies.
Proof.
  intros clear bands copies H. unfold copy_mbexp in H. apply omap_ok_Forall2 in H. eapply Forall2_weaken; [|exact H]. clear H. cbv beta.
  intros e n H. unfold copy_exposure, try_clone_psf in H. destruct (e_psf e) as [d|] eqn:D; cbn [obind] in H; [|discriminate].
  apply Ok_inj in H. subst n. destruct clear; cbn [set_wcs set_psf clone_exposure ifill e_x0 e_y0 e_image e_var e_mask e_psf e_wcs nr nc px]; rewrite ?D; repeat split; reflexivity.
Qed.
Print Assumptions C85_copy.

(** With a single band the model data cannot be used at all. *)
Theorem C85_single_band_refuted : forall P add sub val env name fbox b r rest orig label cat,
  find_source cat (b_id P b) <> None ->
  exists e, snd (measure_scarlet P add sub val env [name] [name] fbox (((b :: r) :: rest) :: []) orig label cat) = Raise e.
Proof.
  intros P add sub val env name fbox b r rest orig label cat Fs. unfold measure_scarlet. destruct cat as [|c0 cat']; [cbn in Fs; congruence|].
  set (cat := c0 :: cat') in *. destruct (m_shear_bands env) as [sb|e]; cbn [obind]; [|exists e; reflexivity].
  destruct (get_bmasks env cat) as [bms|e]; cbn [obind]; [|exists e; reflexivity].
  destruct (copy_mbexp false (m_bands env)) as [bands|e]; cbn [obind]; [|exists e; reflexivity].
  unfold make_subtractor, model_sources. cbn [List.concat List.app build]. unfold foot_of. destruct (find_source cat (b_id P b)); [|congruence].
  cbn. exists TypeError. reflexivity.
Qed.
Print Assumptions C85_single_band_refuted.

(** *** A survey with two bands, two overlapping sources and one at the edge; the
    fits report the pixel in the middle of the last band. *)
Definition pixel_fit (obs : list lobs) : outcome (string -> cell) :=
  match rev obs with o :: _ => Ok (fun _ => CNum (Some (px (o_image o) 1 1))) | [] => Raise IndexError end.
Definition env2 : menv :=
  mkMenv [exB; exB] 100 200 det_mask (fun id => Some (inject_Z (100 + id), (2041 # 10))%Q) (fun id => None)
    (fun _ _ _ => mkMat 1 0 0 1) (fun c => c) pixel_fit pixel_fit (0%Q, 0%Q) 1 32 3 (Ok [0]).
Definition cat2 : list source :=
  [mkSrc 1 3 [(104, 204)] (104%Q, 204%Q); mkSrc 2 0 [(106, 205)] (106%Q, 205%Q); mkSrc 3 0 [(108, 205)] (108%Q, 205%Q); mkSrc 4 0 [(105, 205)] (105%Q, 205%Q)].
Definition fbox2 (id : Z) : box := Some (mkBox 104 203 108 207).
Definition blends2 : list (list (list (blend_source Z))) :=
  [[[mkBlend Z 4 (fun band x y => Some 1)]; [mkBlend Z 3 (fun band x y => Some 10)]]; [[mkBlend Z 2 (fun band x y => Some (x - 100))]]].
Example C85_example : exists a b c,
  measure_scarlet Z Z.add Z.sub inject_Z env2 ["r"; "i"] ["r"; "i"] fbox2 blends2 (fun band x y => 1000 + y) lab cat2 = (fun band x y => 1000 + y, Ok (Some [a; b; c])) /\
  (* the source with id 4 without the models of 3 and 2; 3 hits the edge; then 2 without those of 4 and 3 *)
  sget "gauss_T" a = Some (CNum (Some (inject_Z (1000 + 205 - 10 - 5)))) /\
  sget "stamp_flags" b = Some (CInt (2 ^ 20)) /\
  sget "gauss_T" c = Some (CNum (Some (inject_Z (1000 + 205 - 1 - 10)))) /\
  NoDup (map (b_id Z) (model_sources Z blends2)) /\ one_box (m_bands env2) /\ exact_arith Z.add Z.sub 0.
Proof.
  do 3 eexists. split; [vm_compute; reflexivity|]. do 3 (split; [reflexivity|]). split; [repeat constructor; cbn; intuition lia|].
  split; [intros e e' [<-|[<-|[]]] [<-|[<-|[]]]; reflexivity|exact z_exact].
Qed.
