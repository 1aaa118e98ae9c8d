From Coq Require Import ZArith QArith List String Bool Lia Permutation.
From Verif Require Import Base Arr Median Flags_model Dict Lutil_model Lutil_spec Lutil_proofs Lexp_model Lexp_spec Lexp_proofs Lmeas_model Lmeas_spec
  Lmeas_proofs Ltot_spec.
Import ListNotations.
Local Open Scope string_scope.
Local Open Scope Z_scope.

Lemma omap_returns : forall A B (f : A -> outcome B) l, (forall a, In a l -> exists b, f a = Ok b) ->
  exists r, omap f l = Ok r /\ List.length r = List.length l.
Proof.
  induction l as [|a l IH]; intros H; [exists []; auto|]. cbn [omap]. destruct (H a (or_introl eq_refl)) as [b ->]. cbn [obind].
  destruct IH as (r & -> & L); [intros; apply H; now right|]. cbn [obind]. exists (b :: r). cbn. auto.
Qed.
(** What the measurement of a source handles. *)
Definition handled {A} (o : outcome A) : Prop := match o with Ok _ => True | Raise LengthError => True | Raise (OtherError 1) => True | _ => False end.
Lemma omap_handled : forall A B (f : A -> outcome B) l, (forall a, In a l -> handled (f a)) -> handled (omap f l).
Proof.
  induction l as [|a l IH]; intros H; [exact Logic.I|]. cbn [omap]. pose proof (H a (or_introl eq_refl)) as Ha.
  destruct (f a) as [b|x]; cbn [obind]; [|exact Ha]. specialize (IH (fun a i => H a (or_intror i))).
  destruct (omap f l); cbn [obind]; exact IH.
Qed.
Lemma odd_square_true : forall (im : img Q), nr im = nc im -> nr im mod 2 = 1 -> odd_square im = true.
Proof. intros im E M. unfold odd_square. rewrite M, E, Z.eqb_refl. reflexivity. Qed.

Lemma band_handled : forall env s b e x y, hd_error (s_peaks s) = Some (x, y) -> has_wcs_psf e -> handled (band_obs env s b e).
Proof.
  intros env s b e x y Hp (Hw & draw & Hd & Ho). unfold band_obs, sub_exp. destruct b as [c|]; [|exact Logic.I].
  destruct (contains_box (exp_box e) (Some c)); [|exact Logic.I]. cbn [obind]. unfold first_peak.
  destruct (s_peaks s) as [|p pk]; [discriminate|]. cbn [obind]. unfold extract_obs.
  destruct (forallb _ _); [exact Logic.I|]. unfold get_jacobian. cbn [e_wcs e_psf]. destruct (e_wcs e) as [w|]; [|congruence].
  cbn [some_or_attr obind]. rewrite Hd. cbn [some_or_attr obind]. rewrite odd_square_true by apply Ho. exact Logic.I.
Qed.
Lemma source_handled : forall env s x y, hd_error (s_peaks s) = Some (x, y) -> (forall e, In e (m_bands env) -> has_wcs_psf e) ->
  handled (source_mbobs env s).
Proof.
  intros env s x y Hp Hb. unfold source_mbobs, get_bbox. destruct (s_peaks s) as [|[x0 y0] pk] eqn:Es; [discriminate|].
  destruct (contains_box _ _); [|exact Logic.I]. cbn [obind]. apply omap_handled. intros e He.
  apply (band_handled env s _ e x0 y0); [rewrite Es; reflexivity|auto].
Qed.

Lemma one_returns : forall env label stamp bmasks i s x y b, fits_return env -> hd_error (s_peaks s) = Some (x, y) ->
  mbexp_box env <> None -> stamp (s_id s) = source_mbobs env s -> handled (source_mbobs env s) -> nth_error bmasks i = Some b ->
  exists r, measure_one env label stamp bmasks i s = Ok r.
Proof.
  intros env label stamp bmasks i s x y b Hf Hp Hb He Hs Hn. unfold measure_one. rewrite He. rewrite Hn. cbn [obind].
  assert (F : exists fl g p, fit_stamp env label (source_mbobs env s) = Ok (fl, struct "gauss" g, struct "pgauss" p)).
  { unfold fit_stamp. destruct (source_mbobs env s) as [obs|e] eqn:Eo; cbn [handled] in Hs.
    - destruct (Hf s obs Eo) as [(g & ->) (p & ->)]. cbn [obind]. eauto.
    - destruct e; try contradiction; [eauto|]. destruct n as [|[|n]]; try contradiction. eauto. }
  destruct F as (fl & g & p & ->). cbn [obind fst snd]. rewrite combined_ok. cbn [obind].
  match goal with |- exists r, get_output env s ?b _ = _ => replace b with (base_row fl g p) by reflexivity end.
  unfold get_output.
  assert (E : get_output_struct env (base_row fl g p) = Ok (base_row fl g p ++ map (fun nt => (fst nt, output_default env nt)) output_dtype)%list).
  { vm_compute. reflexivity. }
  rewrite E. cbn [obind]. unfold first_peak. destruct (s_peaks s); [discriminate|]. cbn [obind].
  destruct (mbexp_box env); [|congruence]. destruct (m_cen env (s_id s)) as [[cx cy]|].
  - cbn [obind]. eexists. reflexivity.
  - destruct (s_peakpos s). cbn [obind]. eexists. reflexivity.
Qed.
Lemma loop_returns : forall env label stamp bmasks cs i, fits_return env -> mbexp_box env <> None ->
  (forall s, In s cs -> stamp (s_id s) = source_mbobs env s /\ handled (source_mbobs env s) /\ exists x y, hd_error (s_peaks s) = Some (x, y)) ->
  (i + List.length cs <= List.length bmasks)%nat ->
  exists rows, measure_loop env label stamp bmasks i (map Some cs) = Ok rows /\ List.length rows = List.length cs.
Proof.
  induction cs as [|s cs IH]; intros i Hf Hb Hs Hl; [exists []; auto|]. cbn [map measure_loop some_or_attr obind].
  destruct (Hs s (or_introl eq_refl)) as (H0 & H1 & x & y & H2). destruct (nth_error bmasks i) as [b|] eqn:En.
  2: { apply nth_error_None in En. cbn in Hl. lia. }
  destruct (one_returns env label stamp bmasks i s x y b) as [r ->]; auto. cbn [obind].
  destruct (IH (S i)) as (rows & -> & L); auto; [intros; apply Hs; now right|cbn in Hl; lia|]. cbn [obind].
  exists (r :: rows). cbn. auto.
Qed.
Lemma children_found : forall order cat, catalogue cat -> lists_set order ->
  exists cs, map (find_source cat) (child_ids order cat) = map Some cs /\ Permutation cs (childless cat).
Proof.
  intros order cat C O.
  assert (E : exists cs, map (find_source cat) (child_ids order cat) = map Some cs).
  { assert (H : forall id, In id (child_ids order cat) -> exists s, find_source cat id = Some s).
    { intros id I. apply child_ids_In in I; [|exact O]. destruct I as (s & I & <-). exists s. apply find_source_In; [exact C|].
      unfold childless in I. apply filter_In in I. tauto. }
    revert H. generalize (child_ids order cat). induction l as [|id l IH]; intros H; [exists []; reflexivity|].
    destruct (H id (or_introl eq_refl)) as [s Es]. destruct IH as [cs Ecs]; [intros; apply H; now right|].
    exists (s :: cs). cbn. now rewrite Es, Ecs. }
  destruct E as [cs E]. exists cs. split; [exact E|]. eapply children_perm; eauto.
Qed.

Lemma has_box : forall env, has_pixels (m_bands env) -> mbexp_box env <> None.
Proof.
  intros env H. unfold mbexp_box, exp_box, norm_box. destruct (m_bands env) as [|e l]; [destruct H|]. destruct H as [H1 H2]. cbn [bx0 bx1 by0 by1].
  destruct (Z.ltb_spec (e_x0 e + nc (e_image e) - 1) (e_x0 e)); [lia|].
  destruct (Z.ltb_spec (e_y0 e + nr (e_image e) - 1) (e_y0 e)); [lia|]. cbn. discriminate.
Qed.
Lemma bmasks_return : forall env cat, peaks_on_mask env cat -> exists l, get_bmasks env cat = Ok l /\ List.length l = List.length cat.
Proof.
  intros env cat H. apply omap_returns. intros s Hs. destruct (H s Hs) as (x & y & E & I). unfold get_bmask, first_peak.
  destruct (s_peaks s) as [|p l]; [discriminate|]. cbn in E. injection E as ->. cbn [obind fst snd].
  rewrite (proj2 (insideb_spec _ _ _ _) I). eauto.
Qed.
Lemma measure_returns : forall env label order cat, can_measure env cat -> lists_set order ->
  exists rows, measure env label order cat = Ok (match rows with [] => None | _ => Some rows end) /\
    List.length rows = List.length (childless cat).
Proof.
  intros env label order cat (C & Hp & Hb & Hm & Hf & sb & Hsb) O. unfold measure, measure_with.
  destruct (children_found order cat C O) as (cs & E & P). rewrite E.
  destruct cat as [|c0 cat'] eqn:Ec; [exists []; auto|]. rewrite <- Ec in *. clear Ec c0 cat'. rewrite Hsb. cbn [obind].
  destruct (bmasks_return env cat Hm) as (bm & -> & L). cbn [obind].
  assert (Hin : forall s, In s cs -> In s (childless cat)) by (intros s I; apply (Permutation_in _ P I)).
  destruct (loop_returns env (label sb) (get_mbobs env order cat) bm cs 0 Hf (has_box env Hp)) as (rows & -> & Lr).
  - intros s I. specialize (Hin s I). split; [apply get_mbobs_child; assumption|]. unfold childless in Hin. apply filter_In in Hin.
    destruct (Hm s (proj1 Hin)) as (x & y & Ep & _). split; [eapply source_handled; eauto|eauto].
  - rewrite L. cbn [plus]. rewrite (Permutation_length P). unfold childless. clear. induction cat as [|s l IH]; cbn; [lia|].
    destruct (_ =? 0); cbn; lia.
  - cbn [obind]. exists rows. rewrite Lr, (Permutation_length P). split; [destruct rows; reflexivity|reflexivity].
Qed.

(** ** The package's own fits *)
From Verif Require Import Coadd_model Wavg_model Joint_model Mtot_spec Mtot_proofs Lfit_model.
From Verif Require Lmcal_proofs Lrun_proofs.
Lemma obs_square : forall env s b e o, (forall c, b = Some c -> bx1 c - bx0 c = by1 c - by0 c) -> Lmeas_model.band_obs env s b e = Ok o ->
  o_bmask o <> None /\ nr (o_weight o) = nc (o_weight o).
Proof.
  intros env s b e o Hb H. unfold Lmeas_model.band_obs, sub_exp in H. destruct b as [c|]; [|discriminate]. specialize (Hb c eq_refl).
  destruct (contains_box _ _); [|discriminate]. cbn [obind] in H. destruct (first_peak s) as [pk|]; [|discriminate]. cbn [obind] in H.
  unfold extract_obs in H. destruct (forallb _ _); [discriminate|]. destruct (get_jacobian _ _ _ _) as [j|]; [|discriminate]. cbn [obind] in H.
  destruct (some_or_attr _) as [d|]; [|discriminate]. cbn [obind] in H. destruct (negb _); [discriminate|]. apply Ok_inj in H. subst o.
  cbn [o_bmask o_weight]. split; [discriminate|]. unfold extract_weight. cbn [nr nc imap e_var cut]. lia.
Qed.
Lemma stamps_good : forall jid env s obs, source_mbobs env s = Ok obs -> good_stamps (zlen (m_bands env)) (stamps_of jid obs).
Proof.
  intros jid env s obs H. unfold source_mbobs in H. destruct (get_bbox _ _ _ _) as [b|] eqn:Eb; [|discriminate]. cbn [obind] in H.
  assert (Sq : forall c, b = Some c -> bx1 c - bx0 c = by1 c - by0 c).
  { intros c ->. unfold get_bbox in Eb. destruct (s_peaks s) as [|[x y] pk]; [discriminate|]. destruct (contains_box _ _); [|discriminate].
    apply Ok_inj in Eb. unfold grow, norm_box in Eb. cbn [bx0 bx1 by0 by1] in Eb. destruct (_ || _); [discriminate|].
    apply Some_inj in Eb. subst c. cbn [bx0 bx1 by0 by1]. lia. }
  apply omap_ok_Forall2 in H. unfold stamps_of. split.
  - unfold zlen. rewrite map_length. now rewrite (Lmcal_proofs.Forall2_length' _ _ _ _ _ H).
  - intros ol o Ho Io. apply in_map_iff in Ho. destruct Ho as (lo & <- & Il). destruct Io as [<-|[]].
    destruct (Lrun_proofs.Forall2_In_r _ _ _ _ _ _ H Il) as (e & _ & Ee). destruct (obs_square _ _ _ _ _ Sq Ee) as [A B].
    unfold good_obs, stamp_of. cbn [f_bmask f_psf f_weight]. split; [exact A|]. split; [discriminate|exact B].
Qed.
Lemma zrange_good : forall n, 0 < n <= 6 -> good_bands n (zrange n).
Proof.
  intros n Hn. split; [|split; [|split]].
  - intros E. assert (L := zrange2_length 0 n). unfold zrange in E. rewrite E in L. cbn in L. lia.
  - apply zrange_nodup.
  - unfold zrange. rewrite zrange2_length. lia.
  - intros b Hb. apply in_zrange in Hb. exact Hb.
Qed.
Lemma own_fits_return : forall ng boot mk toT sq ft jid env sb, 0 < zlen (m_bands env) <= 6 ->
  m_shear_bands env = Ok sb -> good_bands (zlen (m_bands env)) sb ->
  (forall mb g p, boot mb = BootOk g p -> g_flags g = 0 -> List.length (g_flux g) = List.length mb /\ List.length (g_flux_err g) = List.length mb) ->
  k_kind ft <> "am" -> (forall o, exists r, k_go ft o = Ok r) -> (forall p, exists r, k_go_psf ft p = Ok r) ->
  fits_return (with_fits ng boot mk toT sq ft jid env).
Proof.
  intros ng boot mk toT sq ft jid env sb Hn Hsb Gb Hboot Hk H1 H2 s obs Hs.
  assert (G : good_stamps (zlen (m_bands env)) (stamps_of jid obs)) by exact (stamps_good jid (with_fits ng boot mk toT sq ft jid env) s obs Hs).
  unfold with_fits. cbn [m_gauss m_pgauss]. rewrite Hsb. cbn [obind]. unfold lsst_gauss, lsst_pgauss.
  destruct (gauss_total ng boot _ 0 sb false _ G Gb Hboot) as (r & ->). cbn [obind]. split; [eauto|].
  replace (fit_mbobs_wavg ng mk toT sq (stamps_of jid obs) ft 0 None 0 true)
    with (fit_mbobs_wavg ng mk toT sq (stamps_of jid obs) ft 0 (Some (zrange (zlen (stamps_of jid obs)))) 0 true) by reflexivity.
  destruct (wavg_total ng mk toT sq (stamps_of jid obs) ft 0 (zrange (zlen (stamps_of jid obs))) 0 true _ G) as (r' & ->); auto.
  - rewrite (proj1 G). apply zrange_good. exact Hn.
  - cbn [obind]. eauto.
Qed.
