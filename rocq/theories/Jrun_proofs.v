From Coq Require Import ZArith QArith Lia List String Bool.
From Verif Require Import Base Arr Median Flags_model Coadd_model Coadd_spec Wavg_model Wavg_spec Wavg_proofs Joint_model Joint_spec Joint_proofs
  Jrun_model Jrun_spec.
Import ListNotations.
Local Open Scope Z_scope.

(** The bootstrap matters only for the stamps that are fit. *)
Lemma gauss_boot_ext : forall ng b1 b2 mbobs bm sb coadd,
  (forall mb, good_data bm mbobs -> fitted_stamps mbobs (default_bands mbobs sb) coadd mb -> b1 mb = b2 mb) ->
  fit_mbobs_gauss ng b1 mbobs bm sb coadd = fit_mbobs_gauss ng b2 mbobs bm sb coadd.
Proof.
  intros ng b1 b2 mbobs bm sb coadd H. unfold fit_mbobs_gauss.
  destruct (get_wavg_output_struct _ _ _) as [d0|]; cbn [obind]; [|reflexivity].
  destruct (data_flags bm mbobs) as [f0|] eqn:F; cbn [obind]; [|reflexivity].
  destruct (negb _) eqn:N; [reflexivity|]. apply negb_false_iff, Z.eqb_eq in N.
  assert (f0 = 0).
  { destruct (existsb _ _); [|exact N]. apply lor0 in N. tauto. }
  subst f0. destruct (gauss_stamps _ _ _) as [[mb|cf]|e] eqn:G; cbn [obind]; try reflexivity.
  rewrite (H mb (data_flags_zero _ _ F) (fit_stamps _ _ _ _ G)). reflexivity.
Qed.

Lemma band_obs_in : forall mbobs b o, band_obs mbobs b = Ok o -> exists ol, In ol mbobs /\ In o ol.
Proof.
  intros mbobs b o H. unfold band_obs in H. destruct (py_index mbobs b) as [ol|] eqn:E; cbn [obind] in H; [|discriminate].
  exists ol. split; eapply py_index_in; eassumption.
Qed.
(** The coadd has the jacobian of one of the stamps. *)
Lemma coadd_jac : forall mbobs sb o c, make_coadd_obs mbobs sb = Ok (Some o, c) ->
  exists ol o', In ol mbobs /\ In o' ol /\ f_jac o = f_jac o'.
Proof.
  intros mbobs sb o c H. unfold make_coadd_obs in H.
  assert (T : forall b, (do x <- band_obs mbobs b; Ok (Some x, 0)) = Ok (Some o, c) ->
     exists ol o', In ol mbobs /\ In o' ol /\ f_jac o = f_jac o').
  { intros b K. destruct (band_obs mbobs b) as [x|] eqn:E; cbn [obind] in K; [|discriminate]. apply Ok_inj in K. inversion K; subst.
    destruct (band_obs_in _ _ _ E) as (ol & A & B). eauto. }
  assert (M : forall s0 rest, (do fo <- band_obs mbobs s0; do ok <- all_consistent mbobs fo rest;
       if negb ok then Ok (None, flag_value INCONSISTENT_BANDS)
       else do obs <- omap (band_obs mbobs) sb;
         match f_psf fo with None => Raise AttributeError | Some fp => Ok (coadd_many obs fo fp) end) = Ok (Some o, c) ->
     exists ol o', In ol mbobs /\ In o' ol /\ f_jac o = f_jac o').
  { intros s0 rest K. destruct (band_obs mbobs s0) as [fo|] eqn:E; cbn [obind] in K; [|discriminate].
    destruct (all_consistent _ _ _) as [ok|]; cbn [obind] in K; [|discriminate].
    destruct (negb ok); [discriminate|]. destruct (omap _ _) as [obs|]; cbn [obind] in K; [|discriminate].
    destruct (f_psf fo) as [fp|]; [|discriminate]. apply Ok_inj in K. destruct (band_obs_in _ _ _ E) as (ol & A & B).
    exists ol, fo. split; [exact A|]. split; [exact B|]. clear -K. unfold coadd_many in K.
    destruct (coadd_weights obs); [|inversion K]. destruct (all_pixels _ _); [inversion K|].
    destruct (negb _); inversion K. reflexivity. }
  destruct (zlen mbobs =? 1).
  - destruct (py_index sb 0) as [s0|]; cbn [obind] in H; [|discriminate]. destruct (s0 =? 0); [eauto | discriminate].
  - destruct sb as [|s [|s' sb]].
    + destruct (existsb _ _); [discriminate|]. destruct (py_index [] 0) as [s0|]; cbn [obind] in H; [|discriminate]. eauto.
    + destruct (s <? zlen mbobs); [eauto | discriminate].
    + destruct (existsb _ _); [discriminate|]. destruct (py_index (s :: s' :: sb) 0) as [s0|]; cbn [obind] in H; [|discriminate]. eauto.
Qed.

Lemma default_bands_length : forall mbobs sb,
  List.length (default_bands mbobs sb) = match sb with Some l => List.length l | None => List.length mbobs end.
Proof.
  intros mbobs [l|]; [reflexivity|]. unfold default_bands, zrange, zrange2, zlen. rewrite map_length, seq_length. rewrite Z.sub_0_r. apply Nat2Z.id.
Qed.
(** How many stamps are fit, and the scale of the first. *)
Lemma fitted_count : forall mbobs sb coadd mb, fitted_stamps mbobs (default_bands mbobs sb) coadd mb ->
  List.length mb = if coadd then 1%nat else match sb with Some l => List.length l | None => List.length mbobs end.
Proof.
  intros mbobs sb coadd mb H. destruct coadd.
  - destruct H as (o & _ & ->). reflexivity.
  - rewrite <- default_bands_length with (mbobs := mbobs). unfold fitted_stamps in H. clear -H. induction H; cbn [List.length]; congruence.
Qed.
Lemma fitted_scale : forall (scale_of : Z -> Q) (s : Q) mbobs sb coadd ol o mb,
  (forall ol o, In ol mbobs -> In o ol -> scale_of (f_jac o) = s) ->
  fitted_stamps mbobs sb coadd mb -> In ol mb -> In o ol -> scale_of (f_jac o) = s.
Proof.
  intros scale_of s mbobs sb coadd ol o mb S F I J. destruct coadd.
  - destruct F as (co & F & ->). destruct I as [<-|[]]. destruct J as [<-|[]].
    destruct (coadd_jac _ _ _ _ F) as (ol & o' & A & B & C). rewrite C. eauto.
  - unfold fitted_stamps in F. induction F as [|b l sb mb H1 H2 IH]; [destruct I|]. destruct I as [->|I]; [|auto].
    apply py_index_in in H1. eauto.
Qed.

Section Fit.
Variables (ng : ngcodes) (scale_of : Z -> Q) (go : runner -> psf_runner -> list (list fobs) -> bootout).

Lemma first_missing : forall l bm sb coadd, (forall m, hd_error l = Some m -> m = [] \/ exists r, m = [] :: r) ->
  fit_list_gauss ng scale_of go l bm sb coadd =
  (do rows <- omap (fun m => fit_gauss ng scale_of go m bm sb None None coadd) l;
   match rows with [] => Ok None | _ => Ok (Some rows) end).
Proof.
  intros l bm sb coadd H. unfold fit_list_gauss.
  assert (E : list_runners scale_of l sb coadd = (None, None)).
  { destruct l as [|m l]; [reflexivity|]. destruct (H m eq_refl) as [->|(r & ->)]; reflexivity. }
  rewrite E. reflexivity.
Qed.

Lemma omap_ext_in : forall (A B : Type) (f g : A -> outcome B) l, (forall a, In a l -> f a = g a) -> omap f l = omap g l.
Proof.
  intros A B f g l. induction l as [|a l IH]; intros H; [reflexivity|]. cbn [omap]. rewrite (H a (or_introl eq_refl)).
  destruct (g a); cbn [obind]; [|reflexivity]. rewrite IH; [reflexivity | intros b K; apply H; now right].
Qed.

Lemma one_scale_list : forall l bm sb coadd s, one_scale scale_of s l -> sb <> Some [] ->
  (sb = None -> coadd = false -> forall m m', In m l -> In m' l -> List.length m = List.length m') ->
  fit_list_gauss ng scale_of go l bm sb coadd =
  (do rows <- omap (fun m => fit_gauss ng scale_of go m bm sb None None coadd) l;
   match rows with [] => Ok None | _ => Ok (Some rows) end).
Proof.
  intros l bm sb coadd s S N L.
  destruct l as [|m l]; [reflexivity|]. destruct m as [|[|o r] m0].
  { apply first_missing. intros m K. left. injection K. auto. }
  { apply first_missing. intros m K. right. injection K as <-. eauto. }
  unfold fit_list_gauss, list_runners. set (first := (o :: r) :: m0) in *.
  set (nb := if coadd then 1%nat else match sb with None => List.length first | Some k => List.length k end).
  assert (Es : scale_of (f_jac o) = s).
  { apply (S first (o :: r) o); now left. }
  erewrite omap_ext_in; [reflexivity|]. intros m I. unfold fit_gauss. apply gauss_boot_ext.
  intros mb G F. unfold bootstrap. rewrite Es.
  assert (C := fitted_count _ _ _ _ F).
  assert (C2 : List.length mb = nb).
  { rewrite C. unfold nb. destruct coadd; [reflexivity|]. destruct sb as [k|]; [reflexivity|].
    apply (L eq_refl eq_refl); [exact I | now left]. }
  destruct mb as [|[|o' ol] mb].
  - exfalso. cbn in C2. unfold nb in C2. destruct coadd; [discriminate|]. destruct sb as [[|x k]|]; [congruence | discriminate |].
    discriminate.
  - exfalso. destruct (fitted_single _ _ _ _ _ G F) as (obs & E & _). destruct obs; discriminate.
  - rewrite C2. rewrite (fitted_scale scale_of s m (default_bands m sb) coadd (o' :: ol) o' ((o' :: ol) :: mb)); try (now left); [reflexivity| |exact F].
    intros ol' o'' A B. exact (S m ol' o'' I A B).
Qed.
End Fit.

(** The runner of a single fit. *)
Lemma single_suited : forall ng scale_of go go' mbobs bm sb psf coadd,
  (forall r p mb, suited scale_of r mb -> go r p mb = go' r p mb) ->
  fit_gauss ng scale_of go mbobs bm sb None psf coadd = fit_gauss ng scale_of go' mbobs bm sb None psf coadd.
Proof.
  intros ng scale_of go go' mbobs bm sb psf coadd H. unfold fit_gauss. apply gauss_boot_ext. intros mb _ _.
  unfold bootstrap. destruct mb as [|[|o ol] mb]; try reflexivity. apply H. unfold suited. split; [|reflexivity].
  cbn [get_gauss_obj_runner ru_prior make_ml_prior pr_F]. now rewrite repeat_length.
Qed.
Lemma list_suited : forall ng scale_of go go' l bm sb coadd s, one_scale scale_of s l -> sb <> Some [] ->
  (sb = None -> coadd = false -> forall m m', In m l -> In m' l -> List.length m = List.length m') ->
  (forall r p mb, suited scale_of r mb -> go r p mb = go' r p mb) ->
  fit_list_gauss ng scale_of go l bm sb coadd = fit_list_gauss ng scale_of go' l bm sb coadd.
Proof.
  intros ng scale_of go go' l bm sb coadd s S N L H.
  rewrite (one_scale_list ng scale_of go l bm sb coadd s S N L), (one_scale_list ng scale_of go' l bm sb coadd s S N L).
  erewrite omap_ext_in; [reflexivity|]. intros m _. now apply single_suited.
Qed.
