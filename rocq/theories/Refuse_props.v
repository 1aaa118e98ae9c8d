(** C110: which inputs are refused, and with which exception. *)
From Coq Require Import ZArith QArith List String Bool Lia.
From Verif Require Import Base Arr Refuse_spec Refuse_proofs.
From Verif Require Summ_model Summ_props Lmdet_model Lmdet_spec Lmdet_props Lexp_model Lexp_spec Lexp_props Lmeas_spec Dict Lutil_model
  Lphot_model Lphot_props Lrun_model Lrun_props.
Import ListNotations.
Local Open Scope Z_scope.

(** ** The entry points without the lsst stack *)
Section Summ.
Import Summ_model Summ_props.

(** The masked fraction of a multi-band observation: there must be a band, and
    every band must have one epoch. *)
Theorem C110_mfrac : forall mbobs,
  (returns (get_mfrac mbobs) <-> mbobs <> [] /\ Forall one_epoch mbobs) /\
  (get_mfrac mbobs = Raise IndexError <-> mbobs = [] \/ exists rest, mbobs = [] :: rest) /\
  (get_mfrac mbobs = Raise AssertionError <-> (exists ol rest, mbobs = ol :: rest /\ ol <> []) /\ Exists (fun ol => ~ one_epoch ol) mbobs).
Proof. exact mfrac_refusals. Qed.
Print Assumptions C110_mfrac.

Theorem C110_masks : forall mbobs,
  (returns (get_ormask_and_bmask mbobs) <-> mbobs <> [] /\ Forall one_epoch mbobs) /\
  (get_ormask_and_bmask mbobs = Raise UnboundLocalError <-> mbobs = []) /\
  (get_ormask_and_bmask mbobs = Raise AssertionError <-> Exists (fun ol => ~ one_epoch ol) mbobs).
Proof. exact masks_refusals. Qed.
Print Assumptions C110_masks.

(** The mask of an object is always found, except in an image without pixels. *)
Theorem C110_mask_lookup : forall reg row col mask,
  (fill_in_mask reg row col mask = Raise IndexError <-> reg <= 1 /\ (nr mask <= 0 \/ nc mask <= 0)) /\
  (returns (fill_in_mask reg row col mask) <-> 1 < reg \/ 0 < nr mask /\ 0 < nc mask).
Proof. exact mask_lookup_refusals. Qed.
Print Assumptions C110_mask_lookup.

(** Fitting the PSFs of the bands in order: the first band that cannot be used
    decides. [fit n]: the result for band [n]. *)
Theorem C110_psf_fits : forall fit mbobs,
  (snd (fit_all_psfs fit mbobs) = Ok tt <-> Forall one_epoch mbobs /\ forall n ol, nth_error mbobs n = Some ol -> pr_flags (fit n) = 0) /\
  (snd (fit_all_psfs fit mbobs) = Raise BootPSFFailure <->
     first_at (fun n ol => one_epoch ol /\ pr_flags (fit n) <> 0) (fun n ol => one_epoch ol /\ pr_flags (fit n) = 0) mbobs) /\
  (snd (fit_all_psfs fit mbobs) = Raise AssertionError <->
     first_at (fun n ol => ~ one_epoch ol) (fun n ol => one_epoch ol /\ pr_flags (fit n) = 0) mbobs).
Proof. intros fit mbobs. exact (psf_fit_from fit mbobs O). Qed.
Print Assumptions C110_psf_fits.

Example C110_summ_example :
  returns (get_mfrac [[ex_o1]; [ex_o2]]) /\ get_mfrac [] = Raise IndexError /\ get_mfrac [[ex_o1]; []] = Raise AssertionError /\
  get_ormask_and_bmask [[ex_o1]; [ex_o2; ex_o3]] = Raise AssertionError /\ get_ormask_and_bmask [] = Raise UnboundLocalError /\
  fill_in_mask 1 3 4 (ifill 0 5 1) = Raise IndexError /\ returns (fill_in_mask 1 3 40 (ifill 2 5 1)) /\
  snd (fit_all_psfs (fun n => mkPsfres (Z.of_nat n) None None None) [[mkPobs 1 None]; [mkPobs 1 None]; []]) = Raise BootPSFFailure /\
  snd (fit_all_psfs (fun n => mkPsfres 0 None None None) [[mkPobs 1 None]; [mkPobs 1 None]; []]) = Raise AssertionError.
Proof. split; [eexists; reflexivity|]. repeat (split; [reflexivity || (eexists; reflexivity)|]). reflexivity. Qed.
End Summ.

(** ** The lsst task *)
Section Task.
Import Lmdet_model Lmdet_spec Lmdet_props.

(** The masks of the bands must be non-empty as a list and of one shape. *)
Theorem C110_ormasks : forall dims ormasks,
  (returns (combine_ormasks dims ormasks) <-> ormasks = None \/ exists m r, ormasks = Some (m :: r) /\ Forall (same_shape m) r) /\
  (combine_ormasks dims ormasks = Raise UnboundLocalError <-> ormasks = Some []) /\
  (combine_ormasks dims ormasks = Raise ValueError <-> exists m r, ormasks = Some (m :: r) /\ Exists (fun x => ~ same_shape m x) r).
Proof. exact ormasks_refusals. Qed.
Print Assumptions C110_ormasks.

(** The masked fractions: there is one for the first band, and in each band that
    has one the variance is somewhere finite and positive and the shape is that
    of the first. *)
Theorem C110_mfracs : forall vars mfracs,
  (get_mfrac_mbexp vars mfracs = Raise TypeError <-> mfracs = None) /\
  (get_mfrac_mbexp vars mfracs = Raise ZeroDivisionError <-> mfracs <> None /\ (mfracs = Some [] \/ vars = [])) /\
  (get_mfrac_mbexp vars mfracs = Raise ValueError <-> exists v vs m ms, vars = v :: vs /\ mfracs = Some (m :: ms) /\
     Exists (unusable_pair m) (combine vars (m :: ms))) /\
  (returns (get_mfrac_mbexp vars mfracs) <-> exists v vs m ms, vars = v :: vs /\ mfracs = Some (m :: ms) /\
     Forall (fun vm => ~ unusable_pair m vm) (combine vars (m :: ms))).
Proof. exact mfracs_refusals. Qed.
Print Assumptions C110_mfracs.

(** The lookup of an object in the combined mask. A position left of or below
    the image is not refused: it is counted from the other edge, and the object
    gets the mask of the pixel there. *)
Theorem C110_ormask_lookup : forall om res,
  let reach x := exists i j, own_pixel x i j /\ - nr om <= i < nr om /\ - nc om <= j < nc om in
  (returns (add_ormask om res) <-> Forall reach res) /\
  (add_ormask om res = Raise IndexError <-> Exists (fun x => ~ reach x) res) /\
  (forall res', add_ormask om res = Ok res' ->
     Forall2 (fun x x' => forall i j, own_pixel x i j -> x' = with_ormask x (px om (i mod nr om) (j mod nc om))) res res').
Proof. exact ormask_refusals. Qed.
Print Assumptions C110_ormask_lookup.

(** The mean PSF: as many weights as fits, and a positive total weight. *)
Theorem C110_mean_psf : forall to_g shear fits wgts,
  (zlen wgts <> zlen fits -> fit_original_psfs to_g shear fits wgts = Raise AssertionError) /\
  (forall fs, zlen wgts = zlen fits -> fits = map Ok fs -> (forall f, In f fs -> pf_flags f = 0) -> (sum_over shear (fun _ => 1) fs wgts <= 0)%Q ->
     fit_original_psfs to_g shear fits wgts = Raise ValueError).
Proof. exact psf_refusals. Qed.
Print Assumptions C110_mean_psf.

Definition v_bad : img (option Q) := mkImg 2 2 (fun i _ => if i =? 0 then None else Some (-1)%Q).
Example C110_task_example :
  combine_ormasks (4, 5) (Some [om1; ifill 3 5 1]) = Raise ValueError /\ combine_ormasks (4, 5) (Some []) = Raise UnboundLocalError /\
  get_mfrac_mbexp [ifill 2 2 (Some 1%Q)] None = Raise TypeError /\ get_mfrac_mbexp [ifill 2 2 (Some 1%Q)] (Some []) = Raise ZeroDivisionError /\
  get_mfrac_mbexp [ifill 2 2 (Some 1%Q); v_bad] (Some [ifill 2 2 0%Q; ifill 2 2 0%Q]) = Raise ValueError /\ no_variance v_bad /\
  add_ormask (ifill 2 2 1) [obj_in] = Raise IndexError /\ returns (add_ormask om1 [obj_in]) /\
  fit_original_psfs (fun a b => Some (a, b)) [0] [Ok (mkPf 0 0 0 1)] [] = Raise AssertionError /\
  fit_original_psfs (fun a b => Some (a, b)) [1] [Ok (mkPf 0 0 0 1)] [1%Q] = Raise ValueError.
Proof.
  do 5 (split; [vm_compute; reflexivity|]). split.
  { intros i j q [Hi _] H. cbn in Hi, H. destruct (i =? 0); [discriminate|]. injection H as <-. discriminate. }
  split; [vm_compute; reflexivity|]. split; [eexists; vm_compute; reflexivity|]. split; vm_compute; reflexivity.
Qed.
End Task.

(** ** The conversions and the coadd of the observations of an object *)
Section Exposures.
Import Lexp_model Lexp_props.
Local Open Scope string_scope.
Local Open Scope Z_scope.

(** Building an exposure from an observation: the mask must be bmask or ormask,
    and the observation must have it. *)
Theorem C110_obs2exp : forall o name cp, 0 <= nr (o_image o) -> 0 <= nc (o_image o) ->
  (obs2exp o None name cp = Raise RuntimeError <-> name <> "bmask" /\ name <> "ormask") /\
  (obs2exp o None name cp = Raise TypeError <-> (name = "bmask" /\ o_bmask o = None) \/ (name = "ormask" /\ o_ormask o = None)).
Proof. exact obs2exp_refusals. Qed.
Print Assumptions C110_obs2exp.

(** Cutting an observation out of an exposure, when the exposure has a pixel
    that can be used (without one, it is C62). *)
Theorem C110_extract : forall W e sky peak cen,
  ~ Lexp_spec.unusable (pixels (e_var e)) ->
  (extract_obs W e sky peak cen = Raise AttributeError <-> e_wcs e = None \/ e_psf e = None) /\
  (extract_obs W e sky peak cen = Raise AssertionError <-> exists draw, e_wcs e <> None /\ e_psf e = Some draw /\ ~ odd_square_image (draw (fst cen) (snd cen))) /\
  (returns (extract_obs W e sky peak cen) <-> exists draw, e_wcs e <> None /\ e_psf e = Some draw /\ odd_square_image (draw (fst cen) (snd cen))).
Proof. exact extract_refusals. Qed.
Print Assumptions C110_extract.

(** The coadd of the observations of an object: at least one, all of one size. *)
Theorem C110_coadd : forall os,
  (coadd_mbobs os = Raise ZeroDivisionError <-> os = []) /\
  (coadd_mbobs os = Raise ValueError <-> exists o r, os = o :: r /\ Exists (fun x => ~ same_shapes x o) r) /\
  (returns (coadd_mbobs os) <-> exists o r, os = o :: r /\ Forall (fun x => same_shapes x o) r).
Proof. exact coadd_refusals. Qed.
Print Assumptions C110_coadd.

Definition no_psf_exp := mkExp 10 20 (ifill 2 2 1%Q) (ifill 2 2 (Some 1%Q)) (ifill 2 2 0) None (Some 1).
Definition even_psf_exp := mkExp 10 20 (ifill 2 2 1%Q) (ifill 2 2 (Some 1%Q)) (ifill 2 2 0) (Some (fun _ _ => ifill 4 4 1%Q)) (Some 1).
Definition big_obs := mkLobs (ifill 3 3 1%Q) (ifill 3 3 1%Q) None None None ex_jac ex_psf.
Example C110_exposure_example :
  obs2exp ex_obs None "mask" true = Raise RuntimeError /\ obs2exp big_obs None "bmask" true = Raise TypeError /\
  ~ Lexp_spec.unusable (pixels (e_var no_psf_exp)) /\ extract_obs ex_W no_psf_exp None (11, 21) (11%Q, 21%Q) = Raise AttributeError /\
  ~ Lexp_spec.unusable (pixels (e_var even_psf_exp)) /\ extract_obs ex_W even_psf_exp None (11, 21) (11%Q, 21%Q) = Raise AssertionError /\
  coadd_mbobs [] = Raise ZeroDivisionError /\ coadd_mbobs [ex_obs; big_obs] = Raise ValueError /\ returns (coadd_mbobs [ex_obs; ex_obs]).
Proof.
  assert (U : ~ Lexp_spec.unusable (pixels (ifill 2 2 (Some 1%Q)))).
  { intro H. rewrite <- (Lexp_proofs.extract_obs_zero_iff ex_W no_psf_exp None (11, 21) (11%Q, 21%Q)) in H. vm_compute in H. discriminate. }
  split; [vm_compute; reflexivity|]. split; [vm_compute; reflexivity|]. split; [exact U|]. split; [vm_compute; reflexivity|].
  split; [exact U|]. split; [vm_compute; reflexivity|]. split; [reflexivity|]. split; [vm_compute; reflexivity|].
  eexists. unfold coadd_mbobs. cbn [forallb negb]. vm_compute forallb. reflexivity.
Qed.
End Exposures.

(** ** Whole runs: with a configuration that some run accepts, the masks are
    looked at first, then the masked fractions; the caller's exposures are
    unchanged. *)
Section Runs.
Import Lexp_model Lmdet_model Lmeas_model Lrun_model.
Theorem C110_lsst_run : forall Prof (R : mrun Prof) user names bands noise mfracs ormasks ps,
  (exists names' bands' noise' mfracs' ormasks' ps' r', snd (run_metadetect R user names' bands' noise' mfracs' ormasks' ps') = Ok r') ->
  let run := run_metadetect R user names bands noise mfracs ormasks ps in
  (bands = [] -> ormasks = None -> run = (bands, Raise IndexError)) /\
  (ormasks = Some [] -> run = (bands, Raise UnboundLocalError)) /\
  ((exists m r, ormasks = Some (m :: r) /\ Exists (fun x => ~ same_shape m x) r) -> run = (bands, Raise ValueError)) /\
  ((exists m r, ormasks = Some (m :: r) /\ Forall (same_shape m) r) \/ (bands <> [] /\ ormasks = None) ->
     (mfracs = None -> run = (bands, Raise TypeError)) /\
     (mfracs = Some [] \/ (mfracs <> None /\ bands = []) -> run = (bands, Raise ZeroDivisionError)) /\
     ((exists e es m ms, bands = e :: es /\ mfracs = Some (m :: ms) /\ Exists (unusable_pair m) (combine (map e_var bands) (m :: ms))) ->
        run = (bands, Raise ValueError))).
Proof. exact lsst_run_refusals. Qed.
Print Assumptions C110_lsst_run.
End Runs.

Section Photometry.
Import Dict Lexp_model Lmdet_model Lmeas_model Lutil_model Lphot_model.
Theorem C110_phot_run : forall P h user names bands mfracs ormasks,
  (exists names' bands' mfracs' ormasks' r', snd (run_photometry P h user names' bands' mfracs' ormasks') = Ok r') ->
  let run := run_photometry P h user names bands mfracs ormasks in
  (bands = [] -> ormasks = None -> snd run = Raise IndexError) /\
  (ormasks = Some [] -> snd run = Raise UnboundLocalError) /\
  ((exists m r, ormasks = Some (m :: r) /\ Exists (fun x => ~ same_shape m x) r) -> snd run = Raise ValueError) /\
  ((exists m r, ormasks = Some (m :: r) /\ Forall (same_shape m) r) \/ (bands <> [] /\ ormasks = None) ->
     (mfracs = None -> snd run = Raise TypeError) /\
     (mfracs = Some [] \/ (mfracs <> None /\ bands = []) -> snd run = Raise ZeroDivisionError) /\
     ((exists e es m ms, bands = e :: es /\ mfracs = Some (m :: ms) /\ Exists (unusable_pair m) (combine (map e_var bands) (m :: ms))) ->
        snd run = Raise ValueError)).
Proof. exact phot_run_refusals. Qed.
Print Assumptions C110_phot_run.

(** The stamp of a source: refused without a peak, and outside of the exposure
    unless it is clipped. *)
Theorem C110_stamp : forall b peaks size clip,
  (get_bbox b peaks size clip = Raise IndexError <-> peaks = []) /\
  (get_bbox b peaks size clip = Raise LengthError -> clip = false) /\
  (forall e, get_bbox b peaks size clip = Raise e -> e = IndexError \/ e = LengthError).
Proof. exact stamp_refusals. Qed.
Print Assumptions C110_stamp.
End Photometry.

Section Examples.
Import Lrun_model Lrun_props Lphot_model Lphot_props.
Local Open Scope string_scope.
Local Open Scope Z_scope.
(** The configurations of the examples of C87 and C86 are accepted. *)
Example C110_run_example :
  (exists names' bands' noise' mfracs' ormasks' ps' r',
     snd (run_metadetect run2 (Some (user2 "sdss")) names' bands' noise' mfracs' ormasks' ps') = Ok r') /\
  snd (run_metadetect run2 (Some (user2 "sdss")) [] [] [] None None false) = Raise IndexError /\
  snd (run_metadetect run2 (Some (user2 "sdss")) ["g"] [plane 1 2] [plane 5 2] None None false) = Raise TypeError /\
  (exists names' bands' mfracs' ormasks' r', snd (run_photometry phot1 user1 (Some 4%nat) names' bands' mfracs' ormasks') = Ok r') /\
  snd (run_photometry phot1 user1 (Some 4%nat) ["g"] [exA] (Some mf1) (Some [ifill 9 9 1; ifill 9 8 1])) = Raise ValueError /\
  Lutil_model.get_bbox (Some (Lutil_model.mkBox 0 0 9 9)) [] 5 true = Raise IndexError.
Proof.
  split.
  { destruct C87_example as (bands' & a & b & c & d & p & H & _).
    exists ["g"; "r"], [plane 1 2; plane 3 4], [plane 5 2; plane 6 4], (Some mf2), (Some [om2; ifill 51 51 2]), true. eexists. rewrite H. reflexivity. }
  split; [vm_compute; reflexivity|]. split; [vm_compute; reflexivity|]. split.
  { destruct C86_example as (h' & bands' & a & b & H & _).
    exists ["g"; "r"], [exA; exB], (Some mf1), (Some [om1; ifill 9 9 2]). eexists. rewrite H. reflexivity. }
  split; [vm_compute; reflexivity|reflexivity].
Qed.
End Examples.
