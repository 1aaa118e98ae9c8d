(** C114. *)
From Coq Require Import ZArith QArith Lia List String Bool.
From Verif Require Import Base Arr Median Flags_model Coadd_model Detect_model Summ_model Conf_model Wavg_model Joint_model Joint_props
  Mdet_model Mdet_spec Mdet_props Mcol_spec Mcol_props Width_spec Width_proofs.
From Verif Require Wavg_props Dict Lmdet_model Lmdet_props Lmeas_model Lmeas_spec Lmeas_props.
Import ListNotations.
Local Open Scope string_scope.
Local Open Scope Z_scope.

(** ** C114: no integer column overflows *)
(** Metadetect: when the masks of all data are 32 bit integers (as their dtype
    says), so is the value computed for each mask column of each row of each
    table, however large the regions and however many the bands. *)
Theorem C114_masks : forall O SEG ST FL FR (sob : O -> sobs) (e : env O SEG ST FL FR) h s' r t rows row,
  env_uniform sob e -> env_pixels sob e -> metacal_types e ->
  masks_fit sob (e_main e) ->
  (forall keyf dep k m, e_color e = Some (keyf, dep) -> dep k = Some (Other m) -> masks_fit sob m) ->
  healthy sob e h -> go sob e (after sob e h) = (Ok tt, s') -> result_property s' = Ok (Some r) ->
  table r t = Some (Some rows) -> In row rows ->
  let x := r_extra row in
  fits_i4 (x_ormask x) /\ fits_i4 (x_ormask_ns x) /\ fits_i4 (x_bmask x) /\ fits_i4 (x_bmask_ns x).
Proof.
  intros O SEG ST FL FR sob e h s' r t rows row U P T F G H Go R Tb I. cbv zeta. destruct (e_color e) as [[keyf dep]|] eqn:C.
  - destruct (C84_colour_columns _ _ _ _ _ _ _ _ _ _ _ _ _ _ _ U P T C H Go R Tb I)
      as (sb & db & d & key & m & cat & seg & _ & _ & _ & _ & X). eapply columns_fit; [exact X|exact F|]. now rewrite C.
  - destruct (C84_columns _ _ _ _ _ _ _ _ _ _ _ _ _ U P T C H Go R Tb I) as (sb & db & d & _ & X & _).
    eapply columns_fit; [exact X|exact F|]. now rewrite C.
Qed.
Print Assumptions C114_masks.
(** The fitters: when the flags of ngmix are in range, so is every flag column
    of the row of an object (so is every flag of this package). *)
Theorem C114_wavg : forall ng mk to_T qsqrt mbobs ft bm sb fw sym r, codes_range ng ->
  (forall m c, flag_range (mo_flags (mk m c)) /\ flag_range (mo_T_flags (mk m c))) ->
  (forall o fr v, k_go ft o = Ok fr -> r_flux_flags fr = Some v -> flag_range v) ->
  fit_mbobs_wavg ng mk to_T qsqrt mbobs ft bm sb fw sym = Ok r -> row_range r.
Proof. intros ng mk to_T qsqrt mbobs ft bm sb fw sym r Ng Mk. exact (wavg_range ng mk to_T qsqrt Ng Mk mbobs ft bm sb fw sym r). Qed.
Print Assumptions C114_wavg.
Theorem C114_gauss : forall ng boot mbobs bm sb coadd r, codes_range ng ->
  (forall mb g p, boot mb = BootOk g p -> flag_range (g_flags g) /\ forall k, flag_range (q_flags (p k))) ->
  fit_mbobs_gauss ng boot mbobs bm sb coadd = Ok r -> row_range r.
Proof. exact gauss_range. Qed.
Print Assumptions C114_gauss.
Theorem C114_admom : forall ng rp ro mbobs bm sb sym r, codes_range ng ->
  (forall p a, rp p = Ok a -> flag_range (a_flags a)) ->
  (forall o a, ro o = Ok a -> flag_range (a_flags a) /\ flag_range (a_T_flags a)) ->
  fit_mbobs_admom ng rp ro mbobs bm sb sym = Ok r -> row_range r.
Proof. exact admom_range. Qed.
Print Assumptions C114_admom.
(** The lsst task: the "or" mask column of every table of a run ... *)
Theorem C114_lsst_ormask : forall d tabs ps, Lmdet_model.task_run d = Ok (tabs, ps) ->
  (forall ms m, Lmdet_model.d_ormasks d = Some ms -> In m ms -> plane_fits m) ->
  forall t rows x, In (t, Some rows) tabs -> In x rows -> fits_i4 (Lmdet_model.l_ormask x).
Proof. exact run_ormask_fits. Qed.
Print Assumptions C114_lsst_ormask.
(** ... and the mask and stamp flag columns of a measurement. *)
Theorem C114_lsst_bmask : forall env label order cat rows, Lmeas_spec.catalogue cat -> Lmeas_spec.lists_set order ->
  Lmeas_model.measure env label order cat = Ok (Some rows) ->
  plane_fits (Lmeas_model.m_detmask env) -> fits_i4 (Lmeas_model.m_detected env) ->
  forall r, In r rows -> exists v, Dict.sget "bmask" r = Some (Lmeas_model.CInt v) /\ fits_i4 v.
Proof.
  intros env label order cat rows C O H F D r I. apply In_nth_error in I. destruct I as (n & I).
  destruct (Lmeas_props.C61_bmask_position _ _ _ _ _ C O H n r I) as (s & v & _ & B & M).
  exists v. split; [exact B|]. exact (peak_mask_fits _ _ _ F D M).
Qed.
Print Assumptions C114_lsst_bmask.

(** Every hypothesis holds of the concrete settings of the other files; the last
    bit (a negative number) is kept. *)
Lemma fill_fits : forall m, (forall i j, 0 <= i < nr m -> 0 <= j < nc m -> fits_i4 (px m i j)) -> plane_fits m.
Proof. intros m H i j [A B]. now apply H. Qed.
Lemma w22_fits : forall q, plane_fits (so_bmask (w22 q)) /\ plane_fits (so_ormask (w22 q)).
Proof. intro q. split; apply fill_fits; cbn [w22 so_bmask so_ormask px nr nc]; unfold fits_i4; intros; lia. Qed.
Example C114_masks_example : let e := env22 (Some (fun fl => Ok (Some fl),
      fun k => if k =? 2 then Some (Other main22) else Some SameObject)) mc22 [[0; 1]] [[0]] in exists s' r rows row,
  masks_fit (fun o => o) (e_main e) /\
  (forall keyf dep k m, e_color e = Some (keyf, dep) -> dep k = Some (Other m) -> masks_fit (fun o => o) m) /\
  go (fun o => o) e init_state = (Ok tt, s') /\ result_property s' = Ok (Some r) /\
  table r "noshear" = Some (Some rows) /\ In row rows /\ x_bmask (r_extra row) = 1.
Proof.
  do 4 eexists.
  assert (M : masks_fit (fun o => o) main22) by (intros ol o [<-|[<-|[]]] [<-|[]]; apply w22_fits).
  split; [exact M|]. split.
  { intros keyf dep k m E1 E2. cbn in E1. injection E1 as <- <-. destruct (k =? 2); [injection E2 as <-; exact M|discriminate]. }
  split; [vm_compute; reflexivity|]. split; [vm_compute; reflexivity|]. split; [vm_compute; reflexivity|].
  split; [right; left; reflexivity|]. vm_compute. reflexivity.
Qed.
Definition sign_plane : img Z := mkImg 4 5 (fun i j => if i =? 2 then -2147483648 else 3).
Example C114_lsst_example : plane_fits sign_plane /\ exists om x,
  Lmdet_model.combine_ormasks (4, 5) (Some [Lmdet_props.om1; sign_plane]) = Ok om /\
  Lmdet_model.add_ormask om [Lmdet_props.obj_in] = Ok [x] /\ Lmdet_model.l_ormask x = -2147483643.
Proof.
  split. { apply fill_fits. cbn. intros i j _ _. destruct (i =? 2); unfold fits_i4; lia. }
  do 2 eexists. split; [vm_compute; reflexivity|]. split; vm_compute; reflexivity.
Qed.
Example C114_flags_example : codes_range (mkNg (2 ^ 30) 8 16) /\
  (exists r, fit_mbobs_gauss (mkNg (2 ^ 30) 8 16) ex_boot [[]; [ex_obs 7 4 1]; [ex_obs 1 2 0]] 1 None false = Ok r /\ o_flags r > 2 ^ 30) /\
  (forall mb g p, ex_boot mb = BootOk g p -> flag_range (g_flags g) /\ forall k, flag_range (q_flags (p k))) /\
  (exists r, fit_mbobs_admom (mkNg (2 ^ 30) 8 16) ex_rp ex_ro ex_mb 1 None true = Ok r) /\
  (forall p a, ex_rp p = Ok a -> flag_range (a_flags a)) /\
  (forall o a, ex_ro o = Ok a -> flag_range (a_flags a) /\ flag_range (a_T_flags a)).
Proof.
  split; [vm_compute; repeat split; discriminate|].
  split; [eexists; split; [vm_compute; reflexivity|vm_compute; reflexivity]|].
  split. { intros mb g p H. unfold ex_boot in H. cbv zeta in H. destruct (map _ (List.concat mb)) as [|q l]; [discriminate|].
    injection H as <- <-. cbn [g_flags q_flags]. split; [destruct (Qle_bool q 0); unfold flag_range; lia|intros _; unfold flag_range; lia]. }
  split; [eexists; vm_compute; reflexivity|].
  split; intros x a H; apply Ok_inj in H; subst a; vm_compute; repeat split; discriminate.
Qed.
Example C114_wavg_example : exists r,
  fit_mbobs_wavg (mkNg (2 ^ 30) 8 16) Wavg_props.ex_mk Wavg_props.ex_toT Wavg_props.ex_sqrt Wavg_props.ex_mb Wavg_props.ex_ft 1 (Some [0; 1]) 0 true = Ok r /\
  (forall m c, flag_range (mo_flags (Wavg_props.ex_mk m c)) /\ flag_range (mo_T_flags (Wavg_props.ex_mk m c))) /\
  (forall o fr v, k_go Wavg_props.ex_ft o = Ok fr -> r_flux_flags fr = Some v -> flag_range v).
Proof.
  eexists. split; [vm_compute; reflexivity|]. split.
  - intros m c. unfold Wavg_props.ex_mk. cbn [mo_flags mo_T_flags]. destruct (ngt0 (m 5%nat)); unfold flag_range; split; lia.
  - intros o fr v H E. apply Ok_inj in H. subst fr. cbn in E. injection E as <-. unfold flag_range. lia.
Qed.
