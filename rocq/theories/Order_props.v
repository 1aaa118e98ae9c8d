(** C107: the order of the bands does not matter. *)
From Coq Require Import ZArith QArith List String Bool Lia Permutation.
From Verif Require Import Base Arr Median Flags_model Order_spec Order_proofs.
From Verif Require Detect_model Detect_spec Detect_props Summ_model Summ_props Coadd_model Coadd_spec Coadd_props
  Lexp_model Lexp_props Lmdet_model.
Import ListNotations.
Local Open Scope Z_scope.

(** The detection image, its noise level and its mask. *)
Theorem C107_detection : forall nodet bands bands', Permutation bands bands' -> Detect_spec.same_shape bands ->
  same_opt (fun a b => same_real (fst (fst a)) (fst (fst b)) /\ (snd (fst a) == snd (fst b))%Q /\ same_bool (snd a) (snd b))
    (Detect_model.set_detim nodet bands) (Detect_model.set_detim nodet bands').
Proof. exact detim_order. Qed.
Print Assumptions C107_detection.

(** The masked fraction of bands with weight maps of one shape. *)
Theorem C107_masked_fraction : forall obs obs', Permutation obs obs' ->
  (forall o o', In o obs -> In o' obs ->
     nr (Summ_model.so_weight o) = nr (Summ_model.so_weight o') /\ nc (Summ_model.so_weight o) = nc (Summ_model.so_weight o')) ->
  same_outcome same_real (Summ_model.get_mfrac (map (fun o => [o]) obs)) (Summ_model.get_mfrac (map (fun o => [o]) obs')).
Proof. exact mfrac_order. Qed.
Print Assumptions C107_masked_fraction.

(** The ORed masks of bands with masks of one shape. *)
Theorem C107_masks : forall obs obs', Permutation obs obs' ->
  (forall o o', In o obs -> In o' obs ->
     nr (Summ_model.so_ormask o) = nr (Summ_model.so_ormask o') /\ nc (Summ_model.so_ormask o) = nc (Summ_model.so_ormask o') /\
     nr (Summ_model.so_bmask o) = nr (Summ_model.so_bmask o') /\ nc (Summ_model.so_bmask o) = nc (Summ_model.so_bmask o')) ->
  same_outcome (fun a b => same_int (fst a) (fst b) /\ same_int (snd a) (snd b))
    (Summ_model.get_ormask_and_bmask (map (fun o => [o]) obs)) (Summ_model.get_ormask_and_bmask (map (fun o => [o]) obs')).
Proof. exact masks_order. Qed.
Print Assumptions C107_masks.

(** The psf columns, and the error when a fit result is incomplete. *)
Theorem C107_psf : forall mb mb' fl, Permutation mb mb' ->
  same_outcome same_stats (Summ_model.get_psf_stats mb fl) (Summ_model.get_psf_stats mb' fl).
Proof. exact psf_order. Qed.
Print Assumptions C107_psf.

(** The coadd of the shear bands of an object: the same flags, and the same
    observation plane by plane. *)
Theorem C107_shear_bands : forall mb sb sb' obs, Permutation sb sb' -> Coadd_spec.sb_valid mb sb obs ->
  (forall o, In o obs -> nr (Coadd_model.f_weight o) = nr (Coadd_model.f_image o) /\
                         nc (Coadd_model.f_weight o) = nc (Coadd_model.f_image o)) ->
  same_outcome same_coadd (Coadd_model.make_coadd_obs mb sb) (Coadd_model.make_coadd_obs mb sb').
Proof. exact coadd_order. Qed.
Print Assumptions C107_shear_bands.

(** The coadd of exposures that have a psf and a mask of the shape of the image:
    pixels, variances, mask and psf, or the same refusal. *)
Theorem C107_exposures : forall es es', Permutation es es' -> (forall e, In e es -> Lexp_model.e_psf e <> None) ->
  (forall e, In e es -> nr (Lexp_model.e_mask e) = nr (Lexp_model.e_image e) /\ nc (Lexp_model.e_mask e) = nc (Lexp_model.e_image e)) ->
  same_outcome (same_opt same_pixels) (Lexp_model.coadd_exposures es) (Lexp_model.coadd_exposures es').
Proof. exact exposures_order. Qed.
Print Assumptions C107_exposures.

(** The coadd of observations. *)
Theorem C107_observations : forall os os', Permutation os os' ->
  same_outcome same_coaddobs (Lexp_model.coadd_mbobs os) (Lexp_model.coadd_mbobs os').
Proof. exact mbobs_order. Qed.
Print Assumptions C107_observations.

(** The ORed masks and the mean masked fraction of the lsst task; the weights
    stay with their bands. *)
Theorem C107_task_masks : forall dims ms ms', Permutation ms ms' ->
  same_outcome same_int (Lmdet_model.combine_ormasks dims (Some ms)) (Lmdet_model.combine_ormasks dims (Some ms')).
Proof. exact ormasks_order. Qed.
Print Assumptions C107_task_masks.
Theorem C107_task_mfrac : forall l l' : list (img (option Q) * img Q), Permutation l l' ->
  same_outcome (fun a b => same_real (fst a) (fst b) /\ Permutation (snd a) (snd b))
    (Lmdet_model.get_mfrac_mbexp (map fst l) (Some (map snd l))) (Lmdet_model.get_mfrac_mbexp (map fst l') (Some (map snd l'))).
Proof. exact mfracs_order. Qed.
Print Assumptions C107_task_mfrac.

(** The geometry does depend on the order: the coadd of exposures has the wcs of
    the first one, the coadd of observations the jacobian of the last. *)
Theorem C107_geometry_refuted :
  (exists e e' a b, Lexp_model.coadd_exposures [e; e'] = Ok (Some a) /\ Lexp_model.coadd_exposures [e'; e] = Ok (Some b) /\
     Lexp_model.c_wcs a <> Lexp_model.c_wcs b) /\
  (exists o o' a b, Lexp_model.coadd_mbobs [o; o'] = Ok a /\ Lexp_model.coadd_mbobs [o'; o] = Ok b /\
     Lexp_model.j_row (Lexp_model.co_jac a) <> Lexp_model.j_row (Lexp_model.co_jac b)).
Proof.
  split.
  - set (e := Lexp_props.e_good).
    exists e, (Lexp_model.mkExp 0 0 (Lexp_model.e_image e) (Lexp_model.e_var e) (Lexp_model.e_mask e) (Lexp_model.e_psf e) (Some 77)).
    do 2 eexists. split; [reflexivity|]. split; [reflexivity|]. discriminate.
  - set (o := Lexp_props.good_obs).
    exists o, (Lexp_model.mkLobs (Lexp_model.o_image o) (Lexp_model.o_weight o) None None None (Lexp_model.mkJac 77 0 0 0 0 0) (Lexp_model.o_psf o)).
    do 2 eexists. split; [reflexivity|]. split; [reflexivity|]. discriminate.
Qed.
Print Assumptions C107_geometry_refuted.

(** Two different bands, in both orders. *)
Example C107_detection_ex : let a := Detect_props.ex_band 1 1 4 in let b := Detect_props.ex_band 5 3 8 in
  Permutation [a; b] [b; a] /\ Detect_spec.same_shape [a; b] /\ Detect_model.set_detim 4 [a; b] <> None.
Proof.
  cbn zeta. split; [apply perm_swap|]. split; [|discriminate].
  intros x y [<-|[<-|[]]] [<-|[<-|[]]]; split; reflexivity.
Qed.
Example C107_metacal_ex : let obs := [Summ_props.ex_o1; Summ_props.ex_o2; Summ_props.ex_o3] in
  Permutation obs (rev obs) /\
  (forall o o', In o obs -> In o' obs ->
     nr (Summ_model.so_weight o) = nr (Summ_model.so_weight o') /\ nc (Summ_model.so_weight o) = nc (Summ_model.so_weight o')) /\
  exists im om bm, Summ_model.get_mfrac (map (fun o => [o]) (rev obs)) = Ok im /\ (px im 1 1 == 1 # 8)%Q /\
    Summ_model.get_ormask_and_bmask (map (fun o => [o]) (rev obs)) = Ok (om, bm) /\ px om 0 0 = 12 /\ px bm 0 0 = 3.
Proof.
  cbn zeta. split; [apply Permutation_rev|]. split.
  - intros x y [<-|[<-|[<-|[]]]] [<-|[<-|[<-|[]]]]; split; reflexivity.
  - do 3 eexists. split; [reflexivity|]. split; [vm_compute; reflexivity|]. split; [reflexivity|]. split; reflexivity.
Qed.
Example C107_shear_ex : Coadd_spec.sb_valid Coadd_props.ex_mb [0; 1] [Coadd_props.ex_a; Coadd_props.ex_b] /\
  exists a b, Coadd_model.make_coadd_obs Coadd_props.ex_mb [0; 1] = Ok (Some a, 0) /\
    Coadd_model.make_coadd_obs Coadd_props.ex_mb [1; 0] = Ok (Some b, 0) /\
    (px (Coadd_model.f_image a) 1 1 == 7)%Q /\ (px (Coadd_model.f_image b) 1 1 == 7)%Q.
Proof.
  split; [repeat constructor; cbn; try lia; eexists; split; reflexivity|].
  do 2 eexists. split; [reflexivity|]. split; [reflexivity|]. split; vm_compute; reflexivity.
Qed.
Example C107_exposures_ex : let es := [Lexp_props.e_good; Lexp_props.e_vary] in
  (forall e, In e es -> Lexp_model.e_psf e <> None) /\
  (forall e, In e es -> nr (Lexp_model.e_mask e) = nr (Lexp_model.e_image e) /\ nc (Lexp_model.e_mask e) = nc (Lexp_model.e_image e)) /\
  exists a, Lexp_model.coadd_exposures (rev es) = Ok (Some a).
Proof.
  cbn zeta. split; [intros e [<-|[<-|[]]]; discriminate|]. split; [intros e [<-|[<-|[]]]; split; reflexivity|].
  eexists. reflexivity.
Qed.
Example C107_task_ex : exists m ws om,
  Lmdet_model.get_mfrac_mbexp [ifill 1 1 (Some 2%Q); ifill 1 1 (Some 4%Q)] (Some [ifill 1 1 0%Q; ifill 1 1 1%Q]) = Ok (m, ws) /\
  (px m 0 0 == 1 # 3)%Q /\ Lmdet_model.combine_ormasks (1, 1) (Some [ifill 1 1 2; ifill 1 1 4]) = Ok om /\ px om 0 0 = 6.
Proof. do 3 eexists. split; [reflexivity|]. split; [vm_compute; reflexivity|]. split; reflexivity. Qed.
