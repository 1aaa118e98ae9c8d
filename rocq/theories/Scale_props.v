(** C108: multiplying every weight by one positive number changes no image, mask
    or psf; C109: images are linear in the input images. *)
From Coq Require Import ZArith QArith List Bool Lia Lqa.
From Verif Require Import Base Arr Median Flags_model Order_spec Order_proofs Scale_spec Scale_proofs.
From Verif Require Detect_model Detect_spec Detect_proofs Detect_props Coadd_model Coadd_props
  Lexp_model Lexp_props Lmdet_model.
Import ListNotations.
Local Open Scope Z_scope.

(** ** C108 *)
Theorem C108_coadd : forall c mbobs sb, (0 < c)%Q ->
  same_outcome (coadd_times c) (Coadd_model.make_coadd_obs mbobs sb)
    (Coadd_model.make_coadd_obs (map (map (fobs_weights c)) mbobs) sb).
Proof. intros c mbobs sb H. exact (coadd_obs_times c H mbobs sb). Qed.
Print Assumptions C108_coadd.
Theorem C108_exposures : forall c es, (0 < c)%Q ->
  same_outcome (same_opt (coadded_times c)) (Lexp_model.coadd_exposures es) (Lexp_model.coadd_exposures (map (exp_weights c) es)).
Proof. intros c es H. exact (exposures_times c H es). Qed.
Print Assumptions C108_exposures.
Theorem C108_observations : forall c os, (0 < c)%Q ->
  same_outcome (coaddobs_times c) (Lexp_model.coadd_mbobs os) (Lexp_model.coadd_mbobs (map (lobs_weights c) os)).
Proof. intros c os H. exact (mbobs_times c H os). Qed.
Print Assumptions C108_observations.
Theorem C108_task_mfrac : forall c vars mfracs, (0 < c)%Q ->
  same_outcome (fun a b => same_real (fst a) (fst b) /\ Forall2 (fun w w' => w' == c * w)%Q (snd a) (snd b))
    (Lmdet_model.get_mfrac_mbexp vars mfracs) (Lmdet_model.get_mfrac_mbexp (map (variances c) vars) mfracs).
Proof. intros c vars mfracs H. exact (task_mfrac_times c H vars mfracs). Qed.
Print Assumptions C108_task_mfrac.

(** A coadd of two bands, with weights as given and seven times larger. *)
Example C108_coadd_ex : exists a b, Coadd_model.make_coadd_obs Coadd_props.ex_mb [0; 1] = Ok (Some a, 0) /\
  Coadd_model.make_coadd_obs (map (map (fobs_weights 7)) Coadd_props.ex_mb) [0; 1] = Ok (Some b, 0) /\
  (px (Coadd_model.f_image a) 1 1 == 7)%Q /\ (px (Coadd_model.f_image b) 1 1 == 7)%Q /\
  (0 < px (Coadd_model.f_weight a) 1 1)%Q /\ (px (Coadd_model.f_weight b) 1 1 == 7 * px (Coadd_model.f_weight a) 1 1)%Q.
Proof.
  do 2 eexists. split; [reflexivity|]. split; [reflexivity|]. split; [vm_compute; reflexivity|]. split; [vm_compute; reflexivity|].
  split; vm_compute; reflexivity.
Qed.
Example C108_exposures_ex : let es := [Lexp_props.e_good; Lexp_props.e_vary] in
  exists a b, Lexp_model.coadd_exposures es = Ok (Some a) /\ Lexp_model.coadd_exposures (map (exp_weights 7) es) = Ok (Some b) /\
    match px (Lexp_model.c_image a) 0 0, px (Lexp_model.c_image b) 0 0, px (Lexp_model.c_var a) 0 0, px (Lexp_model.c_var b) 0 0 with
    | Some u, Some v, Some p, Some q => (0 < u)%Q /\ (u == v)%Q /\ (0 < p)%Q /\ (p == 7 * q)%Q
    | _, _, _, _ => False
    end.
Proof. cbn zeta. do 2 eexists. split; [reflexivity|]. split; [reflexivity|]. vm_compute. repeat split. Qed.
Example C108_task_ex : exists m ws m' ws',
  Lmdet_model.get_mfrac_mbexp [ifill 1 1 (Some 2%Q); ifill 1 1 (Some 4%Q)] (Some [ifill 1 1 0%Q; ifill 1 1 1%Q]) = Ok (m, ws) /\
  Lmdet_model.get_mfrac_mbexp (map (variances 7) [ifill 1 1 (Some 2%Q); ifill 1 1 (Some 4%Q)]) (Some [ifill 1 1 0%Q; ifill 1 1 1%Q]) = Ok (m', ws') /\
  (px m 0 0 == 1 # 3)%Q /\ (px m' 0 0 == 1 # 3)%Q.
Proof. do 4 eexists. split; [reflexivity|]. split; [reflexivity|]. split; vm_compute; reflexivity. Qed.

(** ** C109 *)

(** Each band comes with a second image of the same shape; the three runs use
    the first images, the second images and [c] times the first plus [d] times
    the second. *)
Theorem C109_detection : forall nodet c d (ts : list (Detect_model.band * img Q)),
  (forall t, In t ts -> sized (Detect_model.b_image (fst t)) (snd t)) ->
  three_opt (linear_detection c d)
    (Detect_model.set_detim nodet (map fst ts))
    (Detect_model.set_detim nodet (map (fun t => band_image (fst t) (snd t)) ts))
    (Detect_model.set_detim nodet (map (fun t => band_image (fst t) (combo c d (Detect_model.b_image (fst t)) (snd t))) ts)).
Proof. exact detim_linear. Qed.
Print Assumptions C109_detection.
Theorem C109_coadd : forall c d (mb : list (list (Coadd_model.fobs * img Q))) sb,
  (forall l t, In l mb -> In t l -> sized (Coadd_model.f_image (fst t)) (snd t)) ->
  three (linear_coadd c d)
    (Coadd_model.make_coadd_obs (map (map fst) mb) sb)
    (Coadd_model.make_coadd_obs (map (map (fun t => fobs_image (fst t) (snd t))) mb) sb)
    (Coadd_model.make_coadd_obs (map (map (fun t => fobs_image (fst t) (combo c d (Coadd_model.f_image (fst t)) (snd t)))) mb) sb).
Proof. exact coadd_linear. Qed.
Print Assumptions C109_coadd.
Theorem C109_exposures : forall c d (ts : list (Lexp_model.exposure * img Q)),
  (forall t, In t ts -> sized (Lexp_model.e_image (fst t)) (snd t)) ->
  three (three_opt (linear_coadded c d))
    (Lexp_model.coadd_exposures (map fst ts))
    (Lexp_model.coadd_exposures (map (fun t => exp_image (fst t) (snd t)) ts))
    (Lexp_model.coadd_exposures (map (fun t => exp_image (fst t) (combo c d (Lexp_model.e_image (fst t)) (snd t))) ts)).
Proof. exact exposures_linear. Qed.
Print Assumptions C109_exposures.
Theorem C109_observations : forall c d (ts : list (Lexp_model.lobs * img Q)),
  (forall t, In t ts -> sized (Lexp_model.o_image (fst t)) (snd t)) ->
  three (linear_coaddobs c d)
    (Lexp_model.coadd_mbobs (map fst ts))
    (Lexp_model.coadd_mbobs (map (fun t => lobs_image (fst t) (snd t)) ts))
    (Lexp_model.coadd_mbobs (map (fun t => lobs_image (fst t) (combo c d (Lexp_model.o_image (fst t)) (snd t))) ts)).
Proof. exact mbobs_linear. Qed.
Print Assumptions C109_observations.

Example C109_detection_ex : let im b := ifill (nr (Detect_model.b_image b)) (nc (Detect_model.b_image b)) 10%Q in
  let ts := map (fun b => (b, im b)) [Detect_props.ex_band 1 1 4; Detect_props.ex_band 5 3 8] in
  (forall t, In t ts -> sized (Detect_model.b_image (fst t)) (snd t)) /\
  exists x w m x' w' m', Detect_model.set_detim 4 (map fst ts) = Some (x, w, m) /\
    Detect_model.set_detim 4 (map (fun t => band_image (fst t) (combo 2 3 (Detect_model.b_image (fst t)) (snd t))) ts) = Some (x', w', m') /\
    (px x' 0 0 == 2 * px x 0 0 + 30)%Q.
Proof.
  cbn zeta. split; [intros t [<-|[<-|[]]]; split; reflexivity|].
  do 6 eexists. split; [reflexivity|]. split; [reflexivity|]. vm_compute. reflexivity.
Qed.
Example C109_coadd_ex : let mb := map (map (fun o => (o, ifill (nr (Coadd_model.f_image o)) (nc (Coadd_model.f_image o)) 10%Q))) Coadd_props.ex_mb in
  (forall l t, In l mb -> In t l -> sized (Coadd_model.f_image (fst t)) (snd t)) /\
  exists o, Coadd_model.make_coadd_obs (map (map (fun t => fobs_image (fst t) (combo 2 3 (Coadd_model.f_image (fst t)) (snd t)))) mb) [0; 1] = Ok (Some o, 0) /\
    (px (Coadd_model.f_image o) 1 1 == 2 * 7 + 3 * 10)%Q.
Proof.
  cbn zeta. split.
  - intros l t I1 I2. apply in_map_iff in I1. destruct I1 as (l' & <- & I1). apply in_map_iff in I2. destruct I2 as (o & <- & I2).
    split; reflexivity.
  - eexists. split; [reflexivity|]. vm_compute. reflexivity.
Qed.
Example C109_exposures_ex : let ts := map (fun e => (e, ifill (nr (Lexp_model.e_image e)) (nc (Lexp_model.e_image e)) 10%Q)) [Lexp_props.e_good; Lexp_props.e_vary] in
  (forall t, In t ts -> sized (Lexp_model.e_image (fst t)) (snd t)) /\
  exists a, Lexp_model.coadd_exposures (map (fun t => exp_image (fst t) (combo 2 3 (Lexp_model.e_image (fst t)) (snd t))) ts) = Ok (Some a).
Proof. cbn zeta. split; [intros t [<-|[<-|[]]]; split; reflexivity|]. eexists. reflexivity. Qed.
Example C109_observations_ex : let ts := map (fun o => (o, ifill (nr (Lexp_model.o_image o)) (nc (Lexp_model.o_image o)) 10%Q)) [Lexp_props.good_obs; Lexp_props.good_obs] in
  (forall t, In t ts -> sized (Lexp_model.o_image (fst t)) (snd t)) /\
  exists a, Lexp_model.coadd_mbobs (map (fun t => lobs_image (fst t) (combo 2 3 (Lexp_model.o_image (fst t)) (snd t))) ts) = Ok a.
Proof. cbn zeta. split; [intros t [<-|[<-|[]]]; split; reflexivity|]. eexists. reflexivity. Qed.
