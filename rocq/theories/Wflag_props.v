(** C111, C112. *)
From Coq Require Import ZArith QArith Lqa Lia List String Bool.
From Verif Require Import Base Arr Median Flags_model Coadd_model Coadd_spec Wavg_model Wavg_spec Wavg_proofs Wavg_props Wflag_spec Wflag_proofs.
Import ListNotations.
Local Open Scope string_scope.
Local Open Scope Z_scope.

(** ** C111: no flag without a cause, no cause without its flag *)
(** The object: when a shear band has a problem the bits are those of the
    problems of the shear bands, and PSF_FAILURE for a flagged PSF; otherwise
    they are those reported for the averaged moments. *)
Theorem C111_object_flags : forall ng mk to_T qsqrt js sb fw r,
  combine_bands ng mk to_T qsqrt js sb fw = Ok r -> (exists j, In j js /\ j_is j = true) ->
  let psf f := o_psf_flags r <> 0 /\ f = flag_value PSF_FAILURE in
  ((exists f, by_a_band band_cause js f /\ f <> 0) -> bits_from (o_obj_flags r) (fun f => by_a_band band_cause js f \/ psf f)) /\
  ((forall f, by_a_band band_cause js f -> f = 0) -> flags_of_values mk ->
   let l := shear_fits js in
   let m i := wmean l (fun r => normalised r i) in let c i k := wmean_var l (fun r => normalised_cov r i k) in
     (fw <= 0)%Q \/ finite_moments m c ->
     bits_from (o_obj_flags r) (fun f => moment_cause ng mk to_T fw m c (wmean l flux_of) (wmean_var l flux_var_of) f \/ psf f)).
Proof. exact obj_flags_exact. Qed.
Print Assumptions C111_object_flags.
(** The PSF, likewise. *)
Theorem C111_psf_flags : forall ng mk to_T qsqrt js sb fw r,
  combine_bands ng mk to_T qsqrt js sb fw = Ok r -> (exists j, In j js /\ j_is j = true) ->
  ((exists f, by_a_band psf_cause js f /\ f <> 0) -> bits_from (o_psf_flags r) (by_a_band psf_cause js)) /\
  ((forall f, by_a_band psf_cause js f -> f = 0) -> flags_of_values mk -> (forall j, In j js -> j_is j = true -> alike j) ->
     bits_from (o_psf_flags r) (moment_cause ng mk to_T 0 (psf_mean js) (psf_mean_cov js)
       (wmean (shear_psfs js) flux_of) (wmean_var (shear_psfs js) flux_var_of))).
Proof. exact psf_flags_exact. Qed.
Print Assumptions C111_psf_flags.
(** The flag of the flux of each band is the one of its data and of its own fit. *)
Theorem C111_flux_flags : forall ng mk to_T qsqrt js sb fw r k j,
  combine_bands ng mk to_T qsqrt js sb fw = Ok r -> (exists j, In j js /\ j_is j = true) -> nth_error js k = Some j ->
  exists v, nth_error (o_band_flux_flags r) k = Some v /\
    v = Z.lor (j_flags j) (match j_res j with
                           | None => flag_value MISSING_BAND
                           | Some f => match r_flux f, r_flux_err f, r_flux_flags f with
                                       | Some _, Some _, Some v => v
                                       | _, _, _ => flag_value NOMOMENTS_FAILURE
                                       end
                           end).
Proof. exact flux_flags_exact. Qed.
Print Assumptions C111_flux_flags.
(** Without any shear band there is nothing but MISSING_BAND. *)
Theorem C111_no_shear_band : forall ng mk to_T qsqrt js sb fw r,
  combine_bands ng mk to_T qsqrt js sb fw = Ok r -> (forall j, In j js -> j_is j = false) ->
  o_psf_flags r = flag_value MISSING_BAND /\ o_obj_flags r = Z.lor (flag_value MISSING_BAND) (flag_value PSF_FAILURE) /\
  forall k, (k < List.length js)%nat -> nth_error (o_band_flux_flags r) k = Some (flag_value MISSING_BAND).
Proof. exact no_shear_band_flags. Qed.
Print Assumptions C111_no_shear_band.
(** The results of the bands that are combined are those of the data: a band
    with a problem has exactly the flags of its problems, no fit and no weight;
    any other band has no flag, the fits of its first observation and the median
    positive weight. *)
Theorem C111_band_results : forall ng mk to_T qsqrt mbobs ft bm sb fw sym r,
  fit_mbobs_wavg ng mk to_T qsqrt mbobs ft bm sb fw sym = Ok r ->
  exists js, combine_bands ng mk to_T qsqrt js (the_shear_bands mbobs sb) fw = Ok r /\
    List.length js = List.length mbobs /\
    forall k ol j, nth_error mbobs k = Some ol -> nth_error js k = Some j ->
      band_result ft bm sym (the_shear_bands mbobs sb) k ol j.
Proof. exact wavg_band_results. Qed.
Print Assumptions C111_band_results.

(** One band masked and one without moments, a third one fine; then all fine. *)
Definition ex_bad_js : list band :=
  [mkBand 1 (Some (ex_fit 0 5)) (Some (ex_fit 0 1)) true 0; mkBand 0 None None true (flag_value EDGE_HIT);
   mkBand 3 (Some (mkFit 0 None None None None None None)) (Some (ex_fit 0 1)) true 0].
Lemma ex_flags_of_values : flags_of_values ex_mk.
Proof.
  intros m m' c c' Hm _. unfold ex_mk. cbn [mo_flags]. pose proof (Hm 5%nat (Nat.le_refl 5)) as H.
  destruct (m 5%nat) as [a|], (m' 5%nat) as [b|]; cbn in *; try contradiction; [|reflexivity]. now rewrite (Qle_bool_ext a b H).
Qed.
Example C111_example :
  (exists r, combine_bands ex_ng ex_mk ex_toT ex_sqrt ex_bad_js [0; 1; 2] 0 = Ok r /\
     o_obj_flags r = Z.lor (Z.lor (flag_value EDGE_HIT) (flag_value MISSING_BAND))
       (Z.lor (flag_value ZERO_WEIGHTS) (Z.lor (flag_value NOMOMENTS_FAILURE) (flag_value PSF_FAILURE)))) /\
  (exists f, by_a_band band_cause ex_bad_js f /\ f <> 0) /\ flags_of_values ex_mk /\
  (exists r, combine_bands ex_ng ex_mk ex_toT ex_sqrt ex_js [0; 1] 1 = Ok r /\ o_obj_flags r = 0 /\ o_psf_flags r = 0) /\
  (forall f, by_a_band band_cause ex_js f -> f = 0) /\ (forall f, by_a_band psf_cause ex_js f -> f = 0) /\
  (forall j, In j ex_js -> j_is j = true -> alike j) /\
  (let l := shear_fits ex_js in finite_moments (fun i => wmean l (fun r => normalised r i)) (fun i k => wmean_var l (fun r => normalised_cov r i k))) /\
  (exists r, ex_run ex_bad_mb (Some [0; 1]) 0 = Ok r).
Proof.
  split; [eexists; split; vm_compute; reflexivity|].
  split. { exists (flag_value EDGE_HIT). split; [|vm_compute; discriminate]. eexists. split; [right; left; reflexivity|]. split; [reflexivity|]. apply data_flag. }
  split; [exact ex_flags_of_values|].
  split; [eexists; split; [vm_compute; reflexivity|]; split; vm_compute; reflexivity|].
  split.
  { intros f (j & [<-|[<-|[<-|[]]]] & S & C); cbn in S; try discriminate;
      (inversion C as [E|A|r A B|A]; subst; cbn in *;
       [reflexivity|discriminate|exfalso; apply B; injection A as <-; split; discriminate|exfalso; lra]). }
  split.
  { intros f (j & [<-|[<-|[<-|[]]]] & S & C); cbn in S; try discriminate;
      (inversion C as [E|A|r p A B D|r p mr mp q A B D E F G|r p mr mp nr np A B D E F G K|A]; subst; cbn in *;
       [reflexivity|destruct A; discriminate|exfalso; apply D; injection A as <-; injection B as <-; split; split; discriminate
       |exfalso; injection B as <-; cbn in E; injection E as <-; cbn in F; injection F as <-; lra
       |exfalso; injection A as <-; discriminate|exfalso; lra]). }
  split. { intros j [<-|[<-|[<-|[]]]] _ r p A B; cbn in A, B; injection A as <-; injection B as <-; right; split; now left. }
  split. { cbv zeta. split; [intros i H|intros i k Hi Hk].
    - destruct i as [|[|[|[|[|[|i]]]]]]; try lia; vm_compute; discriminate.
    - destruct i as [|[|[|[|[|[|i]]]]]]; try lia; destruct k as [|[|[|[|[|[|k]]]]]]; try lia; vm_compute; discriminate. }
  eexists. vm_compute. reflexivity.
Qed.

(** ** C112: the PSF columns average the PSFs of the bands *)
(** The size is the mean of the sizes of the PSFs of the shear bands, each with
    the averaging weight of its band times the flux of the object there, and the
    shape the ratio of the averaged moments; the flux of the PSF images does not
    matter. *)
Theorem C112_psf_average : forall ng mk to_T qsqrt js sb fw r,
  mk_size mk -> mk_shape mk -> combine_bands ng mk to_T qsqrt js sb fw = Ok r -> (exists j, In j js /\ j_is j = true) ->
  o_psf_flags r = 0 -> (forall j, In j js -> j_is j = true -> alike j) ->
  (forall t, In t (shear_triples js) -> forall m, r_mom (snd t) = Some m -> m 5%nat <> None) ->
  neqv (o_psf_T r) (flux_weighted js psf_size) /\
  neqv (fst (o_psf_g r)) (ndiv (flux_sum js (fun p => unit_psf p 2)) (flux_sum js (fun p => unit_psf p 4))) /\
  neqv (snd (o_psf_g r)) (ndiv (flux_sum js (fun p => unit_psf p 3)) (flux_sum js (fun p => unit_psf p 4))).
Proof. exact psf_average. Qed.
Print Assumptions C112_psf_average.
(** Two bands with PSFs of size 3 and 5 (and different PSF fluxes) in which the
    object has the fluxes 5 and 9, weights 1 and 3. *)
Definition ex_psf_fit (q t : Q) : fitres :=
  mkFit 0 (Some (fun i => Some (match i with 4%nat => (t * q)%Q | 5%nat => q | _ => 0%Q end))) (Some ex_cov) None None None None.
Definition ex_psf_js : list band :=
  [mkBand 1 (Some (ex_fit 0 5)) (Some (ex_psf_fit 1 3)) true 0; mkBand 3 (Some (ex_fit 0 9)) (Some (ex_psf_fit 2 5)) true 0].
Example C112_example : mk_size ex_mk /\ mk_shape ex_mk /\
  (exists r t, combine_bands ex_ng ex_mk ex_toT ex_sqrt ex_psf_js [0; 1] 0 = Ok r /\ o_psf_flags r = 0 /\
     o_psf_T r = Some t /\ (t == 150 # 32)%Q) /\
  neqv (flux_weighted ex_psf_js psf_size) (Some (150 # 32)%Q) /\
  (forall j, In j ex_psf_js -> j_is j = true -> alike j) /\
  (forall t, In t (shear_triples ex_psf_js) -> forall m, r_mom (snd t) = Some m -> m 5%nat <> None).
Proof.
  split; [apply ex_mk_size|]. split; [apply ex_mk_shape|].
  split; [do 2 eexists; split; [vm_compute; reflexivity|]; split; [vm_compute; reflexivity|]; split; [vm_compute; reflexivity|]; vm_compute; reflexivity|].
  split; [vm_compute; reflexivity|].
  split. { intros j [<-|[<-|[]]] _ r p A B; cbn in A, B; injection A as <-; injection B as <-; right; split; now left. }
  intros t [<-|[<-|[]]] m H; cbn in H; injection H as <-; discriminate.
Qed.
