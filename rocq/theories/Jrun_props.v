(** C103 and C104. *)
From Coq Require Import ZArith QArith Lia List String Bool.
From Verif Require Import Base Arr Median Flags_model Coadd_model Wavg_model Joint_model Joint_spec Joint_props Jrun_model Jrun_spec Jrun_proofs.
Import ListNotations.
Local Open Scope string_scope.
Local Open Scope Z_scope.

(** ** C103 *)
(** Objects whose stamps all have one pixel scale (and the same number of bands,
    when all bands of each are fit together) are measured as if each was alone.
    [go] is any deterministic fitter. *)
Theorem C103_one_scale_partial : forall ng scale_of go l bm sb coadd s, one_scale scale_of s l -> sb <> Some [] ->
  (sb = None -> coadd = false -> forall m m', In m l -> In m' l -> List.length m = List.length m') ->
  fit_list_gauss ng scale_of go l bm sb coadd =
  (do rows <- omap (fun m => fit_gauss ng scale_of go m bm sb None None coadd) l;
   match rows with [] => Ok None | _ => Ok (Some rows) end).
Proof. exact one_scale_list. Qed.
Print Assumptions C103_one_scale_partial.
(** So are all objects of a list whose first object has no stamp in its first
    band. *)
Theorem C103_first_missing : forall ng scale_of go l bm sb coadd,
  (forall m, hd_error l = Some m -> m = [] \/ exists r, m = [] :: r) ->
  fit_list_gauss ng scale_of go l bm sb coadd =
  (do rows <- omap (fun m => fit_gauss ng scale_of go m bm sb None None coadd) l;
   match rows with [] => Ok None | _ => Ok (Some rows) end).
Proof. exact first_missing. Qed.
Print Assumptions C103_first_missing.

(** A fitter that pulls the size towards the width of the position prior, and
    raises when the number of flux priors is wrong. *)
Definition ex_go (r : runner) (p : psf_runner) (mb : list (list fobs)) : bootout :=
  if Nat.eqb (List.length (pr_F (ru_prior r))) (List.length mb) then
    BootOk (mkGauss 0 (Some 10%Q) (Some 0%Q, Some 0%Q) (fun _ _ => Some 1%Q) (Some (fst (pr_sigma (ru_prior r)))) (Some 1%Q)
              (map (fun _ => Some 1%Q) mb) (map (fun _ => Some 1%Q) mb))
           (fun _ => mkPsfres 0 (Some 1%Q) (Some 0%Q, Some 0%Q))
  else BootOther.
Definition ex_scale (jac : Z) : Q := (1 + inject_Z jac)%Q.
Definition with_jac (j : Z) (o : fobs) : fobs :=
  mkFobs (f_image o) (f_weight o) j (f_psf o) (f_mfrac o) (f_noise o) (f_bmask o) (f_ormask o).
Definition ex_object (j : Z) : list (list fobs) := [[with_jac j (ex_obs 5 2 0)]; [with_jac j (ex_obs 7 4 0)]].
Definition size_of (r : row) : Wavg_model.num := option_map Qred (o_T r).
Definition sizes (x : outcome (option (list row))) : list (Z * Wavg_model.num) :=
  match x with Ok (Some rows) => map (fun r => (o_flags r, size_of r)) rows | _ => [] end.
Definition single (m : list (list fobs)) : list (Z * Wavg_model.num) :=
  match fit_gauss ex_ng ex_scale ex_go m 1 None None None false with Ok r => [(o_flags r, size_of r)] | Raise _ => [] end.

(** With two pixel scales the first object decides for all: the second object is
    not measured as it is alone, and the order of the objects matters. *)
Theorem C103_two_scales_refuted :
  single (ex_object 0) = [(0, Some 1%Q)] /\ single (ex_object 1) = [(0, Some 2%Q)] /\
  sizes (fit_list_gauss ex_ng ex_scale ex_go [ex_object 0; ex_object 1] 1 None false) = [(0, Some 1%Q); (0, Some 1%Q)] /\
  sizes (fit_list_gauss ex_ng ex_scale ex_go [ex_object 1; ex_object 0] 1 None false) = [(0, Some 2%Q); (0, Some 2%Q)].
Proof. repeat split; vm_compute; reflexivity. Qed.
Print Assumptions C103_two_scales_refuted.
(** An object with another number of bands than the first one is fit with the
    wrong number of flux priors, which is a failure with ngmix; alone it works. *)
Theorem C103_band_counts_refuted :
  single [[ex_obs 5 2 0]] = [(0, Some 1%Q)] /\
  sizes (fit_list_gauss ex_ng ex_scale ex_go [ex_object 0; [[ex_obs 5 2 0]]] 1 None false)
  = [(0, Some 1%Q); (Z.lor (NO_ATTEMPT ex_ng) (Z.lor (flag_value OBJ_FAILURE) (flag_value PSF_FAILURE)), None)].
Proof. split; vm_compute; reflexivity. Qed.
Print Assumptions C103_band_counts_refuted.
(** Two objects with one scale, different data; and a list of the second kind. *)
Example C103_example :
  let l := [ex_object 1; [[with_jac 1 (ex_obs 1 8 0)]; [with_jac 1 (ex_obs 2 4 0)]]] in
  one_scale ex_scale 2 l /\ (forall m m', In m l -> In m' l -> List.length m = List.length m') /\
  sizes (fit_list_gauss ex_ng ex_scale ex_go l 1 None false) = [(0, Some 2%Q); (0, Some 2%Q)] /\
  sizes (fit_list_gauss ex_ng ex_scale ex_go [[[]; [ex_obs 1 1 0]]; ex_object 0; ex_object 1] 1 None false)
  = [(Z.lor (NO_ATTEMPT ex_ng) (flag_value MISSING_BAND), None); (0, Some 1%Q); (0, Some 2%Q)].
Proof.
  cbv zeta. split.
  - intros m ol o [<-|[<-|[]]] [<-|[<-|[]]] [<-|[]]; reflexivity.
  - split; [intros m m' [<-|[<-|[]]] [<-|[<-|[]]]; reflexivity|]. split; vm_compute; reflexivity.
Qed.

(** ** C104 *)
(** A single fit uses the fitter only with one flux prior for each of the stamps
    it fits and a position prior as wide as a pixel of the first of them: two
    fitters that agree there give the same row. *)
Theorem C104_single : forall ng scale_of go go' mbobs bm sb psf coadd,
  (forall r p mb, suited scale_of r mb -> go r p mb = go' r p mb) ->
  fit_gauss ng scale_of go mbobs bm sb None psf coadd = fit_gauss ng scale_of go' mbobs bm sb None psf coadd.
Proof. exact single_suited. Qed.
Print Assumptions C104_single.
(** A list of objects with one pixel scale does the same. *)
Theorem C104_list_partial : forall ng scale_of go go' l bm sb coadd s, one_scale scale_of s l -> sb <> Some [] ->
  (sb = None -> coadd = false -> forall m m', In m l -> In m' l -> List.length m = List.length m') ->
  (forall r p mb, suited scale_of r mb -> go r p mb = go' r p mb) ->
  fit_list_gauss ng scale_of go l bm sb coadd = fit_list_gauss ng scale_of go' l bm sb coadd.
Proof. exact list_suited. Qed.
Print Assumptions C104_list_partial.
(** With two scales a list uses other priors. *)
Definition only_suited (r : runner) (p : psf_runner) (mb : list (list fobs)) : bootout :=
  match mb with
  | (o :: _) :: _ => if Qeq_bool (fst (pr_sigma (ru_prior r))) (ex_scale (f_jac o)) then ex_go r p mb else BootOther
  | _ => ex_go r p mb
  end.
Theorem C104_list_refuted :
  (forall r p mb, suited ex_scale r mb -> ex_go r p mb = only_suited r p mb) /\
  sizes (fit_list_gauss ex_ng ex_scale ex_go [ex_object 0; ex_object 1] 1 None false) <>
  sizes (fit_list_gauss ex_ng ex_scale only_suited [ex_object 0; ex_object 1] 1 None false).
Proof.
  split; [|vm_compute; discriminate]. intros r p mb [_ S]. unfold only_suited. destruct mb as [|[|o ol] mb]; try reflexivity.
  rewrite S. cbn [fst]. rewrite (proj2 (Qeq_bool_iff _ _) (Qeq_refl _)). reflexivity.
Qed.
Print Assumptions C104_list_refuted.
Example C104_example :
  suited ex_scale (get_gauss_obj_runner 2 (ex_scale 1)) (ex_object 1) /\
  ~ suited ex_scale (get_gauss_obj_runner 2 (ex_scale 0)) (ex_object 1) /\
  ~ suited ex_scale (get_gauss_obj_runner 1 (ex_scale 1)) (ex_object 1).
Proof.
  split; [split; reflexivity|]. split; intros [A B]; [|discriminate A]. cbn in B. discriminate B.
Qed.
