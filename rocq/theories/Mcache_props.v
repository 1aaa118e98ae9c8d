(** C30, C31, C68: the caches of the driver. *)
From Coq Require Import ZArith QArith List String Bool Permutation.
From Verif Require Import Base Arr Median Flags_model Detect_model Wavg_model Wavg_proofs Joint_model Summ_model Conf_model
  Mdet_model Mdet_spec Mcache_proofs.
Import ListNotations.
Local Open Scope string_scope.
Local Open Scope Z_scope.

(** C30: after any history of requests and go() calls without exceptions, a
    request gives what the uncached computation gives: the same value (up to the
    representation of rationals) or the same exception. *)
Theorem C30_transparent : forall O SEG ST FL FR (sob : O -> sobs) (e : env O SEG ST FL FR) h key sb,
  env_uniform sob e -> healthy sob e h ->
  out_rel kdata_eqv (fst (get_data sob e key sb (after sob e h))) (uncached sob e key sb).
Proof.
  intros. rewrite <- fresh_uncached. apply get_data_transparent; auto.
  - apply cache_ok_after.
  - now apply clean_after.
Qed.
Print Assumptions C30_transparent.

(** C30: once a request succeeded, a request for the same bands in any order,
    now or after any further successful go() or requests, returns that very
    entry and computes nothing. *)
Theorem C30_order_shared : forall O SEG ST FL FR (sob : O -> sobs) (e : env O SEG ST FL FR) key sb sb' s kd s' l,
  get_data sob e key sb s = (Ok kd, s') -> Permutation sb sb' ->
  let s'' := snd (run_ops sob e l s') in
  get_data sob e key sb' s'' = (Ok kd, s'').
Proof.
  intros O SEG ST FL FR sob e key sb sb' s kd s' l H P s''.
  eapply get_data_stable; [exact H| |now apply zsort_ext, Permutation_sym].
  unfold s''. clear s''. apply (pres_run _ _ _ _ _ sob e (extends O FR s')).
  - intros c g r r' X k ent A. destruct (X k ent A) as [ent' B]. exists ent'. exact B.
  - intros k2 sb2 t X. eapply extends_trans; [exact X|apply get_data_extends].
  - apply extends_refl.
Qed.
Print Assumptions C30_order_shared.

(** C30: whatever the history, with failures, no PSF fit, no metacal run and no
    summary for a set of shear bands is attempted twice. *)
Theorem C30_at_most_once : forall O SEG ST FL FR (sob : O -> sobs) (e : env O SEG ST FL FR) h,
  NoDup (s_log (after sob e h)).
Proof. intros. apply log_ok_after. Qed.
Print Assumptions C30_at_most_once.

(** C30: a colour whose entry is the main observations themselves shares the
    entry of the main observations. *)
Theorem C30_main_shared : forall O SEG ST FL FR (sob : O -> sobs) (e : env O SEG ST FL FR) keyf dep k sb s,
  e_color e = Some (keyf, dep) -> dep k = Some SameObject ->
  get_data sob e (Some k) sb s = get_data sob e None sb s.
Proof. intros. unfold get_data, obs_of. rewrite H, H0. reflexivity. Qed.
Print Assumptions C30_main_shared.

(** C68: when go() succeeded, then after any further requests and go() calls
    (failed ones included) another go() succeeds with the same result, and adds
    nothing to the cache or to the log of PSF fits, metacal runs and summaries. *)
Theorem C68_go_again : forall O SEG ST FL FR (sob : O -> sobs) (e : env O SEG ST FL FR) s s' l,
  go sob e s = (Ok tt, s') ->
  let s1 := snd (run_ops sob e l s') in
  fst (go sob e s1) = Ok tt /\
  result_property (snd (go sob e s1)) = result_property s' /\
  s_log (snd (go sob e s1)) = s_log s1 /\ s_cache (snd (go sob e s1)) = s_cache s1.
Proof.
  intros O SEG ST FL FR sob e s s' l H s1.
  assert (X : extends O FR s' s1).
  { unfold s1. apply (pres_run _ _ _ _ _ sob e (extends O FR s')).
    - intros c g r r' X k ent A. destruct (X k ent A) as [ent' B]. exists ent'. exact B.
    - intros k2 sb2 t X. eapply extends_trans; [exact X|apply get_data_extends].
    - apply extends_refl. }
  rewrite (go_again _ _ _ _ _ sob e s s' s1 H X). repeat split.
Qed.
Print Assumptions C68_go_again.

(** C31: whatever the history, with failures: data returned complete is the
    data of the uncached computation, which then succeeds. *)
Theorem C31_complete_data_partial : forall O SEG ST FL FR (sob : O -> sobs) (e : env O SEG ST FL FR) h key sb kd s',
  env_uniform sob e -> get_data sob e key sb (after sob e h) = (Ok kd, s') -> complete kd ->
  exists kd', uncached sob e key sb = Ok kd' /\ kdata_eqv kd kd'.
Proof.
  intros. rewrite <- fresh_uncached. eapply get_data_never_wrong; eauto. apply cache_ok_after.
Qed.
Print Assumptions C31_complete_data_partial.

(** ** A small concrete setting: two bands of 2x2 pixels, one detection. *)
Definition w22 (q : Q) : sobs := mkSobs (mkImg 2 2 (fun _ _ => q)) (Some (mkImg 2 2 (fun i _ => if i =? 0 then (1 # 2)%Q else 0%Q)))
  (mkImg 2 2 (fun i j => i + 2 * j)) (mkImg 2 2 (fun _ j => j)).
Definition psf_good (t : Q) : pobs := mkPobs 1 (Some (mkPsfres 0 (Some t) (Some ((1 # 10)%Q, 0%Q)) None)).
Definition psf_bad : pobs := mkPobs 1 (Some (mkPsfres 0 None None None)).
Definition fit0 : fitter := mkFitter "wmom" None (Some 2%Q) None 2 0 true false false.
Definition env_with (color : option ((Z -> outcome (option Z)) * (Z -> option (cobs sobs))))
  (psf : list (list pobs)) (mc : mb sobs -> outcome (list (string * mb sobs))) (sh dt : list (list Z)) : env sobs unit Z Z Z :=
  mkEnv [[w22 1]; [w22 2]] color
    (fun _ => (psf, Ok tt)) mc ["noshear"; "1p"] 1024 [fit0] sh dt
    (fun m => Ok ([mkDetc 1 0 2 1], tt)) (fun m _ d => Ok (zlen m + dc_number d))
    (fun _ sb st => Ok (10 * st + zlen sb)) (fun _ => "wmom") (fun _ _ st => Ok st)
    (fun _ a b => Ok (a, b)) None None (fun _ _ _ => (fun _ _ => 1%Q, fun _ _ => true)).
Definition mc_ok (m : mb sobs) : outcome (list (string * mb sobs)) := Ok [("noshear", m); ("1p", m)].
Definition mc_fails (m : mb sobs) : outcome (list (string * mb sobs)) := Raise ValueError.
Definition env_ok := env_with None [[psf_good 1]; [psf_good 2]] mc_ok [[0; 1]; [1; 0]] [[0]; [1]].

Lemma env_with_uniform : forall c p m s d, (forall keyf dep k x, c = Some (keyf, dep) -> dep k = Some (Other x) -> x = [[w22 1]; [w22 2]]) ->
  env_uniform (fun o => o) (env_with c p m s d).
Proof.
  intros c p m s d H. assert (U : uniform (fun o => o) [[w22 1]; [w22 2]]).
  { exists 2, 2. intros ol o [<-|[<-|[]]] [<-|[]]; repeat split. }
  split; [exact U|]. intros keyf dep k x E1 E2. rewrite (H _ _ _ _ E1 E2). exact U.
Qed.

(** C31 is REFUTED: metacal fails with an exception; the next request for the
    same data neither repeats the work nor fails: it returns an entry without
    metacal results. *)
Theorem C31_failure_refuted : exists (e : env sobs unit Z Z Z) s1 kd,
  env_uniform (fun o => o) e /\
  get_data (fun o => o) e None [0; 1] init_state = (Raise ValueError, s1) /\
  fst (get_data (fun o => o) e None [0; 1] s1) = Ok kd /\ ~ complete kd /\ kd_mcal kd = Raise KeyError.
Proof.
  exists (env_with None [[psf_good 1]; [psf_good 2]] mc_fails [[0; 1]] [[0]]). eexists. eexists.
  split; [apply env_with_uniform; discriminate|].
  split; [reflexivity|]. split; [reflexivity|]. split; [|reflexivity]. intros [_ [X _]]. apply X. reflexivity.
Qed.
Print Assumptions C31_failure_refuted.

(** C31 is REFUTED also for go(): the first call fails because the PSF result of
    a band that is not a shear band is incomplete, the second one succeeds. *)
Theorem C31_go_refuted : exists (e : env sobs unit Z Z Z) s1 s2 rows,
  go (fun o => o) e init_state = (Raise KeyError, s1) /\
  go (fun o => o) e s1 = (Ok tt, s2) /\
  result_property s2 = Ok (Some [("noshear", Some rows); ("1p", Some rows)]) /\ rows <> [].
Proof.
  exists (env_with None [[psf_good 1]; [psf_bad]] mc_ok [[0]] [[0]]). eexists. eexists. eexists.
  split; [vm_compute; reflexivity|]. split; [vm_compute; reflexivity|].
  split; [reflexivity|]. discriminate.
Qed.
Print Assumptions C31_go_refuted.

(** Witnesses. *)
Example C30_healthy_history :
  healthy (fun o => o) env_ok [Request None [1]; Go; Request None [1; 0]; Go] /\
  s_log (after (fun o => o) env_ok [Request None [1]; Go; Request None [1; 0]; Go]) =
    [EvPsf None; EvMcal None; EvSum None [1]; EvSum None [0; 1]].
Proof.
  split; [|vm_compute; reflexivity]. intros x H. vm_compute in H.
  repeat (destruct H as [<-|H]; [eexists; reflexivity|]). destruct H.
Qed.
Example C30_uniform : env_uniform (fun o => o) env_ok.
Proof. apply env_with_uniform. discriminate. Qed.
Example C30_colours : exists kd s1,
  let e := env_with (Some (fun z => Ok (Some z), fun k => if k =? 0 then Some SameObject else Some (Other [[w22 1]; [w22 2]])))
             [[psf_good 1]; [psf_good 2]] mc_ok [[0; 1]] [[0]] in
  get_data (fun o => o) e (Some 5) [1; 0] init_state = (Ok kd, s1) /\ complete kd /\
  s_log s1 = [EvPsf (Some 5); EvMcal (Some 5); EvSum (Some 5) [0; 1]].
Proof.
  eexists. eexists. split; [reflexivity|]. split; [|reflexivity]. repeat split; discriminate.
Qed.
Example C68_go_ok : exists s' rows, go (fun o => o) env_ok init_state = (Ok tt, s') /\
  result_property s' = Ok (Some rows) /\ List.length rows = 2%nat.
Proof. eexists. eexists. split; [vm_compute; reflexivity|]. split; reflexivity. Qed.
