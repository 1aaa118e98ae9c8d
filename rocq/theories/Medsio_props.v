(** C136: the settings of the detection; C137: stamps are the caller's own. *)
From Coq Require Import ZArith QArith List String Bool Lia.
From Verif Require Import Base Arr Dict Detect_model Medsio_model Medsio_spec Medsio_proofs.
Import ListNotations.
Local Open Scope string_scope.
Local Open Scope Z_scope.

(** With settings given, every shear type is detected with the threshold and the entries
    asked for, whatever the detection does with the dictionary it gets; nothing that
    existed before, the user's settings among it, is changed. *)
Theorem C136_settings : forall (V I J R : Type) asarray (set_detim : I -> outcome J)
    (run_sep : list (string * V) -> V -> J -> outcome R * list (string * V)) SX_CONFIG DETECT_THRESH h p d k a t ims,
  nth_error h p = Some d -> NoDup (skeys d) ->
  sget "filter_kernel" d = Some k -> asarray k = Ok a -> sget "detect_thresh" d = Some t ->
  exists s, asked d a s /\
    snd (detect_all asarray set_detim run_sep SX_CONFIG DETECT_THRESH h (Some p) ims)
    = omap (fun im => do j <- set_detim im; fst (run_sep s t j)) ims /\
    kept h (fst (detect_all asarray set_detim run_sep SX_CONFIG DETECT_THRESH h (Some p) ims)).
Proof.
  intros V I J R asarray set_detim run_sep SX DT h p d k a t ims P N K A T. exists (made a d). split; [now apply made_asked|]. split.
  - exact (all_ok asarray set_detim run_sep SX DT ims h p d k a t P N K A T).
  - apply all_kept. apply nth_error_Some. rewrite P. discriminate.
Qed.
Print Assumptions C136_settings.

(** Settings without a kernel or without a threshold are a KeyError before anything is
    detected; there is no silent default. They too stay as they are. *)
Theorem C136_missing : forall (V I J R : Type) asarray (set_detim : I -> outcome J)
    (run_sep : list (string * V) -> V -> J -> outcome R * list (string * V)) SX_CONFIG DETECT_THRESH h p d im ims,
  nth_error h p = Some d -> NoDup (skeys d) ->
  sget "filter_kernel" d = None \/ (exists k a, sget "filter_kernel" d = Some k /\ asarray k = Ok a) /\ sget "detect_thresh" d = None ->
  exists h', detect_all asarray set_detim run_sep SX_CONFIG DETECT_THRESH h (Some p) (im :: ims) = (h', Raise KeyError) /\ kept h h'.
Proof.
  intros V I J R asarray set_detim run_sep SX DT h p d im ims P N M. destruct (set_missing asarray SX DT h p d P N M) as (h' & E & K).
  exists h'. split; [|exact K]. cbn [detect_all]. unfold detect. rewrite E. reflexivity.
Qed.
Print Assumptions C136_missing.

(** Without settings every shear type is detected with the settings of the detection
    package and its threshold, provided the package leaves its own settings alone. *)
Theorem C136_default : forall (V I J R : Type) asarray (set_detim : I -> outcome J)
    (run_sep : list (string * V) -> V -> J -> outcome R * list (string * V)) SX_CONFIG DETECT_THRESH h s ims,
  nth_error h SX_CONFIG = Some s -> (forall t j, snd (run_sep s t j) = s) ->
  snd (detect_all asarray set_detim run_sep SX_CONFIG DETECT_THRESH h None ims)
  = omap (fun im => do j <- set_detim im; fst (run_sep s DETECT_THRESH j)) ims.
Proof.
  intros V I J R asarray set_detim run_sep SX DT h s ims P NC.
  assert (D : settings_at h SX = s) by (exact (nth_error_nth _ _ _ P)).
  assert (L : (SX < List.length h)%nat) by (apply nth_error_Some; rewrite P; discriminate).
  rewrite <- D in NC |- *. exact (all_default asarray set_detim run_sep SX DT ims h L NC).
Qed.
Print Assumptions C136_default.

(** The proviso is needed: the package's dictionary is handed over itself, not a copy. *)
Theorem C136_default_refuted : ~ (forall (V I J R : Type) asarray (set_detim : I -> outcome J)
    (run_sep : list (string * V) -> V -> J -> outcome R * list (string * V)) SX_CONFIG DETECT_THRESH h s ims,
  nth_error h SX_CONFIG = Some s ->
  snd (detect_all asarray set_detim run_sep SX_CONFIG DETECT_THRESH h None ims)
  = omap (fun im => do j <- set_detim im; fst (run_sep s DETECT_THRESH j)) ims).
Proof.
  intro C. specialize (C nat nat nat nat (fun v => Ok v) (fun i => Ok i) (fun d t j => (Ok (List.length d), [])) 0%nat 0%nat [[("minarea", 5%nat)]] [("minarea", 5%nat)] [1%nat; 2%nat] eq_refl).
  vm_compute in C. discriminate C.
Qed.
Print Assumptions C136_default_refuted.

Example C136_example :
  let d := [("detect_thresh", 8%nat); ("filter_kernel", 3%nat); ("minarea", 4%nat)] in
  detect_all (fun v => Ok (100 + v)%nat) (fun i : nat => Ok i) (fun s t j => (Ok (s, t, j), [])) 0 1%nat [[]; d] (Some 1%nat) [7%nat; 9%nat]
  = ([[]; d; []; []], Ok [([("filter_kernel", 103%nat); ("minarea", 4%nat)], 8%nat, 7%nat); ([("filter_kernel", 103%nat); ("minarea", 4%nat)], 8%nat, 9%nat)])
  /\ detect_all (R := nat) (fun v => Ok v) (fun i : nat => Ok i) (fun s t j => (Ok j, [])) 0 1%nat [[]; [("filter_kernel", 3%nat)]] (Some 1%nat) [7%nat]
  = ([[]; [("filter_kernel", 3%nat)]; [("filter_kernel", 3%nat)]], Raise KeyError).
Proof. split; vm_compute; reflexivity. Qed.

(** A stamp is a new array with the pixels of the stamp; the arrays of the observation,
    the segmentation map and the PSF image are not changed by making it. *)
Theorem C137_new : forall h m iobj type, in_memory h m ->
  kept h (fst (hget_cutout h m iobj type)) /\
  match snd (hget_cutout h m iobj type) with
  | Ok p => (List.length h <= p < List.length (fst (hget_cutout h m iobj type)))%nat /\
            get_cutout (view h m) iobj type = Ok (array_at (fst (hget_cutout h m iobj type)) p)
  | Raise e => get_cutout (view h m) iobj type = Raise e
  end.
Proof. exact hget_ok. Qed.
Print Assumptions C137_new.

(** Whatever was asked for and whatever was done to the arrays given out, the data are
    unchanged and the next stamp is the one a first request would have returned. *)
Theorem C137_history : forall h m history iobj type, in_memory h m ->
  let s := steps m (h, []) history in
  kept h (fst s) /\
  match hget_cutout (fst s) m iobj type with
  | (h', Ok p) => get_cutout (view h m) iobj type = Ok (array_at h' p) /\ (List.length (fst s) <= p)%nat
  | (h', Raise e) => get_cutout (view h m) iobj type = Raise e
  end.
Proof.
  intros h m history iobj type IM s.
  assert (A : apart h s) by (apply steps_apart; [exact IM|]; split; [apply kept_refl|constructor]). destruct A as [K G].
  split; [exact K|]. pose proof (hget_ok (fst s) m iobj type (in_memory_kept _ _ _ IM K)) as [_ X].
  rewrite (view_kept h (fst s) m iobj type IM K) in X. destruct (hget_cutout (fst s) m iobj type) as [h' [p|e]]; cbn [fst snd] in X; [|exact X].
  split; [apply X|]. lia.
Qed.
Print Assumptions C137_history.

(** The PSF image is the same for every object. *)
Theorem C137_psf : forall h m iobj, in_memory h m -> (iobj < List.length (hm_cat m))%nat ->
  exists h' p, hget_cutout h m iobj "psf" = (h', Ok p) /\ array_at h' p = array_at h (hm_psf m) /\ p <> hm_psf m.
Proof.
  intros h m iobj [_ B] L. unfold hget_cutout. destruct (nth_error (hm_cat m) iobj) as [e|] eqn:E; [|apply nth_error_None in E; lia].
  cbn [String.eqb Ascii.eqb Bool.eqb]. do 2 eexists. split; [reflexivity|]. split; [unfold array_at at 1; apply nth_last|]. lia.
Qed.
Print Assumptions C137_psf.

Example C137_example :
  let im := ifill 4 4 (F 3) in let psf := ifill 3 3 (F 1) in
  let m := mkHMeds (fun _ => 0%nat) 1 [make_entry 4 4 0 1 (2 # 1) (2 # 1) 2] in
  in_memory [im; psf] m /\
  (let s := steps m ([im; psf], []) [Ask 0 "image"; Ask 0 "psf"; Overwrite 0 (ifill 2 2 (F 9)); Overwrite 1 (ifill 3 3 (F 9)); Ask 5 "image"; Ask 0 "other"] in
   snd s = [2%nat; 3%nat] /\ array_at (fst s) 2 = ifill 2 2 (F 9) /\ array_at (fst s) 1 = psf).
Proof. split; [split; intros; cbn; lia|]. vm_compute. repeat split. Qed.
