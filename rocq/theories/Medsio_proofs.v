(** Proofs about the settings of the detection and about stamps as objects. *)
From Coq Require Import ZArith List String Bool Lia.
From Verif Require Import Base Arr Dict Detect_model Medsio_model Medsio_spec.
Import ListNotations.
Local Open Scope string_scope.

Lemma hwrite_length : forall A (h : list A) p x, List.length (hwrite h p x) = List.length h.
Proof. induction h as [|y h IH]; intros [|p] x; cbn; auto. Qed.
Lemma hwrite_other : forall A (h : list A) p q x, p <> q -> nth_error (hwrite h p x) q = nth_error h q.
Proof. induction h as [|y h IH]; intros [|p] [|q] x N; cbn; auto; congruence. Qed.
Lemma hwrite_last : forall A (h : list A) x y, hwrite (h ++ [x])%list (List.length h) y = (h ++ [y])%list.
Proof. induction h as [|z h IH]; intros x y; cbn; [reflexivity|]. now rewrite IH. Qed.
Lemma nth_last : forall A (h : list A) x d, nth (List.length h) (h ++ [x])%list d = x.
Proof. intros A h x d. rewrite app_nth2 by lia. now rewrite Nat.sub_diag. Qed.

Lemma kept_refl : forall A (h : list A), kept h h.
Proof. intros A h p _. reflexivity. Qed.
Lemma kept_length : forall A (h k : list A), kept h k -> (List.length h <= List.length k)%nat.
Proof.
  intros A h k K. destruct (Nat.le_gt_cases (List.length h) (List.length k)) as [L|L]; [exact L|].
  specialize (K (List.length k) L). rewrite (proj2 (nth_error_None k (List.length k)) (le_n _)) in K. symmetry in K.
  apply nth_error_None in K. lia.
Qed.
Lemma kept_trans : forall A (a b c : list A), kept a b -> kept b c -> kept a c.
Proof. intros A a b c K1 K2 p L. rewrite K2; [now apply K1|]. pose proof (kept_length _ _ _ K1). lia. Qed.
Lemma kept_app : forall A (h : list A) l, kept h (h ++ l)%list.
Proof. intros A h l p L. now apply nth_error_app1. Qed.
Lemma kept_write : forall A (h k : list A) p x, kept h k -> (List.length h <= p)%nat -> kept h (hwrite k p x).
Proof. intros A h k p x K L q Lq. rewrite hwrite_other by lia. now apply K. Qed.
Lemma kept_nth : forall A (h k : list A) p d, kept h k -> (p < List.length h)%nat -> nth p k d = nth p h d.
Proof.
  intros A h k p d K L. specialize (K p L).
  destruct (nth_error h p) as [x|] eqn:E; [|apply nth_error_None in E; lia].
  rewrite (nth_error_nth _ _ d E). exact (nth_error_nth _ _ d K).
Qed.

Section Settings.
Context {V I J R : Type}.
Variable asarray : V -> outcome V.
Variable set_detim : I -> outcome J.
Variable run_sep : list (string * V) -> V -> J -> outcome R * list (string * V).
Variables (SX_CONFIG : nat) (DETECT_THRESH : V).
Notation setc := (set_sx_config asarray SX_CONFIG DETECT_THRESH).
Notation det := (detect asarray set_detim run_sep SX_CONFIG DETECT_THRESH).
Notation all := (detect_all asarray set_detim run_sep SX_CONFIG DETECT_THRESH).

Lemma sget_del : forall k k' (d : list (string * V)), NoDup (skeys d) ->
  sget k (sdel k' d) = if String.eqb k k' then None else sget k d.
Proof.
  intros k k' d. induction d as [|[a v] d IH]; intros N; [cbn; now destruct (String.eqb k k')|].
  cbn [skeys map fst] in N. inversion N as [|? ? N1 N2]; subst. cbn [sdel sget].
  destruct (String.eqb_spec k' a) as [->|Ne].
  - destruct (String.eqb_spec k a) as [->|Nk]; [|reflexivity]. now apply sget_None.
  - cbn [sget]. destruct (String.eqb_spec k a) as [->|Nk].
    + destruct (String.eqb_spec a k') as [->|]; [congruence|reflexivity].
    + apply IH; exact N2.
Qed.

(** The memory after the settings are copied. *)
Lemma copy_eq : forall (h : list (list (string * V))) p, (p < List.length h)%nat ->
  hwrite (h ++ [[]])%list (List.length h) (supdate (settings_at (h ++ [[]])%list (List.length h)) (settings_at (h ++ [[]])%list p))
  = (h ++ [supdate [] (settings_at h p)])%list.
Proof.
  intros h p L. rewrite hwrite_last. unfold settings_at. rewrite nth_last. f_equal. f_equal. f_equal.
  apply kept_nth; [apply kept_app|exact L].
Qed.
Lemma at_last : forall (h : list (list (string * V))) d, settings_at (h ++ [d])%list (List.length h) = d.
Proof. intros h d. unfold settings_at. apply nth_last. Qed.

Lemma copied_keys : forall (d : list (string * V)) k, NoDup (skeys d) -> sget k (supdate [] d) = sget k d.
Proof. intros d k N. rewrite sget_update by exact N. now destruct (sget k d). Qed.
Lemma copied_nodup : forall (d e : list (string * V)), NoDup (skeys e) -> NoDup (skeys (supdate e d)).
Proof.
  intros d. unfold supdate. induction d as [|[a v] d IH]; intros e N; cbn [fold_left fst snd]; [exact N|].
  apply IH. apply sput_NoDup; exact N.
Qed.

(** The settings a user's dictionary gives, the same whenever it is asked. *)
Definition made (a : V) (d : list (string * V)) : list (string * V) :=
  sdel "detect_thresh" (sput "filter_kernel" a (supdate [] d)).
Lemma made_asked : forall a d, NoDup (skeys d) -> asked d a (made a d).
Proof.
  intros a d N. assert (N1 : NoDup (skeys (sput "filter_kernel" a (supdate [] d)))).
  { apply sput_NoDup. apply copied_nodup. constructor. }
  unfold asked, made. split; [|split]; [| |intros k K1 K2]; rewrite sget_del by exact N1; try reflexivity.
  - cbn [String.eqb Ascii.eqb Bool.eqb]. rewrite sget_put. reflexivity.
  - rewrite sget_put, copied_keys by exact N.
    destruct (String.eqb_spec k "detect_thresh"); [congruence|]. destruct (String.eqb_spec k "filter_kernel"); [congruence|reflexivity].
Qed.

Lemma set_ok : forall h p d k a t, nth_error h p = Some d -> NoDup (skeys d) ->
  sget "filter_kernel" d = Some k -> asarray k = Ok a -> sget "detect_thresh" d = Some t ->
  setc h (Some p) = ((h ++ [made a d])%list, Ok (List.length h, t)).
Proof.
  intros h p d k a t P N K A T. assert (L : (p < List.length h)%nat) by (apply nth_error_Some; rewrite P; discriminate).
  assert (D : settings_at h p = d) by (exact (nth_error_nth _ _ _ P)).
  unfold set_sx_config. cbn zeta. rewrite copy_eq by exact L. rewrite D, at_last, copied_keys, K, A by exact N.
  rewrite hwrite_last, at_last. rewrite sget_put, copied_keys by exact N. cbn [String.eqb Ascii.eqb Bool.eqb]. rewrite T.
  rewrite hwrite_last. reflexivity.
Qed.
Lemma set_missing : forall h p d, nth_error h p = Some d -> NoDup (skeys d) ->
  sget "filter_kernel" d = None \/ (exists k a, sget "filter_kernel" d = Some k /\ asarray k = Ok a) /\ sget "detect_thresh" d = None ->
  exists h', setc h (Some p) = (h', Raise KeyError) /\ kept h h'.
Proof.
  intros h p d P N M. assert (L : (p < List.length h)%nat) by (apply nth_error_Some; rewrite P; discriminate).
  assert (D : settings_at h p = d) by (exact (nth_error_nth _ _ _ P)).
  unfold set_sx_config. cbn zeta. rewrite copy_eq by exact L. rewrite D, at_last, copied_keys by exact N.
  destruct M as [M|[(k & a & K & A) T]].
  - rewrite M. eexists. split; [reflexivity|]. apply kept_app.
  - rewrite K, A, hwrite_last, at_last, sget_put, copied_keys by exact N. cbn [String.eqb Ascii.eqb Bool.eqb]. rewrite T.
    eexists. split; [reflexivity|]. apply kept_app.
Qed.

Lemma set_kept : forall h sx, (forall p, sx = Some p -> (p < List.length h)%nat) -> kept h (fst (setc h sx)).
Proof.
  intros h [p|] L; [|apply kept_refl]. unfold set_sx_config. cbn zeta. rewrite copy_eq by (now apply L).
  destruct (sget "filter_kernel" _) as [k|]; [|apply kept_app]. destruct (asarray k) as [a|e]; [|apply kept_app].
  rewrite hwrite_last. destruct (sget "detect_thresh" _) as [t|]; cbn [fst]; [rewrite hwrite_last|]; apply kept_app.
Qed.
Lemma set_new : forall h p h' q t, setc h (Some p) = (h', Ok (q, t)) -> q = List.length h.
Proof.
  intros h p h' q t E. unfold set_sx_config in E. cbn zeta in E.
  destruct (sget "filter_kernel" _) as [k|]; [|discriminate E]. destruct (asarray k) as [a|e]; [|discriminate E].
  destruct (sget "detect_thresh" _) as [u|]; [|discriminate E]. congruence.
Qed.

Lemma det_kept : forall h p im, (p < List.length h)%nat -> kept h (fst (det h (Some p) im)).
Proof.
  intros h p im L. pose proof (set_kept h (Some p)) as K. unfold detect.
  destruct (setc h (Some p)) as [h1 [[q t]|e]] eqn:E; cbn [fst] in K.
  - apply set_new in E. subst q. assert (K1 : kept h h1) by (apply K; intros p' X; inversion X; subst; exact L).
    destruct (set_detim im) as [j|e]; [|exact K1]. destruct (run_sep _ t j) as [r s]. cbn [fst]. now apply kept_write.
  - apply K. intros p' X; inversion X; subst; exact L.
Qed.
Lemma all_kept : forall ims h p, (p < List.length h)%nat -> kept h (fst (all h (Some p) ims)).
Proof.
  induction ims as [|im ims IH]; intros h p L; cbn [detect_all]; [apply kept_refl|].
  pose proof (det_kept h p im L) as K. destruct (det h (Some p) im) as [h1 [r|e]]; cbn [fst] in K; [|exact K].
  assert (L1 : (p < List.length h1)%nat) by (pose proof (kept_length _ _ _ K); lia).
  pose proof (IH h1 p L1) as K2. destruct (all h1 (Some p) ims) as [h2 rs]. cbn [fst] in K2 |- *. exact (kept_trans _ _ _ _ K K2).
Qed.

Definition one (s : list (string * V)) (t : V) (im : I) : outcome R := do j <- set_detim im; fst (run_sep s t j).

Lemma all_ok : forall ims h p d k a t, nth_error h p = Some d -> NoDup (skeys d) ->
  sget "filter_kernel" d = Some k -> asarray k = Ok a -> sget "detect_thresh" d = Some t ->
  snd (all h (Some p) ims) = omap (one (made a d) t) ims.
Proof.
  induction ims as [|im ims IH]; intros h p d k a t P N K A T; cbn [detect_all omap]; [reflexivity|].
  assert (L : (p < List.length h)%nat) by (apply nth_error_Some; rewrite P; discriminate).
  pose proof (det_kept h p im L) as KP. unfold detect in *. rewrite (set_ok _ _ _ _ _ _ P N K A T) in *. unfold one at 1.
  destruct (set_detim im) as [j|e]; cbn [obind]; [|reflexivity]. rewrite at_last in *.
  destruct (run_sep (made a d) t j) as [[r|e] s] eqn:E; cbn [fst] in *; [|reflexivity]. cbn [obind].
  match goal with |- context [all ?h1 _ _] => pose proof (IH h1 p d k a t) as Q; destruct (all h1 (Some p) ims) as [h2 rs] end.
  cbn [snd] in *. rewrite Q; auto. now rewrite KP.
Qed.

Lemma det_default : forall h im, (SX_CONFIG < List.length h)%nat ->
  (forall t j, snd (run_sep (settings_at h SX_CONFIG) t j) = settings_at h SX_CONFIG) ->
  det h None im = (h, one (settings_at h SX_CONFIG) DETECT_THRESH im).
Proof.
  intros h im L NC. unfold detect, one. cbn [set_sx_config]. destruct (set_detim im) as [j|e]; cbn [obind]; [|reflexivity].
  specialize (NC DETECT_THRESH j). destruct (run_sep _ DETECT_THRESH j) as [r s]. cbn [snd fst] in *. subst s. f_equal.
  clear -L. unfold settings_at. revert h L. generalize SX_CONFIG as n. induction n as [|n IH]; intros [|x h] L; cbn in *; try lia; [reflexivity|]. f_equal. apply IH. lia.
Qed.
Lemma all_default : forall ims h, (SX_CONFIG < List.length h)%nat ->
  (forall t j, snd (run_sep (settings_at h SX_CONFIG) t j) = settings_at h SX_CONFIG) ->
  snd (all h None ims) = omap (one (settings_at h SX_CONFIG) DETECT_THRESH) ims.
Proof.
  induction ims as [|im ims IH]; intros h L NC; cbn [detect_all omap]; [reflexivity|]. rewrite det_default by assumption.
  destruct (one _ _ im) as [r|e]; [|reflexivity]. cbn [obind]. specialize (IH h L NC). destruct (all h None ims) as [h2 rs]. cbn [snd] in *. now rewrite IH.
Qed.
End Settings.

(** ** Stamps *)

Lemma array_kept : forall h k p, kept h k -> (p < List.length h)%nat -> array_at k p = array_at h p.
Proof. intros h k p K L. unfold array_at. now apply kept_nth. Qed.

Lemma hget_ok : forall h m iobj type, in_memory h m ->
  kept h (fst (hget_cutout h m iobj type)) /\
  match snd (hget_cutout h m iobj type) with
  | Ok p => (List.length h <= p < List.length (fst (hget_cutout h m iobj type)))%nat /\ get_cutout (view h m) iobj type = Ok (array_at (fst (hget_cutout h m iobj type)) p)
  | Raise e => get_cutout (view h m) iobj type = Raise e
  end.
Proof.
  intros h m iobj type [IM PM]. unfold hget_cutout, get_cutout. cbn [view m_cat m_psf m_plane].
  destruct (nth_error (hm_cat m) iobj) as [e|]; [|split; [apply kept_refl|reflexivity]].
  destruct (String.eqb type "psf"); cbn [fst snd].
  { split; [apply kept_app|]. split; [rewrite app_length; cbn; lia|]. unfold array_at at 2. now rewrite nth_last. }
  destruct (existsb (String.eqb type) image_types); [|split; [apply kept_refl|reflexivity]].
  destruct (get_clipped_boxes (nr (array_at h (hm_plane m type))) (e_srow e) (e_box e)) as [[or0 or1] [r0 r1]].
  destruct (get_clipped_boxes (nc (array_at h (hm_plane m type))) (e_scol e) (e_box e)) as [[oc0 oc1] [c0 c1]].
  destruct (e_box e <? 0)%Z; [split; [apply kept_refl|reflexivity]|].
  destruct (DEFAULT_IMAGE_VALUES type) as [fill|]; [|split; [apply kept_refl|reflexivity]]. cbn zeta.
  assert (X : array_at (h ++ [ifill (e_box e) (e_box e) fill])%list (List.length h) = ifill (e_box e) (e_box e) fill) by (unfold array_at; apply nth_last).
  assert (Y : array_at (h ++ [ifill (e_box e) (e_box e) fill])%list (hm_plane m type) = array_at h (hm_plane m type)) by (apply array_kept; [apply kept_app|apply IM]).
  rewrite X, Y. destruct (assign_slice _ r0 r1 c0 c1 _) as [im|x]; cbn [fst snd].
  - rewrite hwrite_last. split; [apply kept_app|]. split; [rewrite app_length; cbn; lia|]. unfold array_at. now rewrite nth_last.
  - split; [apply kept_app|reflexivity].
Qed.

Definition apart (h0 : list (img num)) (s : list (img num) * list nat) : Prop :=
  kept h0 (fst s) /\ Forall (fun p => (List.length h0 <= p)%nat) (snd s).
Lemma in_memory_kept : forall h k m, in_memory h m -> kept h k -> in_memory k m.
Proof. intros h k m [A B] K. pose proof (kept_length _ _ _ K). split; [intro t; specialize (A t)|]; lia. Qed.
Lemma step_apart : forall h0 m s a, in_memory h0 m -> apart h0 s -> apart h0 (step m s a).
Proof.
  intros h0 m [h given] a IM [K G]. cbn [fst snd] in *. pose proof (kept_length _ _ _ K) as L. destruct a as [iobj type|n im]; cbn [step fst snd].
  - pose proof (hget_ok h m iobj type (in_memory_kept _ _ _ IM K)) as [K1 R]. destruct (hget_cutout h m iobj type) as [h1 [p|e]]; cbn [fst snd] in *.
    + split; cbn [fst snd]; [exact (kept_trans _ _ _ _ K K1)|]. apply Forall_app. split; [exact G|]. constructor; [lia|constructor].
    + split; cbn [fst snd]; [exact (kept_trans _ _ _ _ K K1)|exact G].
  - destruct (nth_error given n) as [p|] eqn:E; [|split; assumption]. split; cbn [fst snd]; [|exact G].
    apply kept_write; [exact K|]. apply nth_error_In in E. exact (proj1 (Forall_forall _ _) G p E).
Qed.
Lemma steps_apart : forall l h0 m s, in_memory h0 m -> apart h0 s -> apart h0 (steps m s l).
Proof. unfold steps. induction l as [|a l IH]; intros h0 m s IM A; cbn [fold_left]; [exact A|]. apply IH; [exact IM|]. now apply step_apart. Qed.

Lemma view_kept : forall h k m iobj type, in_memory h m -> kept h k -> get_cutout (view k m) iobj type = get_cutout (view h m) iobj type.
Proof.
  intros h k m iobj type [A B] K. unfold get_cutout. cbn [view m_cat m_psf m_plane]. rewrite (array_kept h k _ K (A type)), (array_kept h k _ K B). reflexivity.
Qed.
