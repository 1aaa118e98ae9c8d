(** C105 and C106. *)
From Coq Require Import ZArith QArith Qcanon List String Bool Lia.
From Verif Require Import Base Dict Lutil_model Lsub_model Lsub_spec Lsub_proofs Lheavy_model Lheavy_spec Lheavy_proofs.
Import ListNotations.
Local Open Scope string_scope.
Local Open Scope Z_scope.

(** ** C105 *)
(** Every pixel of the footprint lies in the observation and holds the complete
    model of the source as seen in that band. *)
Theorem C105_values : forall ob s band x y v, kernel_fits ob -> inside ob s ->
  heavy_pixels ob s false band x y = Some v -> in_box (ob_box ob) x y /\ v = full_model_at ob s band x y.
Proof. exact heavy_pixel. Qed.
Print Assumptions C105_values.
(** A pixel of the observation that is not in the footprint: the model is positive
    in no band, and zero in one. *)
Theorem C105_missing_partial : forall ob s band x y, kernel_fits ob -> inside ob s -> In band (ob_bands ob) ->
  in_box (ob_box ob) x y -> heavy_pixels ob s false band x y = None ->
  (forall b, In b (ob_bands ob) -> (full_model_at ob s b x y <= 0)%Qc) /\
  (exists b, In b (ob_bands ob) /\ full_model_at ob s b x y = 0%Qc).
Proof. exact no_heavy_pixel. Qed.
Print Assumptions C105_missing_partial.
(** So for models and kernels without negative values nothing is lost. *)
Theorem C105_complete_partial : forall ob s band x y, kernel_fits ob -> inside ob s -> nonnegative ob s -> In band (ob_bands ob) ->
  in_box (ob_box ob) x y -> contribution (heavy_pixels ob s false band x y) = full_model_at ob s band x y.
Proof. exact contribution_nonneg. Qed.
Print Assumptions C105_complete_partial.

(** An example: a source of two by two pixels in two bands, a kernel with a core
    of 1/2 and four neighbours of 1/8. *)
Definition q (n : Z) (d : positive) : Qc := Q2Qc (n # d).
Definition ex_kernel (band : string) (i j : Z) : Qc :=
  if (i =? 0) && (j =? 0) then q 1 2 else if Z.abs i + Z.abs j =? 1 then q 1 8 else q 0 1.
Definition ex_observation (b : box) : observation := mkObservation b ["g"; "r"] (3, 3) (1, 1) ex_kernel.
Definition ex_big : observation := ex_observation (Some (mkBox 0 0 9 9)).
Definition ex_source : source :=
  mkSource 5 (Some (mkBox 2 2 3 3)) (fun band x y => if String.eqb band "r" then q 8 1 else q (8 * x) 1) None (fun _ _ _ => q 0 1).
Lemma ex_kernel_nonneg : forall band i j, (0 <= ex_kernel band i j)%Qc.
Proof.
  intros band i j. unfold ex_kernel. destruct (_ && _); [vm_compute; discriminate|]. destruct (_ =? _); vm_compute; discriminate.
Qed.
Lemma ex_fits : forall b, kernel_fits (ex_observation b).
Proof. intros b. unfold kernel_fits. cbn. lia. Qed.
Lemma ex_inside : inside ex_big ex_source.
Proof. intros x y. cbn. lia. Qed.
Definition shown (p : option Qc) : option Q := option_map this p.
Example C105_example :
  kernel_fits ex_big /\ inside ex_big ex_source /\
  (exists l, scarlet_model_to_heavy ex_big ex_source false = Ok (HMulti Qc l)) /\
  shown (heavy_pixels ex_big ex_source false "r" 2 2) = Some 6%Q /\
  shown (heavy_pixels ex_big ex_source false "g" 2 2) = Some 13%Q /\
  shown (heavy_pixels ex_big ex_source false "g" 1 2) = Some 2%Q /\
  shown (heavy_pixels ex_big ex_source false "g" 1 1) = None.
Proof.
  split; [apply ex_fits|]. split; [exact ex_inside|]. split; [eexists; reflexivity|]. repeat split; vm_compute; reflexivity.
Qed.

(** A model that is negative in one band and zero in the other is not in the
    footprint. *)
Definition ex_negative : source :=
  mkSource 6 (Some (mkBox 2 2 3 3)) (fun band x y => if String.eqb band "r" then q (-8) 1 else q 0 1) None (fun _ _ _ => q 0 1).
Theorem C105_negative_refuted :
  kernel_fits ex_big /\ inside ex_big ex_negative /\ In "r" (ob_bands ex_big) /\ in_box (ob_box ex_big) 2 2 /\
  heavy_pixels ex_big ex_negative false "r" 2 2 = None /\ full_model_at ex_big ex_negative "r" 2 2 <> 0%Qc.
Proof.
  split; [apply ex_fits|]. split; [intros x y; cbn; lia|]. split; [right; now left|]. split; [cbn; lia|].
  split; [vm_compute; reflexivity|]. intros H. apply (f_equal this) in H. vm_compute in H. discriminate H.
Qed.
Print Assumptions C105_negative_refuted.
Lemma ex_nonneg : forall b, nonnegative (ex_observation b) ex_source.
Proof.
  intros b. split; [exact ex_kernel_nonneg|]. intros band x y. cbn [so_box so_model ex_source in_box]. intros [H _]. cbn in H.
  destruct (String.eqb band "r"); [vm_compute; discriminate|]. assert (x = 2 \/ x = 3) as [-> | ->] by lia; vm_compute; discriminate.
Qed.
(** A source whose box reaches out of the observation is cut before it is
    convolved: pixels inside miss the light from outside. *)
Theorem C105_cut_refuted : let ob := ex_observation (Some (mkBox 3 0 9 9)) in
  kernel_fits ob /\ nonnegative ob ex_source /\ in_box (ob_box ob) 3 2 /\
  exists v, heavy_pixels ob ex_source false "r" 3 2 = Some v /\ (v < full_model_at ob ex_source "r" 3 2)%Qc.
Proof.
  cbv zeta. split; [apply ex_fits|]. split; [apply ex_nonneg|]. split; [cbn; lia|]. eexists. split; [reflexivity|].
  vm_compute. reflexivity.
Qed.
Print Assumptions C105_cut_refuted.

(** ** C106 *)
(** The subtracted images are the original ones minus the complete models of all
    sources whose blend covers the pixel: for blends whose sources are inside and
    have no negative values, and a catalogue whose footprint boxes hold the
    models. *)
Theorem C106_subtracted_partial : forall mbands bands ebox foot blends orig s,
  NoDup mbands -> NoDup bands -> incl bands mbands -> NoDup (map (fun os => so_id (snd os)) (all_sources blends)) ->
  (forall ob sr, In (ob, sr) (all_sources blends) -> ob_bands ob = mbands /\ kernel_fits ob /\ inside ob sr /\ nonnegative ob sr) ->
  (forall ob sr x y, In (ob, sr) (all_sources blends) -> in_box (ob_box ob) x y ->
     (exists band, In band mbands /\ full_model_at ob sr band x y <> 0%Qc) ->
     exists bx pks, foot (so_id sr) = Some (bx, pks) /\ in_box bx x y) ->
  scarlet_subtractor mbands bands ebox foot blends orig = Ok s ->
  forall band x y, In band bands ->
  s_cur Qc s band x y
  = (orig band x y - qcsum (map (fun os => full_model_at (fst os) (snd os) band x y)
       (filter (fun os => in_boxb (ob_box (fst os)) x y) (all_sources blends))))%Qc.
Proof. exact subtracted_full. Qed.
Print Assumptions C106_subtracted_partial.

(** Two blends with a source each. *)
Definition ex_source2 : source :=
  mkSource 7 (Some (mkBox 5 5 5 5)) (fun band x y => q 16 1) None (fun _ _ _ => q 0 1).
Definition ex_obs1 : observation := ex_observation (Some (mkBox 1 1 6 6)).
Definition ex_obs2 : observation := ex_observation (Some (mkBox 4 4 9 9)).
Definition ex_foot (id : Z) : option (box * list (Z * Z)) :=
  if id =? 5 then Some (Some (mkBox 1 1 4 4), [(2, 2)]) else if id =? 7 then Some (Some (mkBox 4 4 6 6), [(5, 5)]) else None.
Definition ex_blends : list blend := [(ex_obs1, [ex_source]); (ex_obs2, [ex_source2])].
Definition ex_orig : images Qc := fun band x y => q (100 * x + y) 1.
Definition ex_whole : box := Some (mkBox 0 0 9 9).
Lemma far_zero : forall ob s band x y, kernel_fits ob ->
  (forall i j, - fst (ob_half ob) <= i <= fst (ob_half ob) -> - snd (ob_half ob) <= j <= snd (ob_half ob) -> ~ in_box (so_box s) (x - i) (y - j)) ->
  full_model_at ob s band x y = 0%Qc.
Proof.
  intros ob s band x y K F. unfold full_model_at, convolution. apply qcsum_zero. intros v Hv.
  apply (convolution_terms (fst (ob_half ob)) (snd (ob_half ob)) (ob_kernel ob band)
    (fun x y => if in_boxb (so_box s) x y then so_model s band x y else 0%Qc)) in Hv. destruct Hv as (i & j & Hi & Hj & ->).
  destruct (in_boxb (so_box s) (x - i) (y - j)) eqn:E; [|ring]. exfalso. apply in_boxb_spec in E. now apply (F i j).
Qed.
Example C106_example : exists s,
  scarlet_subtractor ["g"; "r"] ["g"; "r"] ex_whole ex_foot ex_blends ex_orig = Ok s /\
  this (s_cur Qc s "r" 2 2) = 196%Q /\ this (s_cur Qc s "g" 4 3) = 400%Q /\ this (s_cur Qc s "g" 5 5) = 497%Q /\
  NoDup (map (fun os => so_id (snd os)) (all_sources ex_blends)) /\
  (forall ob sr, In (ob, sr) (all_sources ex_blends) ->
     ob_bands ob = ["g"; "r"] /\ kernel_fits ob /\ inside ob sr /\ nonnegative ob sr) /\
  (forall ob sr x y, In (ob, sr) (all_sources ex_blends) -> in_box (ob_box ob) x y ->
     (exists band, In band ["g"; "r"] /\ full_model_at ob sr band x y <> 0%Qc) ->
     exists bx pks, ex_foot (so_id sr) = Some (bx, pks) /\ in_box bx x y).
Proof.
  eexists. split; [reflexivity|]. split; [vm_compute; reflexivity|]. split; [vm_compute; reflexivity|]. split; [vm_compute; reflexivity|].
  split; [repeat constructor; cbn; intuition discriminate|].
  assert (F : forall ob sr, In (ob, sr) (all_sources ex_blends) ->
     ob_bands ob = ["g"; "r"] /\ kernel_fits ob /\ inside ob sr /\ nonnegative ob sr).
  { intros ob sr [E|[E|[]]]; injection E as <- <-; (split; [reflexivity|]; split; [apply ex_fits|]).
    - split; [intros x y; cbn; lia | apply ex_nonneg].
    - split; [intros x y; cbn; lia|]. split; [exact ex_kernel_nonneg|]. intros band x y _. vm_compute. discriminate. }
  split; [exact F|]. intros ob sr x y Ho O (band & _ & N). destruct (F ob sr Ho) as (_ & K & _ & _).
  destruct Ho as [E|[E|[]]]; injection E as <- <-.
  - do 2 eexists. split; [reflexivity|]. cbn. assert (D : (1 <= x <= 4 /\ 1 <= y <= 4) \/ ~ (1 <= x <= 4 /\ 1 <= y <= 4)) by lia.
    destruct D as [D|D]; [exact D|]. exfalso. apply N. apply far_zero; [exact K|]. cbn. lia.
  - do 2 eexists. split; [reflexivity|]. cbn. assert (D : (4 <= x <= 6 /\ 4 <= y <= 6) \/ ~ (4 <= x <= 6 /\ 4 <= y <= 6)) by lia.
    destruct D as [D|D]; [exact D|]. exfalso. apply N. apply far_zero; [exact K|]. cbn. lia.
Qed.

(** Light of a source outside of the box of its blend stays in the image, and so
    does light outside of the box of its footprint in the catalogue. *)
Theorem C106_wings_refuted :
  let ob := ex_observation (Some (mkBox 2 2 9 9)) in
  exists s, scarlet_subtractor ["g"; "r"] ["g"; "r"] ex_whole ex_foot [(ob, [ex_source])] ex_orig = Ok s /\
  inside ob ex_source /\ full_model_at ob ex_source "r" 1 2 <> 0%Qc /\ s_cur Qc s "r" 1 2 = ex_orig "r" 1 2.
Proof.
  cbv zeta. eexists. split; [reflexivity|]. split; [intros x y; cbn; lia|]. split.
  - intros H. apply (f_equal this) in H. vm_compute in H. discriminate H.
  - apply Qc_is_canon. vm_compute. reflexivity.
Qed.
Print Assumptions C106_wings_refuted.
Definition small_foot (id : Z) : option (box * list (Z * Z)) := Some (Some (mkBox 2 2 3 3), [(2, 2)]).
Theorem C106_catalogue_box_refuted :
  exists s, scarlet_subtractor ["g"; "r"] ["g"; "r"] ex_whole small_foot [(ex_big, [ex_source])] ex_orig = Ok s /\
  full_model_at ex_big ex_source "r" 1 2 <> 0%Qc /\ s_cur Qc s "r" 1 2 = ex_orig "r" 1 2.
Proof.
  eexists. split; [reflexivity|]. split.
  - intros H. apply (f_equal this) in H. vm_compute in H. discriminate H.
  - apply Qc_is_canon. vm_compute. reflexivity.
Qed.
Print Assumptions C106_catalogue_box_refuted.
