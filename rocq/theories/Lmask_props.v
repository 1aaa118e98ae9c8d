(** Property C66: the edge and bright object masks of exposures. *)
From Coq Require Import ZArith Reals List String Bool Lia Lra.
From Verif Require Import Base Arr Dict Masking_model Masking_spec Masking_proofs Lmask_model Lmask_spec Lmask_proofs.
Import ListNotations.
Local Open Scope string_scope.
Local Open Scope Z_scope.

(** C66: the edge mask always succeeds. In every band of the data and of the
    noise the image is multiplied by the edge factor, and exactly where that is
    below one the variance is infinite, the bit is set, the masked fraction is one
    and the or-masks have the bit; nothing else changes. *)
Theorem C66_edge : forall r c edge w, world_ok r c w ->
  exists w', apply_edge edge w = Ok w' /\ masked_world r c (edge_factor (3 / 2) r c) edge (fun _ _ => 0) w w'.
Proof. exact edge_spec. Qed.
Print Assumptions C66_edge.

(** C66: the factor is below one exactly within nine pixels of the edge. *)
Theorem C66_edge_where : forall r c i j, 0 <= i < r -> 0 <= j < c ->
  (0 <= edge_factor (3 / 2) r c i j <= 1)%R /\
  ((edge_factor (3 / 2) r c i j < 1)%R <-> edge_distance r c i j < 9).
Proof. exact edge_where. Qed.
Print Assumptions C66_edge_where.

(** C66: the bright object masks always succeed. The factor is the product of the
    objects' kernels; the expanded bit is added to data, noise and or-masks exactly
    within sixteen pixels of an object's circle. *)
Theorem C66_bright : forall wcs xy0 info bright bright_expanded r c w,
  (forall b, In b info -> (0 <= br_rad b)%R) -> world_ok r c w ->
  exists w' extra, apply_bright wcs xy0 info bright bright_expanded w = Ok w' /\
    masked_world r c (fun i j => cat_factor (3 / 2) (map (circle_of wcs xy0) info) i j) bright extra w w' /\
    forall i j, 0 <= i < r -> 0 <= j < c ->
      (within_circle 16 wcs xy0 info i j -> extra i j = bright_expanded) /\
      (~ within_circle 16 wcs xy0 info i j -> extra i j = 0).
Proof.
  intros wcs xy0 info bright be r c w H W. destruct (bright_spec wcs xy0 info bright be r c w H W) as (w' & extra & E & M & X).
  exists w', extra. split; [exact E|]. split; [exact M|]. intros i j Hi Hj. destruct (X i j Hi Hj) as [X1 X2].
  assert (Y : (exists h, In h (grow EXPAND_RAD (map (local_hole wcs xy0) info)) /\ covers h i j) <-> within_circle 16 wcs xy0 info i j).
  { unfold grow. split.
    - intros (h & Hh & C). apply in_map_iff in Hh. destruct Hh as (h0 & <- & Hh). apply in_map_iff in Hh. destruct Hh as (b & <- & Hb).
      exists b. split; [exact Hb|exact C].
    - intros (b & Hb & C). eexists. split; [apply in_map, in_map; exact Hb|exact C]. }
  split; intro N; [apply X1; now apply Y|apply X2; intro Z; apply N; now apply Y].
Qed.
Print Assumptions C66_bright.

(** C66: the factor is below one exactly inside the circle of some object, which
    is centred at its position in the exposure's own pixel coordinates. *)
Theorem C66_bright_where : forall wcs xy0 info i j,
  let x := fun b => (fst (wcs (br_ra b) (br_dec b)) - IZR (fst xy0))%R in
  let y := fun b => (snd (wcs (br_ra b) (br_dec b)) - IZR (snd xy0))%R in
  let a := cat_factor (3 / 2) (map (circle_of wcs xy0) info) i j in
  (0 <= a <= 1)%R /\
  ((a < 1)%R <-> exists b, In b info /\ (sqrt ((x b - IZR j) ^ 2 + (y b - IZR i) ^ 2) < br_rad b)%R).
Proof.
  intros wcs xy0 info i j x y a. destruct (cat_factor_spec AP_RAD (map (local_hole wcs xy0) info) i j ap_rad_pos) as [A B].
  split; [exact A|]. unfold a. rewrite B. unfold covers, dist. split.
  - intros [h [Hh L]]. apply in_map_iff in Hh. destruct Hh as [b [<- Hb]]. exists b. split; [exact Hb|].
    cbn [local_hole h_x h_y h_r] in L. exact L.
  - intros [b [Hb L]]. exists (local_hole wcs xy0 b). split; [apply in_map; exact Hb|].
    cbn [local_hole h_x h_y h_r]. exact L.
Qed.
Print Assumptions C66_bright_where.

(** C66: no bands, or a band missing from the noise or the masked fractions. *)
Theorem C66_errors : forall edge wcs xy0 info bit ebit w,
  (w_exp w = [] -> apply_edge edge w = Raise IndexError /\ apply_bright wcs xy0 info bit ebit w = Raise IndexError) /\
  (forall b b0 e0 rest, w_exp w = (b0, e0) :: rest -> 0 < nr (e_image e0) -> 0 < nc (e_image e0) -> In b (skeys (w_exp w)) ->
    ((exists d, w_noise w = Some d /\ ~ In b (skeys d)) \/ (exists d, w_mfrac w = Some d /\ ~ In b (skeys d))) ->
    apply_edge edge w = Raise KeyError).
Proof.
  intros edge wcs xy0 info bit ebit w. split.
  - intros H. unfold apply_edge, apply_bright, first_exp. rewrite H. split; reflexivity.
  - intros b b0 e0 rest E. apply edge_missing. unfold first_exp. now rewrite E.
Qed.
Print Assumptions C66_errors.

(** Two bands of 20 by 25 pixels with noise in both and masked fractions; an object
    of radius 3. The corner is masked, the centre is not. *)
Definition exp20 (v : R) := mkExp (ifill 20 25 v) (ifill 20 25 (Some 1%R)) (ifill 20 25 4).
Definition world20 := mkWorld [("g", exp20 1); ("r", exp20 2)] (Some [("r", exp20 3); ("g", exp20 4)])
  (Some [("g", ifill 20 25 0%R); ("r", ifill 20 25 0%R)]) (Some [ifill 20 25 0; ifill 20 25 1]).
Lemma C66_world20 : world_ok 20 25 world20.
Proof.
  assert (S : forall v, exp_shape 20 25 (exp20 v)) by (intros v; repeat split).
  split; [discriminate|]. split; [repeat constructor; cbn; intuition discriminate|]. split; [|split; [|split]].
  - intros b e [H|[H|[]]]; inversion H; apply S.
  - intros d H. inversion H; subst. split; [intros x; cbn; intuition|]. split; [repeat constructor; cbn; intuition discriminate|].
    intros b e [H0|[H0|[]]]; inversion H0; apply S.
  - intros d H. inversion H; subst. split; [intros x; cbn; intuition|]. split; [repeat constructor; cbn; intuition discriminate|].
    intros b e [H0|[H0|[]]]; inversion H0; split; reflexivity.
  - intros l H. inversion H; subst. intros m [<-|[<-|[]]]; split; reflexivity.
Qed.
Example C66_example : exists w' n,
  apply_edge 8 world20 = Ok w' /\ w_noise w' = Some n /\
  (forall e, sget "r" n = Some e -> px (e_mask e) 0 0 = 12 /\ px (e_var e) 0 0 = None /\ px (e_mask e) 10 12 = 4 /\ px (e_image e) 10 12 = 3%R) /\
  exists e, sget "r" n = Some e.
Proof.
  destruct (C66_edge 20 25 8 world20 C66_world20) as [w' [E [_ [M _]]]].
  destruct (w_noise w') as [n|] eqn:En; [|destruct M]. exists w', n. split; [exact E|]. split; [exact En|].
  cbn in M. destruct M as [_ [M _]]. destruct (M "r" (exp20 3)) as [e [Ee Me]]; [cbn; auto|reflexivity|]. split; [|eauto].
  intros e1 E1. rewrite Ee in E1. apply Some_inj in E1. subst e1. destruct Me as [_ Me].
  destruct (Me 0 0) as [_ [A _]]; [lia|lia|]. destruct (Me 10 12) as [B0 [_ B]]; [lia|lia|].
  destruct (C66_edge_where 20 25 0 0) as [_ W0]; [lia|lia|]. destruct (C66_edge_where 20 25 10 12) as [Rg W1]; [lia|lia|].
  destruct (A (proj2 W0 ltac:(vm_compute; reflexivity))) as [A1 A2].
  assert (N : ~ (edge_factor (3 / 2) 20 25 10 12 < 1)%R) by (intros X; apply W1 in X; vm_compute in X; discriminate).
  destruct (B N) as [B1 B2]. repeat split; [exact A2|exact A1|exact B2|].
  rewrite B0. assert (Y : edge_factor (3 / 2) 20 25 10 12 = 1%R) by lra. rewrite Y. cbn. lra.
Qed.
Example C66_bright_example : forall wcs, exists w' extra,
  apply_bright wcs (5, 7) [mkBright 1 2 3] 16 32 world20 = Ok w' /\
  masked_world 20 25 (fun i j => cat_factor (3 / 2) (map (circle_of wcs (5, 7)) [mkBright 1 2 3]) i j) 16 extra world20 w'.
Proof.
  intros wcs. destruct (C66_bright wcs (5, 7) [mkBright 1 2 3] 16 32 20 25 world20) as [w' [ex [E [M _]]]].
  - intros b [<-|[]]. cbn. lra.
  - exact C66_world20.
  - eauto.
Qed.
