(** C42, C43, C45. *)
From Coq Require Import ZArith QArith Lqa Lia List String Bool.
From Verif Require Import Base Arr Median Flags_model Detect_spec Coadd_model Coadd_spec Coadd_proofs.
Import ListNotations.
Local Open Scope Z_scope.

(** C42: the coadd of two or more shear bands. With the medians of the positive
    weights as averaging weights: image, masked fraction, noise and PSF image
    are the weighted means, masks are the OR, and the weight is the inverse of
    the variance of the mean, zero exactly where an input weight is zero, and
    never above the sum of the input weights. *)
Theorem C42_coadd : forall mb s0 s1 sb o0 o1 obs' co,
  let obs := o0 :: o1 :: obs' in
  zlen mb <> 1 -> sb_valid mb (s0 :: s1 :: sb) obs ->
  make_coadd_obs mb (s0 :: s1 :: sb) = Ok (Some co, 0) ->
  exists ws, Forall2 (fun o w => positive_median (f_weight o) w) obs ws /\ (forall w, In w ws -> 0 < w)%Q /\
    nr (f_image co) = nr (f_image o0) /\ nc (f_image co) = nc (f_image o0) /\
    nr (f_weight co) = nr (f_weight o0) /\ nc (f_weight co) = nc (f_weight o0) /\ f_jac co = f_jac o0 /\
    (forall i j, px (f_image co) i j == wavg (fun o => px (f_image o) i j) obs ws)%Q /\
    (forall i j, (forall o, In o obs -> 0 <= px (f_weight o) i j)%Q ->
       ((exists o, In o obs /\ (px (f_weight o) i j == 0)%Q) -> px (f_weight co) i j = 0%Q) /\
       ((forall o, In o obs -> 0 < px (f_weight o) i j)%Q ->
          (0 < px (f_weight co) i j)%Q /\ (px (f_weight co) i j == 1 / mean_variance obs ws i j)%Q /\
          (px (f_weight co) i j <= qsum (map (fun o => px (f_weight o) i j) obs))%Q)) /\
    mean_of_plane f_mfrac obs ws (f_mfrac co) /\ mean_of_plane f_noise obs ws (f_noise co) /\
    or_of_plane f_bmask obs (f_bmask co) /\ or_of_plane f_ormask obs (f_ormask co) /\
    exists p, f_psf co = Some p /\
      forall i j, (px (p_image p) i j ==
        wavg (fun o => match f_psf o with Some q => px (p_image q) i j | None => 0 end) obs ws)%Q.
Proof. exact coadd_contents. Qed.
Print Assumptions C42_coadd.

(** C42: per pixel a convex combination; in particular the common value where
    all inputs agree. *)
Theorem C42_convex : forall mb s0 s1 sb o0 o1 obs' co,
  let obs := o0 :: o1 :: obs' in
  zlen mb <> 1 -> sb_valid mb (s0 :: s1 :: sb) obs ->
  make_coadd_obs mb (s0 :: s1 :: sb) = Ok (Some co, 0) ->
  forall i j lo hi, (forall o, In o obs -> lo <= px (f_image o) i j /\ px (f_image o) i j <= hi)%Q ->
    (lo <= px (f_image co) i j /\ px (f_image co) i j <= hi)%Q.
Proof. exact coadd_mean_between. Qed.
Print Assumptions C42_convex.

(** C42: with one shear band its own observation is returned. *)
Theorem C42_single_band : forall mb s o, sb_valid mb [s] [o] ->
  make_coadd_obs mb [s] = Ok (Some o, 0).
Proof. exact coadd_single. Qed.
Print Assumptions C42_single_band.

(** C43: exactly when the coadd of two or more existing shear bands fails, and
    with which flag. The four cases are exhaustive for non-negative weights. *)
Theorem C43_outcomes : forall mb s0 s1 sb o0 o1 obs',
  let obs := o0 :: o1 :: obs' in let w0 := f_weight o0 in
  zlen mb <> 1 -> sb_valid mb (s0 :: s1 :: sb) obs ->
  (forall o i j, In o obs -> inside w0 i j -> 0 <= px (f_weight o) i j)%Q ->
  (forall o, In o obs -> nr (f_weight o) = nr w0 /\ nc (f_weight o) = nc w0) ->
  let compat := forall o, In o (o1 :: obs') -> compatible o0 o in
  let common := exists i j, inside w0 i j /\ forall o, In o obs -> (0 < px (f_weight o) i j)%Q in
  let nowhere := forall i j, inside w0 i j -> exists o, In o obs /\ (px (f_weight o) i j == 0)%Q in
  let planes := all_or_none f_mfrac obs /\ all_or_none f_noise obs /\ all_or_none f_bmask obs /\ all_or_none f_ormask obs in
  let res := make_coadd_obs mb (s0 :: s1 :: sb) in
  (~ compat -> res = Ok (None, flag_value INCONSISTENT_BANDS)) /\
  (compat -> nowhere -> res = Ok (None, flag_value ZERO_WEIGHTS)) /\
  (compat -> common -> ~ planes -> res = Ok (None, flag_value INCONSISTENT_BANDS)) /\
  (compat -> common -> planes -> exists co, res = Ok (Some co, 0)).
Proof. exact coadd_exact. Qed.
Print Assumptions C43_outcomes.

(** C43: shear bands that are not there are reported... *)
Theorem C43_missing_band : forall mb sb, (2 <= List.length sb)%nat -> zlen mb <> 1 ->
  (exists s, In s sb /\ zlen mb <= s) -> make_coadd_obs mb sb = Ok (None, flag_value INCONSISTENT_BANDS).
Proof. exact coadd_missing_band. Qed.
Print Assumptions C43_missing_band.

Theorem C43_missing_single : forall mb s, zlen mb <= s -> 0 < zlen mb ->
  make_coadd_obs mb [s] = Ok (None, flag_value INCONSISTENT_BANDS).
Proof. exact coadd_missing_single. Qed.
Print Assumptions C43_missing_single.

(** ... except that with one input band only the first requested band is looked
    at: asking for bands 0 and 5 of a one band object is accepted. *)
Theorem C43_one_band_unchecked_refuted : exists mb sb s,
  In s sb /\ zlen mb <= s /\ exists o, make_coadd_obs mb sb = Ok (Some o, 0).
Proof.
  set (o := mkFobs (ifill 1 1 0%Q) (ifill 1 1 1%Q) 0 None None None None None).
  exists [[o]], [0; 5], 5. split; [right; now left|]. split; [cbn; lia|]. exists o. reflexivity.
Qed.
Print Assumptions C43_one_band_unchecked_refuted.
(** What happens instead, for every one band object: the first requested band decides
    and the others are not looked at. *)
Theorem C43_one_band : forall o ol s0 sb,
  make_coadd_obs [o :: ol] (s0 :: sb) = if s0 =? 0 then Ok (Some o, 0) else Ok (None, flag_value INCONSISTENT_BANDS).
Proof. intros o ol s0 sb. unfold make_coadd_obs. cbn. destruct (s0 =? 0); reflexivity. Qed.
Print Assumptions C43_one_band.

Definition ex_psf (v : Q) := Some (mkPsf (ifill 3 3 v) (ifill 3 3 1%Q) 7).
Definition ex_a := mkFobs (ifill 2 2 4%Q) (ifill 2 2 1%Q) 5 (ex_psf 1) (Some (ifill 2 2 (1 # 2)%Q)) None
  (Some (ifill 2 2 1)) None.
Definition ex_b := mkFobs (ifill 2 2 8%Q) (mkImg 2 2 (fun i j => if (i =? 0) && (j =? 0) then 0 else 3)%Q) 5 (ex_psf 3)
  (Some (ifill 2 2 0%Q)) None (Some (ifill 2 2 2)) None.
Definition ex_mb := [[ex_a]; [ex_b]; []].
Example C42_example : exists co, make_coadd_obs ex_mb [1; 0] = Ok (Some co, 0) /\
  zlen ex_mb <> 1 /\ sb_valid ex_mb [1; 0] [ex_b; ex_a] /\
  (px (f_image co) 1 1 == 7)%Q /\ (px (f_weight co) 0 0 == 0)%Q /\ (px (f_weight co) 1 1 == 4)%Q /\
  match f_bmask co with Some m => px m 0 0 = 3 | None => False end.
Proof.
  eexists. split; [reflexivity|]. split; [discriminate|]. split.
  { repeat constructor; cbn; try lia; eexists; split; reflexivity. }
  repeat split; vm_compute; reflexivity.
Qed.

(** C45: for a square weight map, a weight is positive after symmetrization
    exactly when its whole four-fold orbit was positive, and is then unchanged. *)
Theorem C45_positive_orbit : forall o o', nr (f_weight o) = nc (f_weight o) ->
  symmetrize_obs_weights o = Ok o' -> forall i j, inside (f_weight o) i j ->
  ((0 < px (f_weight o') i j)%Q <->
   forall k l, orbit (nr (f_weight o)) i j k l -> (0 < px (f_weight o) k l)%Q) /\
  ((forall k l, orbit (nr (f_weight o)) i j k l -> (0 < px (f_weight o) k l)%Q) ->
   px (f_weight o') i j = px (f_weight o) i j).
Proof. exact sym_positive. Qed.
Print Assumptions C45_positive_orbit.

(** C45: for non-negative weights it is zero exactly when some pixel of the
    orbit was not positive. *)
Theorem C45_zero_orbit : forall o o', nr (f_weight o) = nc (f_weight o) ->
  (forall i j, inside (f_weight o) i j -> 0 <= px (f_weight o) i j)%Q ->
  symmetrize_obs_weights o = Ok o' -> forall i j, inside (f_weight o) i j ->
  ((px (f_weight o') i j == 0)%Q <->
   exists k l, orbit (nr (f_weight o)) i j k l /\ (px (f_weight o) k l <= 0)%Q).
Proof. exact sym_zero. Qed.
Print Assumptions C45_zero_orbit.

(** C45: the pattern of positive weights is unchanged by a quarter turn. *)
Theorem C45_symmetric : forall o o', nr (f_weight o) = nc (f_weight o) ->
  symmetrize_obs_weights o = Ok o' -> forall i j, inside (f_weight o) i j ->
  ((0 < px (f_weight o') i j)%Q <-> (0 < px (rot90 (f_weight o')) i j)%Q).
Proof. exact sym_pattern_invariant. Qed.
Print Assumptions C45_symmetric.

(** C45: repeating it changes nothing (non-negative weights). *)
Theorem C45_idempotent : forall o o' o'', nr (f_weight o) = nc (f_weight o) ->
  (forall i j, inside (f_weight o) i j -> 0 <= px (f_weight o) i j)%Q ->
  symmetrize_obs_weights o = Ok o' -> symmetrize_obs_weights o' = Ok o'' ->
  forall i j, inside (f_weight o) i j -> (px (f_weight o'') i j == px (f_weight o') i j)%Q.
Proof. exact sym_idempotent. Qed.
Print Assumptions C45_idempotent.

(** C45: it always succeeds on square maps, changes only the weights, and fails
    on other shapes with a non-positive weight. *)
Theorem C45_total : forall o, nr (f_weight o) = nc (f_weight o) ->
  exists o', symmetrize_obs_weights o = Ok o' /\ nr (f_weight o') = nr (f_weight o) /\ nc (f_weight o') = nc (f_weight o) /\
    f_image o' = f_image o /\ f_jac o' = f_jac o /\ f_psf o' = f_psf o /\ f_mfrac o' = f_mfrac o /\
    f_noise o' = f_noise o /\ f_bmask o' = f_bmask o /\ f_ormask o' = f_ormask o.
Proof.
  intros o H. destruct (sym_total o H) as [o' E]. exists o'. split; [assumption|].
  destruct (sym_formula o o' H E) as [E1 [E2 _]]. split; [assumption|]. split; [assumption|].
  now apply sym_other_planes.
Qed.
Print Assumptions C45_total.

Theorem C45_not_square_raises : forall o, nr (f_weight o) <> nc (f_weight o) ->
  (exists i j, inside (f_weight o) i j /\ (px (f_weight o) i j <= 0)%Q) ->
  symmetrize_obs_weights o = Raise IndexError.
Proof. exact sym_not_square. Qed.
Print Assumptions C45_not_square_raises.

(** An isolated negative weight is kept as it is. *)
Theorem C45_negative_kept_refuted : exists o o' i j, nr (f_weight o) = nc (f_weight o) /\
  inside (f_weight o) i j /\ symmetrize_obs_weights o = Ok o' /\
  (px (f_weight o) i j < 0)%Q /\ (px (f_weight o') i j < 0)%Q.
Proof.
  set (o := mkFobs (ifill 2 2 0%Q) (mkImg 2 2 (fun i j => if (i =? 0) && (j =? 0) then -1 else 1)%Q) 0
      None None None None None).
  exists o. eexists. exists 0, 0. split; [reflexivity|]. split; [unfold inside; cbn; lia|].
  split; [reflexivity|]. split; reflexivity.
Qed.
Print Assumptions C45_negative_kept_refuted.

Example C45_example : exists o', symmetrize_obs_weights ex_b = Ok o' /\
  (px (f_weight o') 1 1 == 0 /\ px (f_weight o') 0 1 == 0)%Q.
Proof. eexists. split; [reflexivity|]. split; vm_compute; reflexivity. Qed.
