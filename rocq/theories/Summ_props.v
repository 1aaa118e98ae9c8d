(** C24-C26. *)
From Coq Require Import ZArith QArith Qabs Lqa Lia List String Bool.
From Verif Require Import Base Arr Median Flags_model Detect_spec Summ_model Summ_spec Summ_proofs.
Import ListNotations.
Local Open Scope Z_scope.

(** C24: with a positive weight somewhere, the masked fraction is at every pixel
    the mean of the bands' values weighted by the medians of their positive
    weights (0 for a band without any); otherwise it is 1 everywhere. *)
Theorem C24_weighted_mean : forall o0 rest, let obs := o0 :: rest in
  exists im ws, get_mfrac (map (fun o => [o]) obs) = Ok im /\
    nr im = nr (so_weight o0) /\ nc im = nc (so_weight o0) /\
    Forall2 weight_of obs ws /\ (forall w, In w ws -> 0 <= w)%Q /\
    ((exists o i j, In o obs /\ inside (so_weight o) i j /\ (0 < px (so_weight o) i j)%Q) ->
      (0 < qsum ws)%Q /\ forall i j, (px im i j == mean_mfrac obs ws i j)%Q) /\
    ((forall o i j, In o obs -> inside (so_weight o) i j -> (px (so_weight o) i j <= 0)%Q) ->
      forall i j, px im i j = 1%Q).
Proof. exact mfrac_mean. Qed.
Print Assumptions C24_weighted_mean.

(** C24: the value is between the smallest and the largest value among the bands
    that have a positive weight. *)
Theorem C24_between : forall obs im lo hi i j,
  (exists o k l, In o obs /\ inside (so_weight o) k l /\ (0 < px (so_weight o) k l)%Q) ->
  get_mfrac (map (fun o => [o]) obs) = Ok im ->
  (forall o, In o obs -> (exists k l, inside (so_weight o) k l /\ (0 < px (so_weight o) k l)%Q) ->
     lo <= mfrac_at o i j /\ mfrac_at o i j <= hi)%Q ->
  (lo <= px im i j /\ px im i j <= hi)%Q.
Proof. exact mfrac_between. Qed.
Print Assumptions C24_between.

Theorem C24_unit_interval : forall obs im i j, obs <> [] ->
  get_mfrac (map (fun o => [o]) obs) = Ok im ->
  (forall o mf, In o obs -> so_mfrac o = Some mf -> 0 <= px mf i j /\ px mf i j <= 1)%Q ->
  (0 <= px im i j /\ px im i j <= 1)%Q.
Proof. exact mfrac_unit. Qed.
Print Assumptions C24_unit_interval.

(** C24: rescaling all weights changes nothing. *)
Theorem C24_scale_invariant : forall c obs, (0 < c)%Q -> obs <> [] ->
  exists im im', get_mfrac (map (fun o => [o]) obs) = Ok im /\
    get_mfrac (map (fun o => [o]) (map (scale_obs c) obs)) = Ok im' /\
    nr im = nr im' /\ nc im = nc im' /\ forall i j, (px im i j == px im' i j)%Q.
Proof. exact mfrac_scale. Qed.
Print Assumptions C24_scale_invariant.

(** C24: without masked fraction planes (and with a usable band) it is 0. *)
Theorem C24_no_planes : forall obs im i j,
  (exists o k l, In o obs /\ inside (so_weight o) k l /\ (0 < px (so_weight o) k l)%Q) ->
  (forall o, In o obs -> so_mfrac o = None) ->
  get_mfrac (map (fun o => [o]) obs) = Ok im -> (px im i j == 0)%Q.
Proof.
  intros obs im i j Hu Hn H. destruct (mfrac_between obs im 0 0 i j Hu H) as [H1 H2].
  - intros o Ho _. unfold mfrac_at. rewrite (Hn o Ho). lra.
  - lra.
Qed.
Print Assumptions C24_no_planes.

(** C24: it only ever succeeds on bands with exactly one epoch. *)
Theorem C24_one_epoch : forall mb im, get_mfrac mb = Ok im ->
  exists obs, obs <> [] /\ mb = map (fun o => [o]) obs.
Proof. exact mfrac_epochs. Qed.
Print Assumptions C24_one_epoch.

Definition ex_o1 := mkSobs (mkImg 2 2 (fun i j => if (i =? 0) && (j =? 0) then -1 else inject_Z (1 + i))%Q)
  (Some (ifill 2 2 (1 # 2)%Q)) (ifill 2 2 1) (ifill 2 2 4).
Definition ex_o2 := mkSobs (ifill 2 2 0%Q) (Some (ifill 2 2 1%Q)) (ifill 2 2 2) (ifill 2 2 0).
Definition ex_o3 := mkSobs (ifill 2 2 6%Q) None (ifill 2 2 2) (ifill 2 2 8).

Example C24_example : exists im, get_mfrac [[ex_o1]; [ex_o2]; [ex_o3]] = Ok im /\
  (px im 1 1 == 1 # 8)%Q /\ (exists o k l, In o [ex_o1; ex_o2; ex_o3] /\ inside (so_weight o) k l /\
      (0 < px (so_weight o) k l)%Q).
Proof.
  eexists. split; [reflexivity|]. split; [vm_compute; reflexivity|].
  exists ex_o1, 1, 1. split; [now left|]. unfold inside; cbn. repeat split; lia || reflexivity.
Qed.

(** Combined masks: the OR over the bands, bit by bit. *)
Theorem C25_combined_masks : forall o0 rest, let obs := o0 :: rest in
  exists om bm, get_ormask_and_bmask (map (fun o => [o]) obs) = Ok (om, bm) /\
    nr om = nr (so_ormask o0) /\ nc om = nc (so_ormask o0) /\
    nr bm = nr (so_bmask o0) /\ nc bm = nc (so_bmask o0) /\
    forall i j n,
    (Z.testbit (px om i j) n = true <-> exists o, In o obs /\ Z.testbit (px (so_ormask o) i j) n = true) /\
    (Z.testbit (px bm i j) n = true <-> exists o, In o obs /\ Z.testbit (px (so_bmask o) i j) n = true).
Proof. exact combined_masks. Qed.
Print Assumptions C25_combined_masks.

(** C25: for region above 1, bit n of the column is set exactly when some image
    pixel within [reg] of the pixel nearest to the position has it. *)
Theorem C25_window_or : forall reg row col mask, 1 < reg -> 0 < nr mask -> 0 < nc mask ->
  exists r c v, nearest_pixel (nr mask) row r /\ nearest_pixel (nc mask) col c /\
    fill_in_mask reg row col mask = Ok v /\
    forall n, Z.testbit v n = true <-> window_bit mask reg r c n.
Proof. exact fill_in_window. Qed.
Print Assumptions C25_window_or.

(** C25: otherwise the value of the pixel nearest to the position. *)
Theorem C25_single_pixel : forall reg row col mask, reg <= 1 -> 0 < nr mask -> 0 < nc mask ->
  exists r c, nearest_pixel (nr mask) row r /\ nearest_pixel (nc mask) col c /\
    fill_in_mask reg row col mask = Ok (px mask r c).
Proof. exact fill_in_pixel. Qed.
Print Assumptions C25_single_pixel.

(** C25: the column never fails, one value per object. *)
Theorem C25_total : forall reg pos mask, 0 < nr mask -> 0 < nc mask ->
  exists vs, fill_in_mask_col reg pos mask = Ok vs /\ List.length vs = List.length pos /\
    Forall2 (fun rc v => fill_in_mask reg (fst rc) (snd rc) mask = Ok v) pos vs.
Proof. exact fill_col_total. Qed.
Print Assumptions C25_total.

(** C25: rounding goes to the nearest pixel, half way to the even one. *)
Theorem C25_rounding : forall x n, 0 < n ->
  nearest_pixel n x (clip_and_round x n) /\
  (0 <= qrint x < n -> (Qabs (x - inject_Z (clip_and_round x n)) == 1 # 2)%Q ->
     Z.even (clip_and_round x n) = true).
Proof.
  intros x n Hn. split; [now apply clip_nearest|]. intros Hq.
  assert (E : clip_and_round x n = qrint x) by (unfold clip_and_round; lia).
  rewrite E. apply qrint_even.
Qed.
Print Assumptions C25_rounding.

Definition ex_mask : img Z := mkImg 10 8 (fun i j => if (i =? 3) && (j =? 7) then 5 else if i =? 6 then 2 else 0).
Example C25_example :
  fill_in_mask 2 (9 # 2) 20 ex_mask = Ok 7 /\ fill_in_mask 2 (7 # 2) (-3) ex_mask = Ok 2 /\
  fill_in_mask 1 (5 # 2) 20 ex_mask = Ok 0 /\ fill_in_mask 1 (27 # 8) 20 ex_mask = Ok 5.
Proof. repeat split; vm_compute; reflexivity. Qed.

(** C26: with a zero global flag and a result for each observation, the columns
    are the means weighted by the largest weight of each observation, with flag
    0; without total weight PSF_FAILURE and no values. *)
Theorem C26_weighted_means : forall mbobs vals, Forall2 psf_values (List.concat mbobs) vals ->
  let ws := map po_maxw (List.concat mbobs) in
  exists s, get_psf_stats mbobs 0 = Ok s /\
    ((0 < qsum ws)%Q -> exists g1 g2 T, s = mkStats 0 (Some g1) (Some g2) (Some T) /\
        (g1 == wmean ws (map (fun v => fst (fst v)) vals) /\ g2 == wmean ws (map (fun v => snd (fst v)) vals) /\
         T == wmean ws (map snd vals))%Q) /\
    ((qsum ws <= 0)%Q -> s = mkStats (flag_value PSF_FAILURE) None None None).
Proof. exact psf_stats_ok. Qed.
Print Assumptions C26_weighted_means.

(** C26: with a global flag, no values, and exactly its bits and PSF_FAILURE. *)
Theorem C26_global_flag : forall mbobs fl, fl <> 0 ->
  exists s, get_psf_stats mbobs fl = Ok s /\ ps_g1 s = None /\ ps_g2 s = None /\ ps_T s = None /\
    forall n, Z.testbit (ps_flags s) n = true <->
      Z.testbit (flag_value PSF_FAILURE) n = true \/ Z.testbit fl n = true.
Proof. exact psf_stats_flagged. Qed.
Print Assumptions C26_global_flag.

(** C26, from the fits to the columns: if every PSF fit succeeds, the columns of
    the shear bands [sb] (whose observations are [os] and PSF values [vals]) are
    the weighted means; *)
Theorem C26_fits_succeed : forall fit bands sb os vals,
  (forall i, (i < List.length bands)%nat -> pr_flags (fit i) = 0) ->
  Forall2 (fun b o => 0 <= b < zlen bands /\ nth_error bands (Z.to_nat b) = Some o) sb os ->
  Forall2 (fun b v => psf_values (mkPobs 0 (Some (fit (Z.to_nat b)))) v) sb vals ->
  let ws := map po_maxw os in
  exists s, psf_columns fit (map (fun o => [o]) bands) sb = Ok s /\
    ((0 < qsum ws)%Q -> exists g1 g2 T, s = mkStats 0 (Some g1) (Some g2) (Some T) /\
        (g1 == wmean ws (map (fun v => fst (fst v)) vals) /\ g2 == wmean ws (map (fun v => snd (fst v)) vals) /\
         T == wmean ws (map snd vals))%Q) /\
    ((qsum ws <= 0)%Q -> s = mkStats (flag_value PSF_FAILURE) None None None).
Proof. exact psf_columns_ok. Qed.
Print Assumptions C26_fits_succeed.

(** if any band's PSF fit fails (also one that is not a shear band), the columns
    are flagged and hold no values. *)
Theorem C26_fit_fails : forall fit bands sb,
  (exists i, (i < List.length bands)%nat /\ pr_flags (fit i) <> 0) ->
  (forall b, In b sb -> 0 <= b < zlen bands) ->
  exists s, psf_columns fit (map (fun o => [o]) bands) sb = Ok s /\
    ps_g1 s = None /\ ps_g2 s = None /\ ps_T s = None /\ ps_flags s = flag_value PSF_FAILURE.
Proof. exact psf_columns_fail. Qed.
Print Assumptions C26_fit_fails.

(** C26: the PSF fits are reported as successful only when every fit flag is 0
    and every band has one epoch. *)
Theorem C26_fits_reported : forall fit mb mb' k, fit_all_psfs_from fit k mb = (mb', Ok tt) ->
  exists bands, mb = map (fun o => [o]) bands /\
    forall i, (k <= i < k + List.length bands)%nat -> pr_flags (fit i) = 0.
Proof. exact fit_all_epochs. Qed.
Print Assumptions C26_fits_reported.

(** A result without the needed keys is not turned into a flag: KeyError. *)
Theorem C26_missing_keys : forall mbobs o, In o (List.concat mbobs) ->
  (po_result o = None \/ exists r, po_result o = Some r /\ (pr_T r = None \/ (pr_e r = None /\ pr_g r = None))) ->
  get_psf_stats mbobs 0 = Raise KeyError.
Proof. exact psf_stats_keyerror. Qed.
Print Assumptions C26_missing_keys.

Definition ex_fit (k : nat) : psfres :=
  match k with
  | O => mkPsfres 0 (Some (1 # 2)) (Some (1 # 10, 0)%Q) (Some (7, 7)%Q)
  | S O => mkPsfres 0 (Some 2%Q) None (Some (- 1 # 10, 1 # 5)%Q)
  | _ => mkPsfres 0 (Some 9%Q) None (Some (9, 9)%Q)
  end.
Definition ex_bands := [mkPobs 1 None; mkPobs 3 None; mkPobs 5 None].
Example C26_example : exists g1 g2 T,
  psf_columns ex_fit (map (fun o => [o]) ex_bands) [1; 0] = Ok (mkStats 0 (Some g1) (Some g2) (Some T)) /\
  (g1 == - 1 # 20 /\ g2 == 3 # 20 /\ T == 13 # 8)%Q /\
  Forall2 (fun b v => psf_values (mkPobs 0 (Some (ex_fit (Z.to_nat b)))) v) [1; 0]
    [(- 1 # 10, 1 # 5, 2)%Q; (1 # 10, 0, 1 # 2)%Q].
Proof.
  do 3 eexists. split; [vm_compute; reflexivity|]. split; [repeat split; vm_compute; reflexivity|].
  repeat constructor; cbn.
  - exists (ex_fit 1), 2%Q, (- 1 # 10, 1 # 5)%Q. repeat split. right. now split.
  - exists (ex_fit 0), (1 # 2)%Q, (1 # 10, 0)%Q. repeat split. now left.
Qed.
