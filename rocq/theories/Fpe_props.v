(** Theorem for C126: the weighted averages over bands, computed in floating point,
    are as close to the exact averages as a count of their roundings says, for every
    number of bands, every order of the bands and every order of summation. *)
From Coq Require Import ZArith Reals QArith Qreals List Lia Lra Permutation.
From Flocq Require Import Core.
From Verif Require Import Base Arr Median Fp_model Fpe_model Fpe_spec Fpe_proofs.
From Verif Require Detect_model Detect_spec Detect_proofs Detect_props Coadd_model Coadd_spec Coadd_proofs Coadd_props.
Import ListNotations.
Local Open Scope R_scope.

(** The detection image (detect.py). *)
Theorem C126_detection : forall f b order l, bands_ok f b l -> sums_all order ->
  within f (INR (2 * List.length l + 6)) (INR (List.length l)) (all l) (det_pixel f order l).
Proof. exact det_pixel_within. Qed.
Print Assumptions C126_detection.
(** Its noise, for the weights alone. *)
Theorem C126_noise : forall f b order (l : list (R * unit)), bands_ok f b l -> sums_all order ->
  let x := sqrt (1 / rsum (map fst l)) in
  0 < x /\ Rabs (det_noise f order (map fst l) - x) <= 2 * INR (List.length l + 4) * unit_roundoff f * x.
Proof. exact det_noise_within. Qed.
Print Assumptions C126_noise.
(** The coadds of the observations of an object (fitting.py). *)
Theorem C126_coadd : forall f b order l, bands_ok f b l -> sums_all order ->
  within f (INR (2 * List.length l + 2)) (INR (List.length l)) (all l) (coadd_pixel f order l).
Proof. exact coadd_pixel_within. Qed.
Print Assumptions C126_coadd.
(** Their weight map: 1/variance of the average. *)
Theorem C126_coadd_weight : forall f b order l, bands_ok f b l -> sums_all order ->
  (7 * b + Zpos (f_prec f) + 1 <= Zpos (f_tiny f))%Z -> Forall (fun wp => tame f b (snd wp)) l ->
  let x := 1 / mean_var l in
  0 < x /\ Rabs (coadd_weight f order l - x) <= 2 * INR (3 * List.length l + 5) * unit_roundoff f * x.
Proof. exact coadd_weight_within. Qed.
Print Assumptions C126_coadd_weight.
(** The coadd of exposures, with the weights 1/median variance (lsst/util.py). *)
Theorem C126_exposures : forall f b l, bands_ok f b l ->
  within f (INR (2 * List.length l + 5)) (INR (List.length l) * bpow radix2 b + 1) (inverse l) (task_pixel f l).
Proof. exact task_pixel_within. Qed.
Print Assumptions C126_exposures.
(** The masked fraction averaged over bands (metadetect.py, lsst/metadetect.py). *)
Theorem C126_mfrac : forall f b l, bands_ok f b l ->
  within f (INR (2 * List.length l + 2)) (INR (List.length l) * bpow radix2 b + 1) l (band_mean f l).
Proof. exact band_mean_within. Qed.
Print Assumptions C126_mfrac.
Theorem C126_lsst_mfrac : forall f b l, bands_ok f b l ->
  within f (INR (2 * List.length l + 3)) (INR (List.length l) * bpow radix2 b + 1) (all l) (recip_mean f l).
Proof. exact recip_mean_within. Qed.
Print Assumptions C126_lsst_mfrac.
(** The PSF shapes averaged over bands and the masked fraction of a stamp. *)
Theorem C126_psf : forall f b l, bands_ok f b l ->
  within f (INR (2 * List.length l + 2)) (INR (List.length l) * bpow radix2 b + 1) (all l) (pixel_mean f l).
Proof. exact pixel_mean_within. Qed.
Print Assumptions C126_psf.

(** In terms of the largest pixel. *)
Theorem C126_largest : forall f b order l V, bands_ok f b l -> sums_all order -> Forall (fun wv => Rabs (snd wv) <= V) l ->
  let n := INR (List.length l) in
  Rabs (det_pixel f order l - exact_mean (all l)) <= (4 * n + 12) * unit_roundoff f * V + n * least f /\
  Rabs (coadd_pixel f order l - exact_mean (all l)) <= (4 * n + 4) * unit_roundoff f * V + n * least f.
Proof.
  intros f b order l V H O B n.
  assert (N : all l <> []) by (destruct H as [N _]; intro E; apply N; now apply map_eq_nil in E).
  assert (P : Forall (fun wv => 0 < fst wv) (all l)).
  { apply Forall_map. destruct H as (_ & _ & _ & _ & _ & F). eapply Forall_impl; [|exact F]. intros a T. now apply tame_pos in T. }
  assert (B' : Forall (fun wv => Rabs (value (snd wv)) <= V) (all l)) by (apply Forall_map; exact B).
  pose proof (within_bound _ _ _ _ _ V (C126_detection f b order l H O) (pos_INR _) N P B') as D.
  pose proof (within_bound _ _ _ _ _ V (C126_coadd f b order l H O) (pos_INR _) N P B') as C.
  rewrite plus_INR, mult_INR in C, D. change (INR 2) with 2 in C, D. replace (INR 6) with 6 in D by (simpl; ring). fold n in C, D.
  split; [eapply Rle_trans; [exact D|right; ring]|eapply Rle_trans; [exact C|right; ring]].
Qed.
Print Assumptions C126_largest.

(** Two orders of the bands, and two orders of summation, give the same image up to
    twice the bound. *)
Theorem C126_orders : forall f b order order' l l', bands_ok f b l -> Permutation l l' -> sums_all order -> sums_all order' ->
  let n := List.length l in
  Rabs (det_pixel f order l - det_pixel f order' l') <=
    2 * (2 * INR (2 * n + 6) * unit_roundoff f * size_mean (all l) + INR n * least f) /\
  Rabs (coadd_pixel f order l - coadd_pixel f order' l') <=
    2 * (2 * INR (2 * n + 2) * unit_roundoff f * size_mean (all l) + INR n * least f).
Proof.
  intros f b order order' l l' H P O O' n. pose proof (bands_ok_perm _ _ _ _ _ P H) as H'. pose proof (Permutation_length P) as E.
  assert (PA : Permutation (all l) (all l')) by (apply Permutation_map, P).
  pose proof (C126_detection f b order' l' H' O') as D. pose proof (C126_coadd f b order' l' H' O') as C. rewrite <- E in C, D.
  split; [apply (within_two _ _ _ _ _ _ _ PA (C126_detection f b order l H O) D)|apply (within_two _ _ _ _ _ _ _ PA (C126_coadd f b order l H O) C)].
Qed.
Print Assumptions C126_orders.

(** The exact averages are the pixels of the images of C12 and C42. *)
Definition at_pixel {A} (image : A -> img Q) (i j : Z) (bands : list A) (ws : list Q) : list (R * R) :=
  map (fun bw => (Q2R (snd bw), Q2R (px (image (fst bw)) i j))) (combine bands ws).
Theorem C126_detection_image : forall f b order nodet bands, bands <> [] ->
  (forall x, In x bands -> Detect_spec.usable x) -> sums_all order ->
  exists detim wsum mask ws, Detect_model.set_detim nodet bands = Some (detim, wsum, mask) /\
    Detect_spec.median_weights bands ws /\
    forall i j, let l := at_pixel Detect_model.b_image i j bands ws in
    bands_ok f b l -> let n := List.length bands in
    Rabs (det_pixel f order l - Q2R (px detim i j)) <= 2 * INR (2 * n + 6) * unit_roundoff f * size_mean (all l) + INR n * least f.
Proof.
  intros f b order nodet bands N U O.
  destruct (Detect_proofs.set_detim_spec nodet bands N U) as (detim & wsum & mask & ws & E & M & P & _ & D & _).
  exists detim, wsum, mask, ws. split; [exact E|]. split; [exact M|]. intros i j l Hl n.
  pose proof (Coadd_proofs.Forall2_len _ _ _ _ _ M) as L.
  assert (Ln : List.length l = n) by (unfold l, at_pixel; rewrite map_length, combine_length; unfold n; lia).
  pose proof (C126_detection f b order l Hl O) as W. rewrite Ln in W. unfold within in W.
  rewrite (Qeq_eqR _ _ (D i j)). unfold Detect_spec.mean_at.
  rewrite <- (exact_mean_Q _ (fun x => px (Detect_model.b_image x) i j) bands ws (eq_sym L)); [exact W|].
  apply qsum_positive; [|exact P]. intro C. subst ws. destruct bands; [congruence|discriminate].
Qed.
Print Assumptions C126_detection_image.
Theorem C126_coadd_image : forall f b order mb s0 s1 sb o0 o1 obs' co,
  let obs := o0 :: o1 :: obs' in
  zlen mb <> 1%Z -> Coadd_spec.sb_valid mb (s0 :: s1 :: sb) obs -> sums_all order ->
  Coadd_model.make_coadd_obs mb (s0 :: s1 :: sb) = Ok (Some co, 0%Z) ->
  exists ws, Forall2 (fun o w => Coadd_spec.positive_median (Coadd_model.f_weight o) w) obs ws /\
    forall i j, let l := at_pixel Coadd_model.f_image i j obs ws in
    bands_ok f b l -> let n := List.length obs in
    Rabs (coadd_pixel f order l - Q2R (px (Coadd_model.f_image co) i j)) <= 2 * INR (2 * n + 2) * unit_roundoff f * size_mean (all l) + INR n * least f.
Proof.
  intros f b order mb s0 s1 sb o0 o1 obs' co obs Z V O E.
  destruct (Coadd_props.C42_coadd mb s0 s1 sb o0 o1 obs' co Z V E) as (ws & M & P & _ & _ & _ & _ & _ & D & _).
  exists ws. split; [exact M|]. intros i j l Hl n.
  pose proof (Coadd_proofs.Forall2_len _ _ _ _ _ M) as L.
  assert (Ln : List.length l = n) by (unfold l, at_pixel; rewrite map_length, combine_length; unfold n; fold obs in L; lia).
  pose proof (C126_coadd f b order l Hl O) as W. rewrite Ln in W. unfold within in W.
  assert (X : exact_mean (all l) = Q2R (Coadd_spec.wavg (fun o => px (Coadd_model.f_image o) i j) (o0 :: o1 :: obs') ws)).
  { apply (exact_mean_Q _ (fun o => px (Coadd_model.f_image o) i j) obs ws (eq_sym L)). apply qsum_positive; [|exact P]. intro C. subst ws. discriminate. }
  rewrite (Qeq_eqR _ _ (D i j)), <- X. exact W.
Qed.
Print Assumptions C126_coadd_image.

(** Examples: numpy's order for fewer than eight numbers, three bands in double and
    single precision, and the bands of C12_example. *)
Fixpoint left_from (a : tree) (l : list R) : tree :=
  match l with [] => a | x :: r => left_from (Node a (Leaf x)) r end.
Definition left_order (l : list R) : tree := match l with [] => Leaf 0 | x :: r => left_from (Leaf x) r end.
Example C126_left_order : sums_all left_order.
Proof.
  assert (H : forall l a, leaves (left_from a l) = (leaves a ++ l)%list).
  { induction l as [|x l IH]; intro a; cbn [left_from]; [now rewrite app_nil_r|]. rewrite IH. cbn [leaves]. now rewrite <- app_assoc. }
  intros [|x l] N; [congruence|]. cbn [left_order]. rewrite H. apply Permutation_refl.
Qed.
Definition ex_bands : list (R * R) := [(1 * bpow radix2 1, 10); (3 * bpow radix2 (-2), - 4); (5 * bpow radix2 2, 1 / 3)].
Example C126_ex : bands_ok double 10 ex_bands /\ bands_ok single 10 ex_bands /\
  exact_mean (all ex_bands) = (2 * 10 - 3 / 4 * 4 + 20 / 3) / (2 + 3 / 4 + 20).
Proof.
  assert (T : forall f, (24 <= Zpos (f_prec f))%Z -> (149 <= Zpos (f_tiny f))%Z -> Forall (fun wv => tame f 10 (fst wv)) ex_bands).
  { intros f P Q. assert (K : (2 ^ 24 <= 2 ^ Zpos (f_prec f))%Z) by (apply Z.pow_le_mono_r; lia).
    repeat (constructor; [split; [match goal with |- exists m e, _ /\ _ /\ fst (IZR ?a * bpow radix2 ?b, _) = _ => exists a, b end; split; [cbn; lia|split; [lia|reflexivity]]|cbn; lra]|]). constructor. }
  split; [|split].
  - split; [discriminate|]. split; [cbn; lia|]. split; [cbn; lia|]. split; [lia|]. split; [cbn; lia|]. apply T; cbn; lia.
  - split; [discriminate|]. split; [cbn; lia|]. split; [cbn; lia|]. split; [lia|]. split; [cbn; lia|]. apply T; cbn; lia.
  - unfold exact_mean, ex_bands. cbn. lra.
Qed.
Example C126_largest_ex : Rabs (det_pixel double left_order ex_bands - exact_mean (all ex_bands)) <= 241 * bpow radix2 (-53).
Proof.
  assert (B : Forall (fun wv => Rabs (snd wv) <= 10) ex_bands).
  { unfold ex_bands. do 3 (apply Forall_cons; [cbn [snd]; apply Rabs_le; lra|]). apply Forall_nil. }
  destruct (C126_largest double 10 left_order ex_bands 10 (proj1 C126_ex) C126_left_order B) as [D _].
  eapply Rle_trans; [exact D|]. unfold least, unit_roundoff. cbn [f_prec f_tiny double List.length ex_bands].
  replace (INR 3) with 3 by (simpl; ring). change (Zneg 1074) with (- 1021 + - 53)%Z. rewrite bpow_plus.
  assert (L : bpow radix2 (-1021) <= bpow radix2 (-2)) by (apply bpow_le; lia). change (bpow radix2 (-2)) with (/ 4) in L.
  change (- Zpos 53)%Z with (-53)%Z. pose proof (bpow_gt_0 radix2 (-53)) as P. set (x := bpow radix2 (-53)) in *. set (t := bpow radix2 (-1021)) in *.
  assert (t * x <= / 4 * x) by (apply Rmult_le_compat_r; lra). lra.
Qed.
Example C126_image_ex : bands_ok double 10 (at_pixel Detect_model.b_image 1 1 [Detect_props.ex_band 1 1 4; Detect_props.ex_band 5 3 8] [1%Q; 3%Q]) /\
  (7 * 10 + Zpos (f_prec double) + 1 <= Zpos (f_tiny double))%Z.
Proof.
  split; [|cbn; lia]. split; [discriminate|]. split; [cbn; lia|]. split; [cbn; lia|]. split; [lia|]. split; [cbn; lia|].
  unfold at_pixel. cbn [combine map fst snd].
  constructor; [split; [exists 1%Z, 0%Z; split; [cbn; lia|split; [cbn; lia|unfold Q2R; cbn; lra]]|unfold Q2R; cbn; lra]|].
  constructor; [split; [exists 3%Z, 0%Z; split; [cbn; lia|split; [cbn; lia|unfold Q2R; cbn; lra]]|unfold Q2R; cbn; lra]|]. constructor.
Qed.
