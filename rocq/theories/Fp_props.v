(** C117-C120: what survives floating point. *)
From Coq Require Import ZArith QArith Qreals Reals List Lia Lra.
From Flocq Require Import Core.
From Verif Require Import Arr Fp_model Fp_spec Fp_proofs.
From Verif Require Base Detect_model Lmdet_model Summ_model.
Import ListNotations.
Local Open Scope R_scope.

(** C117: the number stored for a position is a nearest number of the column's
    type. *)
Theorem C117_stored : forall f y, nearest_number f y (fl f y).
Proof. exact fl_nearest. Qed.
Print Assumptions C117_stored.

(** C117: for a position in an image with up to 2^23 rows, the stored position is
    off by at most one part in 2^25 of the power of two above it, and it is exactly
    the first row of the stamp plus the stored position in the stamp: both
    roundings of the difference are exact. *)
Theorem C117_cutout_position : forall dim y box k,
  0 <= y <= bpow radix2 k -> (-100 <= k <= 23)%Z -> (2 <= box)%Z ->
  let a := axis_entry dim y box in
  Rabs (a_orig a - y) <= bpow radix2 (k - 25) /\
  IZR (a_start a) + a_cut a = a_orig a.
Proof.
  cbv zeta. intros dim y box k [Hy1 Hy2] Hk Hb. split.
  - apply (fl_single_error y k); [lia|]. rewrite Rabs_pos_eq by exact Hy1. exact Hy2.
  - rewrite Rplus_comm. apply axis_cut; [|exact Hb]. split; [exact Hy1|].
    apply Rle_trans with (1 := Hy2). change (IZR (2 ^ 24)) with (bpow radix2 24). apply bpow_le. lia.
Qed.
Print Assumptions C117_cutout_position.

(** C117: the pixel of the stored position is in the image, and in the stamp. *)
Theorem C117_pixel_in_stamp : forall dim y box,
  0 <= y <= IZR dim - / 2 -> (dim <= 2 ^ 23)%Z -> (2 <= box)%Z ->
  let a := axis_entry dim y box in
  exists p : Z, IZR p <= a_orig a < IZR p + 1 /\ (0 <= p < dim)%Z /\ (a_start a <= p < a_start a + box)%Z.
Proof.
  cbv zeta. intros dim y box [Hy1 Hy2] Hd Hb. exists (Zfloor (fl single y)).
  destruct (axis_start dim y box Hy1 Hb) as [[_ A2] A3]. split; [|split].
  - split; [apply Zfloor_lb|apply Zfloor_ub].
  - apply stored_in_image; assumption.
  - split; assumption.
Qed.
Print Assumptions C117_pixel_in_stamp.

(** C117: the exact arithmetic catalogue of the model (C07-C12, C88) is the floating
    point one: a rational position equal to the stored one gives its columns. *)
Theorem C117_exact_catalogue : forall dimr dimc y x box,
  0 <= y <= IZR (2 ^ 24) -> 0 <= x <= IZR (2 ^ 24) -> (2 <= box)%Z ->
  exists qy qx : Q, Q2R qy = fl single y /\ Q2R qx = fl single x /\
  forall id number,
  let e := Detect_model.make_entry dimr dimc id number qy qx box in
  let r := axis_entry dimr y box in let c := axis_entry dimc x box in
  (Q2R (Detect_model.e_row e) = a_orig r /\ Detect_model.e_srow e = a_start r /\
   Detect_model.e_erow e = a_end r /\ Q2R (Detect_model.e_crow e) = a_cut r) /\
  (Q2R (Detect_model.e_col e) = a_orig c /\ Detect_model.e_scol e = a_start c /\
   Detect_model.e_ecol e = a_end c /\ Q2R (Detect_model.e_ccol e) = a_cut c).
Proof.
  intros dimr dimc y x box Hy Hx Hb.
  destruct (number_rational single (fl single y) (fl_number single y)) as [qy Hqy].
  destruct (number_rational single (fl single x) (fl_number single x)) as [qx Hqx].
  exists qy, qx. split; [exact Hqy|]. split; [exact Hqx|]. intros id number. split.
  - exact (exact_catalogue dimr y box qy Hy Hb Hqy dimc id number qx box eq_refl).
  - exact (exact_catalogue dimc x box qx Hx Hb Hqx dimr id number qy box eq_refl).
Qed.
Print Assumptions C117_exact_catalogue.

(** Non-vacuity: an object at row 99.5 (less 2^-30, rounded away) of an image with
    200 rows: its stamp of 32 rows starts at row 84. *)
Example C117_example : let a := axis_entry 200 (199 / 2 - bpow radix2 (-30)) 32 in
  a_orig a = 199 / 2 /\ a_start a = 84%Z /\ a_end a = 116%Z /\ a_cut a = 31 / 2.
Proof.
  cbv zeta. cbn [axis_entry a_orig a_start a_end a_cut]. rewrite single_edge.
  assert (T : Ztrunc (199 / 2) = 99%Z).
  { rewrite Ztrunc_floor by lra. apply Zfloor_imp. change (99 + 1)%Z with 100%Z. lra. }
  rewrite T. split; [reflexivity|]. split; [reflexivity|]. split; [reflexivity|].
  change (Z.max (99 - 32 / 2 + 1) 0) with 84%Z.
  assert (N : number_of single (IZR 31 / 2)) by (apply number_single_half; reflexivity).
  replace (199 / 2 - 84) with (IZR 31 / 2) by lra.
  rewrite (fl_id double) by (apply single_double; exact N). rewrite (fl_id single) by exact N. reflexivity.
Qed.

(** C118: an object inside the image (rows 0 to 99; 2^-30 of a pixel before its end)
    is looked up in row 100: the position is stored in single precision first. In an
    image of 100 rows the program stops with an IndexError. *)
Theorem C118_inside_refuted : exists pos : R, pixel_at 99 (pos - 0) /\
  forall (ormask : img Z), nr ormask = 100%Z ->
  Lmdet_model.np_get ormask (local_pixel pos 0) 0 = Base.Raise Base.IndexError.
Proof.
  exists (199 / 2 - bpow radix2 (-30)). split.
  - assert (B30 : bpow radix2 (-30) = / 1073741824) by (cbn; lra). unfold pixel_at. rewrite B30. lra.
  - intros m Hm. rewrite edge_index. unfold Lmdet_model.np_get. cbn [Z.ltb Z.compare]. unfold insideb. rewrite Hm.
    reflexivity.
Qed.
Print Assumptions C118_inside_refuted.

(** C118: what holds: the two roundings after the position was stored change
    nothing (so the exact model of C56 is the program's), ... *)
Theorem C118_index_partial : forall pos start, Rabs pos <= IZR (2 ^ 23) -> (Z.abs start <= 2 ^ 23)%Z ->
  pixel_at (local_pixel pos start) (fl single pos - IZR start) /\
  forall q, Q2R q = fl single pos -> local_pixel pos start = Lmdet_model.nearest (q - inject_Z start).
Proof.
  intros pos start Hp Hs. split.
  - exact (local_pixel_covers pos start Hp Hs).
  - intros q Hq. exact (local_pixel_nearest pos start q Hp Hs Hq).
Qed.
Print Assumptions C118_index_partial.

(** ... so the pixel is the object's own unless the object is within 2^(k-25) of the
    edge of a pixel, where 2^k bounds the position, ... *)
Theorem C118_own_pixel_partial : forall pos start n k,
  (-100 <= k <= 23)%Z -> Rabs pos <= bpow radix2 k -> (Z.abs start <= 2 ^ 23)%Z ->
  IZR n - / 2 + bpow radix2 (k - 25) <= pos - IZR start < IZR n + / 2 - bpow radix2 (k - 25) ->
  local_pixel pos start = n.
Proof. exact local_pixel_safe. Qed.
Print Assumptions C118_own_pixel_partial.

(** ... and it is never further than that from being the object's own. *)
Theorem C118_close_partial : forall pos start k,
  (-100 <= k <= 23)%Z -> Rabs pos <= bpow radix2 k -> (Z.abs start <= 2 ^ 23)%Z ->
  Rabs (pos - IZR start - IZR (local_pixel pos start)) <= / 2 + bpow radix2 (k - 25).
Proof. exact local_pixel_close. Qed.
Print Assumptions C118_close_partial.

(** C118: the other pipeline cannot leave the image: for an object inside it, the
    pixel is in the image and no further than half a pixel from the stored
    position; and it is the pixel of the exact model (C25). *)
Theorem C118_clipped : forall pos dim, (0 < dim <= 2 ^ 23)%Z -> - / 2 <= pos <= IZR dim - / 2 ->
  (0 <= clipped_pixel pos dim < dim)%Z /\
  Rabs (fl single pos - IZR (clipped_pixel pos dim)) <= / 2 /\
  forall q, Q2R q = fl single pos -> clipped_pixel pos dim = Summ_model.clip_and_round q dim.
Proof.
  intros pos dim Hd Hp. destruct (clipped_covers pos dim Hd Hp) as [A B]. split; [exact A|]. split; [exact B|].
  intros q Hq. exact (clipped_exact pos dim q Hq).
Qed.
Print Assumptions C118_clipped.

(** Non-vacuity: row 1000.25 of an exposure that starts at row 900. *)
Example C118_example : local_pixel (1000 + / 4) 900 = 100%Z.
Proof.
  apply (C118_own_pixel_partial (1000 + / 4) 900 100 10); [lia| |lia|].
  - change (bpow radix2 10) with 1024. apply Rabs_le. lra.
  - replace (bpow radix2 (10 - 25)) with (/ 32768) by (cbn; lra). lra.
Qed.

(** C119: the masked fraction of a pixel, computed from the bands' maps in floating
    point of any precision, is a fraction. *)
Theorem C119_band_mean : forall f l, weights_ok f l -> 0 <= band_mean f l <= 1.
Proof. exact band_mean_unit. Qed.
Print Assumptions C119_band_mean.

(** C119: it is exactly 1 for a pixel that is masked in every band, whatever the
    weights: a pixel below 1 is unmasked in some band, and an image masked
    everywhere in every band has no pixel below 1 (and is skipped, C27)... *)
Theorem C119_fully_masked : forall f l, weights_ok f l ->
  (forall wv, In wv l -> snd wv = Some 1) -> band_mean f l = 1.
Proof. intros f l H V. apply band_mean_one; [exact H|]. apply Forall_forall. exact V. Qed.
Print Assumptions C119_fully_masked.

(** ... and exactly 0 where no band is masked. *)
Theorem C119_unmasked : forall f l, weights_ok f l ->
  (forall wv, In wv l -> snd wv = Some 0 \/ snd wv = None) -> (exists wv, In wv l /\ 0 < fst wv) ->
  band_mean f l = 0.
Proof.
  intros f l H V E. apply band_mean_zero; [exact H|apply Forall_forall; exact V|apply Exists_exists; exact E].
Qed.
Print Assumptions C119_unmasked.

(** C119: the same for the LSST average, although it multiplies by a rounded
    reciprocal... *)
Theorem C119_task_mean : forall f l, usual_format f -> pairs_ok f l -> total_ok f (fsum f (map fst l)) ->
  0 <= recip_mean f l <= 1.
Proof. exact recip_mean_unit. Qed.
Print Assumptions C119_task_mean.

(** ... for the Gaussian weighted mean over the pixels of a stamp... *)
Theorem C119_pixel_mean : forall f l, pairs_ok f l -> (exists wv, In wv l /\ 0 < fst wv) ->
  0 <= pixel_mean f l <= 1.
Proof. intros f l H E. apply pixel_mean_unit; [exact H|apply Exists_exists; exact E]. Qed.
Print Assumptions C119_pixel_mean.

(** ... and for the mean over the image, whatever the order of summation; where the
    map is 0 or 1 its sum is exact. *)
Theorem C119_image_mean : forall f t,
  (Z.of_nat (List.length (leaves t)) <= 2 ^ Zpos (f_prec f))%Z -> (forall x, In x (leaves t) -> 0 <= x <= 1) ->
  0 <= image_mean f t <= 1 /\
  ((forall x, In x (leaves t) -> x = 0 \/ x = 1) ->
   tsum f t = IZR (Z.of_nat (count_occ Req_EM_T (leaves t) 1))).
Proof.
  intros f t L F. split.
  - apply image_mean_unit; [exact L|apply Forall_forall; exact F].
  - intro B. apply tsum_counts; [exact L|apply Forall_forall; exact B].
Qed.
Print Assumptions C119_image_mean.

(** Non-vacuity: three bands, one without a map. *)
Example C119_example : weights_ok double [(3, Some 1); (5, None); (0, Some (/ 2))] /\
  0 <= band_mean double [(3, Some 1); (5, None); (0, Some (/ 2))] <= 1.
Proof.
  assert (H : weights_ok double [(3, Some 1); (5, None); (0, Some (/ 2))]).
  { repeat constructor; cbn [fst snd]; try lra; apply number_Z; cbn [double f_prec]; lia. }
  split; [exact H|exact (C119_band_mean _ _ H)].
Qed.
Example C119_example_task : usual_format single /\ pairs_ok single [(3, 1); (5, / 2)] /\
  total_ok single (fsum single (map fst [(3, 1); (5, / 2)])).
Proof.
  split; [cbv; split; discriminate|]. split.
  - repeat constructor; cbn [fst snd]; try lra; apply number_Z; cbn [single f_prec]; lia.
  - assert (S : fsum single (map fst [(3, 1); (5, / 2)]) = 8).
    { unfold fsum. cbn [map fst fold_left]. rewrite Rplus_0_l, (fl_id single 3) by (apply number_Z; cbn [single f_prec]; lia).
      replace (3 + 5) with 8 by ring. apply fl_id. apply number_Z. cbn [single f_prec]. lia. }
    rewrite S. split; [lra|]. change 8 with (bpow radix2 3). apply bpow_le. cbn [single f_prec f_tiny]. lia.
Qed.

(** C120: a pixel that is masked in every band does not always have the LSST masked
    fraction 1: with one band of weight 41 in single precision it is less... *)
Theorem C120_full_refuted : exists l, pairs_ok single l /\ total_ok single (fsum single (map fst l)) /\
  (forall wv, In wv l -> snd wv = 1) /\ recip_mean single l < 1.
Proof.
  exists [(41, 1)]. assert (N : number_of single 41) by (apply number_Z; cbn [single f_prec]; lia).
  split; [|split; [|split]].
  - constructor; [|constructor]. cbn [fst snd]. split; [exact N|lra].
  - assert (S : fsum single (map fst [(41, 1)]) = 41).
    { unfold fsum. cbn [map fst fold_left]. rewrite Rplus_0_l. apply fl_id. exact N. }
    rewrite S. split; [lra|]. apply Rle_trans with (bpow radix2 6); [cbn; lra|]. apply bpow_le. cbn [single f_prec f_tiny]. lia.
  - intros wv [<-|[]]. reflexivity.
  - exact recip_41.
Qed.
Print Assumptions C120_full_refuted.

(** ... but by no more than one in the last place. *)
Theorem C120_full_partial : forall f l, usual_format f -> pairs_ok f l -> total_ok f (fsum f (map fst l)) ->
  (forall wv, In wv l -> snd wv = 1) ->
  1 - bpow radix2 (- Zpos (f_prec f)) <= recip_mean f l <= 1.
Proof.
  intros f l U P T O. split.
  - apply recip_mean_ones; [exact U| |exact T]. apply Forall_forall. intros wv I. split; [|apply O; exact I].
    unfold pairs_ok in P. rewrite Forall_forall in P. exact (proj1 (P wv I)).
  - exact (proj2 (recip_mean_unit f l U P T)).
Qed.
Print Assumptions C120_full_partial.
