From Coq Require Import ZArith QArith Reals List String Bool Lia Lra Psatz Permutation.
From Verif Require Import Base Arr Interp_model Interp_spec Interp_proofs Masking_model Masking_spec.
Import ListNotations.
Local Open Scope string_scope.
Local Open Scope Z_scope.

Lemma Rltb_spec : forall x y, Rltb x y = true <-> (x < y)%R.
Proof. intros. unfold Rltb. destruct (Rlt_dec x y); split; intros; try assumption; try reflexivity; try discriminate; contradiction. Qed.
Lemma Rltb_false : forall x y, Rltb x y = false <-> (y <= x)%R.
Proof. intros. unfold Rltb. destruct (Rlt_dec x y); split; intros; try discriminate; try reflexivity; lra. Qed.
Lemma Reqb_spec : forall x y, Reqb x y = true <-> x = y.
Proof. intros. unfold Reqb. destruct (Req_EM_T x y); split; intros; try assumption; try reflexivity; try discriminate; contradiction. Qed.

(** * The kernel (C13) *)
Definition kpoly (y : R) : R :=
  (- 5 * y ^ 7 / 69984 + 7 * y ^ 5 / 2592 - 35 * y ^ 3 / 864 + 35 * y / 96 + 1 / 2)%R.
Definition kt (t : R) : R := (35 * t ^ 4 - 84 * t ^ 5 + 70 * t ^ 6 - 20 * t ^ 7)%R.

Lemma kpoly_kt : forall y, kpoly y = kt ((y + 3) / 6).
Proof. intro y. unfold kpoly, kt. field. Qed.

Lemma kt_cubic_pos : forall s, (0 <= s <= 1)%R -> (1 <= 35 - 84 * s + 70 * s ^ 2 - 20 * s ^ 3)%R.
Proof.
  intros s Hs.
  assert (E : (35 - 84 * s + 70 * s ^ 2 - 20 * s ^ 3 - 1 = (1 - s) * (34 - 50 * s + 20 * s ^ 2))%R) by ring.
  assert (H : (0 < 34 - 50 * s + 20 * s ^ 2)%R) by nra. nra.
Qed.

Lemma pow4_nonneg : forall t, (0 <= t ^ 4)%R.
Proof. intro t. replace (t ^ 4)%R with ((t * t) * (t * t))%R by ring. apply Rle_0_sqr. Qed.
Lemma pow4_pos : forall t, (0 < t)%R -> (0 < t ^ 4)%R.
Proof. intros. now apply pow_lt. Qed.

Lemma kt_nonneg : forall t, (0 <= t <= 1)%R -> (0 <= kt t)%R.
Proof.
  intros t Ht. replace (kt t) with (t ^ 4 * (35 - 84 * t + 70 * t ^ 2 - 20 * t ^ 3))%R by (unfold kt; ring).
  pose proof (kt_cubic_pos t Ht). pose proof (pow4_nonneg t). nra.
Qed.
Lemma kt_pos : forall t, (0 < t <= 1)%R -> (0 < kt t)%R.
Proof.
  intros t Ht. replace (kt t) with (t ^ 4 * (35 - 84 * t + 70 * t ^ 2 - 20 * t ^ 3))%R by (unfold kt; ring).
  pose proof (kt_cubic_pos t ltac:(lra)). pose proof (pow4_pos t (proj1 Ht)). nra.
Qed.
Lemma kt_compl : forall t, (kt t = 1 - kt (1 - t))%R.
Proof. intro t. unfold kt. ring. Qed.
Lemma kt_le1 : forall t, (0 <= t <= 1)%R -> (kt t <= 1)%R.
Proof. intros t Ht. rewrite kt_compl. pose proof (kt_nonneg (1 - t) ltac:(lra)). lra. Qed.
Lemma kt_lt1 : forall t, (0 <= t < 1)%R -> (kt t < 1)%R.
Proof. intros t Ht. rewrite kt_compl. pose proof (kt_pos (1 - t) ltac:(lra)). lra. Qed.

Lemma kt_derive : forall t, derivable_pt_lim kt t (140 * t ^ 3 * (1 - t) ^ 3)%R.
Proof.
  intro t. unfold kt.
  replace (140 * t ^ 3 * (1 - t) ^ 3)%R with
    (35 * (INR 4 * t ^ 3) - 84 * (INR 5 * t ^ 4) + 70 * (INR 6 * t ^ 5) - 20 * (INR 7 * t ^ 6))%R
    by (simpl INR; ring).
  apply derivable_pt_lim_minus; [apply derivable_pt_lim_plus; [apply derivable_pt_lim_minus|]|].
  - exact (derivable_pt_lim_scal (fun x => x ^ 4)%R 35 t _ (derivable_pt_lim_pow t 4)).
  - exact (derivable_pt_lim_scal (fun x => x ^ 5)%R 84 t _ (derivable_pt_lim_pow t 5)).
  - exact (derivable_pt_lim_scal (fun x => x ^ 6)%R 70 t _ (derivable_pt_lim_pow t 6)).
  - exact (derivable_pt_lim_scal (fun x => x ^ 7)%R 20 t _ (derivable_pt_lim_pow t 7)).
Qed.

Lemma kt_strict : forall a b, (0 <= a)%R -> (a < b)%R -> (b <= 1)%R -> (kt a < kt b)%R.
Proof.
  intros a b Ha Hab Hb.
  destruct (MVT_cor2 kt (fun t => 140 * t ^ 3 * (1 - t) ^ 3)%R a b Hab) as [c [E Hc]].
  { intros c _. apply kt_derive. }
  assert (H1 : (0 < c ^ 3)%R) by (apply pow_lt; lra).
  assert (H2 : (0 < (1 - c) ^ 3)%R) by (apply pow_lt; lra).
  assert (H3 : (0 < 140 * c ^ 3 * (1 - c) ^ 3)%R) by nra.
  cbv beta in E. nra.
Qed.

Lemma kern_cases : forall x m h, (0 < h)%R ->
  ((x < m - 6 * h)%R /\ ap_kern_kern x m h = 0%R) \/
  ((m < x)%R /\ ap_kern_kern x m h = 1%R) \/
  ((m - 6 * h <= x <= m)%R /\ ap_kern_kern x m h = kt ((x - m) / (6 * h) + 1)%R).
Proof.
  intros x m h Hh. unfold ap_kern_kern. cbv zeta.
  set (y := ((x - m) / h + 3)%R).
  assert (Ey : ((y - 3) * h = x - m)%R) by (unfold y; field; lra).
  destruct (Rltb y (-3)) eqn:E1.
  - apply Rltb_spec in E1. left. split; [nra|reflexivity].
  - apply Rltb_false in E1. right. destruct (Rltb 3 y) eqn:E2.
    + apply Rltb_spec in E2. left. split; [nra|reflexivity].
    + apply Rltb_false in E2. right. split; [split; nra|].
      fold (kpoly y). rewrite kpoly_kt. f_equal. unfold y. field. lra.
Qed.

Lemma kern_t_range : forall x m h, (0 < h)%R -> (m - 6 * h <= x <= m)%R ->
  (0 <= (x - m) / (6 * h) + 1 <= 1)%R.
Proof.
  intros x m h Hh Hx.
  assert (E : ((x - m) / (6 * h) * (6 * h) = x - m)%R) by (field; lra).
  split; nra.
Qed.

Lemma kern_range : forall x m h, (0 < h)%R -> (0 <= ap_kern_kern x m h <= 1)%R.
Proof.
  intros x m h Hh. destruct (kern_cases x m h Hh) as [[_ ->]|[[_ ->]|[Hx ->]]]; try lra.
  pose proof (kern_t_range x m h Hh Hx) as Ht. split; [now apply kt_nonneg|now apply kt_le1].
Qed.

Lemma kern_one : forall x m h, (0 < h)%R -> (m <= x)%R -> ap_kern_kern x m h = 1%R.
Proof.
  intros x m h Hh Hx. destruct (kern_cases x m h Hh) as [[H _]|[[_ ->]|[H ->]]]; [lra|reflexivity|].
  assert (x = m) by lra. subst x. replace ((m - m) / (6 * h) + 1)%R with 1%R by (field; lra).
  unfold kt. ring.
Qed.

Lemma kern_zero : forall x m h, (0 < h)%R -> (x <= m - 6 * h)%R -> ap_kern_kern x m h = 0%R.
Proof.
  intros x m h Hh Hx. destruct (kern_cases x m h Hh) as [[_ ->]|[[H _]|[H ->]]]; [reflexivity|lra|].
  assert (x = m - 6 * h)%R by lra. subst x.
  replace ((m - 6 * h - m) / (6 * h) + 1)%R with 0%R by (field; lra). unfold kt. ring.
Qed.

Lemma kern_lt1 : forall x m h, (0 < h)%R -> (x < m)%R -> (ap_kern_kern x m h < 1)%R.
Proof.
  intros x m h Hh Hx. destruct (kern_cases x m h Hh) as [[_ ->]|[[H _]|[H ->]]]; [lra|lra|].
  pose proof (kern_t_range x m h Hh H) as Ht. apply kt_lt1. split; [lra|].
  assert (E : ((x - m) / (6 * h) * (6 * h) = x - m)%R) by (field; lra). nra.
Qed.

Lemma kern_lt1_iff : forall x m h, (0 < h)%R -> ((ap_kern_kern x m h < 1)%R <-> (x < m)%R).
Proof.
  intros x m h Hh. split; [|now apply kern_lt1]. intro H.
  destruct (Rlt_dec x m) as [|N]; [assumption|]. rewrite kern_one in H by (try assumption; lra). lra.
Qed.

Lemma kern_mono : forall x x' m h, (0 < h)%R -> (x <= x')%R ->
  (ap_kern_kern x m h <= ap_kern_kern x' m h)%R.
Proof.
  intros x x' m h Hh Hx.
  destruct (Rle_dec m x') as [H1|H1].
  { rewrite (kern_one x') by assumption. apply kern_range. assumption. }
  destruct (Rle_dec x (m - 6 * h)) as [H2|H2].
  { rewrite (kern_zero x) by assumption. apply kern_range. assumption. }
  destruct (kern_cases x m h Hh) as [[H _]|[[H _]|[H ->]]]; [lra|lra|].
  destruct (kern_cases x' m h Hh) as [[H' _]|[[H' _]|[H' ->]]]; [lra|lra|].
  pose proof (kern_t_range x m h Hh H). pose proof (kern_t_range x' m h Hh H').
  destruct (Req_dec x x') as [->|N]; [lra|]. left. apply kt_strict; try lra.
  assert (E : ((x - m) / (6 * h) * (6 * h) = x - m)%R) by (field; lra).
  assert (E' : ((x' - m) / (6 * h) * (6 * h) = x' - m)%R) by (field; lra). nra.
Qed.

Lemma kern_strict : forall x x' m h, (0 < h)%R -> (m - 6 * h <= x)%R -> (x < x')%R -> (x' <= m)%R ->
  (ap_kern_kern x m h < ap_kern_kern x' m h)%R.
Proof.
  intros x x' m h Hh H0 Hx H1.
  destruct (kern_cases x m h Hh) as [[H _]|[[H _]|[H ->]]]; [lra|lra|].
  destruct (kern_cases x' m h Hh) as [[H' _]|[[H' _]|[H' ->]]]; [lra|lra|].
  pose proof (kern_t_range x m h Hh H). pose proof (kern_t_range x' m h Hh H').
  apply kt_strict; try lra.
  assert (E : ((x - m) / (6 * h) * (6 * h) = x - m)%R) by (field; lra).
  assert (E' : ((x' - m) / (6 * h) * (6 * h) = x' - m)%R) by (field; lra). nra.
Qed.

Lemma get_ap_range_spec : forall h, (0 < h)%R ->
  0 <= get_ap_range h /\ (IZR (get_ap_range h) <= 6 * h + 1 / 2 < IZR (get_ap_range h) + 1)%R.
Proof.
  intros h Hh. unfold get_ap_range, Rtrunc.
  assert (E : Rltb (6 * h + 1 / 2) 0 = false) by (apply Rltb_false; lra). rewrite E.
  destruct (base_Int_part (6 * h + 1 / 2)) as [H1 H2].
  split; [|lra]. apply le_IZR. apply Rnot_lt_le. intro X.
  assert (Int_part (6 * h + 1 / 2) <= -1) by (apply lt_IZR in X; lia).
  assert (IZR (Int_part (6 * h + 1 / 2)) <= -1)%R by now apply IZR_le. lra.
Qed.

(** * The square apodization mask (C14) *)

Lemma rprod_single : forall (v : Z * Z -> R) (q : Z * Z) l, NoDup l ->
  rprod (map (fun p => if coord_eqb q p then v p else 1%R) l)
  = if existsb (coord_eqb q) l then v q else 1%R.
Proof.
  induction l as [|p l IH]; intro Hn; cbn [map existsb rprod fold_right]; [reflexivity|]. inversion Hn; subst.
  specialize (IH H2). fold (rprod (map (fun p => if coord_eqb q p then v p else 1%R) l)). destruct (coord_eqb q p) eqn:E; cbn [orb].
  - apply coord_eqb_spec in E. subst p.
    assert (X : existsb (coord_eqb q) l = false).
    { apply not_true_is_false. intro X. apply existsb_exists in X. destruct X as [p [Hp Ep]].
      apply coord_eqb_spec in Ep. now subst. }
    rewrite X in IH. rewrite IH. ring.
  - rewrite IH. ring.
Qed.

Lemma coords_nodup : forall r c, NoDup (coords r c).
Proof. intros. apply SS_before_nodup. apply coords_sorted. Qed.

Lemma existsb_coords : forall i j r c, existsb (coord_eqb (i, j)) (coords r c) =
  (0 <=? i) && (i <? r) && (0 <=? j) && (j <? c).
Proof.
  intros. apply eq_true_iff_eq. rewrite existsb_exists, !andb_true_iff, !Z.leb_le, !Z.ltb_lt. split.
  - intros [p [Hp E]]. apply coord_eqb_spec in E. subst p. apply in_coords in Hp. lia.
  - intro H. exists (i, j). split; [apply in_coords; lia|now apply coord_eqb_spec].
Qed.

(** General fold of two multiplications per step. *)
Lemma fold_mul2 : forall (c1 c2 : Z * Z -> Z * Z) (g : Z * Z -> R) l (im : img R) i j,
  px (fold_left (fun m p => mul_at (mul_at m (fst (c1 p)) (snd (c1 p)) (g p))
                                   (fst (c2 p)) (snd (c2 p)) (g p)) l im) i j =
  (px im i j * rprod (map (fun p => if coord_eqb (i, j) (c1 p) then g p else 1%R) l)
             * rprod (map (fun p => if coord_eqb (i, j) (c2 p) then g p else 1%R) l))%R.
Proof.
  induction l as [|p l IH]; intros im i j; cbn [fold_left map rprod fold_right]; [ring|].
  rewrite IH. cbn [px mul_at]. fold (rprod (map (fun p => if coord_eqb (i, j) (c1 p) then g p else 1%R) l)).
  fold (rprod (map (fun p => if coord_eqb (i, j) (c2 p) then g p else 1%R) l)).
  change ((i =? fst (c2 p)) && (j =? snd (c2 p))) with (coord_eqb (i, j) (c2 p)).
  change ((i =? fst (c1 p)) && (j =? snd (c1 p))) with (coord_eqb (i, j) (c1 p)).
  destruct (coord_eqb (i, j) (c2 p)), (coord_eqb (i, j) (c1 p)); ring.
Qed.

Lemma fold_mul2_shape : forall (c1 c2 : Z * Z -> Z * Z) (g : Z * Z -> R) l (im : img R),
  let r := fold_left (fun m p => mul_at (mul_at m (fst (c1 p)) (snd (c1 p)) (g p))
                                   (fst (c2 p)) (snd (c2 p)) (g p)) l im in
  nr r = nr im /\ nc r = nc im.
Proof.
  intros c1 c2 g l. induction l as [|p l IH]; intro im; cbn [fold_left]; [tauto|].
  specialize (IH (mul_at (mul_at im (fst (c1 p)) (snd (c1 p)) (g p)) (fst (c2 p)) (snd (c2 p)) (g p))).
  exact IH.
Qed.

Lemma reflect_row : forall n i j p, coord_eqb (i, j) (n - 1 - fst p, snd p) = coord_eqb (n - 1 - i, j) p.
Proof.
  intros n i j [a b]. unfold coord_eqb. cbn [fst snd].
  destruct (Z.eqb_spec i (n - 1 - a)), (Z.eqb_spec (n - 1 - i) a); try lia; reflexivity.
Qed.
Lemma reflect_col : forall n i j p, coord_eqb (i, j) (fst p, n - 1 - snd p) = coord_eqb (i, n - 1 - j) p.
Proof.
  intros n i j [a b]. unfold coord_eqb. cbn [fst snd].
  destruct (Z.eqb_spec j (n - 1 - b)), (Z.eqb_spec (n - 1 - j) b); try lia; reflexivity.
Qed.

Lemma if_kern : forall h d n, (0 < h)%R -> 0 <= d < n ->
  (if (d <? Z.min (get_ap_range h + 1) n) then ap_kern_kern (IZR d) (IZR (get_ap_range h)) h else 1%R)
  = ap_kern_kern (IZR d) (IZR (get_ap_range h)) h.
Proof.
  intros h d n Hh Hd. destruct (Z.ltb_spec d (Z.min (get_ap_range h + 1) n)); [reflexivity|].
  symmetry. apply kern_one; [assumption|]. apply IZR_le. lia.
Qed.

Notation ekern := edge_kernel.

Lemma square_mask_shape : forall h im,
  nr (build_square_apodization_mask h im) = nr im /\ nc (build_square_apodization_mask h im) = nc im.
Proof.
  intros h im. unfold build_square_apodization_mask. cbv zeta.
  match goal with |- context [fold_left ?f ?l (fold_left ?g ?l2 im)] =>
    destruct (fold_mul2_shape (fun p => p) (fun p => (fst p, nc im - 1 - snd p))
                (fun p => ap_kern_kern (IZR (snd p)) (IZR (get_ap_range h)) h) l (fold_left g l2 im)) as [A B];
    destruct (fold_mul2_shape (fun p => p) (fun p => (nr im - 1 - fst p, snd p))
                (fun p => ap_kern_kern (IZR (fst p)) (IZR (get_ap_range h)) h) l2 im) as [C D] end.
  cbn [fst snd] in *. rewrite A, B, C, D. tauto.
Qed.

Lemma square_mask_px : forall h im i j, (0 < h)%R -> inside im i j ->
  px (build_square_apodization_mask h im) i j =
  (px im i j * ekern h i * ekern h (nr im - 1 - i) * ekern h j * ekern h (nc im - 1 - j))%R.
Proof.
  intros h im i j Hh [Hi Hj]. unfold build_square_apodization_mask. cbv zeta.
  set (K := fun k : Z => ap_kern_kern (IZR k) (IZR (get_ap_range h)) h).
  pose proof (fold_mul2 (fun p => p) (fun p => (fst p, nc im - 1 - snd p)) (fun p => K (snd p))
    (coords (nr im) (Z.min (get_ap_range h + 1) (nc im)))) as F2. cbn [fst snd] in F2.
  rewrite F2. clear F2.
  pose proof (fold_mul2 (fun p => p) (fun p => (nr im - 1 - fst p, snd p)) (fun p => K (fst p))
    (coords (Z.min (get_ap_range h + 1) (nr im)) (nc im)) im i j) as F1. cbn [fst snd] in F1.
  unfold K at 1 2 in F1. rewrite F1. clear F1.
  rewrite !rprod_single by apply coords_nodup.
  rewrite (map_ext (fun p => if coord_eqb (i, j) (nr im - 1 - fst p, snd p) then K (fst p) else 1%R)
                   (fun p => if coord_eqb (nr im - 1 - i, j) p then K (fst p) else 1%R))
    by (intro p; now rewrite reflect_row).
  rewrite (map_ext (fun p => if coord_eqb (i, j) (fst p, nc im - 1 - snd p) then K (snd p) else 1%R)
                   (fun p => if coord_eqb (i, nc im - 1 - j) p then K (snd p) else 1%R))
    by (intro p; now rewrite reflect_col).
  rewrite !rprod_single by apply coords_nodup.
  rewrite !existsb_coords. cbn [fst snd].
  assert (B : forall a n, 0 <= a < n -> (0 <=? a) = true /\ (a <? n) = true)
    by (intros; rewrite Z.leb_le, Z.ltb_lt; lia).
  destruct (B i _ Hi) as [-> Bi]. destruct (B j _ Hj) as [-> Bj].
  destruct (B (nr im - 1 - i) (nr im) ltac:(lia)) as [-> Bi'].
  destruct (B (nc im - 1 - j) (nc im) ltac:(lia)) as [-> Bj'].
  rewrite Bi, Bj, ?Bi', ?Bj'. cbn [andb]. rewrite !andb_true_r.
  unfold K. rewrite !if_kern by (assumption || lia). unfold edge_kernel. reflexivity.
Qed.

Lemma ekern_range : forall h d, (0 < h)%R -> (0 <= ekern h d <= 1)%R.
Proof. intros. now apply kern_range. Qed.
Lemma ekern_one_iff : forall h d, (0 < h)%R -> (ekern h d = 1%R <-> get_ap_range h <= d).
Proof.
  intros h d Hh. unfold edge_kernel. split.
  - intro E. destruct (Z.le_gt_cases (get_ap_range h) d) as [|H]; [assumption|].
    assert (ap_kern_kern (IZR d) (IZR (get_ap_range h)) h < 1)%R by (apply kern_lt1; [assumption|now apply IZR_lt]).
    lra.
  - intro H. apply kern_one; [assumption|now apply IZR_le].
Qed.

Lemma prod01 : forall a b, (0 <= a <= 1)%R -> (0 <= b <= 1)%R ->
  (0 <= a * b <= 1)%R /\ ((a * b = 1)%R <-> (a = 1 /\ b = 1)%R).
Proof.
  intros a b Ha Hb. split; [nra|]. split.
  - intro E. split; nra.
  - intros [-> ->]. ring.
Qed.

Definition edge_mask (h : R) (nrows ncols i j : Z) : R :=
  px (build_square_apodization_mask h (ifill nrows ncols 1%R)) i j.

Lemma edge_mask_val : forall h r c i j, (0 < h)%R -> 0 <= i < r -> 0 <= j < c ->
  edge_mask h r c i j = (ekern h i * ekern h (r - 1 - i) * ekern h j * ekern h (c - 1 - j))%R.
Proof.
  intros h r c i j Hh Hi Hj. unfold edge_mask. rewrite square_mask_px by (assumption || (split; assumption)).
  cbn [px nr nc ifill]. ring.
Qed.

Lemma edge_mask_spec : forall h r c i j, (0 < h)%R -> 0 <= i < r -> 0 <= j < c ->
  (0 <= edge_mask h r c i j <= 1)%R /\
  (edge_mask h r c i j = 1%R <-> get_ap_range h <= edge_distance r c i j).
Proof.
  intros h r c i j Hh Hi Hj. rewrite edge_mask_val by assumption.
  destruct (prod01 _ _ (ekern_range h i Hh) (ekern_range h (r - 1 - i) Hh)) as [R1 E1].
  destruct (prod01 _ _ R1 (ekern_range h j Hh)) as [R2 E2].
  destruct (prod01 _ _ R2 (ekern_range h (c - 1 - j) Hh)) as [R3 E3].
  split; [assumption|]. rewrite E3, E2, E1, !ekern_one_iff by assumption.
  unfold edge_distance. lia.
Qed.

Lemma edge_mask_sym : forall h r c i j, (0 < h)%R -> 0 <= i < r -> 0 <= j < c ->
  edge_mask h r c (r - 1 - i) j = edge_mask h r c i j /\
  edge_mask h r c i (c - 1 - j) = edge_mask h r c i j.
Proof.
  intros h r c i j Hh Hi Hj. rewrite !edge_mask_val by (assumption || lia).
  replace (r - 1 - (r - 1 - i)) with i by lia. replace (c - 1 - (c - 1 - j)) with j by lia.
  split; ring.
Qed.

(** The value only depends on the distances to the edges, and decreases towards them. *)
Lemma edge_mask_mono : forall h r c i j i' j', (0 < h)%R ->
  0 <= i < r -> 0 <= j < c -> 0 <= i' < r -> 0 <= j' < c ->
  (i <= i' <= r - 1 - i) -> (j <= j' <= c - 1 - j) ->
  (ekern h i * ekern h j <= ekern h i' * ekern h j')%R.
Proof.
  intros h r c i j i' j' Hh Hi Hj Hi' Hj' H1 H2.
  assert (ekern h i <= ekern h i')%R by (apply kern_mono; [assumption|apply IZR_le; lia]).
  assert (ekern h j <= ekern h j')%R by (apply kern_mono; [assumption|apply IZR_le; lia]).
  pose proof (ekern_range h i Hh). pose proof (ekern_range h j Hh).
  pose proof (ekern_range h i' Hh). pose proof (ekern_range h j' Hh). nra.
Qed.

(** * Plane updates (C15) *)
Lemma img_all_spec : forall A (p : A -> bool) im,
  img_all p im = true <-> forall i j, inside im i j -> p (px im i j) = true.
Proof.
  intros A p im. unfold img_all. rewrite forallb_forall. split.
  - intros H i j Hin. exact (H (i, j) (proj2 (in_coords _ _ _ _) Hin)).
  - intros H [i j] Hin. apply H. now apply in_coords.
Qed.
Lemma img_any_spec : forall A (p : A -> bool) im,
  img_any p im = true <-> exists i j, inside im i j /\ p (px im i j) = true.
Proof.
  intros A p im. unfold img_any. rewrite existsb_exists. split.
  - intros [[i j] [Hin H]]. exists i, j. split; [now apply in_coords|exact H].
  - intros [i [j [Hin H]]]. exists (i, j). split; [now apply in_coords|exact H].
Qed.

Lemma exit_writeable_ok : forall o o', exit_writeable o = Ok o' -> o' = o.
Proof. intros o o' H. unfold exit_writeable in H. destruct (_ && _); [discriminate|]. now apply Ok_inj in H. Qed.

(** exit never raises when the flag is lowered for all-zero weights *)
Lemma exit_writeable_total : forall o,
  (forall i j, inside (o_weight o) i j -> (0 <= px (o_weight o) i j)%R) ->
  (img_all (Reqb 0) (o_weight o) = true -> o_ignore_zero_weight o = false) ->
  exit_writeable o = Ok o.
Proof.
  intros o Hw Hz. unfold exit_writeable. destruct (o_ignore_zero_weight o) eqn:Ei; cbn [andb]; [|reflexivity].
  destruct (img_any (Rltb 0) (o_weight o)) eqn:Ea; [reflexivity|]. exfalso.
  assert (X : true = false); [|discriminate]. apply Hz. apply img_all_spec. intros i j Hin.
  apply Reqb_spec. destruct (Rle_lt_or_eq_dec _ _ (Hw i j Hin)) as [Hlt|E]; [|assumption].
  assert (Y : img_any (Rltb 0) (o_weight o) = true); [|congruence].
  apply img_any_spec. exists i, j. split; [assumption|now apply Rltb_spec].
Qed.

Lemma zero_weights_flag : forall msk o,
  img_all (Reqb 0) (o_weight (zero_weights msk o)) = true -> o_ignore_zero_weight (zero_weights msk o) = false.
Proof. intros msk o H. unfold zero_weights in *. cbn in *. now rewrite H. Qed.

Lemma zero_weights_nonneg : forall msk o,
  (forall i j, inside (o_weight o) i j -> (0 <= px (o_weight o) i j)%R) ->
  forall i j, inside (o_weight (zero_weights msk o)) i j -> (0 <= px (o_weight (zero_weights msk o)) i j)%R.
Proof.
  intros msk o H i j Hin. unfold zero_weights in *. cbn in *. destruct (px msk i j); [lra|].
  apply H. exact Hin.
Qed.

Lemma Forall2_omap : forall A B (f : A -> outcome B) l r (P : A -> B -> Prop),
  omap f l = Ok r -> (forall a b, In a l -> f a = Ok b -> P a b) -> Forall2 P l r.
Proof.
  intros A B f l r P H HP. apply omap_ok_Forall2 in H.
  induction H as [|a b l r E HF IH]; constructor.
  - apply HP; [now left|assumption].
  - apply IH. intros; apply HP; [now right|assumption].
Qed.

Lemma omap_total : forall A B (f : A -> outcome B) l,
  (forall a, In a l -> exists b, f a = Ok b) -> exists r, omap f l = Ok r.
Proof.
  induction l as [|a l IH]; intro H; simpl; [eexists; reflexivity|].
  destruct (H a (or_introl eq_refl)) as [b ->]. simpl.
  destruct IH as [r ->]; [intros; apply H; now right|]. simpl. eexists; reflexivity.
Qed.

Lemma Forall2_same : forall A (P : A -> A -> Prop) l, (forall a, In a l -> P a a) -> Forall2 P l l.
Proof.
  induction l as [|a l IH]; intro H; constructor; [apply H; now left|].
  apply IH. intros; apply H; now right.
Qed.

(** Both apodizations of one observation. *)
Definition apodizes (f : img R -> img bool -> Z -> obs -> outcome obs) : Prop :=
  forall r c a am msk bit o o', obs_shape r c o ->
  (forall i j, 0 <= i < r -> 0 <= j < c -> px am i j = a i j /\ (px msk i j = true <-> (a i j < 1)%R)
     /\ (px msk i j = false <-> a i j = 1%R)) ->
  f am msk bit o = Ok o' -> apodized r c a bit (fun _ _ => 0) o o'.

Ltac mfrac_case o Em := destruct (o_mfrac o); cbn; [rewrite ?Em; reflexivity|exact Logic.I].

Lemma apodize_edge_apodizes : apodizes apodize_edge_obs.
Proof.
  intros r c a am msk bit o o' Hs Ham H. unfold apodize_edge_obs in H. apply exit_writeable_ok in H. subst o'.
  destruct Hs as [S1 [S2 [S3 [S4 S5]]]]. split.
  - unfold obs_shape, has_shape, zero_weights; cbn. repeat split; try apply S1; try apply S2; try apply S3; try apply S4.
    all: destruct (o_mfrac o) as [mf0|]; cbn in H; try discriminate; apply Some_inj in H; subst; apply (S5 _ eq_refl).
  - intros i j Hi Hj. destruct (Ham i j Hi Hj) as [E [A1 A2]]. unfold zero_weights, masks_set, masks_kept; cbn.
    rewrite !Z.lor_0_r, E. destruct (px msk i j) eqn:Em.
    + assert (L : (a i j < 1)%R) by now apply A1.
      repeat split; try lra. mfrac_case o Em.
    + assert (L : a i j = 1%R) by now apply A2. rewrite L.
      repeat split; try lra; try mfrac_case o Em.
Qed.

Lemma apodize_obs_apodizes : apodizes apodize_obs.
Proof.
  intros r c a am msk bit o o' Hs Ham H. unfold apodize_obs in H. apply exit_writeable_ok in H. subst o'.
  destruct Hs as [S1 [S2 [S3 [S4 S5]]]]. split.
  - unfold obs_shape, has_shape, zero_weights; cbn. repeat split; try apply S1; try apply S2; try apply S3; try apply S4.
    all: destruct (o_mfrac o) as [mf0|]; cbn in H; try discriminate; apply Some_inj in H; subst; apply (S5 _ eq_refl).
  - intros i j Hi Hj. destruct (Ham i j Hi Hj) as [E [A1 A2]]. unfold zero_weights, masks_set, masks_kept; cbn.
    rewrite !Z.lor_0_r, E. destruct (px msk i j) eqn:Em.
    + assert (L : (a i j < 1)%R) by now apply A1.
      repeat split; try lra. mfrac_case o Em.
    + assert (L : a i j = 1%R) by now apply A2. rewrite L.
      repeat split; try lra; try mfrac_case o Em.
Qed.

Lemma apodized_none : forall r c a bit o, obs_shape r c o ->
  (forall i j, 0 <= i < r -> 0 <= j < c -> a i j = 1%R) ->
  apodized r c a bit (fun _ _ => 0) o o.
Proof.
  intros r c a bit o Hs H1. split; [assumption|]. intros i j Hi Hj. rewrite H1 by assumption.
  unfold masks_kept, masks_set. rewrite !Z.lor_0_r.
  repeat split; try lra; try (destruct (o_mfrac o); cbn; [lra|exact Logic.I]).
Qed.

Lemma apodize_all_spec : forall f r c a am bit mbobs out, apodizes f -> mb_shape r c mbobs ->
  nr am = r -> nc am = c ->
  (forall i j, 0 <= i < r -> 0 <= j < c -> px am i j = a i j /\ (a i j <= 1)%R) ->
  (let msk := imap (fun v => Rltb v 1) am in
   if img_any (fun b => b) msk then omap (omap (f am msk bit)) mbobs else Ok mbobs) = Ok out ->
  Forall2 (Forall2 (apodized r c a bit (fun _ _ => 0))) mbobs out.
Proof.
  intros f r c a am bit mbobs out Hf Hs Er Ec Ham. cbv zeta. set (msk := imap (fun v => Rltb v 1) am). intro H.
  assert (Hm : forall i j, 0 <= i < r -> 0 <= j < c -> px am i j = a i j /\ (px msk i j = true <-> (a i j < 1)%R)
     /\ (px msk i j = false <-> a i j = 1%R)).
  { intros i j Hi Hj. destruct (Ham i j Hi Hj) as [E L]. split; [assumption|].
    unfold msk. cbn [px imap]. rewrite E, Rltb_spec, Rltb_false. split; [tauto|]. split; intros; lra. }
  destruct (img_any (fun b => b) msk) eqn:Eany.
  - apply (Forall2_omap _ _ _ _ _ _ H). intros ol ol' Hol Hm2. apply (Forall2_omap _ _ _ _ _ _ Hm2).
    intros o o' Ho Heq. apply (Hf r c a am msk bit o o'); [now apply (Hs ol)|exact Hm|exact Heq].
  - apply Ok_inj in H. subst out. apply Forall2_same. intros ol Hol. apply Forall2_same. intros o Ho.
    apply apodized_none; [now apply (Hs ol)|]. intros i j Hi Hj. apply Hm; try assumption.
    destruct (px msk i j) eqn:E; [|reflexivity].
    assert (X : img_any (fun b => b) msk = true); [|congruence].
    apply img_any_spec. exists i, j. split; [|assumption].
    unfold msk, inside. cbn [nr nc imap]. rewrite Er, Ec. tauto.
Qed.

Lemma first_obs_shape : forall r c mbobs o0, mb_shape r c mbobs -> first_obs mbobs = Ok o0 ->
  nr (o_image o0) = r /\ nc (o_image o0) = c.
Proof.
  intros r c mbobs o0 Hs E0. unfold first_obs in E0. destruct mbobs as [|[|o ol] l]; try discriminate.
  apply Ok_inj in E0. subst o0. exact (proj1 (Hs (o :: ol) o (or_introl eq_refl) (or_introl eq_refl))).
Qed.

Lemma edge_apply_spec : forall mbobs h bit out r c, (0 < h)%R -> mb_shape r c mbobs ->
  apply_apodization_corrections mbobs h bit = Ok out ->
  Forall2 (Forall2 (apodized r c (edge_factor h r c) bit (fun _ _ => 0))) mbobs out.
Proof.
  intros mbobs h bit out r c Hh Hs H. unfold apply_apodization_corrections in H.
  destruct (first_obs mbobs) as [o0|] eqn:E0; cbn [obind] in H; [|discriminate].
  destruct (first_obs_shape r c _ _ Hs E0) as [Er Ec]. rewrite Er, Ec in H. clear E0 o0 Er Ec.
  destruct (square_mask_shape h (ifill r c 1%R)) as [A B].
  apply (apodize_all_spec _ r c (edge_factor h r c) _ bit mbobs out apodize_edge_apodizes Hs A B); [|exact H].
  intros i j Hi Hj.
  change (px (build_square_apodization_mask h (ifill r c 1%R)) i j) with (edge_mask h r c i j).
  destruct (edge_mask_spec h r c i j Hh Hi Hj) as [HR _].
  rewrite (edge_mask_val h r c i j Hh Hi Hj) in *. unfold edge_factor. tauto.
Qed.

Definition nonneg_weights (o : obs) : Prop :=
  forall i j, inside (o_weight o) i j -> (0 <= px (o_weight o) i j)%R.
Definition obs_good (o : obs) : Prop :=
  nonneg_weights o /\
  (o_ignore_zero_weight o = true -> exists i j, inside (o_weight o) i j /\ (0 < px (o_weight o) i j)%R).

Lemma zero_weights_good : forall msk o, nonneg_weights o -> obs_good (zero_weights msk o).
Proof.
  intros msk o Hw. split; [exact (zero_weights_nonneg msk o Hw)|].
  intro Hi. pose proof (exit_writeable_total _ (zero_weights_nonneg msk o Hw) (zero_weights_flag msk o)) as E.
  unfold exit_writeable in E. rewrite Hi in E. cbn [andb] in E.
  destruct (img_any (Rltb 0) (o_weight (zero_weights msk o))) eqn:Ea; [|discriminate].
  apply img_any_spec in Ea. destruct Ea as [i [j [H1 H2]]]. exists i, j. split; [assumption|].
  now apply Rltb_spec.
Qed.

Lemma obs_good_exit : forall o, obs_good o -> exit_writeable o = Ok o.
Proof.
  intros o [_ H]. unfold exit_writeable. destruct (o_ignore_zero_weight o) eqn:E; cbn [andb]; [|reflexivity].
  destruct (H eq_refl) as [i [j [H1 H2]]].
  assert (X : img_any (Rltb 0) (o_weight o) = true).
  { apply img_any_spec. exists i, j. split; [assumption|now apply Rltb_spec]. }
  now rewrite X.
Qed.

Lemma apodize_edge_total : forall am msk bit o, nonneg_weights o ->
  exists o', apodize_edge_obs am msk bit o = Ok o' /\ obs_good o'.
Proof.
  intros am msk bit o Hw. unfold apodize_edge_obs.
  match goal with |- context [zero_weights msk ?x] => set (o1 := x) end.
  assert (Hg : obs_good (zero_weights msk o1)) by (apply zero_weights_good; exact Hw).
  exists (zero_weights msk o1). split; [now apply obs_good_exit|assumption].
Qed.
Lemma apodize_obs_total : forall am msk bit o, nonneg_weights o ->
  exists o', apodize_obs am msk bit o = Ok o' /\ obs_good o'.
Proof.
  intros am msk bit o Hw. unfold apodize_obs.
  match goal with |- context [zero_weights msk ?x] => set (o1 := x) end.
  assert (Hg : obs_good (zero_weights msk o1)) by (apply zero_weights_good; exact Hw).
  exists (zero_weights msk o1). split; [now apply obs_good_exit|assumption].
Qed.

Lemma omap_good : forall A B (f : A -> outcome B) (P : B -> Prop) l,
  (forall a, In a l -> exists b, f a = Ok b /\ P b) ->
  exists r, omap f l = Ok r /\ forall b, In b r -> P b.
Proof.
  induction l as [|a l IH]; intro H; simpl; [eexists; split; [reflexivity|intros ? []]|].
  destruct (H a (or_introl eq_refl)) as [b [-> Pb]]. simpl.
  destruct IH as [r [-> Pr]]; [intros; apply H; now right|]. simpl. eexists. split; [reflexivity|].
  intros b' [<-|Hb]; [assumption|now apply Pr].
Qed.

Definition mb_good (mbobs : list (list obs)) : Prop :=
  forall ol, In ol mbobs -> forall o, In o ol -> obs_good o.

Lemma omap2_good : forall (f : obs -> outcome obs) mbobs,
  (forall ol o, In ol mbobs -> In o ol -> exists o', f o = Ok o' /\ obs_good o') ->
  exists out, omap (omap f) mbobs = Ok out /\ mb_good out.
Proof.
  intros f mbobs H.
  destruct (omap_good _ _ (omap f) (fun ol => forall o, In o ol -> obs_good o) mbobs) as [r [E P]].
  { intros ol Hol. apply omap_good. intros o Ho. now apply (H ol). }
  exists r. split; [assumption|exact P].
Qed.

Lemma edge_apply_total : forall mbobs h bit o0, mb_weights_nonneg mbobs -> first_obs mbobs = Ok o0 ->
  exists out, apply_apodization_corrections mbobs h bit = Ok out.
Proof.
  intros mbobs h bit o0 Hw E. unfold apply_apodization_corrections. rewrite E. cbn [obind].
  destruct (img_any _ _); [|eexists; reflexivity].
  destruct (omap2_good (apodize_edge_obs (build_square_apodization_mask h
    (ifill (nr (o_image o0)) (nc (o_image o0)) 1%R))
    (imap (fun v => Rltb v 1) (build_square_apodization_mask h
    (ifill (nr (o_image o0)) (nc (o_image o0)) 1%R))) bit) mbobs) as [out [X _]].
  { intros ol o Hol Ho. apply apodize_edge_total. intros i j. now apply (Hw ol). }
  exists out. exact X.
Qed.

(** * Discs (C16-C18) *)
Lemma sqrt_lt_iff : forall q r, (0 <= q)%R -> (0 <= r)%R -> ((sqrt q < r)%R <-> (q < r * r)%R).
Proof.
  intros q r Hq Hr. split; intro H.
  - rewrite <- (sqrt_sqrt q Hq). pose proof (sqrt_pos q). nra.
  - destruct (Rlt_dec (sqrt q) r) as [|N]; [assumption|]. exfalso.
    rewrite <- (sqrt_sqrt q Hq) in H. pose proof (sqrt_pos q). nra.
Qed.

Lemma covers_iff : forall h i j, (0 <= h_r h)%R ->
  (covers h i j <-> ((h_y h - IZR i) ^ 2 + (h_x h - IZR j) ^ 2 < h_r h * h_r h)%R).
Proof.
  intros h i j Hr. unfold covers, dist. rewrite sqrt_lt_iff; [|apply Rplus_le_le_0_compat; apply pow2_ge_0|assumption].
  replace ((h_y h - IZR i) ^ 2 + (h_x h - IZR j) ^ 2)%R with ((h_x h - IZR j) ^ 2 + (h_y h - IZR i) ^ 2)%R by ring.
  tauto.
Qed.

Lemma covers_intersects : forall h i j r c, (0 <= h_r h)%R -> 0 <= i < r -> 0 <= j < c ->
  covers h i j -> intersects (h_y h) (h_x h) (h_r h) r c = true.
Proof.
  intros h i j r c Hr Hi Hj H. apply covers_iff in H; [|assumption].
  assert (G : forall a b, (0 <= a ^ 2)%R /\ (0 <= b ^ 2)%R) by (intros; split; apply pow2_ge_0).
  assert (H1 : ((h_y h - IZR i) ^ 2 < h_r h * h_r h)%R) by (destruct (G (h_y h - IZR i)%R (h_x h - IZR j)%R); lra).
  assert (H2 : ((h_x h - IZR j) ^ 2 < h_r h * h_r h)%R) by (destruct (G (h_y h - IZR i)%R (h_x h - IZR j)%R); lra).
  assert (A1 : (- h_r h < h_y h - IZR i < h_r h)%R) by (split; nra).
  assert (A2 : (- h_r h < h_x h - IZR j < h_r h)%R) by (split; nra).
  assert (B1 : (0 <= IZR i <= IZR r - 1)%R).
  { split; [apply IZR_le; lia|]. rewrite <- minus_IZR. apply IZR_le. lia. }
  assert (B2 : (0 <= IZR j <= IZR c - 1)%R).
  { split; [apply IZR_le; lia|]. rewrite <- minus_IZR. apply IZR_le. lia. }
  unfold intersects. cbv zeta. rewrite !andb_true_iff, !Rltb_spec. lra.
Qed.

Definition mask_step (flag : Z) (bm : img Z) (h : hole) : img Z :=
  let rad2 := (h_r h * h_r h)%R in
  if negb (intersects (h_y h) (h_x h) (h_r h) (nr bm) (nc bm)) then bm
  else mkImg (nr bm) (nc bm) (fun irow icol =>
         let rowdiff2 := ((h_y h - IZR irow) ^ 2)%R in
         let r2 := (rowdiff2 + (h_x h - IZR icol) ^ 2)%R in
         if Rltb r2 rad2 then Z.lor (px bm irow icol) flag else px bm irow icol).

Lemma mask_step_shape : forall flag bm h, nr (mask_step flag bm h) = nr bm /\ nc (mask_step flag bm h) = nc bm.
Proof. intros. unfold mask_step. destruct (negb _); cbn; tauto. Qed.

Lemma mask_step_px : forall flag bm h i j, (0 <= h_r h)%R -> inside bm i j ->
  (covers h i j -> px (mask_step flag bm h) i j = Z.lor (px bm i j) flag) /\
  (~ covers h i j -> px (mask_step flag bm h) i j = px bm i j).
Proof.
  intros flag bm h i j Hr [Hi Hj]. unfold mask_step. cbv zeta. split; intro H.
  - rewrite (covers_intersects h i j) by assumption. cbn [negb px].
    apply covers_iff in H; [|assumption]. apply Rltb_spec in H. now rewrite H.
  - destruct (negb _); [reflexivity|]. cbn [px].
    destruct (Rltb _ _) eqn:E; [|reflexivity]. exfalso. apply H.
    apply covers_iff; [assumption|]. now apply Rltb_spec in E.
Qed.

Lemma mask_fold : forall flag cat bm,
  radii_ok cat ->
  let out := fold_left (mask_step flag) cat bm in
  nr out = nr bm /\ nc out = nc bm /\
  forall i j, inside bm i j ->
    ((exists h, In h cat /\ covers h i j) -> px out i j = Z.lor (px bm i j) flag) /\
    ((forall h, In h cat -> ~ covers h i j) -> px out i j = px bm i j).
Proof.
  intros flag cat. induction cat as [|h cat IH]; intros bm Hr.
  - cbn. repeat split. intros [h [[] _]].
  - cbn [fold_left]. destruct (IH (mask_step flag bm h)) as [I1 [I2 I3]].
    { intros h' Hh'. apply Hr. now right. }
    destruct (mask_step_shape flag bm h) as [S1 S2].
    split; [congruence|]. split; [congruence|]. intros i j Hin.
    destruct (mask_step_px flag bm h i j (Hr h (or_introl eq_refl)) Hin) as [P1 P2].
    assert (Hin' : inside (mask_step flag bm h) i j) by (unfold inside in *; rewrite S1, S2; exact Hin).
    destruct (I3 i j Hin') as [Q1 Q2].
    assert (Hdec : (exists h', In h' cat /\ covers h' i j) \/ (forall h', In h' cat -> ~ covers h' i j)).
    { clear. induction cat as [|a l IH]; [right; intros ? []|].
      destruct IH as [[h' [H1 H2]]|IH]; [left; exists h'; split; [now right|assumption]|].
      destruct (Rlt_dec (dist a i j) (h_r a)) as [L|N].
      - left. exists a. split; [now left|assumption].
      - right. intros h' [<-|H]; [exact N|now apply IH]. }
    split.
    + intros [h' [[<-|Hh'] Hc]].
      * destruct Hdec as [Hd|Hd].
        -- rewrite Q1 by assumption. rewrite P1 by assumption. rewrite <- Z.lor_assoc, Z.lor_diag. reflexivity.
        -- rewrite Q2 by assumption. now apply P1.
      * rewrite Q1 by now exists h'. destruct (Rlt_dec (dist h i j) (h_r h)) as [L|N].
        -- rewrite (P1 L). rewrite <- Z.lor_assoc, Z.lor_diag. reflexivity.
        -- rewrite (P2 N). reflexivity.
    + intro Hno. rewrite Q2 by (intros; apply Hno; now right). apply P2. apply Hno. now left.
Qed.

Lemma covers_dec : forall h i j, covers h i j \/ ~ covers h i j.
Proof. intros. unfold covers. destruct (Rlt_dec (dist h i j) (h_r h)); tauto. Qed.

Lemma some_covers_dec : forall cat i j,
  (exists h, In h cat /\ covers h i j) \/ (forall h, In h cat -> ~ covers h i j).
Proof.
  induction cat as [|a l IH]; intros i j; [right; intros ? []|].
  destruct (IH i j) as [[h' [H1 H2]]|IH']; [left; exists h'; split; [now right|assumption]|].
  destruct (covers_dec a i j) as [L|N].
  - left. exists a. split; [now left|assumption].
  - right. intros h' [<-|H]; [exact N|now apply IH'].
Qed.

Lemma do_mask_spec : forall cat flag r c, radii_ok cat ->
  let out := do_mask_foreground cat flag (ifill r c 0) in
  nr out = r /\ nc out = c /\
  forall i j, 0 <= i < r -> 0 <= j < c ->
    ((exists h, In h cat /\ covers h i j) -> px out i j = flag) /\
    ((forall h, In h cat -> ~ covers h i j) -> px out i j = 0).
Proof.
  intros cat flag r c Hr. destruct (mask_fold flag cat (ifill r c 0) Hr) as [A [B C]].
  cbv zeta. unfold do_mask_foreground. fold (mask_step flag).
  change (fun (bm : img Z) (h : hole) => _) with (mask_step flag) in *.
  split; [exact A|]. split; [exact B|]. intros i j Hi Hj.
  destruct (C i j (conj Hi Hj)) as [C1 C2]. split; [exact C1|exact C2].
Qed.

(** The bmask, symmetrized or not. *)
Lemma masked_dec : forall cat s n i j, masked cat s n i j \/ ~ masked cat s n i j.
Proof.
  intros cat s n i j. destruct (some_covers_dec cat i j) as [[h [H1 H2]]|H]; [left; exists h; tauto|].
  destruct s.
  - destruct (some_covers_dec cat j (n - 1 - i)) as [[h [H1 H2]]|H']; [left; exists h; tauto|].
    right. intros [h [Hh [Hc|[_ Hc]]]]; [now apply (H h)|now apply (H' h)].
  - right. intros [h [Hh [Hc|[X _]]]]; [now apply (H h)|discriminate].
Qed.

Lemma foreground_bmask_spec : forall cat r c s bit out, radii_ok cat ->
  make_foreground_bmask cat r c s bit = Ok out ->
  nr out = r /\ nc out = c /\
  forall i j, 0 <= i < r -> 0 <= j < c ->
    (masked cat s r i j -> px out i j = bit) /\ (~ masked cat s r i j -> px out i j = 0).
Proof.
  intros cat r c s bit out Hr H. unfold make_foreground_bmask in H.
  destruct (do_mask_spec cat bit r c Hr) as [A [B C]].
  set (bm := do_mask_foreground cat bit (ifill r c 0)) in *. clearbody bm.
  destruct s.
  - unfold symmetrize_with in H. rewrite A, B in H. destruct (Z.eqb_spec r c) as [E|]; [|discriminate].
    apply Ok_inj in H. subst out. cbn [nr nc px imap2 rot90]. rewrite A, B. split; [reflexivity|]. split; [reflexivity|].
    rewrite <- E in *. intros i j Hi Hj.
    destruct (C i j Hi Hj) as [C1 C2]. destruct (C j (r - 1 - i) Hj ltac:(lia)) as [D1 D2].
    split.
    + intros [h [Hh [Hc|[_ Hc]]]].
      * rewrite C1 by (exists h; tauto).
        destruct (some_covers_dec cat j (r - 1 - i)) as [X|X]; [rewrite D1 by assumption|rewrite D2 by assumption].
        -- apply Z.lor_diag.
        -- apply Z.lor_0_r.
      * rewrite D1 by (exists h; tauto).
        destruct (some_covers_dec cat i j) as [X|X]; [rewrite C1 by assumption|rewrite C2 by assumption].
        -- apply Z.lor_diag.
        -- apply Z.lor_0_l.
    + intro Hno. rewrite C2, D2; [reflexivity| |].
      * intros h Hh Hc. apply Hno. exists h. tauto.
      * intros h Hh Hc. apply Hno. exists h. tauto.
  - apply Ok_inj in H. subst out. split; [assumption|]. split; [assumption|]. intros i j Hi Hj.
    destruct (C i j Hi Hj) as [C1 C2]. split.
    + intros [h [Hh [Hc|[X _]]]]; [|discriminate]. apply C1. exists h. tauto.
    + intro Hno. apply C2. intros h Hh Hc. apply Hno. exists h. tauto.
Qed.

Lemma do_mask_shape : forall cat flag bm, nr (do_mask_foreground cat flag bm) = nr bm /\
  nc (do_mask_foreground cat flag bm) = nc bm.
Proof.
  intros cat flag. induction cat as [|h cat IH]; intro bm; [cbn; tauto|].
  unfold do_mask_foreground in *. cbn [fold_left].
  destruct (negb (intersects (h_y h) (h_x h) (h_r h) (nr bm) (nc bm))); [apply IH|].
  match goal with |- context [fold_left _ cat ?im] => destruct (IH im) as [-> ->] end. cbn. tauto.
Qed.

Lemma foreground_bmask_square : forall cat r c s bit,
  (exists out, make_foreground_bmask cat r c s bit = Ok out) <-> (s = false \/ r = c).
Proof.
  intros cat r c s bit. unfold make_foreground_bmask.
  destruct (do_mask_shape cat bit (ifill r c 0)) as [A B]. cbn [nr nc ifill] in A, B.
  destruct s.
  - unfold symmetrize_with. rewrite A, B. destruct (Z.eqb_spec r c) as [E|N].
    + split; [tauto|]. intros _. eexists; reflexivity.
    + split; [intros [? X]; discriminate|]. intros [X|X]; [discriminate|contradiction].
  - split; [tauto|]. intros _. eexists; reflexivity.
Qed.

Lemma foreground_bmask_nonsquare : forall cat r c bit, r <> c ->
  make_foreground_bmask cat r c true bit = Raise ValueError.
Proof.
  intros cat r c bit N. unfold make_foreground_bmask, symmetrize_with.
  destruct (do_mask_shape cat bit (ifill r c 0)) as [A B]. rewrite A, B. cbn [nr nc ifill].
  apply Z.eqb_neq in N. now rewrite N.
Qed.

(** Apodization mask *)
Definition apod_step (h0 : R) (am : img R) (h : hole) : img R :=
  let rad2 := (h_r h ^ 2)%R in
  if negb (intersects (h_y h) (h_x h) (h_r h) (nr am) (nc am)) then am
  else mkImg (nr am) (nc am) (fun iy ix =>
         let dy2 := ((IZR iy - h_y h) ^ 2)%R in
         let dr2 := ((IZR ix - h_x h) ^ 2 + dy2)%R in
         if Rltb dr2 rad2 then (px am iy ix * ap_kern_kern (sqrt dr2) (h_r h) h0)%R
         else px am iy ix).


Lemma hole_factor_spec : forall h0 h i j, (0 < h0)%R ->
  (0 <= hole_factor h0 h i j <= 1)%R /\ ((hole_factor h0 h i j < 1)%R <-> covers h i j).
Proof.
  intros h0 h i j H0. unfold hole_factor. split; [now apply kern_range|]. now apply kern_lt1_iff.
Qed.

Lemma apod_step_px : forall h0 am h i j, (0 < h0)%R -> (0 <= h_r h)%R -> inside am i j ->
  px (apod_step h0 am h) i j = (px am i j * hole_factor h0 h i j)%R.
Proof.
  intros h0 am h i j H0 Hr [Hi Hj]. unfold apod_step. cbv zeta.
  assert (Ed : ((IZR j - h_x h) ^ 2 + (IZR i - h_y h) ^ 2)%R = ((h_x h - IZR j) ^ 2 + (h_y h - IZR i) ^ 2)%R) by ring.
  destruct (covers_dec h i j) as [H|H].
  - rewrite (covers_intersects h i j) by assumption. cbn [negb px]. rewrite Ed.
    pose proof H as H'. apply covers_iff in H'; [|assumption].
    assert (E : Rltb ((h_x h - IZR j) ^ 2 + (h_y h - IZR i) ^ 2) (h_r h ^ 2) = true) by (apply Rltb_spec; nra).
    rewrite E. reflexivity.
  - assert (E1 : hole_factor h0 h i j = 1%R).
    { unfold hole_factor. apply kern_one; [assumption|]. unfold covers in H. lra. }
    rewrite E1, Rmult_1_r. destruct (negb _); [reflexivity|]. cbn [px]. rewrite Ed.
    destruct (Rltb _ _) eqn:E; [|reflexivity]. exfalso. apply H. apply Rltb_spec in E.
    apply covers_iff; [assumption|]. nra.
Qed.

Lemma apod_fold : forall h0 cat am, (0 < h0)%R -> radii_ok cat ->
  let out := fold_left (apod_step h0) cat am in
  nr out = nr am /\ nc out = nc am /\
  forall i j, inside am i j -> px out i j = (px am i j * rprod (map (fun h => hole_factor h0 h i j) cat))%R.
Proof.
  intros h0 cat am H0. revert am. induction cat as [|h cat IH]; intros am Hr.
  - cbn. repeat split. intros. ring.
  - cbn [fold_left]. destruct (IH (apod_step h0 am h)) as [I1 [I2 I3]].
    { intros h' Hh'. apply Hr. now right. }
    assert (S : nr (apod_step h0 am h) = nr am /\ nc (apod_step h0 am h) = nc am)
      by (unfold apod_step; destruct (negb _); cbn; tauto).
    destruct S as [S1 S2]. split; [congruence|]. split; [congruence|]. intros i j Hin.
    rewrite I3 by (unfold inside in *; rewrite S1, S2; exact Hin).
    rewrite apod_step_px by (assumption || (apply Hr; now left)). cbn [map rprod fold_right].
    unfold rprod. ring.
Qed.

Lemma rprod_range : forall l, (forall x, In x l -> (0 <= x <= 1)%R) -> (0 <= rprod l <= 1)%R.
Proof.
  induction l as [|x l IH]; intro H; cbn; [lra|].
  assert (0 <= x <= 1)%R by (apply H; now left).
  assert (0 <= rprod l <= 1)%R by (apply IH; intros; apply H; now right). unfold rprod in *. nra.
Qed.

Lemma rprod_lt1 : forall l, (forall x, In x l -> (0 <= x <= 1)%R) ->
  ((rprod l < 1)%R <-> exists x, In x l /\ (x < 1)%R).
Proof.
  induction l as [|x l IH]; intro H.
  - cbn. split; [lra|]. intros [x [[] _]].
  - assert (Hx : (0 <= x <= 1)%R) by (apply H; now left).
    assert (Hl : forall y, In y l -> (0 <= y <= 1)%R) by (intros; apply H; now right).
    pose proof (rprod_range l Hl) as Hrl. specialize (IH Hl). cbn [rprod fold_right]. fold (rprod l). split.
    + intro L. destruct (Rlt_dec x 1) as [Lx|Nx]; [exists x; split; [now left|assumption]|].
      assert (x = 1)%R by lra. subst x. rewrite Rmult_1_l in L. apply IH in L.
      destruct L as [y [Hy Ly]]. exists y. split; [now right|assumption].
    + intros [y [[<-|Hy] Ly]]; [nra|].
      assert (rprod l < 1)%R by (apply IH; exists y; tauto). nra.
Qed.

Lemma cat_factor_spec : forall h0 cat i j, (0 < h0)%R ->
  (0 <= cat_factor h0 cat i j <= 1)%R /\
  ((cat_factor h0 cat i j < 1)%R <-> exists h, In h cat /\ covers h i j).
Proof.
  intros h0 cat i j H0. unfold cat_factor.
  assert (H : forall x, In x (map (fun h => hole_factor h0 h i j) cat) -> (0 <= x <= 1)%R).
  { intros x Hx. apply in_map_iff in Hx. destruct Hx as [h [<- _]]. now apply hole_factor_spec. }
  split; [now apply rprod_range|]. rewrite rprod_lt1 by assumption. split.
  - intros [x [Hx L]]. apply in_map_iff in Hx. destruct Hx as [h [<- Hh]]. exists h. split; [assumption|].
    now apply hole_factor_spec in L.
  - intros [h [Hh Hc]]. exists (hole_factor h0 h i j). split; [apply in_map_iff; now exists h|].
    now apply hole_factor_spec.
Qed.

Lemma apod_factor_spec : forall h0 cat s n i j, (0 < h0)%R ->
  (0 <= apod_factor h0 cat s n i j <= 1)%R /\
  ((apod_factor h0 cat s n i j < 1)%R <-> masked cat s n i j).
Proof.
  intros h0 cat s n i j H0. unfold apod_factor.
  destruct (cat_factor_spec h0 cat i j H0) as [R1 L1].
  destruct (cat_factor_spec h0 cat j (n - 1 - i) H0) as [R2 L2].
  destruct s.
  - split; [nra|]. split.
    + intro L. destruct (Rlt_dec (cat_factor h0 cat i j) 1) as [A|A].
      * apply L1 in A. destruct A as [h [Hh Hc]]. exists h. tauto.
      * assert (B : (cat_factor h0 cat j (n - 1 - i) < 1)%R) by nra.
        apply L2 in B. destruct B as [h [Hh Hc]]. exists h. tauto.
    + intros [h [Hh [Hc|[_ Hc]]]].
      * assert (cat_factor h0 cat i j < 1)%R by (apply L1; now exists h). nra.
      * assert (cat_factor h0 cat j (n - 1 - i) < 1)%R by (apply L2; now exists h). nra.
  - rewrite Rmult_1_r. split; [assumption|]. rewrite L1. split.
    + intros [h [Hh Hc]]. exists h. tauto.
    + intros [h [Hh [Hc|[X _]]]]; [now exists h|discriminate].
Qed.

Lemma apod_mask_spec : forall cat r c s h0 out, (0 < h0)%R -> radii_ok cat ->
  make_foreground_apodization_mask cat r c s h0 = Ok out ->
  nr out = r /\ nc out = c /\
  forall i j, 0 <= i < r -> 0 <= j < c -> px out i j = apod_factor h0 cat s r i j.
Proof.
  intros cat r c s h0 out H0 Hr H. unfold make_foreground_apodization_mask in H.
  destruct (apod_fold h0 cat (ifill r c 1%R) H0 Hr) as [A [B C]].
  assert (E : do_apodization_mask cat h0 (ifill r c 1%R) = fold_left (apod_step h0) cat (ifill r c 1%R)) by reflexivity.
  rewrite E in H. clear E. set (am := fold_left (apod_step h0) cat (ifill r c 1%R)) in *. clearbody am.
  assert (C' : forall i j, 0 <= i < r -> 0 <= j < c -> px am i j = cat_factor h0 cat i j).
  { intros i j Hi Hj. rewrite C by (split; assumption). cbn [px ifill]. unfold cat_factor. ring. }
  cbn [nr nc ifill] in A, B.
  unfold apod_factor. destruct s.
  - unfold symmetrize_with in H. rewrite A, B in H. destruct (Z.eqb_spec r c) as [Erc|]; [|discriminate].
    apply Ok_inj in H. subst out. cbn [nr nc px imap2 rot90]. rewrite A, B. split; [reflexivity|]. split; [reflexivity|].
    intros i j Hi Hj. rewrite !C' by lia. replace (c - 1 - i) with (r - 1 - i) by lia. reflexivity.
  - apply Ok_inj in H. subst out. split; [assumption|]. split; [assumption|]. intros i j Hi Hj.
    rewrite C' by assumption. ring.
Qed.

Lemma rprod_perm : forall a b, Permutation a b -> rprod a = rprod b.
Proof.
  induction 1; cbn in *; try reflexivity.
  - unfold rprod in *. now rewrite IHPermutation.
  - ring.
  - congruence.
Qed.

Lemma apod_factor_perm : forall h0 cat cat' s n i j, Permutation cat cat' ->
  apod_factor h0 cat s n i j = apod_factor h0 cat' s n i j.
Proof.
  intros h0 cat cat' s n i j H. unfold apod_factor, cat_factor.
  rewrite (rprod_perm _ _ (Permutation_map (fun h => hole_factor h0 h i j) H)).
  rewrite (rprod_perm _ _ (Permutation_map (fun h => hole_factor h0 h j (n - 1 - i)) H)). reflexivity.
Qed.

Lemma apod_factor_add : forall h0 cat h s n i j, (0 < h0)%R ->
  (apod_factor h0 (h :: cat) s n i j <= apod_factor h0 cat s n i j)%R.
Proof.
  intros h0 cat h s n i j H0. unfold apod_factor.
  assert (E : forall i j, cat_factor h0 (h :: cat) i j = (hole_factor h0 h i j * cat_factor h0 cat i j)%R) by reflexivity.
  rewrite !E.
  destruct (cat_factor_spec h0 cat i j H0) as [R1 _].
  destruct (cat_factor_spec h0 cat j (n - 1 - i) H0) as [R2 _].
  destruct (hole_factor_spec h0 h i j H0) as [R3 _].
  destruct (hole_factor_spec h0 h j (n - 1 - i) H0) as [R4 _].
  assert (A1 : (hole_factor h0 h i j * cat_factor h0 cat i j <= cat_factor h0 cat i j)%R) by nra.
  assert (A2 : (hole_factor h0 h j (n - 1 - i) * cat_factor h0 cat j (n - 1 - i) <= cat_factor h0 cat j (n - 1 - i))%R) by nra.
  assert (A3 : (0 <= hole_factor h0 h i j * cat_factor h0 cat i j)%R) by nra.
  assert (A4 : (0 <= hole_factor h0 h j (n - 1 - i) * cat_factor h0 cat j (n - 1 - i))%R) by nra.
  destruct s; [|lra]. apply Rmult_le_compat; assumption.
Qed.

(** * Foreground corrections (C19, C20) *)
Lemma apodize_apply_spec : forall mbobs cat s h bit out r c, (0 < h)%R -> radii_ok cat -> mb_shape r c mbobs ->
  apply_mask_apodize mbobs cat s h bit = Ok out ->
  Forall2 (Forall2 (apodized r c (apod_factor h cat s r) bit (fun _ _ => 0))) mbobs out.
Proof.
  intros mbobs cat s h bit out r c Hh Hr Hs H. unfold apply_mask_apodize in H.
  destruct (first_obs mbobs) as [o0|] eqn:E0; cbn [obind] in H; [|discriminate].
  destruct (first_obs_shape r c _ _ Hs E0) as [Er Ec]. rewrite Er, Ec in H. clear E0 o0 Er Ec.
  destruct (make_foreground_apodization_mask cat r c s h) as [am|] eqn:Ea; cbn [obind] in H; [|discriminate].
  destruct (apod_mask_spec cat r c s h am Hh Hr Ea) as [A [B C]].
  apply (apodize_all_spec _ r c (apod_factor h cat s r) am bit mbobs out apodize_obs_apodizes Hs A B); [|exact H].
  intros i j Hi Hj. split; [now apply C|]. now apply apod_factor_spec.
Qed.

Lemma Forall2_omap_st : forall S A B (f : S -> A -> outcome (S * B)) (P : A -> B -> Prop) l s r,
  omap_st f s l = Ok r -> (forall s a s' b, In a l -> f s a = Ok (s', b) -> P a b) -> Forall2 P l (snd r).
Proof.
  induction l as [|a l IH]; intros s r H HP; cbn [omap_st] in H.
  - apply Ok_inj in H. subst r. constructor.
  - destruct (f s a) as [[s' b]|] eqn:E; cbn [obind fst snd] in H; [|discriminate].
    destruct (omap_st f s' l) as [r'|] eqn:E2; cbn [obind fst snd] in H; [|discriminate].
    apply Ok_inj in H. subst r. cbn [snd]. constructor.
    + apply (HP s a s' b); [now left|assumption].
    + apply (IH s' r' E2). intros s0 a0 s1 b1 Ha0. apply HP. now right.
Qed.

Lemma omap_st_good : forall S A B (f : S -> A -> outcome (S * B)) (P : B -> Prop) l,
  (forall s a, In a l -> exists s' b, f s a = Ok (s', b) /\ P b) ->
  forall s, exists s' r, omap_st f s l = Ok (s', r) /\ forall b, In b r -> P b.
Proof.
  induction l as [|a l IH]; intros H s; cbn [omap_st].
  - exists s, []. split; [reflexivity|intros ? []].
  - destruct (H s a (or_introl eq_refl)) as [s' [b [-> Pb]]]. cbn [obind fst snd].
    destruct (IH ltac:(intros; apply H; now right) s') as [s'' [r [-> Pr]]]. cbn [obind fst snd].
    exists s'', (b :: r). split; [reflexivity|]. intros b' [<-|Hb]; [assumption|now apply Pr].
Qed.

(** A mask plane marking the masked pixels. *)
Definition marks (r c : Z) (M : Z * Z -> Prop) (fg : img Z) (bit : Z) : Prop :=
  nr fg = r /\ nc fg = c /\
  forall i j, 0 <= i < r -> 0 <= j < c -> (M (i, j) -> px fg i j = bit) /\ (~ M (i, j) -> px fg i j = 0).

Section Interp.
Variables (r c : Z) (M : Z * Z -> Prop) (fg : img Z) (bit : Z).
Hypothesis Mdec : forall p, M p \/ ~ M p.
Hypothesis Hfg : marks r c M fg bit.
Hypothesis Hbit : bit <> 0.
Let bad := imap (fun z => negb (z =? 0)) fg.

Lemma bad_true : forall i j, 0 <= i < r -> 0 <= j < c -> (px bad i j = true <-> M (i, j)).
Proof.
  intros i j Hi Hj. destruct Hfg as [_ [_ H]]. destruct (H i j Hi Hj) as [H1 H2].
  unfold bad. cbn [px imap]. destruct (Mdec (i, j)) as [Y|N].
  - rewrite (H1 Y). apply Z.eqb_neq in Hbit. rewrite Hbit. tauto.
  - rewrite (H2 N). cbn. split; [discriminate|contradiction].
Qed.

Lemma bad_at_iff : forall p, bad_at bad p <-> in_image r c p /\ M p.
Proof.
  intros [i j]. unfold bad_at, in_image, inside. cbn [fst snd].
  assert (E : nr bad = r /\ nc bad = c) by (destruct Hfg as [A [B _]]; split; assumption).
  destruct E as [-> ->]. split.
  - intros [[Hi Hj] H]. split; [tauto|]. now apply bad_true.
  - intros [[Hi Hj] H]. split; [tauto|]. now apply bad_true.
Qed.

Lemma good_at_iff : forall p, good_at bad p <-> in_image r c p /\ ~ M p.
Proof.
  intros [i j]. unfold good_at, in_image, inside. cbn [fst snd].
  assert (E : nr bad = r /\ nc bad = c) by (destruct Hfg as [A [B _]]; split; assumption).
  destruct E as [-> ->]. split.
  - intros [[Hi Hj] H]. split; [tauto|]. intro X. apply bad_true in X; try assumption. congruence.
  - intros [[Hi Hj] H]. split; [tauto|]. apply not_true_is_false. intro X. apply H. now apply bad_true.
Qed.

Lemma isolated_iff : forall b p, isolated bad b p <-> lonely r c M b p.
Proof.
  intros b p. unfold isolated, lonely, within, near. rewrite bad_at_iff. split.
  - intros [[A B] H]. split; [assumption|]. split; [assumption|]. intros q Q1 Q2. apply H. now apply good_at_iff.
  - intros [A [B H]]. split; [tauto|]. intros q Q. apply good_at_iff in Q. now apply H.
Qed.

Lemma all_bad_iff : img_all (fun b => b) bad = true <-> forall p, in_image r c p -> M p.
Proof.
  rewrite img_all_spec.
  assert (E : nr bad = r /\ nc bad = c) by (destruct Hfg as [A [B _]]; split; assumption).
  unfold inside. destruct E as [-> ->]. split.
  - intros H [i j] [Hi Hj]. apply bad_true; try assumption. now apply H.
  - intros H i j [Hi Hj]. apply bad_true; try assumption. now apply (H (i, j)).
Qed.

Lemma not_all_bad : img_all (fun b => b) bad = false -> exists p, in_image r c p /\ ~ M p.
Proof.
  intro H. unfold img_all in H. apply not_true_iff_false in H.
  assert (X : existsb (fun ij => negb (px bad (fst ij) (snd ij))) (coords (nr bad) (nc bad)) = true).
  { destruct (existsb _ _) eqn:E; [reflexivity|]. exfalso. apply H. apply forallb_forall. intros x Hx.
    destruct (px bad (fst x) (snd x)) eqn:Ex; [reflexivity|].
    assert (Y : existsb (fun ij => negb (px bad (fst ij) (snd ij))) (coords (nr bad) (nc bad)) = true); [|congruence].
    apply existsb_exists. exists x. split; [assumption|]. now rewrite Ex. }
  apply existsb_exists in X. destruct X as [[i j] [Hin Hn]]. exists (i, j).
  apply good_at_iff. split; [now apply in_coords in Hin|]. cbn [fst snd] in *. now apply negb_true_iff in Hn.
Qed.

Lemma count_bad_le : 0 <= r -> 0 <= c -> (inject_Z (count_bad bad) / inject_Z (nr bad * nc bad) <= 1)%Q.
Proof.
  intros Hr Hc.
  assert (E : nr bad = r /\ nc bad = c) by (destruct Hfg as [A [B _]]; split; assumption).
  assert (Hlen : count_bad bad <= nr bad * nc bad).
  { unfold count_bad, zlen.
    pose proof (filter_length_le _ (fun ij => px bad (fst ij) (snd ij)) (coords (nr bad) (nc bad))) as L.
    apply inj_le in L. eapply Z.le_trans; [exact L|]. unfold coords. rewrite grid_length.
    unfold zrange. rewrite !zrange2_length. rewrite Nat2Z.inj_mul. rewrite !Z2Nat.id by lia.
    apply Z.eq_le_incl. ring. }
  assert (Hpos : 0 <= nr bad * nc bad) by (destruct E as [-> ->]; nia).
  assert (Hcb : 0 <= count_bad bad) by (unfold count_bad, zlen; lia).
  destruct (Z.eq_dec (nr bad * nc bad) 0) as [E0|N].
  - rewrite E0. unfold Qle, Qdiv, Qinv, Qmult; cbn. rewrite Z.mul_0_r. lia.
  - apply Qle_shift_div_r.
    + change 0%Q with (inject_Z 0). rewrite <- Zlt_Qlt. lia.
    + rewrite Qmult_1_l. rewrite <- Zle_Qle. lia.
Qed.

Lemma plain_filled : forall W build (im : img R) (wt : option W) rng iso res,
  interpolate_image_at_mask build im bad 1%Q 4 false wt rng iso = Ok (Some res) ->
  nr res = nr im /\ nc res = nc im /\ filled_plain r c M build im res.
Proof.
  intros W build im wt rng iso res H. apply interpolate_plain in H; [|lia].
  destruct H as [pts [f [Hb [Hr [Hc [_ [Hp [Hg Hbad]]]]]]]].
  split; [assumption|]. split; [assumption|]. exists pts, f. split; [assumption|]. split; [|split].
  - intros p v. rewrite Hp. unfold good_near. rewrite good_at_iff. split.
    + intros [[[A B] [q [Q1 Q2]]] E]. apply bad_at_iff in Q1. split; [|assumption].
      split; [assumption|]. split; [assumption|]. exists q. tauto.
    + intros [[A [B [q [Q1 [Q2 Q3]]]]] E]. split; [|assumption]. split; [tauto|]. exists q. rewrite bad_at_iff. tauto.
  - intros p Hin Hn. apply Hg. now apply good_at_iff.
  - intros p Hin Hm. apply Hbad. now apply bad_at_iff.
Qed.

Lemma listing_iff : forall P Q l, (forall p, P p <-> Q p) -> row_major_listing P l -> row_major_listing Q l.
Proof. intros P Q l H [A B]. split; [assumption|]. intro p. rewrite B. apply H. Qed.

Lemma noise_filled : forall W build (im : img R) (w : W) normal iso res,
  (forall n, List.length (normal n w) = n) ->
  interpolate_image_at_mask build im bad 1%Q 4 true (Some w) (Some normal) iso = Ok (Some res) ->
  nr res = nr im /\ nc res = nc im /\ filled_noise r c M iso (fun n => normal n w) build im res.
Proof.
  intros W build im w normal iso res Hlen H. apply interpolate_fill in H; [|lia|assumption].
  destruct H as [isos [pts [f [Hl [Hb [Hr [Hc [_ [Hp [Hg [Hbad Hn]]]]]]]]]]].
  split; [assumption|]. split; [assumption|]. exists isos, pts, f.
  split; [apply (listing_iff _ _ _ (isolated_iff iso) Hl)|]. split; [assumption|]. split; [|split; [|split]].
  - intros p v. rewrite Hp. split.
    + intros [[[A|A] [q [Q1 [Q2 Q3]]]] E]; (split; [|assumption]).
      * apply good_at_iff in A. apply bad_at_iff in Q1. rewrite isolated_iff in Q2.
        split; [tauto|]. split; [tauto|]. exists q. tauto.
      * apply isolated_iff in A. apply bad_at_iff in Q1. rewrite isolated_iff in Q2.
        split; [apply A|]. split; [tauto|]. exists q. tauto.
    + intros [[A [B [q [Q1 [Q2 [Q3 Q4]]]]]] E]. split; [|assumption]. split.
      * destruct B as [B|B]; [left; now apply good_at_iff|right; now apply isolated_iff].
      * exists q. rewrite bad_at_iff, isolated_iff. tauto.
  - intros p Hin Hno. apply Hg. now apply good_at_iff.
  - intros p Hin Hm Hl'. apply Hbad; [now apply bad_at_iff|]. now rewrite isolated_iff.
  - exact Hn.
Qed.

Lemma interp_filled : forall W (sv : services W) fill w k (im : img R) iso res,
  (forall normal k n w, sv_rng sv = Some normal -> List.length (normal k n w) = n) ->
  interpolate_image_at_mask (sv_build sv) im bad 1%Q 4 fill (Some w)
    (match sv_rng sv with Some n => Some (n k) | None => None end) iso = Ok (Some res) ->
  nr res = nr im /\ nc res = nc im /\ filled r c M sv fill iso im res.
Proof.
  intros W sv fill w k im iso res Hlen H. unfold filled. destruct fill.
  - destruct (sv_rng sv) as [normal|] eqn:En.
    + apply noise_filled in H; [|intro n; now apply (Hlen normal)].
      destruct H as [A [B C]]. split; [assumption|]. split; [assumption|]. exists normal, k, w. tauto.
    + exfalso. destruct (interpolate_needs_rng _ _ (sv_build sv) im bad 1%Q 4 (Some w) None iso) as [X|X];
        [lia|now left| |]; congruence.
  - apply plain_filled in H. exact H.
Qed.

Lemma fg_px : forall i j, 0 <= i < r -> 0 <= j < c ->
  (px bad i j = true -> px fg i j = bit) /\ (px bad i j = false -> px fg i j = 0).
Proof.
  intros i j Hi Hj. destruct Hfg as [_ [_ H]]. destruct (H i j Hi Hj) as [H1 H2]. split; intro E.
  - apply H1. now apply bad_true.
  - apply H2. intro X. apply bad_true in X; try assumption. congruence.
Qed.

Lemma interp_obs_spec : forall W (sv : services W) fill iso ibit n o n' o',
  obs_shape r c o -> (exists p, in_image r c p /\ M p) ->
  (forall normal k n w, sv_rng sv = Some normal -> List.length (normal k n w) = n) ->
  interp_obs sv fill iso fg bit ibit n o = Ok (n', o') ->
  interpolated r c M (filled r c M sv fill iso) bit ibit (fun _ _ => 0) o o'.
Proof.
  intros W sv fill iso ibit n o n' o' Hs Hex Hlen H. unfold interp_obs in H. cbv zeta in H.
  fold bad in H.
  destruct Hs as [S1 [S2 [S3 [S4 S5]]]].
  match type of H with context [zero_weights bad ?x] => set (o1 := zero_weights bad x) in H end.
  assert (Hwpx : forall i j, px (o_weight o1) i j = if px bad i j then 0%R else px (o_weight o) i j) by reflexivity.
  assert (Hbpx : forall i j, px (o_bmask o1) i j = Z.lor (px (o_bmask o) i j) (px fg i j)) by reflexivity.
  assert (Hmf : o_mfrac o1 = option_map (upd_where bad (fun _ _ _ => 1%R)) (o_mfrac o)) by reflexivity.
  assert (Him : o_image o1 = o_image o) by reflexivity.
  assert (Hno : o_noise o1 = o_noise o) by reflexivity.
  assert (Hws : nr (o_weight o1) = r /\ nc (o_weight o1) = c) by exact S3.
  assert (Hbs : nr (o_bmask o1) = r /\ nc (o_bmask o1) = c) by exact S4.
  assert (Hms : forall mf, o_mfrac o1 = Some mf -> has_shape r c mf).
  { intros mf E. rewrite Hmf in E. destruct (o_mfrac o) as [m0|] eqn:Em; [|discriminate].
    cbn in E. apply Some_inj in E. subst mf. exact (S5 m0 eq_refl). }
  clearbody o1.
  (* the masks and kept statements for a mask plane that only adds bits at bad pixels *)
  destruct (img_all (fun b => b) bad) eqn:Eall; cbn [negb] in H.
  - (* every pixel masked *)
    cbn [obind] in H.
    match type of H with context [exit_writeable ?x] => set (o2 := x) in H end.
    destruct (exit_writeable o2) as [o2'|] eqn:Ex; cbn [obind] in H; [|discriminate].
    apply exit_writeable_ok in Ex. subst o2'. apply Ok_inj in H. injection H as _ <-.
    rewrite all_bad_iff in Eall. split; [|split].
    + unfold obs_shape, o2; cbn. rewrite Him, Hno. split; [assumption|]. split; [assumption|].
      split; [exact Hws|]. split; [exact Hbs|]. intros mf E. destruct (o_mfrac o1) as [m1|] eqn:E1; [|discriminate].
      cbn in E. apply Some_inj in E. subst mf. exact (Hms m1 eq_refl).
    + intros i j Hi Hj Hn. exfalso. apply Hn. apply Eall. split; assumption.
    + left. split; [assumption|]. unfold o2; cbn. split; [exact Him|]. split; [exact Hno|].
      intros i j Hi Hj. unfold masks_set; cbn. rewrite Hbpx, Z.lor_0_r.
      assert (Hb : px bad i j = true) by (apply bad_true; try assumption; apply Eall; split; assumption).
      rewrite (proj1 (fg_px i j Hi Hj) Hb). rewrite <- Z.lor_assoc, Z.lor_diag.
      split; [reflexivity|]. split; [reflexivity|]. rewrite Hmf. destruct (o_mfrac o); cbn; [reflexivity|exact Logic.I].
  - (* some pixel unmasked *)
    assert (Hpos : 0 <= r /\ 0 <= c) by (destruct Hex as [p [[A B] _]]; lia).
    assert (Hnotnone : forall im k, interpolate_image_at_mask (sv_build sv) im bad 1%Q 4 fill (Some (sv_median sv (o_weight o1)))
        (match sv_rng sv with Some n => Some (n k) | None => None end) iso <> Ok None).
    { intros im k X.
      assert (E : nr bad = r /\ nc bad = c) by (destruct Hfg as [A [B _]]; split; assumption).
      apply interpolate_none in X; [|lia|lia|lia]. destruct X as [X|X].
      - pose proof (count_bad_le (proj1 Hpos) (proj2 Hpos)). apply Qlt_not_le in X. contradiction.
      - destruct (not_all_bad Eall) as [p Hp]. apply good_at_iff in Hp. destruct Hp as [A B].
        destruct (X p A) as [_ Y]. congruence. }
    set (rng := fun k => match sv_rng sv with Some n => Some (n k) | None => None end) in *.
    destruct (interpolate_image_at_mask (sv_build sv) (o_image o1) bad 1 4 fill _ _ iso) as [[im|]|] eqn:E1;
      cbn [obind] in H; [|exfalso; exact (Hnotnone _ _ E1)|discriminate].
    destruct (interpolate_image_at_mask (sv_build sv) (o_noise o1) bad 1 4 fill _ _ iso) as [[no|]|] eqn:E2;
      cbn [obind] in H; [|exfalso; exact (Hnotnone _ _ E2)|discriminate].
    match type of H with context [exit_writeable ?x] => set (o2 := x) in H end.
    destruct (exit_writeable o2) as [o2'|] eqn:Ex; cbn [obind] in H; [|discriminate].
    apply exit_writeable_ok in Ex. subst o2'. apply Ok_inj in H. injection H as _ <-.
    apply interp_filled in E1; [|assumption]. apply interp_filled in E2; [|assumption].
    destruct E1 as [R1 [C1 F1]]. destruct E2 as [R2 [C2 F2]].
    rewrite Him in *. rewrite Hno in *.
    split; [|split].
    + unfold obs_shape, has_shape, o2; cbn. destruct S1 as [S1a S1b]. destruct S2 as [S2a S2b].
      repeat split; try congruence; try apply Hws; try apply Hbs; now apply Hms.
    + intros i j Hi Hj Hn. unfold masks_kept, o2; cbn [o_weight o_bmask o_mfrac px upd_where].
      assert (Hb : px bad i j = false).
      { apply not_true_is_false. intro X. apply Hn. now apply bad_true. }
      rewrite Hb, Hwpx, Hb, Hbpx, (proj2 (fg_px i j Hi Hj) Hb), !Z.lor_0_r.
      split; [reflexivity|]. split; [reflexivity|]. rewrite Hmf. destruct (o_mfrac o); cbn [option_map mfrac_rel px upd_where]; [now rewrite Hb|exact Logic.I].
    + right. split; [now apply not_all_bad|]. split; [intros _; split; assumption|].
      split; [intro X; destruct Hex as [p [P1 P2]]; exfalso; now apply (X p)|].
      intros i j Hi Hj Hm. unfold masks_set, o2; cbn [o_weight o_bmask o_mfrac px upd_where].
      assert (Hb : px bad i j = true) by now apply bad_true.
      rewrite Hb, Hwpx, Hb, Hbpx, (proj1 (fg_px i j Hi Hj) Hb), !Z.lor_0_r, Z.lor_assoc.
      split; [reflexivity|]. split; [reflexivity|]. rewrite Hmf. destruct (o_mfrac o); cbn [option_map mfrac_rel px upd_where]; [now rewrite Hb|exact Logic.I].
Qed.

Lemma interp_obs_total : forall W (sv : services W) fill iso ibit n o,
  obs_shape r c o -> (exists p, in_image r c p /\ M p) -> 1 <= iso ->
  (forall pts, pts <> [] -> exists f, sv_build sv pts = Ok f) ->
  (fill = true -> sv_rng sv <> None) -> nonneg_weights o ->
  exists n' o', interp_obs sv fill iso fg bit ibit n o = Ok (n', o') /\ obs_good o'.
Proof.
  intros W sv fill iso ibit n o Hs Hex Hiso Hb Hrng Hw. unfold interp_obs. cbv zeta. fold bad.
  match goal with |- context [zero_weights bad ?x] => set (o1 := zero_weights bad x) end.
  assert (Hg : obs_good o1) by (apply zero_weights_good; exact Hw). clearbody o1.
  destruct (img_all (fun b => b) bad) eqn:Eall; cbn [negb obind].
  - match goal with |- context [exit_writeable ?x] => set (o2 := x) end.
    assert (Hg2 : obs_good o2).
    { split; [intros i j _; cbn; lra|]. cbn. discriminate. }
    rewrite (obs_good_exit o2 Hg2). cbn [obind]. exists (S (S n)), o2. tauto.
  - destruct (not_all_bad Eall) as [q Hq]. apply good_at_iff in Hq.
    destruct Hex as [p Hp]. assert (Hpos : 0 <= r /\ 0 <= c) by (destruct Hp as [[A B] _]; lia). apply bad_at_iff in Hp.
    assert (T : forall im k w, exists res, interpolate_image_at_mask (sv_build sv) im bad 1%Q 4 fill (Some w)
        (match sv_rng sv with Some n => Some (n k) | None => None end) iso = Ok (Some res)).
    { intros im k w. destruct fill.
      - destruct (sv_rng sv) as [normal|]; [|exfalso; now apply Hrng].
        apply (interpolate_total _ _ _ _ _ _ _ _ _ _ _ p q); try assumption; try lia. now apply count_bad_le.
      - destruct (interpolate_total _ _ (sv_build sv) im bad 1%Q 4 false w (fun _ _ => []) iso p q) as [res E];
          try assumption; try lia. { now apply count_bad_le. }
        exists res. exact E. }
    destruct (T (o_image o1) n (sv_median sv (o_weight o1))) as [im ->]. cbn [obind].
    destruct (T (o_noise o1) (S n) (sv_median sv (o_weight o1))) as [no ->]. cbn [obind].
    match goal with |- context [exit_writeable ?x] => set (o2 := x) end.
    assert (Hg2 : obs_good o2) by exact Hg.
    rewrite (obs_good_exit o2 Hg2). cbn [obind]. exists (S (S n)), o2. tauto.
Qed.
End Interp.

Definition mk (cat : list hole) (s : bool) (n : Z) (p : Z * Z) : Prop := masked cat s n (fst p) (snd p).

Lemma bmask_marks : forall cat r c s bit fg, radii_ok cat ->
  make_foreground_bmask cat r c s bit = Ok fg -> marks r c (mk cat s r) fg bit.
Proof.
  intros cat r c s bit fg Hr H. destruct (foreground_bmask_spec cat r c s bit fg Hr H) as [A [B C]].
  split; [assumption|]. split; [assumption|]. exact C.
Qed.

Lemma mk_dec : forall cat s n p, mk cat s n p \/ ~ mk cat s n p.
Proof. intros. apply masked_dec. Qed.

Lemma interpolated_none : forall r c M F bit ibit o, obs_shape r c o ->
  (forall p, in_image r c p -> ~ M p) ->
  interpolated r c M F bit ibit (fun _ _ => 0) o o.
Proof.
  intros r c M F bit ibit o Hs Hn. split; [assumption|]. split.
  - intros i j _ _ _. unfold masks_kept. rewrite Z.lor_0_r. repeat split.
    destruct (o_mfrac o); cbn; [reflexivity|exact Logic.I].
  - destruct (Z_lt_le_dec 0 r) as [Hr|Hr]; [destruct (Z_lt_le_dec 0 c) as [Hc|Hc]|].
    + right. split; [exists (0, 0); split; [split; cbn; lia|]; apply Hn; split; cbn; lia|].
      split; [intros [p [P1 P2]]; exfalso; now apply (Hn p)|]. split; [tauto|].
      intros i j Hi Hj X. exfalso. apply (Hn (i, j)); [split; assumption|assumption].
    + left. split; [intros p [A B]; lia|]. split; [reflexivity|]. split; [reflexivity|]. intros; lia.
    + left. split; [intros p [A B]; lia|]. split; [reflexivity|]. split; [reflexivity|]. intros; lia.
Qed.

Lemma fg_any : forall r c M fg bit, bit <> 0 -> (forall p, M p \/ ~ M p) -> marks r c M fg bit ->
  (img_any (fun z => negb (z =? 0)) fg = true -> exists p, in_image r c p /\ M p) /\
  (img_any (fun z => negb (z =? 0)) fg = false -> forall p, in_image r c p -> ~ M p).
Proof.
  intros r c M fg bit Hb Md [A [B C]]. split.
  - intro H. apply img_any_spec in H. destruct H as [i [j [[Hi Hj] H]]]. rewrite A in Hi. rewrite B in Hj.
    exists (i, j). split; [split; assumption|]. destruct (Md (i, j)) as [Y|N]; [assumption|].
    rewrite (proj2 (C i j Hi Hj) N) in H. discriminate.
  - intros H [i j] [Hi Hj] HM. cbn [fst snd] in *.
    assert (X : img_any (fun z => negb (z =? 0)) fg = true); [|congruence].
    apply img_any_spec. exists i, j. split; [unfold inside; rewrite A, B; tauto|].
    rewrite (proj1 (C i j Hi Hj) HM). apply negb_true_iff. now apply Z.eqb_neq.
Qed.

Lemma interp_apply_spec : forall W (sv : services W) mbobs cat s bit ibit fill iso out r c,
  radii_ok cat -> mb_shape r c mbobs -> bit <> 0 -> draws_ok sv ->
  apply_mask_interp sv mbobs cat s bit ibit fill iso = Ok out ->
  Forall2 (Forall2 (interpolated r c (mk cat s r) (filled r c (mk cat s r) sv fill iso) bit ibit (fun _ _ => 0))) mbobs out.
Proof.
  intros W sv mbobs cat s bit ibit fill iso out r c Hr Hs Hbit Hd H. unfold apply_mask_interp in H.
  destruct (first_obs mbobs) as [o0|] eqn:E0; cbn [obind] in H; [|discriminate].
  destruct (first_obs_shape r c _ _ Hs E0) as [Er Ec]. rewrite Er, Ec in H. clear E0 o0 Er Ec.
  destruct (make_foreground_bmask cat r c s bit) as [fg|] eqn:Ef; cbn [obind] in H; [|discriminate].
  pose proof (bmask_marks cat r c s bit fg Hr Ef) as Hm.
  destruct (fg_any r c _ fg bit Hbit (mk_dec cat s r) Hm) as [A1 A2].
  destruct (img_any _ fg) eqn:Ea.
  - specialize (A1 eq_refl).
    destruct (omap_st (omap_st (interp_obs sv fill iso fg bit ibit)) 0%nat mbobs) as [rr|] eqn:E; cbn [obind] in H; [|discriminate].
    apply Ok_inj in H. subst out. apply (Forall2_omap_st _ _ _ _ _ _ _ _ E).
    intros st ol st' ol' Hol E'.
    change ol' with (snd (st', ol')). apply (Forall2_omap_st _ _ _ _ _ _ _ _ E').
    intros s1 o s2 o' Ho Heq.
    apply (interp_obs_spec r c (mk cat s r) fg bit (mk_dec cat s r) Hm Hbit W sv fill iso ibit s1 o s2 o'); try assumption.
    now apply (Hs ol).
  - specialize (A2 eq_refl). apply Ok_inj in H. subst out.
    apply Forall2_same. intros ol Hol. apply Forall2_same. intros o Ho. apply interpolated_none; [now apply (Hs ol)|assumption].
Qed.

(** Adding the bits of the expanded mask. *)
Definition add_bits (ex : img Z) (o : obs) : obs :=
  mkObs (o_image o) (o_noise o) (o_weight o) (imap2 Z.lor (o_bmask o) ex) (o_mfrac o) (o_ignore_zero_weight o).

Lemma apodized_add : forall r c a bit ex o o', apodized r c a bit (fun _ _ => 0) o o' ->
  apodized r c a bit (px ex) o (add_bits ex o').
Proof.
  intros r c a bit ex o o' [Hs H]. split; [exact Hs|]. intros i j Hi Hj.
  destruct (H i j Hi Hj) as [H1 [H2 [H3 H4]]]. unfold add_bits, masks_set, masks_kept in *. cbn in *.
  split; [assumption|]. split; [assumption|]. split; intro L.
  - destruct (H3 L) as [A [B C]]. rewrite B, Z.lor_0_r, Z.lor_assoc. tauto.
  - destruct (H4 L) as [A [B C]]. rewrite B, Z.lor_0_r. tauto.
Qed.

Lemma interpolated_add : forall r c M F bit ibit ex o o', interpolated r c M F bit ibit (fun _ _ => 0) o o' ->
  interpolated r c M F bit ibit (px ex) o (add_bits ex o').
Proof.
  intros r c M F bit ibit ex o o' [Hs [Hk H]]. split; [exact Hs|]. split.
  - intros i j Hi Hj Hn. destruct (Hk i j Hi Hj Hn) as [A [B C]]. unfold masks_kept, add_bits; cbn.
    rewrite B, Z.lor_0_r. tauto.
  - destruct H as [[Ha [E1 [E2 H]]]|[Ha [HF [HN H]]]]; [left|right].
    + split; [assumption|]. split; [exact E1|]. split; [exact E2|]. intros i j Hi Hj.
      destruct (H i j Hi Hj) as [A [B C]]. unfold masks_set, add_bits; cbn. rewrite B, Z.lor_0_r, Z.lor_assoc. tauto.
    + split; [assumption|]. split; [exact HF|]. split; [exact HN|]. intros i j Hi Hj Hm.
      destruct (H i j Hi Hj Hm) as [A [B C]]. unfold masks_set, add_bits; cbn.
      split; [exact A|]. split; [now rewrite B, Z.lor_0_r, !Z.lor_assoc|exact C].
Qed.

Lemma apodized_ext : forall r c a bit e e' o o', (forall i j, 0 <= i < r -> 0 <= j < c -> e i j = e' i j) ->
  apodized r c a bit e o o' -> apodized r c a bit e' o o'.
Proof.
  intros r c a bit e e' o o' He [Hs H]. split; [assumption|]. intros i j Hi Hj. rewrite <- He by assumption. now apply H.
Qed.

Definition expand_step (rad : R) (cat : list hole) (s : bool) (ebit : Z) (mbobs : list (list obs)) :=
  if Rltb 0 rad then
    do o0 <- first_obs mbobs;
    do ex <- make_foreground_bmask (grow rad cat) (nr (o_image o0)) (nc (o_image o0)) s ebit;
    omap (omap (fun o => exit_writeable (add_bits ex o))) mbobs
  else Ok mbobs.

Lemma grow_radii : forall rad cat, (0 < rad)%R -> radii_ok cat -> radii_ok (grow rad cat).
Proof.
  intros rad cat H Hr h Hh. apply in_map_iff in Hh. destruct Hh as [h' [<- Hh']]. cbn. specialize (Hr h' Hh'). lra.
Qed.

Lemma Forall2_in_r : forall A B (P : A -> B -> Prop) l l' b, Forall2 P l l' -> In b l' -> exists a, In a l /\ P a b.
Proof.
  intros A B P l l' b H. induction H as [|x y l l' Hxy HF IH]; intro Hb; [destruct Hb|].
  destruct Hb as [<-|Hb]; [exists x; split; [now left|assumption]|].
  destruct (IH Hb) as [a [Ha Pa]]. exists a. split; [now right|assumption].
Qed.

Lemma expand_step_spec : forall rad cat s ebit mbobs mid out r c (P0 : obs -> obs -> Prop) (P : (Z -> Z -> Z) -> obs -> obs -> Prop),
  radii_ok cat -> mb_shape r c mid ->
  Forall2 (Forall2 P0) mbobs mid ->
  (forall o o', P0 o o' -> P (fun _ _ => 0) o o') ->
  (forall ex o o', P0 o o' -> P (px ex) o (add_bits ex o')) ->
  expand_step rad cat s ebit mid = Ok out ->
  exists extra, expand_bits cat rad s r ebit r c extra /\ Forall2 (Forall2 (P extra)) mbobs out.
Proof.
  intros rad cat s ebit mbobs mid out r c P0 P Hr Hs HF HP0 HP H. unfold expand_step in H.
  destruct (Rltb 0 rad) eqn:El.
  - apply Rltb_spec in El. destruct (first_obs mid) as [o0|] eqn:E0; cbn [obind] in H; [|discriminate].
    destruct (first_obs_shape r c _ _ Hs E0) as [Er Ec]. rewrite Er, Ec in H. clear E0 o0 Er Ec.
    destruct (make_foreground_bmask (grow rad cat) r c s ebit) as [ex|] eqn:Ex; cbn [obind] in H; [|discriminate].
    destruct (foreground_bmask_spec _ r c s ebit ex (grow_radii rad cat El Hr) Ex) as [_ [_ C]].
    exists (px ex). split.
    + intros i j Hi Hj. destruct (C i j Hi Hj) as [C1 C2]. split; [intros [_ X]; now apply C1|].
      intro X. apply C2. intro Y. apply X. tauto.
    + clear Hs C Ex. revert out H. induction HF as [|ol ol1 l l1 Hol HF IH]; intros out H; cbn [omap] in H.
      * apply Ok_inj in H. subst out. constructor.
      * destruct (omap (fun o => exit_writeable (add_bits ex o)) ol1) as [ol2|] eqn:E1; cbn [obind] in H; [|discriminate].
        destruct (omap _ l1) as [l2|] eqn:E2; cbn [obind] in H; [|discriminate].
        apply Ok_inj in H. subst out. constructor; [|now apply IH].
        clear - Hol E1 HP. revert ol2 E1. induction Hol as [|o o1 l l1 Ho HF IH]; intros ol2 H; cbn [omap] in H.
        -- apply Ok_inj in H. subst ol2. constructor.
        -- destruct (exit_writeable (add_bits ex o1)) as [o2|] eqn:E1; cbn [obind] in H; [|discriminate].
           destruct (omap _ l1) as [l2|] eqn:E2; cbn [obind] in H; [|discriminate].
           apply Ok_inj in H. subst ol2. apply exit_writeable_ok in E1. subst o2. constructor; [now apply HP|now apply IH].
  - apply Rltb_false in El. apply Ok_inj in H. subst out. exists (fun _ _ => 0). split.
    + intros i j _ _. split; [intros [X _]; lra|reflexivity].
    + clear - HF HP0. induction HF as [|ol ol1 l l1 Hol HF IH]; constructor; [|assumption].
      clear - Hol HP0. induction Hol; constructor; [now apply HP0|assumption].
Qed.

Lemma Forall2_shape : forall (P : obs -> obs -> Prop) r c mbobs mid, Forall2 (Forall2 P) mbobs mid ->
  (forall o o', P o o' -> obs_shape r c o') -> mb_shape r c mid.
Proof.
  intros P r c mbobs mid HF H ol o Hol Ho.
  destruct (Forall2_in_r _ _ _ _ _ _ HF Hol) as [ol0 [_ HF2]].
  destruct (Forall2_in_r _ _ _ _ _ _ HF2 Ho) as [o1 [_ HP]]. now apply (H o1).
Qed.

Lemma apply_fg_unfold : forall W (sv : services W) mbobs cat method rad bit ebit ibit s h iso,
  apply_foreground_masking_corrections sv mbobs cat method rad bit ebit ibit s h iso =
  (do mid <- (if String.eqb method "interp" then apply_mask_interp sv mbobs cat s bit ibit false iso
     else if String.eqb method "interp-noise" then apply_mask_interp sv mbobs cat s bit ibit true iso
     else if String.eqb method "apodize" then apply_mask_apodize mbobs cat s h bit
     else Raise RuntimeError);
   expand_step rad cat s ebit mid).
Proof. reflexivity. Qed.

Lemma fg_apodize_spec : forall W (sv : services W) mbobs cat rad bit ebit ibit s h iso out r c,
  (0 < h)%R -> radii_ok cat -> mb_shape r c mbobs ->
  apply_foreground_masking_corrections sv mbobs cat "apodize" rad bit ebit ibit s h iso = Ok out ->
  exists extra, expand_bits cat rad s r ebit r c extra /\
    Forall2 (Forall2 (apodized r c (apod_factor h cat s r) bit extra)) mbobs out.
Proof.
  intros W sv mbobs cat rad bit ebit ibit s h iso out r c Hh Hr Hs H. rewrite apply_fg_unfold in H.
  cbn [String.eqb Ascii.eqb Bool.eqb] in H.
  destruct (apply_mask_apodize mbobs cat s h bit) as [mid|] eqn:E; cbn [obind] in H; [|discriminate].
  apply (apodize_apply_spec _ _ _ _ _ _ r c Hh Hr Hs) in E.
  refine (expand_step_spec rad cat s ebit mbobs mid out r c _ (fun e => apodized r c (apod_factor h cat s r) bit e) Hr _ E _ _ H).
  - apply (Forall2_shape _ r c _ _ E). intros o o' X. apply X.
  - intros o o' X. exact X.
  - intros ex o o' X. now apply apodized_add.
Qed.

Lemma fg_interp_spec : forall W (sv : services W) mbobs cat (noise : bool) rad bit ebit ibit s h iso out r c,
  radii_ok cat -> mb_shape r c mbobs -> bit <> 0 -> draws_ok sv ->
  apply_foreground_masking_corrections sv mbobs cat (if noise then "interp-noise" else "interp") rad bit ebit ibit s h iso = Ok out ->
  exists extra, expand_bits cat rad s r ebit r c extra /\
    Forall2 (Forall2 (interpolated r c (mk cat s r) (filled r c (mk cat s r) sv noise iso) bit ibit extra)) mbobs out.
Proof.
  intros W sv mbobs cat noise rad bit ebit ibit s h iso out r c Hr Hs Hbit Hd H. rewrite apply_fg_unfold in H.
  assert (H' : (do mid <- apply_mask_interp sv mbobs cat s bit ibit noise iso; expand_step rad cat s ebit mid) = Ok out)
    by (destruct noise; exact H).
  clear H. rename H' into H.
  destruct (apply_mask_interp sv mbobs cat s bit ibit noise iso) as [mid|] eqn:E; cbn [obind] in H; [|discriminate].
  apply (interp_apply_spec _ _ _ _ _ _ _ _ _ _ r c Hr Hs Hbit Hd) in E.
  refine (expand_step_spec rad cat s ebit mbobs mid out r c _
    (fun e => interpolated r c (mk cat s r) (filled r c (mk cat s r) sv noise iso) bit ibit e) Hr _ E _ _ H).
  - apply (Forall2_shape _ r c _ _ E). intros o o' X. apply X.
  - intros o o' X. exact X.
  - intros ex o o' X. now apply interpolated_add.
Qed.

(** Totality. *)
Lemma first_obs_some : forall o ol l, first_obs ((o :: ol) :: l) = Ok o.
Proof. reflexivity. Qed.

Lemma omap_hd : forall A B (f : A -> outcome B) a l r, omap f (a :: l) = Ok r -> exists b r', r = b :: r' /\ f a = Ok b.
Proof.
  intros A B f a l r H. cbn [omap] in H. destruct (f a) as [b|] eqn:E; cbn [obind] in H; [|discriminate].
  destruct (omap f l) as [r'|]; cbn [obind] in H; [|discriminate]. apply Ok_inj in H. subst r. now exists b, r'.
Qed.

Lemma Forall2_first : forall (P : obs -> obs -> Prop) mbobs mid, Forall2 (Forall2 P) mbobs mid ->
  (exists o, first_obs mbobs = Ok o) -> exists o, first_obs mid = Ok o.
Proof.
  intros P mbobs mid HF [o E]. destruct HF as [|ol ol1 l l1 H HF]; [discriminate|].
  destruct H as [|x y ol ol1 H H2]; [discriminate|]. exists y. reflexivity.
Qed.

Lemma fg_total : forall W (sv : services W) mbobs cat method rad bit ebit ibit s h iso r c,
  (method = "apodize" \/ method = "interp" \/ (method = "interp-noise" /\ sv_rng sv <> None)) ->
  (s = false \/ r = c) -> (0 < h)%R -> radii_ok cat -> mb_shape r c mbobs -> mb_valid mbobs ->
  (exists o, first_obs mbobs = Ok o) -> bit <> 0 -> draws_ok sv -> 1 <= iso ->
  (forall pts, pts <> [] -> exists f, sv_build sv pts = Ok f) ->
  exists out, apply_foreground_masking_corrections sv mbobs cat method rad bit ebit ibit s h iso = Ok out.
Proof.
  intros W sv mbobs cat method rad bit ebit ibit s h iso r c Hm Hsq Hh Hr Hs Hv Hne Hbit Hd Hiso Hb.
  rewrite apply_fg_unfold.
  set (step := if String.eqb method "interp" then apply_mask_interp sv mbobs cat s bit ibit false iso
     else if String.eqb method "interp-noise" then apply_mask_interp sv mbobs cat s bit ibit true iso
     else if String.eqb method "apodize" then apply_mask_apodize mbobs cat s h bit
     else Raise RuntimeError).
  assert (Hgood : mb_good mbobs) by (intros ol Hol o Ho; now apply (Hv ol)).
  assert (Hfirst : exists o0, first_obs mbobs = Ok o0 /\ nr (o_image o0) = r /\ nc (o_image o0) = c).
  { destruct Hne as [o0 E]. exists o0. split; [assumption|]. now apply (first_obs_shape r c mbobs). }
  assert (Hint : forall fill, (fill = true -> sv_rng sv <> None) ->
    exists mid, apply_mask_interp sv mbobs cat s bit ibit fill iso = Ok mid /\ mb_good mid).
  { intros fill Hrng. destruct Hfirst as [o0 [E0 [Er Ec]]]. unfold apply_mask_interp. rewrite E0. cbn [obind]. rewrite Er, Ec.
    destruct (proj2 (foreground_bmask_square cat r c s bit) Hsq) as [fg Ef]. rewrite Ef. cbn [obind].
    pose proof (bmask_marks cat r c s bit fg Hr Ef) as Hmk.
    destruct (fg_any r c _ fg bit Hbit (mk_dec cat s r) Hmk) as [A1 _].
    destruct (img_any _ fg) eqn:Ea; [|exists mbobs; tauto]. specialize (A1 eq_refl).
    destruct (omap_st_good _ _ _ (omap_st (interp_obs sv fill iso fg bit ibit)) (fun ol => forall o, In o ol -> obs_good o) mbobs) with (s := 0%nat)
      as [st [rr [E P]]].
    { intros st ol Hol. apply (omap_st_good _ _ _ _ obs_good). intros st' o Ho.
      apply (interp_obs_total r c (mk cat s r) fg bit (mk_dec cat s r) Hmk Hbit); try assumption.
      - now apply (Hs ol).
      - exact (proj1 (Hgood ol Hol o Ho)). }
    rewrite E. cbn [obind snd]. exists rr. split; [reflexivity|exact P]. }
  assert (Hap : exists mid, apply_mask_apodize mbobs cat s h bit = Ok mid /\ mb_good mid).
  { destruct Hfirst as [o0 [E0 [Er Ec]]]. unfold apply_mask_apodize. rewrite E0. cbn [obind]. rewrite Er, Ec.
    assert (Ea : exists am, make_foreground_apodization_mask cat r c s h = Ok am).
    { unfold make_foreground_apodization_mask. destruct s; [|eexists; reflexivity].
      destruct Hsq as [X|X]; [discriminate|]. unfold symmetrize_with.
      destruct (apod_fold h cat (ifill r c 1%R) Hh Hr) as [A [B _]].
      change (do_apodization_mask cat h (ifill r c 1%R)) with (fold_left (apod_step h) cat (ifill r c 1%R)).
      rewrite A, B. cbn [nr nc ifill]. rewrite X, Z.eqb_refl. eexists; reflexivity. }
    destruct Ea as [am ->]. cbn [obind].
    destruct (img_any _ _); [|exists mbobs; tauto].
    apply omap2_good. intros ol o Hol Ho. apply apodize_obs_total. exact (proj1 (Hgood ol Hol o Ho)). }
  assert (Hstep : exists mid, step = Ok mid /\ mb_good mid).
  { unfold step. destruct Hm as [ -> |[ -> |[ -> Hrng]]].
    - exact Hap.
    - apply (Hint false). discriminate.
    - apply (Hint true). intros _. exact Hrng. }
  destruct Hstep as [mid [Es Hg]].
  assert (Hsh : mb_shape r c mid /\ exists o, first_obs mid = Ok o).
  { unfold step in Es. destruct Hm as [ -> |[ -> |[ -> Hrng]]]; cbn [String.eqb Ascii.eqb Bool.eqb] in Es.
    - apply (apodize_apply_spec _ _ _ _ _ _ r c Hh Hr Hs) in Es.
      split; [apply (Forall2_shape _ r c _ _ Es); intros o o' X; apply X|now apply (Forall2_first _ _ _ Es)].
    - apply (interp_apply_spec _ _ _ _ _ _ _ _ _ _ r c Hr Hs Hbit Hd) in Es.
      split; [apply (Forall2_shape _ r c _ _ Es); intros o o' X; apply X|now apply (Forall2_first _ _ _ Es)].
    - apply (interp_apply_spec _ _ _ _ _ _ _ _ _ _ r c Hr Hs Hbit Hd) in Es.
      split; [apply (Forall2_shape _ r c _ _ Es); intros o o' X; apply X|now apply (Forall2_first _ _ _ Es)]. }
  rewrite Es. cbn [obind]. destruct Hsh as [Hsh [o1 E1]]. unfold expand_step.
  destruct (Rltb 0 rad); [|eexists; reflexivity].
  rewrite E1. cbn [obind]. destruct (first_obs_shape r c mid o1 Hsh E1) as [-> ->].
  destruct (proj2 (foreground_bmask_square (grow rad cat) r c s ebit) Hsq) as [ex ->]. cbn [obind].
  destruct (omap2_good (fun o => exit_writeable (add_bits ex o)) mid) as [out [Eo _]].
  { intros ol o Hol Ho. exists (add_bits ex o).
    assert (G : obs_good (add_bits ex o)) by exact (Hg ol Hol o Ho). split; [now apply obs_good_exit|assumption]. }
  exists out. exact Eo.
Qed.

Lemma fg_unknown_method : forall W (sv : services W) mbobs cat method rad bit ebit ibit s h iso,
  method <> "interp" -> method <> "interp-noise" -> method <> "apodize" ->
  apply_foreground_masking_corrections sv mbobs cat method rad bit ebit ibit s h iso = Raise RuntimeError.
Proof.
  intros W sv mbobs cat method rad bit ebit ibit s h iso H1 H2 H3. rewrite apply_fg_unfold.
  apply String.eqb_neq in H1, H2, H3. rewrite H1, H2, H3. reflexivity.
Qed.

Lemma grow_masked : forall cat rad rad' s n i j, (rad <= rad')%R ->
  masked (grow rad cat) s n i j -> masked (grow rad' cat) s n i j.
Proof.
  intros cat rad rad' s n i j Hr [h [Hh Hc]]. apply in_map_iff in Hh. destruct Hh as [h0 [<- Hh0]].
  exists (mkHole (h_x h0) (h_y h0) (h_r h0 + rad')). split; [apply in_map_iff; now exists h0|].
  unfold covers, dist in *. cbn in *. destruct Hc as [Hc|[E Hc]]; [left|right; split; [assumption|]]; lra.
Qed.
Lemma masked_grow : forall cat rad s n i j, (0 <= rad)%R ->
  masked cat s n i j -> masked (grow rad cat) s n i j.
Proof.
  intros cat rad s n i j Hr [h [Hh Hc]].
  exists (mkHole (h_x h) (h_y h) (h_r h + rad)). split; [apply in_map_iff; now exists h|].
  unfold covers, dist in *. cbn in *. destruct Hc as [Hc|[E Hc]]; [left|right; split; [assumption|]]; lra.
Qed.

Lemma bmask_expand : forall cat r c s bit rad rad' m m', radii_ok cat -> (0 <= rad <= rad')%R -> bit <> 0 ->
  make_foreground_bmask (grow rad cat) r c s bit = Ok m ->
  make_foreground_bmask (grow rad' cat) r c s bit = Ok m' ->
  forall i j, 0 <= i < r -> 0 <= j < c -> px m i j <> 0 -> px m' i j <> 0.
Proof.
  intros cat r c s bit rad rad' m m' Hr Hrad Hbit E E' i j Hi Hj Hne.
  assert (R1 : forall x, (0 <= x)%R -> radii_ok (grow x cat)).
  { intros x Hx h Hh. apply in_map_iff in Hh. destruct Hh as [h0 [<- Hh0]]. cbn. specialize (Hr h0 Hh0). lra. }
  destruct (foreground_bmask_spec _ r c s bit m (R1 rad ltac:(lra)) E) as [_ [_ C]].
  destruct (foreground_bmask_spec _ r c s bit m' (R1 rad' ltac:(lra)) E') as [_ [_ C']].
  destruct (masked_dec (grow rad cat) s r i j) as [Y|N].
  - rewrite (proj1 (C' i j Hi Hj)); [assumption|]. apply (grow_masked cat rad); [lra|assumption].
  - exfalso. apply Hne. now apply (C i j Hi Hj).
Qed.

Lemma grow_zero : forall cat s n i j, masked (grow 0 cat) s n i j <-> masked cat s n i j.
Proof.
  intros cat s n i j. split; [|apply masked_grow; lra]. intros [h [Hh Hc]]. apply in_map_iff in Hh. destruct Hh as [h0 [<- Hh0]].
  exists h0. split; [assumption|]. unfold covers, dist in *. cbn in *. rewrite Rplus_0_r in Hc. exact Hc.
Qed.
