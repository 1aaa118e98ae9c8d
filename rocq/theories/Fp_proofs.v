From Coq Require Import ZArith QArith Qreals Reals List Lia Lra Bool Qround.
From Flocq Require Import Core Relative.
From Verif Require Import Arr Fp_model Fp_spec.
From Verif Require Base Detect_model Lmdet_model Summ_model.
Import ListNotations.
Local Open Scope R_scope.

Local Notation ex f := (FLT_exp (Zneg (f_tiny f)) (Zpos (f_prec f))).

Global Instance fmt_prec : forall f, Prec_gt_0 (Zpos (f_prec f)).
Proof. intro f. reflexivity. Qed.

(** ** Numbers of a format *)
Lemma format_number : forall f x, generic_format radix2 (ex f) x <-> number_of f x.
Proof.
  intros f x. split; intro H.
  - apply FLT_format_generic in H; [|apply fmt_prec]. destruct H as [[m e] H1 H2 H3].
    exists m, e. cbn [Fnum Fexp] in *. split; [exact H2|split; [exact H3|exact H1]].
  - destruct H as (m & e & H1 & H2 & H3). apply generic_format_FLT.
    exists (Float radix2 m e); [exact H3|exact H1|exact H2].
Qed.

Lemma fl_number : forall f x, number_of f (fl f x).
Proof. intros f x. apply format_number. apply generic_format_round; typeclasses eauto. Qed.

Lemma fl_id : forall f x, number_of f x -> fl f x = x.
Proof. intros f x H. apply round_generic; [typeclasses eauto|apply format_number; exact H]. Qed.

Lemma fl_le : forall f x y, x <= y -> fl f x <= fl f y.
Proof. intros f x y H. apply round_le; [typeclasses eauto|typeclasses eauto|exact H]. Qed.

Lemma fl_le_number : forall f x y, x <= y -> number_of f y -> fl f x <= y.
Proof. intros f x y H N. rewrite <- (fl_id f y N). apply fl_le. exact H. Qed.
Lemma fl_ge_number : forall f x y, y <= x -> number_of f y -> y <= fl f x.
Proof. intros f x y H N. rewrite <- (fl_id f y N) at 1. apply fl_le. exact H. Qed.

Lemma fl_nearest : forall f y, nearest_number f y (fl f y).
Proof.
  intros f y. split; [apply fl_number|]. intros z Hz.
  apply (round_N_pt radix2 (ex f) _ y). apply format_number. exact Hz.
Qed.

Lemma fl_opp : forall f x, fl f (- x) = - fl f x.
Proof. intros. apply round_NE_opp. Qed.

(** Integers, halves and quarters *)
Lemma dyadic_number : forall f m e, (Z.abs m < 2 ^ Zpos (f_prec f))%Z -> (Zneg (f_tiny f) <= e)%Z ->
  number_of f (IZR m * bpow radix2 e).
Proof. intros f m e H1 H2. exists m, e. auto. Qed.

Lemma number_0 : forall f, number_of f 0.
Proof.
  intro f. exists 0%Z, 0%Z. split; [|split; [|cbn; ring]].
  - apply Z.pow_pos_nonneg; lia.
  - lia.
Qed.
Lemma number_Z : forall f n, (Z.abs n <= 2 ^ Zpos (f_prec f))%Z -> number_of f (IZR n).
Proof.
  intros f n H. destruct (Z.eq_dec (Z.abs n) (2 ^ Zpos (f_prec f))) as [E|E].
  - assert (Hn : n = (2 ^ Zpos (f_prec f))%Z \/ n = (- 2 ^ Zpos (f_prec f))%Z) by lia.
    assert (B : bpow radix2 (Zpos (f_prec f)) = IZR (2 ^ Zpos (f_prec f))) by (rewrite <- (IZR_Zpower radix2); [reflexivity|lia]).
    destruct (Z.eq_dec (Zpos (f_prec f)) 1) as [P1|P1].
    + rewrite P1 in *. destruct Hn as [-> | ->].
      * exists 1%Z, 1%Z. rewrite P1. split; [reflexivity|split; [lia|cbn; lra]].
      * exists (-1)%Z, 1%Z. rewrite P1. split; [reflexivity|split; [lia|cbn; lra]].
    + assert (L : (1 < 2 ^ Zpos (f_prec f))%Z).
      { apply (Z.lt_le_trans _ (2 ^ 1)); [reflexivity|apply Z.pow_le_mono_r; lia]. }
      destruct Hn as [-> | ->].
      * exists 1%Z, (Zpos (f_prec f)). split; [exact L|split; [lia|]]. rewrite B. ring.
      * exists (-1)%Z, (Zpos (f_prec f)). split; [exact L|split; [lia|]]. rewrite B, opp_IZR. ring.
  - exists n, 0%Z. split; [lia|split; [lia|cbn; ring]].
Qed.

Lemma number_single_half : forall n, (Z.abs n < 2 ^ 24)%Z -> number_of single (IZR n / 2).
Proof.
  intros n H. exists n, (-1)%Z. split; [exact H|split; [cbn; lia|]]. cbn. lra.
Qed.
Lemma number_double_part : forall n k, (0 <= k <= 30)%Z -> (Z.abs n < 2 ^ 53)%Z -> number_of double (IZR n * bpow radix2 (- k)).
Proof. intros n k Hk H. exists n, (- k)%Z. split; [exact H|split; [cbn; lia|reflexivity]]. Qed.

Lemma single_double : forall x, number_of single x -> number_of double x.
Proof.
  intros x (m & e & H1 & H2 & H3). exists m, e. cbn [single double f_prec f_tiny] in *.
  split; [|split; [lia|exact H3]]. apply (Z.lt_trans _ _ _ H1). reflexivity.
Qed.

(** ** Exact subtraction *)
Lemma sub_exact : forall f r s, number_of f r -> 0 <= IZR s <= r -> r <= IZR (2 ^ Zpos (f_prec f)) ->
  number_of f (r - IZR s).
Proof.
  intros f r s (m & e & H1 & H2 & H3) [S0 S1] RB.
  destruct (Z.le_gt_cases 0 e) as [He|He].
  - assert (E : r = IZR (m * 2 ^ e)).
    { rewrite H3, mult_IZR. f_equal. rewrite <- (IZR_Zpower radix2); [reflexivity|exact He]. }
    rewrite E in *. rewrite <- minus_IZR. apply number_Z.
    apply le_IZR in S0, S1, RB. lia.
  - assert (E : r - IZR s = IZR (m - s * 2 ^ (- e)) * bpow radix2 e).
    { rewrite H3, minus_IZR, mult_IZR.
      assert (B : IZR (2 ^ (- e)) = bpow radix2 (- e)) by (rewrite <- (IZR_Zpower radix2); [reflexivity|lia]).
      rewrite B, Rmult_minus_distr_r. f_equal. rewrite Rmult_assoc, <- bpow_plus.
      replace (- e + e)%Z with 0%Z by lia. cbn. ring. }
    exists (m - s * 2 ^ (- e))%Z, e. split; [|split; [exact H2|exact E]].
    pose proof (bpow_gt_0 radix2 e) as BP.
    assert (G : (0 <= m - s * 2 ^ (- e))%Z).
    { apply le_IZR. apply Rmult_le_reg_r with (bpow radix2 e); [exact BP|]. rewrite <- E. lra. }
    assert (S0' : (0 <= s)%Z) by (apply le_IZR; exact S0).
    assert (P : (0 < 2 ^ (- e))%Z) by (apply Z.pow_pos_nonneg; lia).
    assert ((0 <= s * 2 ^ (- e))%Z) by (apply Z.mul_nonneg_nonneg; lia). lia.
Qed.

(** ** Error of storing *)
Lemma fl_single_error : forall y k, (-100 <= k)%Z -> Rabs y <= bpow radix2 k ->
  Rabs (fl single y - y) <= bpow radix2 (k - 25).
Proof.
  intros y k Hk H.
  destruct (Req_dec (Rabs y) (bpow radix2 k)) as [E|E].
  - assert (N : number_of single y).
    { unfold Rabs in E. destruct (Rcase_abs y) as [C|C].
      - exists (-1)%Z, k. split; [reflexivity|split; [cbn; lia|]]. lra.
      - exists 1%Z, k. split; [reflexivity|split; [cbn; lia|]]. lra. }
    rewrite fl_id by exact N. replace (y - y) with 0 by ring. rewrite Rabs_R0. apply bpow_ge_0.
  - assert (L : Rabs y < bpow radix2 k) by lra.
    apply Rle_trans with (/ 2 * ulp radix2 (ex single) y).
    + apply error_le_half_ulp. typeclasses eauto.
    + destruct (Req_dec y 0) as [Y0|Y0].
      * subst y. rewrite ulp_FLT_small; [|typeclasses eauto|].
        -- cbn [single f_tiny]. replace (/ 2 * bpow radix2 (-149)) with (bpow radix2 (-150)).
           ++ apply bpow_le. lia.
           ++ replace (-149)%Z with (1 + -150)%Z by reflexivity. rewrite bpow_plus.
              replace (bpow radix2 1) with 2 by (cbn; lra). field.
        -- rewrite Rabs_R0. apply bpow_gt_0.
      * rewrite ulp_neq_0 by exact Y0.
        replace (bpow radix2 (k - 25)) with (/ 2 * bpow radix2 (k - 24)).
        -- apply Rmult_le_compat_l; [lra|]. apply bpow_le. unfold cexp, FLT_exp. cbn [single f_tiny f_prec].
           pose proof (mag_le_bpow radix2 y k Y0 L). lia.
        -- replace (k - 24)%Z with (1 + (k - 25))%Z by lia. rewrite bpow_plus.
           replace (bpow radix2 1) with 2 by (cbn; lra). field.
Qed.

(** ** Stamp positions *)
Lemma fl_nonneg : forall f y, 0 <= y -> 0 <= fl f y.
Proof. intros f y H. apply fl_ge_number; [exact H|apply number_0]. Qed.


Lemma axis_start : forall dim y box, 0 <= y -> (2 <= box)%Z ->
  (0 <= a_start (axis_entry dim y box) <= Zfloor (fl single y))%Z /\
  (Zfloor (fl single y) < a_start (axis_entry dim y box) + box)%Z.
Proof.
  intros dim y box Hy Hb. cbn [axis_entry a_start].
  pose proof (fl_nonneg single y Hy) as G.
  rewrite (Ztrunc_floor _ G).
  assert (Z0 : (0 <= Zfloor (fl single y))%Z) by (apply Zfloor_lub; exact G).
  assert (H2 : (1 <= box / 2)%Z) by (apply Z.div_le_lower_bound; lia).
  assert (H3 : (box / 2 * 2 <= box)%Z) by (pose proof (Z.mul_div_le box 2); lia).
  lia.
Qed.

Lemma axis_cut : forall dim y box, 0 <= y <= IZR (2 ^ 24) -> (2 <= box)%Z ->
  a_cut (axis_entry dim y box) + IZR (a_start (axis_entry dim y box)) = fl single y.
Proof.
  intros dim y box [Hy Hm] Hb. destruct (axis_start dim y box Hy Hb) as [[A1 A2] A3].
  set (s := a_start (axis_entry dim y box)) in *.
  change (a_cut (axis_entry dim y box)) with (fl single (fl double (fl single y - IZR s))).
  pose proof (fl_number single y) as N.
  assert (S : 0 <= IZR s <= fl single y).
  { split; [apply IZR_le; exact A1|]. apply Rle_trans with (IZR (Zfloor (fl single y))); [apply IZR_le; exact A2|apply Zfloor_lb]. }
  assert (M : fl single y <= IZR (2 ^ 24)) by (apply fl_le_number; [exact Hm|apply number_Z; reflexivity || (cbn; lia)]).
  assert (N1 : number_of single (fl single y - IZR s)) by (apply sub_exact; [exact N|exact S|exact M]).
  rewrite (fl_id double) by (apply single_double; exact N1).
  rewrite (fl_id single) by exact N1. ring.
Qed.

Lemma stored_in_image : forall y dim, 0 <= y -> y <= IZR dim - / 2 -> (dim <= 2 ^ 23)%Z ->
  (0 <= Zfloor (fl single y) < dim)%Z.
Proof.
  intros y dim Hy Hd Hm.
  assert (D0 : (0 < dim)%Z) by (apply lt_IZR; lra).
  assert (U : fl single y <= IZR (2 * dim - 1) / 2).
  { apply fl_le_number.
    - rewrite minus_IZR, mult_IZR. lra.
    - apply number_single_half. lia. }
  rewrite minus_IZR, mult_IZR in U.
  pose proof (fl_nonneg single y Hy) as G. split; [apply Zfloor_lub; exact G|].
  apply lt_IZR. apply Rle_lt_trans with (fl single y); [apply Zfloor_lb|lra].
Qed.

(** Rational form of a stored number *)
Lemma number_rational : forall f x, number_of f x -> exists q : Q, Q2R q = x.
Proof.
  intros f x (m & e & _ & _ & H).
  destruct (Z.le_gt_cases 0 e) as [He|He].
  - exists (inject_Z (m * 2 ^ e)). unfold Q2R, inject_Z. cbn [Qnum Qden].
    rewrite H, mult_IZR. rewrite <- (IZR_Zpower radix2) by exact He. change (IZR (radix2 ^ e)) with (IZR (2 ^ e)). field.
  - destruct e as [|p|p]; try lia. exists (m # (2 ^ p))%Q. unfold Q2R. cbn [Qnum Qden].
    rewrite H. f_equal. cbn [bpow]. f_equal. rewrite <- Zpower_pos_nat || idtac.
    f_equal. rewrite Pos2Z.inj_pow. reflexivity.
Qed.

Lemma Q2R_Z : forall z, Q2R (inject_Z z) = IZR z.
Proof. intro z. unfold Q2R, inject_Z. cbn [Qnum Qden]. rewrite Rinv_1. ring. Qed.

Lemma floor_Q2R : forall q, Zfloor (Q2R q) = Qfloor q.
Proof.
  intro q. apply Zfloor_imp. rewrite <- !Q2R_Z. split.
  - apply Qle_Rle. apply Qfloor_le.
  - apply Qlt_Rlt. apply Qlt_floor.
Qed.

Lemma trunc_Q2R : forall q, 0 <= Q2R q -> Ztrunc (Q2R q) = Detect_model.qtrunc q.
Proof.
  intros q H. rewrite Ztrunc_floor by exact H. rewrite floor_Q2R. unfold Detect_model.qtrunc, Qfloor.
  destruct q as [n d]. cbn [Qnum Qden]. symmetry. apply Z.quot_div_nonneg; [|lia].
  replace 0 with (Q2R 0) in H by apply RMicromega.Q2R_0. apply Rle_Qle in H. unfold Qle in H. cbn in H. lia.
Qed.

Lemma exact_catalogue : forall dim y box q, 0 <= y <= IZR (2 ^ 24) -> (2 <= box)%Z -> Q2R q = fl single y ->
  forall dimc id number x boxq, boxq = box ->
  let e := Detect_model.make_entry dim dimc id number q x boxq in
  let a := axis_entry dim y box in
  Q2R (Detect_model.e_row e) = a_orig a /\ Detect_model.e_srow e = a_start a /\
  Detect_model.e_erow e = a_end a /\ Q2R (Detect_model.e_crow e) = a_cut a.
Proof.
  intros dim y box q Hy Hb Hq dimc id number x boxq -> e a.
  pose proof (fl_nonneg single y (proj1 Hy)) as G.
  assert (T : Ztrunc (fl single y) = Detect_model.qtrunc q) by (rewrite <- Hq; apply trunc_Q2R; rewrite Hq; exact G).
  assert (S : Detect_model.e_srow e = a_start a).
  { unfold e, a. cbn [Detect_model.make_entry Detect_model.e_srow axis_entry a_start]. rewrite T. reflexivity. }
  split; [exact Hq|]. split; [exact S|]. split.
  - unfold e, a. cbn [Detect_model.make_entry Detect_model.e_erow axis_entry a_end]. rewrite T. reflexivity.
  - pose proof (axis_cut dim y box Hy Hb) as C. fold a in C. rewrite <- S in C.
    unfold e. cbn [Detect_model.make_entry Detect_model.e_crow Detect_model.e_srow] in *.
    rewrite Q2R_minus, Q2R_Z, Hq. unfold e in C. cbn [Detect_model.make_entry Detect_model.e_srow] in C. lra.
Qed.

(** ** Mask lookups *)
Lemma single_multiple : forall r, number_of single r -> / 4 <= Rabs r ->
  exists m, r = IZR m * bpow radix2 (-25).
Proof.
  intros r N H. apply format_number in N.
  assert (R0 : r <> 0) by (intro E; rewrite E, Rabs_R0 in H; lra).
  assert (M : (-1 <= mag radix2 r)%Z).
  { apply mag_ge_bpow || idtac. replace (bpow radix2 (-1 - 1)) with (/ 4) by (cbn; lra). exact H. }
  unfold generic_format in N. rewrite N. unfold F2R. cbn [Fnum Fexp].
  set (z := Ztrunc (scaled_mantissa radix2 (ex single) r)).
  assert (C : (-25 <= cexp radix2 (ex single) r)%Z).
  { unfold cexp, FLT_exp. cbn [single f_tiny f_prec]. lia. }
  exists (z * 2 ^ (cexp radix2 (ex single) r + 25))%Z.
  rewrite mult_IZR, Rmult_assoc. f_equal.
  change (IZR (2 ^ (cexp radix2 (ex single) r + 25))) with (IZR (radix2 ^ (cexp radix2 (ex single) r + 25))).
  rewrite (IZR_Zpower radix2) by lia. rewrite <- bpow_plus. f_equal. lia.
Qed.

Lemma double_quarters : forall n, (Z.abs n < 2 ^ 53)%Z -> number_of double (IZR n / 4).
Proof.
  intros n H. exists n, (-2)%Z. split; [exact H|split; [cbn; lia|]]. cbn. lra.
Qed.

Lemma local_index_exact : forall r s, number_of single r -> Rabs r <= IZR (2 ^ 23) -> (Z.abs s <= 2 ^ 23)%Z ->
  Zfloor (fl double (fl double (r - IZR s) + / 2)) = Zfloor (r - IZR s + / 2).
Proof.
  intros r s N Hr Hs.
  destruct (Rlt_le_dec (Rabs r) (/ 4)) as [C|C].
  - apply Rabs_def2 in C. destruct C as [C1 C2].
    assert (A1 : IZR (- 4 * s - 1) / 4 <= fl double (r - IZR s)).
    { apply fl_ge_number; [rewrite minus_IZR, mult_IZR; lra|apply double_quarters; lia]. }
    assert (A2 : fl double (r - IZR s) <= IZR (- 4 * s + 1) / 4).
    { apply fl_le_number; [rewrite plus_IZR, mult_IZR; lra|apply double_quarters; lia]. }
    rewrite minus_IZR, mult_IZR in A1. rewrite plus_IZR, mult_IZR in A2.
    assert (B1 : IZR (- 4 * s + 1) / 4 <= fl double (fl double (r - IZR s) + / 2)).
    { apply fl_ge_number; [rewrite plus_IZR, mult_IZR; lra|apply double_quarters; lia]. }
    assert (B2 : fl double (fl double (r - IZR s) + / 2) <= IZR (- 4 * s + 3) / 4).
    { apply fl_le_number; [rewrite plus_IZR, mult_IZR; lra|apply double_quarters; lia]. }
    rewrite plus_IZR, mult_IZR in B1, B2.
    transitivity (- s)%Z; [|symmetry]; apply Zfloor_imp; rewrite plus_IZR, opp_IZR; lra.
  - destruct (single_multiple r N C) as [m Hm].
    assert (B : IZR (2 ^ 25) * bpow radix2 (-25) = 1) by (cbn; lra).
    assert (BP : 0 < bpow radix2 (-25)) by apply bpow_gt_0.
    assert (Mb : (Z.abs m <= 2 ^ 48)%Z).
    { apply le_IZR. rewrite abs_IZR. apply Rmult_le_reg_r with (bpow radix2 (-25)); [exact BP|].
      replace (Rabs (IZR m) * bpow radix2 (-25)) with (Rabs r).
      - replace (2 ^ 48)%Z with (2 ^ 23 * 2 ^ 25)%Z by reflexivity. rewrite mult_IZR, Rmult_assoc, B. lra.
      - rewrite Hm, Rabs_mult, (Rabs_pos_eq (bpow radix2 (-25))) by lra. reflexivity. }
    assert (E1 : r - IZR s = IZR (m - s * 2 ^ 25) * bpow radix2 (-25)).
    { rewrite Hm, minus_IZR, mult_IZR. rewrite Rmult_minus_distr_r, Rmult_assoc, B. ring. }
    assert (F1 : fl double (r - IZR s) = r - IZR s).
    { apply fl_id. rewrite E1. apply (number_double_part _ 25); lia. }
    rewrite F1.
    assert (E2 : r - IZR s + / 2 = IZR (m - s * 2 ^ 25 + 2 ^ 24) * bpow radix2 (-25)).
    { rewrite E1, plus_IZR, Rmult_plus_distr_r. f_equal. replace (2 ^ 24)%Z with 16777216%Z by reflexivity. cbn. lra. }
    rewrite E2 at 1. rewrite (fl_id double) by (apply (number_double_part _ 25); lia). rewrite <- E2. reflexivity.
Qed.

Lemma fl_single_bound : forall y n, (Z.abs n < 2 ^ 24)%Z -> Rabs y <= IZR n -> Rabs (fl single y) <= IZR n.
Proof.
  intros y n Hn H. apply Rabs_le_inv in H. apply Rabs_le. split.
  - apply fl_ge_number; [lra|]. rewrite <- opp_IZR. apply number_Z. cbn [single f_prec]. lia.
  - apply fl_le_number; [lra|]. apply number_Z. cbn [single f_prec]. lia.
Qed.

Lemma local_pixel_floor : forall pos s, Rabs pos <= IZR (2 ^ 23) -> (Z.abs s <= 2 ^ 23)%Z ->
  local_pixel pos s = Zfloor (fl single pos - IZR s + / 2).
Proof.
  intros pos s Hp Hs. unfold local_pixel. apply local_index_exact; [apply fl_number| |exact Hs].
  apply fl_single_bound; [reflexivity|exact Hp].
Qed.

Lemma local_pixel_nearest : forall pos s q, Rabs pos <= IZR (2 ^ 23) -> (Z.abs s <= 2 ^ 23)%Z -> Q2R q = fl single pos ->
  local_pixel pos s = Lmdet_model.nearest (q - inject_Z s).
Proof.
  intros pos s q Hp Hs Hq. rewrite local_pixel_floor by assumption. unfold Lmdet_model.nearest.
  rewrite <- floor_Q2R, Q2R_plus, Q2R_minus, Q2R_Z, Hq. f_equal. unfold Q2R. cbn [Qnum Qden]. lra.
Qed.

Lemma local_pixel_covers : forall pos s, Rabs pos <= IZR (2 ^ 23) -> (Z.abs s <= 2 ^ 23)%Z ->
  pixel_at (local_pixel pos s) (fl single pos - IZR s).
Proof.
  intros pos s Hp Hs. rewrite local_pixel_floor by assumption. unfold pixel_at.
  pose proof (Zfloor_lb (fl single pos - IZR s + / 2)). pose proof (Zfloor_ub (fl single pos - IZR s + / 2)). lra.
Qed.

Lemma pixel_at_unique : forall n m x, pixel_at n x -> pixel_at m x -> n = m.
Proof.
  intros n m x [A1 A2] [B1 B2].
  assert (H1 : (n < m + 1)%Z) by (apply lt_IZR; rewrite plus_IZR; lra).
  assert (H2 : (m < n + 1)%Z) by (apply lt_IZR; rewrite plus_IZR; lra). lia.
Qed.

Lemma local_pixel_safe : forall pos s n k, (-100 <= k <= 23)%Z -> Rabs pos <= bpow radix2 k -> (Z.abs s <= 2 ^ 23)%Z ->
  IZR n - / 2 + bpow radix2 (k - 25) <= pos - IZR s < IZR n + / 2 - bpow radix2 (k - 25) ->
  local_pixel pos s = n.
Proof.
  intros pos s n k Hk Hp Hs H.
  assert (Hp' : Rabs pos <= IZR (2 ^ 23)).
  { apply Rle_trans with (bpow radix2 k); [exact Hp|]. change (IZR (2 ^ 23)) with (bpow radix2 23). apply bpow_le. lia. }
  pose proof (fl_single_error pos k (proj1 Hk) Hp) as E. apply Rabs_le_inv in E.
  apply (pixel_at_unique _ _ (fl single pos - IZR s)); [apply local_pixel_covers; assumption|].
  unfold pixel_at. lra.
Qed.

Lemma local_pixel_close : forall pos s k, (-100 <= k <= 23)%Z -> Rabs pos <= bpow radix2 k -> (Z.abs s <= 2 ^ 23)%Z ->
  Rabs (pos - IZR s - IZR (local_pixel pos s)) <= / 2 + bpow radix2 (k - 25).
Proof.
  intros pos s k Hk Hp Hs.
  assert (Hp' : Rabs pos <= IZR (2 ^ 23)).
  { apply Rle_trans with (bpow radix2 k); [exact Hp|]. change (IZR (2 ^ 23)) with (bpow radix2 23). apply bpow_le. lia. }
  pose proof (fl_single_error pos k (proj1 Hk) Hp) as E. apply Rabs_le_inv in E.
  destruct (local_pixel_covers pos s Hp' Hs) as [A B]. apply Rabs_le. lra.
Qed.

(** Just below the edge of an image of 100 rows. *)
Lemma single_edge : fl single (199 / 2 - bpow radix2 (-30)) = 199 / 2.
Proof.
  set (y := 199 / 2 - bpow radix2 (-30)).
  pose proof (fl_nearest single y) as [N C]. set (r := fl single y) in *.
  assert (N2 : number_of single (199 / 2)) by (apply (number_single_half 199); reflexivity).
  specialize (C _ N2).
  assert (B30 : bpow radix2 (-30) = / 1073741824) by (cbn; lra).
  assert (B25 : bpow radix2 (-25) = / 33554432) by (cbn; lra).
  replace (199 / 2 - y) with (bpow radix2 (-30)) in C by (unfold y; ring).
  rewrite (Rabs_pos_eq (bpow radix2 (-30))) in C by (apply bpow_ge_0). apply Rabs_le_inv in C.
  unfold y in C. rewrite B30 in C.
  destruct (single_multiple r N) as [m Hm].
  { apply Rle_trans with r; [lra|apply Rle_abs]. }
  rewrite B25 in Hm.
  assert (L1 : (m < 199 * 16777216 + 1)%Z) by (apply lt_IZR; rewrite plus_IZR, mult_IZR; lra).
  assert (L2 : (199 * 16777216 - 1 < m)%Z) by (apply lt_IZR; rewrite minus_IZR, mult_IZR; lra).
  assert (M : m = (199 * 16777216)%Z) by lia. rewrite Hm, M, mult_IZR. lra.
Qed.

Lemma edge_index : local_pixel (199 / 2 - bpow radix2 (-30)) 0 = 100%Z.
Proof.
  assert (B30 : bpow radix2 (-30) = / 1073741824) by (cbn; lra).
  rewrite local_pixel_floor.
  - rewrite single_edge. apply Zfloor_imp. change (100 + 1)%Z with 101%Z. lra.
  - rewrite B30. apply Rabs_le. change (2 ^ 23)%Z with 8388608%Z. lra.
  - reflexivity || (cbn; lia).
Qed.

(** ** The clipped lookup *)
Lemma nearestE_half : forall x, Rabs (IZR (ZnearestE x) - x) <= / 2.
Proof. intro x. rewrite Rabs_minus_sym. apply Znearest_half. Qed.

Lemma clipped_covers : forall pos dim, (0 < dim <= 2 ^ 23)%Z -> - / 2 <= pos <= IZR dim - / 2 ->
  (0 <= clipped_pixel pos dim < dim)%Z /\ Rabs (fl single pos - IZR (clipped_pixel pos dim)) <= / 2.
Proof.
  intros pos dim Hd [P1 P2].
  assert (R1 : IZR (-1) / 2 <= fl single pos) by (apply fl_ge_number; [lra|apply number_single_half; reflexivity]).
  assert (R2 : fl single pos <= IZR (2 * dim - 1) / 2).
  { apply fl_le_number; [rewrite minus_IZR, mult_IZR; lra|apply number_single_half; lia]. }
  rewrite minus_IZR, mult_IZR in R2.
  pose proof (nearestE_half (fl single pos)) as H. apply Rabs_le_inv in H.
  unfold clipped_pixel. set (n := ZnearestE (fl single pos)) in *.
  split; [lia|]. apply Rabs_le.
  destruct (Z.lt_ge_cases n 0) as [L|L].
  - assert (U : IZR n <= -1) by (apply IZR_le; lia).
    replace (Z.min (Z.max n 0) (dim - 1)) with 0%Z by lia. lra.
  - destruct (Z.lt_ge_cases (dim - 1) n) as [G|G].
    + assert (U : IZR dim <= IZR n) by (apply IZR_le; lia).
      replace (Z.min (Z.max n 0) (dim - 1)) with (dim - 1)%Z by lia. rewrite minus_IZR. lra.
    + replace (Z.min (Z.max n 0) (dim - 1)) with n by lia. lra.
Qed.

Lemma rint_Q2R : forall q, ZnearestE (Q2R q) = Summ_model.qrint q.
Proof.
  intro q. unfold Summ_model.qrint, ZnearestE, Znearest. rewrite floor_Q2R.
  set (n := Qfloor q).
  assert (D : Q2R (q - inject_Z n) = Q2R q - IZR n) by (rewrite Q2R_minus, Q2R_Z; reflexivity).
  assert (Hh : Q2R (1 # 2) = / 2) by (unfold Q2R; cbn [Qnum Qden]; lra).
  destruct (Qle_bool (1 # 2) (q - inject_Z n)) eqn:A.
  - apply Qle_bool_iff in A. apply Qle_Rle in A. rewrite D, Hh in A.
    destruct (Qle_bool (q - inject_Z n) (1 # 2)) eqn:B.
    + apply Qle_bool_iff in B. apply Qle_Rle in B. rewrite D, Hh in B.
      rewrite Rcompare_Eq by lra. destruct (Z.even n) eqn:E; cbn [negb]; [reflexivity|].
      unfold n in *. rewrite <- floor_Q2R in *. apply Zceil_floor_neq. intro C. rewrite C in A. lra.
    + assert (B' : (1 # 2 < q - inject_Z n)%Q).
      { apply Qnot_le_lt. intro C. apply Qle_bool_iff in C. congruence. }
      apply Qlt_Rlt in B'. rewrite D, Hh in B'. rewrite Rcompare_Gt by lra.
      unfold n in *. rewrite <- floor_Q2R in *. apply Zceil_floor_neq. intro C. rewrite C in A. lra.
  - assert (A' : (q - inject_Z n < 1 # 2)%Q).
    { apply Qnot_le_lt. intro C. apply Qle_bool_iff in C. congruence. }
    apply Qlt_Rlt in A'. rewrite D, Hh in A'. rewrite Rcompare_Lt by lra. reflexivity.
Qed.

Lemma clipped_exact : forall pos dim q, Q2R q = fl single pos ->
  clipped_pixel pos dim = Summ_model.clip_and_round q dim.
Proof.
  intros pos dim q H. unfold clipped_pixel, Summ_model.clip_and_round. rewrite <- H, rint_Q2R. reflexivity.
Qed.

(** ** Averages *)
Lemma fold_fsum_number : forall f l a, number_of f a ->
  number_of f (fold_left (fun a x => fl f (a + x)) l a).
Proof.
  intros f l. induction l as [|x l IH]; intros a H; cbn [fold_left]; [exact H|]. apply IH. apply fl_number.
Qed.
Lemma fold_fsum_ge : forall f l a, number_of f a -> Forall (fun w => 0 <= w) l ->
  a <= fold_left (fun a x => fl f (a + x)) l a.
Proof.
  intros f l. induction l as [|x l IH]; intros a H F; cbn [fold_left]; [lra|].
  inversion F; subst. apply Rle_trans with (fl f (a + x)).
  - apply fl_ge_number; [lra|exact H].
  - apply IH; [apply fl_number|assumption].
Qed.

Lemma fold_le : forall f l a b, weights_ok f l -> number_of f b -> 0 <= a <= b ->
  0 <= fold_left (fun a wv => match snd wv with Some v => fl f (a + fl f (v * fst wv)) | None => a end) l a <=
  fold_left (fun a x => fl f (a + x)) (map fst l) b.
Proof.
  intros f l. induction l as [|[w [v|]] l IH]; intros a b F N H; cbn [fold_left map fst snd]; [lra| |].
  - inversion F as [|? ? (Nw & W0 & V) F']; subst. cbn [fst snd] in *. apply IH; [exact F'|apply fl_number|].
    assert (P : 0 <= fl f (v * w) <= w).
    { split; [apply fl_nonneg; apply Rmult_le_pos; lra|]. apply fl_le_number; [|exact Nw].
      replace w with (1 * w) at 2 by ring. apply Rmult_le_compat_r; lra. }
    split; [apply fl_nonneg; lra|]. apply fl_le. lra.
  - inversion F as [|? ? (Nw & W0 & _) F']; subst. cbn [fst snd] in *. apply IH; [exact F'|apply fl_number|].
    split; [lra|]. apply Rle_trans with b; [lra|]. apply fl_ge_number; [lra|exact N].
Qed.

Lemma fwsum_le : forall f l, weights_ok f l -> 0 <= fwsum f l <= fsum f (map fst l).
Proof. intros f l H. apply fold_le; [exact H|apply number_0|lra]. Qed.

Lemma number_1 : forall f, number_of f 1.
Proof. intro f. apply number_Z. pose proof (Z.pow_pos_nonneg 2 (Zpos (f_prec f)) ltac:(lia) ltac:(lia)). lia. Qed.

Lemma ratio_unit : forall f a w, 0 <= a <= w -> 0 < w -> 0 <= fl f (a / w) <= 1.
Proof.
  intros f a w [A B] W. split.
  - apply fl_nonneg. unfold Rdiv. apply Rmult_le_pos; [lra|left; apply Rinv_0_lt_compat; lra].
  - apply fl_le_number; [|apply number_1]. apply Rmult_le_reg_r with w; [exact W|].
    unfold Rdiv. rewrite Rmult_assoc, Rinv_l by lra. lra.
Qed.

Lemma band_mean_unit : forall f l, weights_ok f l -> 0 <= band_mean f l <= 1.
Proof.
  intros f l H. unfold band_mean. destruct (Rlt_dec 0 (fsum f (map fst l))) as [P|P]; [|lra].
  apply ratio_unit; [apply fwsum_le; exact H|exact P].
Qed.

Lemma fold_all_one : forall f l a, weights_ok f l -> Forall (fun wv => snd wv = Some 1) l ->
  fold_left (fun a wv => match snd wv with Some v => fl f (a + fl f (v * fst wv)) | None => a end) l a =
  fold_left (fun a x => fl f (a + x)) (map fst l) a.
Proof.
  intros f l. induction l as [|[w o] l IH]; intros a F V; cbn [fold_left map fst snd]; [reflexivity|].
  inversion F as [|? ? (Nw & _ & _) F']; inversion V as [|? ? E V']; subst. cbn [fst snd] in *. subst o.
  rewrite Rmult_1_l, (fl_id f w Nw). apply IH; assumption.
Qed.

Lemma band_mean_one : forall f l, weights_ok f l -> Forall (fun wv => snd wv = Some 1) l -> band_mean f l = 1.
Proof.
  intros f l H V. unfold band_mean. destruct (Rlt_dec 0 (fsum f (map fst l))) as [P|P]; [|reflexivity].
  unfold fwsum. rewrite fold_all_one by assumption. fold (fsum f (map fst l)).
  unfold Rdiv. rewrite Rinv_r by lra. apply fl_id. apply number_1.
Qed.

Lemma fold_all_zero : forall f l, Forall (fun wv : R * option R => snd wv = Some 0 \/ snd wv = None) l ->
  fold_left (fun a wv => match snd wv with Some v => fl f (a + fl f (v * fst wv)) | None => a end) l 0 = 0.
Proof.
  intros f l. induction l as [|[w o] l IH]; intro V; cbn [fold_left snd fst]; [reflexivity|].
  inversion V as [|? ? E V']; subst. cbn [snd] in E. destruct E as [-> | ->]; [|apply IH; exact V'].
  rewrite Rmult_0_l, (fl_id f 0 (number_0 f)), Rplus_0_l, (fl_id f 0 (number_0 f)). apply IH. exact V'.
Qed.

Lemma fsum_pos : forall f l, Forall (fun w => number_of f w /\ 0 <= w) l -> Exists (fun w => 0 < w) l -> 0 < fsum f l.
Proof.
  intros f l. unfold fsum. assert (G : forall l a, 0 <= a -> number_of f a -> Forall (fun w => number_of f w /\ 0 <= w) l ->
    0 < a \/ Exists (fun w => 0 < w) l -> 0 < fold_left (fun a x => fl f (a + x)) l a).
  { clear l. intro l. induction l as [|w l IH]; intros a A N F E; cbn [fold_left].
    - destruct E as [E|E]; [exact E|inversion E].
    - inversion F as [|? ? [Nw W0] F']; subst. apply IH; [apply fl_nonneg; lra|apply fl_number|exact F'|].
      destruct E as [E|E].
      + left. apply Rlt_le_trans with a; [exact E|]. apply fl_ge_number; [lra|exact N].
      + inversion E as [? ? E'|? ? E']; subst.
        * left. apply Rlt_le_trans with w; [exact E'|]. apply fl_ge_number; [lra|exact Nw].
        * right. exact E'. }
  intros F E. apply G; [lra|apply number_0|exact F|right; exact E].
Qed.

Lemma band_mean_zero : forall f l, weights_ok f l -> Forall (fun wv => snd wv = Some 0 \/ snd wv = None) l ->
  Exists (fun wv => 0 < fst wv) l -> band_mean f l = 0.
Proof.
  intros f l H V E. unfold band_mean. destruct (Rlt_dec 0 (fsum f (map fst l))) as [P|P].
  - unfold fwsum. rewrite fold_all_zero by exact V. unfold Rdiv. rewrite Rmult_0_l. apply fl_id. apply number_0.
  - exfalso. apply P. apply fsum_pos.
    + apply Forall_map. eapply Forall_impl; [|exact H]. intros a (A & B & _). split; assumption.
    + apply Exists_exists in E. destruct E as (x & I & L). apply Exists_exists. exists (fst x).
      split; [apply in_map; exact I|exact L].
Qed.

(** One and half of its last place rounds to one. *)
Lemma fl_tie : forall f, (2 <= Zpos (f_prec f) <= Zpos (f_tiny f))%Z -> fl f (1 + bpow radix2 (- Zpos (f_prec f))) = 1.
Proof.
  intros f [Hp Ht]. set (p := Zpos (f_prec f)) in *.
  set (x := 1 + bpow radix2 (- p)).
  assert (B : 0 < bpow radix2 (- p)) by apply bpow_gt_0.
  assert (B1 : bpow radix2 (- p) < 1) by (change 1 with (bpow radix2 0); apply bpow_lt; lia).
  assert (M : mag radix2 x = 1%Z :> Z).
  { apply mag_unique_pos. change (bpow radix2 (1 - 1)) with 1. change (bpow radix2 1) with (IZR 2). unfold x. lra. }
  assert (C : cexp radix2 (ex f) x = (1 - p)%Z).
  { unfold cexp. rewrite M. unfold FLT_exp. fold p. 
    destruct (Z.max_spec (1 - p) (Zneg (f_tiny f))) as [[L E]|[L E]]; rewrite E; [|reflexivity].
    exfalso. lia. }
  unfold fl, round, scaled_mantissa. rewrite C.
  assert (S : x * bpow radix2 (- (1 - p)) = IZR (2 ^ (p - 1)) + / 2).
  { unfold x. rewrite Rmult_plus_distr_r, Rmult_1_l, <- bpow_plus.
    replace (- (1 - p))%Z with (p - 1)%Z by lia. replace (- p + (p - 1))%Z with (-1)%Z by lia.
    change (IZR (2 ^ (p - 1))) with (IZR (radix2 ^ (p - 1))). rewrite (IZR_Zpower radix2) by lia. cbn. lra. }
  rewrite S.
  assert (Z1 : ZnearestE (IZR (2 ^ (p - 1)) + / 2) = (2 ^ (p - 1))%Z).
  { unfold ZnearestE, Znearest.
    assert (Fl : Zfloor (IZR (2 ^ (p - 1)) + / 2) = (2 ^ (p - 1))%Z) by (apply Zfloor_imp; rewrite plus_IZR; lra).
    rewrite Fl, Rcompare_Eq by lra.
    assert (Ev : Z.even (2 ^ (p - 1)) = true) by (rewrite Z.even_pow by lia; reflexivity).
    rewrite Ev. reflexivity. }
  rewrite Z1. unfold F2R. cbn [Fnum Fexp].
  change (IZR (2 ^ (p - 1))) with (IZR (radix2 ^ (p - 1))). rewrite (IZR_Zpower radix2) by lia.
  rewrite <- bpow_plus. replace (p - 1 + (1 - p))%Z with 0%Z by lia. reflexivity.
Qed.

Lemma recip_unit : forall f a w, (2 <= Zpos (f_prec f) <= Zpos (f_tiny f))%Z ->
  0 <= a <= w -> 0 < w <= bpow radix2 (Zpos (f_tiny f) - Zpos (f_prec f)) ->
  0 <= fl f (a * fl f (1 / w)) <= 1.
Proof.
  intros f a w Hp [A B] [W1 W2].
  assert (I0 : 0 < 1 / w) by (unfold Rdiv; rewrite Rmult_1_l; apply Rinv_0_lt_compat; exact W1).
  assert (N0 : 0 <= fl f (1 / w)) by (apply fl_nonneg; lra).
  split; [apply fl_nonneg; apply Rmult_le_pos; lra|].
  apply Rle_trans with (fl f (1 + bpow radix2 (- Zpos (f_prec f)))); [|right; apply fl_tie; exact Hp]. apply fl_le.
  apply Rle_trans with (w * fl f (1 / w)); [apply Rmult_le_compat_r; lra|].
  assert (E : Rabs (fl f (1 / w) - 1 / w) <= / 2 * bpow radix2 (- Zpos (f_prec f) + 1) * Rabs (1 / w)).
  { apply relative_error_N_FLT; [reflexivity|]. rewrite Rabs_pos_eq by lra.
    unfold Rdiv. rewrite Rmult_1_l. rewrite <- (Rinv_inv (bpow radix2 _)).
    apply Rinv_le; [exact W1|]. rewrite <- bpow_opp.
    apply Rle_trans with (1 := W2). apply bpow_le. lia. }
  rewrite (Rabs_pos_eq (1 / w)) in E by lra. apply Rabs_le_inv in E. destruct E as [_ E].
  rewrite bpow_plus in E. change (bpow radix2 1) with 2 in E.
  assert (E' : fl f (1 / w) <= 1 / w * (1 + bpow radix2 (- Zpos (f_prec f)))) by lra.
  apply Rle_trans with (w * (1 / w * (1 + bpow radix2 (- Zpos (f_prec f))))); [apply Rmult_le_compat_l; lra|].
  right. field. lra.
Qed.

Lemma pair_weights : forall f (l : list (R * R)),
  Forall (fun wv => number_of f (fst wv) /\ 0 <= fst wv /\ 0 <= snd wv <= 1) l ->
  weights_ok f (map (fun wv => (fst wv, Some (snd wv))) l).
Proof. intros f l H. apply Forall_map. exact H. Qed.
Lemma pair_map : forall l : list (R * R), map fst (map (fun wv => (fst wv, Some (snd wv))) l) = map fst l.
Proof. intro l. rewrite map_map. reflexivity. Qed.

Lemma recip_mean_unit : forall f l, (2 <= Zpos (f_prec f) <= Zpos (f_tiny f))%Z ->
  Forall (fun wv => number_of f (fst wv) /\ 0 <= fst wv /\ 0 <= snd wv <= 1) l ->
  0 < fsum f (map fst l) <= bpow radix2 (Zpos (f_tiny f) - Zpos (f_prec f)) ->
  0 <= recip_mean f l <= 1.
Proof.
  intros f l Hp H W. unfold recip_mean. apply recip_unit; [exact Hp| |exact W].
  pose proof (fwsum_le f _ (pair_weights f l H)) as B. rewrite pair_map in B. exact B.
Qed.

Lemma pixel_mean_unit : forall f l,
  Forall (fun wv => number_of f (fst wv) /\ 0 <= fst wv /\ 0 <= snd wv <= 1) l ->
  Exists (fun wv => 0 < fst wv) l -> 0 <= pixel_mean f l <= 1.
Proof.
  intros f l H E. unfold pixel_mean. apply ratio_unit.
  - pose proof (fwsum_le f _ (pair_weights f l H)) as B. rewrite pair_map in B. exact B.
  - apply fsum_pos.
    + apply Forall_map. eapply Forall_impl; [|exact H]. intros x (A & B & _). split; assumption.
    + apply Exists_exists in E. destruct E as (x & I & L). apply Exists_exists. exists (fst x).
      split; [apply in_map; exact I|exact L].
Qed.

Lemma tsum_unit : forall f t, (Z.of_nat (List.length (leaves t)) <= 2 ^ Zpos (f_prec f))%Z ->
  Forall (fun x => 0 <= x <= 1) (leaves t) ->
  0 <= tsum f t <= IZR (Z.of_nat (List.length (leaves t))).
Proof.
  intros f t. induction t as [x|a IHa b IHb]; intros L F; cbn [leaves tsum List.length] in *.
  - inversion F; subst. cbn. lra.
  - rewrite app_length, Nat2Z.inj_add in L. apply Forall_app in F. destruct F as [Fa Fb].
    specialize (IHa ltac:(lia) Fa). specialize (IHb ltac:(lia) Fb).
    split; [apply fl_nonneg; lra|].
    apply fl_le_number; [rewrite app_length, Nat2Z.inj_add, plus_IZR; lra|].
    apply number_Z. rewrite app_length, Nat2Z.inj_add. lia.
Qed.

Lemma leaves_nonempty : forall t, (0 < List.length (leaves t))%nat.
Proof. intro t. induction t as [x|a IHa b IHb]; cbn [leaves List.length]; [lia|rewrite app_length; lia]. Qed.

Lemma image_mean_unit : forall f t, (Z.of_nat (List.length (leaves t)) <= 2 ^ Zpos (f_prec f))%Z ->
  Forall (fun x => 0 <= x <= 1) (leaves t) -> 0 <= image_mean f t <= 1.
Proof.
  intros f t L F. unfold image_mean. pose proof (tsum_unit f t L F) as S.
  assert (P : 0 < IZR (Z.of_nat (List.length (leaves t)))) by (apply IZR_lt; pose proof (leaves_nonempty t); lia).
  pose proof (ratio_unit f _ _ S P) as R.
  split; [apply fl_nonneg; lra|apply fl_le_number; [lra|apply number_1]].
Qed.

(** Sums of integers are exact, so 0/1 maps give the rounded quotient. *)
Lemma tsum_counts : forall f t, (Z.of_nat (List.length (leaves t)) <= 2 ^ Zpos (f_prec f))%Z ->
  Forall (fun x => x = 0 \/ x = 1) (leaves t) ->
  tsum f t = IZR (Z.of_nat (count_occ Req_EM_T (leaves t) 1)).
Proof.
  intros f t. induction t as [x|a IHa b IHb]; intros L F; cbn [leaves tsum] in *.
  - inversion F as [|? ? [E|E] _]; subst; cbn [count_occ].
    + destruct (Req_EM_T 0 1) as [C|C]; [lra|reflexivity].
    + destruct (Req_EM_T 1 1) as [C|C]; [reflexivity|contradiction].
  - rewrite app_length, Nat2Z.inj_add in L. apply Forall_app in F. destruct F as [Fa Fb].
    rewrite (IHa ltac:(lia) Fa), (IHb ltac:(lia) Fb), count_occ_app, Nat2Z.inj_add, <- plus_IZR.
    apply fl_id. apply number_Z.
    pose proof (count_occ_bound Req_EM_T 1 (leaves a)). pose proof (count_occ_bound Req_EM_T 1 (leaves b)). lia.
Qed.

(** ** The LSST mean of a pixel that is masked in every band *)
Lemma fl_at : forall f x c m, 0 < x -> bpow radix2 (c + Zpos (f_prec f) - 1) <= x < bpow radix2 (c + Zpos (f_prec f)) ->
  (Zneg (f_tiny f) <= c)%Z -> Rabs (x * bpow radix2 (- c) - IZR m) < / 2 -> fl f x = IZR m * bpow radix2 c.
Proof.
  intros f x c m X0 X C H. unfold fl, round, scaled_mantissa.
  assert (M : mag radix2 x = (c + Zpos (f_prec f))%Z :> Z) by (apply mag_unique_pos; exact X).
  assert (E : cexp radix2 (ex f) x = c) by (unfold cexp, FLT_exp; rewrite M; lia).
  rewrite E. unfold F2R. cbn [Fnum Fexp]. f_equal. f_equal. apply Znearest_imp. exact H.
Qed.

Lemma recip_one_low : forall f w, (2 <= Zpos (f_prec f) <= Zpos (f_tiny f))%Z ->
  0 < w <= bpow radix2 (Zpos (f_tiny f) - Zpos (f_prec f)) ->
  1 - bpow radix2 (- Zpos (f_prec f)) <= fl f (w * fl f (1 / w)).
Proof.
  intros f w Hp [W1 W2].
  assert (I0 : 0 < 1 / w) by (unfold Rdiv; rewrite Rmult_1_l; apply Rinv_0_lt_compat; exact W1).
  assert (E : Rabs (fl f (1 / w) - 1 / w) <= / 2 * bpow radix2 (- Zpos (f_prec f) + 1) * Rabs (1 / w)).
  { apply relative_error_N_FLT; [reflexivity|]. rewrite Rabs_pos_eq by lra.
    unfold Rdiv. rewrite Rmult_1_l. rewrite <- (Rinv_inv (bpow radix2 _)).
    apply Rinv_le; [exact W1|]. rewrite <- bpow_opp.
    apply Rle_trans with (1 := W2). apply bpow_le. lia. }
  rewrite (Rabs_pos_eq (1 / w)) in E by lra. apply Rabs_le_inv in E. destruct E as [E _].
  rewrite bpow_plus in E. change (bpow radix2 1) with 2 in E.
  assert (E' : 1 / w * (1 - bpow radix2 (- Zpos (f_prec f))) <= fl f (1 / w)) by lra.
  apply fl_ge_number.
  - apply Rle_trans with (w * (1 / w * (1 - bpow radix2 (- Zpos (f_prec f))))); [right; field; lra|].
    apply Rmult_le_compat_l; lra.
  - exists (2 ^ Zpos (f_prec f) - 1)%Z, (- Zpos (f_prec f))%Z.
    assert (P : (0 < 2 ^ Zpos (f_prec f))%Z) by (apply Z.pow_pos_nonneg; lia).
    split; [lia|split; [lia|]]. rewrite minus_IZR, Rmult_minus_distr_r, Rmult_1_l.
    change (IZR (2 ^ Zpos (f_prec f))) with (IZR (radix2 ^ Zpos (f_prec f))).
    rewrite (IZR_Zpower radix2) by lia. rewrite <- bpow_plus.
    replace (Zpos (f_prec f) + - Zpos (f_prec f))%Z with 0%Z by lia. reflexivity.
Qed.

Lemma fwsum_ones : forall f (l : list (R * R)), Forall (fun wv => number_of f (fst wv) /\ snd wv = 1) l ->
  fwsum f (map (fun wv => (fst wv, Some (snd wv))) l) = fsum f (map fst l).
Proof.
  intros f l H. unfold fwsum, fsum. generalize 0. induction l as [|[w v] l IH]; intro a; cbn [map fold_left fst snd]; [reflexivity|].
  inversion H as [|? ? [N E] H']; subst. cbn [fst snd] in *. subst v. rewrite Rmult_1_l, (fl_id f w N). apply IH. exact H'.
Qed.

Lemma recip_mean_ones : forall f l, (2 <= Zpos (f_prec f) <= Zpos (f_tiny f))%Z ->
  Forall (fun wv => number_of f (fst wv) /\ snd wv = 1) l ->
  0 < fsum f (map fst l) <= bpow radix2 (Zpos (f_tiny f) - Zpos (f_prec f)) ->
  1 - bpow radix2 (- Zpos (f_prec f)) <= recip_mean f l.
Proof.
  intros f l Hp H W. unfold recip_mean. rewrite (fwsum_ones f l H). apply recip_one_low; assumption.
Qed.

Lemma recip_41 : recip_mean single [(41, 1)] < 1.
Proof.
  unfold recip_mean. rewrite fwsum_ones.
  2: { constructor; [|constructor]. cbn [fst snd]. split; [|reflexivity]. apply number_Z. cbn [single f_prec]. lia. }
  assert (S : fsum single (map fst [(41, 1)]) = 41).
  { unfold fsum. cbn [map fst fold_left]. rewrite Rplus_0_l. apply fl_id. apply number_Z. cbn [single f_prec]. lia. }
  rewrite S.
  assert (B1 : bpow radix2 (- (-29)) = 536870912) by (cbn; lra).
  assert (B2 : bpow radix2 (-29) = / 536870912) by (cbn; lra).
  assert (B3 : bpow radix2 (- (-24)) = 16777216) by (cbn; lra).
  assert (B4 : bpow radix2 (-24) = / 16777216) by (cbn; lra).
  assert (E1 : fl single (1 / 41) = 13094412 * bpow radix2 (-29)).
  { apply (fl_at single (1 / 41) (-29) 13094412); cbn [single f_prec f_tiny].
    - lra.
    - replace (bpow radix2 (-29 + 24 - 1)) with (/ 64) by (cbn; lra).
      replace (bpow radix2 (-29 + 24)) with (/ 32) by (cbn; lra). lra.
    - lia.
    - rewrite B1. apply Rabs_def1; lra. }
  rewrite E1, B2.
  assert (E2 : fl single (41 * (13094412 * / 536870912)) = 16777215 * bpow radix2 (-24)).
  { apply (fl_at single _ (-24) 16777215); cbn [single f_prec f_tiny].
    - lra.
    - replace (bpow radix2 (-24 + 24 - 1)) with (/ 2) by (cbn; lra).
      replace (bpow radix2 (-24 + 24)) with 1 by (cbn; lra). lra.
    - lia.
    - rewrite B3. apply Rabs_def1; lra. }
  rewrite E2, B4. lra.
Qed.
