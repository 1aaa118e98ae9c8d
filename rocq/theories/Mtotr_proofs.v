(** Proofs for C139: unsheared positions at the edge of a large image. *)
From Coq Require Import Reals List String Bool ZArith Lia Lra.
From Verif Require Import Base Shearpos_model.
Import ListNotations.
Local Open Scope string_scope.
Local Open Scope R_scope.

(** The "1p" transformation of the row for pixels of one size. *)
Lemma unshear_1p : forall r0 c0 sc g row col dr dc, sc <> 0 -> -1 < g < 1 ->
  unshear_positions [(row, col)] "1p" (mkJac r0 c0 sc 0 0 sc) (dr, dc) g =
  Ok [((dr - 1) / 2 + sqrt (1 - g * g) / (1 - g) * (row - (dr - 1) / 2),
       (dc - 1) / 2 + sqrt (1 - g * g) / (1 + g) * (col - (dc - 1) / 2))].
Proof.
  intros r0 c0 sc g row col dr dc Hs Hg. unfold unshear_positions, get_galsim_shear. cbn [in_skip existsb SKIP_SHEARS String.eqb Ascii.eqb Bool.eqb orb].
  unfold galsim_shear. destruct (Rlt_dec 1 (g * g + 0 * 0)) as [H|_]; [exfalso; nra|]. cbn [obind].
  unfold get_matrix, mat_inv. replace (1 - (g * g + 0 * 0)) with (1 - g * g) by ring.
  assert (Q : 0 < sqrt (1 - g * g)) by (apply sqrt_lt_R0; nra). assert (QQ : sqrt (1 - g * g) * sqrt (1 - g * g) = 1 - g * g) by (apply sqrt_sqrt; nra).
  set (q := sqrt (1 - g * g)) in *. clearbody q.
  assert (D : mat_det (mkMat ((1 + g) * / q) (0 * / q) (0 * / q) ((1 - g) * / q)) = 1).
  { unfold mat_det. cbn [m00 m01 m10 m11]. replace ((1 + g) * / q * ((1 - g) * / q) - 0 * / q * (0 * / q)) with ((1 - g * g) / (q * q)) by (field; lra).
    rewrite QQ. field. nra. }
  rewrite D. destruct (Req_EM_T 1 0) as [X|_]; [lra|]. cbn [obind map]. f_equal. f_equal.
  unfold transform_pos, get_vu, get_rowcol, jdet. cbn [dvdrow dvdcol dudrow dudcol row0 col0 m00 m01 m10 m11 fst snd].
  assert (E1 : (1 + g) * / q / 1 = q / (1 - g)).
  { apply Rmult_eq_reg_r with (q * (1 - g)); [|nra]. field_simplify; [|lra|lra]. replace (q ^ 2) with (q * q) by ring. rewrite QQ. ring. }
  assert (E2 : (1 - g) * / q / 1 = q / (1 + g)).
  { apply Rmult_eq_reg_r with (q * (1 + g)); [|nra]. field_simplify; [|lra|lra]. replace (q ^ 2) with (q * q) by ring. rewrite QQ. ring. }
  rewrite E1, E2. f_equal; field; repeat split; lra.
Qed.
Lemma large_far : forall N col dc r0 c0 sc, (3600 <= N <= 9000)%Z -> sc <> 0 ->
  exists r' c' n, unshear_positions [(IZR (N - 1), col)] "1p" (mkJac r0 c0 sc 0 0 sc) (IZR N, dc) (1 / 100) = Ok [(r', c')] /\
    IZR n <= r' < IZR (n + 1) /\ (N < n - 32 / 2 + 1 < N + 32)%Z.
Proof.
  intros N col dc r0 c0 sc HN Hs. rewrite unshear_1p by lra.
  set (q := sqrt (1 - 1 / 100 * (1 / 100))).
  assert (QQ : q * q = 1 - 1 / 100 * (1 / 100)) by (apply sqrt_sqrt; lra).
  assert (Q0 : 0 <= q) by apply sqrt_pos.
  assert (Q1 : 99994 / 100000 < q) by nra. assert (Q2 : q < 99996 / 100000) by nra.
  assert (K1 : 3600 <= IZR N) by (apply IZR_le; lia). assert (K2 : IZR N <= 9000) by (apply IZR_le; lia).
  rewrite minus_IZR. set (r' := (IZR N - 1) / 2 + q / (1 - 1 / 100) * (IZR N - 1 - (IZR N - 1) / 2)).
  assert (B1 : IZR N + 17 < r') by (unfold r'; nra). assert (B2 : r' < IZR N + 47) by (unfold r'; nra).
  exists r'. eexists. exists (up r' - 1)%Z. split; [reflexivity|]. destruct (archimed r') as [A1 A2]. rewrite plus_IZR, minus_IZR.
  split; [lra|]. change (32 / 2)%Z with 16%Z.
  assert (U1 : (N + 17 < up r')%Z) by (apply lt_IZR; rewrite plus_IZR; lra).
  assert (U2 : (up r' < N + 48)%Z) by (apply lt_IZR; rewrite plus_IZR; lra).
  lia.
Qed.
