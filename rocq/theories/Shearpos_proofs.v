From Coq Require Import Reals List String Bool Lra Psatz.
From Verif Require Import Base Shearpos_model Shearpos_spec.
Import ListNotations.
Local Open Scope string_scope.
Local Open Scope R_scope.

Lemma galsim_shear_ok : forall g1 g2, g1 * g1 + g2 * g2 <= 1 -> galsim_shear g1 g2 = Ok (g1, g2).
Proof. intros. unfold galsim_shear. destruct (Rlt_dec 1 _); [lra|reflexivity]. Qed.

Lemma get_matrix_det : forall g1 g2, g1 * g1 + g2 * g2 < 1 -> mat_det (get_matrix (g1, g2)) = 1.
Proof.
  intros g1 g2 H. unfold mat_det, get_matrix; simpl.
  set (q := sqrt (1 - (g1 * g1 + g2 * g2))).
  assert (Hq : q * q = 1 - (g1 * g1 + g2 * g2)) by (apply sqrt_sqrt; lra).
  assert (Hq0 : q <> 0) by (intro E; rewrite E in Hq; lra).
  replace ((1 + g1) * / q * ((1 - g1) * / q) - g2 * / q * (g2 * / q))
    with ((1 - (g1 * g1 + g2 * g2)) / (q * q)) by (field; assumption).
  rewrite <- Hq. field. assumption.
Qed.

(** Matrix inverse of a shear matrix is the matrix of the opposite shear. *)
Lemma get_matrix_inv : forall g1 g2, g1 * g1 + g2 * g2 < 1 ->
  mat_inv (get_matrix (g1, g2)) = Ok (get_matrix (- g1, - g2)).
Proof.
  intros g1 g2 H. unfold mat_inv. rewrite get_matrix_det by assumption.
  destruct (Req_EM_T 1 0); [lra|]. f_equal. unfold get_matrix; simpl.
  replace (- g1 * - g1 + - g2 * - g2) with (g1 * g1 + g2 * g2) by ring.
  f_equal; field;
    intro E; apply sqrt_eq_0 in E; lra.
Qed.

Definition mat_mul (a b : mat) : mat :=
  mkMat (m00 a * m00 b + m01 a * m10 b) (m00 a * m01 b + m01 a * m11 b)
        (m10 a * m00 b + m11 a * m10 b) (m10 a * m01 b + m11 a * m11 b).

Lemma transform_world : forall a j dims p, jdet j <> 0 ->
  world_offset j dims (transform_pos a j dims p) =
  (m00 a * fst (world_offset j dims p) + m01 a * snd (world_offset j dims p),
   m10 a * fst (world_offset j dims p) + m11 a * snd (world_offset j dims p)).
Proof.
  intros a j [d0 d1] [r c] Hd. unfold jdet in Hd.
  unfold world_offset, transform_pos, image_center, get_rowcol, get_vu, jdet; simpl.
  f_equal; field; assumption.
Qed.

Lemma world_offset_inj : forall j dims p q, jdet j <> 0 ->
  world_offset j dims p = world_offset j dims q -> p = q.
Proof.
  intros j [d0 d1] [r c] [r' c'] Hd H. unfold jdet in Hd.
  unfold world_offset, image_center, get_vu in H; simpl in H.
  inversion H as [[H1 H2]].
  assert (E1 : dudrow j * (r - r') + dudcol j * (c - c') = 0) by lra.
  assert (E2 : dvdrow j * (r - r') + dvdcol j * (c - c') = 0) by lra.
  assert (Er : (dvdrow j * dudcol j - dvdcol j * dudrow j) * (r - r') = 0).
  { replace ((dvdrow j * dudcol j - dvdcol j * dudrow j) * (r - r'))
      with (dudcol j * (dvdrow j * (r - r') + dvdcol j * (c - c'))
            - dvdcol j * (dudrow j * (r - r') + dudcol j * (c - c'))) by ring.
    rewrite E1, E2. ring. }
  assert (Ec : (dvdrow j * dudcol j - dvdcol j * dudrow j) * (c - c') = 0).
  { replace ((dvdrow j * dudcol j - dvdcol j * dudrow j) * (c - c'))
      with (dvdrow j * (dudrow j * (r - r') + dudcol j * (c - c'))
            - dudrow j * (dvdrow j * (r - r') + dvdcol j * (c - c'))) by ring.
    rewrite E1, E2. ring. }
  apply Rmult_integral in Er. apply Rmult_integral in Ec.
  destruct Er as [|Er]; [contradiction|]. destruct Ec as [|Ec]; [contradiction|].
  f_equal; lra.
Qed.

Lemma transform_compose : forall a b j dims p, jdet j <> 0 ->
  transform_pos a j dims (transform_pos b j dims p) = transform_pos (mat_mul a b) j dims p.
Proof.
  intros a b j dims p Hd. apply (world_offset_inj j dims); [assumption|].
  rewrite !transform_world by assumption. unfold mat_mul.
  destruct (world_offset j dims p) as [u v]. cbn [fst snd m00 m01 m10 m11]. f_equal; ring.
Qed.

Lemma transform_id : forall j dims p, jdet j <> 0 ->
  transform_pos (mkMat 1 0 0 1) j dims p = p.
Proof.
  intros j dims p Hd. apply (world_offset_inj j dims); [assumption|].
  rewrite !transform_world by assumption.
  destruct (world_offset j dims p); simpl. f_equal; ring.
Qed.

Lemma mat_mul_shear : forall g1 g2, g1 * g1 + g2 * g2 < 1 ->
  mat_mul (get_matrix (- g1, - g2)) (get_matrix (g1, g2)) = mkMat 1 0 0 1.
Proof.
  intros g1 g2 H. unfold mat_mul, get_matrix; simpl.
  replace (- g1 * - g1 + - g2 * - g2) with (g1 * g1 + g2 * g2) by ring.
  set (q := sqrt (1 - (g1 * g1 + g2 * g2))).
  assert (Hq : q * q = 1 - (g1 * g1 + g2 * g2)) by (apply sqrt_sqrt; lra).
  assert (Hq0 : q <> 0) by (intro E; rewrite E in Hq; lra).
  f_equal.
  - transitivity ((1 - (g1 * g1 + g2 * g2)) / (q * q)); [field; assumption|].
    rewrite <- Hq. field. assumption.
  - field; assumption.
  - field; assumption.
  - transitivity ((1 - (g1 * g1 + g2 * g2)) / (q * q)); [field; assumption|].
    rewrite <- Hq. field. assumption.
Qed.

(** The shear components for each type. *)
Definition comp (s : string) (step : R) : R * R :=
  if String.eqb s "1p" then (step, 0) else if String.eqb s "1m" then (- step, 0)
  else if String.eqb s "2p" then (0, step) else (0, - step).

Lemma step_sq : forall step, -1 < step < 1 -> step * step < 1.
Proof. intros. nra. Qed.

Lemma get_galsim_shear_ok : forall s step, -1 < step < 1 -> In s sheared_types ->
  get_galsim_shear s step = Ok (comp s step) /\
  fst (comp s step) * fst (comp s step) + snd (comp s step) * snd (comp s step) < 1.
Proof.
  intros s step H Hin. pose proof (step_sq step H).
  simpl in Hin. destruct Hin as [<-|[<-|[<-|[<-|[]]]]];
    unfold get_galsim_shear, comp; simpl;
    (split; [apply galsim_shear_ok; lra | lra]).
Qed.

Lemma not_skip : forall s, In s sheared_types -> in_skip s = false.
Proof. intros s Hin. simpl in Hin. destruct Hin as [<-|[<-|[<-|[<-|[]]]]]; reflexivity. Qed.

Lemma shear_positions_val : forall pos s j dims step, -1 < step < 1 -> In s sheared_types ->
  shear_positions pos s j dims step =
  Ok (map (transform_pos (get_matrix (comp s step)) j dims) pos).
Proof.
  intros. unfold shear_positions. rewrite not_skip by assumption.
  destruct (get_galsim_shear_ok s step) as [-> _]; [assumption..|]. reflexivity.
Qed.

Lemma unshear_positions_val : forall pos s j dims step, -1 < step < 1 -> In s sheared_types ->
  unshear_positions pos s j dims step =
  Ok (map (transform_pos (get_matrix (- fst (comp s step), - snd (comp s step))) j dims) pos).
Proof.
  intros pos s j dims step H Hin. unfold unshear_positions. rewrite not_skip by assumption.
  destruct (get_galsim_shear_ok s step) as [-> Hc]; [assumption..|].
  destruct (comp s step) as [g1 g2]; cbn [obind fst snd] in *.
  rewrite get_matrix_inv by assumption. reflexivity.
Qed.

Lemma map_id_ext : forall A (f : A -> A) l, (forall x, f x = x) -> map f l = l.
Proof. induction l; simpl; intros; [reflexivity|]. f_equal; auto. Qed.

Lemma unshear_shear : forall pos s j dims step p',
  jdet j <> 0 -> -1 < step < 1 ->
  shear_positions pos s j dims step = Ok p' ->
  unshear_positions p' s j dims step = Ok pos.
Proof.
  intros pos s j dims step p' Hd Hs H.
  destruct (in_skip s) eqn:E.
  - unfold shear_positions, unshear_positions in *. rewrite E in *. inversion H. reflexivity.
  - assert (Hin : In s sheared_types).
    { unfold shear_positions in H. rewrite E in H. unfold get_galsim_shear in H.
      destruct (String.eqb_spec s "1p"); [subst; simpl; tauto|].
      destruct (String.eqb_spec s "1m"); [subst; simpl; tauto|].
      destruct (String.eqb_spec s "2p"); [subst; simpl; tauto|].
      destruct (String.eqb_spec s "2m"); [subst; simpl; tauto|]. discriminate. }
    rewrite shear_positions_val in H by assumption. apply Ok_inj in H. subst p'.
    rewrite unshear_positions_val by assumption. f_equal. rewrite map_map.
    destruct (get_galsim_shear_ok s step Hs Hin) as [_ Hc].
    destruct (comp s step) as [g1 g2]; cbn [fst snd] in *.
    apply map_id_ext. intro p.
    rewrite transform_compose by assumption.
    rewrite mat_mul_shear by assumption. now apply transform_id.
Qed.

Lemma shear_unshear : forall pos s j dims step p',
  jdet j <> 0 -> -1 < step < 1 ->
  unshear_positions pos s j dims step = Ok p' ->
  shear_positions p' s j dims step = Ok pos.
Proof.
  intros pos s j dims step p' Hd Hs H.
  destruct (in_skip s) eqn:E.
  - unfold shear_positions, unshear_positions in *. rewrite E in *. inversion H. reflexivity.
  - assert (Hin : In s sheared_types).
    { unfold unshear_positions in H. rewrite E in H. unfold get_galsim_shear in H.
      destruct (String.eqb_spec s "1p"); [subst; simpl; tauto|].
      destruct (String.eqb_spec s "1m"); [subst; simpl; tauto|].
      destruct (String.eqb_spec s "2p"); [subst; simpl; tauto|].
      destruct (String.eqb_spec s "2m"); [subst; simpl; tauto|]. discriminate. }
    rewrite unshear_positions_val in H by assumption. apply Ok_inj in H. subst p'.
    rewrite shear_positions_val by assumption. f_equal. rewrite map_map.
    destruct (get_galsim_shear_ok s step Hs Hin) as [_ Hc].
    destruct (comp s step) as [g1 g2]; cbn [fst snd] in *.
    apply map_id_ext. intro p.
    rewrite transform_compose by assumption.
    pose proof (mat_mul_shear (- g1) (- g2)) as M. rewrite !Ropp_involutive in M.
    rewrite M by lra. now apply transform_id.
Qed.

Lemma known_types_ok : forall pos s j dims step, -1 < step < 1 ->
  In s (unsheared_types ++ sheared_types) ->
  exists p q, shear_positions pos s j dims step = Ok p /\
              unshear_positions pos s j dims step = Ok q /\
              List.length p = List.length pos /\ List.length q = List.length pos.
Proof.
  intros pos s j dims step H Hin. apply in_app_iff in Hin. destruct Hin as [Hin|Hin].
  - assert (E : in_skip s = true).
    { simpl in Hin. destruct Hin as [<-|[<-|[<-|[<-|[<-|[]]]]]]; reflexivity. }
    exists pos, pos. unfold shear_positions, unshear_positions. rewrite E. tauto.
  - eexists. eexists. rewrite shear_positions_val, unshear_positions_val by assumption.
    repeat split; apply map_length.
Qed.

Lemma skip_identity : forall pos s j dims step, In s unsheared_types ->
  shear_positions pos s j dims step = Ok pos /\ unshear_positions pos s j dims step = Ok pos.
Proof.
  intros pos s j dims step Hin.
  assert (E : in_skip s = true).
  { simpl in Hin. destruct Hin as [<-|[<-|[<-|[<-|[<-|[]]]]]]; reflexivity. }
  unfold shear_positions, unshear_positions. rewrite E. tauto.
Qed.

Lemma unknown_type_raises : forall pos s j dims step,
  ~ In s (unsheared_types ++ sheared_types) ->
  shear_positions pos s j dims step = Raise ValueError /\
  unshear_positions pos s j dims step = Raise ValueError.
Proof.
  intros pos s j dims step H.
  assert (E : in_skip s = false).
  { apply not_true_is_false. intro E. apply H. unfold in_skip in E.
    apply existsb_exists in E. destruct E as [x [Hx E]]. apply String.eqb_eq in E. subst.
    apply in_app_iff. left. exact Hx. }
  assert (G : get_galsim_shear s step = Raise ValueError).
  { unfold get_galsim_shear.
    destruct (String.eqb_spec s "1p"); [subst; exfalso; apply H; simpl; tauto|].
    destruct (String.eqb_spec s "1m"); [subst; exfalso; apply H; simpl; tauto|].
    destruct (String.eqb_spec s "2p"); [subst; exfalso; apply H; simpl; tauto|].
    destruct (String.eqb_spec s "2m"); [subst; exfalso; apply H; simpl; tauto|]. reflexivity. }
  unfold shear_positions, unshear_positions. rewrite E, G. simpl. tauto.
Qed.

Lemma center_fixed : forall s j dims step, jdet j <> 0 -> -1 < step < 1 ->
  In s (unsheared_types ++ sheared_types) ->
  shear_positions [image_center dims] s j dims step = Ok [image_center dims].
Proof.
  intros s j dims step Hd Hs Hin. apply in_app_iff in Hin. destruct Hin as [Hin|Hin].
  - now apply skip_identity.
  - rewrite shear_positions_val by assumption. simpl. f_equal. f_equal.
    apply (world_offset_inj j dims); [assumption|].
    rewrite transform_world by assumption.
    assert (Z : world_offset j dims (image_center dims) = (0, 0)).
    { unfold world_offset. destruct (get_vu j _ _). f_equal; ring. }
    rewrite Z. simpl. f_equal; ring.
Qed.

(** The centre is the only fixed point when the step is not zero. *)
Lemma center_only_fixed : forall s j dims step p, jdet j <> 0 -> -1 < step < 1 -> step <> 0 ->
  In s sheared_types ->
  shear_positions [p] s j dims step = Ok [p] -> p = image_center dims.
Proof.
  intros s j dims step p Hd Hs Hnz Hin H.
  rewrite shear_positions_val in H by assumption. cbn [map] in H. injection H as E.
  apply (world_offset_inj j dims); [assumption|].
  assert (Z : world_offset j dims (image_center dims) = (0, 0)).
  { unfold world_offset. destruct (get_vu j _ _). f_equal; ring. }
  rewrite Z. apply (f_equal (world_offset j dims)) in E.
  rewrite transform_world in E by assumption.
  pose proof (step_sq step Hs) as Hsq.
  destruct (world_offset j dims p) as [u v]; cbn [fst snd] in E.
  assert (Hsol : forall g1 g2, g1 * g1 + g2 * g2 < 1 -> g1 * g1 + g2 * g2 <> 0 ->
     (m00 (get_matrix (g1, g2)) * u + m01 (get_matrix (g1, g2)) * v = u) ->
     (m10 (get_matrix (g1, g2)) * u + m11 (get_matrix (g1, g2)) * v = v) -> u = 0 /\ v = 0).
  { intros g1 g2 Hg Hg0. unfold get_matrix; simpl.
    set (q := sqrt (1 - (g1 * g1 + g2 * g2))).
    assert (Hq : q * q = 1 - (g1 * g1 + g2 * g2)) by (apply sqrt_sqrt; lra).
    assert (Hqp : 0 <= q) by apply sqrt_pos.
    assert (Hq0 : q <> 0) by (intro Eq; rewrite Eq in Hq; lra).
    intros E1 E2.
    assert (E1' : (1 + g1 - q) * u + g2 * v = 0).
    { apply (f_equal (fun x => q * x)) in E1.
      replace (q * ((1 + g1) * / q * u + g2 * / q * v)) with ((1 + g1) * u + g2 * v) in E1
        by (field; assumption). lra. }
    assert (E2' : g2 * u + (1 - g1 - q) * v = 0).
    { apply (f_equal (fun x => q * x)) in E2.
      replace (q * (g2 * / q * u + (1 - g1) * / q * v)) with (g2 * u + (1 - g1) * v) in E2
        by (field; assumption). lra. }
    (* determinant (1-q)^2 - g^2 = 2 q^2 - 2 q = 2 q (q - 1) <> 0 *)
    assert (Hq1 : q <> 1) by (intro Eq; rewrite Eq in Hq; lra).
    assert (D : 2 * q * (q - 1) <> 0) by (apply Rmult_integral_contrapositive_currified; lra).
    assert (Du : 2 * q * (q - 1) * u = 0).
    { replace (2 * q * (q - 1) * u)
        with ((1 - g1 - q) * ((1 + g1 - q) * u + g2 * v) - g2 * (g2 * u + (1 - g1 - q) * v)
              + (q * q - (1 - (g1 * g1 + g2 * g2))) * u) by ring.
      rewrite E1', E2', Hq. ring. }
    assert (Dv : 2 * q * (q - 1) * v = 0).
    { replace (2 * q * (q - 1) * v)
        with ((1 + g1 - q) * (g2 * u + (1 - g1 - q) * v) - g2 * ((1 + g1 - q) * u + g2 * v)
              + (q * q - (1 - (g1 * g1 + g2 * g2))) * v) by ring.
      rewrite E1', E2', Hq. ring. }
    apply Rmult_integral in Du. apply Rmult_integral in Dv.
    destruct Du; [contradiction|]. destruct Dv; [contradiction|]. tauto. }
  assert (Hpos : 0 < step * step) by nra.
  destruct (comp s step) as [g1 g2] eqn:Ec.
  assert (Hg : g1 * g1 + g2 * g2 = step * step).
  { simpl in Hin. destruct Hin as [<-|[<-|[<-|[<-|[]]]]]; unfold comp in Ec; simpl in Ec;
      inversion Ec; subst; ring. }
  destruct (Hsol g1 g2) as [Hu Hv]; try lra.
  - exact (f_equal fst E).
  - exact (f_equal snd E).
  - now subst.
Qed.

Lemma opposite_is_inverse : forall pos s j dims step, -1 < step < 1 -> In s sheared_types ->
  unshear_positions pos s j dims step = shear_positions pos (opposite s) j dims step.
Proof.
  intros pos s j dims step H Hin. rewrite unshear_positions_val by assumption.
  rewrite shear_positions_val; [|assumption|].
  - f_equal. f_equal. f_equal. f_equal.
    simpl in Hin. destruct Hin as [<-|[<-|[<-|[<-|[]]]]]; unfold comp, opposite; simpl;
      f_equal; ring.
  - simpl in Hin. destruct Hin as [<-|[<-|[<-|[<-|[]]]]]; simpl; tauto.
Qed.

Lemma area_preserved : forall s j dims step p q r p' q' r',
  jdet j <> 0 -> -1 < step < 1 -> In s (unsheared_types ++ sheared_types) ->
  shear_positions [p; q; r] s j dims step = Ok [p'; q'; r'] ->
  area2 p' q' r' = area2 p q r.
Proof.
  intros s j dims step p q r p' q' r' Hd Hs Hin H.
  apply in_app_iff in Hin. destruct Hin as [Hin|Hin].
  - destruct (skip_identity [p; q; r] s j dims step Hin) as [E _]. rewrite E in H.
    inversion H. reflexivity.
  - rewrite shear_positions_val in H by assumption.
    destruct (get_galsim_shear_ok s step Hs Hin) as [_ Hc].
    destruct (comp s step) as [g1 g2]; simpl in Hc.
    pose proof (get_matrix_det g1 g2 Hc) as D.
    remember (get_matrix (g1, g2)) as a eqn:Ea. clear Ea. cbn [map] in H. injection H as <- <- <-.
    assert (A : forall x y z, area2 (transform_pos a j dims x) (transform_pos a j dims y)
              (transform_pos a j dims z) = mat_det a * area2 x y z).
    { intros [x1 x2] [y1 y2] [z1 z2]. destruct dims as [d0 d1]. unfold jdet in Hd.
      unfold area2, transform_pos, get_rowcol, get_vu, mat_det, jdet; simpl.
      field. assumption. }
    rewrite A, D. ring.
Qed.

Lemma stretch_vals : forall g, -1 < g < 1 ->
  (1 + g) * / sqrt (1 - g * g) = stretch g /\ (1 - g) * / sqrt (1 - g * g) = / stretch g
  /\ 0 < stretch g.
Proof.
  intros g H. unfold stretch.
  assert (Hp : 0 < 1 + g) by lra. assert (Hm : 0 < 1 - g) by lra.
  assert (Ep : sqrt (1 + g) * sqrt (1 + g) = 1 + g) by (apply sqrt_sqrt; lra).
  assert (Em : sqrt (1 - g) * sqrt (1 - g) = 1 - g) by (apply sqrt_sqrt; lra).
  assert (Pp : 0 < sqrt (1 + g)) by (apply sqrt_lt_R0; lra).
  assert (Pm : 0 < sqrt (1 - g)) by (apply sqrt_lt_R0; lra).
  rewrite sqrt_div by lra.
  replace (1 - g * g) with ((1 + g) * (1 - g)) by ring.
  rewrite sqrt_mult by lra.
  split; [|split].
  - rewrite <- Ep at 1. field. lra.
  - rewrite <- Em at 1. field. lra.
  - apply Rdiv_lt_0_compat; assumption.
Qed.

Lemma comp_1p : forall g, get_matrix (comp "1p" g) =
  mkMat ((1 + g) * / sqrt (1 - g * g)) 0 0 ((1 - g) * / sqrt (1 - g * g)).
Proof.
  intro g. unfold comp, get_matrix; simpl. replace (g * g + 0 * 0) with (g * g) by ring.
  f_equal; ring.
Qed.
Lemma comp_1m : forall g, get_matrix (comp "1m" g) =
  mkMat ((1 - g) * / sqrt (1 - g * g)) 0 0 ((1 + g) * / sqrt (1 - g * g)).
Proof.
  intro g. unfold comp, get_matrix; simpl. replace (- g * - g + 0 * 0) with (g * g) by ring.
  f_equal; ring.
Qed.
Lemma comp_2p : forall g, get_matrix (comp "2p" g) =
  mkMat (/ sqrt (1 - g * g)) (g * / sqrt (1 - g * g)) (g * / sqrt (1 - g * g)) (/ sqrt (1 - g * g)).
Proof.
  intro g. unfold comp, get_matrix; simpl. replace (0 * 0 + g * g) with (g * g) by ring.
  f_equal; ring.
Qed.
Lemma comp_2m : forall g, get_matrix (comp "2m" g) =
  mkMat (/ sqrt (1 - g * g)) (- (g * / sqrt (1 - g * g))) (- (g * / sqrt (1 - g * g))) (/ sqrt (1 - g * g)).
Proof.
  intro g. unfold comp, get_matrix; simpl. replace (0 * 0 + - g * - g) with (g * g) by ring.
  f_equal; ring.
Qed.

Lemma shear_direction : forall p p' s j dims step,
  jdet j <> 0 -> -1 < step < 1 -> In s sheared_types ->
  shear_positions [p] s j dims step = Ok [p'] ->
  sheared_offset s step (world_offset j dims p) (world_offset j dims p').
Proof.
  intros p p' s j dims step Hd Hs Hin H.
  rewrite shear_positions_val in H by assumption. apply Ok_inj in H. cbn [map] in H.
  assert (E : p' = transform_pos (get_matrix (comp s step)) j dims p) by congruence. subst p'. clear H.
  rewrite transform_world by assumption.
  destruct (world_offset j dims p) as [u v].
  destruct (stretch_vals step Hs) as [S1 [S2 S3]].
  unfold sheared_offset.
  assert (D : forall x, x / stretch step = (1 - step) * / sqrt (1 - step * step) * x).
  { intro x. rewrite S2. unfold Rdiv. ring. }
  rewrite !D, <- S1.
  simpl in Hin.
  destruct Hin as [<-|[<-|[<-|[<-|[]]]]];
    rewrite ?comp_1p, ?comp_1m, ?comp_2p, ?comp_2m; simpl;
    (split; [|split; [|split]]; intro X; try discriminate X; clear X; split; ring).
Qed.

Lemma step_too_large : forall pos s j dims step, 1 < step \/ step < -1 ->
  (In s sheared_types -> shear_positions pos s j dims step = Raise ValueError /\ unshear_positions pos s j dims step = Raise ValueError) /\
  (In s unsheared_types -> shear_positions pos s j dims step = Ok pos /\ unshear_positions pos s j dims step = Ok pos).
Proof.
  intros pos s j dims step H.
  assert (G : forall a b, a * a + b * b = step * step -> galsim_shear a b = Raise ValueError).
  { intros a b E. unfold galsim_shear. rewrite E. destruct (Rlt_dec 1 (step * step)) as [_|N]; [reflexivity|]. exfalso. apply N. destruct H; nra. }
  split.
  - intros I. assert (E : in_skip s = false /\ get_galsim_shear s step = Raise ValueError).
    { destruct I as [<-|[<-|[<-|[<-|[]]]]]; (split; [reflexivity|]); cbn; apply G; ring. }
    destruct E as [E1 E2]. unfold shear_positions, unshear_positions. rewrite E1, E2. split; reflexivity.
  - intros I. assert (E : in_skip s = true) by (destruct I as [<-|[<-|[<-|[<-|[<-|[]]]]]]; reflexivity).
    unfold shear_positions, unshear_positions. rewrite E. split; reflexivity.
Qed.

(** Positions are transformed one by one. *)
Lemma shear_list : forall pos s j dims step out, shear_positions pos s j dims step = Ok out ->
  Forall2 (fun p p' => shear_positions [p] s j dims step = Ok [p']) pos out.
Proof.
  intros pos s j dims step out. unfold shear_positions. destruct (in_skip s).
  - intros H. apply Ok_inj in H. subst out. induction pos; constructor; auto.
  - destruct (get_galsim_shear s step) as [g|]; cbn [obind]; intros H; [|discriminate H]. apply Ok_inj in H. subst out.
    induction pos; cbn [map]; constructor; auto.
Qed.

Lemma obs_positions : forall pos s o step out, jdet (og_jac o) <> 0 -> -1 < step < 1 -> In s sheared_types ->
  (shear_positions_obs pos s o step = Ok out ->
   Forall2 (fun p p' => sheared_offset s step (world_offset (og_jac o) (og_shape o) p) (world_offset (og_jac o) (og_shape o) p')) pos out /\
   unshear_positions_obs out s o step = Ok pos) /\
  (unshear_positions_obs pos s o step = Ok out ->
   Forall2 (fun p p' => sheared_offset s step (world_offset (og_jac o) (og_shape o) p') (world_offset (og_jac o) (og_shape o) p)) pos out /\
   shear_positions_obs out s o step = Ok pos).
Proof.
  assert (W : forall pos s j dims step out, jdet j <> 0 -> -1 < step < 1 -> In s sheared_types -> shear_positions pos s j dims step = Ok out ->
    Forall2 (fun p p' => sheared_offset s step (world_offset j dims p) (world_offset j dims p')) pos out).
  { intros pos s j dims step out Hj Hs Ht H. apply shear_list in H. induction H as [|p p' l l' E H IH]; constructor; [|exact IH].
    exact (shear_direction p p' s j dims step Hj Hs Ht E). }
  assert (F : forall (P : R * R -> R * R -> Prop) l l', Forall2 P l l' -> Forall2 (fun a b => P b a) l' l) by (intros P l l' H; induction H; constructor; assumption).
  intros pos s o step out Hj Hs Ht. unfold shear_positions_obs, unshear_positions_obs. split; intros H.
  - split; [exact (W _ _ _ _ _ _ Hj Hs Ht H)|]. exact (unshear_shear _ _ _ _ _ _ Hj Hs H).
  - apply (shear_unshear _ _ _ _ _ _ Hj Hs) in H. split; [|exact H]. exact (F _ _ _ (W _ _ _ _ _ _ Hj Hs Ht H)).
Qed.
