From Coq Require Import ZArith QArith Lqa Lia List String Bool.
From Verif Require Import Base Arr Median Flags_model Detect_spec Detect_proofs Coadd_model Coadd_spec.
Import ListNotations.
Local Open Scope Z_scope.

(** ** Generalities *)
Lemma any_pixel_spec : forall A (p : A -> bool) im,
  any_pixel p im = true <-> exists i j, inside im i j /\ p (px im i j) = true.
Proof.
  intros. unfold any_pixel, pixels. rewrite existsb_exists. split.
  - intros [v [Hv Hp]]. apply in_map_iff in Hv. destruct Hv as [[i j] [<- Hij]].
    apply in_coords in Hij. exists i, j. split; [exact Hij|exact Hp].
  - intros [i [j [Hin Hp]]]. exists (px im i j). split; [|assumption].
    apply in_map_iff. exists (i, j). split; [reflexivity|]. now apply in_coords.
Qed.

Lemma all_pixels_spec : forall A (p : A -> bool) im,
  all_pixels p im = true <-> forall i j, inside im i j -> p (px im i j) = true.
Proof.
  intros. unfold all_pixels, pixels. rewrite forallb_forall. split.
  - intros H i j Hin. apply H. apply in_map_iff. exists (i, j). split; [reflexivity|]. now apply in_coords.
  - intros H v Hv. apply in_map_iff in Hv. destruct Hv as [[i j] [<- Hij]].
    apply in_coords in Hij. now apply H.
Qed.

Lemma qpos_iff : forall q, qpos q = true <-> (0 < q)%Q.
Proof. intro q. unfold qpos. now rewrite negb_true_iff, Qle_bool_false. Qed.

Lemma positive_of_in : forall w v, In v (positive_of w) <-> In v (pixels w) /\ (0 < v)%Q.
Proof. intros. unfold positive_of. now rewrite filter_In, qpos_iff. Qed.

Lemma positive_of_median : forall w m, qmedian (positive_of w) = Some m ->
  positive_median w m /\ (0 < m)%Q.
Proof.
  intros w m H. split.
  - exists (positive_of w). split; [now apply qmedian_is_median|]. split.
    + intro v. rewrite positive_of_in. tauto.
    + intros v Hv. apply positive_of_in in Hv. unfold positive_of. apply count_occ_filter. now apply qpos_iff.
  - apply (qmedian_pos _ _) with (2 := H). intros x Hx. now apply positive_of_in in Hx.
Qed.

Lemma has_positive_median : forall w, has_positive w <-> exists m, qmedian (positive_of w) = Some m.
Proof.
  intro w. split.
  - intros [i [j [Hin Hp]]]. destruct (qmedian (positive_of w)) as [m|] eqn:E; [eauto|].
    apply qmedian_none in E. exfalso.
    assert (Hi : In (px w i j) (positive_of w)).
    { apply positive_of_in. split; [|assumption]. unfold pixels. apply in_map_iff. exists (i, j).
      split; [reflexivity|]. now apply in_coords. }
    rewrite E in Hi. destruct Hi.
  - intros [m E]. destruct (positive_of w) as [|v l] eqn:El; [discriminate|].
    assert (Hi : In v (positive_of w)) by (rewrite El; now left).
    apply positive_of_in in Hi. destruct Hi as [Hi Hv]. unfold pixels in Hi. apply in_map_iff in Hi.
    destruct Hi as [[i j] [<- Hij]]. apply in_coords in Hij. exists i, j. split; [exact Hij|exact Hv].
Qed.

(** ** C45: symmetrization *)
Lemma zero_where_px : forall w m i j,
  px (zero_where w m) i j = if Qle_bool (px m i j) 0 then 0%Q else px w i j.
Proof. reflexivity. Qed.

Lemma Qle_bool_dec : forall a, Qle_bool a 0 = true /\ (a <= 0)%Q \/ Qle_bool a 0 = false /\ (0 < a)%Q.
Proof.
  intro a. destruct (Qle_bool a 0) eqn:E; [left; split; [reflexivity|now apply Qle_bool_iff]|
    right; split; [reflexivity|now apply Qle_bool_false]].
Qed.

Lemma sym_formula : forall o o', nr (f_weight o) = nc (f_weight o) ->
  symmetrize_obs_weights o = Ok o' ->
  nr (f_weight o') = nr (f_weight o) /\ nc (f_weight o') = nc (f_weight o) /\
  let w := f_weight o in let n := nr w in
  forall i j, inside w i j ->
    px (f_weight o') i j =
      (if Qle_bool (px w (n - 1 - j) i) 0 then 0%Q
       else if Qle_bool (px w (n - 1 - i) (n - 1 - j)) 0 then 0%Q
            else if Qle_bool (px w j (n - 1 - i)) 0 then 0%Q else px w i j).
Proof.
  intros o o' Hsq H. unfold symmetrize_obs_weights in H.
  destruct (any_pixel (fun v => Qle_bool v 0) (f_weight o)) eqn:Ea.
  - rewrite Hsq, Z.eqb_refl in H. apply Ok_inj in H. subst o'. cbn [f_weight with_weight].
    split; [reflexivity|]. split; [reflexivity|]. cbv zeta. intros i j Hin.
    rewrite !zero_where_px. unfold rot90, rot180, rot270. cbn [px]. now rewrite <- Hsq.
  - apply Ok_inj in H. subst o'. split; [reflexivity|]. split; [reflexivity|]. cbv zeta.
    intros i j Hin.
    assert (X : forall k l, inside (f_weight o) k l -> Qle_bool (px (f_weight o) k l) 0 = false).
    { intros k l Hkl. destruct (Qle_bool (px (f_weight o) k l) 0) eqn:E; [|reflexivity].
      assert (Y : any_pixel (fun v => Qle_bool v 0) (f_weight o) = true) by (apply any_pixel_spec; eauto).
      congruence. }
    unfold inside in *. rewrite <- Hsq in *. rewrite !X by lia. reflexivity.
Qed.

Lemma sym_total : forall o, nr (f_weight o) = nc (f_weight o) -> exists o', symmetrize_obs_weights o = Ok o'.
Proof.
  intros o H. unfold symmetrize_obs_weights. destruct (any_pixel _ _); [|eauto].
  rewrite H, Z.eqb_refl. eauto.
Qed.

Lemma sym_not_square : forall o, nr (f_weight o) <> nc (f_weight o) ->
  (exists i j, inside (f_weight o) i j /\ (px (f_weight o) i j <= 0)%Q) ->
  symmetrize_obs_weights o = Raise IndexError.
Proof.
  intros o H [i [j [Hin Hp]]]. unfold symmetrize_obs_weights.
  assert (E : any_pixel (fun v => Qle_bool v 0) (f_weight o) = true).
  { apply any_pixel_spec. exists i, j. split; [assumption|now apply Qle_bool_iff]. }
  rewrite E. destruct (Z.eqb_spec (nr (f_weight o)) (nc (f_weight o))); [contradiction|reflexivity].
Qed.

Lemma sym_other_planes : forall o o', symmetrize_obs_weights o = Ok o' ->
  f_image o' = f_image o /\ f_jac o' = f_jac o /\ f_psf o' = f_psf o /\ f_mfrac o' = f_mfrac o /\
  f_noise o' = f_noise o /\ f_bmask o' = f_bmask o /\ f_ormask o' = f_ormask o.
Proof.
  intros o o' H. unfold symmetrize_obs_weights in H. destruct (any_pixel _ _).
  - destruct (_ =? _); [|discriminate]. apply Ok_inj in H. subst. now repeat split.
  - apply Ok_inj in H. subst. now repeat split.
Qed.

Lemma sym_positive : forall o o', nr (f_weight o) = nc (f_weight o) ->
  symmetrize_obs_weights o = Ok o' -> forall i j, inside (f_weight o) i j ->
  ((0 < px (f_weight o') i j)%Q <->
   forall k l, orbit (nr (f_weight o)) i j k l -> (0 < px (f_weight o) k l)%Q) /\
  ((forall k l, orbit (nr (f_weight o)) i j k l -> (0 < px (f_weight o) k l)%Q) ->
   px (f_weight o') i j = px (f_weight o) i j).
Proof.
  intros o o' Hsq H i j Hin. destruct (sym_formula o o' Hsq H) as [_ [_ F]]. cbv zeta in F.
  rewrite (F i j Hin). set (w := f_weight o) in *. set (n := nr w).
  assert (O1 : orbit n i j j (n - 1 - i)) by (unfold orbit; tauto).
  assert (O2 : orbit n i j (n - 1 - i) (n - 1 - j)) by (unfold orbit; tauto).
  assert (O3 : orbit n i j (n - 1 - j) i) by (unfold orbit; tauto).
  assert (O0 : orbit n i j i j) by (unfold orbit; tauto).
  assert (A : (forall k l, orbit n i j k l -> (0 < px w k l)%Q) ->
     (if Qle_bool (px w (n - 1 - j) i) 0 then 0%Q
       else if Qle_bool (px w (n - 1 - i) (n - 1 - j)) 0 then 0%Q
            else if Qle_bool (px w j (n - 1 - i)) 0 then 0%Q else px w i j) = px w i j).
  { intro Hp. pose proof (Hp _ _ O1) as P1. pose proof (Hp _ _ O2) as P2. pose proof (Hp _ _ O3) as P3.
    apply Qle_bool_false in P1, P2, P3. now rewrite P1, P2, P3. }
  split; [|exact A]. split.
  - destruct (Qle_bool_dec (px w (n - 1 - j) i)) as [[-> _]|[-> P3]]; [intro; lra|].
    destruct (Qle_bool_dec (px w (n - 1 - i) (n - 1 - j))) as [[-> _]|[-> P2]]; [intro; lra|].
    destruct (Qle_bool_dec (px w j (n - 1 - i))) as [[-> _]|[-> P1]]; [intro; lra|].
    intros P0 k l [E|[E|[E|E]]]; inversion E; subst; assumption.
  - intro Hp. rewrite (A Hp). now apply Hp.
Qed.

Lemma sym_zero : forall o o', nr (f_weight o) = nc (f_weight o) ->
  (forall i j, inside (f_weight o) i j -> 0 <= px (f_weight o) i j)%Q ->
  symmetrize_obs_weights o = Ok o' -> forall i j, inside (f_weight o) i j ->
  ((px (f_weight o') i j == 0)%Q <->
   exists k l, orbit (nr (f_weight o)) i j k l /\ (px (f_weight o) k l <= 0)%Q).
Proof.
  intros o o' Hsq Hnn H i j Hin. destruct (sym_formula o o' Hsq H) as [_ [_ F]]. cbv zeta in F.
  rewrite (F i j Hin). set (w := f_weight o) in *. set (n := nr w) in *. split.
  - destruct (Qle_bool_dec (px w (n - 1 - j) i)) as [[-> P]|[-> P3]].
    { intros _. do 2 eexists. split; [|exact P]. unfold orbit; tauto. }
    destruct (Qle_bool_dec (px w (n - 1 - i) (n - 1 - j))) as [[-> P]|[-> P2]].
    { intros _. do 2 eexists. split; [|exact P]. unfold orbit; tauto. }
    destruct (Qle_bool_dec (px w j (n - 1 - i))) as [[-> P]|[-> P1]].
    { intros _. do 2 eexists. split; [|exact P]. unfold orbit; tauto. }
    intro E. exists i, j. split; [unfold orbit; tauto|lra].
  - intros [k [l [Ho Hle]]].
    destruct Ho as [E|[E|[E|E]]]; inversion E; subst k l.
    + specialize (Hnn i j Hin).
      destruct (Qle_bool (px w (n - 1 - j) i) 0); [reflexivity|].
      destruct (Qle_bool (px w (n - 1 - i) (n - 1 - j)) 0); [reflexivity|].
      destruct (Qle_bool (px w j (n - 1 - i)) 0); [reflexivity|]. lra.
    + apply Qle_bool_iff in Hle. rewrite Hle.
      destruct (Qle_bool (px w (n - 1 - j) i) 0), (Qle_bool (px w (n - 1 - i) (n - 1 - j)) 0); reflexivity.
    + apply Qle_bool_iff in Hle. rewrite Hle. destruct (Qle_bool (px w (n - 1 - j) i) 0); reflexivity.
    + apply Qle_bool_iff in Hle. now rewrite Hle.
Qed.

Lemma orbit_sym_step : forall n i j k l, orbit n j (n - 1 - i) k l <-> orbit n i j k l.
Proof.
  intros. unfold orbit. replace (n - 1 - (n - 1 - i)) with i by lia. tauto.
Qed.

Lemma sym_pattern_invariant : forall o o', nr (f_weight o) = nc (f_weight o) ->
  symmetrize_obs_weights o = Ok o' -> forall i j, inside (f_weight o) i j ->
  ((0 < px (f_weight o') i j)%Q <-> (0 < px (rot90 (f_weight o')) i j)%Q).
Proof.
  intros o o' Hsq H i j Hin. destruct (sym_formula o o' Hsq H) as [E1 [E2 _]].
  cbn [rot90 px]. rewrite E2, <- Hsq.
  assert (Hin2 : inside (f_weight o) j (nr (f_weight o) - 1 - i)) by (unfold inside in *; lia).
  destruct (sym_positive o o' Hsq H i j Hin) as [A _].
  destruct (sym_positive o o' Hsq H _ _ Hin2) as [B _].
  rewrite A, B. split; intros X k l Ho; apply X; now apply orbit_sym_step.
Qed.

Lemma orbit_inside : forall w i j k l, nr w = nc w -> inside (A := Q) w i j -> orbit (nr w) i j k l -> inside w k l.
Proof.
  intros w i j k l Hsq Hin Ho. unfold inside in *. rewrite <- Hsq in *.
  destruct Ho as [E|[E|[E|E]]]; inversion E; lia.
Qed.

Lemma sym_idempotent : forall o o' o'', nr (f_weight o) = nc (f_weight o) ->
  (forall i j, inside (f_weight o) i j -> 0 <= px (f_weight o) i j)%Q ->
  symmetrize_obs_weights o = Ok o' -> symmetrize_obs_weights o' = Ok o'' ->
  forall i j, inside (f_weight o) i j -> (px (f_weight o'') i j == px (f_weight o') i j)%Q.
Proof.
  intros o o' o'' Hsq Hnn H H' i j Hin.
  destruct (sym_formula o o' Hsq H) as [E1 [E2 F]]. cbv zeta in F.
  assert (Hsq' : nr (f_weight o') = nc (f_weight o')) by (rewrite E1, E2; exact Hsq).
  assert (Hin' : inside (f_weight o') i j) by (unfold inside in *; rewrite E1, E2; exact Hin).
  assert (Hnn' : forall i j, inside (f_weight o') i j -> (0 <= px (f_weight o') i j)%Q).
  { intros k l Hkl. assert (Hkl' : inside (f_weight o) k l) by (unfold inside in *; rewrite <- E1, <- E2; exact Hkl).
    rewrite (F k l Hkl'). specialize (Hnn k l Hkl').
    repeat match goal with |- context [if ?b then _ else _] => destruct b end; lra. }
  destruct (Qlt_le_dec 0 (px (f_weight o') i j)) as [L|G].
  - destruct (sym_positive o' o'' Hsq' H' i j Hin') as [_ B]. rewrite B; [reflexivity|].
    intros k l Ho.
    destruct (sym_positive o o' Hsq H i j Hin) as [A _]. pose proof (proj1 A L) as All.
    rewrite E1 in Ho.
    destruct (sym_positive o o' Hsq H k l (orbit_inside _ _ _ _ _ Hsq Hin Ho)) as [C _]. apply C.
    intros k' l' Ho'. apply All. revert Ho'. set (n := nr (f_weight o)) in *. clearbody n.
    unfold orbit in *. destruct Ho as [E|[E|[E|E]]]; inversion E; subst k l; clear E;
      intros [X|[X|[X|X]]]; inversion X; subst k' l'; clear X;
      repeat match goal with |- context [n - 1 - (n - 1 - ?z)] => replace (n - 1 - (n - 1 - z)) with z by lia end;
      tauto.
  - assert (Ez : (px (f_weight o') i j == 0)%Q) by (specialize (Hnn' i j Hin'); lra).
    rewrite Ez. apply (sym_zero o' o'' Hsq' Hnn' H' i j Hin').
    exists i, j. split; [unfold orbit; tauto|lra].
Qed.

(** ** The planes of the coadd *)
Lemma wsum_plane_val : forall get ow shape,
  nr (wsum_plane shape get ow) = nr shape /\ nc (wsum_plane shape get ow) = nc shape /\
  forall i j, (px (wsum_plane shape get ow) i j ==
    qsum (map (fun x => snd x * match get (fst x) with Some p => px p i j | None => 0 end) ow))%Q.
Proof.
  intros get ow shape. unfold wsum_plane.
  assert (G : forall acc, let r := fold_left (fun acc x =>
      match get (fst x) with
      | Some p => imap2 (fun a v => (a + snd x * v)%Q) acc p
      | None => acc end) ow acc in
      nr r = nr acc /\ nc r = nc acc /\
      forall i j, (px r i j == px acc i j + qsum (map (fun x => snd x * match get (fst x) with Some p => px p i j | None => 0 end) ow))%Q).
  { induction ow as [|[o w] ow IH]; intro acc; cbv zeta; cbn [fold_left].
    - split; [reflexivity|]. split; [reflexivity|]. intros. cbn. lra.
    - destruct (IH (match get (fst (o, w)) with
         | Some p => imap2 (fun a v => (a + snd (o, w) * v)%Q) acc p | None => acc end)) as [E1 [E2 E3]].
      cbn [fst snd] in *.
      split; [rewrite E1; now destruct (get o)|]. split; [rewrite E2; now destruct (get o)|].
      intros i j. rewrite E3. cbn [map qsum fold_right fst snd]. unfold qsum.
      destruct (get o); cbn [imap2 px]; lra. }
  destruct (G (ifill (nr shape) (nc shape) 0%Q)) as [E1 [E2 E3]].
  split; [exact E1|]. split; [exact E2|]. intros i j. rewrite E3. cbn [ifill px]. lra.
Qed.

Lemma or_plane_val : forall get obs shape,
  nr (or_plane shape get obs) = nr shape /\ nc (or_plane shape get obs) = nc shape /\
  forall i j n, Z.testbit (px (or_plane shape get obs) i j) n = true <->
    exists o p, In o obs /\ get o = Some p /\ Z.testbit (px p i j) n = true.
Proof.
  intros get obs shape. unfold or_plane.
  assert (G : forall acc, let r := fold_left (fun acc o =>
      match get o with Some p => imap2 Z.lor acc p | None => acc end) obs acc in
      nr r = nr acc /\ nc r = nc acc /\
      forall i j n, Z.testbit (px r i j) n = true <->
        Z.testbit (px acc i j) n = true \/ exists o p, In o obs /\ get o = Some p /\ Z.testbit (px p i j) n = true).
  { induction obs as [|o obs IH]; intro acc; cbv zeta; cbn [fold_left].
    - split; [reflexivity|]. split; [reflexivity|]. intros. split; [auto|].
      intros [H|[o [p [[] _]]]]; assumption.
    - destruct (IH (match get o with Some p => imap2 Z.lor acc p | None => acc end)) as [E1 [E2 E3]].
      split; [rewrite E1; now destruct (get o)|]. split; [rewrite E2; now destruct (get o)|].
      intros i j n. rewrite E3. destruct (get o) as [p|] eqn:Eg; cbn [imap2 px].
      + rewrite Z.lor_spec, orb_true_iff. split.
        * intros [[H|H]|[x [q [Hx H]]]]; [now left|right; exists o, p; split; [now left|now split]|
            right; exists x, q; split; [now right|assumption]].
        * intros [H|[x [q [[<-|Hx] [Hq H]]]]]; [tauto| |right; exists x, q; tauto].
          rewrite Eg in Hq. apply Some_inj in Hq. subst. tauto.
      + split.
        * intros [H|[x [q [Hx H]]]]; [now left|right; exists x, q; split; [now right|assumption]].
        * intros [H|[x [q [[<-|Hx] [Hq H]]]]]; [tauto|congruence|right; exists x, q; tauto]. }
  destruct (G (ifill (nr shape) (nc shape) 0)) as [E1 [E2 E3]].
  split; [exact E1|]. split; [exact E2|]. intros i j n. rewrite E3. cbn [ifill px]. rewrite Z.bits_0.
  split; [intros [H|H]; [discriminate|assumption]|now right].
Qed.

(** The averaging weights. *)
Lemma coadd_weights_ok : forall obs ws, coadd_weights obs = Some ws ->
  Forall2 (fun o w => positive_median (f_weight o) w) obs ws /\ (forall w, In w ws -> 0 < w)%Q.
Proof.
  induction obs as [|o obs IH]; intros ws H; cbn [coadd_weights] in H.
  - apply Some_inj in H. subst. split; [constructor|intros w []].
  - destruct (qmedian (positive_of (f_weight o))) as [m|] eqn:E; [|discriminate].
    destruct (coadd_weights obs) as [l|]; [|discriminate]. apply Some_inj in H. subst.
    destruct (IH l eq_refl) as [H1 H2]. destruct (positive_of_median _ _ E) as [H3 H4].
    split; [now constructor|]. intros w [<-|Hw]; auto.
Qed.

Lemma coadd_weights_none : forall obs, coadd_weights obs = None <->
  exists o, In o obs /\ ~ has_positive (f_weight o).
Proof.
  induction obs as [|o obs IH]; cbn [coadd_weights].
  - split; [discriminate|]. intros [o [[] _]].
  - destruct (qmedian (positive_of (f_weight o))) as [m|] eqn:E.
    + assert (Hp : has_positive (f_weight o)) by (apply has_positive_median; eauto).
      destruct (coadd_weights obs) as [l|].
      * split; [discriminate|]. intros [x [[<-|Hx] Hn]]; [contradiction|].
        assert (X : Some l = None) by (apply IH; eauto). discriminate.
      * split; [|reflexivity]. intros _. destruct (proj1 IH eq_refl) as [x [Hx Hn]].
        exists x. split; [now right|assumption].
    + split; [|reflexivity]. intros _. exists o. split; [now left|].
      intro Hp. apply has_positive_median in Hp. destruct Hp as [m Hm]. congruence.
Qed.

Lemma combine_map_r : forall A B C (f : B -> C) (l : list A) (m : list B),
  combine l (map f m) = map (fun x => (fst x, f (snd x))) (combine l m).
Proof.
  induction l as [|a l IH]; intros [|b m]; cbn; try reflexivity. now rewrite IH.
Qed.

Lemma normalized_sum : forall A (obs : list A) ws (v : A -> Q), (0 < qsum ws)%Q ->
  (qsum (map (fun x => snd x * v (fst x)) (combine obs (normalized ws))) == wavg v obs ws)%Q.
Proof.
  intros A obs ws v Hs. unfold normalized, wavg. rewrite combine_map_r, map_map. cbn [fst snd].
  rewrite (qsum_map_ext _ _ (fun x => (/ qsum ws) * (snd x * v (fst x)))%Q).
  - rewrite qsum_map_mult. unfold Qdiv. ring.
  - intros x _. field. lra.
Qed.

Lemma wavg_bounds : forall A (v : A -> Q) obs ws lo hi, List.length ws = List.length obs ->
  (forall w, In w ws -> 0 < w)%Q -> obs <> [] ->
  (forall o, In o obs -> lo <= v o /\ v o <= hi)%Q ->
  (lo <= wavg v obs ws /\ wavg v obs ws <= hi)%Q.
Proof.
  intros A v obs ws lo hi Hl Hw Hne Hv. unfold wavg.
  assert (E : map snd (combine obs ws) = ws).
  { clear - Hl. revert ws Hl. induction obs as [|o obs IH]; intros [|w ws] Hl; cbn in *; try reflexivity; try discriminate.
    f_equal. apply IH. lia. }
  rewrite <- E at 2 4.
  apply (weighted_mean_bounds (A * Q) snd (fun x => v (fst x))).
  - intros [o w] Hx. apply in_combine_r in Hx. cbn. apply Qlt_le_weak. auto.
  - intros [o w] Hx _. apply in_combine_l in Hx. cbn. auto.
  - rewrite E. apply qsum_pos; [|assumption]. destruct ws; [|discriminate]. destruct obs; [contradiction|discriminate].
Qed.

(** ** The weight plane *)
Lemma fold_add_var_none : forall l, fold_left add_var l None = None.
Proof. induction l; [reflexivity|]. cbn. assumption. Qed.

Lemma fold_add_var : forall l v,
  (exists x, In x l /\ (fst x == 0)%Q) /\ fold_left add_var l (Some v) = None \/
  (forall x, In x l -> ~ (fst x == 0)%Q) /\
  exists r, fold_left add_var l (Some v) = Some r /\
    (r == v + qsum (map (fun x => snd x * snd x / fst x) l))%Q.
Proof.
  induction l as [|x l IH]; intro v; cbn [fold_left].
  - right. split; [intros x []|]. exists v. split; [reflexivity|]. cbn. lra.
  - cbn [add_var]. destruct (Qeq_bool (fst x) 0) eqn:E.
    + apply Qeq_bool_iff in E. left. split; [exists x; split; [now left|assumption]|]. apply fold_add_var_none.
    + assert (N : ~ (fst x == 0)%Q) by (intro X; apply Qeq_bool_iff in X; congruence).
      destruct (IH (v + snd x * snd x / fst x)%Q) as [[[y [Hy Ey]] F]|[Hn [r [F Er]]]].
      * left. split; [exists y; split; [now right|assumption]|assumption].
      * right. split; [intros y [<-|Hy]; auto|]. exists r. split; [assumption|]. rewrite Er.
        cbn [map qsum fold_right]. unfold qsum. lra.
Qed.

Lemma Qsq_nonneg : forall x : Q, (0 <= x * x)%Q.
Proof. intro x. destruct (Qlt_le_dec x 0); nra. Qed.

(** Cauchy-Schwarz in the form needed: with the a summing to 1, the sum of
    a^2/w is at least 1 over the sum of the w. *)
Lemma inv_var_bound : forall (l : list (Q * Q)),
  (forall x, In x l -> 0 < fst x)%Q -> (qsum (map snd l) == 1)%Q ->
  (0 < qsum (map (fun x => snd x * snd x / fst x) l))%Q /\
  (1 / qsum (map (fun x => snd x * snd x / fst x) l) <= qsum (map fst l))%Q.
Proof.
  intros l Hw H1.
  assert (Hne : l <> []) by (intros ->; cbn in H1; lra).
  set (W := qsum (map fst l)).
  assert (HW : (0 < W)%Q).
  { apply qsum_pos; [destruct l; [contradiction|discriminate]|]. intros x Hx.
    apply in_map_iff in Hx. destruct Hx as [y [<- Hy]]. auto. }
  set (V := qsum (map (fun x => snd x * snd x / fst x)%Q l)).
  assert (G : forall t, (2 * t - t * t * W <= V)%Q).
  { intro t.
    assert (E : (2 * t - t * t * W == qsum (map (fun x => 2 * t * snd x + (- (t * t)) * fst x) l))%Q).
    { rewrite qsum_map_plus, !qsum_map_mult. fold W. rewrite H1. ring. }
    rewrite E. apply qsum_map_le. intros x Hx. specialize (Hw x Hx).
    apply Qle_shift_div_l; [assumption|].
    destruct x as [a b]. cbn [fst snd] in *. pose proof (Qsq_nonneg (b - t * a)) as Sq. nra. }
  assert (HS : (/ W <= V)%Q).
  { specialize (G (/ W)%Q). assert (E : (2 * / W - / W * / W * W == / W)%Q) by (field; lra).
    rewrite E in G. exact G. }
  assert (HiW : (0 < / W)%Q) by (now apply Qinv_lt_0_compat).
  split; [lra|]. apply Qle_shift_div_r; [lra|].
  assert (E : (W * / W == 1)%Q) by (field; lra). nra.
Qed.

Definition wpix (obs : list fobs) (ws : list Q) (i j : Z) : list (Q * Q) :=
  map (fun x => (px (f_weight (fst x)) i j, snd x)) (combine obs (normalized ws)).

Lemma coadd_weight_px : forall shape obs ws i j,
  px (coadd_weight shape (combine obs (normalized ws))) i j
  = inv_var (fold_left add_var (wpix obs ws i j) (Some 0%Q)).
Proof. reflexivity. Qed.

Lemma in_combine_exists : forall A B (l : list A) (m : list B) a, List.length m = List.length l ->
  In a l -> exists b, In (a, b) (combine l m).
Proof.
  induction l as [|x l IH]; intros [|y m] a Hl Ha; cbn in *; try discriminate; [destruct Ha|].
  destruct Ha as [<-|Ha]; [exists y; now left|]. destruct (IH m a) as [b Hb]; [lia|assumption|].
  exists b. now right.
Qed.

Lemma normalized_length : forall ws, List.length (normalized ws) = List.length ws.
Proof. intro. apply map_length. Qed.

Lemma normalized_total : forall ws, (0 < qsum ws)%Q -> (qsum (normalized ws) == 1)%Q.
Proof.
  intros ws H. unfold normalized.
  rewrite (qsum_map_ext _ _ (fun w => (/ qsum ws) * w)%Q) by (intros; field; lra).
  rewrite qsum_map_mult, map_id. field. lra.
Qed.

Lemma combine_snd : forall A B (l : list A) (m : list B), List.length m = List.length l ->
  map snd (combine l m) = m.
Proof.
  induction l as [|x l IH]; intros [|y m] Hl; cbn in *; try discriminate; [reflexivity|].
  f_equal. apply IH. lia.
Qed.
Lemma combine_fst : forall A B (l : list A) (m : list B), List.length m = List.length l ->
  map fst (combine l m) = l.
Proof.
  induction l as [|x l IH]; intros [|y m] Hl; cbn in *; try discriminate; [reflexivity|].
  f_equal. apply IH. lia.
Qed.

Lemma coadd_weight_val : forall shape obs ws i j, obs <> [] -> List.length ws = List.length obs ->
  (forall w, In w ws -> 0 < w)%Q ->
  (forall o, In o obs -> 0 <= px (f_weight o) i j)%Q ->
  let v := px (coadd_weight shape (combine obs (normalized ws))) i j in
  ((exists o, In o obs /\ (px (f_weight o) i j == 0)%Q) -> v = 0%Q) /\
  ((forall o, In o obs -> 0 < px (f_weight o) i j)%Q ->
     (0 < v)%Q /\ (v == 1 / mean_variance obs ws i j)%Q /\
     (v <= qsum (map (fun o => px (f_weight o) i j) obs))%Q).
Proof.
  intros shape obs ws i j Hne Hl Hw Hnn v.
  assert (Hs : (0 < qsum ws)%Q).
  { apply qsum_pos; [|assumption]. destruct ws; [|discriminate]. destruct obs; [contradiction|discriminate]. }
  unfold v. rewrite coadd_weight_px.
  destruct (fold_add_var (wpix obs ws i j) 0%Q) as [[[x [Hx Ex]] F]|[Hn [r [F Er]]]].
  - rewrite F. split; [reflexivity|]. intro Hp. exfalso. unfold wpix in Hx.
    apply in_map_iff in Hx. destruct Hx as [[o w] [<- Ho]]. apply in_combine_l in Ho. cbn [fst snd] in *.
    specialize (Hp o Ho). lra.
  - split.
    + intros [o [Ho Eo]]. exfalso.
      destruct (in_combine_exists _ _ obs (normalized ws) o) as [b Hb];
        [now rewrite normalized_length|assumption|].
      apply (Hn (px (f_weight o) i j, b)); [|exact Eo]. unfold wpix. apply in_map_iff.
      exists (o, b). now split.
    + intro Hp. rewrite F. cbn [inv_var].
      assert (Hw' : forall x, In x (wpix obs ws i j) -> (0 < fst x)%Q).
      { intros x Hx. unfold wpix in Hx. apply in_map_iff in Hx. destruct Hx as [[o w] [<- Ho]].
        apply in_combine_l in Ho. cbn. auto. }
      assert (H1 : (qsum (map snd (wpix obs ws i j)) == 1)%Q).
      { unfold wpix. rewrite map_map. cbn [snd].
        rewrite combine_snd by now rewrite normalized_length. now apply normalized_total. }
      destruct (inv_var_bound _ Hw' H1) as [P B].
      assert (Er' : (r == qsum (map (fun x => snd x * snd x / fst x) (wpix obs ws i j)))%Q) by lra.
      assert (Pr : (0 < r)%Q) by lra.
      destruct (Qeq_bool r 0) eqn:E; [apply Qeq_bool_iff in E; lra|].
      split; [|split].
      * apply Qlt_shift_div_l; [assumption|lra].
      * rewrite Er'. unfold mean_variance, wpix, normalized.
        rewrite map_map, combine_map_r, map_map. cbn [fst snd].
        rewrite (qsum_map_ext _ (fun x => snd x / qsum ws * (snd x / qsum ws) / px (f_weight (fst x)) i j)%Q
           (fun x => (/ (qsum ws * qsum ws)) * (snd x * snd x / px (f_weight (fst x)) i j))%Q).
        -- rewrite qsum_map_mult. unfold Qdiv. rewrite (Qmult_comm (/ _)). reflexivity.
        -- intros [o w] Hx. apply in_combine_l in Hx. cbn [fst snd]. specialize (Hp o Hx). field. split; lra.
      * rewrite Er'. apply Qle_trans with (1 := B). unfold wpix. rewrite map_map. cbn [fst].
        assert (E1 : map (fun x : fobs * Q => px (f_weight (fst x)) i j) (combine obs (normalized ws))
                   = map (fun o => px (f_weight o) i j) obs).
        { rewrite <- (combine_fst _ _ obs (normalized ws)) at 2 by now rewrite normalized_length.
          now rewrite map_map. }
        rewrite E1. lra.
Qed.

(** ** C43: outcomes *)
Lemma count_plane_all : forall A (get : fobs -> option A) obs,
  in0n (count_plane get obs) (zlen obs) = true <-> all_or_none get obs.
Proof.
  intros A get obs. unfold in0n, count_plane, all_or_none, zlen.
  set (p := fun o => match get o with Some _ => true | None => false end).
  assert (L : (List.length (filter p obs) <= List.length obs)%nat).
  { clear. induction obs; cbn; [lia|]. destruct (p a); cbn; lia. }
  rewrite orb_true_iff, !Z.eqb_eq. split.
  - intros [H|H].
    + right. intros o Ho. destruct (get o) eqn:E; [|reflexivity].
      assert (X : In o (filter p obs)) by (apply filter_In; split; [assumption|unfold p; now rewrite E]).
      destruct (filter p obs); [destruct X|cbn in H; lia].
    + left. intros o Ho E.
      assert (Hf : forall l, List.length (filter p l) = List.length l -> forall x, In x l -> p x = true).
      { clear. induction l as [|y l IH]; intros Hl x Hx; [destruct Hx|]. cbn in Hl.
        assert (L : (List.length (filter p l) <= List.length l)%nat).
        { clear. induction l; cbn; [lia|]. destruct (p a); cbn; lia. }
        destruct (p y) eqn:Ey; cbn in Hl; [|lia]. destruct Hx as [<-|Hx]; [assumption|]. apply IH; [lia|assumption]. }
      specialize (Hf obs ltac:(lia) o Ho). unfold p in Hf. now rewrite E in Hf.
  - intros [H|H].
    + right. f_equal. clear L. induction obs as [|o obs IH]; [reflexivity|]. cbn.
      assert (Hp : p o = true).
      { unfold p. destruct (get o) eqn:E; [reflexivity|]. exfalso. now apply (H o); [left|]. }
      rewrite Hp. cbn. f_equal. apply IH. intros; apply H; now right.
    + left. assert (E : filter p obs = []).
      { clear L. induction obs as [|o obs IH]; [reflexivity|]. cbn.
        assert (Hp : p o = false) by (unfold p; now rewrite (H o) by now left).
        rewrite Hp. apply IH. intros; apply H; now right. }
      now rewrite E.
Qed.

Lemma consistent_iff : forall a b, consistent a b = true <-> compatible a b.
Proof.
  intros a b. unfold consistent, compatible, same_dims. rewrite !andb_true_iff, !Z.eqb_eq. split.
  - intros [[H1 [H2 H3]] H4]. destruct (f_psf a) as [p|]; [|discriminate]. destruct (f_psf b) as [q|]; [|discriminate].
    rewrite !andb_true_iff, !Z.eqb_eq in H4. repeat (split; [assumption|]). exists p, q. tauto.
  - intros [H1 [H2 [H3 [p [q [-> [-> H4]]]]]]]. rewrite !andb_true_iff, !Z.eqb_eq. tauto.
Qed.

Lemma band_obs_omap : forall mb sb obs, Forall2 (fun b o => band_obs mb b = Ok o) sb obs ->
  omap (band_obs mb) sb = Ok obs.
Proof.
  intros mb sb obs H. induction H as [|b o sb obs E H IH]; [reflexivity|]. cbn [omap]. rewrite E. cbn [obind].
  rewrite IH. reflexivity.
Qed.

Lemma all_consistent_ok : forall mb fo sb obs, Forall2 (fun b o => band_obs mb b = Ok o) sb obs ->
  exists ok, all_consistent mb fo sb = Ok ok /\
    (ok = true <-> forall o, In o obs -> compatible fo o).
Proof.
  intros mb fo sb obs H. induction H as [|b o sb obs E H IH]; cbn [all_consistent].
  - exists true. split; [reflexivity|]. split; [intros _ o []|reflexivity].
  - rewrite E. cbn [obind]. destruct (consistent fo o) eqn:Ec.
    + destruct IH as [ok [E1 E2]]. exists ok. split; [assumption|]. rewrite E2. apply consistent_iff in Ec.
      split; [intros X x [<-|Hx]; auto|intros X x Hx; apply X; now right].
    + exists false. split; [reflexivity|]. split; [discriminate|]. intro X.
      assert (Y : compatible fo o) by (apply X; now left). apply consistent_iff in Y. congruence.
Qed.

Lemma band_obs_valid : forall mb b o,
  (0 <= b < zlen mb /\ exists l, nth_error mb (Z.to_nat b) = Some l /\ hd_error l = Some o) ->
  band_obs mb b = Ok o.
Proof.
  intros mb b o [Hb [l [E Eh]]]. unfold band_obs, py_index.
  destruct (Z.ltb_spec b 0); [lia|]. destruct (Z.leb_spec 0 b); [|lia]. destruct (Z.ltb_spec b (zlen mb)); [|lia].
  cbn [andb]. rewrite E. cbn [obind]. destruct l as [|x l]; [discriminate|]. cbn in Eh. apply Some_inj in Eh. subst.
  unfold zlen. cbn [List.length]. destruct (Z.ltb_spec 0 0); [lia|].
  destruct (Z.ltb_spec 0 (Z.of_nat (S (List.length l)))); [reflexivity|lia].
Qed.

Lemma sb_valid_band : forall mb sb obs, sb_valid mb sb obs -> Forall2 (fun b o => band_obs mb b = Ok o) sb obs.
Proof. intros mb sb obs H. induction H; constructor; auto using band_obs_valid. Qed.

Lemma sb_valid_existsb : forall mb sb obs, sb_valid mb sb obs -> existsb (fun s => zlen mb <=? s) sb = false.
Proof.
  intros mb sb obs H. induction H as [|b o sb obs [Hb _] H IH]; [reflexivity|]. cbn.
  rewrite IH. destruct (Z.leb_spec (zlen mb) b); [lia|reflexivity].
Qed.

Lemma coadd_single : forall mb s o, sb_valid mb [s] [o] ->
  make_coadd_obs mb [s] = Ok (Some o, 0).
Proof.
  intros mb s o H. pose proof (sb_valid_band _ _ _ H) as Hb. inversion H as [|? ? ? ? [Hs _] _]; subst.
  inversion Hb as [|? ? ? ? Eb _]; subst. unfold make_coadd_obs.
  destruct (Z.eqb_spec (zlen mb) 1) as [E1|N1].
  - cbn [py_index zlen List.length Z.of_nat Z.ltb Z.compare Z.leb andb Z.to_nat nth_error obind].
    assert (s = 0) by lia. subst s. unfold py_index. cbn. rewrite Eb. reflexivity.
  - destruct (Z.ltb_spec s (zlen mb)); [|lia]. rewrite Eb. reflexivity.
Qed.

(** Two or more shear bands of a many band object. *)
Lemma coadd_many_bands : forall mb s0 s1 sb o0 o1 obs,
  zlen mb <> 1 -> sb_valid mb (s0 :: s1 :: sb) (o0 :: o1 :: obs) ->
  (~ (forall o, In o (o1 :: obs) -> compatible o0 o) ->
     make_coadd_obs mb (s0 :: s1 :: sb) = Ok (None, flag_value INCONSISTENT_BANDS)) /\
  ((forall o, In o (o1 :: obs) -> compatible o0 o) ->
     exists fp, f_psf o0 = Some fp /\
     make_coadd_obs mb (s0 :: s1 :: sb) = Ok (coadd_many (o0 :: o1 :: obs) o0 fp)).
Proof.
  intros mb s0 s1 sb o0 o1 obs H1 Hv. pose proof (sb_valid_band _ _ _ Hv) as Hb.
  unfold make_coadd_obs. destruct (Z.eqb_spec (zlen mb) 1); [contradiction|].
  rewrite (sb_valid_existsb _ _ _ Hv).
  assert (E0 : py_index (s0 :: s1 :: sb) 0 = Ok s0) by (unfold py_index, zlen; cbn [List.length];
    destruct (Z.ltb_spec 0 (Z.of_nat (S (S (List.length sb))))); [reflexivity|lia]).
  rewrite E0. cbn [obind]. inversion Hb as [|? ? ? ? Eb0 Hb']; subst. rewrite Eb0. cbn [obind tl].
  destruct (all_consistent_ok mb o0 _ _ Hb') as [ok [Eok Hok]]. rewrite Eok. cbn [obind].
  split.
  - intro Hn. destruct ok; [exfalso; apply Hn; now apply Hok|]. reflexivity.
  - intro Hc. destruct ok; [|exfalso; apply Hok in Hc; discriminate]. cbn [negb].
    rewrite (band_obs_omap _ _ _ Hb). cbn [obind].
    destruct (Hc o1 (or_introl eq_refl)) as [_ [_ [_ [p [q [Ep _]]]]]]. exists p.
    split; [assumption|]. now rewrite Ep.
Qed.

Lemma coadd_many_outcomes : forall obs fo fp,
  ((exists o, In o obs /\ ~ has_positive (f_weight o)) ->
      coadd_many obs fo fp = (None, flag_value ZERO_WEIGHTS)) /\
  (forall ws, coadd_weights obs = Some ws ->
    let W := coadd_weight (f_weight fo) (combine obs (normalized ws)) in
    ((forall i j, inside (f_weight fo) i j -> px W i j == 0)%Q ->
        coadd_many obs fo fp = (None, flag_value ZERO_WEIGHTS)) /\
    ((exists i j, inside (f_weight fo) i j /\ ~ (px W i j == 0)%Q) ->
      (~ (all_or_none f_mfrac obs /\ all_or_none f_noise obs /\ all_or_none f_bmask obs /\ all_or_none f_ormask obs) ->
         coadd_many obs fo fp = (None, flag_value INCONSISTENT_BANDS)) /\
      (all_or_none f_mfrac obs /\ all_or_none f_noise obs /\ all_or_none f_bmask obs /\ all_or_none f_ormask obs ->
         exists co, coadd_many obs fo fp = (Some co, 0)))).
Proof.
  intros obs fo fp. split.
  - intro H. apply coadd_weights_none in H. unfold coadd_many. now rewrite H.
  - intros ws Ews W. unfold coadd_many. rewrite Ews. fold W. split; [|intro H; split].
    + intro Hz.
      assert (E : all_pixels (fun w => Qeq_bool w 0) W = true).
      { apply all_pixels_spec. intros i j Hin. apply Qeq_bool_iff. now apply Hz. }
      now rewrite E.
    + intro Hno.
      destruct (all_pixels (fun w => Qeq_bool w 0) W) eqn:E.
      * exfalso. destruct H as [i [j [Hin Hz]]]. apply Hz. apply Qeq_bool_iff.
        exact (proj1 (all_pixels_spec _ _ W) E i j Hin).
      * destruct (in0n (count_plane f_mfrac obs) (zlen obs)) eqn:E1; [|reflexivity].
        destruct (in0n (count_plane f_noise obs) (zlen obs)) eqn:E2; [|reflexivity].
        destruct (in0n (count_plane f_bmask obs) (zlen obs)) eqn:E3; [|reflexivity].
        destruct (in0n (count_plane f_ormask obs) (zlen obs)) eqn:E4; [|reflexivity].
        exfalso. apply Hno. apply count_plane_all in E1, E2, E3, E4. tauto.
    + intros [A1 [A2 [A3 A4]]].
      destruct (all_pixels (fun w => Qeq_bool w 0) W) eqn:E.
      * exfalso. destruct H as [i [j [Hin Hz]]]. apply Hz. apply Qeq_bool_iff.
        exact (proj1 (all_pixels_spec _ _ W) E i j Hin).
      * apply count_plane_all in A1, A2, A3, A4. rewrite A1, A2, A3, A4. cbn [andb negb]. eauto.
Qed.

Lemma Forall2_len : forall A B (R : A -> B -> Prop) l m, Forall2 R l m -> List.length m = List.length l.
Proof. intros A B R l m H. induction H; cbn; congruence. Qed.

Lemma compatible_dec : forall o obs, (forall x, In x obs -> compatible o x) \/ ~ (forall x, In x obs -> compatible o x).
Proof.
  intros o obs. induction obs as [|a obs IH]; [left; intros x []|].
  destruct (consistent o a) eqn:E.
  - apply consistent_iff in E. destruct IH as [H|H].
    + left. intros x [<-|Hx]; auto.
    + right. intro X. apply H. intros x Hx. apply X. now right.
  - right. intro X. assert (Y : compatible o a) by (apply X; now left). apply consistent_iff in Y. congruence.
Qed.

Lemma count_plane_none : forall A (get : fobs -> option A) obs, (forall o, In o obs -> get o = None) ->
  (0 <? count_plane get obs) = false.
Proof.
  intros A get obs H. unfold count_plane.
  assert (E : filter (fun o => match get o with Some _ => true | None => false end) obs = []).
  { induction obs as [|o obs IH]; [reflexivity|]. cbn. rewrite (H o) by now left. apply IH. intros; apply H; now right. }
  rewrite E. reflexivity.
Qed.
Lemma count_plane_some : forall A (get : fobs -> option A) obs, obs <> [] -> (forall o, In o obs -> get o <> None) ->
  (0 <? count_plane get obs) = true.
Proof.
  intros A get [|o obs] Hne H; [contradiction|]. unfold count_plane. cbn [filter].
  destruct (get o) eqn:E; [|exfalso; now apply (H o); [left|]]. unfold zlen. cbn [List.length].
  apply Z.ltb_lt. lia.
Qed.

Lemma mean_plane_ok : forall get obs ws shape, obs <> [] -> (0 < qsum ws)%Q ->
  mean_of_plane get obs ws
    (if 0 <? count_plane get obs then Some (wsum_plane shape get (combine obs (normalized ws))) else None).
Proof.
  intros get obs ws shape Hne Hs. split.
  - intro H. now rewrite count_plane_none.
  - intro H. rewrite count_plane_some by assumption. eexists. split; [reflexivity|]. intros i j.
    destruct (wsum_plane_val get (combine obs (normalized ws)) shape) as [_ [_ E]]. rewrite E.
    now apply (normalized_sum fobs obs ws (fun o => match get o with Some q => px q i j | None => 0%Q end)).
Qed.
Lemma or_plane_ok : forall get obs shape, obs <> [] ->
  or_of_plane get obs (if 0 <? count_plane get obs then Some (or_plane shape get obs) else None).
Proof.
  intros get obs shape Hne. split.
  - intro H. now rewrite count_plane_none.
  - intro H. rewrite count_plane_some by assumption. eexists. split; [reflexivity|].
    apply or_plane_val.
Qed.

Lemma coadd_contents : forall mb s0 s1 sb o0 o1 obs' co,
  let obs := o0 :: o1 :: obs' in
  zlen mb <> 1 -> sb_valid mb (s0 :: s1 :: sb) obs ->
  make_coadd_obs mb (s0 :: s1 :: sb) = Ok (Some co, 0) ->
  exists ws, Forall2 (fun o w => positive_median (f_weight o) w) obs ws /\ (forall w, In w ws -> 0 < w)%Q /\
    nr (f_image co) = nr (f_image o0) /\ nc (f_image co) = nc (f_image o0) /\
    nr (f_weight co) = nr (f_weight o0) /\ nc (f_weight co) = nc (f_weight o0) /\ f_jac co = f_jac o0 /\
    (forall i j, px (f_image co) i j == wavg (fun o => px (f_image o) i j) obs ws)%Q /\
    (forall i j, (forall o, In o obs -> 0 <= px (f_weight o) i j)%Q ->
       ((exists o, In o obs /\ (px (f_weight o) i j == 0)%Q) -> px (f_weight co) i j = 0%Q) /\
       ((forall o, In o obs -> 0 < px (f_weight o) i j)%Q ->
          (0 < px (f_weight co) i j)%Q /\ (px (f_weight co) i j == 1 / mean_variance obs ws i j)%Q /\
          (px (f_weight co) i j <= qsum (map (fun o => px (f_weight o) i j) obs))%Q)) /\
    mean_of_plane f_mfrac obs ws (f_mfrac co) /\ mean_of_plane f_noise obs ws (f_noise co) /\
    or_of_plane f_bmask obs (f_bmask co) /\ or_of_plane f_ormask obs (f_ormask co) /\
    exists p, f_psf co = Some p /\
      forall i j, (px (p_image p) i j ==
        wavg (fun o => match f_psf o with Some q => px (p_image q) i j | None => 0 end) obs ws)%Q.
Proof.
  intros mb s0 s1 sb o0 o1 obs' co obs H1 Hv H.
  destruct (coadd_many_bands mb s0 s1 sb o0 o1 obs' H1 Hv) as [Hbad Hgood].
  destruct (compatible_dec o0 (o1 :: obs')) as [Hc|Hc]; [|rewrite (Hbad Hc) in H; discriminate].
  destruct (Hgood Hc) as [fp [Efp E]]. rewrite E in H. apply Ok_inj in H. fold obs in H.
  unfold coadd_many in H. destruct (coadd_weights obs) as [ws|] eqn:Ews; [|discriminate].
  destruct (coadd_weights_ok _ _ Ews) as [Hm Hpos].
  destruct (all_pixels _ _); [discriminate|]. destruct (negb _); [discriminate|].
  assert (Hne : obs <> []) by discriminate.
  pose proof (Forall2_len _ _ _ _ _ Hm) as Hl.
  assert (Hs : (0 < qsum ws)%Q).
  { apply qsum_pos; [|assumption]. destruct ws; discriminate. }
  pose proof (f_equal fst H) as Ew'. cbn [fst] in Ew'. apply Some_inj in Ew'. clear H.
  exists ws. split; [exact Hm|]. split; [exact Hpos|]. rewrite <- Ew'. cbn [f_image f_weight f_jac f_mfrac f_noise f_bmask f_ormask f_psf].
  destruct (wsum_plane_val (fun o => Some (f_image o)) (combine obs (normalized ws)) (f_image o0)) as [I1 [I2 I3]].
  split; [exact I1|]. split; [exact I2|]. split; [reflexivity|]. split; [reflexivity|]. split; [reflexivity|].
  split.
  { intros i j. rewrite I3. exact (normalized_sum fobs obs ws (fun o => px (f_image o) i j) Hs). }
  split.
  { intros i j Hnn. exact (coadd_weight_val (f_weight o0) obs ws i j Hne Hl Hpos Hnn). }
  split; [now apply mean_plane_ok|]. split; [now apply mean_plane_ok|].
  split; [now apply or_plane_ok|]. split; [now apply or_plane_ok|].
  eexists. split; [reflexivity|]. cbn [p_image]. intros i j.
  destruct (wsum_plane_val psf_image_of (combine obs (normalized ws)) (p_image fp)) as [_ [_ P3]]. rewrite P3.
  rewrite <- (normalized_sum fobs obs ws (fun o => match f_psf o with Some q => px (p_image q) i j | None => 0%Q end) Hs).
  apply qsum_map_ext. intros [o x] _. unfold psf_image_of. cbn [fst snd]. destruct (f_psf o); reflexivity.
Qed.

Lemma wavg_const : forall A (v : A -> Q) obs ws c, List.length ws = List.length obs ->
  (forall w, In w ws -> 0 < w)%Q -> obs <> [] -> (forall o, In o obs -> v o == c)%Q -> (wavg v obs ws == c)%Q.
Proof.
  intros A v obs ws c Hl Hw Hne Hv.
  destruct (wavg_bounds A v obs ws c c Hl Hw Hne) as [H1 H2]; [intros o Ho; rewrite (Hv o Ho); lra|]. lra.
Qed.

Lemma coadd_mean_between : forall mb s0 s1 sb o0 o1 obs' co,
  let obs := o0 :: o1 :: obs' in
  zlen mb <> 1 -> sb_valid mb (s0 :: s1 :: sb) obs ->
  make_coadd_obs mb (s0 :: s1 :: sb) = Ok (Some co, 0) ->
  forall i j lo hi, (forall o, In o obs -> lo <= px (f_image o) i j /\ px (f_image o) i j <= hi)%Q ->
    (lo <= px (f_image co) i j /\ px (f_image co) i j <= hi)%Q.
Proof.
  intros mb s0 s1 sb o0 o1 obs' co obs H1 Hv H i j lo hi Hb.
  destruct (coadd_contents mb s0 s1 sb o0 o1 obs' co H1 Hv H) as [ws [Hm [Hp [_ [_ [_ [_ [_ [E _]]]]]]]]].
  rewrite (E i j). apply wavg_bounds; [now apply Forall2_len in Hm|assumption|discriminate|assumption].
Qed.

(** Shear bands that are not there. *)
Lemma coadd_missing_band : forall mb sb, (2 <= List.length sb)%nat -> zlen mb <> 1 ->
  (exists s, In s sb /\ zlen mb <= s) -> make_coadd_obs mb sb = Ok (None, flag_value INCONSISTENT_BANDS).
Proof.
  intros mb sb Hl H1 [s [Hs Hb]]. unfold make_coadd_obs. destruct (Z.eqb_spec (zlen mb) 1); [contradiction|].
  assert (E : existsb (fun s => zlen mb <=? s) sb = true).
  { apply existsb_exists. exists s. split; [assumption|]. now apply Z.leb_le. }
  rewrite E. destruct sb as [|a [|b sb]]; cbn in Hl; try lia. reflexivity.
Qed.
Lemma coadd_missing_single : forall mb s, zlen mb <= s -> 0 < zlen mb ->
  make_coadd_obs mb [s] = Ok (None, flag_value INCONSISTENT_BANDS).
Proof.
  intros mb s Hs Hn. unfold make_coadd_obs. destruct (Z.eqb_spec (zlen mb) 1).
  - unfold py_index. cbn. destruct (Z.eqb_spec s 0); [lia|reflexivity].
  - destruct (Z.ltb_spec s (zlen mb)); [lia|reflexivity].
Qed.
Lemma coadd_one_band : forall mb s sb, zlen mb = 1 -> s <> 0 ->
  make_coadd_obs mb (s :: sb) = Ok (None, flag_value INCONSISTENT_BANDS).
Proof.
  intros mb s sb E N. unfold make_coadd_obs. rewrite E. cbn [Z.eqb Pos.eqb].
  assert (E0 : py_index (s :: sb) 0 = Ok s) by (unfold py_index, zlen; cbn [List.length];
    destruct (Z.ltb_spec 0 (Z.of_nat (S (List.length sb)))); [reflexivity|lia]).
  rewrite E0. cbn [obind]. destruct (Z.eqb_spec s 0); [contradiction|reflexivity].
Qed.

Lemma coadd_exact : forall mb s0 s1 sb o0 o1 obs',
  let obs := o0 :: o1 :: obs' in let w0 := f_weight o0 in
  zlen mb <> 1 -> sb_valid mb (s0 :: s1 :: sb) obs ->
  (forall o i j, In o obs -> inside w0 i j -> 0 <= px (f_weight o) i j)%Q ->
  (forall o, In o obs -> nr (f_weight o) = nr w0 /\ nc (f_weight o) = nc w0) ->
  let compat := forall o, In o (o1 :: obs') -> compatible o0 o in
  let common := exists i j, inside w0 i j /\ forall o, In o obs -> (0 < px (f_weight o) i j)%Q in
  let nowhere := forall i j, inside w0 i j -> exists o, In o obs /\ (px (f_weight o) i j == 0)%Q in
  let planes := all_or_none f_mfrac obs /\ all_or_none f_noise obs /\ all_or_none f_bmask obs /\ all_or_none f_ormask obs in
  let res := make_coadd_obs mb (s0 :: s1 :: sb) in
  (~ compat -> res = Ok (None, flag_value INCONSISTENT_BANDS)) /\
  (compat -> nowhere -> res = Ok (None, flag_value ZERO_WEIGHTS)) /\
  (compat -> common -> ~ planes -> res = Ok (None, flag_value INCONSISTENT_BANDS)) /\
  (compat -> common -> planes -> exists co, res = Ok (Some co, 0)).
Proof.
  intros mb s0 s1 sb o0 o1 obs' obs w0 H1 Hv Hnn Hsh compat common nowhere planes res.
  destruct (coadd_many_bands mb s0 s1 sb o0 o1 obs' H1 Hv) as [Hbad Hgood].
  assert (Hcom : common -> exists ws, coadd_weights obs = Some ws /\
     let W := coadd_weight (f_weight o0) (combine obs (normalized ws)) in
     exists i j, inside (f_weight o0) i j /\ ~ (px W i j == 0)%Q).
  { intros [i [j [Hin Hp]]].
    destruct (coadd_weights obs) as [ws|] eqn:Ews.
    - exists ws. split; [reflexivity|]. exists i, j. split; [exact Hin|].
      destruct (coadd_weights_ok _ _ Ews) as [Hm Hpos].
      destruct (coadd_weight_val (f_weight o0) obs ws i j) as [_ X];
        [discriminate|now apply Forall2_len in Hm|assumption|intros; now apply Hnn|].
      destruct (X Hp) as [Y _]. lra.
    - exfalso. apply coadd_weights_none in Ews. destruct Ews as [o [Ho Hn]]. apply Hn. exists i, j.
      split; [|now apply Hp]. unfold inside in *. destruct (Hsh o Ho) as [-> ->]. exact Hin. }
  split; [exact Hbad|]. split; [|split].
  - intros Hc Hz. destruct (Hgood Hc) as [fp [_ E]]. unfold res. rewrite E. fold obs. f_equal.
    destruct (coadd_many_outcomes obs o0 fp) as [A B].
    destruct (coadd_weights obs) as [ws|] eqn:Ews.
    + destruct (B ws eq_refl) as [B1 _]. apply B1. intros i j Hin.
      destruct (coadd_weights_ok _ _ Ews) as [Hm Hpos].
      destruct (coadd_weight_val (f_weight o0) obs ws i j) as [X _];
        [discriminate|now apply Forall2_len in Hm|assumption|intros; now apply Hnn|].
      rewrite X; [reflexivity|]. now apply Hz.
    + apply A. now apply coadd_weights_none.
  - intros Hc Hco Hpl. destruct (Hgood Hc) as [fp [_ E]]. unfold res. rewrite E. fold obs. f_equal.
    destruct (Hcom Hco) as [ws [Ews Hw]]. destruct (coadd_many_outcomes obs o0 fp) as [_ B].
    destruct (B ws Ews) as [_ B2]. destruct (B2 Hw) as [B3 _]. now apply B3.
  - intros Hc Hco Hpl. destruct (Hgood Hc) as [fp [_ E]]. unfold res. rewrite E. fold obs.
    destruct (Hcom Hco) as [ws [Ews Hw]]. destruct (coadd_many_outcomes obs o0 fp) as [_ B].
    destruct (B ws Ews) as [_ B2]. destruct (B2 Hw) as [_ B3]. destruct (B3 Hpl) as [co Eco].
    exists co. now rewrite Eco.
Qed.
