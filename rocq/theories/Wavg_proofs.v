(** Proofs about the weighted average fitters. *)
From Coq Require Import ZArith QArith Lqa Lia List String Bool Permutation Setoid Morphisms DecimalString Ascii.
From Verif Require Import Base Arr Median Flags_model Coadd_model Coadd_spec Coadd_proofs Wavg_model Wavg_spec.
Import ListNotations.
Local Open Scope Z_scope.

(** ** Float values *)
Global Instance neqv_equiv : Equivalence neqv.
Proof.
  split.
  - intros [x|]; cbn; [reflexivity | exact I].
  - intros [x|] [y|] H; cbn in *; auto. symmetry; exact H.
  - intros [x|] [y|] [z|] H1 H2; cbn in *; auto; try contradiction. rewrite H1; exact H2.
Qed.
Global Instance nadd_proper : Proper (neqv ==> neqv ==> neqv) nadd.
Proof. intros [a|] [b|] H [c|] [d|] K; cbn in *; auto; try contradiction. rewrite H, K. reflexivity. Qed.
Global Instance nmul_proper : Proper (neqv ==> neqv ==> neqv) nmul.
Proof. intros [a|] [b|] H [c|] [d|] K; cbn in *; auto; try contradiction. rewrite H, K. reflexivity. Qed.
Lemma Qeq_bool_ext : forall a b c, (a == b)%Q -> Qeq_bool a c = Qeq_bool b c.
Proof.
  intros a b c H. destruct (Qeq_bool a c) eqn:E, (Qeq_bool b c) eqn:F; auto.
  - apply Qeq_bool_iff in E. apply Qeq_bool_neq in F. exfalso; apply F. rewrite <- H; exact E.
  - apply Qeq_bool_iff in F. apply Qeq_bool_neq in E. exfalso; apply E. rewrite H; exact F.
Qed.
Lemma Qle_bool_ext : forall a b, (a == b)%Q -> Qle_bool a 0 = Qle_bool b 0.
Proof.
  intros a b H. destruct (Qle_bool_dec a) as [[E E']|[E E']], (Qle_bool_dec b) as [[F F']|[F F']]; rewrite E, F; auto; lra.
Qed.
Global Instance ndiv_proper : Proper (neqv ==> neqv ==> neqv) ndiv.
Proof.
  intros [a|] [b|] H [c|] [d|] K; cbn in *; auto; try contradiction.
  rewrite (Qeq_bool_ext c d 0 K). destruct (Qeq_bool d 0); cbn; auto. rewrite H, K. reflexivity.
Qed.
Lemma nle0_ext : forall a b, neqv a b -> nle0 a = nle0 b.
Proof. intros [a|] [b|] H; cbn in *; auto; try contradiction. apply Qle_bool_ext; exact H. Qed.
Lemma Some_neqv : forall x y, (x == y)%Q -> neqv (Some x) (Some y). Proof. intros; exact H. Qed.
Lemma nadd_assoc : forall a b c, neqv (nadd (nadd a b) c) (nadd a (nadd b c)).
Proof. intros [a|] [b|] [c|]; cbn; auto. ring. Qed.
Lemma nadd_comm : forall a b, neqv (nadd a b) (nadd b a).
Proof. intros [a|] [b|]; cbn; auto. ring. Qed.
Lemma nadd_0_l : forall a, neqv (nadd (Some 0%Q) a) a.
Proof. intros [a|]; cbn; auto. ring. Qed.
Lemma nadd_0_r : forall a, neqv (nadd a (Some 0%Q)) a.
Proof. intros [a|]; cbn; auto. ring. Qed.
Lemma nmul_1_l : forall a, neqv (nmul (Some 1%Q) a) a.
Proof. intros [a|]; cbn; auto. ring. Qed.
Lemma nmul_assoc : forall a b c, neqv (nmul (nmul a b) c) (nmul a (nmul b c)).
Proof. intros [a|] [b|] [c|]; cbn; auto. ring. Qed.
Lemma nmul_comm : forall a b, neqv (nmul a b) (nmul b a).
Proof. intros [a|] [b|]; cbn; auto. ring. Qed.
Lemma nsum_ext : forall A (f g : A -> num) l, (forall x, In x l -> neqv (f x) (g x)) ->
  neqv (nsum (map f l)) (nsum (map g l)).
Proof.
  intros A f g l. induction l as [|x l IH]; intros H; cbn [map nsum fold_right]; [reflexivity|].
  apply nadd_proper; [apply H; left; reflexivity | apply IH; intros; apply H; right; assumption].
Qed.
Lemma nsum_perm : forall l l', Permutation l l' -> neqv (nsum l) (nsum l').
Proof.
  intros l l' H. induction H; cbn [nsum fold_right].
  - reflexivity.
  - apply nadd_proper; [reflexivity | exact IHPermutation].
  - rewrite <- !nadd_assoc. apply nadd_proper; [apply nadd_comm | reflexivity].
  - etransitivity; eassumption.
Qed.
Lemma nsum_scale : forall A (f : A -> num) q l,
  l <> [] -> neqv (nsum (map (fun x => nmul (Some q) (f x)) l)) (nmul (Some q) (nsum (map f l))).
Proof.
  intros A f q l Hl. clear Hl. induction l as [|x l IH]; cbn [map nsum fold_right].
  - cbn. ring.
  - unfold nsum in *. rewrite IH. destruct (f x) as [a|], (fold_right nadd (Some 0%Q) (map f l)) as [b|]; cbn; auto. ring.
Qed.
Lemma nne0_ext : forall a b, neqv a b -> nne0 a = nne0 b.
Proof. intros [a|] [b|] H; cbn in *; auto; try contradiction. f_equal. apply Qeq_bool_ext; exact H. Qed.

(** ** OR of flags *)
Lemma fold_lor_acc : forall l a, fold_left Z.lor l a = Z.lor a (fold_left Z.lor l 0).
Proof.
  induction l as [|x l IH]; intros a; cbn [fold_left]; [rewrite Z.lor_0_r; reflexivity|].
  rewrite IH, (IH (Z.lor 0 x)), Z.lor_0_l, Z.lor_assoc. reflexivity.
Qed.
Lemma zor_cons : forall x l, zor (x :: l) = Z.lor x (zor l).
Proof. intros x l. unfold zor. cbn [fold_left]. rewrite fold_lor_acc, Z.lor_0_l. reflexivity. Qed.
Lemma zor_zero : forall l, zor l = 0 <-> forall x, In x l -> x = 0.
Proof.
  induction l as [|x l IH]; [split; [intros _ y [] | reflexivity]|].
  rewrite zor_cons, Z.lor_eq_0_iff, IH. split.
  - intros [H1 H2] y [-> | Hy]; auto.
  - intros H. split; [apply H; left; reflexivity | intros y Hy; apply H; right; exact Hy].
Qed.
Lemma zor_perm : forall l l', Permutation l l' -> zor l = zor l'.
Proof.
  intros l l' H. induction H.
  - reflexivity.
  - rewrite !zor_cons, IHPermutation. reflexivity.
  - rewrite !zor_cons, !Z.lor_assoc, (Z.lor_comm y x). reflexivity.
  - congruence.
Qed.

(** ** The sums over bands in closed form *)
(** Flags raised by one shear band. *)
Definition band_flag (weighted : bool) (b : sband) : Z :=
  Z.lor (Z.lor (Z.lor (b_flags b) (missing_flags weighted b)) (snd (flux_mom_ratio weighted b)))
        (if Qle_bool (b_wgt b) 0 then flag_value ZERO_WEIGHTS else 0).
Definition is_used (b : sband) : bool :=
  b_issb b && match b_res b with Some r => has_moms r | None => false end.
Definition factor (weighted : bool) (b : sband) : num :=
  ndiv (nmul (Some (b_wgt b)) (fst (flux_mom_ratio weighted b))) (Some (mom_norm b)).
Definition bmom (b : sband) (i : nat) : num :=
  match b_res b with Some r => match r_mom r with Some m => m i | None => None end | None => None end.
Definition bcov (b : sband) (i j : nat) : num :=
  match b_res b with Some r => match r_cov r with Some m => m i j | None => None end | None => None end.
Definition used (l : list sband) : list sband := filter is_used l.

Lemma sum_step_used : forall w s b, is_used b = true ->
  sum_step w s b =
  mkSums (fun i => nadd (s_mom s i) (nmul (factor w b) (bmom b i)))
         (fun i j => nadd (s_cov s i j) (nmul (nmul (factor w b) (factor w b)) (bcov b i j)))
         (s_wgt s + b_wgt b) (Z.lor (s_flags s) (band_flag w b)) (s_used s ++ [true])
         (nadd (s_flux s) (nmul (Some (b_wgt b)) (bmom b 5%nat)))
         (nadd (s_flux_var s) (nmul (Some (b_wgt b * b_wgt b)%Q) (bcov b 5%nat 5%nat))).
Proof.
  intros w s b Hu. unfold is_used in Hu. apply andb_true_iff in Hu. destruct Hu as [Hi Hr].
  unfold sum_step, band_flag, factor, bmom, bcov. rewrite Hi.
  destruct (b_res b) as [[rf rm rc rn fl fe ff]|]; [|discriminate].
  unfold has_moms in Hr. cbn [r_mom r_cov] in *.
  destruct rm as [m|]; [|discriminate]. destruct rc as [c|]; [|discriminate].
  destruct (flux_mom_ratio w b) as [ratio rfl]. cbn [fst snd]. rewrite !Z.lor_assoc. reflexivity.
Qed.
Lemma sum_step_unused : forall w s b, is_used b = false ->
  sum_step w s b =
  mkSums (s_mom s) (s_cov s) (s_wgt s)
    (if b_issb b then Z.lor (s_flags s) (band_flag w b) else s_flags s) (s_used s ++ [false]) (s_flux s) (s_flux_var s).
Proof.
  intros w s b Hu. unfold is_used in Hu. unfold sum_step, band_flag.
  destruct (b_issb b); [|reflexivity]. cbn [andb] in Hu.
  destruct (flux_mom_ratio w b) as [ratio rfl]. cbn [snd]. rewrite !Z.lor_assoc.
  destruct (b_res b) as [[rf rm rc rn fl fe ff]|]; [|reflexivity].
  unfold has_moms in Hu. cbn [r_mom r_cov] in Hu.
  destruct rm as [m|]; [|reflexivity]. destruct rc as [c|]; [|reflexivity]. discriminate.
Qed.

Lemma fold_sums : forall w bands s,
  let r := fold_left (sum_step w) bands s in
  (forall i, neqv (s_mom r i) (nadd (s_mom s i) (nsum (map (fun b => nmul (factor w b) (bmom b i)) (used bands))))) /\
  (forall i j, neqv (s_cov r i j)
     (nadd (s_cov s i j) (nsum (map (fun b => nmul (nmul (factor w b) (factor w b)) (bcov b i j)) (used bands))))) /\
  (s_wgt r == s_wgt s + qsum (map b_wgt (used bands)))%Q /\
  s_flags r = Z.lor (s_flags s) (zor (map (band_flag w) (filter b_issb bands))) /\
  s_used r = s_used s ++ map is_used bands /\
  neqv (s_flux r) (nadd (s_flux s) (nsum (map (fun b => nmul (Some (b_wgt b)) (bmom b 5%nat)) (used bands)))) /\
  neqv (s_flux_var r)
    (nadd (s_flux_var s) (nsum (map (fun b => nmul (Some (b_wgt b * b_wgt b)%Q) (bcov b 5%nat 5%nat)) (used bands)))).
Proof.
  intros w bands. induction bands as [|b bands IH]; intros s; cbn [fold_left].
  - cbn [used filter map nsum fold_right qsum]. repeat split; intros; try (symmetry; apply nadd_0_r).
    + ring.
    + unfold zor. cbn [fold_left]. rewrite Z.lor_0_r. reflexivity.
    + rewrite app_nil_r. reflexivity.
  - specialize (IH (sum_step w s b)). cbv zeta in IH. destruct IH as (I1 & I2 & I3 & I4 & I5 & I6 & I7).
    cbv zeta. cbn [used filter map]. destruct (is_used b) eqn:Hu.
    + rewrite (sum_step_used w s b Hu) in *. cbn [s_mom s_cov s_wgt s_flags s_used s_flux s_flux_var] in *.
      assert (Hi : b_issb b = true) by (apply andb_true_iff in Hu; tauto). rewrite Hi.
      unfold used in *. cbn [map nsum fold_right qsum]. fold (nsum).
      repeat split.
      * intros i. rewrite I1. apply nadd_assoc.
      * intros i j. rewrite I2. apply nadd_assoc.
      * rewrite I3. unfold qsum. ring.
      * rewrite I4, zor_cons, Z.lor_assoc. reflexivity.
      * rewrite I5, <- app_assoc. reflexivity.
      * rewrite I6. apply nadd_assoc.
      * rewrite I7. apply nadd_assoc.
    + rewrite (sum_step_unused w s b Hu) in *. cbn [s_mom s_cov s_wgt s_flags s_used s_flux s_flux_var] in *.
      unfold used in *. repeat split; auto.
      * destruct (b_issb b); rewrite I4; cbn [map]; [rewrite zor_cons, Z.lor_assoc|]; reflexivity.
      * rewrite I5, <- app_assoc. reflexivity.
Qed.

Lemma sum_bands_closed : forall w bands,
  let r := sum_bands_wavg w bands in
  (forall i, neqv (s_mom r i) (nsum (map (fun b => nmul (factor w b) (bmom b i)) (used bands)))) /\
  (forall i j, neqv (s_cov r i j)
     (nsum (map (fun b => nmul (nmul (factor w b) (factor w b)) (bcov b i j)) (used bands)))) /\
  (s_wgt r == qsum (map b_wgt (used bands)))%Q /\
  s_flags r = Z.lor (zor (map (band_flag w) (filter b_issb bands)))
                (if existsb is_used bands && Qle_bool (qsum (map b_wgt (used bands))) 0
                 then flag_value ZERO_WEIGHTS else 0) /\
  s_used r = map is_used bands /\
  neqv (s_flux r) (nsum (map (fun b => nmul (Some (b_wgt b)) (bmom b 5%nat)) (used bands))) /\
  neqv (s_flux_var r) (nsum (map (fun b => nmul (Some (b_wgt b * b_wgt b)%Q) (bcov b 5%nat 5%nat)) (used bands))).
Proof.
  intros w bands r. subst r. unfold sum_bands_wavg.
  destruct (fold_sums w bands sums0) as (I1 & I2 & I3 & I4 & I5 & I6 & I7).
  cbn [sums0 s_mom s_cov s_wgt s_flags s_used s_flux s_flux_var app] in I1, I2, I3, I4, I5, I6, I7.
  set (f := fold_left (sum_step w) bands sums0) in *. clearbody f.
  cbn [s_mom s_cov s_wgt s_flags s_used s_flux s_flux_var]. repeat split.
  - intros i. rewrite I1. apply nadd_0_l.
  - intros i j. rewrite I2. apply nadd_0_l.
  - rewrite I3. ring.
  - rewrite I5. assert (Hex : existsb (fun u => u) (map is_used bands) = existsb is_used bands)
      by (clear; induction bands as [|b l IH]; cbn; [reflexivity | rewrite IH; reflexivity]).
    rewrite Hex. rewrite (Qle_bool_ext (s_wgt f) (qsum (map b_wgt (used bands)))) by (rewrite I3; ring).
    rewrite I4, Z.lor_0_l. destruct (existsb is_used bands && _); [reflexivity | rewrite Z.lor_0_r; reflexivity].
  - exact I5.
  - rewrite I6. apply nadd_0_l.
  - rewrite I7. apply nadd_0_l.
Qed.

(** ** The combination in terms of a list of bands *)
Definition obj_band (j : band) : sband := mkSband (j_w j) (j_res j) (j_is j) (j_flags j) (j_res j).
Definition psf_band (j : band) : sband := mkSband (j_w j) (j_psf j) (j_is j) (j_flags j) (j_res j).
Lemma zip_bands_map : forall (f : band -> option fitres) js,
  zip_bands (map j_w js) (map f js) (map j_is js) (map j_flags js) (map j_res js) =
  map (fun j => mkSband (j_w j) (f j) (j_is j) (j_flags j) (j_res j)) js.
Proof. intros f js. induction js as [|j js IH]; cbn [map zip_bands]; [reflexivity | rewrite IH; reflexivity]. Qed.

Definition row0 (ng : ngcodes) (n : nat) (sb : list Z) : row :=
  mkRow (NO_ATTEMPT ng) (NO_ATTEMPT ng) nan2 None (NO_ATTEMPT ng) None nan2 (fun _ _ => None) None
    (NO_ATTEMPT ng) None None (repeat (NO_ATTEMPT ng) (Nat.max n 1)) (repeat None (Nat.max n 1))
    (repeat None (Nat.max n 1)) (band_label sb).
Definition sum_obj js := sum_bands_wavg false (map obj_band js).
Definition sum_psf js := sum_bands_wavg true (map psf_band js).
Definition differ js : bool :=
  (s_flags (sum_obj js) =? 0) && (s_flags (sum_psf js) =? 0)
  && negb (if list_eq_dec Bool.bool_dec (s_used (sum_obj js)) (s_used (sum_psf js)) then true else false).
Definition comb_flags js (s : sums) : Z :=
  if differ js then Z.lor (s_flags s) (flag_value INCONSISTENT_BANDS) else s_flags s.
Definition flux_cols js := map (fun j => band_flux_cols (j_res j) (j_flags j)) js.

Lemma filter_count : forall l : list bool,
  (List.length (filter (fun b => b) l) + List.length (filter negb l))%nat = List.length l.
Proof. induction l as [|[] l IH]; cbn; lia. Qed.
Lemma filter_none : forall js, existsb j_is js = false -> filter (fun b => b) (map j_is js) = [].
Proof.
  induction js as [|j js IH]; cbn [existsb map filter]; intros H; [reflexivity|].
  apply orb_false_iff in H. destruct H as [H1 H2]. rewrite H1. auto.
Qed.
Lemma filter_some : forall js, existsb j_is js = true -> (0 < List.length (filter (fun b => b) (map j_is js)))%nat.
Proof.
  induction js as [|j js IH]; cbn [existsb map filter]; intros H; [discriminate|].
  destruct (j_is j); cbn; [lia|]. auto.
Qed.
Lemma combine_map_map : forall A B C (f : A -> B) (g : A -> C) l,
  combine (map f l) (map g l) = map (fun x => (f x, g x)) l.
Proof. intros A B C f g l. induction l as [|x l IH]; cbn; [reflexivity | rewrite IH; reflexivity]. Qed.

Lemma combine_bands_eq : forall ng mk to_T qsqrt js sb fwhm,
  combine_bands ng mk to_T qsqrt js sb fwhm =
  if zlen sb <=? MAX_NUM_SHEAR_BANDS then
    if existsb j_is js then
      Ok (finish_row ng mk to_T qsqrt (row0 ng (List.length js) sb) (List.length js)
            (comb_flags js (sum_obj js)) (comb_flags js (sum_psf js)) (sum_obj js) (sum_psf js) fwhm
            (map (fun c => fst (fst c)) (flux_cols js)) (map (fun c => snd (fst c)) (flux_cols js))
            (map snd (flux_cols js)))
    else
      Ok (finish_row ng mk to_T qsqrt (row0 ng (List.length js) sb) (List.length js)
            (flag_value MISSING_BAND) (flag_value MISSING_BAND) sums0 sums0 fwhm
            (repeat None (List.length js)) (repeat None (List.length js))
            (repeat (flag_value MISSING_BAND) (List.length js)))
  else Raise AssertionError.
Proof.
  intros ng mk to_T qsqrt js sb fwhm. unfold combine_bands, combine_fit_results_wavg, get_wavg_output_struct.
  destruct (zlen sb <=? MAX_NUM_SHEAR_BANDS); cbn [obind]; [|reflexivity].
  rewrite !map_length. pose proof (filter_count (map j_is js)) as Hc. rewrite map_length in Hc.
  rewrite !Nat.eqb_refl. cbn [andb negb]. rewrite orb_false_r.
  rewrite <- Hc at 2. rewrite Nat.eqb_refl. cbn [negb]. rewrite orb_false_r.
  destruct (existsb j_is js) eqn:He.
  - pose proof (filter_some js He) as Hp.
    assert (Hn : (0 < List.length js)%nat) by lia.
    replace (Nat.eqb (List.length js) 0) with false by (symmetry; apply Nat.eqb_neq; lia).
    replace (Nat.eqb (List.length (filter (fun b => b) (map j_is js))) 0) with false by (symmetry; apply Nat.eqb_neq; lia).
    cbn [orb]. rewrite !zip_bands_map, combine_map_map. unfold flux_cols. rewrite !map_map.
    reflexivity.
  - rewrite (filter_none js He). cbn [List.length Nat.eqb orb]. rewrite orb_true_r. reflexivity.
Qed.

(** ** C36 *)
Lemma has_flag_lor_r : forall a f, has_flag (Z.lor a f) f.
Proof. intros a f k Hk. rewrite Z.lor_spec, Hk, orb_true_r. reflexivity. Qed.
Lemma has_flag_lor_l : forall a b f, has_flag a f -> has_flag (Z.lor a b) f.
Proof. intros a b f H k Hk. rewrite Z.lor_spec, (H k Hk). reflexivity. Qed.
Lemma has_flag_absorb : forall a f, has_flag a f -> Z.lor a f = a.
Proof.
  intros a f H. apply Z.bits_inj'. intros n Hn. rewrite Z.lor_spec.
  destruct (Z.testbit f n) eqn:E; [rewrite (H n E); reflexivity | apply orb_false_r].
Qed.
Lemma has_flag_nonzero : forall a p, has_flag a (flag_value p) -> a <> 0.
Proof.
  intros a p H E. subst a. unfold has_flag in H.
  destruct p; match goal with _ : context [flag_value ?f] |- _ =>
    let v := eval vm_compute in (Z.log2 (flag_value f)) in specialize (H v) end;
  rewrite Z.bits_0 in H; assert (false = true) by (apply H; reflexivity); discriminate.
Qed.
Lemma finish_flags : forall ng mk to_T qsqrt d0 n mf pf sd pd fw bf be ff r,
  r = finish_row ng mk to_T qsqrt d0 n mf pf sd pd fw bf be ff ->
  (o_psf_flags r <> 0 -> has_flag (o_obj_flags r) (flag_value PSF_FAILURE)) /\
  o_flags r = Z.lor (o_obj_flags r) (zor ff) /\
  has_flag (o_obj_flags r) mf /\ has_flag (o_psf_flags r) pf /\
  o_band_flux_flags r = match n with O => [flag_value MISSING_BAND] | _ => ff end.
Proof.
  intros ng mk to_T qsqrt d0 n mf pf sd pd fw bf be ff r ->. unfold finish_row.
  cbv zeta. cbn [o_psf_flags o_obj_flags o_flags o_band_flux_flags].
  set (pr := if pf =? 0 then Some _ else None).
  set (pf' := match pr with Some _ => _ | None => pf end).
  set (ob := if mf =? 0 then Some _ else None).
  set (mf' := match ob with Some _ => _ | None => mf end).
  assert (Hp : has_flag pf' pf).
  { subst pf'. destruct pr; [|intros k Hk; exact Hk]. apply has_flag_lor_l. intros k Hk; exact Hk. }
  assert (Hm : has_flag mf' mf).
  { subst mf'. destruct ob; [|intros k Hk; exact Hk]. apply has_flag_lor_l. intros k Hk; exact Hk. }
  clearbody pf' mf'. repeat split.
  - intros Hne. apply Z.eqb_neq in Hne. rewrite Hne. cbn [negb]. apply has_flag_lor_r.
  - destruct (pf' =? 0); cbn [negb]; [exact Hm | apply has_flag_lor_l; exact Hm].
  - exact Hp.
Qed.

Lemma combine_flags : forall ng mk to_T qsqrt res psf issb wg fl sb fw r,
  combine_fit_results_wavg ng mk to_T qsqrt res psf issb wg fl sb fw = Ok r ->
  (o_psf_flags r <> 0 -> has_flag (o_obj_flags r) (flag_value PSF_FAILURE)) /\
  o_flags r = Z.lor (o_obj_flags r) (zor (o_band_flux_flags r)).
Proof.
  intros ng mk to_T qsqrt res psf issb wg fl sb fw r H.
  unfold combine_fit_results_wavg, get_wavg_output_struct in H.
  destruct (zlen sb <=? MAX_NUM_SHEAR_BANDS); cbn [obind] in H; [|discriminate].
  destruct (Nat.eqb (List.length res) 0 || _ || _ || _) eqn:E.
  - apply Ok_inj in H. symmetry in H. pose proof H as H0. apply finish_flags in H.
    destruct H as (H1 & H2 & H3 & H4 & H5). split; [exact H1|]. rewrite H5.
    destruct (List.length res) as [|n] eqn:En; [|exact H2].
    rewrite H2. cbn [repeat]. unfold zor. cbn [fold_left]. rewrite Z.lor_0_r, Z.lor_0_l.
    symmetry. apply has_flag_absorb. intros k Hk. apply H3.
    cbn [Nat.eqb orb]. rewrite orb_true_r. exact Hk.
  - apply Ok_inj in H. symmetry in H. apply finish_flags in H.
    destruct H as (H1 & H2 & H3 & H4 & H5). split; [exact H1|]. rewrite H5.
    destruct (List.length res) as [|n] eqn:En; [|exact H2].
    cbn [Nat.eqb orb] in E. discriminate.
Qed.

Lemma combine_mismatch : forall ng mk to_T qsqrt res psf issb wg fl sb fw r,
  combine_fit_results_wavg ng mk to_T qsqrt res psf issb wg fl sb fw = Ok r ->
  ~ (List.length psf = List.length res /\ List.length issb = List.length res /\
     List.length wg = List.length res /\ List.length fl = List.length res) \/ ~ In true issb ->
  (In true issb -> res <> [] -> has_flag (o_obj_flags r) (flag_value INCONSISTENT_BANDS)) /\
  (~ In true issb \/ res = [] -> has_flag (o_obj_flags r) (flag_value MISSING_BAND)).
Proof.
  intros ng mk to_T qsqrt res psf issb wg fl sb fw r H Hbad.
  unfold combine_fit_results_wavg, get_wavg_output_struct in H.
  destruct (zlen sb <=? MAX_NUM_SHEAR_BANDS); cbn [obind] in H; [|discriminate].
  assert (Hn : Nat.eqb (List.length (filter (fun b => b) issb)) 0 = true <-> ~ In true issb).
  { rewrite Nat.eqb_eq. clear. induction issb as [|[] l IH]; cbn.
    - tauto.
    - split; [discriminate | intros Hc; exfalso; apply Hc; left; reflexivity].
    - rewrite IH. split; intros Hc K; apply Hc; [destruct K as [K|K]; [discriminate|exact K] | right; exact K]. }
  destruct (Nat.eqb (List.length res) 0 || _ || _ || _) eqn:E.
  - apply Ok_inj in H. symmetry in H. apply finish_flags in H. destruct H as (H1 & H2 & H3 & H4 & H5).
    split.
    + intros Hin Hres. replace (Nat.eqb (List.length (filter (fun b => b) issb)) 0) with false in H3
        by (symmetry; apply not_true_is_false; rewrite Hn; tauto).
      replace (Nat.eqb (List.length res) 0) with false in H3
        by (symmetry; apply Nat.eqb_neq; destruct res; [congruence | cbn; lia]).
      exact H3.
    + intros Hc. replace (Nat.eqb (List.length (filter (fun b => b) issb)) 0 || Nat.eqb (List.length res) 0) with true in H3.
      * exact H3.
      * symmetry. apply orb_true_iff. destruct Hc as [Hc| ->]; [left; apply Hn; exact Hc | right; reflexivity].
  - exfalso. apply orb_false_iff in E. destruct E as [E E4]. apply orb_false_iff in E. destruct E as [E E3].
    apply orb_false_iff in E. destruct E as [E1 E2].
    apply negb_false_iff in E4. apply andb_true_iff in E4. destruct E4 as [E4 F4].
    apply andb_true_iff in E4. destruct E4 as [E4 F3]. apply andb_true_iff in E4. destruct E4 as [F1 F2].
    apply Nat.eqb_eq in F1, F2, F3, F4. destruct Hbad as [Hb|Hb]; [apply Hb; tauto|].
    apply Hn in Hb. congruence.
Qed.

(** ** C35 *)
Lemma lor0 : forall a b, Z.lor a b = 0 -> a = 0 /\ b = 0.
Proof. intros a b H. apply Z.lor_eq_0_iff. exact H. Qed.
Lemma has_flag_zero : forall a f, has_flag a f -> a = 0 -> f = 0.
Proof.
  intros a f H ->. apply Z.bits_inj'. intros n Hn. rewrite Z.bits_0.
  destruct (Z.testbit f n) eqn:E; [|reflexivity]. pose proof (H n E) as K. rewrite Z.bits_0 in K. discriminate.
Qed.
Lemma flag_value_nonzero : forall p, flag_value p <> 0.
Proof. intros []; vm_compute; discriminate. Qed.
Lemma sum_flags_zero : forall w bands, s_flags (sum_bands_wavg w bands) = 0 ->
  forall b, In b bands -> b_issb b = true -> band_flag w b = 0.
Proof.
  intros w bands H b Hb Hi. destruct (sum_bands_closed w bands) as (_ & _ & _ & I4 & _).
  rewrite I4 in H. apply lor0 in H. destruct H as [H _]. rewrite zor_zero in H. apply H.
  apply in_map. apply filter_In. split; assumption.
Qed.
Lemma band_flag_zero : forall w b, band_flag w b = 0 ->
  b_flags b = 0 /\ missing_flags w b = 0 /\ (0 < b_wgt b)%Q.
Proof.
  intros w b H. unfold band_flag in H. apply lor0 in H. destruct H as [H H4].
  apply lor0 in H. destruct H as [H H3]. apply lor0 in H. destruct H as [H1 H2].
  split; [exact H1|]. split; [exact H2|].
  destruct (Qle_bool_dec (b_wgt b)) as [[E _]|[_ E]]; [|exact E].
  rewrite E in H4. exfalso. apply (flag_value_nonzero ZERO_WEIGHTS H4).
Qed.
Lemma missing_zero : forall w b, missing_flags w b = 0 ->
  exists r, b_res b = Some r /\ has_moments r /\
    (w = true -> exists q, b_wres b = Some q /\ has_moments q).
Proof.
  intros w b H. unfold missing_flags in H. destruct (b_res b) as [r|]; [|exfalso; exact (flag_value_nonzero _ H)].
  exists r. split; [reflexivity|].
  destruct (w && negb (has (b_wres b))) eqn:E1; [exfalso; exact (flag_value_nonzero _ H)|].
  destruct (negb (has_moms r) || _) eqn:E2; [exfalso; exact (flag_value_nonzero _ H)|].
  apply orb_false_iff in E2. destruct E2 as [E2 E3]. apply negb_false_iff in E2.
  assert (Hm : forall q, has_moms q = true -> has_moments q).
  { intros q Hq. unfold has_moms in Hq. apply andb_true_iff in Hq. destruct Hq as [Ha Hb].
    split; intros K; rewrite K in *; discriminate. }
  split; [apply Hm; exact E2|]. intros ->. cbn [andb] in *.
  destruct (b_wres b) as [q|]; [|discriminate]. exists q. split; [reflexivity|]. apply Hm.
  apply negb_false_iff. exact E3.
Qed.
Lemma is_used_contrib : forall j, contributed j -> j_is j = true ->
  is_used (obj_band j) = true /\ is_used (psf_band j) = true.
Proof.
  intros j (Hw & Hf & (r & Hr & Hr1 & Hr2) & (p & Hp & Hp1 & Hp2)) Hi.
  unfold is_used, obj_band, psf_band. cbn [b_issb b_res]. rewrite Hi, Hr, Hp. unfold has_moms, has.
  destruct (r_mom r); [|congruence]. destruct (r_cov r); [|congruence].
  destruct (r_mom p); [|congruence]. destruct (r_cov p); [|congruence]. split; reflexivity.
Qed.

Lemma existsb_is : forall js, existsb j_is js = true <-> exists j, In j js /\ j_is j = true.
Proof. intros js. apply existsb_exists. Qed.

Lemma clean_obj : forall ng mk to_T qsqrt js sb fw r,
  combine_bands ng mk to_T qsqrt js sb fw = Ok r -> o_obj_flags r = 0 ->
  existsb j_is js = true /\ s_flags (sum_obj js) = 0 /\ s_flags (sum_psf js) = 0 /\ differ js = false /\
  o_psf_flags r = 0 /\ zlen sb <= MAX_NUM_SHEAR_BANDS /\ (forall j, In j js -> j_is j = true -> contributed j).
Proof.
  intros ng mk to_T qsqrt js sb fw r H H0. rewrite combine_bands_eq in H.
  destruct (zlen sb <=? MAX_NUM_SHEAR_BANDS) eqn:Esb; [|discriminate]. apply Z.leb_le in Esb.
  destruct (existsb j_is js) eqn:He.
  2:{ apply Ok_inj in H. symmetry in H. apply finish_flags in H. destruct H as (_ & _ & H3 & _).
      exfalso. exact (flag_value_nonzero _ (has_flag_zero _ _ H3 H0)). }
  split; [reflexivity|]. apply Ok_inj in H. symmetry in H. apply finish_flags in H.
  destruct H as (H1 & _ & H3 & H4 & _). pose proof (has_flag_zero _ _ H3 H0) as Hm.
  assert (Hpz : o_psf_flags r = 0).
  { destruct (Z.eq_dec (o_psf_flags r) 0) as [E|E]; [exact E|]. exfalso.
    exact (flag_value_nonzero _ (has_flag_zero _ _ (H1 E) H0)). }
  pose proof (has_flag_zero _ _ H4 Hpz) as Hp.
  unfold comb_flags in Hm, Hp. destruct (differ js) eqn:Ed.
  { apply lor0 in Hm. exfalso. exact (flag_value_nonzero _ (proj2 Hm)). }
  split; [exact Hm|]. split; [exact Hp|]. split; [reflexivity|]. split; [exact Hpz|]. split; [exact Esb|].
  intros j Hj Hi.
  pose proof (sum_flags_zero _ _ Hm (obj_band j) (in_map _ _ _ Hj) Hi) as Ho.
  pose proof (sum_flags_zero _ _ Hp (psf_band j) (in_map _ _ _ Hj) Hi) as Hq.
  apply band_flag_zero in Ho. apply band_flag_zero in Hq. destruct Ho as (O1 & O2 & O3). destruct Hq as (_ & Q2 & _).
  apply missing_zero in O2. apply missing_zero in Q2. destruct O2 as (r0 & R1 & R2 & _). destruct Q2 as (p0 & P1 & P2 & _).
  split; [exact O3|]. split; [exact O1|]. split; [exists r0; split; assumption | exists p0; split; assumption].
Qed.

Lemma shear_fits_used : forall js, (forall j, In j js -> j_is j = true -> contributed j) ->
  shear_fits js = flat_map (fun b => match b_res b with Some r => [(b_wgt b, r)] | None => [] end) (used (map obj_band js)) /\
  map fst (shear_fits js) = map b_wgt (used (map obj_band js)) /\
  map fst (shear_fits js) = map j_w (filter j_is js).
Proof.
  induction js as [|j js IH]; intros H; [repeat split; reflexivity|].
  assert (H' : forall x, In x js -> j_is x = true -> contributed x) by (intros x Hx; apply H; right; exact Hx).
  destruct (IH H') as (I1 & I2 & I3). cbn [shear_fits flat_map map used filter].
  fold (shear_fits js). destruct (j_is j) eqn:Hi.
  - pose proof (H j (or_introl eq_refl) Hi) as Hc. destruct (is_used_contrib j Hc Hi) as [-> _].
    destruct Hc as (_ & _ & (r & Hr & _) & _). rewrite Hr.
    cbn [flat_map app map]. cbn [obj_band b_res b_wgt fst]. rewrite Hr.
    unfold used in I1, I2. split; [cbn [app]; f_equal; exact I1|]. split; f_equal; assumption.
  - assert (is_used (obj_band j) = false) as -> by (unfold is_used, obj_band; cbn [b_issb]; rewrite Hi; reflexivity).
    destruct (j_res j); cbn [app]; unfold used in I1, I2; split; [|split| |split]; assumption.
Qed.

Lemma total_weight_pos : forall js, existsb j_is js = true -> (forall j, In j js -> j_is j = true -> contributed j) ->
  (0 < qsum (map fst (shear_fits js)))%Q.
Proof.
  intros js He Hc. destruct (shear_fits_used js Hc) as (_ & _ & ->). apply qsum_pos.
  - apply existsb_is in He. destruct He as (j & Hj & Hi). intros K.
    assert (Hin : In (j_w j) (map j_w (filter j_is js))) by (apply in_map; apply filter_In; split; assumption).
    rewrite K in Hin. destruct Hin.
  - intros x Hx. apply in_map_iff in Hx. destruct Hx as (j & <- & Hj). apply filter_In in Hj.
    destruct Hj as [Hj Hi]. destruct (Hc j Hj Hi) as [Hw _]. exact Hw.
Qed.

Lemma clean_bands : forall ng mk to_T qsqrt js sb fw r,
  combine_bands ng mk to_T qsqrt js sb fw = Ok r -> o_flags r = 0 ->
  (exists j, In j js /\ j_is j = true) /\
  (forall j, In j js -> j_is j = true -> contributed j) /\
  (forall j, In j js -> j_flags j = 0 /\ j_res j <> None) /\
  (0 < qsum (map fst (shear_fits js)))%Q.
Proof.
  intros ng mk to_T qsqrt js sb fw r H H0.
  pose proof (combine_flags _ _ _ _ _ _ _ _ _ _ _ _ H) as [_ Hf]. rewrite H0 in Hf. symmetry in Hf.
  apply lor0 in Hf. destruct Hf as [Ho Hff].
  destruct (clean_obj _ _ _ _ _ _ _ _ H Ho) as (He & S1 & S2 & S3 & Hpz & Hsb & Hc).
  split; [apply existsb_is; exact He|]. split; [exact Hc|].
  split; [|apply total_weight_pos; assumption].
  rewrite combine_bands_eq in H. apply Z.leb_le in Hsb. rewrite Hsb, He in H.
  apply Ok_inj in H. symmetry in H. apply finish_flags in H. destruct H as (_ & _ & _ & _ & H5).
  intros j Hj. destruct js as [|j0 js0]; [destruct Hj|]. cbn [List.length] in H5. rewrite H5 in Hff.
  rewrite zor_zero in Hff.
  assert (Hz : snd (band_flux_cols (j_res j) (j_flags j)) = 0).
  { apply Hff. apply in_map_iff. exists (band_flux_cols (j_res j) (j_flags j)). split; [reflexivity|].
    unfold flux_cols. apply in_map_iff. exists j. split; [reflexivity | exact Hj]. }
  unfold band_flux_cols in Hz. destruct (j_res j) as [[a b c d e f g]|].
  - split; [|discriminate]. destruct e, f, g; cbn [snd] in Hz; apply lor0 in Hz; tauto.
  - cbn [snd] in Hz. apply lor0 in Hz. exfalso. exact (flag_value_nonzero _ (proj2 Hz)).
Qed.

(** ** From the observations *)
Definition mk_bands (sb : list Z) (fits : list bandfit) (idx : list Z) : list band :=
  map (fun fi => mkBand (bf_wgt (fst fi)) (bf_obj (fst fi)) (bf_psf (fst fi)) (existsb (Z.eqb (snd fi)) sb) (bf_flags (fst fi)))
      (combine fits idx).
Lemma map_combine_fst : forall A B C (f : A -> C) (l : list A) (m : list B), List.length l = List.length m ->
  map (fun x => f (fst x)) (combine l m) = map f l.
Proof. intros A B C f l. induction l as [|x l IH]; intros [|y m] H; cbn in *; try discriminate; [reflexivity|]. rewrite IH; [reflexivity | lia]. Qed.
Lemma map_combine_snd : forall A B C (f : B -> C) (l : list A) (m : list B), List.length l = List.length m ->
  map (fun x => f (snd x)) (combine l m) = map f m.
Proof. intros A B C f l. induction l as [|x l IH]; intros [|y m] H; cbn in *; try discriminate; [reflexivity|]. rewrite IH; [reflexivity | lia]. Qed.

Lemma zrange_len : forall A (l : list A), List.length (zrange (zlen l)) = List.length l.
Proof. intros A l. unfold zrange, zlen. rewrite zrange2_length. lia. Qed.

Lemma fit_mbobs_as_bands : forall ng mk to_T qsqrt mbobs ft bm sb fw sym r,
  fit_mbobs_wavg ng mk to_T qsqrt mbobs ft bm sb fw sym = Ok r ->
  exists fits, omap (fun ol => fit_obslist ol ft bm sym) mbobs = Ok fits /\ List.length fits = List.length mbobs /\
    combine_bands ng mk to_T qsqrt (mk_bands (the_shear_bands mbobs sb) fits (zrange (zlen mbobs)))
      (the_shear_bands mbobs sb) fw = Ok r.
Proof.
  intros ng mk to_T qsqrt mbobs ft bm sb fw sym r H. unfold fit_mbobs_wavg in H.
  fold (the_shear_bands mbobs sb) in H. set (s := the_shear_bands mbobs sb) in *. clearbody s.
  destruct (String.eqb (k_kind ft) "am" && _); [discriminate|].
  destruct (omap (fun ol => fit_obslist ol ft bm sym) mbobs) as [fits|e] eqn:E; cbn [obind] in H; [|discriminate].
  exists fits. split; [reflexivity|]. pose proof (omap_ok_length _ _ _ _ _ E) as Hl. split; [exact Hl|].
  unfold combine_bands, mk_bands. rewrite !map_map. cbn [j_res j_psf j_is j_w j_flags].
  assert (Hl' : List.length fits = List.length (zrange (zlen mbobs))) by (rewrite zrange_len; exact Hl).
  rewrite (map_combine_fst _ _ _ bf_obj), (map_combine_fst _ _ _ bf_psf), (map_combine_fst _ _ _ bf_wgt),
    (map_combine_fst _ _ _ bf_flags), (map_combine_snd _ _ _ (fun b => existsb (Z.eqb b) s)) by exact Hl'.
  exact H.
Qed.

Lemma mk_bands_in : forall sb fits n ol b f, List.length fits = n ->
  nth_error fits (Z.to_nat b) = Some f -> 0 <= b < Z.of_nat n -> ol = zrange (Z.of_nat n) ->
  In (mkBand (bf_wgt f) (bf_obj f) (bf_psf f) (existsb (Z.eqb b) sb) (bf_flags f)) (mk_bands sb fits ol).
Proof.
  intros sb fits n ol b f Hl Hn Hb ->. unfold mk_bands. apply in_map_iff. exists (f, b). split; [reflexivity|].
  assert (Hz : nth_error (zrange (Z.of_nat n)) (Z.to_nat b) = Some b).
  { unfold zrange, zrange2. rewrite (map_nth_error _ _ _ (d := Z.to_nat b)).
    - f_equal. lia.
    - rewrite (nth_error_nth' _ 0%nat) by (rewrite seq_length; lia). rewrite seq_nth by lia. f_equal. }
  clear Hl Hb. revert Hz Hn. generalize (zrange (Z.of_nat n)) as idx. generalize (Z.to_nat b) as k.
  intros k. revert fits. induction k as [|k IH]; intros [|x fits] [|y idx] Hz Hn; cbn in *; try discriminate.
  - left. congruence.
  - right. apply IH; assumption.
Qed.

Lemma fit_obs_usable : forall o ft bm sym f rest, fit_obs o ft bm sym = Ok f -> (0 < bf_wgt f)%Q ->
  (exists r, bf_obj f = Some r /\ has_moments r) -> (exists p, bf_psf f = Some p /\ has_moments p) ->
  usable_band ft bm sym (o :: rest).
Proof.
  intros o ft bm sym f rest H Hw (r & Hr & Hrm) (p & Hp & Hpm). unfold fit_obs in H.
  destruct (if sym then symmetrize_obs_weights o else Ok o) as [o'|e] eqn:Es; cbn [obind] in H; [|discriminate].
  destruct (f_bmask o') as [b|] eqn:Eb; [|discriminate].
  destruct (any_pixel qpos (f_weight o')) eqn:Ea; cbn [negb] in H.
  2:{ match type of H with context [negb (?x =? 0)] => destruct (negb (x =? 0)) eqn:En end.
      - apply Ok_inj in H. subst f. discriminate.
      - exfalso. apply negb_false_iff, Z.eqb_eq in En.
        destruct (any_pixel _ b) in En; [apply lor0 in En; destruct En as [En _]|]; exact (flag_value_nonzero _ En). }
  match type of H with context [any_pixel ?f b] => destruct (any_pixel f b) eqn:Em end.
  { rewrite Z.lor_0_l in H. cbn in H. apply Ok_inj in H. subst f. discriminate. }
  cbn [Z.eqb negb] in H.
  destruct (k_go ft o') as [r0|e] eqn:Eg; cbn [obind] in H; [|discriminate].
  destruct (f_psf o') as [p0|] eqn:Ep; [|discriminate].
  destruct (k_go_psf ft p0) as [pr|e] eqn:Egp; cbn [obind] in H; [|discriminate].
  apply Ok_inj in H. subst f. cbn [bf_wgt bf_obj bf_psf] in *.
  apply Some_inj in Hr, Hp. subst r0 pr.
  assert (Hpos : has_positive (f_weight o')).
  { apply any_pixel_spec in Ea. destruct Ea as (i & j & Hi & Hq). exists i, j. split; [exact Hi|]. apply qpos_iff. exact Hq. }
  destruct (proj1 (has_positive_median _) Hpos) as [m Hm]. rewrite Hm in Hw.
  exists o, rest, o', b, p0, r, p, m. split; [reflexivity|]. split.
  { unfold fitted_obs. destruct sym; [exact Es | apply Ok_inj in Es; congruence]. }
  split; [exact Hpos|]. split; [apply positive_of_median; exact Hm|]. split; [exact Hw|]. split; [exact Eb|].
  split.
  { intros i j Hi. destruct (Z.eq_dec (Z.land (px b i j) bm) 0) as [E|E]; [exact E|]. exfalso.
    apply not_true_iff_false in Em. apply Em. apply any_pixel_spec. exists i, j. split; [exact Hi|].
    apply negb_true_iff, Z.eqb_neq. exact E. }
  split; [exact Eg|]. split; [exact Hrm|]. split; [exact Ep|]. split; [exact Egp | exact Hpm].
Qed.

Lemma forall2_nth : forall A B (R : A -> B -> Prop) l m k x, Forall2 R l m -> nth_error l k = Some x ->
  exists y, nth_error m k = Some y /\ R x y.
Proof.
  intros A B R l m k x H. revert k. induction H as [|a b l m Hab H IH]; intros k Hk.
  - destruct k; discriminate.
  - destruct k; cbn in *; [apply Some_inj in Hk; subst; exists b; split; [reflexivity|exact Hab] | apply IH; exact Hk].
Qed.

Lemma wavg_clean : forall ng mk to_T qsqrt mbobs ft bm sb fw sym r,
  fit_mbobs_wavg ng mk to_T qsqrt mbobs ft bm sb fw sym = Ok r -> o_flags r = 0 ->
  (exists b, 0 <= b < zlen mbobs /\ In b (the_shear_bands mbobs sb)) /\
  (forall b ol, 0 <= b -> In b (the_shear_bands mbobs sb) -> nth_error mbobs (Z.to_nat b) = Some ol ->
     usable_band ft bm sym ol).
Proof.
  intros ng mk to_T qsqrt mbobs ft bm sb fw sym r H H0.
  destruct (fit_mbobs_as_bands _ _ _ _ _ _ _ _ _ _ _ H) as (fits & Hf & Hl & Hc).
  destruct (clean_bands _ _ _ _ _ _ _ _ Hc H0) as ((j & Hj & Hi) & Hcon & _ & _).
  set (s := the_shear_bands mbobs sb) in *. clearbody s. split.
  - unfold mk_bands in Hj. apply in_map_iff in Hj. destruct Hj as ([f b] & <- & Hin).
    cbn [j_is snd] in Hi. apply in_combine_r in Hin. apply in_zrange in Hin. exists b. split; [exact Hin|].
    apply existsb_exists in Hi. destruct Hi as (x & Hx & Hxb). apply Z.eqb_eq in Hxb. subst x. exact Hx.
  - intros b ol Hb Hin Hn.
    destruct (forall2_nth _ _ _ _ _ _ _ (omap_ok_Forall2 _ _ _ _ _ Hf) Hn) as (f & Hfn & Hfo).
    assert (Hbr : 0 <= b < Z.of_nat (List.length fits)).
    { split; [exact Hb|]. assert (Z.to_nat b < List.length fits)%nat by (apply nth_error_Some; congruence). lia. }
    pose proof (mk_bands_in s fits (List.length fits) (zrange (zlen mbobs)) b f eq_refl Hfn Hbr) as Hm.
    assert (Hm' := Hm). clear Hm. unfold zlen in Hm'. rewrite Hl in Hm'. specialize (Hm' eq_refl).
    assert (Hib : existsb (Z.eqb b) s = true).
    { apply existsb_exists. exists b. split; [exact Hin | apply Z.eqb_refl]. }
    rewrite Hib in Hm'. apply Hcon in Hm'; [|reflexivity].
    destruct Hm' as (W & F & R & P). cbn [j_w j_flags j_res j_psf] in *.
    destruct ol as [|o rest].
    + cbn in Hfo. apply Ok_inj in Hfo. subst f. destruct R as (x & Hx & _). discriminate.
    + cbn [fit_obslist] in Hfo. eapply fit_obs_usable; eassumption.
Qed.

Lemma fit_obs_checked : forall o ft bm sym f rest, fit_obs o ft bm sym = Ok f -> bf_flags f = 0 ->
  checked_band bm sym (o :: rest).
Proof.
  intros o ft bm sym f rest H Hw. unfold fit_obs in H.
  destruct (if sym then symmetrize_obs_weights o else Ok o) as [o'|e] eqn:Es; cbn [obind] in H; [|discriminate].
  destruct (f_bmask o') as [b|] eqn:Eb; [|discriminate].
  match type of H with context [negb (?x =? 0)] => destruct (negb (x =? 0)) eqn:En end.
  { apply Ok_inj in H. subst f. cbn [bf_flags] in Hw. rewrite Hw in En. discriminate. }
  apply negb_false_iff, Z.eqb_eq in En.
  destruct (any_pixel qpos (f_weight o')) eqn:Ea; cbn [negb] in En.
  2:{ exfalso. destruct (any_pixel _ b) in En; [apply lor0 in En; destruct En as [En _]|]; exact (flag_value_nonzero _ En). }
  match type of En with context [any_pixel ?f b] => destruct (any_pixel f b) eqn:Em end.
  { exfalso. apply lor0 in En. destruct En as [_ En]. exact (flag_value_nonzero _ En). }
  exists o, rest, o', b. split; [reflexivity|]. split.
  { unfold fitted_obs. destruct sym; [exact Es | apply Ok_inj in Es; congruence]. }
  split.
  { apply any_pixel_spec in Ea. destruct Ea as (i & j & Hi & Hq). exists i, j. split; [exact Hi|]. apply qpos_iff. exact Hq. }
  split; [exact Eb|]. intros i j Hi. destruct (Z.land (px b i j) bm =? 0) eqn:E0; [apply Z.eqb_eq; exact E0|exfalso].
  apply not_true_iff_false in Em. apply Em. apply any_pixel_spec. exists i, j. split; [exact Hi|]. rewrite E0. reflexivity.
Qed.

Lemma wavg_every_band : forall ng mk to_T qsqrt mbobs ft bm sb fw sym r,
  fit_mbobs_wavg ng mk to_T qsqrt mbobs ft bm sb fw sym = Ok r -> o_flags r = 0 ->
  forall ol, In ol mbobs -> checked_band bm sym ol.
Proof.
  intros ng mk to_T qsqrt mbobs ft bm sb fw sym r H H0 ol Hin.
  destruct (fit_mbobs_as_bands _ _ _ _ _ _ _ _ _ _ _ H) as (fits & Hf & Hl & Hc).
  destruct (clean_bands _ _ _ _ _ _ _ _ Hc H0) as (_ & _ & Hall & _).
  apply In_nth_error in Hin. destruct Hin as (k & Hn).
  destruct (forall2_nth _ _ _ _ _ _ _ (omap_ok_Forall2 _ _ _ _ _ Hf) Hn) as (f & Hfn & Hfo).
  assert (Hk : (k < List.length fits)%nat) by (apply nth_error_Some; congruence).
  set (s := the_shear_bands mbobs sb) in *. clearbody s.
  assert (Hm := mk_bands_in s fits (List.length fits) (zrange (zlen mbobs)) (Z.of_nat k) f eq_refl).
  rewrite Nat2Z.id in Hm. unfold zlen in Hm. rewrite Hl in Hm. specialize (Hm Hfn). rewrite <- Hl in Hm.
  specialize (Hm ltac:(lia)). rewrite Hl in Hm. specialize (Hm eq_refl).
  destruct (Hall _ Hm) as [F R]. cbn [j_flags j_res] in F, R.
  destruct ol as [|o rest].
  - cbn in Hfo. apply Ok_inj in Hfo. subst f. contradiction R. reflexivity.
  - cbn [fit_obslist] in Hfo. exact (fit_obs_checked _ _ _ _ _ _ Hfo F).
Qed.

Lemma wavg_no_shear_band : forall ng mk to_T qsqrt mbobs ft bm sb fw sym r,
  fit_mbobs_wavg ng mk to_T qsqrt mbobs ft bm (Some sb) fw sym = Ok r ->
  (forall b, In b sb -> ~ 0 <= b < zlen mbobs) ->
  has_flag (o_obj_flags r) (flag_value MISSING_BAND) /\ o_flags r <> 0.
Proof.
  intros ng mk to_T qsqrt mbobs ft bm sb fw sym r H Hno.
  assert (Hflag : has_flag (o_obj_flags r) (flag_value MISSING_BAND)).
  { unfold fit_mbobs_wavg in H. destruct (String.eqb (k_kind ft) "am" && _); [discriminate|].
    destruct (omap (fun ol => fit_obslist ol ft bm sym) mbobs) as [fits|e] eqn:E; cbn [obind] in H; [|discriminate].
    assert (Ht : ~ In true (map (fun b => existsb (Z.eqb b) sb) (zrange (zlen mbobs)))).
    { intros K. apply in_map_iff in K. destruct K as (b & Hb & Hin). apply in_zrange in Hin.
      apply existsb_exists in Hb. destruct Hb as (x & Hx & Hxb). apply Z.eqb_eq in Hxb. subst x. exact (Hno b Hx Hin). }
    destruct (combine_mismatch _ _ _ _ _ _ _ _ _ _ _ _ H (or_intror Ht)) as [_ K]. apply K. left; exact Ht. }
  split; [exact Hflag|].
  destruct (fit_mbobs_as_bands _ _ _ _ _ _ _ _ _ _ _ H) as (fits & Hf & Hl & Hc).
  destruct (combine_flags _ _ _ _ _ _ _ _ _ _ _ _ Hc) as [_ Hfl]. intros K. rewrite K in Hfl. symmetry in Hfl.
  apply lor0 in Hfl. destruct Hfl as [Hfl _]. exact (flag_value_nonzero _ (has_flag_zero _ _ Hflag Hfl)).
Qed.

(** ** C37: extensionality of the combination *)
Definition momres_equiv (a b : momres) : Prop :=
  neqv (m_e1 a) (m_e1 b) /\ neqv (m_e2 a) (m_e2 b) /\ ceqv (m_ecov a) (m_ecov b) /\ neqv (m_T a) (m_T b) /\
  neqv (m_T_err a) (m_T_err b) /\ m_T_flags a = m_T_flags b /\ m_flags a = m_flags b /\ neqv (m_s2n a) (m_s2n b).
Lemma dot_mm_ext : forall a a' b b', ceqv a a' -> ceqv b b' -> ceqv (dot_mm a b) (dot_mm a' b').
Proof. intros a a' b b' Ha Hb i j. unfold dot_mm. apply nsum_ext. intros k _. apply nmul_proper; [apply Ha | apply Hb]. Qed.
Lemma dot_mv_ext : forall a m m', veqv m m' -> veqv (dot_mv a m) (dot_mv a m').
Proof. intros a m m' H i. unfold dot_mv. apply nsum_ext. intros k _. apply nmul_proper; [reflexivity | apply H]. Qed.
Lemma finite_ext : forall a b, neqv a b -> finite a = finite b.
Proof. intros [a|] [b|] H; cbn in *; auto; contradiction. Qed.
Lemma ceqv_refl : forall c, ceqv c c. Proof. intros c i j. reflexivity. Qed.
Lemma veqv_refl : forall c, veqv c c. Proof. intros c i. reflexivity. Qed.
Lemma reg_moments_ext : forall t m m', veqv m m' -> veqv (reg_moments t m) (reg_moments t m').
Proof.
  intros t m m' H i. unfold reg_moments. rewrite (finite_ext _ _ (H i)).
  destruct (Nat.leb i 1 && negb (finite (m' i))); [exact I|]. apply dot_mv_ext.
  intros k. rewrite (finite_ext _ _ (H k)). destruct (Nat.leb k 1 && _); [reflexivity | apply H].
Qed.
Lemma make_mom_res_ext : forall ng mk to_T qsqrt raw raw' cov cov' fl fl' v v' fw,
  mk_ext mk -> sqrt_ext qsqrt -> veqv raw raw' -> ceqv cov cov' -> neqv fl fl' -> neqv v v' ->
  momres_equiv (make_mom_res ng mk to_T qsqrt raw cov fl v fw) (make_mom_res ng mk to_T qsqrt raw' cov' fl' v' fw).
Proof.
  intros ng mk to_T qsqrt raw raw' cov cov' fl fl' v v' fw Hk Hs Hm Hc Hf Hv. unfold make_mom_res.
  set (b := if negb (Qle_bool fw 0) then mkMom _ _ _ _ _ _ _ _ else mk raw cov).
  set (b' := if negb (Qle_bool fw 0) then mkMom _ _ _ _ _ _ _ _ else mk raw' cov').
  assert (Hb : neqv (mo_e1 b) (mo_e1 b') /\ neqv (mo_e2 b) (mo_e2 b') /\ ceqv (mo_ecov b) (mo_ecov b') /\
    neqv (mo_T b) (mo_T b') /\ neqv (mo_T_err b) (mo_T_err b') /\ mo_T_flags b = mo_T_flags b' /\
    mo_flags b = mo_flags b').
  { subst b b'. pose proof (Hk _ _ _ _ Hm Hc) as (A1 & A2 & A3 & A4 & A5 & A6 & A7 & A8).
    destruct (negb (Qle_bool fw 0)); cbn [mo_e1 mo_e2 mo_ecov mo_T mo_T_err mo_T_flags mo_flags]; [|tauto].
    assert (Hc' : ceqv (reg_cov (to_T fw) cov) (reg_cov (to_T fw) cov')).
    { unfold reg_cov. apply dot_mm_ext; [apply ceqv_refl|]. apply dot_mm_ext; [exact Hc | apply ceqv_refl]. }
    pose proof (Hk _ _ _ _ (reg_moments_ext (to_T fw) _ _ Hm) Hc') as (B1 & B2 & B3 & B4 & B5 & B6 & B7 & B8).
    rewrite A7, B7. tauto. }
  clearbody b b'. destruct Hb as (B1 & B2 & B3 & B4 & B5 & B6 & B7).
  rewrite (nle0_ext _ _ Hf), B7.
  destruct v as [v|], v' as [v'|]; cbn in Hv; try contradiction.
  - rewrite (Qle_bool_ext v v' Hv). destruct (negb (Qle_bool v' 0)); repeat split; cbn [m_e1 m_e2 m_ecov m_T m_T_err m_T_flags m_flags m_s2n];
      auto; try reflexivity. apply ndiv_proper; [exact Hf | apply Hs; exact Hv].
  - repeat split; cbn [m_e1 m_e2 m_ecov m_T m_T_err m_T_flags m_flags m_s2n]; auto; reflexivity.
Qed.

(** The normalised sums agree. *)
Definition sums_sim (s s' : sums) : Prop :=
  s_flags s = s_flags s' /\ veqv (vdiv (s_mom s) (s_wgt s)) (vdiv (s_mom s') (s_wgt s')) /\
  ceqv (mdiv (s_cov s) (s_wgt s * s_wgt s)) (mdiv (s_cov s') (s_wgt s' * s_wgt s')) /\
  neqv (ndiv (s_flux s) (Some (s_wgt s))) (ndiv (s_flux s') (Some (s_wgt s'))) /\
  neqv (ndiv (s_flux_var s) (Some (s_wgt s * s_wgt s)%Q)) (ndiv (s_flux_var s') (Some (s_wgt s' * s_wgt s')%Q)).

Lemma finish_ext : forall ng mk to_T qsqrt sb n n' mf pf sd pd sd' pd' fw bf be ff bf' be' ff',
  mk_ext mk -> sqrt_ext qsqrt -> sums_sim sd sd' -> sums_sim pd pd' ->
  row_equiv (finish_row ng mk to_T qsqrt (row0 ng n sb) n mf pf sd pd fw bf be ff)
            (finish_row ng mk to_T qsqrt (row0 ng n' sb) n' mf pf sd' pd' fw bf' be' ff').
Proof.
  intros ng mk to_T qsqrt sb n n' mf pf sd pd sd' pd' fw bf be ff bf' be' ff' Hk Hs (_ & D1 & D2 & D3 & D4) (_ & P1 & P2 & P3 & P4).
  pose proof (make_mom_res_ext ng mk to_T qsqrt _ _ _ _ _ _ _ _ 0 Hk Hs P1 P2 P3 P4) as HP.
  pose proof (make_mom_res_ext ng mk to_T qsqrt _ _ _ _ _ _ _ _ fw Hk Hs D1 D2 D3 D4) as HO.
  unfold finish_row, row_equiv. cbv zeta.
  cbn [o_psf_flags o_obj_flags o_psf_g o_psf_T o_s2n o_g o_g_cov o_T o_T_flags o_T_err o_T_ratio o_shear_bands row0 fst snd].
  set (X := make_mom_res ng mk to_T qsqrt (vdiv (s_mom pd) _) _ _ _ 0) in *.
  set (X' := make_mom_res ng mk to_T qsqrt (vdiv (s_mom pd') _) _ _ _ 0) in *.
  set (Y := make_mom_res ng mk to_T qsqrt (vdiv (s_mom sd) _) _ _ _ fw) in *.
  set (Y' := make_mom_res ng mk to_T qsqrt (vdiv (s_mom sd') _) _ _ _ fw) in *.
  clearbody X X' Y Y'.
  destruct HP as (P1' & P2' & P3' & P4' & P5' & P6' & P7' & P8').
  destruct HO as (O1 & O2 & O3 & O4 & O5 & O6 & O7 & O8).
  destruct (pf =? 0) eqn:Ep, (mf =? 0) eqn:Em; rewrite ?P7', ?O7; repeat (split; [try assumption; try reflexivity|]); try reflexivity; try assumption;
  try apply ceqv_refl;
  match goal with |- neqv (if ?c then _ else _) _ => destruct c end; try reflexivity; apply ndiv_proper; auto; reflexivity.
Qed.

Lemma band_flag_ext_used : forall w b b',
  b_res b = b_res b' -> b_wres b = b_wres b' -> flux_mom_ratio w b = flux_mom_ratio w b'.
Proof. intros w b b' H1 H2. unfold flux_mom_ratio. rewrite H1, H2. reflexivity. Qed.

(** Permuting bands, or changing bands not used for shear. *)
Lemma used_filter : forall (f : band -> sband) js, (forall j, b_issb (f j) = j_is j) ->
  used (map f js) = filter is_used (map f (filter j_is js)) /\
  filter b_issb (map f js) = map f (filter j_is js) /\
  existsb is_used (map f js) = existsb is_used (map f (filter j_is js)).
Proof.
  intros f js Hf. induction js as [|j js (I1 & I2 & I3)]; [repeat split|].
  unfold used in *. cbn [map filter existsb]. rewrite Hf. destruct (j_is j) eqn:Hi; cbn [map filter existsb].
  - rewrite I1, I2, I3. repeat split.
  - assert (is_used (f j) = false) as -> by (unfold is_used; rewrite Hf, Hi; reflexivity).
    rewrite I1, I2, I3. repeat split.
Qed.
Lemma perm_filter : forall A (p : A -> bool) l l', Permutation l l' -> Permutation (filter p l) (filter p l').
Proof.
  intros A p l l' H. induction H; cbn [filter].
  - apply perm_nil.
  - destruct (p x); [apply perm_skip|]; assumption.
  - destruct (p y), (p x); try apply perm_swap; apply Permutation_refl.
  - eapply Permutation_trans; eassumption.
Qed.
Lemma existsb_perm : forall A (p : A -> bool) l l', Permutation l l' -> existsb p l = existsb p l'.
Proof.
  intros A p l l' H. destruct (existsb p l) eqn:E, (existsb p l') eqn:F; auto.
  - apply existsb_exists in E. destruct E as (x & Hx & Hp). apply not_true_iff_false in F. exfalso. apply F.
    apply existsb_exists. exists x. split; [eapply Permutation_in; eassumption | exact Hp].
  - apply existsb_exists in F. destruct F as (x & Hx & Hp). apply not_true_iff_false in E. exfalso. apply E.
    apply existsb_exists. exists x. split; [eapply Permutation_in; [apply Permutation_sym; exact H | exact Hx] | exact Hp].
Qed.
Lemma vdiv_ext : forall a a' b b', neqv a a' -> (b == b')%Q -> neqv (ndiv a (Some b)) (ndiv a' (Some b')).
Proof. intros. apply ndiv_proper; assumption. Qed.
Lemma sums_perm : forall w (f : band -> sband) js js', (forall j, b_issb (f j) = j_is j) ->
  Permutation (filter j_is js) (filter j_is js') ->
  sums_sim (sum_bands_wavg w (map f js)) (sum_bands_wavg w (map f js')).
Proof.
  intros w f js js' Hf Hp.
  destruct (sum_bands_closed w (map f js)) as (A1 & A2 & A3 & A4 & A5 & A6 & A7).
  destruct (sum_bands_closed w (map f js')) as (B1 & B2 & B3 & B4 & B5 & B6 & B7).
  destruct (used_filter f js Hf) as (U1 & U2 & U3). destruct (used_filter f js' Hf) as (V1 & V2 & V3).
  rewrite U1 in A1, A2, A3, A6, A7. rewrite V1 in B1, B2, B3, B6, B7.
  rewrite U1, U2, U3 in A4. rewrite V1, V2, V3 in B4.
  pose proof (Permutation_map f Hp) as Hpf. pose proof (perm_filter _ is_used _ _ Hpf) as Hpu.
  pose proof (qsum_perm _ _ (Permutation_map b_wgt Hpu)) as Hq.
  assert (Hw : (s_wgt (sum_bands_wavg w (map f js)) == s_wgt (sum_bands_wavg w (map f js')))%Q) by (rewrite A3, B3; exact Hq).
  assert (Hw2 : (s_wgt (sum_bands_wavg w (map f js)) * s_wgt (sum_bands_wavg w (map f js))
    == s_wgt (sum_bands_wavg w (map f js')) * s_wgt (sum_bands_wavg w (map f js')))%Q) by (rewrite Hw; reflexivity).
  split; [|split; [|split; [|split]]].
  - rewrite A4, B4. rewrite (existsb_perm _ _ _ _ Hpf). rewrite (Qle_bool_ext _ _ Hq).
    f_equal. apply zor_perm. apply Permutation_map. exact Hpf.
  - intros i. apply vdiv_ext; [|exact Hw]. rewrite A1, B1. apply nsum_perm, Permutation_map. exact Hpu.
  - intros i j. apply vdiv_ext; [|exact Hw2]. rewrite A2, B2. apply nsum_perm, Permutation_map. exact Hpu.
  - apply vdiv_ext; [|exact Hw]. rewrite A6, B6. apply nsum_perm, Permutation_map. exact Hpu.
  - apply vdiv_ext; [|exact Hw2]. rewrite A7, B7. apply nsum_perm, Permutation_map. exact Hpu.
Qed.
Lemma existsb_filter_self : forall js, existsb j_is js = existsb (fun _ => true) (filter j_is js).
Proof. induction js as [|j js IH]; [reflexivity|]. cbn. destruct (j_is j) eqn:E; cbn; auto. Qed.
Lemma map_eq_iff : forall A B (f g : A -> B) l, map f l = map g l <-> forall x, In x l -> f x = g x.
Proof.
  intros A B f g l. split.
  - induction l as [|y l IH]; intros H x Hx; [destruct Hx|]. cbn in H. injection H as H1 H2.
    destruct Hx as [E|Hx]; [subst y; exact H1 | apply IH; assumption].
  - intros H. apply map_ext_in. exact H.
Qed.
Definition agree (j : band) : Prop := is_used (obj_band j) = is_used (psf_band j).
Lemma used_eq_iff : forall js,
  s_used (sum_obj js) = s_used (sum_psf js) <-> forall j, In j (filter j_is js) -> agree j.
Proof.
  intros js. unfold sum_obj, sum_psf.
  destruct (sum_bands_closed false (map obj_band js)) as (_ & _ & _ & _ & -> & _).
  destruct (sum_bands_closed true (map psf_band js)) as (_ & _ & _ & _ & -> & _).
  rewrite !map_map, map_eq_iff. split; intros H j Hj.
  - apply H. apply filter_In in Hj. tauto.
  - destruct (j_is j) eqn:Hi; [apply H; apply filter_In; split; assumption|].
    unfold is_used, obj_band, psf_band. cbn [b_issb]. rewrite Hi. reflexivity.
Qed.
Lemma differ_ext : forall js js', s_flags (sum_obj js) = s_flags (sum_obj js') ->
  s_flags (sum_psf js) = s_flags (sum_psf js') ->
  (s_used (sum_obj js) = s_used (sum_psf js) <-> s_used (sum_obj js') = s_used (sum_psf js')) ->
  differ js = differ js'.
Proof.
  intros js js' H1 H2 H3. unfold differ. rewrite H1, H2. f_equal. f_equal.
  destruct (list_eq_dec bool_dec (s_used (sum_obj js)) (s_used (sum_psf js))) as [E|E],
    (list_eq_dec bool_dec (s_used (sum_obj js')) (s_used (sum_psf js'))) as [F|F]; auto; exfalso; tauto.
Qed.

Lemma combine_perm : forall ng mk to_T qsqrt js js' sb fw r r',
  mk_ext mk -> sqrt_ext qsqrt -> Permutation (filter j_is js) (filter j_is js') ->
  combine_bands ng mk to_T qsqrt js sb fw = Ok r -> combine_bands ng mk to_T qsqrt js' sb fw = Ok r' ->
  row_equiv r r'.
Proof.
  intros ng mk to_T qsqrt js js' sb fw r r' Hk Hs Hp H H'. rewrite combine_bands_eq in H, H'.
  destruct (zlen sb <=? MAX_NUM_SHEAR_BANDS); [|discriminate].
  rewrite existsb_filter_self in H, H'. rewrite <- (existsb_perm _ _ _ _ Hp) in H'.
  pose proof (sums_perm false obj_band js js' (fun _ => eq_refl) Hp) as So.
  pose proof (sums_perm true psf_band js js' (fun _ => eq_refl) Hp) as Sp.
  fold (sum_obj js) (sum_obj js') in So. fold (sum_psf js) (sum_psf js') in Sp.
  assert (Hd : differ js = differ js').
  { apply differ_ext; [apply So | apply Sp|]. rewrite !used_eq_iff. split; intros K j Hj; apply K.
    - eapply Permutation_in; [apply Permutation_sym; exact Hp | exact Hj].
    - eapply Permutation_in; [exact Hp | exact Hj]. }
  destruct (existsb (fun _ => true) (filter j_is js)); apply Ok_inj in H, H'; subst r r'.
  - unfold comb_flags. rewrite Hd. replace (s_flags (sum_obj js')) with (s_flags (sum_obj js)) by apply So.
    replace (s_flags (sum_psf js')) with (s_flags (sum_psf js)) by apply Sp.
    apply finish_ext; assumption.
  - apply finish_ext; try assumption; (split; [reflexivity|]; repeat split; intros; reflexivity).
Qed.

(** Scaling all weights. *)
Lemma is_used_ext : forall b b', b_issb b = b_issb b' -> b_res b = b_res b' -> is_used b = is_used b'.
Proof. intros b b' H1 H2. unfold is_used. rewrite H1, H2. reflexivity. Qed.
Lemma used_scale : forall (f : band -> sband) c js,
  (forall j, b_issb (f (scale_weight c j)) = b_issb (f j)) -> (forall j, b_res (f (scale_weight c j)) = b_res (f j)) ->
  exists l, used (map f js) = map f l /\ used (map f (map (scale_weight c) js)) = map f (map (scale_weight c) l).
Proof.
  intros f c js H1 H2. exists (filter (fun j => is_used (f j)) js). unfold used. induction js as [|j js [I1 I2]]; [split; reflexivity|].
  cbn [map filter]. rewrite (is_used_ext (f (scale_weight c j)) (f j) (H1 j) (H2 j)).
  destruct (is_used (f j)); cbn [map]; split; try assumption; f_equal; assumption.
Qed.
Lemma ndiv_scale : forall c a b, (0 < c)%Q -> neqv (ndiv (nmul (Some c) a) (Some (c * b)%Q)) (ndiv a (Some b)).
Proof.
  intros c [a|] b Hc; cbn; auto.
  destruct (Qeq_bool b 0) eqn:E.
  - apply Qeq_bool_iff in E. rewrite (proj2 (Qeq_bool_iff (c * b) 0)); [exact I | rewrite E; ring].
  - apply Qeq_bool_neq in E. destruct (Qeq_bool (c * b) 0) eqn:F; cbn.
    + apply Qeq_bool_iff in F. apply Qmult_integral in F. destruct F as [F|F]; [lra | contradiction].
    + field. split; [exact E | lra].
Qed.
Lemma ndiv_mul_l : forall c a b, neqv (ndiv (nmul (Some c) a) b) (nmul (Some c) (ndiv a b)).
Proof. intros c [a|] [b|]; cbn; auto. destruct (Qeq_bool b 0) eqn:E; cbn; auto. apply Qeq_bool_neq in E. field. exact E. Qed.

Lemma sums_scale : forall w (f : band -> sband) c js, (0 < c)%Q ->
  (forall j, b_issb (f (scale_weight c j)) = b_issb (f j)) -> (forall j, b_res (f (scale_weight c j)) = b_res (f j)) ->
  (forall j, b_wres (f (scale_weight c j)) = b_wres (f j)) -> (forall j, b_flags (f (scale_weight c j)) = b_flags (f j)) ->
  (forall j, b_wgt (f (scale_weight c j)) = (c * b_wgt (f j))%Q) ->
  sums_sim (sum_bands_wavg w (map f js)) (sum_bands_wavg w (map f (map (scale_weight c) js))).
Proof.
  intros w f c js Hc H1 H2 H3 H4 H5.
  destruct (sum_bands_closed w (map f js)) as (A1 & A2 & A3 & A4 & A5 & A6 & A7).
  destruct (sum_bands_closed w (map f (map (scale_weight c) js))) as (B1 & B2 & B3 & B4 & B5 & B6 & B7).
  destruct (used_scale f c js H1 H2) as (l & U & V). rewrite U in A1, A2, A3, A4, A6, A7. rewrite V in B1, B2, B3, B4, B6, B7.
  set (S := sum_bands_wavg w (map f js)) in *. set (S' := sum_bands_wavg w (map f (map (scale_weight c) js))) in *.
  clearbody S S'. rewrite !map_map in A3, B3, B4, A4.
  assert (HW : (qsum (map (fun x => b_wgt (f x)) (map (scale_weight c) l)) == c * qsum (map (fun x => b_wgt (f x)) l))%Q).
  { rewrite map_map, <- qsum_map_mult. apply qsum_map_ext. intros x _. rewrite H5. reflexivity. }
  assert (Hr : forall x, flux_mom_ratio w (f (scale_weight c x)) = flux_mom_ratio w (f x))
    by (intros x; apply band_flag_ext_used; [apply H2 | apply H3]).
  assert (Hn : forall x, mom_norm (f (scale_weight c x)) = mom_norm (f x)) by (intros x; unfold mom_norm; rewrite H2; reflexivity).
  assert (Hfac : forall x, neqv (factor w (f (scale_weight c x))) (nmul (Some c) (factor w (f x)))).
  { intros x. unfold factor. rewrite Hr, Hn, H5, <- ndiv_mul_l. apply ndiv_proper; [|reflexivity].
    destruct (fst (flux_mom_ratio w (f x))) as [y|]; cbn; auto. ring. }
  assert (Hbm : forall x i, bmom (f (scale_weight c x)) i = bmom (f x) i) by (intros; unfold bmom; rewrite H2; reflexivity).
  assert (Hbc : forall x i j, bcov (f (scale_weight c x)) i j = bcov (f x) i j) by (intros; unfold bcov; rewrite H2; reflexivity).
  assert (Hw' : (s_wgt S' == c * s_wgt S)%Q) by (rewrite A3, B3; exact HW).
  assert (Hw2 : (s_wgt S' * s_wgt S' == (c * c) * (s_wgt S * s_wgt S))%Q) by (rewrite Hw'; ring).
  assert (Hc2 : (0 < c * c)%Q) by nra.
  assert (Hsim : forall a a' k, neqv a' (nmul (Some k) a) -> forall b b', (0 < k)%Q -> (b' == k * b)%Q -> neqv (ndiv a (Some b)) (ndiv a' (Some b'))).
  { intros a a' k Ha b b' Hk Hb. rewrite Ha. rewrite (ndiv_proper _ _ (reflexivity (nmul (Some k) a)) (Some b') (Some (k * b)%Q) Hb).
    symmetry. apply ndiv_scale. exact Hk. }
  assert (Hns : forall (g g' : band -> num) k, (forall x, neqv (g' x) (nmul (Some k) (g x))) ->
     neqv (nsum (map g' l)) (nmul (Some k) (nsum (map g l)))).
  { intros g g' k Hg. rewrite (nsum_ext _ g' (fun x => nmul (Some k) (g x)) l (fun x _ => Hg x)).
    destruct l as [|x0 l0]; [cbn; ring | apply nsum_scale; discriminate]. }
  split; [|split; [|split; [|split]]].
  - rewrite A4, B4. f_equal.
    + f_equal.
      clear - H1 H2 H3 H4 H5 Hc Hr. induction js as [|j js IH]; [reflexivity|]. cbn [map filter]. rewrite H1.
      destruct (b_issb (f j)); [|exact IH]. cbn [map]. f_equal; [|exact IH].
      unfold band_flag. rewrite Hr, H4, H5. unfold missing_flags. rewrite H2, H3. f_equal.
      destruct (Qle_bool_dec (b_wgt (f j))) as [[E E']|[E E']], (Qle_bool_dec (c * b_wgt (f j))) as [[F F']|[F F']];
        rewrite E, F; try reflexivity; exfalso; nra.
    + assert (HE : existsb is_used (map (fun x => f (scale_weight c x)) js) = existsb is_used (map f js)).
      { clear - H1 H2. induction js as [|j js IH]; [reflexivity|]. cbn [map existsb].
        rewrite (is_used_ext (f (scale_weight c j)) (f j) (H1 j) (H2 j)). f_equal. exact IH. }
      rewrite HE. rewrite map_map in HW. rewrite !map_map in *.
      assert (HQ : Qle_bool (qsum (map (fun x => b_wgt (f (scale_weight c x))) l)) 0 =
                   Qle_bool (qsum (map (fun x => b_wgt (f x)) l)) 0).
      { set (x := qsum (map (fun x => b_wgt (f x)) l)) in *. set (x' := qsum (map (fun x => b_wgt (f (scale_weight c x))) l)) in *.
        destruct (Qle_bool_dec x) as [[E E']|[E E']], (Qle_bool_dec x') as [[F F']|[F F']];
          rewrite E, F; try reflexivity; exfalso; nra. }
      rewrite HQ. reflexivity.
  - intros i. apply (Hsim _ _ c); [|exact Hc | exact Hw']. rewrite A1, B1. rewrite !map_map. apply Hns.
    intros x. rewrite Hfac, Hbm. apply nmul_assoc.
  - intros i j. apply (Hsim _ _ (c * c)%Q); [|exact Hc2 | exact Hw2]. rewrite A2, B2. rewrite !map_map. apply Hns.
    intros x. rewrite Hfac, Hbc. destruct (factor w (f x)) as [y|], (bcov (f x) i j) as [z|]; cbn; auto. ring.
  - apply (Hsim _ _ c); [|exact Hc | exact Hw']. rewrite A6, B6. rewrite !map_map. apply Hns.
    intros x. rewrite Hbm, H5. destruct (bmom (f x) 5%nat); cbn; auto. ring.
  - apply (Hsim _ _ (c * c)%Q); [|exact Hc2 | exact Hw2]. rewrite A7, B7. rewrite !map_map. apply Hns.
    intros x. rewrite Hbc, H5. destruct (bcov (f x) 5%nat 5%nat); cbn; auto. ring.
Qed.

Lemma combine_scale : forall ng mk to_T qsqrt c js sb fw r r', (0 < c)%Q ->
  mk_ext mk -> sqrt_ext qsqrt ->
  combine_bands ng mk to_T qsqrt js sb fw = Ok r ->
  combine_bands ng mk to_T qsqrt (map (scale_weight c) js) sb fw = Ok r' ->
  row_equiv r r' /\ o_flags r = o_flags r' /\ o_band_flux_flags r = o_band_flux_flags r' /\
  o_band_flux r = o_band_flux r' /\ o_band_flux_err r = o_band_flux_err r'.
Proof.
  intros ng mk to_T qsqrt c js sb fw r r' Hc Hk Hs H H'.
  pose proof (combine_flags _ _ _ _ _ _ _ _ _ _ _ _ H) as [_ F1].
  pose proof (combine_flags _ _ _ _ _ _ _ _ _ _ _ _ H') as [_ F2].
  rewrite combine_bands_eq in H, H'.
  destruct (zlen sb <=? MAX_NUM_SHEAR_BANDS); [|discriminate].
  assert (He : existsb j_is (map (scale_weight c) js) = existsb j_is js).
  { clear. induction js as [|j js IH]; [reflexivity|]. cbn. rewrite IH. reflexivity. }
  rewrite He, map_length in H'.
  assert (So : sums_sim (sum_obj js) (sum_obj (map (scale_weight c) js))).
  { apply sums_scale; try assumption; reflexivity. }
  assert (Sp : sums_sim (sum_psf js) (sum_psf (map (scale_weight c) js))).
  { apply sums_scale; try assumption; reflexivity. }
  assert (Hd : differ js = differ (map (scale_weight c) js)).
  { apply differ_ext; [apply So | apply Sp|]. rewrite !used_eq_iff. split; intros K j Hj.
    - apply filter_In in Hj. destruct Hj as [Hj Hi]. apply in_map_iff in Hj. destruct Hj as (j0 & <- & Hj).
      apply (K j0). apply filter_In. split; assumption.
    - apply filter_In in Hj. destruct Hj as [Hj Hi].
      apply (K (scale_weight c j)). apply filter_In. split; [apply in_map; exact Hj | exact Hi]. }
  assert (Hcols : flux_cols (map (scale_weight c) js) = flux_cols js) by (unfold flux_cols; rewrite map_map; reflexivity).
  assert (Heq : row_equiv r r' /\ o_band_flux_flags r = o_band_flux_flags r' /\
    o_band_flux r = o_band_flux r' /\ o_band_flux_err r = o_band_flux_err r').
  { destruct (existsb j_is js); apply Ok_inj in H, H'; subst r r'.
    - split.
      + unfold comb_flags. rewrite Hd. replace (s_flags (sum_obj (map (scale_weight c) js))) with (s_flags (sum_obj js)) by apply So.
        replace (s_flags (sum_psf (map (scale_weight c) js))) with (s_flags (sum_psf js)) by apply Sp.
        apply finish_ext; assumption.
      + rewrite Hcols. unfold finish_row. cbv zeta. cbn [o_band_flux_flags o_band_flux o_band_flux_err]. repeat split.
    - split; [|repeat split]. apply finish_ext; try assumption; (split; [reflexivity|]; repeat split; intros; reflexivity). }
  destruct Heq as (E1 & E2 & E3 & E4). split; [exact E1|]. split; [|repeat split; assumption].
  rewrite F1, F2, E2. f_equal. apply E1.
Qed.

Lemma combine_perm_flags : forall ng mk to_T qsqrt js js' sb fw r r',
  mk_ext mk -> sqrt_ext qsqrt -> Permutation js js' ->
  combine_bands ng mk to_T qsqrt js sb fw = Ok r -> combine_bands ng mk to_T qsqrt js' sb fw = Ok r' ->
  row_equiv r r' /\ o_flags r = o_flags r'.
Proof.
  intros ng mk to_T qsqrt js js' sb fw r r' Hk Hs Hp H H'.
  pose proof (combine_perm _ _ _ _ _ _ _ _ _ _ Hk Hs (perm_filter _ j_is _ _ Hp) H H') as He. split; [exact He|].
  pose proof (combine_flags _ _ _ _ _ _ _ _ _ _ _ _ H) as [_ F1].
  pose proof (combine_flags _ _ _ _ _ _ _ _ _ _ _ _ H') as [_ F2].
  rewrite F1, F2. f_equal; [apply He|].
  rewrite combine_bands_eq in H, H'. destruct (zlen sb <=? MAX_NUM_SHEAR_BANDS); [|discriminate].
  rewrite (existsb_perm _ j_is _ _ (Permutation_sym Hp)) in H'.
  pose proof (Permutation_length Hp) as Hl.
  destruct (existsb j_is js); apply Ok_inj in H, H'; subst r r'; unfold finish_row; cbv zeta; cbn [o_band_flux_flags];
    rewrite Hl; (destruct (List.length js') as [|n]; [reflexivity|]).
  - apply zor_perm. unfold flux_cols. rewrite !map_map. apply Permutation_map. exact Hp.
  - reflexivity.
Qed.

(** ** C37: the formula *)
Lemma nsum_flat : forall (G : Q -> fitres -> num) (F : sband -> num) l,
  (forall b r, b_res b = Some r -> neqv (F b) (G (b_wgt b) r)) ->
  (forall b, In b l -> is_used b = true) ->
  neqv (nsum (map F l))
    (nsum (map (fun wr => G (fst wr) (snd wr))
       (flat_map (fun b => match b_res b with Some r => [(b_wgt b, r)] | None => [] end) l))).
Proof.
  intros G F l HF. induction l as [|b l IH]; intros Hu; [reflexivity|].
  assert (Hb := Hu b (or_introl eq_refl)). unfold is_used in Hb. apply andb_true_iff in Hb. destruct Hb as [_ Hb].
  destruct (b_res b) as [r|] eqn:Er; [|discriminate].
  cbn [map flat_map]. rewrite Er. cbn [map app nsum fold_right fst snd].
  apply nadd_proper; [apply HF; exact Er | apply IH; intros; apply Hu; right; assumption].
Qed.
Lemma used_all : forall l b, In b (used l) -> is_used b = true.
Proof. intros l b H. apply filter_In in H. tauto. Qed.
Lemma obj_factor : forall b r, b_res b = Some r ->
  neqv (factor false b) (ndiv (Some (b_wgt b)) (Some (norm_of r))).
Proof.
  intros b r Hr. unfold factor, mom_norm, flux_mom_ratio, norm_of, finite_norm. cbn [fst]. rewrite Hr.
  apply ndiv_proper; [cbn; ring|]. destruct (r_norm r) as [[q|]|]; reflexivity.
Qed.
Lemma Qeq_bool_sq : forall q, Qeq_bool (q * q) 0 = Qeq_bool q 0.
Proof.
  intros q. destruct (Qeq_bool q 0) eqn:E.
  - apply Qeq_bool_iff in E. apply Qeq_bool_iff. rewrite E. ring.
  - apply Qeq_bool_neq in E. destruct (Qeq_bool (q * q) 0) eqn:F; [|reflexivity].
    apply Qeq_bool_iff in F. apply Qmult_integral in F. tauto.
Qed.

Lemma obj_mom_formula : forall js, (forall j, In j js -> j_is j = true -> contributed j) ->
  veqv (vdiv (s_mom (sum_obj js)) (s_wgt (sum_obj js))) (fun i => wmean (shear_fits js) (fun r => normalised r i)) /\
  ceqv (mdiv (s_cov (sum_obj js)) (s_wgt (sum_obj js) * s_wgt (sum_obj js)))
       (fun i j => wmean_var (shear_fits js) (fun r => normalised_cov r i j)) /\
  neqv (ndiv (s_flux (sum_obj js)) (Some (s_wgt (sum_obj js)))) (wmean (shear_fits js) flux_of) /\
  neqv (ndiv (s_flux_var (sum_obj js)) (Some (s_wgt (sum_obj js) * s_wgt (sum_obj js))%Q)) (wmean_var (shear_fits js) flux_var_of).
Proof.
  intros js Hc. destruct (shear_fits_used js Hc) as (S1 & S2 & _). unfold sum_obj.
  destruct (sum_bands_closed false (map obj_band js)) as (A1 & A2 & A3 & _ & _ & A6 & A7).
  rewrite <- S2 in A3. unfold wmean, wmean_var.
  assert (Hw2 : (s_wgt (sum_bands_wavg false (map obj_band js)) * s_wgt (sum_bands_wavg false (map obj_band js)) ==
    qsum (map fst (shear_fits js)) * qsum (map fst (shear_fits js)))%Q) by (rewrite A3; reflexivity).
  pose proof (used_all (map obj_band js)) as Hu.
  split; [|split; [|split]].
  - intros i. apply vdiv_ext; [|exact A3]. rewrite A1, S1.
    apply (nsum_flat (fun w r => nmul (Some w) (normalised r i))); [|exact Hu].
    intros b r Hr. rewrite (obj_factor b r Hr). unfold bmom, normalised. rewrite Hr.
    destruct (r_mom r) as [m|]; [|destruct (ndiv _ _); reflexivity]. destruct (m i) as [x|]; cbn.
    + destruct (Qeq_bool (norm_of r) 0) eqn:E; cbn; auto. apply Qeq_bool_neq in E. field. exact E.
    + destruct (Qeq_bool (norm_of r) 0); reflexivity.
  - intros i j. apply vdiv_ext; [|exact Hw2]. rewrite A2, S1.
    apply (nsum_flat (fun w r => nmul (Some (w * w)%Q) (normalised_cov r i j))); [|exact Hu].
    intros b r Hr. rewrite (obj_factor b r Hr). unfold bcov, normalised_cov. rewrite Hr.
    destruct (r_cov r) as [m|]; [|destruct (ndiv _ _); reflexivity]. destruct (m i j) as [x|]; cbn.
    + rewrite Qeq_bool_sq. destruct (Qeq_bool (norm_of r) 0) eqn:E; cbn; auto. apply Qeq_bool_neq in E. field. exact E.
    + destruct (Qeq_bool (norm_of r) 0); reflexivity.
  - apply vdiv_ext; [|exact A3]. rewrite A6, S1.
    apply (nsum_flat (fun w r => nmul (Some w) (flux_of r))); [|exact Hu].
    intros b r Hr. unfold bmom, flux_of. rewrite Hr. reflexivity.
  - apply vdiv_ext; [|exact Hw2]. rewrite A7, S1.
    apply (nsum_flat (fun w r => nmul (Some (w * w)%Q) (flux_var_of r))); [|exact Hu].
    intros b r Hr. unfold bcov, flux_var_of. rewrite Hr. reflexivity.
Qed.

(** The columns of a clean row come from make_mom_res on the averages. *)
Lemma clean_columns : forall ng mk to_T qsqrt js sb fw r,
  combine_bands ng mk to_T qsqrt js sb fw = Ok r -> o_obj_flags r = 0 ->
  exists raw cov fl fv praw pcov pfl pfv,
  let m := make_mom_res ng mk to_T qsqrt raw cov fl fv fw in
  let p := make_mom_res ng mk to_T qsqrt praw pcov pfl pfv 0 in
  raw = vdiv (s_mom (sum_obj js)) (s_wgt (sum_obj js)) /\
  cov = mdiv (s_cov (sum_obj js)) (s_wgt (sum_obj js) * s_wgt (sum_obj js)) /\
  fl = ndiv (s_flux (sum_obj js)) (Some (s_wgt (sum_obj js))) /\
  fv = ndiv (s_flux_var (sum_obj js)) (Some (s_wgt (sum_obj js) * s_wgt (sum_obj js))%Q) /\
  praw = vdiv (s_mom (sum_psf js)) (s_wgt (sum_psf js)) /\
  m_flags m = 0 /\ m_flags p = 0 /\
  o_g r = (m_e1 m, m_e2 m) /\ o_g_cov r = m_ecov m /\ o_T r = m_T m /\ o_T_err r = m_T_err m /\
  o_T_flags r = m_T_flags m /\ o_s2n r = m_s2n m /\
  o_psf_g r = (m_e1 p, m_e2 p) /\ o_psf_T r = m_T p /\ o_T_ratio r = ndiv (m_T m) (m_T p).
Proof.
  intros ng mk to_T qsqrt js sb fw r H H0.
  destruct (clean_obj _ _ _ _ _ _ _ _ H H0) as (He & S1 & S2 & Hd & Hpz & Hsb & Hc).
  rewrite combine_bands_eq in H. apply Z.leb_le in Hsb. rewrite Hsb, He in H. apply Ok_inj in H.
  unfold comb_flags in H. rewrite Hd, S1, S2 in H.
  subst r. revert H0 Hpz. unfold finish_row. cbv zeta.
  cbn [Z.eqb o_psf_flags o_obj_flags o_psf_g o_psf_T o_s2n o_g o_g_cov o_T o_T_flags o_T_err o_T_ratio].
  rewrite !Z.lor_0_l. intros H0 Hpz. rewrite Hpz in *. cbn [Z.eqb negb] in *.
  do 8 eexists. cbv zeta. repeat (split; [reflexivity|]). split; [exact H0|]. split; [exact Hpz|].
  repeat (split; [reflexivity|]). reflexivity.
Qed.

Lemma wavg_means : forall ng mk to_T qsqrt js sb fw r,
  ng_ok ng -> mk_ext mk -> sqrt_ext qsqrt ->
  combine_bands ng mk to_T qsqrt js sb fw = Ok r -> o_obj_flags r = 0 ->
  let l := shear_fits js in
  let m := mk (fun i => wmean l (fun r => normalised r i)) (fun i j => wmean_var l (fun r => normalised_cov r i j)) in
  neqv (o_T r) (mo_T m) /\ neqv (o_T_err r) (mo_T_err m) /\ o_T_flags r = mo_T_flags m /\
  ((fw <= 0)%Q -> neqv (fst (o_g r)) (mo_e1 m) /\ neqv (snd (o_g r)) (mo_e2 m) /\ ceqv (o_g_cov r) (mo_ecov m)) /\
  exists v, neqv (wmean_var l flux_var_of) (Some v) /\ (0 < v)%Q /\
    neqv (o_s2n r) (ndiv (wmean l flux_of) (Some (qsqrt v))).
Proof.
  intros ng mk to_T qsqrt js sb fw r Hng Hk Hs H H0 l m.
  destruct (clean_obj _ _ _ _ _ _ _ _ H H0) as (_ & _ & _ & _ & _ & _ & Hc).
  destruct (clean_columns _ _ _ _ _ _ _ _ H H0) as (raw & cov & fl & fv & praw & pcov & pfl & pfv & D).
  cbv zeta in D. destruct D as (-> & -> & -> & -> & _ & Hm & _ & Dg & Dc & DT & De & Df & Ds & _).
  destruct (obj_mom_formula js Hc) as (M1 & M2 & M3 & M4). fold l in M1, M2, M3, M4.
  set (raw := vdiv _ _) in *. set (cov := mdiv _ _) in *. set (fl := ndiv (s_flux _) _) in *. set (fv := ndiv (s_flux_var _) _) in *.
  clearbody raw cov fl fv. rewrite Dg, Dc, DT, De, Df, Ds. clear Dg Dc DT De Df Ds.
  destruct (Hk _ _ _ _ M1 M2) as (K1 & K2 & K3 & K4 & K5 & K6 & K7 & K8). fold m in K1, K2, K3, K4, K5, K6, K7, K8.
  set (mm := make_mom_res ng mk to_T qsqrt raw cov fl fv fw) in *.
  assert (T1 : m_T mm = mo_T (mk raw cov) /\ m_T_err mm = mo_T_err (mk raw cov) /\ m_T_flags mm = mo_T_flags (mk raw cov)).
  { subst mm. unfold make_mom_res. destruct (negb (Qle_bool fw 0)), fv as [v|]; [destruct (negb (Qle_bool v 0))| |destruct (negb (Qle_bool v 0))|];
      cbn; repeat split. }
  destruct T1 as (T1 & T2 & T3). rewrite T1, T2, T3.
  split; [exact K4|]. split; [exact K5|]. split; [exact K6|]. split.
  - intros Hfw. assert (Qle_bool fw 0 = true) as Hq by (apply Qle_bool_iff; exact Hfw).
    subst mm. unfold make_mom_res in *. rewrite Hq in *. cbn [negb] in *.
    destruct fv as [v|]; [destruct (negb (Qle_bool v 0))|]; cbn [m_e1 m_e2 m_ecov fst snd]; repeat split; assumption.
  - subst mm. unfold make_mom_res in *. cbv zeta in *.
    destruct fv as [v|]; [destruct (negb (Qle_bool v 0)) eqn:Ev|].
    + exists v. cbn [m_s2n]. split; [symmetry; exact M4|]. split.
      * apply negb_true_iff in Ev. destruct (Qle_bool_dec v) as [[E _]|[_ E]]; [congruence | exact E].
      * apply ndiv_proper; [exact M3 | reflexivity].
    + cbn [m_flags] in Hm. apply lor0 in Hm. destruct Hng as [_ Hv]. destruct Hm as [_ Hm]. contradiction.
    + cbn [m_flags] in Hm. apply lor0 in Hm. destruct Hng as [_ Hv]. destruct Hm as [_ Hm]. contradiction.
Qed.

Lemma ndiv_self_w : forall w x, (0 < w)%Q -> neqv (ndiv (nadd (nmul (Some w) x) (Some 0%Q)) (Some (w + 0)%Q)) x.
Proof.
  intros w [x|] Hw; cbn; auto. rewrite (Qeq_bool_ext (w + 0) w 0) by ring.
  destruct (Qeq_bool w 0) eqn:E; [apply Qeq_bool_iff in E; lra|]. cbn. field. lra.
Qed.
Lemma wmean_single : forall w r v, (0 < w)%Q -> neqv (wmean [(w, r)] v) (v r).
Proof. intros w r v Hw. unfold wmean. cbn [map nsum fold_right fst snd qsum]. apply ndiv_self_w. exact Hw. Qed.
Lemma wmean_var_single : forall w r v, (0 < w)%Q -> neqv (wmean_var [(w, r)] v) (v r).
Proof.
  intros w r v Hw. unfold wmean_var. cbn [map nsum fold_right fst snd qsum].
  rewrite (ndiv_proper _ _ (reflexivity _) (Some ((w + 0) * (w + 0))%Q) (Some (w * w + 0)%Q)) by (cbn; ring).
  apply ndiv_self_w. nra.
Qed.
Lemma wavg_one_band : forall ng mk to_T qsqrt js sb fw r j f,
  ng_ok ng -> mk_ext mk -> sqrt_ext qsqrt ->
  combine_bands ng mk to_T qsqrt js sb fw = Ok r -> o_obj_flags r = 0 ->
  filter j_is js = [j] -> j_res j = Some f ->
  let m := mk (normalised f) (normalised_cov f) in
  neqv (o_T r) (mo_T m) /\ neqv (o_T_err r) (mo_T_err m) /\ o_T_flags r = mo_T_flags m /\
  ((fw <= 0)%Q -> neqv (fst (o_g r)) (mo_e1 m) /\ neqv (snd (o_g r)) (mo_e2 m) /\ ceqv (o_g_cov r) (mo_ecov m)).
Proof.
  intros ng mk to_T qsqrt js sb fw r j f Hng Hk Hs H H0 Hone Hf m.
  destruct (clean_obj _ _ _ _ _ _ _ _ H H0) as (_ & _ & _ & _ & _ & _ & Hc).
  pose proof (wavg_means _ _ _ _ _ _ _ _ Hng Hk Hs H H0) as W. cbv zeta in W.
  destruct W as (W1 & W2 & W3 & W4 & _).
  assert (Hj : In j js /\ j_is j = true) by (apply filter_In; rewrite Hone; left; reflexivity).
  destruct (Hc j (proj1 Hj) (proj2 Hj)) as [Hw _].
  assert (Hsf : shear_fits js = [(j_w j, f)]).
  { transitivity (shear_fits (filter j_is js)).
    - clear. unfold shear_fits. induction js as [|x js IH]; [reflexivity|]. cbn [flat_map filter].
      destruct (j_is x) eqn:E; cbn [flat_map]; rewrite ?E, IH; [reflexivity|]. destruct (j_res x); reflexivity.
    - rewrite Hone. cbn [shear_fits flat_map]. rewrite Hf, (proj2 Hj). reflexivity. }
  rewrite Hsf in *.
  destruct (Hk (fun i => wmean [(j_w j, f)] (fun r => normalised r i)) (normalised f)
    (fun i k => wmean_var [(j_w j, f)] (fun r => normalised_cov r i k)) (normalised_cov f)) as (K1 & K2 & K3 & K4 & K5 & K6 & K7 & K8).
  { intros i. apply (wmean_single (j_w j) f (fun r => normalised r i)). exact Hw. }
  { intros i k. apply (wmean_var_single (j_w j) f (fun r => normalised_cov r i k)). exact Hw. }
  fold m in K1, K2, K3, K4, K5, K6, K7, K8.
  split; [rewrite W1; exact K4|]. split; [rewrite W2; exact K5|]. split; [rewrite W3; exact K6|].
  intros Hfw. destruct (W4 Hfw) as (G1 & G2 & G3). split; [rewrite G1; exact K1|]. split; [rewrite G2; exact K2|].
  intros a b. rewrite (G3 a b). apply K3.
Qed.

(** ** C38 *)
Lemma star_factor : forall j i, star_band j ->
  neqv (nmul (factor true (psf_band j)) (bmom (psf_band j) i)) (nmul (factor false (obj_band j)) (bmom (obj_band j) i)).
Proof.
  intros j i (r & p & m & mp & a & Hr & Hp & Hm & Hmp & Ha & Hmul & (q5 & Hq5 & Hq5n) & Hn).
  destruct (Hmul i) as (qi & Hqi & Hmi). destruct (Hmul 5%nat) as (q5' & Hq5' & Hm5).
  rewrite Hq5 in Hq5'. apply Some_inj in Hq5'. subst q5'.
  unfold factor, flux_mom_ratio, mom_norm, bmom, psf_band, obj_band. cbn [b_wgt b_res b_wres b_issb fst].
  rewrite Hr, Hp, Hm, Hmp, Hq5, Hqi. cbn [nne0].
  assert (Qeq_bool q5 0 = false) as E5 by (destruct (Qeq_bool q5 0) eqn:E; [apply Qeq_bool_iff in E; contradiction | reflexivity]).
  rewrite E5. cbn [negb]. destruct (m i) as [mi|]; [|contradiction]. destruct (m 5%nat) as [m5|]; [|contradiction].
  cbn [neqv] in Hmi, Hm5. unfold finite_norm.
  destruct Hn as [[Hn1 Hn2] | (n1 & n2 & Hn1 & Hn2 & Hp1 & Hp2)]; rewrite Hn1, Hn2; cbn [fst].
  - unfold ndiv. rewrite E5. cbn. rewrite Hmi, Hm5. field. exact Hq5n.
  - assert (Qeq_bool n1 0 = false) as E1 by (destruct (Qeq_bool n1 0) eqn:E; [apply Qeq_bool_iff in E; lra | reflexivity]).
    assert (Qeq_bool n2 0 = false) as E2 by (destruct (Qeq_bool n2 0) eqn:E; [apply Qeq_bool_iff in E; lra | reflexivity]).
    repeat (progress (rewrite ?E1, ?E2, ?E5; cbn [fst nmul ndiv])). cbn [neqv].
    rewrite Hmi, Hm5. field. repeat split; try lra; exact Hq5n.
Qed.
Lemma used_contrib : forall (f : band -> sband) js, (f = obj_band \/ f = psf_band) ->
  (forall j, In j js -> j_is j = true -> contributed j) -> used (map f js) = map f (filter j_is js).
Proof.
  intros f js Hf Hc. induction js as [|j js IH]; [reflexivity|].
  assert (IH' := IH (fun x Hx => Hc x (or_intror Hx))). cbn [map used filter]. unfold used in IH'.
  destruct (j_is j) eqn:Hi.
  - destruct (is_used_contrib j (Hc j (or_introl eq_refl) Hi) Hi) as [U1 U2].
    replace (is_used (f j)) with true by (destruct Hf; subst f; congruence). cbn [map]. f_equal. exact IH'.
  - replace (is_used (f j)) with false; [exact IH'|].
    unfold is_used. replace (b_issb (f j)) with (j_is j) by (destruct Hf; subst f; reflexivity). rewrite Hi. reflexivity.
Qed.
Lemma star_moments : forall js, (forall j, In j js -> j_is j = true -> contributed j) ->
  (forall j, In j js -> j_is j = true -> star_band j) ->
  veqv (vdiv (s_mom (sum_psf js)) (s_wgt (sum_psf js))) (vdiv (s_mom (sum_obj js)) (s_wgt (sum_obj js))).
Proof.
  intros js Hc Hst i. unfold sum_psf, sum_obj.
  destruct (sum_bands_closed false (map obj_band js)) as (A1 & _ & A3 & _).
  destruct (sum_bands_closed true (map psf_band js)) as (B1 & _ & B3 & _).
  rewrite (used_contrib obj_band js (or_introl eq_refl) Hc) in A1, A3.
  rewrite (used_contrib psf_band js (or_intror eq_refl) Hc) in B1, B3.
  apply vdiv_ext.
  - rewrite A1, B1, !map_map. apply nsum_ext. intros j Hj. apply filter_In in Hj. apply star_factor. apply Hst; tauto.
  - rewrite A3, B3, !map_map. reflexivity.
Qed.
Lemma mom_res_T : forall ng mk to_T qsqrt raw cov fl fv fw,
  let m := make_mom_res ng mk to_T qsqrt raw cov fl fv fw in
  m_T m = mo_T (mk raw cov) /\ m_T_err m = mo_T_err (mk raw cov) /\ m_T_flags m = mo_T_flags (mk raw cov) /\
  (m_flags m = 0 -> mo_flags (mk raw cov) = 0).
Proof.
  intros ng mk to_T qsqrt raw cov fl fv fw m. subst m. unfold make_mom_res. cbv zeta.
  destruct (negb (Qle_bool fw 0)), (nle0 fl), fv as [v|];
    try (destruct (negb (Qle_bool v 0)));
    cbn [m_T m_T_err m_T_flags m_flags mo_T mo_T_err mo_T_flags mo_flags]; repeat split; intros Hz;
    repeat (apply lor0 in Hz; destruct Hz as [Hz ?]); assumption.
Qed.
Lemma star_ratio : forall ng mk to_T qsqrt js sb fw r,
  mk_size mk -> combine_bands ng mk to_T qsqrt js sb fw = Ok r -> o_obj_flags r = 0 ->
  (forall j, In j js -> j_is j = true -> star_band j) ->
  neqv (o_psf_T r) (o_T r) /\
  (forall t, o_T r = Some t -> ~ (t == 0)%Q -> neqv (o_T_ratio r) (Some 1%Q)).
Proof.
  intros ng mk to_T qsqrt js sb fw r Hsz H H0 Hst.
  destruct (clean_obj _ _ _ _ _ _ _ _ H H0) as (_ & _ & _ & _ & _ & _ & Hc).
  destruct (clean_columns _ _ _ _ _ _ _ _ H H0) as (raw & cov & fl & fv & praw & pcov & pfl & pfv & D).
  cbv zeta in D. destruct D as (Eraw & _ & _ & _ & Epraw & Hm & Hp & _ & _ & DT & _ & _ & _ & _ & DpT & Dr).
  pose proof (star_moments js Hc Hst) as Hmom. rewrite <- Eraw, <- Epraw in Hmom. clear Eraw Epraw.
  destruct (mom_res_T ng mk to_T qsqrt raw cov fl fv fw) as (T1 & _ & _ & T4).
  destruct (mom_res_T ng mk to_T qsqrt praw pcov pfl pfv 0) as (P1 & _ & _ & P4).
  assert (HT : neqv (m_T (make_mom_res ng mk to_T qsqrt praw pcov pfl pfv 0)) (m_T (make_mom_res ng mk to_T qsqrt raw cov fl fv fw))).
  { rewrite T1, P1. rewrite (Hsz raw cov (T4 Hm)), (Hsz praw pcov (P4 Hp)). apply ndiv_proper; apply Hmom. }
  rewrite DpT, DT, Dr. split; [exact HT|].
  intros t Ht Hn. rewrite Ht in *. destruct (m_T (make_mom_res ng mk to_T qsqrt praw pcov pfl pfv 0)) as [t'|]; [|contradiction].
  cbn in HT. cbn. destruct (Qeq_bool t' 0) eqn:E; cbn.
  - apply Qeq_bool_iff in E. apply Hn. rewrite <- HT. exact E.
  - rewrite HT. field. exact Hn.
Qed.

(** ** C41 *)
Lemma reg_moments_vals : forall t raw,
  (forall i, (2 <= i <= 5)%nat -> raw i <> None) ->
  (forall i, (i <= 5)%nat -> i <> 4%nat -> neqv (reg_moments t raw i) (raw i)) /\
  neqv (reg_moments t raw 4%nat) (nadd (raw 4%nat) (nmul (Some t) (raw 5%nat))).
Proof.
  intros t raw Hf.
  destruct (raw 2%nat) as [r2|] eqn:E2; [|exfalso; apply (Hf 2%nat); [lia | exact E2]].
  destruct (raw 3%nat) as [r3|] eqn:E3; [|exfalso; apply (Hf 3%nat); [lia | exact E3]].
  destruct (raw 4%nat) as [r4|] eqn:E4; [|exfalso; apply (Hf 4%nat); [lia | exact E4]].
  destruct (raw 5%nat) as [r5|] eqn:E5; [|exfalso; apply (Hf 5%nat); [lia | exact E5]].
  unfold reg_moments, dot_mv, reg_matrix, ix6. split.
  - intros i Hi Hi4. destruct i as [|[|[|[|[|[|i]]]]]]; try lia;
      cbn [Nat.leb Nat.eqb andb map nsum fold_right];
      rewrite ?E2, ?E3, ?E4, ?E5; destruct (raw 0%nat) as [r0|] eqn:E0, (raw 1%nat) as [r1|] eqn:E1; cbn; auto; try ring.
  - cbn [Nat.leb Nat.eqb andb map nsum fold_right].
    rewrite ?E2, ?E3, ?E4, ?E5; destruct (raw 0%nat) as [r0|] eqn:E0, (raw 1%nat) as [r1|] eqn:E1; cbn; auto; ring.
Qed.
Lemma reg_left : forall t b i j, (forall k, (k <= 5)%nat -> b k j <> None) -> (i <= 5)%nat ->
  neqv (dot_mm (reg_matrix t) b i j)
    (if Nat.eqb i 4 then nadd (b 4%nat j) (nmul (Some t) (b 5%nat j)) else b i j).
Proof.
  intros t b i j Hf Hi. unfold dot_mm, reg_matrix, ix6. cbn [map nsum fold_right].
  pose proof (Hf 0%nat ltac:(lia)). pose proof (Hf 1%nat ltac:(lia)). pose proof (Hf 2%nat ltac:(lia)).
  pose proof (Hf 3%nat ltac:(lia)). pose proof (Hf 4%nat ltac:(lia)). pose proof (Hf 5%nat ltac:(lia)).
  destruct i as [|[|[|[|[|[|i]]]]]]; try lia; cbn [Nat.eqb andb];
    destruct (b 0%nat j), (b 1%nat j), (b 2%nat j), (b 3%nat j), (b 4%nat j), (b 5%nat j); try congruence; cbn; ring.
Qed.
Lemma reg_right : forall t c i j, (forall k, (k <= 5)%nat -> c i k <> None) -> (j <= 5)%nat ->
  neqv (dot_mm c (transpose (reg_matrix t)) i j)
    (if Nat.eqb j 4 then nadd (c i 4%nat) (nmul (Some t) (c i 5%nat)) else c i j).
Proof.
  intros t c i j Hf Hj. unfold dot_mm, transpose, reg_matrix, ix6. cbn [map nsum fold_right].
  pose proof (Hf 0%nat ltac:(lia)). pose proof (Hf 1%nat ltac:(lia)). pose proof (Hf 2%nat ltac:(lia)).
  pose proof (Hf 3%nat ltac:(lia)). pose proof (Hf 4%nat ltac:(lia)). pose proof (Hf 5%nat ltac:(lia)).
  destruct j as [|[|[|[|[|[|j]]]]]]; try lia; cbn [Nat.eqb andb];
    destruct (c i 0%nat), (c i 1%nat), (c i 2%nat), (c i 3%nat), (c i 4%nat), (c i 5%nat); try congruence; cbn; ring.
Qed.
Lemma reg_cov_vals : forall t cov,
  (forall i j, (i <= 5)%nat -> (j <= 5)%nat -> cov i j <> None) ->
  forall i j, (i <= 5)%nat -> (j <= 5)%nat ->
  let right k := if Nat.eqb j 4 then nadd (cov k 4%nat) (nmul (Some t) (cov k 5%nat)) else cov k j in
  neqv (reg_cov t cov i j)
    (if Nat.eqb i 4 then nadd (right 4%nat) (nmul (Some t) (right 5%nat)) else right i).
Proof.
  intros t cov Hf i j Hi Hj right. unfold reg_cov.
  assert (HR : forall k, (k <= 5)%nat -> neqv (dot_mm cov (transpose (reg_matrix t)) k j) (right k)).
  { intros k Hk. apply reg_right; [|exact Hj]. intros l Hl. apply Hf; assumption. }
  assert (HRf : forall k, (k <= 5)%nat -> right k <> None).
  { intros k Hk. unfold right. pose proof (Hf k 4%nat Hk ltac:(lia)). pose proof (Hf k 5%nat Hk ltac:(lia)). pose proof (Hf k j Hk Hj).
    destruct (Nat.eqb j 4); [|assumption]. destruct (cov k 4%nat), (cov k 5%nat); cbn; congruence. }
  rewrite reg_left; [| |exact Hi].
  - destruct (Nat.eqb i 4).
    + rewrite (HR 4%nat), (HR 5%nat) by lia. reflexivity.
    + apply HR. exact Hi.
  - intros k Hk K. pose proof (HR k Hk) as HK. rewrite K in HK. pose proof (HRf k Hk) as Hn.
    destruct (right k); [contradiction | congruence].
Qed.

Lemma mom_res_flux : forall ng mk to_T qsqrt raw cov fl fv fw fw',
  let m := make_mom_res ng mk to_T qsqrt raw cov fl fv fw in
  let m' := make_mom_res ng mk to_T qsqrt raw cov fl fv fw' in
  m_flux m = m_flux m' /\ m_flux_err m = m_flux_err m' /\ m_s2n m = m_s2n m' /\
  m_T m = m_T m' /\ m_T_err m = m_T_err m' /\ m_T_flags m = m_T_flags m' /\ m_flux m = fl.
Proof.
  intros ng mk to_T qsqrt raw cov fl fv fw fw' m m'. subst m m'. unfold make_mom_res. cbv zeta.
  destruct (negb (Qle_bool fw 0)), (negb (Qle_bool fw' 0)), fv as [v|]; try (destruct (negb (Qle_bool v 0)));
    cbn [m_flux m_flux_err m_s2n m_T m_T_err m_T_flags mo_T mo_T_err mo_T_flags]; repeat split.
Qed.
Lemma mom_res_plain : forall ng mk to_T qsqrt raw cov fl fv fw, (fw <= 0)%Q ->
  let m := make_mom_res ng mk to_T qsqrt raw cov fl fv fw in
  m_e1 m = mo_e1 (mk raw cov) /\ m_e2 m = mo_e2 (mk raw cov) /\ m_ecov m = mo_ecov (mk raw cov).
Proof.
  intros ng mk to_T qsqrt raw cov fl fv fw Hf m. subst m. unfold make_mom_res. cbv zeta.
  apply Qle_bool_iff in Hf. rewrite Hf. cbn [negb].
  destruct fv as [v|]; try (destruct (negb (Qle_bool v 0))); repeat split.
Qed.
Lemma mom_res_reg : forall ng mk to_T qsqrt raw cov fl fv fw, (0 < fw)%Q ->
  let m := make_mom_res ng mk to_T qsqrt raw cov fl fv fw in
  let g := mk (reg_moments (to_T fw) raw) (reg_cov (to_T fw) cov) in
  m_e1 m = mo_e1 g /\ m_e2 m = mo_e2 g /\ m_ecov m = mo_ecov g /\ has_flag (m_flags m) (mo_flags g).
Proof.
  intros ng mk to_T qsqrt raw cov fl fv fw Hf m g. subst m. unfold make_mom_res. cbv zeta.
  assert (Qle_bool fw 0 = false) as -> by (destruct (Qle_bool_dec fw) as [[_ E]|[E _]]; [lra | exact E]).
  cbn [negb]. fold g. assert (Hg : forall b, has_flag (Z.lor (mo_flags g) b) (mo_flags g)) by (intros b k Hk; rewrite Z.lor_spec, Hk; reflexivity).
  destruct (nle0 fl), fv as [v|]; try (destruct (negb (Qle_bool v 0)));
    cbn [m_e1 m_e2 m_ecov m_flags mo_e1 mo_e2 mo_ecov mo_flags]; repeat split; repeat (apply Hg || apply has_flag_lor_l).
Qed.
Lemma mom_res_flags : forall ng mk to_T qsqrt raw cov fl fv fw,
  let m := make_mom_res ng mk to_T qsqrt raw cov fl fv fw in
  (forall q, fl = Some q -> (q <= 0)%Q -> has_flag (m_flags m) (NONPOS_FLUX ng)) /\
  ((forall q, fv = Some q -> (q <= 0)%Q) ->
     has_flag (m_flags m) (NONPOS_VAR ng) /\ has_flag (m_flux_flags m) (NONPOS_VAR ng) /\
     m_flux_err m = None /\ m_s2n m = None) /\
  (forall q, fv = Some q -> (0 < q)%Q -> m_flux_err m = Some (qsqrt q) /\ m_s2n m = ndiv fl (Some (qsqrt q))) /\
  has_flag (m_flags m) (mo_flags (mk raw cov)).
Proof.
  intros ng mk to_T qsqrt raw cov fl fv fw m. subst m. unfold make_mom_res. cbv zeta.
  set (b := if negb (Qle_bool fw 0) then mkMom _ _ _ _ _ _ _ _ else mk raw cov).
  assert (Hb : has_flag (mo_flags b) (mo_flags (mk raw cov))).
  { subst b. destruct (negb (Qle_bool fw 0)); [apply has_flag_lor_r | intros k Hk; exact Hk]. }
  clearbody b. set (f1 := if nle0 fl then _ else _).
  assert (Hf1 : (forall q, fl = Some q -> (q <= 0)%Q -> has_flag f1 (NONPOS_FLUX ng)) /\ has_flag f1 (mo_flags (mk raw cov))).
  { subst f1. split.
    - intros q -> Hq. cbn [nle0]. apply Qle_bool_iff in Hq. rewrite Hq. apply has_flag_lor_r.
    - destruct (nle0 fl); [apply has_flag_lor_l|]; exact Hb. }
  clearbody f1. destruct Hf1 as [Hf1 Hf2].
  destruct fv as [v|]; [destruct (Qle_bool_dec v) as [[E E']|[E E']]; rewrite E; cbn [negb]|];
    cbn [m_flags m_flux_flags m_flux_err m_s2n].
  - repeat split; try reflexivity; try apply has_flag_lor_r; try (apply has_flag_lor_l; exact Hf2).
    + intros q Hq Hle. apply has_flag_lor_l. eapply Hf1; eassumption.
    + apply Some_inj in H. subst q. lra.
    + apply Some_inj in H. subst q. lra.
  - repeat split; try assumption; try (specialize (H v eq_refl); lra).
    + apply Some_inj in H. subst q. reflexivity.
    + apply Some_inj in H. subst q. reflexivity.
  - repeat split; try reflexivity; try apply has_flag_lor_r; try (apply has_flag_lor_l; exact Hf2); try discriminate.
    intros q Hq Hle. apply has_flag_lor_l. eapply Hf1; eassumption.
Qed.
Lemma reg_shape : forall ng mk to_T qsqrt raw cov fl fv fw, (0 < fw)%Q -> mk_shape mk ->
  (forall i, (2 <= i <= 5)%nat -> raw i <> None) ->
  let m := make_mom_res ng mk to_T qsqrt raw cov fl fv fw in
  m_flags m = 0 ->
  neqv (m_e1 m) (ndiv (raw 2%nat) (nadd (raw 4%nat) (nmul (Some (to_T fw)) (raw 5%nat)))) /\
  neqv (m_e2 m) (ndiv (raw 3%nat) (nadd (raw 4%nat) (nmul (Some (to_T fw)) (raw 5%nat)))).
Proof.
  intros ng mk to_T qsqrt raw cov fl fv fw Hf Hsh Hfin m Hm.
  destruct (mom_res_reg ng mk to_T qsqrt raw cov fl fv fw Hf) as (R1 & R2 & _ & R4).
  fold m in R1, R2, R4. pose proof (has_flag_zero _ _ R4 Hm) as Hz.
  destruct (Hsh _ _ Hz) as [S1 S2]. destruct (reg_moments_vals (to_T fw) raw Hfin) as [V1 V2].
  rewrite R1, R2. split; [rewrite S1 | rewrite S2]; apply ndiv_proper; try exact V2; apply V1; lia.
Qed.

(** ** C40 *)
Definition digit (z : Z) : ascii := ascii_of_N (Z.to_N (48 + z)).
Lemma digits_cases : forall z, 0 <= z <= 9 ->
  z = 0 \/ z = 1 \/ z = 2 \/ z = 3 \/ z = 4 \/ z = 5 \/ z = 6 \/ z = 7 \/ z = 8 \/ z = 9.
Proof. intros z Hz. lia. Qed.
Lemma int_str_digit : forall z, 0 <= z <= 9 -> int_str z = String (digit z) EmptyString.
Proof. intros z Hz. destruct (digits_cases z Hz) as [->|[->|[->|[->|[->|[->|[->|[->|[->| ->]]]]]]]]]; reflexivity. Qed.
Lemma digit_inj : forall a b, 0 <= a <= 9 -> 0 <= b <= 9 -> digit a = digit b -> a = b.
Proof.
  intros a b Ha Hb H. unfold digit in H. apply (f_equal N_of_ascii) in H. rewrite !N_ascii_embedding in H by lia. lia.
Qed.
Lemma concat_digits : forall l, (forall z, In z l -> 0 <= z <= 9) ->
  String.concat "" (map int_str l) = string_of_list_ascii (map digit l).
Proof.
  induction l as [|z l IH]; intros H; [reflexivity|]. cbn [map String.concat string_of_list_ascii].
  rewrite (int_str_digit z) by (apply H; left; reflexivity). rewrite <- IH by (intros; apply H; right; assumption).
  destruct (map int_str l) eqn:E; reflexivity.
Qed.
Lemma substring_all : forall s n, (String.length s <= n)%nat -> substring 0 n s = s.
Proof.
  induction s as [|c s IH]; intros n H; [destruct n; reflexivity|]. destruct n; cbn in *; [lia|].
  rewrite IH by lia. reflexivity.
Qed.
Lemma string_of_list_length : forall l, String.length (string_of_list_ascii l) = List.length l.
Proof. induction l; cbn; congruence. Qed.
Lemma zinsert_perm : forall x l, Permutation (x :: l) (zinsert x l).
Proof.
  intros x l. induction l as [|y l IH]; cbn; [apply Permutation_refl|]. destruct (x <=? y); [apply Permutation_refl|].
  eapply Permutation_trans; [apply perm_swap|]. apply perm_skip. exact IH.
Qed.
Lemma zsort_perm : forall l, Permutation l (zsort l).
Proof.
  induction l as [|x l IH]; [apply perm_nil|]. cbn. eapply Permutation_trans; [apply perm_skip; exact IH|]. apply zinsert_perm.
Qed.
Lemma zinsert_comm : forall x y l, zinsert x (zinsert y l) = zinsert y (zinsert x l).
Proof.
  intros x y l. induction l as [|z l IH]; cbn.
  - destruct (x <=? y) eqn:E, (y <=? x) eqn:F; try reflexivity.
    + assert (x = y) by lia. subst. reflexivity.
    + lia.
  - destruct (y <=? z) eqn:E, (x <=? z) eqn:F; cbn; rewrite ?E, ?F.
    + destruct (x <=? y) eqn:G, (y <=? x) eqn:H; try reflexivity; [assert (x = y) by lia; subst; reflexivity | lia].
    + assert (x <=? y = false) as -> by lia. reflexivity.
    + assert (y <=? x = false) as -> by lia. reflexivity.
    + f_equal. exact IH.
Qed.
Lemma zsort_ext : forall l l', Permutation l l' -> zsort l = zsort l'.
Proof.
  intros l l' H. induction H; cbn; [reflexivity | f_equal; assumption | apply zinsert_comm | congruence].
Qed.
Lemma map_inj_in : forall (f : Z -> ascii) l l',
  (forall a b, In a l -> In b l' -> f a = f b -> a = b) -> map f l = map f l' -> l = l'.
Proof.
  intros f l. induction l as [|a l IH]; intros [|b l'] Hf H; cbn in H; try discriminate; [reflexivity|].
  injection H as H1 H2. f_equal; [apply Hf; [left; reflexivity | left; reflexivity | exact H1]|].
  apply IH; [|exact H2]. intros x y Hx Hy. apply Hf; right; assumption.
Qed.
Lemma label_digits : forall l l', (List.length l <= 6)%nat -> (List.length l' <= 6)%nat ->
  (forall z, In z l -> 0 <= z <= 9) -> (forall z, In z l' -> 0 <= z <= 9) ->
  (band_label l = band_label l' <-> Permutation l l').
Proof.
  intros l l' H6 H6' Hd Hd'. unfold band_label.
  assert (Hs : forall z, In z (zsort l) -> 0 <= z <= 9)
    by (intros z Hz; apply Hd; eapply Permutation_in; [apply Permutation_sym, zsort_perm | exact Hz]).
  assert (Hs' : forall z, In z (zsort l') -> 0 <= z <= 9)
    by (intros z Hz; apply Hd'; eapply Permutation_in; [apply Permutation_sym, zsort_perm | exact Hz]).
  rewrite !concat_digits by assumption.
  pose proof (Permutation_length (zsort_perm l)) as L. pose proof (Permutation_length (zsort_perm l')) as L'.
  rewrite !substring_all by (rewrite string_of_list_length, map_length; lia).
  split.
  - intros H. apply (f_equal list_ascii_of_string) in H. rewrite !list_ascii_of_string_of_list_ascii in H.
    assert (E : zsort l = zsort l').
    { apply (map_inj_in digit); [|exact H]. intros a b Ha Hb. apply digit_inj; auto. }
    eapply Permutation_trans; [apply zsort_perm|]. rewrite E. apply Permutation_sym, zsort_perm.
  - intros H. rewrite (zsort_ext _ _ H). reflexivity.
Qed.
Lemma wavg_label : forall ng mk to_T qsqrt mbobs ft bm sb fw sym r,
  fit_mbobs_wavg ng mk to_T qsqrt mbobs ft bm sb fw sym = Ok r ->
  o_shear_bands r = band_label (the_shear_bands mbobs sb) /\ (List.length (the_shear_bands mbobs sb) <= 6)%nat.
Proof.
  intros ng mk to_T qsqrt mbobs ft bm sb fw sym r H.
  destruct (fit_mbobs_as_bands _ _ _ _ _ _ _ _ _ _ _ H) as (fits & _ & _ & Hc).
  rewrite combine_bands_eq in Hc. destruct (zlen _ <=? MAX_NUM_SHEAR_BANDS) eqn:E; [|discriminate].
  apply Z.leb_le in E. unfold zlen, MAX_NUM_SHEAR_BANDS in E. split; [|lia].
  destruct (existsb j_is _); apply Ok_inj in Hc; subst r; reflexivity.
Qed.

Lemma star_shape : forall ng mk to_T qsqrt js sb fw r, (fw <= 0)%Q ->
  mk_shape mk -> combine_bands ng mk to_T qsqrt js sb fw = Ok r -> o_obj_flags r = 0 ->
  (forall j, In j js -> j_is j = true -> star_band j) ->
  neqv (fst (o_psf_g r)) (fst (o_g r)) /\ neqv (snd (o_psf_g r)) (snd (o_g r)).
Proof.
  intros ng mk to_T qsqrt js sb fw r Hfw Hsh H H0 Hst.
  destruct (clean_obj _ _ _ _ _ _ _ _ H H0) as (_ & _ & _ & _ & _ & _ & Hc).
  destruct (clean_columns _ _ _ _ _ _ _ _ H H0) as (raw & cov & fl & fv & praw & pcov & pfl & pfv & D).
  cbv zeta in D. destruct D as (Eraw & _ & _ & _ & Epraw & Hm & Hp & Dg & _ & _ & _ & _ & _ & Dpg & _).
  pose proof (star_moments js Hc Hst) as Hmom. rewrite <- Eraw, <- Epraw in Hmom. clear Eraw Epraw.
  destruct (mom_res_T ng mk to_T qsqrt raw cov fl fv fw) as (_ & _ & _ & T4).
  destruct (mom_res_T ng mk to_T qsqrt praw pcov pfl pfv 0) as (_ & _ & _ & P4).
  destruct (mom_res_plain ng mk to_T qsqrt raw cov fl fv fw Hfw) as (A1 & A2 & _).
  destruct (mom_res_plain ng mk to_T qsqrt praw pcov pfl pfv 0 ltac:(lra)) as (B1 & B2 & _).
  rewrite Dg, Dpg. cbn [fst snd]. rewrite A1, A2, B1, B2.
  destruct (Hsh _ _ (T4 Hm)) as [S1 S2]. destruct (Hsh _ _ (P4 Hp)) as [S3 S4].
  rewrite S1, S2, S3, S4. split; apply ndiv_proper; apply Hmom.
Qed.

(** ** C83 *)
Lemma has_flag_refl : forall a, has_flag a a. Proof. intros a k Hk; exact Hk. Qed.
Lemma has_flag_trans : forall a b c, has_flag a b -> has_flag b c -> has_flag a c.
Proof. intros a b c H1 H2 k Hk. apply H1, H2, Hk. Qed.
Lemma has_flag_zor : forall l x, In x l -> has_flag (zor l) x.
Proof.
  induction l as [|y l IH]; intros x Hx; [destruct Hx|]. rewrite zor_cons. destruct Hx as [->|Hx].
  - apply has_flag_lor_l, has_flag_refl.
  - rewrite Z.lor_comm. apply has_flag_lor_l. apply IH. exact Hx.
Qed.
Lemma has_flag_sum : forall w bands b, In b bands -> b_issb b = true ->
  has_flag (s_flags (sum_bands_wavg w bands)) (band_flag w b).
Proof.
  intros w bands b Hb Hi. destruct (sum_bands_closed w bands) as (_ & _ & _ & -> & _).
  apply has_flag_lor_l. apply has_flag_zor. apply in_map. apply filter_In. split; assumption.
Qed.
Lemma has_flag_comb : forall js s, has_flag (comb_flags js s) (s_flags s).
Proof. intros js s. unfold comb_flags. destruct (differ js); [apply has_flag_lor_l|]; apply has_flag_refl. Qed.

(** The object columns and the size ratio of the finished row. *)
Lemma finish_cols : forall ng mk to_T qsqrt n sb k mf pf sd pd fw bf be ff r,
  r = finish_row ng mk to_T qsqrt (row0 ng n sb) k mf pf sd pd fw bf be ff ->
  (mf <> 0 -> no_measurement r) /\
  (o_psf_flags r <> 0 -> o_T_ratio r = None) /\
  (mf = 0 -> o_psf_flags r = 0 -> o_T_ratio r = ndiv (o_T r) (o_psf_T r)) /\
  (k <> O -> o_band_flux r = bf /\ o_band_flux_err r = be /\ o_band_flux_flags r = ff) /\
  (pf <> 0 -> o_psf_g r = (None, None) /\ o_psf_T r = None).
Proof.
  intros ng mk to_T qsqrt n sb k mf pf sd pd fw bf be ff r ->. unfold finish_row, no_measurement, row0, nan2.
  cbv zeta. cbn [o_psf_flags o_obj_flags o_flags o_band_flux_flags o_band_flux o_band_flux_err o_s2n o_g o_g_cov
    o_T o_T_flags o_T_err o_T_ratio o_psf_T o_psf_g].
  set (pr := if pf =? 0 then Some _ else None).
  set (pf' := match pr with Some _ => _ | None => pf end).
  split; [|split; [|split; [|split]]].
  - intros Hm. apply Z.eqb_neq in Hm. rewrite Hm. repeat split; reflexivity.
  - intros Hp. apply Z.eqb_neq in Hp. rewrite Hp. destruct (mf =? 0); reflexivity.
  - intros -> Hp. cbn [Z.eqb]. rewrite Hp. cbn [Z.eqb]. reflexivity.
  - intros Hk. destruct k; [congruence | repeat split; reflexivity].
  - intros Hp. subst pr. apply Z.eqb_neq in Hp. rewrite Hp. split; reflexivity.
Qed.

Lemma combine_ratio : forall ng mk to_T qsqrt res psf issb wg fl sb fw r,
  combine_fit_results_wavg ng mk to_T qsqrt res psf issb wg fl sb fw = Ok r ->
  (o_psf_flags r <> 0 -> o_T_ratio r = None) /\
  (o_obj_flags r = 0 -> o_T_ratio r = ndiv (o_T r) (o_psf_T r)).
Proof.
  intros ng mk to_T qsqrt res psf issb wg fl sb fw r H.
  assert (Hfin : exists n k mf pf sd pd bf be ff,
    r = finish_row ng mk to_T qsqrt (row0 ng n sb) k mf pf sd pd fw bf be ff).
  { unfold combine_fit_results_wavg, get_wavg_output_struct in H.
    destruct (zlen sb <=? MAX_NUM_SHEAR_BANDS); cbn [obind] in H; [|discriminate].
    destruct (Nat.eqb (List.length res) 0 || _ || _ || _); apply Ok_inj in H; subst r;
      do 9 eexists; unfold row0; reflexivity. }
  destruct Hfin as (n & k & mf & pf & sd & pd & bf & be & ff & Hr).
  destruct (finish_cols _ _ _ _ _ _ _ _ _ _ _ _ _ _ _ _ Hr) as (_ & C2 & C3 & _).
  apply finish_flags in Hr. destruct Hr as (F1 & _ & F3 & _).
  split; [exact C2|]. intros Ho. apply C3; [exact (has_flag_zero _ _ F3 Ho)|].
  destruct (Z.eq_dec (o_psf_flags r) 0) as [E|E]; [exact E|]. exfalso.
  exact (flag_value_nonzero _ (has_flag_zero _ _ (F1 E) Ho)).
Qed.

Lemma nth_mk_bands : forall sb fits n k f, List.length fits = n -> nth_error fits k = Some f ->
  nth_error (mk_bands sb fits (zrange (Z.of_nat n))) k =
  Some (mkBand (bf_wgt f) (bf_obj f) (bf_psf f) (existsb (Z.eqb (Z.of_nat k)) sb) (bf_flags f)).
Proof.
  intros sb fits n k f Hl Hn. unfold mk_bands.
  assert (Hk : (k < n)%nat) by (rewrite <- Hl; apply nth_error_Some; congruence).
  assert (Hz : nth_error (zrange (Z.of_nat n)) k = Some (Z.of_nat k)).
  { unfold zrange, zrange2. rewrite (map_nth_error _ _ _ (d := k)).
    - f_equal.
    - rewrite (nth_error_nth' _ 0%nat) by (rewrite seq_length; lia). rewrite seq_nth by lia. f_equal. }
  rewrite (map_nth_error _ _ _ (d := (f, Z.of_nat k))); [reflexivity|].
  clear Hl Hk. revert Hz Hn. generalize (zrange (Z.of_nat n)) as idx. generalize (Z.of_nat k) as z. intros z idx. revert fits idx.
  induction k as [|k IH]; intros [|x fits] [|y idx] Hz Hn; cbn in *; try discriminate; [congruence|].
  apply IH; assumption.
Qed.

(** What the per band fit returns. *)
Lemma obslist_problem : forall bm sym ol fl ft f, band_problem bm sym ol fl -> fit_obslist ol ft bm sym = Ok f ->
  has_flag (bf_flags f) fl /\ bf_obj f = None /\ bf_psf f = None.
Proof.
  assert (Hso : forall (sym : bool) o o', fitted_obs sym o o' -> (if sym then symmetrize_obs_weights o else Ok o) = Ok o').
  { intros [] o o' H; unfold fitted_obs in H; [exact H | congruence]. }
  intros bm sym ol fl ft f Hp H. destruct Hp as [|o rest o' Hf Hw|o rest o' b i j Hf Hb Hi Hm]; cbn [fit_obslist] in H.
  - apply Ok_inj in H. subst f. repeat split; try reflexivity. apply has_flag_refl.
  - unfold fit_obs in H. rewrite (Hso _ _ _ Hf) in H. cbn [obind] in H. destruct (f_bmask o') as [b|]; [|discriminate].
    assert (Ea : any_pixel qpos (f_weight o') = false).
    { apply not_true_iff_false. intros Ea. apply Hw. apply any_pixel_spec in Ea. destruct Ea as (i & j & Hi & Hq).
      exists i, j. split; [exact Hi|]. apply qpos_iff. exact Hq. }
    rewrite Ea in H. cbn [negb] in H.
    match type of H with context [negb (?x =? 0)] => set (f2 := x) in * end.
    assert (Hf2 : has_flag f2 (flag_value ZERO_WEIGHTS)).
    { subst f2. destruct (any_pixel _ b); [apply has_flag_lor_l|]; apply has_flag_refl. }
    assert (Hn : f2 <> 0) by exact (has_flag_nonzero _ _ Hf2). apply Z.eqb_neq in Hn. rewrite Hn in H. cbn [negb] in H.
    apply Ok_inj in H. subst f. cbn [bf_flags bf_obj bf_psf]. repeat split; try reflexivity. exact Hf2.
  - unfold fit_obs in H. rewrite (Hso _ _ _ Hf) in H. cbn [obind] in H. rewrite Hb in H.
    assert (Em : any_pixel (fun v => negb (Z.land v bm =? 0)) b = true).
    { apply any_pixel_spec. exists i, j. split; [exact Hi|]. apply negb_true_iff, Z.eqb_neq. exact Hm. }
    rewrite Em in H.
    match type of H with context [negb (?x =? 0)] => set (f2 := x) in * end.
    assert (Hf2 : has_flag f2 (flag_value EDGE_HIT)) by (subst f2; apply has_flag_lor_r).
    assert (Hn : f2 <> 0) by exact (has_flag_nonzero _ _ Hf2). apply Z.eqb_neq in Hn. rewrite Hn in H. cbn [negb] in H.
    apply Ok_inj in H. subst f. cbn [bf_flags bf_obj bf_psf]. repeat split; try reflexivity. exact Hf2.
Qed.
Lemma obslist_fit : forall bm sym o rest o' ft f, (forall fl, ~ band_problem bm sym (o :: rest) fl) ->
  fitted_obs sym o o' -> fit_obslist (o :: rest) ft bm sym = Ok f ->
  exists fr p pr w, k_go ft o' = Ok fr /\ f_psf o' = Some p /\ k_go_psf ft p = Ok pr /\
    positive_median (f_weight o') w /\ (0 < w)%Q /\ f = mkBandfit 0 w (Some fr) (Some pr).
Proof.
  intros bm sym o rest o' ft f Hno Hf H. cbn [fit_obslist] in H. unfold fit_obs in H.
  assert (Hs : (if sym then symmetrize_obs_weights o else Ok o) = Ok o')
    by (destruct sym; unfold fitted_obs in Hf; [exact Hf | congruence]).
  rewrite Hs in H. cbn [obind] in H. destruct (f_bmask o') as [b|] eqn:Eb; [|discriminate].
  assert (Ea : any_pixel qpos (f_weight o') = true).
  { destruct (any_pixel qpos (f_weight o')) eqn:Ea; [reflexivity|]. exfalso.
    apply (Hno (flag_value ZERO_WEIGHTS)). apply no_weight with o'; [exact Hf|]. intros (i & j & Hi & Hq).
    apply not_true_iff_false in Ea. apply Ea. apply any_pixel_spec. exists i, j. split; [exact Hi | apply qpos_iff; exact Hq]. }
  rewrite Ea in H. cbn [negb] in H.
  destruct (any_pixel (fun v => negb (Z.land v bm =? 0)) b) eqn:Em.
  { exfalso. apply any_pixel_spec in Em. destruct Em as (i & j & Hi & Hm). apply negb_true_iff, Z.eqb_neq in Hm.
    apply (Hno (flag_value EDGE_HIT)). exact (masked_pixel _ _ _ _ _ _ _ _ Hf Eb Hi Hm). }
  cbn [Z.eqb negb] in H.
  destruct (k_go ft o') as [fr|] eqn:Eg; cbn [obind] in H; [|discriminate].
  destruct (f_psf o') as [p|] eqn:Ep; [|discriminate].
  destruct (k_go_psf ft p) as [pr|] eqn:Egp; cbn [obind] in H; [|discriminate].
  assert (Hpos : has_positive (f_weight o')).
  { apply any_pixel_spec in Ea. destruct Ea as (i & j & Hi & Hq). exists i, j. split; [exact Hi|]. apply qpos_iff. exact Hq. }
  destruct (proj1 (has_positive_median _) Hpos) as [m Hm]. rewrite Hm in H. apply Ok_inj in H.
  exists fr, p, pr, m. repeat split; try reflexivity; [exact Egp | apply positive_of_median; exact Hm | apply (positive_of_median _ _ Hm) | congruence].
Qed.

Lemma wavg_rows_bands : forall ng mk to_T qsqrt mbobs ft bm sb fw sym r b0 k ol,
  fit_mbobs_wavg ng mk to_T qsqrt mbobs ft bm sb fw sym = Ok r ->
  0 <= b0 < zlen mbobs -> In b0 (the_shear_bands mbobs sb) -> nth_error mbobs k = Some ol ->
  exists f js, fit_obslist ol ft bm sym = Ok f /\
    nth_error js k = Some (mkBand (bf_wgt f) (bf_obj f) (bf_psf f)
      (existsb (Z.eqb (Z.of_nat k)) (the_shear_bands mbobs sb)) (bf_flags f)) /\
    r = finish_row ng mk to_T qsqrt (row0 ng (List.length js) (the_shear_bands mbobs sb)) (List.length js)
            (comb_flags js (sum_obj js)) (comb_flags js (sum_psf js)) (sum_obj js) (sum_psf js) fw
            (map (fun c => fst (fst c)) (flux_cols js)) (map (fun c => snd (fst c)) (flux_cols js))
            (map snd (flux_cols js)).
Proof.
  intros ng mk to_T qsqrt mbobs ft bm sb fw sym r b0 k ol H Hb0 Hin Hk.
  destruct (fit_mbobs_as_bands _ _ _ _ _ _ _ _ _ _ _ H) as (fits & Hf & Hl & Hc).
  set (s := the_shear_bands mbobs sb) in *. clearbody s.
  destruct (forall2_nth _ _ _ _ _ _ _ (omap_ok_Forall2 _ _ _ _ _ Hf) Hk) as (f & Hfn & Hfo).
  exists f, (mk_bands s fits (zrange (zlen mbobs))). split; [exact Hfo|].
  split; [unfold zlen; rewrite <- Hl; apply nth_mk_bands; [reflexivity | exact Hfn]|].
  rewrite combine_bands_eq in Hc. destruct (zlen s <=? MAX_NUM_SHEAR_BANDS); [|discriminate].
  assert (He : existsb j_is (mk_bands s fits (zrange (zlen mbobs))) = true).
  { apply existsb_is. assert (Hn : exists g, nth_error fits (Z.to_nat b0) = Some g).
    { destruct (nth_error fits (Z.to_nat b0)) as [g|] eqn:E; [eauto|]. apply nth_error_None in E.
      unfold zlen in Hb0. lia. }
    destruct Hn as [g Hg]. eexists. split.
    - apply nth_error_In with (Z.to_nat b0). unfold zlen. rewrite <- Hl. apply nth_mk_bands; [reflexivity | exact Hg].
    - cbn [j_is]. apply existsb_exists. exists b0. split; [exact Hin|]. apply Z.eqb_eq. lia. }
  rewrite He in Hc. apply Ok_inj in Hc. symmetry. exact Hc.
Qed.
Lemma flux_cols_nth : forall js k j, nth_error js k = Some j ->
  nth_error (map (fun c => fst (fst c)) (flux_cols js)) k = Some (fst (fst (band_flux_cols (j_res j) (j_flags j)))) /\
  nth_error (map (fun c => snd (fst c)) (flux_cols js)) k = Some (snd (fst (band_flux_cols (j_res j) (j_flags j)))) /\
  nth_error (map snd (flux_cols js)) k = Some (snd (band_flux_cols (j_res j) (j_flags j))).
Proof.
  intros js k j H. unfold flux_cols. rewrite !map_map.
  repeat split; (erewrite map_nth_error; [reflexivity | exact H]).
Qed.

Lemma wavg_problem : forall ng mk to_T qsqrt mbobs ft bm sb fw sym r b0 k ol fl,
  fit_mbobs_wavg ng mk to_T qsqrt mbobs ft bm sb fw sym = Ok r ->
  0 <= b0 < zlen mbobs -> In b0 (the_shear_bands mbobs sb) -> nth_error mbobs k = Some ol ->
  band_problem bm sym ol fl ->
  (exists v, band_cols r k None None v /\ has_flag v fl) /\ has_flag (o_flags r) fl /\
  (In (Z.of_nat k) (the_shear_bands mbobs sb) ->
     has_flag (o_obj_flags r) fl /\ has_flag (o_psf_flags r) fl /\ no_measurement r /\
     o_psf_g r = (None, None) /\ o_psf_T r = None).
Proof.
  intros ng mk to_T qsqrt mbobs ft bm sb fw sym r b0 k ol fl H Hb0 Hin Hk Hp.
  destruct (wavg_rows_bands _ _ _ _ _ _ _ _ _ _ _ _ _ _ H Hb0 Hin Hk) as (f & js & Hfo & Hj & Hr).
  destruct (obslist_problem _ _ _ _ _ _ Hp Hfo) as (Ff & Fo & Fp).
  destruct (finish_cols _ _ _ _ _ _ _ _ _ _ _ _ _ _ _ _ Hr) as (C1 & C2 & C3 & C4 & C5).
  destruct (finish_flags _ _ _ _ _ _ _ _ _ _ _ _ _ _ _ Hr) as (_ & F2 & F3 & F4 & _).
  assert (Hne : List.length js <> O) by (intros K; apply length_zero_iff_nil in K; subst js; destruct k; discriminate).
  destruct (C4 Hne) as (B1 & B2 & B3). destruct (flux_cols_nth _ _ _ Hj) as (N1 & N2 & N3).
  rewrite <- B1 in N1. rewrite <- B2 in N2. rewrite <- B3 in N3. cbn [j_res j_flags] in N1, N2, N3. rewrite Fo in N1, N2, N3.
  cbn [band_flux_cols fst snd] in N1, N2, N3.
  assert (Hv : has_flag (Z.lor (bf_flags f) (flag_value MISSING_BAND)) fl) by (apply has_flag_lor_l; exact Ff).
  split; [eexists; split; [repeat split; eassumption | exact Hv]|].
  split.
  { rewrite F2, Z.lor_comm. apply has_flag_lor_l. eapply has_flag_trans; [|exact Hv]. apply has_flag_zor.
    rewrite <- B3. exact (nth_error_In _ _ N3). }
  intros Hsb. assert (Hib : existsb (Z.eqb (Z.of_nat k)) (the_shear_bands mbobs sb) = true)
    by (apply existsb_exists; exists (Z.of_nat k); split; [exact Hsb | apply Z.eqb_refl]).
  rewrite Hib in Hj. apply nth_error_In in Hj.
  assert (Hbf : forall w b, b_flags b = bf_flags f -> has_flag (band_flag w b) fl).
  { intros w b Hb. unfold band_flag. apply has_flag_lor_l, has_flag_lor_l, has_flag_lor_l. rewrite Hb. exact Ff. }
  assert (Ho : has_flag (comb_flags js (sum_obj js)) fl).
  { eapply has_flag_trans; [apply has_flag_comb|]. eapply has_flag_trans; [apply has_flag_sum; [apply in_map; exact Hj | reflexivity]|].
    apply Hbf. reflexivity. }
  assert (Hq : has_flag (comb_flags js (sum_psf js)) fl).
  { eapply has_flag_trans; [apply has_flag_comb|]. eapply has_flag_trans; [apply has_flag_sum; [apply in_map; exact Hj | reflexivity]|].
    apply Hbf. reflexivity. }
  assert (Hfl : fl <> 0) by (destruct Hp; apply flag_value_nonzero).
  split; [exact (has_flag_trans _ _ _ F3 Ho)|]. split; [exact (has_flag_trans _ _ _ F4 Hq)|].
  split; [apply C1; intros K; exact (Hfl (has_flag_zero _ _ Ho K))|].
  apply C5. intros K. exact (Hfl (has_flag_zero _ _ Hq K)).
Qed.

Lemma wavg_band_fluxes : forall ng mk to_T qsqrt mbobs ft bm sb fw sym r b0 k o rest o',
  fit_mbobs_wavg ng mk to_T qsqrt mbobs ft bm sb fw sym = Ok r ->
  0 <= b0 < zlen mbobs -> In b0 (the_shear_bands mbobs sb) -> nth_error mbobs k = Some (o :: rest) ->
  (forall fl, ~ band_problem bm sym (o :: rest) fl) -> fitted_obs sym o o' ->
  exists fr, k_go ft o' = Ok fr /\
    match r_flux fr, r_flux_err fr, r_flux_flags fr with
    | Some x, Some e, Some v => band_cols r k x e v
    | _, _, _ => band_cols r k None None (flag_value NOMOMENTS_FAILURE)
    end.
Proof.
  intros ng mk to_T qsqrt mbobs ft bm sb fw sym r b0 k o rest o' H Hb0 Hin Hk Hno Hf.
  destruct (wavg_rows_bands _ _ _ _ _ _ _ _ _ _ _ _ _ _ H Hb0 Hin Hk) as (f & js & Hfo & Hj & Hr).
  destruct (obslist_fit _ _ _ _ _ _ _ Hno Hf Hfo) as (fr & p & pr & w & Hg & _ & _ & _ & _ & ->).
  exists fr. split; [exact Hg|].
  destruct (finish_cols _ _ _ _ _ _ _ _ _ _ _ _ _ _ _ _ Hr) as (C1 & C2 & C3 & C4 & C5).
  assert (Hne : List.length js <> O) by (intros K; apply length_zero_iff_nil in K; subst js; destruct k; discriminate).
  destruct (C4 Hne) as (B1 & B2 & B3). destruct (flux_cols_nth _ _ _ Hj) as (N1 & N2 & N3).
  rewrite <- B1 in N1. rewrite <- B2 in N2. rewrite <- B3 in N3. cbn [j_res j_flags bf_obj bf_flags] in N1, N2, N3.
  destruct fr as [a b c d e g h]. cbn [r_flux r_flux_err r_flux_flags].
  destruct e as [e|]; [|split; [exact N1 | split; [exact N2 | exact N3]]].
  destruct g as [g|]; [|split; [exact N1 | split; [exact N2 | exact N3]]].
  destruct h as [h|]; [|split; [exact N1 | split; [exact N2 | exact N3]]].
  split; [exact N1 | split; [exact N2 | exact N3]].
Qed.

Lemma zero_norm_flag : forall ng mk to_T qsqrt js sb fw r j p fr mp mo,
  combine_bands ng mk to_T qsqrt js sb fw = Ok r -> In j js -> j_is j = true ->
  j_res j = Some fr -> j_psf j = Some p -> r_mom fr = Some mo -> r_mom p = Some mp ->
  (exists q, mp 5%nat = Some q /\ (q == 0)%Q) \/
  (exists no np, r_norm fr = Some (Some no) /\ r_norm p = Some (Some np) /\ (no == 0)%Q) ->
  has_flag (o_psf_flags r) (flag_value ZERO_WEIGHTS) /\ has_flag (o_obj_flags r) (flag_value PSF_FAILURE).
Proof.
  intros ng mk to_T qsqrt js sb fw r j p fr mp mo H Hj Hi Hres Hpsf Hmo Hmp Hz.
  assert (Hpf : has_flag (o_psf_flags r) (flag_value ZERO_WEIGHTS)).
  { rewrite combine_bands_eq in H. destruct (zlen sb <=? MAX_NUM_SHEAR_BANDS); [|discriminate].
    assert (He : existsb j_is js = true) by (apply existsb_is; exists j; split; assumption).
    rewrite He in H. apply Ok_inj in H. symmetry in H. apply finish_flags in H. destruct H as (_ & _ & _ & F4 & _).
    eapply has_flag_trans; [exact F4|]. eapply has_flag_trans; [apply has_flag_comb|].
    eapply has_flag_trans; [apply has_flag_sum; [apply in_map; exact Hj | exact Hi]|].
    unfold band_flag. apply has_flag_lor_l. rewrite Z.lor_comm. apply has_flag_lor_l.
    unfold flux_mom_ratio, psf_band. cbn [b_wres b_res]. rewrite Hres, Hpsf, Hmp, Hmo.
    destruct (nne0 (mp 5%nat)) eqn:En; [|apply has_flag_refl].
    destruct Hz as [(q & Hq & Hq0)|(no & np & Hno & Hnp & Hn0)].
    - exfalso. rewrite Hq in En. cbn [nne0] in En. apply negb_true_iff in En. apply Qeq_bool_iff in Hq0. congruence.
    - unfold finite_norm. rewrite Hno, Hnp. apply Qeq_bool_iff in Hn0. rewrite Hn0. apply has_flag_refl. }
  split; [exact Hpf|]. destruct (combine_flags _ _ _ _ _ _ _ _ _ _ _ _ H) as [F _]. apply F.
  exact (has_flag_nonzero _ _ Hpf).
Qed.

(** ** The shear bands that do not exist *)
Lemma finish_label : forall ng mk to_T qsqrt d0 d0' n mf pf sd pd fw bf be ff,
  row_but_label d0 d0' ->
  row_but_label (finish_row ng mk to_T qsqrt d0 n mf pf sd pd fw bf be ff) (finish_row ng mk to_T qsqrt d0' n mf pf sd pd fw bf be ff).
Proof.
  intros ng mk to_T qsqrt d0 d0' n mf pf sd pd fw bf be ff (E1 & E2 & E3 & E4 & E5 & E6 & E7 & E8 & E9 & E10 & E11 & E12 & E13 & E14 & E15).
  unfold row_but_label, finish_row. cbn [o_flags o_psf_flags o_psf_g o_psf_T o_obj_flags o_s2n o_g o_g_cov o_T o_T_flags o_T_err o_T_ratio o_band_flux_flags o_band_flux o_band_flux_err].
  rewrite E3, E4, E6, E7, E8, E9, E10, E11, E12, E14, E15. repeat split; reflexivity.
Qed.
Lemma wavg_ignores : forall ng mk to_T qsqrt mbobs ft bm sb sb' fw sym r,
  fit_mbobs_wavg ng mk to_T qsqrt mbobs ft bm (Some sb) fw sym = Ok r ->
  (List.length sb' <= 6)%nat -> (forall b, 0 <= b < zlen mbobs -> (In b sb <-> In b sb')) ->
  exists r', fit_mbobs_wavg ng mk to_T qsqrt mbobs ft bm (Some sb') fw sym = Ok r' /\ row_but_label r r' /\ o_shear_bands r' = band_label sb'.
Proof.
  intros ng mk to_T qsqrt mbobs ft bm sb sb' fw sym r H L Hs. unfold fit_mbobs_wavg in *.
  assert (E : map (fun b => existsb (Z.eqb b) sb) (zrange (zlen mbobs)) = map (fun b => existsb (Z.eqb b) sb') (zrange (zlen mbobs))).
  { apply map_ext_in. intros b Hb. apply in_zrange in Hb. apply eq_true_iff_eq. rewrite !existsb_exists.
    split; intros (x & Hx & Ex); apply Z.eqb_eq in Ex; subst x; exists b; (split; [apply (Hs b Hb); exact Hx|apply Z.eqb_refl]). }
  rewrite E in H. clear E. destruct (String.eqb (k_kind ft) "am" && negb (Nat.eqb (List.length mbobs) 1)); [discriminate H|].
  destruct (omap _ mbobs) as [fits|] eqn:Ef; cbn [obind] in *; [|discriminate H].
  assert (O : omap (fun ol => fit_obslist ol ft bm sym) mbobs = Ok fits) by exact Ef.
  unfold combine_fit_results_wavg in *. cbv zeta in *.
  unfold get_wavg_output_struct in *. destruct (zlen sb <=? MAX_NUM_SHEAR_BANDS); [|discriminate H].
  assert (L' : zlen sb' <=? MAX_NUM_SHEAR_BANDS = true) by (unfold zlen, MAX_NUM_SHEAR_BANDS; apply Z.leb_le; lia). rewrite L'. cbn [obind] in *.
  match goal with |- context [if ?c then _ else _] => destruct c eqn:C end;
    apply Ok_inj in H; subst r; (eexists; split; [reflexivity|]; split; [|reflexivity]; apply finish_label; repeat split; reflexivity).
Qed.
