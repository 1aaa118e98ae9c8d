From Coq Require Import ZArith QArith List Bool Lia Lqa.
From Verif Require Import Base Arr Median Nan_model Nan_spec.
From Verif Require Detect_model Detect_spec Detect_proofs Coadd_model Coadd_spec Coadd_proofs Lexp_model Lexp_spec Lexp_proofs Lmdet_model Lmdet_proofs.
Import ListNotations.
Local Open Scope Z_scope.

(** ** Numbers *)
Lemma is_finite : forall x q, is x q -> finite x.
Proof. intros x q (p & -> & _). now exists p. Qed.
Lemma is_clean : forall x, finite x -> is x (clean x).
Proof. intros x [q ->]. exists q. split; reflexivity. Qed.
Lemma is_eq : forall x p q, is x p -> (p == q)%Q -> is x q.
Proof. intros x p q (r & -> & H) E. exists r. split; [reflexivity|now rewrite H]. Qed.
Lemma is_add : forall a b p q, is a p -> is b q -> is (xadd a b) (p + q)%Q.
Proof. intros a b p q (x & -> & H) (y & -> & H'). exists (x + y)%Q. split; [reflexivity|now rewrite H, H']. Qed.
Lemma is_mul : forall a b p q, is a p -> is b q -> is (xmul a b) (p * q)%Q.
Proof. intros a b p q (x & -> & H) (y & -> & H'). exists (x * y)%Q. split; [reflexivity|now rewrite H, H']. Qed.
Lemma pos_not_zero : forall q, (0 < q)%Q -> Qeq_bool q 0 = false.
Proof. intros q H. destruct (Qeq_bool q 0) eqn:E; [apply Qeq_bool_iff in E; rewrite E in H; now apply Qlt_irrefl in H|reflexivity]. Qed.
Lemma is_div : forall a b p q, is a p -> is b q -> (0 < q)%Q -> is (xdiv a b) (p / q)%Q.
Proof.
  intros a b p q (x & -> & H) (y & -> & H') P. cbn [xdiv]. rewrite pos_not_zero by now rewrite H'.
  exists (x / y)%Q. split; [reflexivity|now rewrite H, H'].
Qed.
Lemma is_one : is one 1. Proof. exists 1%Q. split; reflexivity. Qed.
Lemma not_finite : forall x, ~ finite x <-> xfin x = false.
Proof.
  intros [q|s|]; cbn; split; intro H; try reflexivity; try discriminate.
  - exfalso. apply H. now exists q.
  - intros [q E]. discriminate.
  - intros [q E]. discriminate.
Qed.
Lemma finite_fin : forall x, finite x <-> xfin x = true.
Proof. intros [q|s|]; cbn; split; intro H; try reflexivity; try discriminate; try (now exists q); destruct H as [q E]; discriminate. Qed.
Lemma add_finite : forall a b, finite (xadd a b) <-> finite a /\ finite b.
Proof. intros a b. rewrite !finite_fin. destruct a as [p|s|], b as [q|t|]; cbn; try destruct (Bool.eqb s t); cbn; intuition discriminate. Qed.
Lemma mul_finite : forall a q, finite (xmul a (Fin q)) <-> finite a.
Proof. intros a q. rewrite !finite_fin. destruct a as [p|s|]; cbn; try destruct (Qeq_bool q 0); cbn; intuition discriminate. Qed.
Lemma mul_finite_l : forall a q, finite (xmul (Fin q) a) <-> finite a.
Proof. intros a q. rewrite !finite_fin. destruct a as [p|s|]; cbn; try destruct (Qeq_bool q 0); cbn; intuition discriminate. Qed.
Lemma xpos_positive : forall x, xpos x = true <-> positive x.
Proof.
  intros [q|[|]|]; cbn; unfold positive; split; intro H; try reflexivity; try discriminate; try (now left);
    try (destruct H as [H|(p & H & _)]; discriminate).
  - right. exists q. split; [reflexivity|]. now apply negb_true_iff, Detect_proofs.Qle_bool_false in H.
  - apply negb_true_iff, Detect_proofs.Qle_bool_false. destruct H as [H|(p & H & P)]; [discriminate|]. now injection H as ->.
Qed.
Lemma is_pos : forall x q, is x q -> (xpos x = true <-> (0 < q)%Q).
Proof. intros x q (p & -> & H). cbn. rewrite negb_true_iff, Detect_proofs.Qle_bool_false. now rewrite H. Qed.
Lemma NaN_add_l : forall a, xadd NaN a = NaN. Proof. now intros []. Qed.
Lemma NaN_add_r : forall a, xadd a NaN = NaN. Proof. now intros []. Qed.
Lemma NaN_mul_r : forall a, xmul a NaN = NaN. Proof. now intros []. Qed.
Lemma NaN_div_r : forall a, xdiv a NaN = NaN. Proof. now intros []. Qed.

(** ** Sums *)
Lemma fold_finite : forall l a, finite (fold_left xadd l a) <-> finite a /\ Forall finite l.
Proof.
  induction l as [|x l IH]; intro a; cbn [fold_left]; [split; [intro H; split; [exact H|constructor]|tauto]|].
  rewrite IH, add_finite. split; [intros [[A X] F]; split; [exact A|now constructor]|].
  intros [A F]. inversion F; subst. tauto.
Qed.
Lemma fold_is : forall A (x : A -> xnum) (q : A -> Q) l a p, is a p -> (forall b, In b l -> is (x b) (q b)) ->
  is (fold_left xadd (map x l) a) (p + qsum (map q l))%Q.
Proof.
  intros A x q l. induction l as [|b l IH]; intros a p Ha H; cbn [map fold_left qsum fold_right]; [eapply is_eq; [exact Ha|ring]|].
  eapply is_eq; [apply (IH (xadd a (x b)) (p + q b)%Q)|].
  - apply is_add; [exact Ha|apply H; now left].
  - intros c I. apply H. now right.
  - fold (qsum (map q l)). ring.
Qed.
Lemma fold_NaN : forall l, fold_left xadd l NaN = NaN.
Proof. induction l as [|x l IH]; cbn [fold_left]; [reflexivity|]. now rewrite NaN_add_l. Qed.
Lemma sum_NaN : forall l a, In NaN l -> fold_left xadd l a = NaN.
Proof.
  induction l as [|x l IH]; intros a I; [destruct I|]. cbn [fold_left]. destruct I as [->|I]; [|now apply IH].
  rewrite NaN_add_r. apply fold_NaN.
Qed.
Lemma xsum_is : forall A (x : A -> xnum) (q : A -> Q) l, (forall b, In b l -> is (x b) (q b)) -> is (xsum (map x l)) (qsum (map q l)).
Proof. intros. eapply is_eq; [apply fold_is; [exists 0%Q; split; reflexivity|eassumption]|ring]. Qed.
Lemma fold_map_add : forall A (t : A -> xnum) l a, fold_left (fun a b => xadd a (t b)) l a = fold_left xadd (map t l) a.
Proof. intros A t l. induction l as [|b l IH]; intro a; cbn [fold_left map]; [reflexivity|apply IH]. Qed.

(** ** Medians *)
Lemma pixels_imap : forall A B (f : A -> B) im, pixels (imap f im) = map f (pixels im).
Proof. intros. unfold pixels, imap. cbn [nr nc px]. now rewrite map_map. Qed.
Lemma ext_median_pos : forall l m, (forall q, In q (Lexp_model.finite_of l) -> (0 < q)%Q) -> Lexp_model.ext_median l = Some (Some m) -> (0 < m)%Q.
Proof.
  intros l m P H. unfold Lexp_model.ext_median in H. destruct (List.length l) as [|n]; [discriminate|].
  destruct (nth_error (qsort _) (Nat.div2 (S n - 1))) as [a|] eqn:EA; [|discriminate].
  destruct (nth_error (qsort _) (Nat.div2 (S n))) as [b|] eqn:EB; [|discriminate]. injection H as <-.
  assert (S : forall q, In q (qsort (Lexp_model.finite_of l)) -> (0 < q)%Q).
  { intros q I. apply P. eapply Permutation.Permutation_in; [apply Permutation.Permutation_sym, qsort_perm|exact I]. }
  pose proof (S a (nth_error_In _ _ EA)). pose proof (S b (nth_error_In _ _ EB)).
  apply Qlt_shift_div_l; lra.
Qed.
Definition as_evar (x : xnum) : Lexp_model.evar := match x with Fin q => Some q | _ => None end.
Lemma xmedian_ext : forall l, xmedian l = match Lexp_model.ext_median (map as_evar l) with None => NaN | Some None => Inf false | Some (Some q) => Fin q end.
Proof. reflexivity. Qed.
Lemma finite_of_fins : forall l, (forall x, In x l -> finite x) -> Lexp_model.finite_of (map as_evar l) = map clean l.
Proof.
  induction l as [|x l IH]; intro H; [reflexivity|]. cbn [map Lexp_model.finite_of flat_map].
  destruct (H x (or_introl eq_refl)) as [q ->]. cbn. f_equal. apply IH. intros y I. apply H. now right.
Qed.
Lemma filter_clean : forall l, (forall x, In x l -> x <> Inf false) ->
  map clean (filter xpos l) = filter (fun w => negb (Qle_bool w 0)) (map clean l).
Proof.
  induction l as [|x l IH]; intro H; [reflexivity|]. assert (I : forall x, In x l -> x <> Inf false) by (intros; apply H; now right).
  cbn [filter map]. destruct x as [q|[|]|]; cbn [xpos clean negb].
  - destruct (negb (Qle_bool q 0)); cbn [map clean]; now rewrite IH.
  - now apply IH.
  - exfalso. now apply (H (Inf false)); [left|].
  - now apply IH.
Qed.
Lemma filter_finite : forall l, (forall x, In x l -> x <> Inf false) -> forall x, In x (filter xpos l) -> finite x.
Proof.
  intros l H x I. apply filter_In in I. destruct I as [I P]. apply xpos_positive in P. destruct P as [->|(q & -> & _)]; [exfalso; now apply (H _ I)|now exists q].
Qed.
Lemma weight_pixels : forall b, has_data b -> forall x, In x (pixels (xb_weight b)) -> x <> Inf false.
Proof. intros b [_ H] x I. apply Lexp_proofs.pixels_in in I. destruct I as (i & j & Hi & <-). now apply H. Qed.
Lemma median_is : forall b, has_data b -> Detect_spec.usable (tidy b) /\ is (xb_median b) (Detect_proofs.med (tidy b)).
Proof.
  intros b H. pose proof (weight_pixels b H) as F.
  assert (E : Detect_model.positive_weights (tidy b) = map clean (filter xpos (pixels (xb_weight b)))).
  { unfold Detect_model.positive_weights, tidy. cbn [Detect_model.b_weight]. rewrite pixels_imap. symmetry. now apply filter_clean. }
  assert (N : filter xpos (pixels (xb_weight b)) <> []).
  { destruct H as [(i & j & Hi & P) _]. intro C. assert (I : In (px (xb_weight b) i j) (filter xpos (pixels (xb_weight b)))).
    { apply filter_In. split; [now apply Lexp_proofs.pixels_at|now apply xpos_positive]. }
    rewrite C in I. destruct I. }
  assert (U : Detect_spec.usable (tidy b)).
  { apply Detect_proofs.usable_positive. rewrite E. intro C. apply map_eq_nil in C. contradiction. }
  split; [exact U|]. destruct (Detect_proofs.med_pos _ U) as [P M]. rewrite E in M.
  unfold xb_median. rewrite xmedian_ext.
  destruct (Lexp_proofs.ext_median_finite (map as_evar (filter xpos (pixels (xb_weight b))))) as (m & m' & E1 & E2 & E3).
  - intro C. apply map_eq_nil in C. contradiction.
  - intros v I. apply in_map_iff in I. destruct I as (x & <- & I). apply (filter_finite _ F) in I. destruct I as [q ->]. discriminate.
  - rewrite E1. rewrite finite_of_fins in E2 by now apply filter_finite. rewrite M in E2. injection E2 as <-. exists m. split; [reflexivity|exact E3].
Qed.

(** ** The detection image *)
Lemma combine_norm : forall A (bands : list A) (w : A -> xnum) s, combine bands (map (fun x => xdiv x s) (map w bands)) = map (fun b => (b, xdiv (w b) s)) bands.
Proof. intros. rewrite map_map. apply Detect_proofs.combine_map_self. Qed.
Lemma detwsum_pos : forall bands, bands <> [] -> (forall b, In b bands -> Detect_spec.usable b) -> (0 < Detect_proofs.detwsum bands)%Q.
Proof.
  intros bands N U. unfold Detect_proofs.detwsum. apply qsum_pos; [intro E; apply map_eq_nil in E; contradiction|].
  intros x I. apply in_map_iff in I. destruct I as (b & <- & I). rewrite Detect_proofs.detw_med by now apply U. apply (Detect_proofs.med_pos b (U b I)).
Qed.
Lemma detection : forall nodet bands, bands <> [] -> (forall b, In b bands -> has_data b) ->
  exists detim wsum mask, Detect_model.set_detim nodet (map tidy bands) = Some (detim, wsum, mask) /\
    nr (x_detim bands) = nr detim /\ nc (x_detim bands) = nc detim /\
    forall i j, (finite (px (x_detim bands) i j) <-> forall b, In b bands -> finite (px (xb_image b) i j)) /\
      (finite (px (x_detim bands) i j) -> is (px (x_detim bands) i j) (px detim i j)).
Proof.
  intros nodet bands N H.
  assert (N' : map tidy bands <> []) by (intro E; apply map_eq_nil in E; contradiction).
  assert (U : forall b, In b (map tidy bands) -> Detect_spec.usable b).
  { intros b I. apply in_map_iff in I. destruct I as (x & <- & I). apply (median_is x (H x I)). }
  destruct (Detect_proofs.set_detim_val nodet _ N' U) as (detim & mask & E & _ & V & _).
  exists detim, (Detect_proofs.detwsum (map tidy bands)), mask. split; [exact E|].
  destruct bands as [|b0 r]; [contradiction|]. set (bands := b0 :: r) in *.
  assert (Sh : nr detim = nr (xb_image b0) /\ nc detim = nc (xb_image b0)).
  { unfold Detect_model.set_detim in E. cbn [map] in E. destruct (Detect_model.oall _); [|discriminate]. apply Some_inj in E.
    apply (f_equal (fun x => fst (fst x))) in E. cbn [fst] in E. subst detim. split; reflexivity. }
  destruct Sh as [S1 S2]. split; [cbn; now rewrite S1|]. split; [cbn; now rewrite S2|]. intros i j.
  set (w := fun b => xdiv one (xdiv one (xb_median b))).
  assert (W : forall b, In b bands -> is (w b) (Detect_proofs.detw (tidy b))).
  { intros b I. destruct (median_is b (H b I)) as [Ub M]. destruct (Detect_proofs.med_pos _ Ub) as [P _].
    unfold w, Detect_proofs.detw. apply is_div; [apply is_one|apply is_div; [apply is_one|exact M|exact P]|]. apply Qlt_shift_div_l; lra. }
  assert (T : is (xsum (map w bands)) (Detect_proofs.detwsum (map tidy bands))).
  { unfold Detect_proofs.detwsum. rewrite map_map. apply xsum_is. exact W. }
  pose proof (detwsum_pos _ N' U) as TP.
  assert (Px : px (x_detim bands) i j = fold_left xadd (map (fun b => xmul (px (xb_image b) i j) (xdiv (w b) (xsum (map w bands)))) bands) (xmul (px (xb_image b0) i j) (Fin 0))).
  { unfold x_detim. change (match bands with [] => _ | b1 :: _ => _ end) with
      (mkImg (nr (xb_image b0)) (nc (xb_image b0)) (fun i j => fold_left (fun a bw => xadd a (xmul (px (xb_image (fst bw)) i j) (snd bw)))
        (combine bands (map (fun x => xdiv x (xsum (map w bands))) (map w bands))) (xmul (px (xb_image b0) i j) (Fin 0)))).
    cbn [px]. rewrite combine_norm, (fold_map_add _ (fun bw => xmul (px (xb_image (fst bw)) i j) (snd bw))), map_map. reflexivity. }
  assert (Nw : forall b, In b bands -> is (xdiv (w b) (xsum (map w bands))) (Detect_proofs.detw (tidy b) / Detect_proofs.detwsum (map tidy bands))%Q).
  { intros b I. apply is_div; [now apply W|exact T|exact TP]. }
  assert (Fi : finite (px (x_detim bands) i j) <-> forall b, In b bands -> finite (px (xb_image b) i j)).
  { rewrite Px, fold_finite, mul_finite, Forall_map, Forall_forall. cbv beta. split.
    - intros [_ F] b I. specialize (F b I). destruct (Nw b I) as (q & Eq & _). rewrite Eq in F. exact (proj1 (mul_finite _ _) F).
    - intro F. split; [apply F; unfold bands; now left|]. intros b I. destruct (Nw b I) as (q & -> & _). apply mul_finite. now apply F. }
  split; [exact Fi|]. intro F. pose proof (proj1 Fi F) as F'. rewrite Px.
  eapply is_eq; [apply (fold_is _ (fun b => xmul (px (xb_image b) i j) (xdiv (w b) (xsum (map w bands))))
      (fun b => (clean (px (xb_image b) i j) * (Detect_proofs.detw (tidy b) / Detect_proofs.detwsum (map tidy bands)))%Q)
      bands (xmul (px (xb_image b0) i j) (Fin 0)) (clean (px (xb_image b0) i j) * 0)%Q)|].
  - apply is_mul; [apply is_clean, F'; unfold bands; now left|exists 0%Q; split; reflexivity].
  - intros b I. apply is_mul; [apply is_clean, F', I|now apply Nw].
  - rewrite (V i j), map_map. set (S := Detect_proofs.detwsum (map tidy bands)) in *.
    rewrite (qsum_map_ext _ _ (fun b => (/ S) * (Detect_proofs.detw (tidy b) * px (Detect_model.b_image (tidy b)) i j))%Q).
    + rewrite qsum_map_mult. unfold Qdiv. ring.
    + intros b I. cbn [tidy Detect_model.b_image imap px]. field. intro C. rewrite C in TP. now apply Qlt_irrefl in TP.
Qed.
Definition no_data (b : xband) : Prop := forall i j, inside (xb_weight b) i j -> ~ positive (px (xb_weight b) i j).
Lemma no_data_nil : forall b, no_data b -> filter xpos (pixels (xb_weight b)) = [].
Proof.
  intros b H. destruct (filter xpos (pixels (xb_weight b))) as [|x l] eqn:E; [reflexivity|].
  assert (I : In x (filter xpos (pixels (xb_weight b)))) by (rewrite E; now left).
  apply filter_In in I. destruct I as [I P]. apply Lexp_proofs.pixels_in in I. destruct I as (i & j & Hi & <-).
  exfalso. apply (H i j Hi). now apply xpos_positive.
Qed.
Lemma no_data_median : forall b, no_data b -> xb_median b = NaN.
Proof. intros b H. unfold xb_median. now rewrite (no_data_nil b H). Qed.
Lemma detection_none : forall bands b i j, In b bands -> no_data b -> px (x_detim bands) i j = NaN.
Proof.
  intros bands b i j I H. destruct bands as [|b0 r]; [destruct I|]. unfold x_detim. set (bands := b0 :: r) in *. cbn [px].
  set (w := fun b => xdiv one (xdiv one (xb_median b))).
  assert (Wb : w b = NaN) by (unfold w; now rewrite (no_data_median b H)).
  assert (T : xsum (map w bands) = NaN) by (apply sum_NaN, in_map_iff; exists b; split; [exact Wb|exact I]).
  change (map (fun b1 => xdiv one (xdiv one (xb_median b1))) (b0 :: r)) with (map w bands). rewrite T.
  rewrite combine_norm, (fold_map_add _ (fun bw => xmul (px (xb_image (fst bw)) i j) (snd bw))), map_map. cbn [fst snd].
  apply sum_NaN. apply in_map_iff. exists b. split; [|exact I]. rewrite NaN_div_r. apply NaN_mul_r.
Qed.

(** ** The coadd of observations *)
Lemma combine_normw : forall A (l : list A) (w : A -> xnum) s, combine l (map (fun x => xdiv x s) (map w l)) = map (fun b => (b, xdiv (w b) s)) l.
Proof. exact combine_norm. Qed.
Lemma wavg_map : forall A (v q : A -> Q) l, (Coadd_spec.wavg v l (map q l) == qsum (map (fun b => q b / qsum (map q l) * v b) l))%Q.
Proof.
  intros A v q l. unfold Coadd_spec.wavg. rewrite Detect_proofs.combine_map_self, map_map. cbn [fst snd].
  rewrite (qsum_map_ext _ (fun b => q b / qsum (map q l) * v b)%Q (fun b => (/ qsum (map q l)) * (q b * v b))%Q) by (intros; unfold Qdiv; ring).
  rewrite qsum_map_mult. unfold Qdiv. ring.
Qed.
Definition unless_finite (x : xnum) : xnum := let w := xdiv one x in if xfin w then w else Fin 0.
Lemma not_finite_zero : forall x, ~ finite x -> unless_finite x = Fin 0.
Proof. intros [q|s|] H; [exfalso; apply H; now exists q| |]; reflexivity. Qed.
Lemma coadd : forall obs, obs <> [] -> (forall o, In o obs -> has_data o) ->
  exists ws im wt, x_coadd obs = Some (im, wt) /\
    Forall2 (fun o w => Coadd_spec.positive_median (imap clean (xb_weight o)) w /\ (0 < w)%Q) obs ws /\
    forall i j,
      (finite (px im i j) <-> forall o, In o obs -> finite (px (xb_image o) i j)) /\
      (finite (px im i j) -> is (px im i j) (Coadd_spec.wavg (fun o => clean (px (xb_image o) i j)) obs ws)) /\
      ((forall o, In o obs -> px (xb_weight o) i j = NaN \/ exists q, px (xb_weight o) i j = Fin q /\ (0 <= q)%Q) ->
         ((exists o, In o obs /\ ~ positive (px (xb_weight o) i j)) -> px wt i j = Fin 0) /\
         ((forall o, In o obs -> positive (px (xb_weight o) i j)) ->
            exists v, px wt i j = Fin v /\ (0 < v)%Q /\
              (v * qsum (map (fun ow => snd ow * snd ow / clean (px (xb_weight (fst ow)) i j)) (combine obs ws)) == qsum ws * qsum ws)%Q)).
Proof.
  intros obs N H. set (q := fun o => Detect_proofs.med (tidy o)).
  assert (M : forall o, In o obs -> is (xb_median o) (q o) /\ (0 < q o)%Q).
  { intros o I. destruct (median_is o (H o I)) as [U Mo]. split; [exact Mo|]. apply (Detect_proofs.med_pos _ U). }
  assert (PM : Forall2 (fun o w => Coadd_spec.positive_median (imap clean (xb_weight o)) w /\ (0 < w)%Q) obs (map q obs)).
  { clear N. induction obs as [|o obs IH]; cbn [map]; constructor.
    - destruct (median_is o (H o (or_introl eq_refl))) as [U _]. destruct (Detect_proofs.med_pos _ U) as [P E].
      split; [|exact P]. apply Coadd_proofs.positive_of_median. exact E.
    - apply IH; intros; [apply H|apply M]; now right. }
  assert (S : is (xsum (map xb_median obs)) (qsum (map q obs))) by (apply xsum_is; intros o I; now apply M).
  assert (SP : (0 < qsum (map q obs))%Q).
  { apply qsum_pos; [intro E; apply map_eq_nil in E; contradiction|]. intros x I. apply in_map_iff in I. destruct I as (o & <- & I). now apply M. }
  assert (A : forallb (fun o => existsb xpos (pixels (xb_weight o))) obs = true).
  { apply forallb_forall. intros o I. destruct (H o I) as [(i & j & Hi & P) _]. apply existsb_exists. exists (px (xb_weight o) i j).
    split; [now apply Lexp_proofs.pixels_at|now apply xpos_positive]. }
  set (nw := fun o => xdiv (xb_median o) (xsum (map xb_median obs))).
  assert (W : forall o, In o obs -> is (nw o) (q o / qsum (map q obs))%Q) by (intros o I; apply is_div; [now apply M|exact S|exact SP]).
  assert (E : exists im wt, x_coadd obs = Some (im, wt) /\ forall i j,
    px im i j = xsum (map (fun o => xmul (nw o) (px (xb_image o) i j)) obs) /\
    px wt i j = unless_finite (xsum (map (fun o => xdiv (xmul (nw o) (nw o)) (px (xb_weight o) i j)) obs))).
  { destruct obs as [|o0 r]; [contradiction|]. set (obs := o0 :: r) in *. unfold x_coadd. unfold obs at 1. fold obs. rewrite A, combine_normw.
    eexists. eexists. split; [reflexivity|]. intros i j. cbn [px]. rewrite !map_map. cbn [fst snd]. split; reflexivity. }
  destruct E as (im & wt & E & P). exists (map q obs), im, wt. split; [exact E|]. split; [exact PM|]. intros i j. destruct (P i j) as [-> ->].
  assert (Fi : finite (xsum (map (fun o => xmul (nw o) (px (xb_image o) i j)) obs)) <-> forall o, In o obs -> finite (px (xb_image o) i j)).
  { unfold xsum. rewrite fold_finite, Forall_map, Forall_forall. split.
    - intros [_ F] o I. specialize (F o I). destruct (W o I) as (x & Ex & _). rewrite Ex in F. exact (proj1 (mul_finite_l _ _) F).
    - intro F. split; [now exists 0%Q|]. intros o I. destruct (W o I) as (x & -> & _). apply mul_finite_l. now apply F. }
  split; [exact Fi|]. split.
  { intro F. pose proof (proj1 Fi F) as F'. eapply is_eq; [|symmetry; apply wavg_map].
    apply (xsum_is _ (fun o => xmul (nw o) (px (xb_image o) i j)) (fun o => (q o / qsum (map q obs) * clean (px (xb_image o) i j))%Q)).
    intros o I. apply is_mul; [now apply W|now apply is_clean, F']. }
  intro V. split.
  - intros (o & I & NP). apply not_finite_zero. unfold xsum. rewrite fold_finite, Forall_map, Forall_forall. intros [_ F]. specialize (F o I).
    destruct (W o I) as (x & Ex & _). cbv beta in F. rewrite Ex in F. destruct (V o I) as [C|(y & C & Y)]; rewrite C in F, NP; cbn [xmul xdiv] in F; [destruct F; discriminate|].
    assert (Y0 : Qeq_bool y 0 = true).
    { apply Qeq_bool_iff. destruct (Qlt_le_dec 0 y) as [L|L]; [exfalso; apply NP; right; now exists y|]. now apply Qle_antisym. }
    rewrite Y0 in F. destruct (Qeq_bool (x * x) 0); destruct F; discriminate.
  - intro AP. set (vp := fun o => clean (px (xb_weight o) i j)).
    assert (VP : forall o, In o obs -> is (px (xb_weight o) i j) (vp o) /\ (0 < vp o)%Q).
    { intros o I. unfold vp. destruct (V o I) as [C|(y & C & _)]; destruct (AP o I) as [D|(z & D & Z)]; rewrite D in C; try discriminate.
      rewrite D. cbn. split; [exists z; split; reflexivity|exact Z]. }
    set (tq := fun o => ((q o / qsum (map q obs)) * (q o / qsum (map q obs)) / vp o)%Q).
    assert (T : is (xsum (map (fun o => xdiv (xmul (nw o) (nw o)) (px (xb_weight o) i j)) obs)) (qsum (map tq obs))).
    { apply xsum_is. intros o I. apply is_div; [apply is_mul; now apply W|now apply VP|now apply VP]. }
    assert (TP : (0 < qsum (map tq obs))%Q).
    { apply qsum_pos; [intro E'; apply map_eq_nil in E'; contradiction|]. intros x I. apply in_map_iff in I. destruct I as (o & <- & I). unfold tq.
      assert (0 < q o / qsum (map q obs))%Q by (apply Qlt_shift_div_l; [exact SP|]; rewrite Qmult_0_l; now apply M).
      apply Qlt_shift_div_l; [now apply VP|]. rewrite Qmult_0_l. now apply Qmult_lt_0_compat. }
    destruct (is_div _ _ _ _ is_one T TP) as (v & Ev & Vv). exists v. unfold unless_finite. rewrite Ev. cbn [xfin]. split; [reflexivity|].
    split; [rewrite Vv; apply Qlt_shift_div_l; [exact TP|lra]|].
    rewrite Detect_proofs.combine_map_self, map_map. cbn [fst snd].
    rewrite (qsum_map_ext _ (fun o => q o * q o / clean (px (xb_weight o) i j))%Q (fun o => (qsum (map q obs) * qsum (map q obs)) * tq o)%Q).
    + rewrite qsum_map_mult, Vv. field. lra.
    + intros o I. unfold tq. fold (vp o). destruct (VP o I) as [_ VPo]. field. split; lra.
Qed.
Lemma coadd_none : forall obs o, In o obs -> no_data o -> x_coadd obs = None.
Proof.
  intros obs o I H. destruct obs as [|o0 r]; [reflexivity|]. unfold x_coadd.
  assert (A : forallb (fun o => existsb xpos (pixels (xb_weight o))) (o0 :: r) = false).
  { apply not_true_iff_false. intro F. apply (proj1 (forallb_forall _ _)) with (x := o) in F; [|exact I]. apply existsb_exists in F. destruct F as (x & J & X).
    assert (K : In x (filter xpos (pixels (xb_weight o)))) by (apply filter_In; tauto). rewrite (no_data_nil o H) in K. destruct K. }
  now rewrite A.
Qed.

(** ** The coadd of exposures *)
Lemma vpos_clean_var : forall x, Lexp_model.vpos (clean_var x) = xpos x.
Proof. intros [q|[|]|]; reflexivity. Qed.
Lemma filter_clean_var : forall l, filter Lexp_model.vpos (map clean_var l) = map as_evar (filter xpos l).
Proof.
  induction l as [|x l IH]; [reflexivity|]. cbn [map filter]. rewrite vpos_clean_var, IH. destruct x as [q|[|]|]; cbn [xpos negb]; try reflexivity.
  now destruct (Qle_bool q 0).
Qed.
Lemma finite_of_pos : forall l q, In q (Lexp_model.finite_of (map as_evar (filter xpos l))) -> (0 < q)%Q.
Proof.
  intros l q I. unfold Lexp_model.finite_of in I. apply in_flat_map in I. destruct I as (v & I & J). apply in_map_iff in I. destruct I as (x & <- & I).
  apply filter_In in I. destruct I as [_ P]. destruct x as [p|s|]; cbn in J; try contradiction. destruct J as [<-|[]]. cbn in P. now apply negb_true_iff, Detect_proofs.Qle_bool_false in P.
Qed.
Lemma exposure_weight : forall e b, match Lexp_model.band_weight (tidy_exposure e b) with
  | Some w => is (xdiv one (xb_median b)) w | None => xdiv one (xb_median b) = NaN end.
Proof.
  intros e b. unfold Lexp_model.band_weight, tidy_exposure. cbn [Lexp_model.e_var]. rewrite pixels_imap, filter_clean_var. unfold xb_median. rewrite xmedian_ext.
  destruct (Lexp_model.ext_median _) as [[m|]|] eqn:E; cbn [Lexp_model.vinv].
  - apply ext_median_pos in E; [|intros q I; now apply finite_of_pos in I]. apply is_div; [apply is_one|exists m; split; reflexivity|exact E].
  - exists 0%Q. split; reflexivity.
  - reflexivity.
Qed.
Lemma fold_if : forall A (c : A -> bool) (t : A -> xnum) l a, fold_left (fun a b => if c b then xadd a (t b) else a) l a = fold_left xadd (map t (filter c l)) a.
Proof. intros A c t l. induction l as [|b l IH]; intro a; cbn [fold_left filter]; [reflexivity|]. rewrite IH. destruct (c b); reflexivity. Qed.
Lemma qsum_filter : forall A (c : A -> bool) (q : A -> Q) l, (qsum (map q (filter c l)) == qsum (map (fun b => if c b then q b else 0) l))%Q.
Proof.
  intros A c q l. induction l as [|b l IH]; cbn [filter map qsum fold_right]; [reflexivity|].
  fold (qsum (map (fun b => if c b then q b else 0)%Q l)). rewrite <- IH. destruct (c b); cbn [map qsum fold_right]; fold (qsum (map q (filter c l))); ring.
Qed.
Lemma fold_pairs : forall A B C (f : A -> B -> C -> A) (w : B -> C) l a,
  fold_left (fun a bw => f a (fst bw) (snd bw)) (map (fun b => (b, w b)) l) a = fold_left (fun a b => f a b (w b)) l a.
Proof. intros A B C f w l. induction l as [|b l IH]; intro a; cbn [map fold_left fst snd]; [reflexivity|apply IH]. Qed.
Lemma exposures : forall xs, let es := map (fun eb => tidy_exposure (fst eb) (snd eb)) xs in
  xs <> [] -> Lexp_spec.compatible es -> Lexp_spec.usable es ->
  exists co im var, Lexp_model.coadd_exposures es = Ok (Some co) /\ x_coadd_exposures (map snd xs) = Some (im, var) /\
    forall i j,
      (finite (px im i j) <-> forall b, In b (map snd xs) -> positive (px (xb_weight b) i j) -> finite (px (xb_image b) i j)) /\
      (finite (px im i j) -> exists v, px (Lexp_model.c_image co) i j = Some v /\ is (px im i j) v) /\
      match px (Lexp_model.c_var co) i j with Some v => is (px var i j) v | None => px var i j = Inf false end.
Proof.
  intros xs es N C U. assert (N' : es <> []) by (intro E; apply map_eq_nil in E; contradiction).
  destruct (Lexp_proofs.coadd_ok es N' C U) as (co & psfs & E & _ & IM & _ & VR & _ & WS).
  set (w := fun b => xdiv one (xb_median b)).
  assert (W : forall eb, In eb xs -> is (w (snd eb)) (Lexp_model.bw (tidy_exposure (fst eb) (snd eb)))).
  { intros eb I. pose proof (exposure_weight (fst eb) (snd eb)) as X. destruct U as [G _].
    destruct (Lexp_proofs.bw_spec (tidy_exposure (fst eb) (snd eb))) as (B & _); [apply G, in_map_iff; now exists eb|]. now rewrite B in X. }
  assert (S : is (xsum (map w (map snd xs))) (qsum (map Lexp_model.bw es))).
  { unfold es. rewrite !map_map. apply xsum_is. exact W. }
  destruct S as (s & Es & Vs).
  assert (St : Qle_bool s 0 = false) by (apply Detect_proofs.Qle_bool_false; now rewrite Vs).
  assert (X : exists im var, x_coadd_exposures (map snd xs) = Some (im, var) /\ forall i j,
     px im i j = xmul (fold_left xadd (map (fun b => xmul (px (xb_image b) i j) (w b)) (filter (fun b => xpos (px (xb_weight b) i j)) (map snd xs))) (Fin 0)) (xdiv one (Fin s)) /\
     px var i j = let v := fold_left xadd (map (fun b => xdiv one (px (xb_weight b) i j)) (filter (fun b => xpos (px (xb_weight b) i j)) (map snd xs))) (Fin 0) in
       if xpos v then xdiv one v else Inf false).
  { destruct (map snd xs) as [|b0 r] eqn:Eb; [apply map_eq_nil in Eb; contradiction|]. set (bs := b0 :: r) in *. unfold x_coadd_exposures. unfold bs at 1. fold bs.
    fold w. rewrite Es, St. eexists. eexists. split; [reflexivity|]. intros i j. cbn [px]. split.
    - rewrite Detect_proofs.combine_map_self. f_equal. rewrite <- (fold_if _ (fun b => xpos (px (xb_weight b) i j)) (fun b => xmul (px (xb_image b) i j) (w b))).
      exact (fold_pairs _ _ _ (fun a b x => if xpos (px (xb_weight b) i j) then xadd a (xmul (px (xb_image b) i j) x) else a) w bs (Fin 0)).
    - rewrite <- (fold_if _ (fun b => xpos (px (xb_weight b) i j)) (fun b => xdiv one (px (xb_weight b) i j))). reflexivity. }
  destruct X as (im & var & X & P). exists co, im, var. split; [exact E|]. split; [exact X|]. intros i j. destruct (P i j) as [P1 P2].
  assert (FS : (0 < s)%Q) by now apply Detect_proofs.Qle_bool_false.
  assert (Fac : is (xdiv one (Fin s)) (1 / qsum (map Lexp_model.bw es))%Q) by (apply is_div; [apply is_one|exists s; split; [reflexivity|exact Vs]|exact WS]).
  assert (Fi : finite (px im i j) <-> forall b, In b (map snd xs) -> positive (px (xb_weight b) i j) -> finite (px (xb_image b) i j)).
  { rewrite P1. destruct Fac as (f & -> & _). rewrite mul_finite, fold_finite, Forall_map, Forall_forall. split.
    - intros [_ F] b I Pb. specialize (F b). apply in_map_iff in I. destruct I as (eb & <- & I). destruct (W eb I) as (q & Eq & _). cbv beta in F. rewrite Eq in F.
      refine (proj1 (mul_finite _ _) (F _)). apply filter_In. split; [apply in_map_iff; now exists eb|now apply xpos_positive].
    - intro F. split; [now exists 0%Q|]. intros b I. apply filter_In in I. destruct I as [I Pb]. pose proof I as I'. apply in_map_iff in I'. destruct I' as (eb & <- & I').
      destruct (W eb I') as (q & -> & _). apply mul_finite. apply F; [exact I|now apply xpos_positive]. }
  split; [exact Fi|]. split.
  - intro F. pose proof (proj1 Fi F) as F'. eexists. split; [apply IM|]. rewrite P1. apply is_mul; [|exact Fac].
    eapply is_eq; [|symmetry; apply Lexp_proofs.sum_image_px].
    set (t := fun eb : Lexp_model.exposure * xband => xmul (px (xb_image (snd eb)) i j) (w (snd eb))). set (c := fun eb : Lexp_model.exposure * xband => xpos (px (xb_weight (snd eb)) i j)).
    assert (Eq : map (fun b => xmul (px (xb_image b) i j) (w b)) (filter (fun b => xpos (px (xb_weight b) i j)) (map snd xs)) = map t (filter c xs)).
    { clear. induction xs as [|eb l IH]; [reflexivity|]. cbn [map filter]. unfold c at 1. destruct (xpos (px (xb_weight (snd eb)) i j)); cbn [map]; now rewrite IH. }
    rewrite Eq. eapply is_eq; [apply (fold_is _ t (fun eb => (clean (px (xb_image (snd eb)) i j) * Lexp_model.bw (tidy_exposure (fst eb) (snd eb)))%Q) (filter c xs) (Fin 0) 0%Q)|].
    + exists 0%Q. split; reflexivity.
    + intros eb I. apply filter_In in I. destruct I as [I Pb]. apply is_mul; [|now apply W]. apply is_clean, F'; [apply in_map_iff; now exists eb|now apply xpos_positive].
    + rewrite qsum_filter. unfold es. rewrite map_map. rewrite Qplus_0_l. apply qsum_map_ext. intros eb I. rewrite Lexp_proofs.goodw_vpos.
      unfold c. cbn [tidy_exposure Lexp_model.e_var Lexp_model.e_image imap px]. rewrite vpos_clean_var. destruct (xpos _); ring.
  - rewrite VR, P2. cbv zeta. set (sw := px (Lexp_model.sum_weight _ _ _) i j).
    set (t := fun eb : Lexp_model.exposure * xband => xdiv one (px (xb_weight (snd eb)) i j)). set (c := fun eb : Lexp_model.exposure * xband => xpos (px (xb_weight (snd eb)) i j)).
    assert (Eq : map (fun b => xdiv one (px (xb_weight b) i j)) (filter (fun b => xpos (px (xb_weight b) i j)) (map snd xs)) = map t (filter c xs)).
    { clear. induction xs as [|eb l IH]; [reflexivity|]. cbn [map filter]. unfold c at 1. destruct (xpos (px (xb_weight (snd eb)) i j)); cbn [map]; now rewrite IH. }
    rewrite Eq.
    assert (T : is (fold_left xadd (map t (filter c xs)) (Fin 0)) sw).
    { eapply is_eq; [apply (fold_is _ t (fun eb => Lexp_model.vinv (clean_var (px (xb_weight (snd eb)) i j))) (filter c xs) (Fin 0) 0%Q)|].
      - exists 0%Q. split; reflexivity.
      - intros eb I. apply filter_In in I. destruct I as [_ Pb]. unfold c in Pb. unfold t. destruct (px (xb_weight (snd eb)) i j) as [q|[|]|]; try discriminate; cbn [clean_var Lexp_model.vinv].
        + apply is_div; [apply is_one|exists q; split; reflexivity|]. cbn in Pb. now apply negb_true_iff, Detect_proofs.Qle_bool_false in Pb.
        + exists 0%Q. split; reflexivity.
      - unfold sw. rewrite Lexp_proofs.sum_weight_px, qsum_filter. unfold es. rewrite map_map, Qplus_0_l. apply qsum_map_ext. intros eb I. rewrite Lexp_proofs.goodw_vpos.
        unfold c. cbn [tidy_exposure Lexp_model.e_var imap px]. rewrite vpos_clean_var. destruct (xpos _); reflexivity. }
    pose proof (is_pos _ _ T) as IP. destruct (xpos (fold_left xadd (map t (filter c xs)) (Fin 0))) eqn:Ex.
    + assert (L : (0 < sw)%Q) by now apply IP. rewrite (proj2 (Detect_proofs.Qle_bool_false sw 0) L). cbn [negb]. apply is_div; [apply is_one|exact T|exact L].
    + destruct (Qle_bool sw 0) eqn:Q0; cbn [negb]; [reflexivity|]. apply Detect_proofs.Qle_bool_false, IP in Q0. discriminate.
Qed.
Lemma exposures_none : forall bs b, In b bs -> no_data b ->
  exists im var, x_coadd_exposures bs = Some (im, var) /\ forall i j, px im i j = NaN.
Proof.
  intros bs b I H. destruct bs as [|b0 r]; [destruct I|]. set (bs := b0 :: r) in *. unfold x_coadd_exposures. unfold bs at 1. fold bs.
  set (w := fun e => xdiv one (xb_median e)).
  assert (T : xsum (map w bs) = NaN) by (apply sum_NaN, in_map_iff; exists b; split; [unfold w; now rewrite (no_data_median b H)|exact I]).
  rewrite T. eexists. eexists. split; [reflexivity|]. intros i j. cbn [px]. rewrite NaN_div_r. apply NaN_mul_r.
Qed.

(** ** The masked fraction of the LSST pipeline *)
Definition goodv (b : xband) : list xnum := filter (fun v => xfin v && xpos v) (pixels (xb_weight b)).
Lemma x_mfrac_good : forall b0 r, let bands := b0 :: r in let weights := map (fun b => xdiv one (xmedian (goodv b))) bands in
  x_mfrac bands = if forallb (fun b => negb (zlen (goodv b) =? 0)) bands
  then Ok (mkImg (nr (xb_image b0)) (nc (xb_image b0)) (fun i j => xmul (xsum (map (fun bw => xmul (snd bw) (px (xb_image (fst bw)) i j)) (combine bands weights))) (xdiv one (xsum weights))))
  else Raise ValueError.
Proof. reflexivity. Qed.
Lemma good_vars_clean : forall b, Lmdet_model.good_vars (imap clean_var (xb_weight b)) = map clean (goodv b).
Proof.
  intro b. unfold Lmdet_model.good_vars, goodv. rewrite pixels_imap. induction (pixels (xb_weight b)) as [|x l IH]; [reflexivity|].
  cbn [map flat_map filter]. destruct x as [q|[|]|]; cbn [clean_var xfin xpos andb negb]; try exact IH. destruct (Qle_bool q 0); cbn [negb List.app map clean]; [exact IH|now rewrite IH].
Qed.
Lemma goodv_fin : forall b x, In x (goodv b) -> exists q, x = Fin q /\ (0 < q)%Q.
Proof.
  intros b x I. apply filter_In in I. destruct I as [_ P]. destruct x as [q|s|]; try discriminate. exists q. split; [reflexivity|].
  cbn in P. now apply negb_true_iff, Detect_proofs.Qle_bool_false in P.
Qed.
Lemma mfrac_weight : forall b w, Lmdet_model.band_wgt (imap clean_var (xb_weight b)) = Ok w ->
  goodv b <> [] /\ is (xdiv one (xmedian (goodv b))) w /\ (0 < w)%Q.
Proof.
  intros b w H. unfold Lmdet_model.band_wgt in H. rewrite good_vars_clean in H. destruct (qmedian _) as [m|] eqn:E; [|discriminate]. apply Ok_inj in H. subst w.
  assert (N : goodv b <> []) by (intro C; rewrite C in E; discriminate).
  assert (P : (0 < m)%Q).
  { apply (qmedian_pos _ _) with (2 := E). intros x I. apply in_map_iff in I. destruct I as (y & <- & I). destruct (goodv_fin b y I) as (q & -> & Q). exact Q. }
  split; [exact N|]. split; [|apply Qlt_shift_div_l; lra].
  rewrite xmedian_ext. destruct (Lexp_proofs.ext_median_finite (map as_evar (goodv b))) as (m1 & m2 & E1 & E2 & E3).
  - intro C. apply map_eq_nil in C. contradiction.
  - intros v I. apply in_map_iff in I. destruct I as (x & <- & I). destruct (goodv_fin b x I) as (q & -> & _). discriminate.
  - rewrite finite_of_fins in E2 by (intros x I; destruct (goodv_fin b x I) as (q & -> & _); now exists q). rewrite E in E2. injection E2 as <-.
    rewrite E1. apply is_div; [apply is_one|exists m1; split; [reflexivity|exact E3]|exact P].
Qed.
Definition qw (b : xband) : Q := match Lmdet_model.band_wgt (imap clean_var (xb_weight b)) with Ok w => w | Raise _ => 0%Q end.
Lemma mfrac : forall bands mf ws,
  Lmdet_model.get_mfrac_mbexp (map (fun b => imap clean_var (xb_weight b)) bands) (Some (map (fun b => imap clean (xb_image b)) bands)) = Ok (mf, ws) ->
  exists im, x_mfrac bands = Ok im /\ forall i j,
    (finite (px im i j) <-> forall b, In b bands -> finite (px (xb_image b) i j)) /\
    (finite (px im i j) -> is (px im i j) (px mf i j)).
Proof.
  intros bands mf ws H. unfold Lmdet_model.get_mfrac_mbexp in H.
  destruct (Lmdet_model.sum_mfracs _ _) as [[a ws']|] eqn:E; cbn [obind fst snd] in H; [|discriminate].
  destruct a as [a|]; [|discriminate]. apply Ok_inj in H. apply pair_equal_spec in H. destruct H as [<- <-].
  destruct (Lmdet_proofs.sum_mfracs_spec _ _ _ _ E) as (_ & F & N & _ & P).
  assert (Cm : forall l : list xband, combine (map (fun b => imap clean_var (xb_weight b)) l) (map (fun b => imap clean (xb_image b)) l) = map (fun b => (imap clean_var (xb_weight b), imap clean (xb_image b))) l).
  { induction l as [|b l IH]; cbn [map combine]; [reflexivity|now rewrite IH]. }
  rewrite Cm in F, N, P.
  assert (NB : bands <> []) by (intros ->; now apply N).
  assert (B : forall b, In b bands -> exists w, Lmdet_model.band_wgt (imap clean_var (xb_weight b)) = Ok w).
  { clear -F. revert ws' F. induction bands as [|b l IH]; intros ws F x I; [destruct I|]. cbn [map] in F. inversion F as [|? w ? ws0 E1 E2]; subst. destruct I as [<-|I]; [now exists w|now apply (IH ws0)]. }
  assert (Ws : ws' = map qw bands).
  { clear -F. revert ws' F. induction bands as [|b l IH]; intros ws F; cbn [map] in F; inversion F as [|? w ? ws0 E1 E2]; subst; [reflexivity|].
    cbn [map]. f_equal; [unfold qw; cbn [fst] in E1; now rewrite E1|now apply IH]. }
  subst ws'. set (w := fun b => xdiv one (xmedian (goodv b))).
  assert (W : forall b, In b bands -> goodv b <> [] /\ is (w b) (qw b) /\ (0 < qw b)%Q).
  { intros b I. destruct (B b I) as [x Ex]. unfold qw. rewrite Ex. now apply mfrac_weight. }
  assert (S : is (xsum (map w bands)) (qsum (map qw bands))) by (apply xsum_is; intros b I; now apply W).
  assert (SP : (0 < qsum (map qw bands))%Q).
  { apply qsum_pos; [intro C; apply map_eq_nil in C; contradiction|]. intros x I. apply in_map_iff in I. destruct I as (b & <- & I). now apply W. }
  assert (Fac : is (xdiv one (xsum (map w bands))) (1 / qsum (map qw bands))%Q) by (apply is_div; [apply is_one|exact S|exact SP]).
  assert (A : forallb (fun b => negb (zlen (goodv b) =? 0)) bands = true).
  { apply forallb_forall. intros b I. destruct (W b I) as [Nb _]. destruct (goodv b) as [|x l]; [contradiction|]. unfold zlen. cbn [List.length]. apply negb_true_iff, Z.eqb_neq. lia. }
  assert (X : exists im, x_mfrac bands = Ok im /\ forall i j, px im i j = xmul (xsum (map (fun b => xmul (w b) (px (xb_image b) i j)) bands)) (xdiv one (xsum (map w bands)))).
  { destruct bands as [|b0 r]; [contradiction|]. set (bands := b0 :: r) in *. unfold bands at 1. rewrite x_mfrac_good. fold bands. rewrite A.
    eexists. split; [reflexivity|]. intros i j. cbn [px]. fold w. rewrite Detect_proofs.combine_map_self, map_map. reflexivity. }
  destruct X as (im & X & Px). exists im. split; [exact X|]. intros i j. rewrite (Px i j). destruct Fac as (f & Ef & Vf).
  assert (Fi : finite (xmul (xsum (map (fun b => xmul (w b) (px (xb_image b) i j)) bands)) (xdiv one (xsum (map w bands)))) <-> forall b, In b bands -> finite (px (xb_image b) i j)).
  { rewrite Ef, mul_finite. unfold xsum. rewrite fold_finite, Forall_map, Forall_forall. split.
    - intros [_ G] b I. specialize (G b I). destruct (W b I) as (_ & (q & Eq & _) & _). rewrite Eq in G. exact (proj1 (mul_finite_l _ _) G).
    - intro G. split; [now exists 0%Q|]. intros b I. destruct (W b I) as (_ & (q & -> & _) & _). apply mul_finite_l. now apply G. }
  split; [exact Fi|]. intro G. pose proof (proj1 Fi G) as G'. rewrite Ef. cbn [imap px].
  eapply is_eq; [apply is_mul; [apply (xsum_is _ (fun b => xmul (w b) (px (xb_image b) i j)) (fun b => (qw b * clean (px (xb_image b) i j))%Q))|exists f; split; [reflexivity|exact Vf]]|].
  - intros b I. apply is_mul; [now apply W|now apply is_clean, G'].
  - rewrite P. unfold Lmdet_proofs.wpairs. rewrite map_map. cbn [snd].
    assert (C2 : combine (map qw bands) (map (fun x => imap clean (xb_image x)) bands) = map (fun b => (qw b, imap clean (xb_image b))) bands).
    { clear. induction bands as [|b l IH]; cbn [map combine]; [reflexivity|now rewrite IH]. }
    rewrite C2, map_map. cbn [fst snd imap px]. reflexivity.
Qed.
Lemma mfrac_refused : forall bands, bands <> [] ->
  (x_mfrac bands = Raise ValueError <-> exists b, In b bands /\ forall i j, inside (xb_weight b) i j -> finite (px (xb_weight b) i j) -> ~ positive (px (xb_weight b) i j)).
Proof.
  intros bands N. assert (G : forall b, goodv b = [] <-> forall i j, inside (xb_weight b) i j -> finite (px (xb_weight b) i j) -> ~ positive (px (xb_weight b) i j)).
  { intro b. split.
    - intros E i j Hi F P. assert (I : In (px (xb_weight b) i j) (goodv b)) by (apply filter_In; split; [now apply Lexp_proofs.pixels_at|apply andb_true_iff; split; [now apply finite_fin|now apply xpos_positive]]).
      rewrite E in I. destruct I.
    - intro H. destruct (goodv b) as [|x l] eqn:E; [reflexivity|]. assert (I : In x (goodv b)) by (rewrite E; now left).
      apply filter_In in I. destruct I as [I P]. apply Lexp_proofs.pixels_in in I. destruct I as (i & j & Hi & <-). apply andb_true_iff in P. destruct P as [P1 P2].
      exfalso. apply (H i j Hi); [now apply finite_fin|now apply xpos_positive]. }
  destruct bands as [|b0 r]; [contradiction|]. set (bands := b0 :: r) in *. unfold bands. rewrite x_mfrac_good. fold bands.
  destruct (forallb (fun b => negb (zlen (goodv b) =? 0)) bands) eqn:A.
  - split; [discriminate|]. intros (b & I & H). apply G in H. apply (proj1 (forallb_forall _ _)) with (x := b) in A; [|exact I]. rewrite H in A. discriminate.
  - split; [intros _|reflexivity]. apply not_true_iff_false in A.
    assert (D : exists b, In b bands /\ goodv b = []).
    { clear -A. induction bands as [|b l IH]; [exfalso; now apply A|]. destruct (goodv b) as [|x t] eqn:E; [exists b; split; [now left|exact E]|].
      destruct IH as (c & I & Ec); [|exists c; split; [now right|exact Ec]]. intro F. apply A. cbn [forallb]. rewrite F, E. unfold zlen. cbn [List.length].
      replace (Z.of_nat (S (List.length t)) =? 0) with false by (symmetry; apply Z.eqb_neq; lia). reflexivity. }
    destruct D as (b & I & H). exists b. split; [exact I|now apply G].
Qed.
