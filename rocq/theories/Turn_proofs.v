From Coq Require Import ZArith QArith Qround Reals List String Bool Lia Lqa Permutation Sorted.
From Verif Require Import Base Arr Median Flags_model Turn_spec.
From Verif Require Detect_model Detect_proofs Summ_model Summ_proofs Coadd_model Coadd_spec Coadd_proofs Lexp_model Lexp_proofs
  Interp_model Interp_spec Interp_proofs Dict Masking_model Masking_proofs Lmask_model Shearpos_model Shearpos_spec Shearpos_proofs Order_proofs Masking_spec.
Import ListNotations.
Local Open Scope Z_scope.

(** ** Lists of coordinates *)
Lemma swap_inj : forall A B (p q : A * B), swap p = swap q -> p = q.
Proof. intros A B [a b] [c d] H. inversion H. reflexivity. Qed.
Lemma coords_perm : forall r c, Permutation (coords c r) (map swap (coords r c)).
Proof.
  intros r c. apply NoDup_Permutation.
  - apply Masking_proofs.coords_nodup.
  - apply FinFun.Injective_map_NoDup; [intros p q; apply swap_inj|apply Masking_proofs.coords_nodup].
  - intros [i j]. rewrite in_map_iff. split.
    + intro I. apply in_coords in I. exists (j, i). split; [reflexivity|]. apply in_coords. tauto.
    + intros ([a b] & E & I). unfold swap in E. cbn [fst snd] in E. inversion E; subst. apply in_coords in I. apply in_coords. tauto.
Qed.
Lemma pixels_turned : forall A (a b : img A), turned eq a b -> Permutation (pixels b) (pixels a).
Proof.
  intros A a b (R & C & V). unfold pixels. rewrite R, C. eapply Permutation_trans; [apply Permutation_map, coords_perm|].
  rewrite map_map. assert (E : map (fun x => px b (fst (swap x)) (snd (swap x))) (coords (nr a) (nc a)) = map (fun ij => px a (fst ij) (snd ij)) (coords (nr a) (nc a))).
  { apply map_ext_in. intros [i j] I. apply in_coords in I. cbn [swap fst snd]. symmetry. now apply V. }
  rewrite E. apply Permutation_refl.
Qed.
Lemma turned_tr : forall A (R : A -> A -> Prop), (forall a, R a a) -> forall im, turned R im (tr im).
Proof. intros A R H im. split; [reflexivity|]. split; [reflexivity|]. intros i j _. apply H. Qed.
Lemma pixels_tr : forall A (a : img A), Permutation (pixels (tr a)) (pixels a).
Proof. intros. apply pixels_turned, turned_tr. reflexivity. Qed.

(** Pixelwise tests of an array and of the turned one. *)
Lemma perm_existsb : forall A (f : A -> bool) l l', Permutation l l' -> existsb f l = existsb f l'.
Proof. exact Order_proofs.existsb_perm. Qed.
Lemma perm_forallb : forall A (f : A -> bool) l l', Permutation l l' -> forallb f l = forallb f l'.
Proof.
  intros A f l l' P. apply eq_true_iff_eq. rewrite !forallb_forall. split; intros H x I; apply H.
  - eapply Order_proofs.perm_In; eassumption.
  - eapply Permutation_in; eassumption.
Qed.

(** ** Medians *)
Lemma F2_refl : forall l, Forall2 Qeq l l.
Proof. induction l; constructor; [reflexivity|assumption]. Qed.
Lemma F2_trans : forall u v w, Forall2 Qeq u v -> Forall2 Qeq v w -> Forall2 Qeq u w.
Proof.
  induction u as [|a u IH]; intros v w H K; inversion H; subst; inversion K; subst; constructor; [etransitivity; eassumption|eapply IH; eassumption].
Qed.
Lemma Qle_bool_eq : forall a b c d, (a == b)%Q -> (c == d)%Q -> Qle_bool a c = Qle_bool b d.
Proof. intros a b c d H K. apply eq_true_iff_eq. rewrite !Qle_bool_iff. now rewrite H, K. Qed.
Lemma qinsert_ext : forall l l' x y, (x == y)%Q -> Forall2 Qeq l l' -> Forall2 Qeq (qinsert x l) (qinsert y l').
Proof.
  induction l as [|a l IH]; intros l' x y E F; inversion F as [|? b ? m' Eb F']; subst; cbn [qinsert].
  - constructor; [assumption|constructor].
  - rewrite (Qle_bool_eq x y a b E Eb). destruct (Qle_bool y b); constructor; auto.
Qed.
Lemma qinsert_comm : forall x y l, Forall2 Qeq (qinsert x (qinsert y l)) (qinsert y (qinsert x l)).
Proof.
  intros x y. induction l as [|z l IH]; cbn [qinsert].
  - destruct (Qle_bool x y) eqn:A, (Qle_bool y x) eqn:B; try apply F2_refl.
    + apply Qle_bool_iff in A. apply Qle_bool_iff in B. assert (E : (x == y)%Q) by now apply Qle_antisym.
      constructor; [exact E|]. constructor; [now symmetry|constructor].
    + apply Detect_proofs.Qle_bool_false in A. apply Detect_proofs.Qle_bool_false in B. lra.
  - destruct (Qle_bool y z) eqn:Y, (Qle_bool x z) eqn:X; cbn [qinsert]; rewrite ?X, ?Y.
    + destruct (Qle_bool x y) eqn:A, (Qle_bool y x) eqn:B; rewrite ?X, ?Y; try apply F2_refl.
      * apply Qle_bool_iff in A. apply Qle_bool_iff in B. assert (E : (x == y)%Q) by now apply Qle_antisym.
        constructor; [exact E|]. constructor; [now symmetry|apply F2_refl].
      * apply Detect_proofs.Qle_bool_false in A. apply Detect_proofs.Qle_bool_false in B. lra.
    + destruct (Qle_bool x y) eqn:A; [|cbn [qinsert]; rewrite ?X; apply F2_refl].
      apply Qle_bool_iff in A. apply Qle_bool_iff in Y. apply Detect_proofs.Qle_bool_false in X. lra.
    + destruct (Qle_bool y x) eqn:A; [|cbn [qinsert]; rewrite ?Y; apply F2_refl].
      apply Qle_bool_iff in A. apply Qle_bool_iff in X. apply Detect_proofs.Qle_bool_false in Y. lra.
    + constructor; [reflexivity|exact IH].
Qed.
Lemma qsort_turned : forall l l', Permutation l l' -> Forall2 Qeq (qsort l) (qsort l').
Proof.
  intros l l' P. induction P as [|x l l' P IH|x y l|l l' l'' P1 IH1 P2 IH2]; cbn [qsort fold_right].
  - constructor.
  - apply qinsert_ext; [reflexivity|exact IH].
  - apply qinsert_comm.
  - eapply F2_trans; eassumption.
Qed.
Lemma F2_nth : forall l l', Forall2 Qeq l l' -> forall n, (nth n l 0 == nth n l' 0)%Q.
Proof. induction 1 as [|a b l l' E F IH]; intros [|n]; cbn [nth]; try reflexivity; auto. Qed.
Lemma F2_nth_error : forall l l', Forall2 Qeq l l' -> forall n, both Qeq (nth_error l n) (nth_error l' n).
Proof. induction 1 as [|a b l l' E F IH]; intros [|n]; cbn [nth_error both]; try exact Logic.I; auto. Qed.
Lemma qmedian_turned : forall l l', Permutation l l' -> both Qeq (qmedian l) (qmedian l').
Proof.
  intros l l' P. unfold qmedian. pose proof (qsort_turned l l' P) as F. rewrite <- (Coadd_proofs.Forall2_len _ _ _ _ _ F).
  destruct (Nat.eqb _ 0); [exact Logic.I|]. destruct (Nat.odd _); cbn [both]; now rewrite !(F2_nth _ _ F).
Qed.
Lemma perm_filter : forall A (f : A -> bool) l l', Permutation l l' -> Permutation (filter f l) (filter f l').
Proof. exact Order_proofs.perm_filter. Qed.

(** Sums with equal terms, listed one by one. *)
Lemma F2_sum : forall l l', Forall2 Qeq l l' -> (qsum l == qsum l')%Q.
Proof. induction 1 as [|a b l l' E F IH]; [reflexivity|]. unfold qsum in *. cbn [fold_right]. now rewrite E, IH. Qed.
Lemma F2_map : forall A (f g : A -> Q) l, (forall a, In a l -> (f a == g a)%Q) -> Forall2 Qeq (map f l) (map g l).
Proof.
  induction l as [|a l IH]; intro H; cbn [map]; constructor; [apply H; now left|]. apply IH. intros; apply H; now right.
Qed.
Lemma F2_map2 : forall (f g : Q -> Q) l l', (forall a b, (a == b)%Q -> (f a == g b)%Q) -> Forall2 Qeq l l' -> Forall2 Qeq (map f l) (map g l').
Proof. intros f g l l' H. induction 1; cbn [map]; constructor; auto. Qed.

(** ** Detection *)
Section Detect.
Import Detect_model.

Lemma positive_turned : forall b, Permutation (positive_weights b) (positive_weights (tr_band b)).
Proof. intro b. unfold positive_weights. cbn [tr_band b_weight]. apply perm_filter, Permutation_sym, pixels_tr. Qed.
Lemma image_var_turned : forall b, both Qeq (image_var b) (image_var (tr_band b)).
Proof.
  intro b. unfold image_var. pose proof (qmedian_turned _ _ (positive_turned b)) as H.
  destruct (qmedian (positive_weights b)), (qmedian (positive_weights (tr_band b))); cbn [both] in *; try contradiction; [now rewrite H|exact Logic.I].
Qed.
Lemma oall_turned : forall l l', Forall2 (both Qeq) l l' -> both (Forall2 Qeq) (oall l) (oall l').
Proof.
  induction 1 as [|a b l l' E F IH]; cbn [oall both]; [constructor|].
  destruct a, b; cbn [both] in E; try contradiction; [|exact Logic.I].
  destruct (oall l), (oall l'); cbn [both] in *; try contradiction; [constructor; assumption|exact Logic.I].
Qed.
Lemma combine_sum : forall (A : Type) (t : A -> A) (f f' : A -> Q) l (w w' : list Q) a a', (a == a')%Q -> (forall x, In x l -> (f x == f' (t x))%Q) -> Forall2 Qeq w w' ->
  (fold_left (fun acc (bw : A * Q) => acc + f (fst bw) * snd bw) (combine l w) a ==
   fold_left (fun acc (bw : A * Q) => acc + f' (fst bw) * snd bw) (combine (map t l) w') a')%Q.
Proof.
  intros A t f f'. induction l as [|x l IH]; intros w w' a a' E H F; cbn [combine map fold_left]; [exact E|].
  destruct F as [|u v w w' Eu F]; cbn [fold_left fst snd]; [exact E|].
  apply IH; [rewrite E, Eu, (H x); [reflexivity|now left]|intros; apply H; now right|exact F].
Qed.
Lemma detim_turned : forall nodet bands, both turned_detim (set_detim nodet bands) (set_detim nodet (map tr_band bands)).
Proof.
  intros nodet bands. destruct bands as [|b0 l]; [exact Logic.I|]. cbn [map]. unfold set_detim.
  change (tr_band b0 :: map tr_band l) with (map tr_band (b0 :: l)). rewrite map_map.
  assert (F : Forall2 (both Qeq) (map image_var (b0 :: l)) (map (fun b => image_var (tr_band b)) (b0 :: l))).
  { generalize (b0 :: l). clear. induction l as [|b l IH]; cbn [map]; constructor; [apply image_var_turned|exact IH]. }
  pose proof (oall_turned _ _ F) as O.
  destruct (oall (map image_var (b0 :: l))) as [vs|], (oall (map (fun b => image_var (tr_band b)) (b0 :: l))) as [vs'|]; cbn [both] in *; try contradiction; [|exact Logic.I].
  assert (W : Forall2 Qeq (map (fun v => 1 / v)%Q vs) (map (fun v => 1 / v)%Q vs')) by (apply F2_map2; [intros a b E; now rewrite E|exact O]).
  pose proof (F2_sum _ _ W) as S.
  unfold turned_detim. cbn [fst snd]. split; [|split; [exact S|]].
  - split; [reflexivity|]. split; [reflexivity|]. intros i j _. cbn [px].
    apply (combine_sum band tr_band (fun b => px (b_image b) i j) (fun b => px (b_image b) j i)); [reflexivity|intros; reflexivity|].
    apply F2_map2; [|exact W]. intros a b E. now rewrite E, S.
  - split; [reflexivity|]. split; [reflexivity|]. intros i j _. cbn [px]. generalize (b0 :: l) false. clear.
    induction l as [|b l IH]; intro acc; cbn [map fold_left]; [reflexivity|]. rewrite IH. f_equal. destruct b as [im w [bm|]]; reflexivity.
Qed.

Lemma requested_turned : forall fwhm mc o, requested_size fwhm mc (tr_det o) = requested_size fwhm mc o.
Proof.
  intros fwhm mc o. unfold requested_size, get_sigma_size. cbn [tr_det d_ymax d_ymin d_xmax d_xmin d_a d_b d_flux_radius d_iso_radius].
  destruct (String.eqb _ _); [|reflexivity]. do 2 f_equal. apply Z.max_comm.
Qed.
Lemma boxes_turned : forall fwhm mc objs, get_box_sizes fwhm mc (map tr_det objs) = get_box_sizes fwhm mc objs.
Proof.
  intros fwhm mc objs. unfold get_box_sizes. destruct objs as [|o l]; [reflexivity|]. cbn [map].
  change (tr_det o :: map tr_det l) with (map tr_det (o :: l)). generalize (o :: l). clear. induction l as [|o l IH]; [reflexivity|].
  cbn [map omap]. rewrite requested_turned. destruct (requested_size fwhm mc o) as [s|e]; cbn [obind]; [|reflexivity].
  destruct (assign_box_size mc s); cbn [obind]; [|reflexivity]. now rewrite IH.
Qed.
Lemma catalogue_turned : forall fwhm mc maxrow maxcol objs cat,
  run_sep_catalog fwhm mc maxrow maxcol objs = Ok cat -> run_sep_catalog fwhm mc maxcol maxrow (map tr_det objs) = Ok (map tr_entry cat).
Proof.
  intros fwhm mc maxrow maxcol objs cat H. unfold run_sep_catalog in *. rewrite boxes_turned.
  destruct (get_box_sizes fwhm mc objs) as [boxes|e]; cbn [obind] in *; [|discriminate]. apply Ok_inj in H. subst cat. f_equal.
  rewrite map_map. generalize 0. revert boxes. induction objs as [|o l IH]; intros boxes k; [reflexivity|].
  destruct boxes as [|b boxes]; [reflexivity|]. cbn [map combine number_from]. rewrite IH. reflexivity.
Qed.
Lemma catalogue_error_turned : forall fwhm mc maxrow maxcol objs e,
  run_sep_catalog fwhm mc maxrow maxcol objs = Raise e -> run_sep_catalog fwhm mc maxcol maxrow (map tr_det objs) = Raise e.
Proof.
  intros fwhm mc maxrow maxcol objs e H. unfold run_sep_catalog in *. rewrite boxes_turned.
  destruct (get_box_sizes fwhm mc objs); cbn [obind] in *; [discriminate|exact H].
Qed.
Lemma medsify_turned : forall maxrow maxcol (objs : list (Q * Q * Z)) number,
  catalog_medsify maxcol maxrow (map (fun o => (snd (fst o), fst (fst o), snd o)) objs) number = map tr_entry (catalog_medsify maxrow maxcol objs number).
Proof.
  intros maxrow maxcol objs number. unfold catalog_medsify. destruct number as [ns|]; rewrite map_map.
  - revert ns. induction objs as [|[[y x] b] l IH]; intros [|n ns]; try reflexivity. cbn [map combine fst snd]. now rewrite IH.
  - generalize 0. induction objs as [|[[y x] b] l IH]; intro k; [reflexivity|]. cbn [map number_from fst snd]. now rewrite IH.
Qed.

Lemma assign_turned : forall A (dest : img A) r0 r1 c0 c1 (src : img A),
  outcomes (fun a b => nr b = nc a /\ nc b = nr a /\ forall i j, px b j i = px a i j)
    (assign_slice dest r0 r1 c0 c1 src) (assign_slice (tr dest) c0 c1 r0 r1 (tr src)).
Proof.
  intros A dest r0 r1 c0 c1 src. unfold assign_slice. cbn [tr nr nc]. rewrite (andb_comm (bcast_ok (nc src) _)).
  destruct (bcast_ok (nr src) _ && bcast_ok (nc src) _); [|reflexivity]. cbn [outcomes].
  split; [reflexivity|]. split; [reflexivity|]. intros i j. cbn [px].
  assert (E : forall a b c d : bool, a && b && c && d = c && d && a && b) by (intros [] [] [] []; reflexivity).
  rewrite E. reflexivity.
Qed.
Lemma stamps_all : forall m k t, outcomes (fun a b => nr b = nc a /\ nc b = nr a /\ forall i j, px b j i = px a i j) (get_cutout m k t) (get_cutout (tr_meds m) k t).
Proof.
  intros m k t. unfold get_cutout. cbn [tr_meds m_cat m_psf m_plane]. rewrite nth_error_map.
  destruct (nth_error (m_cat m) k) as [e|]; cbn [option_map]; [|reflexivity].
  destruct (String.eqb t "psf"); [cbn [outcomes]; auto|].
  destruct (existsb _ _); [|reflexivity]. cbn [tr_entry e_box e_srow e_scol tr nr nc].
  destruct (get_clipped_boxes (nr (m_plane m t)) (e_srow e) (e_box e)) as [[or0 or1] [r0 r1]].
  destruct (get_clipped_boxes (nc (m_plane m t)) (e_scol e) (e_box e)) as [[oc0 oc1] [c0 c1]].
  destruct (e_box e <? 0); [reflexivity|]. destruct (DEFAULT_IMAGE_VALUES t) as [v|]; [|reflexivity].
  pose proof (assign_turned _ (ifill (e_box e) (e_box e) v) r0 r1 c0 c1 (slice (m_plane m t) or0 or1 oc0 oc1)) as H.
  change (tr (ifill (e_box e) (e_box e) v)) with (ifill (e_box e) (e_box e) v) in H.
  change (tr (slice (m_plane m t) or0 or1 oc0 oc1)) with (slice (tr (m_plane m t)) oc0 oc1 or0 or1) in H.
  change {| nr := nc (m_plane m t); nc := nr (m_plane m t); px := fun i j => px (m_plane m t) j i |} with (tr (m_plane m t)).
  destruct (assign_slice _ r0 r1 c0 c1 _) as [a|e1], (assign_slice _ c0 c1 r0 r1 _) as [b|e2]; cbn [outcomes] in *; try contradiction; [|exact H].
  exact H.
Qed.
Lemma stamps_turned : forall m k t, outcomes (turned eq) (get_cutout m k t) (get_cutout (tr_meds m) k t).
Proof.
  intros m k t. pose proof (stamps_all m k t) as H. destruct (get_cutout m k t), (get_cutout (tr_meds m) k t); cbn [outcomes] in *; try contradiction; [|exact H].
  destruct H as (R & C & V). split; [exact R|]. split; [exact C|]. intros i j _. symmetry. apply V.
Qed.


Lemma filter_turned : forall (f f' : Z * Z -> bool) l l', Permutation l' (map swap l) -> (forall p, In p l -> f' (swap p) = f p) ->
  Permutation (filter f' l') (map swap (filter f l)).
Proof.
  intros f f' l l' P H. eapply Permutation_trans; [apply perm_filter; exact P|]. clear P. induction l as [|p l IH]; [constructor|].
  cbn [map filter]. rewrite (H p) by now left. destruct (f p); cbn [map]; [constructor|]; apply IH; intros; apply H; now right.
Qed.
Lemma sum_turned : forall (f f' : Z * Z -> Q) l l', Permutation l' (map swap l) -> (forall p, In p l -> (f' (swap p) == f p)%Q) ->
  (qsum (map f l) == qsum (map f' l'))%Q.
Proof.
  intros f f' l l' P H. rewrite (Order_proofs.qsum_map_perm _ f' _ _ P), map_map. apply qsum_map_ext. intros p I. symmetry. now apply H.
Qed.
Lemma weighted_turned : forall g g' near near' (s s' : img Q) good good',
  turned Qeq s s' -> (forall i j, inside s i j -> good' j i = good i j) ->
  (forall i j, g' j i = g i j) -> (forall i j, near' j i = near i j) ->
  outcomes (fun a b => (fst a == fst b)%Q /\ (snd a == snd b)%Q) (weighted_sums g near s good) (weighted_sums g' near' s' good').
Proof.
  intros g g' near near' s s' good good' (R & C & V) G Hg Hn. unfold weighted_sums.
  assert (P : Permutation (filter (fun ij => good' (fst ij) (snd ij)) (coords (nr s') (nc s'))) (map swap (filter (fun ij => good (fst ij) (snd ij)) (coords (nr s) (nc s))))).
  { rewrite R, C. apply filter_turned; [apply coords_perm|]. intros [i j] I. apply in_coords in I. cbn [swap fst snd]. now apply G. }
  assert (IN : forall p, In p (filter (fun ij => good (fst ij) (snd ij)) (coords (nr s) (nc s))) -> inside s (fst p) (snd p)).
  { intros [i j] I. apply filter_In in I. destruct I as [I _]. apply in_coords in I. exact I. }
  destruct (filter (fun ij => good (fst ij) (snd ij)) (coords (nr s) (nc s))) as [|p l] eqn:E.
  - cbn [map] in P. apply Permutation_sym, Permutation_nil in P. rewrite P. reflexivity.
  - rewrite <- E in P, IN. rewrite <- E. destruct (filter (fun ij => good' (fst ij) (snd ij)) (coords (nr s') (nc s'))) as [|p' l'] eqn:E'.
    { apply Permutation_nil in P. rewrite E in P. discriminate. }
    rewrite <- E' in P. rewrite <- E'.
    assert (X : forall A (x y : A) (q : list (Z * Z)), q <> [] -> (match q with [] => x | _ => y end) = y) by (intros A x y [|q0 q] N; [contradiction|reflexivity]).
    cbn [outcomes fst snd].
    assert (P2 : Permutation (filter (fun ij => near' (fst ij) (snd ij)) (filter (fun ij => good' (fst ij) (snd ij)) (coords (nr s') (nc s')))) (map swap (filter (fun ij => near (fst ij) (snd ij)) (filter (fun ij => good (fst ij) (snd ij)) (coords (nr s) (nc s)))))).
    { apply filter_turned; [exact P|]. intros [i j] _. apply Hn. }
    split; apply sum_turned; try exact P2; intros [i j] I; cbn [swap fst snd]; [|now rewrite Hg].
    apply filter_In in I. destruct I as [I _]. apply IN in I. cbn [fst snd] in I. rewrite Hg, (V i j I). reflexivity.
Qed.
Lemma turned_imap : forall A B (R : A -> A -> Prop) (S : B -> B -> Prop) (f g : A -> B) a b, (forall x y, R x y -> S (f x) (g y)) -> turned R a b -> turned S (imap f a) (imap g b).
Proof. intros A B R S f g a b H (X & Y & V). split; [exact X|]. split; [exact Y|]. intros i j I. apply H, V, I. Qed.
Lemma mfrac_turned : forall mf bm g g' near near' y x box, (forall i j, g' j i = g i j) -> (forall i j, near' j i = near i j) ->
  outcomes same_mval (measure_mfrac_one mf bm g near y x box) (measure_mfrac_one (tr mf) (tr bm) g' near' x y box).
Proof.
  intros mf bm g g' near near' y x box Hg Hn. unfold measure_mfrac_one. destruct (0 <? box); [|reflexivity].
  set (m := mkMedsI (fun t => if String.eqb t "bmask" then imap I bm else imap F mf) (imap F mf) (catalog_medsify (nr mf) (nc mf) [(y, x, box)] None)).
  set (m' := mkMedsI (fun t => if String.eqb t "bmask" then imap I (tr bm) else imap F (tr mf)) (imap F (tr mf)) (catalog_medsify (nr (tr mf)) (nc (tr mf)) [(x, y, box)] None)).
  assert (K : forall t, get_cutout m' 0 t = get_cutout (tr_meds m) 0 t).
  { intro t. unfold get_cutout, m, m', tr_meds, catalog_medsify. cbn [m_cat m_psf m_plane nth_error number_from map tr nr nc].
    destruct (String.eqb t "psf"); [reflexivity|]. destruct (existsb _ _); [|reflexivity].
    destruct (String.eqb t "bmask"); reflexivity. }
  rewrite !K. pose proof (stamps_all m 0 "image"%string) as A. pose proof (stamps_all m 0 "bmask"%string) as B.
  destruct (get_cutout m 0 "image"%string) as [im|e1], (get_cutout (tr_meds m) 0 "image"%string) as [im'|e2]; cbn [outcomes obind] in *; try contradiction; [|exact A].
  destruct (get_cutout m 0 "bmask"%string) as [bk|e1] eqn:Ek, (get_cutout (tr_meds m) 0 "bmask"%string) as [bk'|e2]; cbn [outcomes obind] in *; try contradiction; [|exact B].
  destruct A as (R & C & V). destruct B as (_ & _ & VB).
  pose proof (weighted_turned g g' near near' (imap num_q im) (imap num_q im') (fun i j => Z.land (num_z (px bk i j)) BMASK_EDGE =? 0) (fun i j => Z.land (num_z (px bk' i j)) BMASK_EDGE =? 0)) as W.
  lapply W; [clear W; intro W|].
  2:{ split; [exact R|]. split; [exact C|]. intros i j _. cbn [imap px]. now rewrite V. }
  lapply W; [clear W; intro W|intros i j _; now rewrite VB].
  specialize (W Hg Hn).
  destruct (weighted_sums g near _ _) as [[a b]|e1], (weighted_sums g' near' _ _) as [[a' b']|e2]; cbn [outcomes fst snd] in W; try contradiction.
  - destruct W as [Wa Wb]. destruct (Qeq_bool b 0) eqn:Z1, (Qeq_bool b' 0) eqn:Z2; cbn [outcomes same_mval]; try exact Logic.I.
    + apply Qeq_bool_iff in Z1. apply Qeq_bool_neq in Z2. apply Z2. now rewrite <- Wb.
    + apply Qeq_bool_iff in Z2. apply Qeq_bool_neq in Z1. apply Z1. now rewrite Wb.
    + now rewrite Wa, Wb.
  - subst e2. destruct e1; cbn [outcomes same_mval]; reflexivity.
Qed.

End Detect.

(** ** Summaries *)
Section Summ.
Import Summ_model.

Lemma fold_lor_perm : forall l l', Permutation l l' -> forall a, fold_left Z.lor l a = fold_left Z.lor l' a.
Proof.
  intros l l' P. induction P as [|x l l' P IH|x y l|l l' l'' P1 IH1 P2 IH2]; intro a; cbn [fold_left]; auto.
  - f_equal. rewrite <- !Z.lor_assoc. f_equal. apply Z.lor_comm.
  - now rewrite IH1.
Qed.
Lemma mask_turned : forall reg row col mask, fill_in_mask reg col row (tr mask) = fill_in_mask reg row col mask.
Proof.
  intros reg row col mask. unfold fill_in_mask. cbn [tr nr nc]. destruct (1 <? reg).
  - f_equal. apply fold_lor_perm.
    match goal with |- Permutation (pixels (slice ?m ?a ?b ?c ?d)) _ => change (slice m a b c d) with (tr (slice mask c d a b)) end.
    apply pixels_tr.
  - rewrite (andb_comm ((0 <=? clip_and_round col (nc mask)) && _)). reflexivity.
Qed.
Lemma mask_column_turned : forall reg pos mask, fill_in_mask_col reg (map swap pos) (tr mask) = fill_in_mask_col reg pos mask.
Proof.
  intros reg pos mask. unfold fill_in_mask_col. induction pos as [|[r c] l IH]; [reflexivity|]. cbn [map omap swap fst snd].
  rewrite mask_turned. destruct (fill_in_mask reg r c mask); cbn [obind]; [|reflexivity]. now rewrite IH.
Qed.

Lemma band_weight_turned : forall o, (band_weight o == band_weight (tr_sobs o))%Q.
Proof.
  intro o. unfold band_weight, positive_pixels. cbn [tr_sobs so_weight].
  pose proof (qmedian_turned _ _ (perm_filter _ (fun v => negb (Qle_bool v 0)) _ _ (Permutation_sym (pixels_tr _ (so_weight o))))) as H.
  destruct (qmedian _), (qmedian _); cbn [both] in H; try contradiction; [exact H|reflexivity].
Qed.
Lemma single_turned : forall mb, omap single_epoch (map (map tr_sobs) mb) = match omap single_epoch mb with Ok l => Ok (map tr_sobs l) | Raise e => Raise e end.
Proof.
  induction mb as [|[|o [|o' l]] mb IH]; cbn [map omap single_epoch obind]; try reflexivity. rewrite IH.
  destruct (omap single_epoch mb); reflexivity.
Qed.
Lemma get_mfrac_turned : forall mb, outcomes (turned Qeq) (get_mfrac mb) (get_mfrac (map (map tr_sobs) mb)).
Proof.
  intro mb. unfold get_mfrac. destruct mb as [|[|o0 l0] mb]; [reflexivity|reflexivity|]. cbn [map].
  change ((tr_sobs o0 :: map tr_sobs l0) :: map (map tr_sobs) mb) with (map (map tr_sobs) ((o0 :: l0) :: mb)). rewrite single_turned.
  destruct (omap single_epoch ((o0 :: l0) :: mb)) as [obs|e]; cbn [obind outcomes]; [|reflexivity].
  assert (W : (qsum (map band_weight obs) == qsum (map band_weight (map tr_sobs obs)))%Q).
  { rewrite map_map. apply qsum_map_ext. intros o _. apply band_weight_turned. }
  assert (S : turned Qeq
    (fold_left (fun acc o => match so_mfrac o with Some mf => imap2 (fun a m => (a + m * band_weight o)%Q) acc mf | None => acc end) obs (ifill (nr (so_weight o0)) (nc (so_weight o0)) 0%Q))
    (fold_left (fun acc o => match so_mfrac o with Some mf => imap2 (fun a m => (a + m * band_weight o)%Q) acc mf | None => acc end) (map tr_sobs obs)
       (ifill (nr (so_weight (tr_sobs o0))) (nc (so_weight (tr_sobs o0))) 0%Q))).
  { cbn [tr_sobs so_weight tr nr nc].
    assert (Z : turned Qeq (ifill (nr (so_weight o0)) (nc (so_weight o0)) 0%Q) (ifill (nc (so_weight o0)) (nr (so_weight o0)) 0%Q))
      by (split; [reflexivity|]; split; [reflexivity|]; intros; reflexivity).
    revert Z. generalize (ifill (nr (so_weight o0)) (nc (so_weight o0)) 0%Q) (ifill (nc (so_weight o0)) (nr (so_weight o0)) 0%Q). clear.
    induction obs as [|o obs IH]; intros a b Z; cbn [map fold_left]; [exact Z|]. apply IH. destruct Z as (R & C & V).
    pose proof (band_weight_turned o) as B. destruct o as [w [mf|] bm om]; cbn [tr_sobs so_mfrac option_map].
    - split; [exact R|]. split; [exact C|]. intros i j I. cbn [imap2 px tr]. rewrite (V i j I), B. reflexivity.
    - split; [exact R|]. split; [exact C|exact V]. }
  destruct S as (R & C & V).
  rewrite (Order_proofs.Qle_bool_proper _ _ W). destruct (negb _); cbn [outcomes].
  - split; [exact R|]. split; [exact C|]. intros i j I. cbn [imap px]. rewrite (V i j I), W. reflexivity.
  - split; [exact R|]. split; [exact C|]. intros i j I. reflexivity.
Qed.
Lemma masks_turned : forall mb, outcomes (fun a b => turned eq (fst a) (fst b) /\ turned eq (snd a) (snd b))
  (get_ormask_and_bmask mb) (get_ormask_and_bmask (map (map tr_sobs) mb)).
Proof.
  intro mb. unfold get_ormask_and_bmask. rewrite single_turned. destruct (omap single_epoch mb) as [obs|e]; cbn [obind]; [|reflexivity].
  destruct obs as [|o0 rest]; [reflexivity|]. cbn [map outcomes].
  set (P := fun a b : img Z * img Z => turned eq (fst a) (fst b) /\ turned eq (snd a) (snd b)).
  assert (G : P (so_ormask o0, so_bmask o0) (so_ormask (tr_sobs o0), so_bmask (tr_sobs o0))) by (split; apply turned_tr; reflexivity).
  change (P (fold_left (fun acc o => (imap2 Z.lor (fst acc) (so_ormask o), imap2 Z.lor (snd acc) (so_bmask o))) rest (so_ormask o0, so_bmask o0))
    (fold_left (fun acc o => (imap2 Z.lor (fst acc) (so_ormask o), imap2 Z.lor (snd acc) (so_bmask o))) (map tr_sobs rest) (so_ormask (tr_sobs o0), so_bmask (tr_sobs o0)))).
  revert G. generalize (so_ormask o0, so_bmask o0) (so_ormask (tr_sobs o0), so_bmask (tr_sobs o0)).
  induction rest as [|o rest IH]; intros a b G; cbn [map fold_left]; [exact G|]. apply IH.
  destruct G as [(R1 & C1 & V1) (R2 & C2 & V2)]. split; cbn [fst snd]; (split; [assumption|]; split; [assumption|]); intros i j I; cbn [imap2 px tr_sobs so_ormask so_bmask tr].
  - now rewrite (V1 i j I).
  - now rewrite (V2 i j I).
Qed.
End Summ.

(** ** Coadds of the bands of an object *)
Section Coadds.
Import Coadd_model Coadd_proofs.
Variable J : Z -> Z.
Hypothesis J_inj : forall a b, J a = J b -> a = b.
Notation T := (tr_fobs J).

Lemma J_eqb : forall a b, (J a =? J b) = (a =? b).
Proof. intros a b. apply eq_true_iff_eq. rewrite !Z.eqb_eq. split; [apply J_inj|now intros ->]. Qed.
Lemma same_dims_turned : forall A B (a : img A) (b : img B), same_dims (tr a) (tr b) = same_dims a b.
Proof. intros. unfold same_dims. cbn [tr nr nc]. apply andb_comm. Qed.
Lemma consistent_turned : forall a b, consistent (T a) (T b) = consistent a b.
Proof.
  intros a b. unfold consistent. cbn [tr_fobs f_jac f_image f_psf]. rewrite J_eqb, same_dims_turned.
  destruct (f_psf a), (f_psf b); cbn [option_map]; try reflexivity. cbn [tr_psf p_jac p_image]. now rewrite J_eqb, same_dims_turned.
Qed.
Lemma py_index_map : forall A B (f : A -> B) l k, py_index (map f l) k = match py_index l k with Ok a => Ok (f a) | Raise e => Raise e end.
Proof.
  intros A B f l k. unfold py_index, zlen. rewrite map_length. cbv zeta.
  destruct (_ && _); [|reflexivity]. rewrite nth_error_map. destruct (nth_error l _); reflexivity.
Qed.
Lemma band_obs_turned : forall mb b, band_obs (map (map T) mb) b = match band_obs mb b with Ok o => Ok (T o) | Raise e => Raise e end.
Proof.
  intros mb b. unfold band_obs. rewrite py_index_map. destruct (py_index mb b); cbn [obind]; [|reflexivity]. apply py_index_map.
Qed.
Lemma all_consistent_turned : forall mb fo rest, all_consistent (map (map T) mb) (T fo) rest = all_consistent mb fo rest.
Proof.
  intros mb fo. induction rest as [|b r IH]; [reflexivity|]. cbn [all_consistent]. rewrite band_obs_turned.
  destruct (band_obs mb b); cbn [obind]; [|reflexivity]. rewrite consistent_turned. now rewrite IH.
Qed.
Lemma omap_turned : forall mb l, omap (band_obs (map (map T) mb)) l = match omap (band_obs mb) l with Ok o => Ok (map T o) | Raise e => Raise e end.
Proof.
  intros mb. induction l as [|b r IH]; [reflexivity|]. cbn [omap]. rewrite band_obs_turned. destruct (band_obs mb b); cbn [obind]; [|reflexivity].
  rewrite IH. destruct (omap (band_obs mb) r); reflexivity.
Qed.
Lemma weights_turned : forall obs, both (Forall2 Qeq) (coadd_weights obs) (coadd_weights (map T obs)).
Proof.
  induction obs as [|o obs IH]; cbn [map coadd_weights]; [constructor|].
  pose proof (qmedian_turned _ _ (perm_filter _ qpos _ _ (Permutation_sym (pixels_tr _ (f_weight o))))) as H. fold (positive_of (f_weight o)) in H.
  fold (positive_of (tr (f_weight o))) in H. cbn [tr_fobs f_weight].
  destruct (qmedian (positive_of (f_weight o))), (qmedian (positive_of (tr (f_weight o)))); cbn [both] in H; try contradiction; [|exact Logic.I].
  destruct (coadd_weights obs), (coadd_weights (map T obs)); cbn [both] in *; try contradiction; [|exact Logic.I]. constructor; assumption.
Qed.
Lemma normalized_turned : forall w w', Forall2 Qeq w w' -> Forall2 Qeq (normalized w) (normalized w').
Proof. intros w w' F. unfold normalized. apply F2_map2; [|exact F]. intros a b E. now rewrite E, (F2_sum _ _ F). Qed.

Lemma wsum_turned : forall get get' obs w w' sh sh', Forall2 Qeq w w' -> (forall o, get' (T o) = option_map tr (get o)) ->
  nr sh' = nc sh -> nc sh' = nr sh ->
  turned Qeq (wsum_plane sh get (combine obs w)) (wsum_plane sh' get' (combine (map T obs) w')).
Proof.
  intros get get' obs w w' sh sh' F G R C. unfold wsum_plane.
  assert (Z : turned Qeq (ifill (nr sh) (nc sh) 0%Q) (ifill (nr sh') (nc sh') 0%Q)) by (split; [exact R|]; split; [exact C|]; intros; reflexivity).
  revert Z. generalize (ifill (nr sh) (nc sh) 0%Q) (ifill (nr sh') (nc sh') 0%Q). revert w w' F.
  induction obs as [|o obs IH]; intros w w' F a b Z; cbn [map combine fold_left]; [exact Z|].
  destruct F as [|u v w w' E F]; cbn [fold_left]; [exact Z|]. apply IH; [exact F|]. cbn [fst snd]. rewrite G.
  destruct (get o) as [p|]; cbn [option_map]; [|exact Z]. destruct Z as (R' & C' & V). split; [exact R'|]. split; [exact C'|].
  intros i j I. cbn [imap2 px tr]. rewrite (V i j I), E. reflexivity.
Qed.
Lemma orp_turned : forall get get' obs sh sh', (forall o, get' (T o) = option_map tr (get o)) -> nr sh' = nc sh -> nc sh' = nr sh ->
  turned eq (or_plane sh get obs) (or_plane sh' get' (map T obs)).
Proof.
  intros get get' obs sh sh' G R C. unfold or_plane.
  assert (Z : turned eq (ifill (nr sh) (nc sh) 0) (ifill (nr sh') (nc sh') 0)) by (split; [exact R|]; split; [exact C|]; intros; reflexivity).
  revert Z. generalize (ifill (nr sh) (nc sh) 0) (ifill (nr sh') (nc sh') 0).
  induction obs as [|o obs IH]; intros a b Z; cbn [map fold_left]; [exact Z|]. apply IH. rewrite G.
  destruct (get o) as [p|]; cbn [option_map]; [|exact Z]. destruct Z as (R' & C' & V). split; [exact R'|]. split; [exact C'|].
  intros i j I. cbn [imap2 px tr]. now rewrite (V i j I).
Qed.
Lemma count_turned : forall A (get get' : fobs -> option A) obs, (forall o, (match get' (T o) with Some _ => true | None => false end) = match get o with Some _ => true | None => false end) ->
  count_plane get' (map T obs) = count_plane get obs.
Proof.
  intros A get get' obs G. unfold count_plane, zlen. f_equal. induction obs as [|o obs IH]; [reflexivity|]. cbn [map filter]. rewrite G.
  destruct (get o); cbn [List.length]; now rewrite IH.
Qed.
Lemma coadd_weight_turned : forall obs w w' sh sh', Forall2 Qeq w w' -> nr sh' = nc sh -> nc sh' = nr sh ->
  turned Qeq (coadd_weight sh (combine obs w)) (coadd_weight sh' (combine (map T obs) w')).
Proof.
  intros obs w w' sh sh' F R C. split; [exact R|]. split; [exact C|]. intros i j _. unfold coadd_weight. cbn [px].
  assert (G : both Qeq (fold_left add_var (map (fun x : fobs * Q => (px (f_weight (fst x)) i j, snd x)) (combine obs w)) (Some 0%Q))
                       (fold_left add_var (map (fun x : fobs * Q => (px (f_weight (fst x)) j i, snd x)) (combine (map T obs) w')) (Some 0%Q))).
  { assert (Z : both Qeq (Some 0%Q) (Some 0%Q)) by reflexivity. revert Z. generalize (Some 0%Q) at 1 3. generalize (Some 0%Q). revert w w' F.
    induction obs as [|o obs IH]; intros w w' F b a Z; cbn [map combine fold_left]; [exact Z|].
    destruct F as [|u v w w' E F]; cbn [map fold_left]; [exact Z|]. apply IH; [exact F|]. cbn [fst snd tr_fobs f_weight tr px].
    unfold add_var. destruct a, b; cbn [both] in Z; try contradiction; [|exact Logic.I]. cbn [fst snd].
    destruct (Qeq_bool (px (f_weight o) i j) 0); [exact Logic.I|]. cbn [both]. now rewrite Z, E. }
  destruct (fold_left add_var _ (Some 0%Q)) as [a|], (fold_left add_var _ (Some 0%Q)) as [b|]; cbn [both inv_var] in *; try contradiction; [|reflexivity].
  destruct (Qeq_bool a 0) eqn:A, (Qeq_bool b 0) eqn:B; try reflexivity.
  - apply Qeq_bool_iff in A. apply Qeq_bool_neq in B. lra.
  - apply Qeq_bool_iff in B. apply Qeq_bool_neq in A. lra.
  - now rewrite G.
Qed.
Lemma all_zero_turned : forall a b, turned Qeq a b -> all_pixels (fun w => Qeq_bool w 0) a = all_pixels (fun w => Qeq_bool w 0) b.
Proof.
  intros a b (R & C & V). apply eq_true_iff_eq. rewrite !all_pixels_spec. split; intros H i j I.
  - unfold inside in I. rewrite R, C in I. assert (I' : inside a j i) by (unfold inside; tauto). specialize (H j i I'). apply Qeq_bool_iff in H.
    apply Qeq_bool_iff. rewrite <- H. symmetry. now apply V.
  - assert (I' : inside b j i) by (unfold inside in *; rewrite R, C; tauto). specialize (H j i I'). apply Qeq_bool_iff in H.
    apply Qeq_bool_iff. rewrite <- H. now apply V.
Qed.
Lemma qsum_pixels_turned : forall (f : Q -> Q) a b, (forall x y, (x == y)%Q -> (f x == f y)%Q) -> turned Qeq a b ->
  (qsum (map f (pixels a)) == qsum (map f (pixels b)))%Q.
Proof.
  intros f a b H (R & C & V). unfold pixels. rewrite !map_map, R, C. apply (sum_turned _ _ (coords (nr a) (nc a))); [apply coords_perm|].
  intros [i j] I. apply in_coords in I. cbn [swap fst snd]. apply H. symmetry. now apply V.
Qed.
Lemma coadd_many_turned : forall obs fo fp, turned_coadd J (coadd_many obs fo fp) (coadd_many (map T obs) (T fo) (tr_psf J fp)).
Proof.
  intros obs fo fp. unfold coadd_many. pose proof (weights_turned obs) as W.
  destruct (coadd_weights obs) as [w|], (coadd_weights (map T obs)) as [w'|]; cbn [both] in W; try contradiction; [|split; [reflexivity|exact Logic.I]].
  pose proof (normalized_turned _ _ W) as N.
  assert (SW : turned Qeq (coadd_weight (f_weight fo) (combine obs (normalized w))) (coadd_weight (f_weight (T fo)) (combine (map T obs) (normalized w'))))
    by (apply coadd_weight_turned; [exact N|reflexivity|reflexivity]).
  assert (SP : turned Qeq (wsum_plane (p_image fp) psf_image_of (combine obs (normalized w))) (wsum_plane (p_image (tr_psf J fp)) psf_image_of (combine (map T obs) (normalized w')))).
  { apply wsum_turned; [exact N| |reflexivity|reflexivity]. intro o. unfold psf_image_of. cbn [tr_fobs f_psf]. destruct (f_psf o); reflexivity. }
  rewrite (all_zero_turned _ _ SW). destruct (all_pixels _ _); [split; [reflexivity|exact Logic.I]|].
  assert (ZL : zlen (map T obs) = zlen obs) by (unfold zlen; now rewrite map_length). rewrite ZL.
  rewrite (count_turned _ f_mfrac f_mfrac) by (intro o; cbn [tr_fobs f_mfrac]; destruct (f_mfrac o); reflexivity).
  rewrite (count_turned _ f_noise f_noise) by (intro o; cbn [tr_fobs f_noise]; destruct (f_noise o); reflexivity).
  rewrite (count_turned _ f_bmask f_bmask) by (intro o; cbn [tr_fobs f_bmask]; destruct (f_bmask o); reflexivity).
  rewrite (count_turned _ f_ormask f_ormask) by (intro o; cbn [tr_fobs f_ormask]; destruct (f_ormask o); reflexivity).
  destruct (negb _); [split; [reflexivity|exact Logic.I]|]. split; [reflexivity|]. cbn [both fst]. unfold turned_fobs.
  cbn [f_image f_weight f_jac f_psf f_mfrac f_noise f_bmask f_ormask].
  split; [apply wsum_turned; [exact N|reflexivity|reflexivity|reflexivity]|]. split; [exact SW|]. split; [reflexivity|]. split.
  { cbn [both]. unfold turned_psf. cbn [p_image p_weight p_jac]. split; [exact SP|]. split; [|reflexivity].
    assert (SQR : forall x y : Q, (x == y -> x * x == y * y)%Q) by (intros x y E; now rewrite E).
    pose proof (qsum_pixels_turned (fun v => v * v)%Q _ _ SQR SP) as SQ.
    destruct SP as (A & B & V). split; [exact A|]. split; [exact B|]. intros i j _. cbn [imap px]. now rewrite SQ. }
  split; [destruct (0 <? _); [apply wsum_turned; [exact N|reflexivity|reflexivity|reflexivity]|exact Logic.I]|].
  split; [destruct (0 <? _); [apply wsum_turned; [exact N|reflexivity|reflexivity|reflexivity]|exact Logic.I]|].
  split; [destruct (0 <? _); [apply orp_turned; reflexivity|exact Logic.I]|].
  destruct (0 <? _); [apply orp_turned; reflexivity|exact Logic.I].
Qed.
Lemma both_tr : forall A (R : A -> A -> Prop), (forall a, R a a) -> forall o, both (turned R) o (option_map tr o).
Proof. intros A R H [a|]; cbn [option_map both]; [now apply turned_tr|exact Logic.I]. Qed.
Lemma turned_fobs_T : forall o, turned_fobs J o (T o).
Proof.
  intro o. unfold turned_fobs. cbn [tr_fobs f_image f_weight f_jac f_psf f_mfrac f_noise f_bmask f_ormask].
  split; [apply turned_tr; reflexivity|]. split; [apply turned_tr; reflexivity|]. split; [reflexivity|]. split.
  { destruct (f_psf o) as [p|]; cbn [option_map both]; [|exact Logic.I]. split; [apply turned_tr; reflexivity|]. split; [apply turned_tr; reflexivity|reflexivity]. }
  split; [apply both_tr; reflexivity|]. split; [apply both_tr; reflexivity|]. split; apply both_tr; reflexivity.
Qed.
Lemma make_coadd_turned : forall mb sb, outcomes (turned_coadd J) (make_coadd_obs mb sb) (make_coadd_obs (map (map T) mb) sb).
Proof.
  intros mb sb. unfold make_coadd_obs.
  assert (ZL : zlen (map (map T) mb) = zlen mb) by (unfold zlen; now rewrite map_length). rewrite ZL.
  assert (ONE : forall b, outcomes (turned_coadd J) (do o <- band_obs mb b; Ok (Some o, 0)) (do o <- band_obs (map (map T) mb) b; Ok (Some o, 0))).
  { intro b. rewrite band_obs_turned. destruct (band_obs mb b); cbn [obind outcomes]; [|reflexivity]. split; [reflexivity|]. apply turned_fobs_T. }
  assert (BAD : outcomes (turned_coadd J) (Ok (None, flag_value INCONSISTENT_BANDS)) (Ok (None, flag_value INCONSISTENT_BANDS))) by (split; [reflexivity|exact Logic.I]).
  destruct (zlen mb =? 1).
  { destruct (py_index sb 0) as [s0|]; cbn [obind]; [|reflexivity]. destruct (s0 =? 0); [apply ONE|exact BAD]. }
  assert (MANY : outcomes (turned_coadd J)
    (if existsb (fun s => zlen mb <=? s) sb then Ok (None, flag_value INCONSISTENT_BANDS)
     else do s0 <- py_index sb 0; do fo <- band_obs mb s0; do ok <- all_consistent mb fo (tl sb);
       if negb ok then Ok (None, flag_value INCONSISTENT_BANDS)
       else do obs <- omap (band_obs mb) sb; match f_psf fo with None => Raise AttributeError | Some fp => Ok (coadd_many obs fo fp) end)
    (if existsb (fun s => zlen mb <=? s) sb then Ok (None, flag_value INCONSISTENT_BANDS)
     else do s0 <- py_index sb 0; do fo <- band_obs (map (map T) mb) s0; do ok <- all_consistent (map (map T) mb) fo (tl sb);
       if negb ok then Ok (None, flag_value INCONSISTENT_BANDS)
       else do obs <- omap (band_obs (map (map T) mb)) sb; match f_psf fo with None => Raise AttributeError | Some fp => Ok (coadd_many obs fo fp) end)).
  { destruct (existsb _ sb); [exact BAD|]. destruct (py_index sb 0) as [s0|]; cbn [obind]; [|reflexivity].
    rewrite band_obs_turned. destruct (band_obs mb s0) as [fo|]; cbn [obind]; [|reflexivity]. rewrite all_consistent_turned.
    destruct (all_consistent mb fo (tl sb)) as [ok|]; cbn [obind]; [|reflexivity]. destruct (negb ok); [exact BAD|].
    rewrite omap_turned. destruct (omap (band_obs mb) sb) as [obs|]; cbn [obind]; [|reflexivity]. cbn [tr_fobs f_psf].
    destruct (f_psf fo) as [fp|]; cbn [option_map outcomes]; [|reflexivity]. apply coadd_many_turned. }
  destruct sb as [|s [|s1 sb]]; [exact MANY| |exact MANY].
  destruct (s <? zlen mb); [apply ONE|exact BAD].
Qed.
(** The symmetrization of the weights of a stamp. *)
Lemma any_turned : forall A (p : A -> bool) a b, turned eq a b -> any_pixel p a = any_pixel p b.
Proof. intros A p a b H. unfold any_pixel. apply perm_existsb, Permutation_sym, pixels_turned, H. Qed.
Lemma sym_turned : forall o, outcomes (turned_fobs J) (symmetrize_obs_weights o) (symmetrize_obs_weights (T o)).
Proof.
  intro o. unfold symmetrize_obs_weights. cbn [tr_fobs f_weight]. rewrite <- (any_turned _ _ (f_weight o) (tr (f_weight o))) by (apply turned_tr; reflexivity).
  destruct (any_pixel _ _); [|apply turned_fobs_T]. cbn [tr nr nc]. rewrite (Z.eqb_sym (nc _)).
  destruct (Z.eqb_spec (nr (f_weight o)) (nc (f_weight o))) as [E|]; [|reflexivity]. cbn [outcomes].
  destruct (turned_fobs_T o) as (A & _ & B). split; [exact A|]. split; [|exact B]. cbn [with_weight f_weight].
  split; [reflexivity|]. split; [reflexivity|]. intros i j _. cbn [zero_where imap2 rot90 rot180 rot270 tr px nr nc]. rewrite <- E.
  destruct (Qle_bool (px (f_weight o) (nr (f_weight o) - 1 - j) i) 0), (Qle_bool (px (f_weight o) j (nr (f_weight o) - 1 - i)) 0); try reflexivity;
    destruct (Qle_bool _ 0); reflexivity.
Qed.
End Coadds.

(** ** Coadds of exposures *)
Section Exposures.
Import Lexp_model.
Notation T := tr_exposure.

Lemma finite_perm : forall l l', Permutation l l' -> Permutation (finite_of l) (finite_of l').
Proof. intros l l' P. unfold finite_of. now apply Permutation_flat_map. Qed.
Lemma ext_median_turned : forall l l', Permutation l l' -> both (both Qeq) (ext_median l) (ext_median l').
Proof.
  intros l l' P. unfold ext_median. rewrite <- (Permutation_length P). pose proof (qsort_turned _ _ (finite_perm l l' P)) as F.
  destruct (List.length l); [exact Logic.I|]. set (a := Nat.div2 _). set (b := Nat.div2 (S n)).
  pose proof (F2_nth_error _ _ F a) as A. pose proof (F2_nth_error _ _ F b) as B.
  destruct (nth_error (qsort (finite_of l)) a), (nth_error (qsort (finite_of l')) a); cbn [both] in A; try contradiction; [|exact Logic.I].
  destruct (nth_error (qsort (finite_of l)) b), (nth_error (qsort (finite_of l')) b); cbn [both] in B; try contradiction; [|exact Logic.I].
  cbn [both]. now rewrite A, B.
Qed.
Lemma exp_weight_turned : forall e, both Qeq (band_weight e) (band_weight (T e)).
Proof.
  intro e. unfold band_weight. cbn [tr_exposure e_var].
  pose proof (ext_median_turned _ _ (perm_filter _ vpos _ _ (Permutation_sym (pixels_tr _ (e_var e))))) as H.
  destruct (ext_median _) as [[a|]|], (ext_median _) as [[b|]|]; cbn [both vinv] in *; try contradiction; try exact Logic.I; [now rewrite H|reflexivity].
Qed.
Lemma bw_turned : forall e, (bw e == bw (T e))%Q.
Proof.
  intro e. unfold bw. pose proof (exp_weight_turned e) as H. destruct (band_weight e), (band_weight (T e)); cbn [both] in H; try contradiction; [exact H|reflexivity].
Qed.
Lemma center_turned : forall e, psf_at_center (T e) = match psf_at_center e with Ok p => Ok (tr p) | Raise x => Raise x end.
Proof. intro e. unfold psf_at_center. cbn [tr_exposure e_psf e_image]. destruct (e_psf e); reflexivity. Qed.
Lemma same_size_turned : forall A B (a : img A) (b : img B), same_size (tr a) (tr b) = same_size a b.
Proof. intros. unfold same_size. cbn [tr nr nc]. apply andb_comm. Qed.
Lemma psfs_turned : forall e0 (p0 : img Q) es,
  omap (fun e => do p <- psf_at_center e; if same_size (e_image e) (e_image (T e0)) && same_size p (tr p0) then Ok p else Raise ValueError) (map T es) =
  match omap (fun e => do p <- psf_at_center e; if same_size (e_image e) (e_image e0) && same_size p p0 then Ok p else Raise ValueError) es with
  | Ok l => Ok (map tr l) | Raise x => Raise x end.
Proof.
  intros e0 p0. induction es as [|e es IH]; [reflexivity|]. cbn [map omap]. rewrite center_turned.
  destruct (psf_at_center e) as [p|]; cbn [obind]; [|reflexivity]. cbn [tr_exposure e_image]. rewrite !same_size_turned.
  destruct (_ && _); cbn [obind]; [|reflexivity]. cbn [tr_exposure e_image] in IH. rewrite IH. destruct (omap _ es); reflexivity.
Qed.
Lemma zero_turned : forall r c, turned Qeq (ifill r c 0%Q) (ifill c r 0%Q).
Proof. intros. split; [reflexivity|]. split; [reflexivity|]. intros. reflexivity. Qed.
Lemma fold_turned : forall (f : exposure -> img Q -> Z -> Z -> Q) r c,
  (forall e a b i j, (px a i j == px b j i)%Q -> (f e a i j == f (T e) b j i)%Q) -> forall es,
  turned Qeq (fold_left (fun acc e => mkImg r c (f e acc)) es (ifill r c 0%Q)) (fold_left (fun acc e => mkImg c r (f e acc)) (map T es) (ifill c r 0%Q)).
Proof.
  intros f r c H es. pose proof (zero_turned r c) as Z. assert (R : nr (ifill r c 0%Q) = r) by reflexivity. assert (C : nc (ifill r c 0%Q) = c) by reflexivity.
  revert Z R C. generalize (ifill r c 0%Q) (ifill c r 0%Q). induction es as [|e es IH]; intros a b Z R C; cbn [map fold_left]; [exact Z|].
  apply IH; [|reflexivity|reflexivity]. destruct Z as (_ & _ & V). split; [reflexivity|]. split; [reflexivity|]. intros i j I. cbn [px]. apply H, V.
  unfold inside in *. cbn [nr nc] in I. now rewrite R, C.
Qed.
Lemma sum_image_turned : forall es r c, turned Qeq (sum_image es r c) (sum_image (map T es) c r).
Proof.
  intros es r c. unfold sum_image.
  apply (fold_turned (fun e acc i j => if vpos (px (e_var e) i j) then (px acc i j + px (e_image e) i j * bw e)%Q else px acc i j)).
  intros e a b i j V. cbn [tr_exposure e_var e_image tr px]. destruct (vpos _); [|exact V].
  change (mkExp (e_y0 e) (e_x0 e) (tr (e_image e)) (tr (e_var e)) (tr (e_mask e)) (option_map (fun draw x y => tr (draw y x)) (e_psf e)) (e_wcs e)) with (T e).
  rewrite V, (bw_turned e). reflexivity.
Qed.
Lemma sum_weight_turned : forall es r c, turned Qeq (sum_weight es r c) (sum_weight (map T es) c r).
Proof.
  intros es r c. unfold sum_weight.
  apply (fold_turned (fun e acc i j => if vpos (px (e_var e) i j) then (px acc i j + vinv (px (e_var e) i j))%Q else px acc i j)).
  intros e a b i j V. cbn [tr_exposure e_var e_image tr px]. destruct (vpos _); [|exact V]. now rewrite V.
Qed.
Lemma sum_psf_turned : forall ps w w' r c, Forall2 Qeq w w' ->
  turned Qeq (sum_psf (combine ps w) r c) (sum_psf (combine (map tr ps) w') c r).
Proof.
  intros ps w w' r c F. unfold sum_psf. pose proof (zero_turned r c) as Z. revert Z. generalize (ifill r c 0%Q) (ifill c r 0%Q). revert w w' F.
  induction ps as [|p ps IH]; intros w w' F a b Z; cbn [map combine fold_left]; [exact Z|].
  destruct F as [|u v w w' E F]; cbn [fold_left]; [exact Z|]. apply IH; [exact F|]. cbn [fst snd]. destruct Z as (R & C & V).
  split; [exact R|]. split; [exact C|]. intros i j I. cbn [imap2 px tr]. now rewrite (V i j I), E.
Qed.
Lemma or_masks_turned : forall es a b, turned eq a b -> turned eq (or_masks es a) (or_masks (map T es) b).
Proof.
  unfold or_masks. induction es as [|e es IH]; intros a b Z; cbn [map fold_left]; [exact Z|]. apply IH. destruct Z as (R & C & V).
  split; [exact R|]. split; [exact C|]. intros i j I. cbn [imap2 px tr_exposure e_mask tr]. now rewrite (V i j I).
Qed.
Lemma normalize_turned : forall a b, turned Qeq a b -> turned Qeq (normalize a) (normalize b).
Proof.
  intros a b H. pose proof (qsum_pixels_turned (fun v => v) a b (fun x y E => E) H) as S. rewrite !map_id in S.
  destruct H as (R & C & V). split; [exact R|]. split; [exact C|]. intros i j I. unfold normalize. cbn [imap px]. now rewrite (V i j I), S.
Qed.
Lemma exposures_turned : forall es, outcomes (both turned_coadded) (coadd_exposures es) (coadd_exposures (map T es)).
Proof.
  intro es. destruct es as [|e0 r]; [exact Logic.I|]. cbn [map]. unfold coadd_exposures. rewrite center_turned.
  destruct (psf_at_center e0) as [p0|]; cbn [obind]; [|reflexivity].
  change (T e0 :: map T r) with (map T (e0 :: r)). rewrite psfs_turned. set (es := e0 :: r).
  destruct (omap _ es) as [psfs|]; cbn [obind]; [|reflexivity].
  assert (NAN : existsb (fun e => match band_weight e with None => true | _ => false end) (map T es) = existsb (fun e => match band_weight e with None => true | _ => false end) es).
  { rewrite Order_proofs.existsb_map. clear. induction es as [|e es IH]; [reflexivity|]. cbn [existsb]. rewrite IH. f_equal.
    pose proof (exp_weight_turned e) as H. destruct (band_weight e), (band_weight (T e)); cbn [both] in H; try contradiction; reflexivity. }
  assert (F : Forall2 Qeq (map bw es) (map bw (map T es))) by (rewrite map_map; apply F2_map; intros; apply bw_turned).
  pose proof (F2_sum _ _ F) as W. rewrite NAN, <- (Order_proofs.Qle_bool_proper _ _ W). set (isnan := existsb _ es).
  destruct (negb isnan && _); [exact Logic.I|]. cbn [outcomes both]. unfold turned_coadded. cbn [c_image c_var c_mask c_psf c_wcs c_x0 c_y0].
  split; [|split; [|split; [|split; [|auto]]]].
  - destruct (sum_image_turned es (nr (e_image e0)) (nc (e_image e0))) as (R & C & V). split; [exact R|]. split; [exact C|]. intros i j I. cbn [imap px].
    destruct isnan; cbn [both]; [exact Logic.I|]. rewrite W. cbn [tr_exposure e_image tr nr nc]. apply Qmult_comp; [|reflexivity]. apply V, I.
  - destruct (sum_weight_turned es (nr (e_image e0)) (nc (e_image e0))) as (R & C & V). split; [exact R|]. split; [exact C|]. intros i j I. cbn [imap px].
    cbn [tr_exposure e_image tr nr nc]. pose proof (V i j I) as VV. rewrite (Order_proofs.Qle_bool_proper _ _ VV). destruct (negb _); cbn [both]; [now rewrite VV|exact Logic.I].
  - apply or_masks_turned. apply turned_tr. reflexivity.
  - pose proof (normalize_turned _ _ (sum_psf_turned psfs (map bw es) (map bw (map T es)) (nr p0) (nc p0) F)) as (R & C & V).
    split; [exact R|]. split; [exact C|]. intros i j I. cbn [imap px]. destruct isnan; cbn [both]; [exact Logic.I|]. apply V, I.
Qed.
End Exposures.

(** ** Masking *)
Section Masking.
Import Masking_model Masking_proofs.

Lemma any_img_turned : forall A (p : A -> bool) a b, turned eq a b -> img_any p a = img_any p b.
Proof.
  intros A p a b H. pose proof (pixels_turned _ _ _ H) as P. apply (perm_existsb _ p) in P. unfold pixels in P.
  rewrite !Order_proofs.existsb_map in P. symmetry. exact P.
Qed.
Lemma forallb_map : forall A B (f : A -> B) p l, forallb p (map f l) = forallb (fun x => p (f x)) l.
Proof. induction l as [|a l IH]; cbn; [reflexivity|now rewrite IH]. Qed.
Lemma all_img_turned : forall A (p : A -> bool) a b, turned eq a b -> img_all p a = img_all p b.
Proof.
  intros A p a b H. pose proof (pixels_turned _ _ _ H) as P. apply (perm_forallb _ p) in P. unfold pixels in P.
  rewrite !forallb_map in P. symmetry. exact P.
Qed.
Lemma turned_imap_eq : forall A B (f : A -> B) a b, turned eq a b -> turned eq (imap f a) (imap f b).
Proof. intros A B f a b (R & C & V). split; [exact R|]. split; [exact C|]. intros i j I. cbn [imap px]. now rewrite (V i j I). Qed.
(** The mask is at least as large as the plane. *)
Definition large {A B} (m : img A) (p : img B) : Prop := nr p <= nr m /\ nc p <= nc m.
Lemma large_inside : forall A B (m : img A) (p : img B) i j, large m p -> inside p i j -> inside m i j.
Proof. intros A B m p i j [H K] I. unfold inside in *. lia. Qed.
Lemma upd_turned : forall A (m m' : img bool) (f f' : Z -> Z -> A -> A) a b, turned eq m m' -> turned eq a b -> large m a ->
  (forall i j v, inside a i j -> f' j i v = f i j v) -> turned eq (upd_where m f a) (upd_where m' f' b).
Proof.
  intros A m m' f f' a b (_ & _ & M) (R & C & V) L H. split; [exact R|]. split; [exact C|]. intros i j I. cbn [upd_where px].
  change (inside a i j) in I. rewrite <- (M i j (large_inside _ _ _ _ _ _ L I)), <- (V i j I), (H i j _ I). reflexivity.
Qed.
Definition obs_large {A} (m : img A) (o : obs) : Prop :=
  large m (o_image o) /\ large m (o_noise o) /\ large m (o_weight o) /\ large m (o_bmask o) /\ (forall f, o_mfrac o = Some f -> large m f).

Lemma exit_turned : forall a b, turned_obs a b -> outcomes turned_obs (exit_writeable a) (exit_writeable b).
Proof.
  intros a b H. unfold exit_writeable. pose proof H as (_ & _ & W & _ & _ & IZ). rewrite <- IZ, <- (any_img_turned _ (Rltb 0) _ _ W).
  destruct (_ && _); [reflexivity|exact H].
Qed.
Lemma zero_weights_turned : forall m m' a b, turned eq m m' -> large m (o_weight a) -> turned_obs a b -> turned_obs (zero_weights m a) (zero_weights m' b).
Proof.
  intros m m' a b M L (I & N & W & B & F & IZ). unfold zero_weights.
  assert (W' : turned eq (upd_where m (fun _ _ _ => 0%R) (o_weight a)) (upd_where m' (fun _ _ _ => 0%R) (o_weight b))) by (apply upd_turned; auto).
  unfold turned_obs. cbn [o_image o_noise o_weight o_bmask o_mfrac o_ignore_zero_weight].
  rewrite <- (all_img_turned _ _ _ _ W'), <- (all_img_turned _ _ _ _ M), IZ. repeat (split; [assumption|]). reflexivity.
Qed.
Lemma mfrac_one_turned : forall m m' a b, turned eq m m' -> (forall f, a = Some f -> large m f) -> both (turned eq) a b ->
  both (turned eq) (option_map (upd_where m (fun _ _ _ => 1%R)) a) (option_map (upd_where m' (fun _ _ _ => 1%R)) b).
Proof.
  intros m m' [a|] [b|] M L H; cbn [both option_map] in *; try contradiction; [|exact Logic.I]. apply upd_turned; auto.
Qed.
Lemma edge_obs_turned : forall ap ap' m m' bit a b, turned eq ap ap' -> turned eq m m' -> obs_large m a -> nr ap = nr m -> nc ap = nc m -> turned_obs a b ->
  outcomes turned_obs (apodize_edge_obs ap m bit a) (apodize_edge_obs ap' m' bit b).
Proof.
  intros ap ap' m m' bit a b A M (L1 & L2 & L3 & L4 & L5) RA CA (I & N & W & B & F & IZ). unfold apodize_edge_obs. apply exit_turned. apply zero_weights_turned; [exact M|exact L3|].
  assert (MUL : forall p q, large m p -> turned eq p q -> turned eq (upd_where m (fun i j v => (v * px ap i j)%R) p) (upd_where m' (fun i j v => (v * px ap' i j)%R) q)).
  { intros p q L H. apply upd_turned; [exact M|exact H|exact L|]. intros i j v X. destruct A as (_ & _ & VA). f_equal. symmetry. apply VA.
    pose proof (large_inside _ _ _ _ _ _ L X) as Y. unfold inside in *. now rewrite RA, CA. }
  unfold turned_obs. cbn [o_image o_noise o_weight o_bmask o_mfrac o_ignore_zero_weight].
  split; [now apply MUL|]. split; [now apply MUL|]. split; [exact W|]. split; [now apply upd_turned|]. split; [now apply mfrac_one_turned|exact IZ].
Qed.
Lemma apod_obs_turned : forall ap ap' m m' bit a b, turned eq ap ap' -> turned eq m m' -> obs_large m a -> nr ap = nr m -> nc ap = nc m -> turned_obs a b ->
  outcomes turned_obs (apodize_obs ap m bit a) (apodize_obs ap' m' bit b).
Proof.
  intros ap ap' m m' bit a b A M (L1 & L2 & L3 & L4 & L5) RA CA (I & N & W & B & F & IZ). unfold apodize_obs. apply exit_turned. apply zero_weights_turned; [exact M|exact L3|].
  assert (MUL : forall p q, large m p -> turned eq p q -> turned eq (imap2 Rmult p ap) (imap2 Rmult q ap')).
  { intros p q L (R & C & V). split; [exact R|]. split; [exact C|]. intros i j X. change (inside p i j) in X. cbn [imap2 px]. destruct A as (_ & _ & VA). rewrite <- (V i j X). f_equal. apply VA.
    pose proof (large_inside _ _ _ _ _ _ L X) as Y. unfold inside in *. now rewrite RA, CA. }
  unfold turned_obs. cbn [o_image o_noise o_weight o_bmask o_mfrac o_ignore_zero_weight].
  split; [now apply MUL|]. split; [now apply MUL|]. split; [exact W|]. split; [now apply upd_turned|]. split; [now apply mfrac_one_turned|exact IZ].
Qed.
Lemma omap_outcomes : forall A B (R : A -> A -> Prop) (S : B -> B -> Prop) (f g : A -> outcome B) l l',
  Forall2 R l l' -> (forall a b, In a l -> R a b -> outcomes S (f a) (g b)) -> outcomes (Forall2 S) (omap f l) (omap g l').
Proof.
  intros A B R S f g l l' F. induction F as [|a b l l' E F IH]; intro H; cbn [omap]; [constructor|].
  pose proof (H a b (or_introl eq_refl) E) as K. destruct (f a), (g b); cbn [outcomes obind] in *; try contradiction; [|exact K].
  specialize (IH (fun x y I => H x y (or_intror I))). destruct (omap f l), (omap g l'); cbn [outcomes obind] in *; try contradiction; [|exact IH]. now constructor.
Qed.
Lemma turned_obs_tr : forall o, turned_obs o (tr_obs o).
Proof.
  intro o. unfold turned_obs. cbn [tr_obs o_image o_noise o_weight o_bmask o_mfrac o_ignore_zero_weight].
  repeat (split; [first [apply turned_tr; reflexivity|apply both_tr; reflexivity]|]). reflexivity.
Qed.
Lemma obs2_tr : forall mb, Forall2 (Forall2 turned_obs) mb (map (map tr_obs) mb).
Proof.
  induction mb as [|l mb IH]; cbn [map]; constructor; [|exact IH]. clear. induction l; cbn [map]; constructor; [apply turned_obs_tr|assumption].
Qed.
Lemma first_tr : forall mb, first_obs (map (map tr_obs) mb) = match first_obs mb with Ok o => Ok (tr_obs o) | Raise e => Raise e end.
Proof. intros [|[|o l] mb]; reflexivity. Qed.

(** *** The edge frame *)
Lemma edge_turned : forall h r c, (0 < h)%R ->
  turned eq (build_square_apodization_mask h (ifill r c 1%R)) (build_square_apodization_mask h (ifill c r 1%R)).
Proof.
  intros h r c H. destruct (square_mask_shape h (ifill r c 1%R)) as [R1 C1]. destruct (square_mask_shape h (ifill c r 1%R)) as [R2 C2].
  cbn [ifill nr nc] in *. split; [congruence|]. split; [congruence|]. intros i j I. unfold inside in I. rewrite R1, C1 in I.
  pose proof (edge_mask_val h r c i j H ltac:(tauto) ltac:(tauto)) as A. pose proof (edge_mask_val h c r j i H ltac:(tauto) ltac:(tauto)) as B.
  unfold edge_mask in A, B. rewrite A, B. unfold Masking_spec.edge_factor. ring.
Qed.
Lemma edge_corrections_turned : forall mb h bit r c, (0 < h)%R -> Masking_spec.mb_shape r c mb ->
  outcomes (Forall2 (Forall2 turned_obs)) (apply_apodization_corrections mb h bit) (apply_apodization_corrections (map (map tr_obs) mb) h bit).
Proof.
  intros mb h bit r c H S. unfold apply_apodization_corrections. rewrite first_tr. destruct (first_obs mb) as [o0|e] eqn:E0; cbn [obind]; [|reflexivity].
  pose proof (first_obs_shape r c mb o0 S E0) as [R C]. cbn [tr_obs o_image tr nr nc]. rewrite R, C.
  pose proof (edge_turned h r c H) as T. destruct (square_mask_shape h (ifill r c 1%R)) as [R1 C1]. cbn [ifill nr nc] in R1, C1.
  set (ap := build_square_apodization_mask h (ifill r c 1%R)) in *. set (ap' := build_square_apodization_mask h (ifill c r 1%R)) in *.
  pose proof (turned_imap_eq _ _ (fun v => Rltb v 1) _ _ T) as M. rewrite <- (any_img_turned _ _ _ _ M). destruct (img_any _ _); [|apply obs2_tr].
  apply (omap_outcomes _ _ (Forall2 turned_obs) (Forall2 turned_obs)); [apply obs2_tr|]. intros l l' I F.
  apply (omap_outcomes _ _ turned_obs turned_obs); [exact F|]. intros a b Ia Tab.
  apply edge_obs_turned; [exact T|exact M| |reflexivity|reflexivity|exact Tab].
  destruct (S l a I Ia) as ([? ?] & [? ?] & [? ?] & [? ?] & MF). unfold obs_large, large. cbn [imap nr nc]. rewrite R1, C1.
  repeat split; try lia; match goal with K : o_mfrac a = Some _ |- _ => apply MF in K; destruct K; lia end.
Qed.

(** *** Bright objects *)
Lemma intersects_turned : forall h r c, intersects (h_x h) (h_y h) (h_r h) c r = intersects (h_y h) (h_x h) (h_r h) r c.
Proof. intros. unfold intersects. apply andb_comm. Qed.
Lemma do_mask_turned : forall cat flag a b, turned eq a b -> turned eq (do_mask_foreground cat flag a) (do_mask_foreground (map tr_hole cat) flag b).
Proof.
  intros cat flag. unfold do_mask_foreground. induction cat as [|h cat IH]; intros a b T; cbn [map fold_left]; [exact T|]. apply IH.
  pose proof T as (R & C & V). cbn [tr_hole h_x h_y h_r]. rewrite R, C, intersects_turned. destruct (negb _); [exact T|].
  split; [reflexivity|]. split; [reflexivity|]. intros i j I. change (inside a i j) in I. cbn [px]. rewrite (Rplus_comm ((h_x h - IZR j) ^ 2)%R), <- (V i j I). reflexivity.
Qed.
Lemma do_apod_turned : forall cat h0 a b, turned eq a b -> turned eq (do_apodization_mask cat h0 a) (do_apodization_mask (map tr_hole cat) h0 b).
Proof.
  intros cat h0. unfold do_apodization_mask. induction cat as [|h cat IH]; intros a b T; cbn [map fold_left]; [exact T|]. apply IH.
  pose proof T as (R & C & V). cbn [tr_hole h_x h_y h_r]. rewrite R, C, intersects_turned. destruct (negb _); [exact T|].
  split; [reflexivity|]. split; [reflexivity|]. intros i j I. change (inside a i j) in I. cbn [px]. rewrite (Rplus_comm ((IZR i - h_y h) ^ 2)%R), <- (V i j I). reflexivity.
Qed.
Lemma fill_turned : forall A r c (v : A), turned eq (ifill r c v) (ifill c r v).
Proof. intros. split; [reflexivity|]. split; [reflexivity|]. intros. reflexivity. Qed.
Lemma bmask_turned : forall cat r c bit, outcomes (turned eq) (make_foreground_bmask cat r c false bit) (make_foreground_bmask (map tr_hole cat) c r false bit).
Proof. intros. unfold make_foreground_bmask. cbn [outcomes]. apply do_mask_turned, fill_turned. Qed.
Lemma apmask_turned : forall cat r c h, outcomes (turned eq) (make_foreground_apodization_mask cat r c false h) (make_foreground_apodization_mask (map tr_hole cat) c r false h).
Proof. intros. unfold make_foreground_apodization_mask. cbn [outcomes]. apply do_apod_turned, fill_turned. Qed.
Lemma do_apod_shape : forall cat h a, nr (do_apodization_mask cat h a) = nr a /\ nc (do_apodization_mask cat h a) = nc a.
Proof.
  intros cat h. unfold do_apodization_mask. induction cat as [|x cat IH]; intro a; cbn [fold_left]; [auto|].
  destruct (negb _); [apply IH|]. match goal with |- context [fold_left _ cat ?im] => destruct (IH im) as [-> ->] end. auto.
Qed.
Lemma apodize_turned : forall mb cat h bit r c, Masking_spec.mb_shape r c mb ->
  outcomes (Forall2 (Forall2 turned_obs)) (apply_mask_apodize mb cat false h bit) (apply_mask_apodize (map (map tr_obs) mb) (map tr_hole cat) false h bit).
Proof.
  intros mb cat h bit r c S. unfold apply_mask_apodize. rewrite first_tr. destruct (first_obs mb) as [o0|e] eqn:E0; cbn [obind]; [|reflexivity].
  pose proof (first_obs_shape r c mb o0 S E0) as [R C]. cbn [tr_obs o_image tr nr nc]. rewrite R, C.
  unfold make_foreground_apodization_mask. cbn [obind]. pose proof (do_apod_turned cat h _ _ (fill_turned _ r c 1%R)) as T.
  destruct (do_apod_shape cat h (ifill r c 1%R)) as [R1 C1]. cbn [ifill nr nc] in R1, C1.
  set (ap := do_apodization_mask cat h (ifill r c 1%R)) in *. set (ap' := do_apodization_mask (map tr_hole cat) h (ifill c r 1%R)) in *.
  pose proof (turned_imap_eq _ _ (fun v => Rltb v 1) _ _ T) as M. rewrite <- (any_img_turned _ _ _ _ M). destruct (img_any _ _); [|apply obs2_tr].
  apply (omap_outcomes _ _ (Forall2 turned_obs) (Forall2 turned_obs)); [apply obs2_tr|]. intros l l' I F.
  apply (omap_outcomes _ _ turned_obs turned_obs); [exact F|]. intros a b Ia Tab.
  apply apod_obs_turned; [exact T|exact M| |reflexivity|reflexivity|exact Tab].
  destruct (S l a I Ia) as ([? ?] & [? ?] & [? ?] & [? ?] & MF). unfold obs_large, large. cbn [imap nr nc]. rewrite R1, C1.
  repeat split; try lia; match goal with K : o_mfrac a = Some _ |- _ => apply MF in K; destruct K; lia end.
Qed.

(** *** The whole masking step with the method "apodize" *)
Lemma exit_ok : forall a b, exit_writeable a = Ok b -> b = a.
Proof. intros a b H. unfold exit_writeable in H. destruct (_ && _); [discriminate|]. now apply Ok_inj in H. Qed.
Lemma apodize_obs_shape : forall ap m bit r c o o', apodize_obs ap m bit o = Ok o' -> Masking_spec.obs_shape r c o -> Masking_spec.obs_shape r c o'.
Proof.
  intros ap m bit r c o o' H S. unfold apodize_obs in H. apply exit_ok in H. subst o'. destruct S as ([? ?] & [? ?] & [? ?] & [? ?] & MF).
  unfold Masking_spec.obs_shape, Masking_spec.has_shape, zero_weights. cbn [o_image o_noise o_weight o_bmask o_mfrac imap2 upd_where nr nc].
  repeat (split; [split; assumption|]). intros mf E. destruct (o_mfrac o) as [f|]; [|discriminate]. cbn [option_map] in E. apply Some_inj in E. subst mf.
  exact (MF f eq_refl).
Qed.
Lemma omap_in : forall A B (f : A -> outcome B) l l' b, omap f l = Ok l' -> In b l' -> exists a, In a l /\ f a = Ok b.
Proof.
  intros A B f. induction l as [|a l IH]; intros l' b H I; cbn [omap] in H; [apply Ok_inj in H; subst; destruct I|].
  destruct (f a) as [x|] eqn:E; cbn [obind] in H; [|discriminate]. destruct (omap f l) as [m|] eqn:E2; cbn [obind] in H; [|discriminate].
  apply Ok_inj in H. subst l'. destruct I as [<-|I]; [exists a; split; [now left|exact E]|].
  destruct (IH m b eq_refl I) as (a' & I' & E'). exists a'. split; [now right|exact E'].
Qed.
Lemma apodize_shape : forall mb cat h bit r c out, Masking_spec.mb_shape r c mb -> apply_mask_apodize mb cat false h bit = Ok out -> Masking_spec.mb_shape r c out.
Proof.
  intros mb cat h bit r c out S H. unfold apply_mask_apodize in H. destruct (first_obs mb) as [o0|]; cbn [obind] in H; [|discriminate].
  unfold make_foreground_apodization_mask in H. cbn [obind] in H. destruct (img_any _ _); [|apply Ok_inj in H; now subst].
  intros l o Il Io. destruct (omap_in _ _ _ _ _ _ H Il) as (l0 & I0 & E0). destruct (omap_in _ _ _ _ _ _ E0 Io) as (x & Ix & Ex).
  eapply apodize_obs_shape; [exact Ex|]. exact (S l0 x I0 Ix).
Qed.
Lemma first_turned : forall mb mb', Forall2 (Forall2 turned_obs) mb mb' -> outcomes turned_obs (first_obs mb) (first_obs mb').
Proof.
  intros mb mb' F. destruct F as [|l l' mb mb' E F]; [reflexivity|]. destruct E as [|o o' l l' E E']; [reflexivity|]. exact E.
Qed.
Lemma corrections_turned : forall W (sv sv' : services W) mb cat rad bit ebit ibit h iso r c, Masking_spec.mb_shape r c mb ->
  outcomes (Forall2 (Forall2 turned_obs))
    (apply_foreground_masking_corrections sv mb cat "apodize" rad bit ebit ibit false h iso)
    (apply_foreground_masking_corrections sv' (map (map tr_obs) mb) (map tr_hole cat) "apodize" rad bit ebit ibit false h iso).
Proof.
  intros W sv sv' mb cat rad bit ebit ibit h iso r c S. unfold apply_foreground_masking_corrections.
  cbn [String.eqb Ascii.eqb Bool.eqb]. pose proof (apodize_turned mb cat h bit r c S) as A.
  destruct (apply_mask_apodize mb cat false h bit) as [m1|] eqn:E1, (apply_mask_apodize (map (map tr_obs) mb) (map tr_hole cat) false h bit) as [m2|]; cbn [outcomes obind] in *; try contradiction; [|exact A].
  pose proof (apodize_shape _ _ _ _ _ _ _ S E1) as S1. destruct (Rltb 0 rad); [|exact A].
  pose proof (first_turned _ _ A) as FT. destruct (first_obs m1) as [o0|] eqn:E0, (first_obs m2) as [o0'|]; cbn [outcomes obind] in *; try contradiction; [|exact FT].
  destruct FT as ((RI & CI & _) & _). pose proof (first_obs_shape r c m1 o0 S1 E0) as [R C]. rewrite RI, CI, R, C.
  unfold make_foreground_bmask. cbn [obind]. rewrite !map_map.
  assert (EC : map (fun x => mkHole (h_x (tr_hole x)) (h_y (tr_hole x)) (h_r (tr_hole x) + rad)) cat = map tr_hole (map (fun h => mkHole (h_x h) (h_y h) (h_r h + rad)) cat)) by (rewrite map_map; reflexivity).
  rewrite EC. pose proof (do_mask_turned (map (fun h => mkHole (h_x h) (h_y h) (h_r h + rad)) cat) ebit _ _ (fill_turned _ r c 0)) as (XR & XC & XV).
  destruct (do_mask_shape (map (fun h => mkHole (h_x h) (h_y h) (h_r h + rad)) cat) ebit (ifill r c 0)) as [SR SC]. cbn [ifill nr nc] in SR, SC.
  apply (omap_outcomes _ _ (Forall2 turned_obs) (Forall2 turned_obs)); [exact A|]. intros l l' Il F.
  apply (omap_outcomes _ _ turned_obs turned_obs); [exact F|]. intros a b Ia (TI & TN & TW & TB & TM & TZ). apply exit_turned.
  unfold turned_obs. cbn [o_image o_noise o_weight o_bmask o_mfrac o_ignore_zero_weight]. split; [exact TI|]. split; [exact TN|]. split; [exact TW|]. split; [|split; [exact TM|exact TZ]].
  destruct TB as (BR & BC & BV). split; [exact BR|]. split; [exact BC|]. intros i j I. change (inside (o_bmask a) i j) in I. cbn [imap2 px]. rewrite <- (BV i j I). f_equal.
  apply XV. destruct (S1 l a Il Ia) as (_ & _ & _ & [B1 B2] & _). unfold inside in *. rewrite SR, SC. rewrite B1, B2 in I. exact I.
Qed.
End Masking.

(** ** Masking of the lsst code *)
Section Lmask.
Import Masking_model Lmask_model Dict.

Lemma dict_tr : forall V (R : V -> V -> Prop) (f : V -> V) d, (forall kv, In kv d -> R (snd kv) (f (snd kv))) -> turned_dict R d (tr_dict f d).
Proof.
  intros V R f. induction d as [|kv d IH]; intro H; cbn; constructor; [split; [reflexivity|apply H; now left]|]. apply IH. intros; apply H; now right.
Qed.
Lemma dict_weaken : forall V (R S : V -> V -> Prop) a b, (forall x y, R x y -> S x y) -> turned_dict R a b -> turned_dict S a b.
Proof. intros V R S a b H. induction 1 as [|x y a b [E K] F IH]; constructor; auto. Qed.
Lemma skeys_turned : forall V (R : V -> V -> Prop) a b, turned_dict R a b -> skeys a = skeys b.
Proof. intros V R a b. induction 1 as [|x y a b [E K] F IH]; [reflexivity|]. unfold skeys in *. cbn [map]. now rewrite E, IH. Qed.
Lemma sget_turned : forall V (R : V -> V -> Prop) k a b, turned_dict R a b -> both R (sget k a) (sget k b).
Proof.
  intros V R k a b. induction 1 as [|[k1 x] [k2 y] a b [E K] F IH]; [exact Logic.I|]. cbn [fst snd] in E, K. subst k2. cbn [sget].
  destruct (String.eqb k k1); [exact K|exact IH].
Qed.
Lemma sput_turned : forall V (R : V -> V -> Prop) k v w a b, R v w -> turned_dict R a b -> turned_dict R (sput k v a) (sput k w b).
Proof.
  intros V R k v w a b H. induction 1 as [|[k1 x] [k2 y] a b [E K] F IH]; cbn [sput]; [constructor; [split; [reflexivity|exact H]|constructor]|].
  cbn [fst snd] in E, K. subst k2. destruct (String.eqb k k1); constructor; auto.
Qed.
Lemma dmod_turned : forall V (R : V -> V -> Prop) f g k a b, (forall x y, R x y -> R (f x) (g y)) -> turned_dict R a b ->
  outcomes (turned_dict R) (dmod f k a) (dmod g k b).
Proof.
  intros V R f g k a b H F. unfold dmod, dget. pose proof (sget_turned V R k a b F) as G.
  destruct (sget k a), (sget k b); cbn [both] in G; try contradiction; cbn [obind outcomes]; [|reflexivity]. apply sput_turned; auto.
Qed.
Lemma dmod_opt_turned : forall V (R : V -> V -> Prop) f g k a b, (forall x y, R x y -> R (f x) (g y)) -> both (turned_dict R) a b ->
  outcomes (both (turned_dict R)) (dmod_opt f k a) (dmod_opt g k b).
Proof.
  intros V R f g k [a|] [b|] H F; cbn [both] in F; try contradiction; [|exact Logic.I]. unfold dmod_opt. pose proof (dmod_turned V R f g k a b H F) as K.
  destruct (dmod f k a), (dmod g k b); cbn [outcomes obind both] in *; try contradiction; exact K.
Qed.

Section Shapes.
Variables r c : Z.
Definition RE (a b : exposure) : Prop := turned_lexp a b /\ lexp_shape r c a.
Definition RP {A} (a b : img A) : Prop := turned eq a b /\ nr a = r /\ nc a = c.
Definition RW (a b : world) : Prop :=
  turned_dict RE (w_exp a) (w_exp b) /\ both (turned_dict RE) (w_noise a) (w_noise b) /\
  both (turned_dict RP) (w_mfrac a) (w_mfrac b) /\ both (Forall2 RP) (w_ormasks a) (w_ormasks b).

Lemma RP_upd : forall A (m m' : img bool) (f f' : Z -> Z -> A -> A) a b, RP m m' -> RP a b ->
  (forall i j v, 0 <= i < r -> 0 <= j < c -> f' j i v = f i j v) -> RP (upd_where m f a) (upd_where m' f' b).
Proof.
  intros A m m' f f' a b (M & MR & MC) (T & R & C) H. split; [|split; [exact R|exact C]].
  apply upd_turned; [exact M|exact T|unfold large; lia|]. intros i j v I. unfold inside in I. rewrite R, C in I. now apply H.
Qed.
Lemma apodize_exp_turned : forall ap ap' m m' bit a b, RP ap ap' -> RP m m' -> RE a b -> RE (apodize_exp ap m bit a) (apodize_exp ap' m' bit b).
Proof.
  intros ap ap' m m' bit a b A M ((T1 & T2 & T3) & (S1 & S2 & S3)).
  assert (P1 : RP (e_image a) (e_image b)) by (split; assumption). assert (P2 : RP (e_var a) (e_var b)) by (split; assumption). assert (P3 : RP (e_mask a) (e_mask b)) by (split; assumption).
  destruct (RP_upd _ m m' (fun i j v => (v * px ap i j)%R) (fun i j v => (v * px ap' i j)%R) _ _ M P1) as [Q1 Q1'].
  { intros i j v I J. destruct A as ((_ & _ & V) & R & C). f_equal. symmetry. apply V. unfold inside. rewrite R, C. tauto. }
  destruct (RP_upd _ m m' (fun _ _ _ => None) (fun _ _ _ => None) _ _ M P2) as [Q2 Q2']; [auto|].
  destruct (RP_upd _ m m' (fun _ _ v => Z.lor v bit) (fun _ _ v => Z.lor v bit) _ _ M P3) as [Q3 Q3']; [auto|].
  split; [split; [exact Q1|]; split; [exact Q2|exact Q3]|]. split; [exact Q1'|]. split; [exact Q2'|exact Q3'].
Qed.
Lemma F2_map_turned : forall A (R : A -> A -> Prop) f g a b, (forall x y, R x y -> R (f x) (g y)) -> Forall2 R a b -> Forall2 R (map f a) (map g b).
Proof. intros A R f g a b H. induction 1; cbn [map]; constructor; auto. Qed.
Lemma apodize_band_turned : forall ap ap' m m' bit k a b, RP ap ap' -> RP m m' -> RW a b -> outcomes RW (apodize_band ap m bit a k) (apodize_band ap' m' bit b k).
Proof.
  intros ap ap' m m' bit k a b A M (E & N & F & O). unfold apodize_band.
  pose proof (dmod_turned _ RE (apodize_exp ap m bit) (apodize_exp ap' m' bit) k _ _ (fun x y => apodize_exp_turned ap ap' m m' bit x y A M) E) as D1.
  destruct (dmod _ k (w_exp a)), (dmod _ k (w_exp b)); cbn [outcomes obind] in *; try contradiction; [|exact D1].
  pose proof (dmod_opt_turned _ RE (apodize_exp ap m bit) (apodize_exp ap' m' bit) k _ _ (fun x y => apodize_exp_turned ap ap' m m' bit x y A M) N) as D2.
  destruct (dmod_opt _ k (w_noise a)), (dmod_opt _ k (w_noise b)); cbn [outcomes obind] in *; try contradiction; [|exact D2].
  assert (ONE : forall x y, RP x y -> RP (upd_where m (fun _ _ _ => 1%R) x) (upd_where m' (fun _ _ _ => 1%R) y)) by (intros x y H; apply RP_upd; auto).
  pose proof (dmod_opt_turned _ RP _ _ k _ _ ONE F) as D3.
  destruct (dmod_opt _ k (w_mfrac a)), (dmod_opt _ k (w_mfrac b)); cbn [outcomes obind] in *; try contradiction; [|exact D3].
  unfold RW. cbn [w_exp w_noise w_mfrac w_ormasks]. split; [exact D1|]. split; [exact D2|]. split; [exact D3|].
  destruct (w_ormasks a), (w_ormasks b); cbn [both option_map] in *; try contradiction; [|exact Logic.I]. apply F2_map_turned; [|exact O].
  intros x y H. apply RP_upd; auto.
Qed.
Lemma over_turned : forall f g ks, (forall k a b, RW a b -> outcomes RW (f a k) (g b k)) -> forall a b, RW a b -> outcomes RW (over f ks a) (over g ks b).
Proof.
  intros f g ks H. induction ks as [|k ks IH]; intros a b W; cbn [over]; [exact W|]. pose proof (H k a b W) as K.
  destruct (f a k), (g b k); cbn [outcomes obind] in *; try contradiction; [|exact K]. now apply IH.
Qed.
Lemma apodize_all_turned : forall ap ap' bit a b, RP ap ap' -> RW a b -> outcomes RW (apodize_all ap bit a) (apodize_all ap' bit b).
Proof.
  intros ap ap' bit a b A W. unfold apodize_all. pose proof A as (T & R & C). pose proof (turned_imap_eq _ _ (fun v => Rltb v 1) _ _ T) as M.
  rewrite <- (any_img_turned _ _ _ _ M). destruct (img_any _ _); [|exact W]. pose proof W as (E & _). rewrite <- (skeys_turned _ _ _ _ E).
  apply over_turned; [|exact W]. intros k x y H. apply apodize_band_turned; [exact A|split; [exact M|split; [exact R|exact C]]|exact H].
Qed.
Lemma first_exp_turned : forall a b, RW a b -> outcomes RE (first_exp a) (first_exp b).
Proof. intros a b (E & _). unfold first_exp. destruct E as [|[k x] [k' y] l l' [E K] F]; [reflexivity|exact K]. Qed.
Lemma expand_band_turned : forall ex ex' k a b, RP ex ex' -> RW a b -> outcomes RW (expand_band ex a k) (expand_band ex' b k).
Proof.
  intros ex ex' k a b X (E & N & F & O). unfold expand_band.
  assert (OR : forall x y, RP x y -> RP (imap2 Z.lor x ex) (imap2 Z.lor y ex')).
  { intros x y ((R & C & V) & SR & SC). split; [|split; [exact SR|exact SC]]. split; [exact R|]. split; [exact C|]. intros i j I. change (inside x i j) in I. cbn [imap2 px].
    rewrite <- (V i j I). f_equal. destruct X as ((_ & _ & VX) & XR & XC). apply VX. unfold inside in *. rewrite XR, XC. rewrite SR, SC in I. exact I. }
  assert (EX : forall x y, RE x y -> RE (expand_exp ex x) (expand_exp ex' y)).
  { intros x y ((T1 & T2 & T3) & (S1 & S2 & S3)). destruct (OR (e_mask x) (e_mask y)) as [Q Q']; [split; assumption|].
    split; [split; [exact T1|]; split; [exact T2|exact Q]|]. split; [exact S1|]. split; [exact S2|exact Q']. }
  pose proof (dmod_turned _ RE (expand_exp ex) (expand_exp ex') k _ _ EX E) as D1.
  destruct (dmod _ k (w_exp a)), (dmod _ k (w_exp b)); cbn [outcomes obind] in *; try contradiction; [|exact D1].
  pose proof (dmod_opt_turned _ RE (expand_exp ex) (expand_exp ex') k _ _ EX N) as D2.
  destruct (dmod_opt _ k (w_noise a)), (dmod_opt _ k (w_noise b)); cbn [outcomes obind] in *; try contradiction; [|exact D2].
  unfold RW. cbn [w_exp w_noise w_mfrac w_ormasks]. split; [exact D1|]. split; [exact D2|]. split; [exact F|].
  destruct (w_ormasks a), (w_ormasks b); cbn [both option_map] in *; try contradiction; [|exact Logic.I]. apply F2_map_turned; [|exact O]. intros x y H. now apply OR.
Qed.
Lemma RW_tr : forall w, world_shape r c w -> RW w (tr_world w).
Proof.
  intros w (S1 & S2 & S3 & S4).
  assert (TE : forall e, lexp_shape r c e -> RE e (tr_lexp e)).
  { intros e S. split; [|exact S]. split; [apply turned_tr; reflexivity|]. split; apply turned_tr; reflexivity. }
  unfold RW. cbn [tr_world w_exp w_noise w_mfrac w_ormasks]. rewrite Forall_forall in S1. split; [apply dict_tr; auto|].
  split; [destruct (w_noise w) as [d|]; cbn [option_map both]; [|exact Logic.I]; specialize (S2 d eq_refl); rewrite Forall_forall in S2; apply dict_tr; auto|].
  split; [destruct (w_mfrac w) as [d|]; cbn [option_map both]; [|exact Logic.I]; specialize (S3 d eq_refl); rewrite Forall_forall in S3; apply dict_tr; intros kv I; split; [apply turned_tr; reflexivity|exact (S3 kv I)]|].
  destruct (w_ormasks w) as [l|]; cbn [option_map both]; [|exact Logic.I]. specialize (S4 l eq_refl). induction S4 as [|m l Sm S4 IH]; cbn [map]; constructor; [|exact IH].
  split; [apply turned_tr; reflexivity|exact Sm].
Qed.
Lemma RW_turned : forall a b, RW a b -> turned_world a b.
Proof.
  intros a b (E & N & F & O). split; [eapply dict_weaken; [|exact E]; intros x y H; exact (proj1 H)|].
  split; [destruct (w_noise a), (w_noise b); cbn [both] in *; try contradiction; [|exact Logic.I]; eapply dict_weaken; [|exact N]; intros x y H; exact (proj1 H)|].
  split; [destruct (w_mfrac a), (w_mfrac b); cbn [both] in *; try contradiction; [|exact Logic.I]; eapply dict_weaken; [|exact F]; intros x y H; exact (proj1 H)|].
  destruct (w_ormasks a), (w_ormasks b); cbn [both] in *; try contradiction; [|exact Logic.I]. induction O as [|x y l l' H O IH]; constructor; [exact (proj1 H)|exact IH].
Qed.
Lemma out_turned : forall a b, outcomes RW a b -> outcomes turned_world a b.
Proof. intros [a|] [b|] H; cbn [outcomes] in *; try contradiction; [now apply RW_turned|exact H]. Qed.

Lemma edge_RW : forall edge w, world_shape r c w -> outcomes RW (apply_edge edge w) (apply_edge edge (tr_world w)).
Proof.
  intros edge w S. pose proof (RW_tr w S) as W. unfold apply_edge. pose proof (first_exp_turned _ _ W) as F.
  destruct (first_exp w) as [e0|], (first_exp (tr_world w)) as [e0'|]; cbn [outcomes obind] in *; try contradiction; [|exact F].
  destruct F as (((R & C & _) & _) & ((SR & SC) & _)). rewrite R, C, SR, SC.
  assert (H : (0 < AP_RAD)%R) by (unfold AP_RAD; Lra.lra).
  apply apodize_all_turned; [|exact W]. split; [now apply edge_turned|]. destruct (Masking_proofs.square_mask_shape AP_RAD (ifill r c 1%R)) as [A B]. exact (conj A B).
Qed.
Lemma bright_RW : forall wcs xy0 info bit ebit w, world_shape r c w ->
  outcomes RW (apply_bright wcs xy0 info bit ebit w) (apply_bright (fun ra dec => swap (wcs ra dec)) (swap xy0) info bit ebit (tr_world w)).
Proof.
  intros wcs xy0 info bit ebit w S. pose proof (RW_tr w S) as W. unfold apply_bright. pose proof (first_exp_turned _ _ W) as F.
  destruct (first_exp w) as [e0|], (first_exp (tr_world w)) as [e0'|]; cbn [outcomes obind] in *; try contradiction; [|exact F].
  destruct F as (((R & C & _) & _) & ((SR & SC) & _)). rewrite R, C, SR, SC. unfold make_foreground_apodization_mask, make_foreground_bmask. cbn [obind].
  assert (H1 : map (local_hole (fun ra dec => swap (wcs ra dec)) (swap xy0)) info = map tr_hole (map (local_hole wcs xy0) info)) by (rewrite map_map; reflexivity).
  rewrite H1. set (holes := map (local_hole wcs xy0) info).
  assert (A : RP (do_apodization_mask holes AP_RAD (ifill r c 1%R)) (do_apodization_mask (map tr_hole holes) AP_RAD (ifill c r 1%R))).
  { split; [apply do_apod_turned, fill_turned|]. destruct (do_apod_shape holes AP_RAD (ifill r c 1%R)) as [A B]. exact (conj A B). }
  pose proof (apodize_all_turned _ _ bit _ _ A W) as D.
  destruct (apodize_all _ bit w) as [w1|], (apodize_all _ bit (tr_world w)) as [w2|]; cbn [outcomes obind] in *; try contradiction; [|exact D].
  assert (H2 : map (fun h => mkHole (h_x h) (h_y h) (h_r h + EXPAND_RAD)) (map tr_hole holes) = map tr_hole (map (fun h => mkHole (h_x h) (h_y h) (h_r h + EXPAND_RAD)) holes)) by (rewrite !map_map; reflexivity).
  rewrite H2. set (big := map (fun h => mkHole (h_x h) (h_y h) (h_r h + EXPAND_RAD)) holes).
  assert (X : RP (do_mask_foreground big ebit (ifill r c 0)) (do_mask_foreground (map tr_hole big) ebit (ifill c r 0))).
  { split; [apply do_mask_turned, fill_turned|]. destruct (Masking_proofs.do_mask_shape big ebit (ifill r c 0)) as [A1 B1]. exact (conj A1 B1). }
  rewrite <- (any_img_turned _ _ _ _ (proj1 X)). destruct (img_any _ _); [|exact D].
  pose proof D as (E & _). rewrite <- (skeys_turned _ _ _ _ E). apply over_turned; [|exact D]. intros k x y K. now apply expand_band_turned.
Qed.
End Shapes.
End Lmask.

(** ** Positions *)
Section Positions.
Import Shearpos_model Shearpos_proofs Shearpos_spec.
Local Open Scope R_scope.

Definition tr_mat (a : mat) : mat := mkMat (m11 a) (m10 a) (m01 a) (m00 a).
Lemma transform_turned : forall a j dims p, transform_pos (tr_mat a) (tr_jac j) (swap dims) (swap p) = swap (transform_pos a j dims p).
Proof.
  intros a j dims p. unfold transform_pos, get_vu, get_rowcol, swap, jdet, tr_mat, tr_jac.
  cbn [fst snd row0 col0 dvdrow dvdcol dudrow dudcol m00 m01 m10 m11].
  assert (E : dudcol j * dvdrow j - dudrow j * dvdcol j = dvdrow j * dudcol j - dvdcol j * dudrow j) by ring. rewrite E.
  apply pair_equal_spec. split; f_equal; f_equal; ring.
Qed.
Lemma matrix_turned : forall g1 g2, get_matrix (- g1, g2) = tr_mat (get_matrix (g1, g2)).
Proof.
  intros g1 g2. unfold get_matrix, tr_mat. cbn [m00 m01 m10 m11]. replace (- g1 * - g1) with (g1 * g1) by ring.
  f_equal; ring.
Qed.
Lemma inv_turned : forall a, mat_inv (tr_mat a) = match mat_inv a with Ok b => Ok (tr_mat b) | Raise e => Raise e end.
Proof.
  intro a. unfold mat_inv. assert (E : mat_det (tr_mat a) = mat_det a) by (unfold mat_det, tr_mat; cbn [m00 m01 m10 m11]; ring). rewrite E.
  destruct (Req_EM_T (mat_det a) 0); [reflexivity|]. unfold tr_mat. cbn [m00 m01 m10 m11]. reflexivity.
Qed.
Lemma galsim_turned : forall s step, get_galsim_shear (turned_type s) step = match get_galsim_shear s step with Ok g => Ok (- fst g, snd g) | Raise e => Raise e end.
Proof.
  intros s step. unfold turned_type, get_galsim_shear. destruct (String.eqb s "1p") eqn:E1; [|destruct (String.eqb s "1m") eqn:E2].
  - cbn [String.eqb Ascii.eqb Bool.eqb]. unfold galsim_shear. replace (- step * - step) with (step * step) by ring. destruct (Rlt_dec _ _); reflexivity.
  - cbn [String.eqb Ascii.eqb Bool.eqb]. unfold galsim_shear. replace (- step * - step) with (step * step) by ring. destruct (Rlt_dec _ _); [reflexivity|].
    cbn [fst snd]. now rewrite Ropp_involutive.
  - rewrite E1, E2. destruct (String.eqb s "2p"); [|destruct (String.eqb s "2m"); [|reflexivity]]; unfold galsim_shear; destruct (Rlt_dec _ _); try reflexivity; cbn [fst snd]; now rewrite Ropp_0.
Qed.
Lemma skip_turned : forall s, in_skip (turned_type s) = in_skip s.
Proof.
  intro s. unfold turned_type. destruct (String.eqb_spec s "1p") as [->|]; [reflexivity|]. destruct (String.eqb_spec s "1m") as [->|]; reflexivity.
Qed.
Lemma shear_turned : forall pos s j dims step,
  shear_positions (map swap pos) (turned_type s) (tr_jac j) (swap dims) step =
  match shear_positions pos s j dims step with Ok l => Ok (map swap l) | Raise e => Raise e end.
Proof.
  intros pos s j dims step. unfold shear_positions. rewrite skip_turned. destruct (in_skip s); [reflexivity|]. rewrite galsim_turned.
  destruct (get_galsim_shear s step) as [[g1 g2]|e]; cbn [obind]; [|reflexivity]. f_equal. rewrite !map_map. apply map_ext. intro p.
  cbn [fst snd]. rewrite matrix_turned. apply transform_turned.
Qed.
Lemma unshear_turned : forall pos s j dims step,
  unshear_positions (map swap pos) (turned_type s) (tr_jac j) (swap dims) step =
  match unshear_positions pos s j dims step with Ok l => Ok (map swap l) | Raise e => Raise e end.
Proof.
  intros pos s j dims step. unfold unshear_positions. rewrite skip_turned. destruct (in_skip s); [reflexivity|]. rewrite galsim_turned.
  destruct (get_galsim_shear s step) as [[g1 g2]|e]; cbn [obind]; [|reflexivity]. cbn [fst snd]. rewrite matrix_turned, inv_turned.
  destruct (mat_inv (get_matrix (g1, g2))); cbn [obind]; [|reflexivity]. f_equal. rewrite !map_map. apply map_ext. intro p. apply transform_turned.
Qed.
End Positions.

(** ** Interpolation *)
Section Interp.
Import Interp_model Interp_spec Interp_proofs.

Lemma swap_swap : forall A B (p : A * B), swap (swap p) = p.
Proof. intros A B [a b]. reflexivity. Qed.
Lemma bad_turned : forall m p, bad_at (tr m) (swap p) <-> bad_at m p.
Proof. intros m [i j]. unfold bad_at, inside. cbn [tr nr nc px swap fst snd]. tauto. Qed.
Lemma good_turned : forall m p, good_at (tr m) (swap p) <-> good_at m p.
Proof. intros m [i j]. unfold good_at, inside. cbn [tr nr nc px swap fst snd]. tauto. Qed.
Lemma good_near_turned : forall m b p, good_near (tr m) b (swap p) <-> good_near m b p.
Proof.
  intros m b p. unfold good_near. rewrite good_turned. split; intros (G & q & B & W); (split; [exact G|]); exists (swap q).
  - split; [apply bad_turned; now rewrite swap_swap|]. unfold within in *. cbn [swap fst snd] in *. tauto.
  - split; [now apply bad_turned|]. unfold within in *. cbn [swap fst snd] in *. tauto.
Qed.
Lemma interp_turned : forall A W build (image : img A) m maxfrac buff (w w' : option W) rng rng' iso_buff res res', even_handed build ->
  0 <= buff -> nr m = nr image -> nc m = nc image ->
  interpolate_image_at_mask build image m maxfrac buff false w rng iso_buff = Ok (Some res) ->
  interpolate_image_at_mask build (tr image) (tr m) maxfrac buff false w' rng' iso_buff = Ok (Some res') -> turned eq res res'.
Proof.
  intros A W build image m maxfrac buff w w' rng rng' iso_buff res res' EH HB MR MC H H'.
  destruct (interpolate_plain _ _ _ _ _ _ _ _ _ _ _ HB H) as (pts & f & B1 & R1 & C1 & N1 & P1 & G1 & V1).
  destruct (interpolate_plain _ _ _ _ _ _ _ _ _ _ _ HB H') as (pts' & f' & B2 & R2 & C2 & N2 & P2 & G2 & V2).
  cbn [tr nr nc] in R2, C2. split; [congruence|]. split; [congruence|]. intros i j I.
  assert (IM : inside m i j) by (unfold inside in *; rewrite MR, MC, <- R1, <- C1; exact I).
  destruct (px m i j) eqn:E.
  - assert (B : bad_at m (i, j)) by (split; assumption). pose proof (V1 (i, j) B) as X. pose proof (V2 (swap (i, j)) (proj2 (bad_turned m (i, j)) B)) as Y. cbn [swap fst snd] in X, Y. rewrite X, Y.
    symmetry. apply (EH pts pts' f f' N1 N2); [|exact B1|exact B2]. intros p v. rewrite P1, P2, good_near_turned. destruct p as [a b]. cbn [swap fst snd tr px]. reflexivity.
  - assert (B : good_at m (i, j)) by (split; assumption). pose proof (G1 (i, j) B) as X. pose proof (G2 (swap (i, j)) (proj2 (good_turned m (i, j)) B)) as Y. cbn [swap fst snd tr px] in X, Y. congruence.
Qed.
Lemma count_bad_turned : forall m, count_bad (tr m) = count_bad m.
Proof.
  intro m. unfold count_bad, zlen. f_equal.
  pose proof (Permutation_length (filter_turned (fun ij => px m (fst ij) (snd ij)) (fun ij => px (tr m) (fst ij) (snd ij)) (coords (nr m) (nc m)) _ (coords_perm _ _) (fun p _ => eq_refl))) as L.
  rewrite map_length in L. exact L.
Qed.
Lemma interp_none_turned : forall A W build build' (image image' : img A) m maxfrac buff fill (w w' : option W) rng rng' iso_buff,
  0 <= buff -> 0 <= nr m -> 0 <= nc m ->
  (interpolate_image_at_mask build image m maxfrac buff fill w rng iso_buff = Ok None <->
   interpolate_image_at_mask build' image' (tr m) maxfrac buff fill w' rng' iso_buff = Ok None).
Proof.
  intros A W build build' image image' m maxfrac buff fill w w' rng rng' iso_buff B R C.
  rewrite (interpolate_none _ _ _ _ _ _ _ _ _ _ _ B R C). rewrite (interpolate_none A W build' image' (tr m) maxfrac buff fill w' rng' iso_buff B C R).
  rewrite count_bad_turned. cbn [tr nr nc]. rewrite (Z.mul_comm (nc m)).
  assert (X : (forall p, inside m (fst p) (snd p) -> bad_at m p) <-> (forall p, inside (tr m) (fst p) (snd p) -> bad_at (tr m) p)).
  { split; intros H p I.
    - rewrite <- (swap_swap _ _ p). apply bad_turned. apply H. unfold inside in *. cbn [tr nr nc swap fst snd] in *. tauto.
    - apply bad_turned. apply H. unfold inside in *. cbn [tr nr nc swap fst snd] in *. tauto. }
  tauto.
Qed.
End Interp.

(** ** The lsst task *)
Section Lmdet.
Import Lmdet_model.

Lemma shapes_comm : forall A B (a a' : img A) (b b' : img B) , nr a' = nc a -> nc a' = nr a -> nr b' = nc b -> nc b' = nr b ->
  (nr a' =? nr b') && (nc a' =? nc b') = (nr a =? nr b) && (nc a =? nc b).
Proof. intros A B a a' b b' R C R2 C2. rewrite R, C, R2, C2. apply andb_comm. Qed.
Lemma ormasks_fold_turned : forall l a b, turned eq a b -> outcomes (turned eq) (ofold or_into l a) (ofold or_into (map tr l) b).
Proof.
  induction l as [|m l IH]; intros a b T; cbn [map ofold]; [exact T|]. pose proof T as (R & C & V). unfold or_into at 1 3.
  rewrite (shapes_comm _ _ a b m (tr m)) by (assumption || reflexivity). destruct (_ && _) eqn:E; cbn [obind]; [|reflexivity]. apply IH.
  split; [exact R|]. split; [exact C|]. intros i j I. cbn [imap2 px tr]. now rewrite (V i j I).
Qed.
Lemma ormasks_turned : forall dims ms, outcomes (turned eq) (combine_ormasks dims ms) (combine_ormasks (swap dims) (option_map (map tr) ms)).
Proof.
  intros dims [[|m l]|]; cbn [option_map map combine_ormasks]; [reflexivity| |].
  - apply ormasks_fold_turned, turned_tr. reflexivity.
  - split; [reflexivity|]. split; [reflexivity|]. intros. reflexivity.
Qed.
Lemma np_get_turned : forall A (im : img A) i j, np_get (tr im) j i = np_get im i j.
Proof.
  intros A im i j. unfold np_get. cbn [tr nr nc]. cbv zeta. set (a := if i <? 0 then i + nr im else i). set (b := if j <? 0 then j + nc im else j).
  assert (E : insideb (tr im) b a = insideb im a b) by (apply eq_true_iff_eq; rewrite !insideb_spec; unfold inside; cbn [tr nr nc]; tauto).
  rewrite E. reflexivity.
Qed.
Lemma add_ormask_turned : forall om res, add_ormask (tr om) (map tr_lrow res) =
  match add_ormask om res with Ok l => Ok (map tr_lrow l) | Raise e => Raise e end.
Proof.
  intros om. unfold add_ormask. induction res as [|x res IH]; [reflexivity|]. cbn [map omap]. rewrite IH.
  unfold local_row, local_col. cbn [tr_lrow l_row l_col l_row0 l_col0]. rewrite np_get_turned.
  destruct (np_get om _ _); cbn [obind]; [|reflexivity]. destruct (omap _ res); reflexivity.
Qed.
Lemma good_vars_turned : forall v, Permutation (good_vars v) (good_vars (tr v)).
Proof. intro v. unfold good_vars. apply Permutation_flat_map, Permutation_sym, pixels_tr. Qed.
Lemma band_wgt_turned : forall v, outcomes Qeq (band_wgt v) (band_wgt (tr v)).
Proof.
  intro v. unfold band_wgt. pose proof (qmedian_turned _ _ (good_vars_turned v)) as H. destruct (qmedian _), (qmedian _); cbn [both outcomes] in *; try contradiction; [now rewrite H|reflexivity].
Qed.
Definition tr2 {A B} (p : img A * img B) : img A * img B := (tr (fst p), tr (snd p)).
Lemma sum_mfracs_turned : forall l a b, both (turned Qeq) a b ->
  outcomes (fun x y => both (turned Qeq) (fst x) (fst y) /\ Forall2 Qeq (snd x) (snd y)) (sum_mfracs l a) (sum_mfracs (map tr2 l) b).
Proof.
  induction l as [|[v m] l IH]; intros a b T; cbn [map sum_mfracs]; [split; [exact T|constructor]|]. unfold tr2 at 1. cbn [fst snd].
  pose proof (band_wgt_turned v) as W. destruct (band_wgt v) as [w|], (band_wgt (tr v)) as [w'|]; cbn [outcomes obind] in *; try contradiction; [|exact W].
  assert (S : turned Qeq (scale w m) (scale w' (tr m))).
  { split; [reflexivity|]. split; [reflexivity|]. intros i j I. cbn [scale imap px tr]. now rewrite W. }
  assert (N : outcomes (turned Qeq) match a with None => Ok (scale w m) | Some x => add_img x (scale w m) end match b with None => Ok (scale w' (tr m)) | Some x => add_img x (scale w' (tr m)) end).
  { destruct a as [x|], b as [y|]; cbn [both] in T; try contradiction; [|exact S]. unfold add_img. pose proof T as (R & C & V). pose proof S as (R2 & C2 & V2).
    rewrite (shapes_comm _ _ x y (scale w m) (scale w' (tr m))) by assumption. destruct (_ && _) eqn:E; [|reflexivity]. apply andb_true_iff in E. destruct E as [E1 E2]. apply Z.eqb_eq in E1, E2.
    split; [exact R|]. split; [exact C|]. intros i j I. cbn [imap2 px]. rewrite (V i j I), (V2 i j). reflexivity. unfold inside in *. rewrite <- E1, <- E2. exact I. }
  destruct (match a with None => Ok (scale w m) | Some x => add_img x (scale w m) end) as [x|], (match b with None => Ok (scale w' (tr m)) | Some x => add_img x (scale w' (tr m)) end) as [y|]; cbn [outcomes obind] in *; try contradiction; [|exact N].
  specialize (IH (Some x) (Some y) N). destruct (sum_mfracs l (Some x)), (sum_mfracs (map tr2 l) (Some y)); cbn [outcomes obind] in *; try contradiction; [|exact IH].
  cbn [fst snd]. split; [exact (proj1 IH)|]. constructor; [exact W|exact (proj2 IH)].
Qed.
Lemma combine_tr : forall A B (a : list (img A)) (b : list (img B)), combine (map tr a) (map tr b) = map tr2 (combine a b).
Proof. intros A B. induction a as [|x a IH]; intros [|y b]; cbn [map combine]; [reflexivity..|]. now rewrite IH. Qed.
Lemma mfracs_turned : forall vars ms, outcomes (fun x y => turned Qeq (fst x) (fst y) /\ Forall2 Qeq (snd x) (snd y))
  (get_mfrac_mbexp vars ms) (get_mfrac_mbexp (map tr vars) (option_map (map tr) ms)).
Proof.
  intros vars [ms|]; [|reflexivity]. cbn [option_map get_mfrac_mbexp]. rewrite combine_tr. pose proof (sum_mfracs_turned (combine vars ms) None None Logic.I) as S.
  destruct (sum_mfracs (combine vars ms) None) as [[a ws]|], (sum_mfracs (map tr2 (combine vars ms)) None) as [[b ws']|]; cbn [outcomes obind fst snd] in *; try contradiction; [|exact S].
  destruct S as [S W]. destruct a as [x|], b as [y|]; cbn [both] in S; try contradiction; [|reflexivity]. cbn [outcomes fst snd]. split; [|exact W].
  pose proof (F2_sum _ _ W) as E. destruct S as (R & C & V). split; [exact R|]. split; [exact C|]. intros i j I. cbn [imap px]. now rewrite (V i j I), E.
Qed.
Lemma weighted_mean_turned : forall W W' im r c, (forall a b, W' b a = W a b) -> both Qeq (weighted_mean W im r c) (weighted_mean W' (tr im) c r).
Proof.
  intros W W' im r c H. unfold weighted_mean. cbn [tr nr nc px].
  assert (S1 : (qsum (map (fun ij => W (inject_Z (fst ij) - r)%Q (inject_Z (snd ij) - c)%Q) (coords (nr im) (nc im))) ==
                qsum (map (fun ij => W' (inject_Z (fst ij) - c)%Q (inject_Z (snd ij) - r)%Q) (coords (nc im) (nr im))))%Q).
  { apply sum_turned; [apply coords_perm|]. intros p _. cbn [swap fst snd]. now rewrite H. }
  assert (S2 : (qsum (map (fun ij => W (inject_Z (fst ij) - r)%Q (inject_Z (snd ij) - c)%Q * px im (fst ij) (snd ij)) (coords (nr im) (nc im))) ==
                qsum (map (fun ij => W' (inject_Z (fst ij) - c)%Q (inject_Z (snd ij) - r)%Q * px im (snd ij) (fst ij)) (coords (nc im) (nr im))))%Q).
  { apply sum_turned; [apply coords_perm|]. intros p _. cbn [swap fst snd]. now rewrite H. }
  destruct (Qeq_bool (qsum (map (fun ij => W _ _) _)) 0) eqn:Z1, (Qeq_bool (qsum (map (fun ij => W' _ _) _)) 0) eqn:Z2; cbn [both]; [exact Logic.I| | |now rewrite S1, S2].
  - apply Qeq_bool_iff in Z1. apply Qeq_bool_neq in Z2. apply Z2. now rewrite <- S1.
  - apply Qeq_bool_iff in Z2. apply Qeq_bool_neq in Z1. apply Z1. now rewrite S1.
Qed.
Lemma weighted_mfrac_turned : forall W W' rad mf x y, (forall a b, W' b a = W a b) -> both Qeq (weighted_mfrac W rad mf x y) (weighted_mfrac W' rad (tr mf) y x).
Proof.
  intros W W' rad mf x y H. unfold weighted_mfrac. cbv zeta. cbn [tr nr nc].
  set (xs := Z.max 0 (nearest x - rad)). set (ys := Z.max 0 (nearest y - rad)). set (xe := Z.min (nc mf) (nearest x + rad + 1)). set (ye := Z.min (nr mf) (nearest y + rad + 1)).
  assert (E : slice (tr mf) ys ye xs xe = tr (slice mf xs xe ys ye)) by reflexivity. rewrite E. cbn [tr nr nc]. rewrite (Z.mul_comm (nc _)).
  destruct (_ =? 0); [reflexivity|]. now apply weighted_mean_turned.
Qed.
Lemma F2_gen : forall A B (R : B -> B -> Prop) (f g : A -> B) l, (forall a, R (f a) (g a)) -> Forall2 R (map f l) (map g l).
Proof. intros A B R f g l H. induction l; cbn [map]; constructor; auto. Qed.
Lemma add_mfrac_turned : forall W W' rad mf res, (forall a b, W' b a = W a b) ->
  Forall2 (fun x y => tr_lrow (with_mfrac x None) = with_mfrac y None /\ both Qeq (l_mfrac x) (l_mfrac y))
    (add_mfrac W rad mf res) (add_mfrac W' rad (tr mf) (map tr_lrow res)).
Proof.
  intros W W' rad mf res H. unfold add_mfrac. rewrite (perm_existsb _ _ _ _ (pixels_tr _ mf)). destruct (existsb _ _); rewrite map_map; apply F2_gen; intro x; cbn [tr_lrow with_mfrac l_id l_row l_col l_row0 l_col0 l_ormask l_mfrac l_psfrec]; (split; [reflexivity|]).
  - unfold local_col, local_row. cbn [tr_lrow l_row l_col l_row0 l_col0]. now apply weighted_mfrac_turned.
  - reflexivity.
Qed.
End Lmdet.
