(** Proofs for C130. *)
From Coq Require Import ZArith QArith Reals List Bool String Lia Lra Lqa.
From Verif Require Import Base Arr Median Mono_spec.
From Verif Require Flags_model Lmeas_model Detect_model Detect_proofs Summ_model Summ_proofs Coadd_model Coadd_proofs Lexp_model Lmdet_model Lmdet_proofs
  Masking_model Masking_spec Masking_proofs Lmask_model Lmask_spec Lmask_proofs Lmask_props Dict.
Import ListNotations.
Local Open Scope Z_scope.

Lemma bits_refl : forall a, bits_in a a.
Proof. now intros a k. Qed.
Lemma bits_lor : forall a b c d, bits_in a c -> bits_in b d -> bits_in (Z.lor a b) (Z.lor c d).
Proof. intros a b c d H K k. rewrite !Z.lor_spec, !orb_true_iff. intros [X|X]; [left; now apply H|right; now apply K]. Qed.
Lemma bits_land : forall a b c d, bits_in a c -> bits_in b d -> bits_in (Z.land a b) (Z.land c d).
Proof. intros a b c d H K k. rewrite !Z.land_spec, !andb_true_iff. intros [X Y]. split; [now apply H|now apply K]. Qed.
Lemma bits_nonzero : forall a b, bits_in a b -> a <> 0 -> b <> 0.
Proof. intros a b H N ->. apply N. apply Z.bits_inj'. intros n _. rewrite Z.bits_0. destruct (Z.testbit a n) eqn:E; [|reflexivity]. apply H in E. now rewrite Z.bits_0 in E. Qed.
Lemma both_refl : forall A (R : A -> A -> Prop) o, (forall a, R a a) -> both R o o.
Proof. intros A R [a|] H; cbn; auto. Qed.

Lemma grows_lor : forall r c a b a' b', grows bits_in r c a a' -> grows bits_in r c b b' -> grows bits_in r c (imap2 Z.lor a b) (imap2 Z.lor a' b').
Proof.
  intros r c a b a' b' (S & S' & H) (_ & _ & K). split; [exact S|]. split; [exact S'|]. intros i j I J. cbn [imap2 px]. apply bits_lor; auto.
Qed.
Lemma omap_F2 : forall A B (R : A -> A -> Prop) (S : B -> B -> Prop) (f g : A -> outcome B) l l',
  Forall2 R l l' -> (forall a b, In a l -> In b l' -> R a b -> outcomes S (f a) (g b)) -> outcomes (Forall2 S) (omap f l) (omap g l').
Proof.
  intros A B R S f g l l' F. induction F as [|a b l l' E F IH]; intro H; cbn [omap]; [constructor|].
  pose proof (H a b (or_introl eq_refl) (or_introl eq_refl) E) as K. destruct (f a), (g b); cbn [outcomes obind] in *; try contradiction; [|exact K].
  assert (IH' := IH (fun x y I J => H x y (or_intror I) (or_intror J))). destruct (omap f l), (omap g l'); cbn [outcomes obind] in *; try contradiction; [now constructor|exact IH'].
Qed.
Lemma F2_len : forall A B (R : A -> B -> Prop) l m, Forall2 R l m -> List.length l = List.length m.
Proof. intros A B R l m H. induction H; cbn; congruence. Qed.
Lemma F2_map_eq : forall A B (R : A -> A -> Prop) (f : A -> B) l l', Forall2 R l l' -> (forall a b, R a b -> f b = f a) -> map f l' = map f l.
Proof. intros A B R f l l' F H. induction F as [|a b l l' E F IH]; [reflexivity|]. cbn [map]. now rewrite (H a b E), IH. Qed.

(** ** Detection *)
Section Detect.
Import Detect_model.
Lemma detim_more : forall r c nodet nodet' bands bands', bits_in nodet nodet' -> Forall2 (more_band r c) bands bands' ->
  both (more_detim r c) (set_detim nodet bands) (set_detim nodet' bands').
Proof.
  intros r c nodet nodet' bands bands' N F. unfold set_detim.
  destruct F as [|b0 b0' l l' E F]; [exact Logic.I|].
  assert (F' : Forall2 (more_band r c) (b0 :: l) (b0' :: l')) by now constructor.
  assert (V : map image_var (b0' :: l') = map image_var (b0 :: l)).
  { apply (F2_map_eq _ _ (more_band r c)); [exact F'|]. intros a b (_ & W & _). unfold image_var, positive_weights. now rewrite W. }
  rewrite V. destruct (oall (map image_var (b0 :: l))) as [vars|]; [|exact Logic.I]. cbn [both].
  destruct E as (EI & EW & ES & EB). rewrite EI. destruct ES as [SR SC].
  remember (b0 :: l) as bs eqn:EQ. remember (b0' :: l') as bs' eqn:EQ'. clear EQ EQ' V.
  split; [|split; [reflexivity|]]; cbn [fst snd].
  - split; [split; [exact SR|exact SC]|]. split; [split; [exact SR|exact SC]|]. intros i j _ _. cbn [px].
    set (ws := map _ _). clearbody ws. generalize 0%Q. revert ws. clear - F'. induction F' as [|a b bs bs' E F IH]; intros ws q; [reflexivity|]. destruct ws as [|w ws]; [reflexivity|].
    cbn [combine fold_left fst snd]. destruct E as (EI & _). rewrite EI. apply IH.
  - split; [split; [exact SR|exact SC]|]. split; [split; [exact SR|exact SC]|]. intros i j I J. cbn [px].
    assert (G : forall x x' : bool, (x = true -> x' = true) ->
      fold_left (fun acc b => match b_bmask b with Some bm => acc || negb (Z.land (px bm i j) nodet =? 0) | None => acc end) bs x = true ->
      fold_left (fun acc b => match b_bmask b with Some bm => acc || negb (Z.land (px bm i j) nodet' =? 0) | None => acc end) bs' x' = true); [|apply G; auto].
    clear - F' I J N. induction F' as [|a b bs bs' E F IH]; intros x x' X H; cbn [fold_left] in *; [now apply X|].
    destruct E as (_ & _ & _ & EB). destruct (b_bmask a) as [m|], (b_bmask b) as [m'|]; cbn [both] in EB; try contradiction; [|now apply (IH x x')].
    refine (IH _ _ _ H). rewrite !orb_true_iff. intros [Y|Y]; [left; now apply X|right]. apply negb_true_iff, Z.eqb_neq in Y. apply negb_true_iff, Z.eqb_neq.
    apply (bits_nonzero (Z.land (px m i j) nodet)); [|exact Y]. apply bits_land; [now apply EB|exact N].
Qed.

(** ** Masked fraction of an object *)
Lemma qsum_le_map : forall A (f g : A -> Q) l, (forall a, In a l -> (f a <= g a)%Q) -> (qsum (map f l) <= qsum (map g l))%Q.
Proof.
  intros A f g. induction l as [|a l IH]; intro H; [cbn; apply Qle_refl|]. unfold qsum in *. cbn [map fold_right]. apply Qplus_le_compat; [apply H; now left|]. apply IH. intros; apply H; now right.
Qed.
Lemma slice_in : forall n lo hi i, 0 <= n -> 0 <= i < slice_len n lo hi -> 0 <= i + slice_lo n lo < n.
Proof.
  intros n lo hi i N H. unfold slice_len, slice_lo, norm_bound in *. destruct (Z.ltb_spec lo 0), (Z.ltb_spec hi 0); lia.
Qed.

Lemma assign_more : forall A (le : A -> A -> Prop) r c (d : img A) r0 r1 c0 c1 (s s' : img A), (forall a, le a a) -> shaped r c d ->
  grows le (nr s) (nc s) s s' -> outcomes (grows le r c) (assign_slice d r0 r1 c0 c1 s) (assign_slice d r0 r1 c0 c1 s').
Proof.
  intros A le r c d r0 r1 c0 c1 s s' RF SH (_ & (S1 & S2) & H). unfold assign_slice. rewrite S1, S2.
  destruct (bcast_ok (nr s) (slice_len (nr d) r0 r1) && bcast_ok (nc s) (slice_len (nc d) c0 c1)) eqn:B; cbn [outcomes]; [|reflexivity].
  split; [exact SH|]. split; [exact SH|]. intros i j I J. cbn [px].
  destruct ((slice_lo (nr d) r0 <=? i) && (i <? slice_lo (nr d) r0 + slice_len (nr d) r0 r1) && (slice_lo (nc d) c0 <=? j) && (j <? slice_lo (nc d) c0 + slice_len (nc d) c0 c1)) eqn:W; [|apply RF].
  apply andb_true_iff in B. destruct B as [B1 B2]. unfold bcast_ok in B1, B2. apply orb_true_iff in B1, B2. rewrite !Z.eqb_eq in B1, B2.
  rewrite !andb_true_iff, !Z.leb_le, !Z.ltb_lt in W. apply H.
  - destruct (Z.eqb_spec (nr s) (slice_len (nr d) r0 r1)); lia.
  - destruct (Z.eqb_spec (nc s) (slice_len (nc d) c0 c1)); lia.
Qed.
Lemma slice_more : forall A (le : A -> A -> Prop) (a b : img A) r0 r1 c0 c1, 0 <= nr a -> 0 <= nc a -> grows le (nr a) (nc a) a b ->
  let s := slice a r0 r1 c0 c1 in grows le (nr s) (nc s) s (slice b r0 r1 c0 c1).
Proof.
  intros A le a b r0 r1 c0 c1 R C (_ & (S1 & S2) & H). cbv zeta. split; [split; reflexivity|]. split; [unfold shaped, slice; cbn [nr nc]; now rewrite S1, S2|].
  intros i j I J. unfold slice in *. cbn [px nr nc] in *. rewrite S1, S2. apply H; eapply slice_in; eauto.
Qed.
Lemma cutout_more : forall (le : num -> num -> Prop) m m' k t, (forall a, le a a) -> m_cat m' = m_cat m -> t <> "psf"%string -> 0 <= nr (m_plane m t) -> 0 <= nc (m_plane m t) ->
  grows le (nr (m_plane m t)) (nc (m_plane m t)) (m_plane m t) (m_plane m' t) ->
  outcomes (fun a b => grows le (nr a) (nc a) a b) (get_cutout m k t) (get_cutout m' k t).
Proof.
  intros le m m' k t RF EC NP R C G. unfold get_cutout. rewrite EC. destruct (nth_error (m_cat m) k) as [e|]; [|reflexivity].
  destruct (String.eqb_spec t "psf"); [contradiction|]. destruct (existsb _ _); [|reflexivity].
  destruct G as (_ & (S1 & S2) & H). rewrite S1, S2.
  destruct (get_clipped_boxes (nr (m_plane m t)) (e_srow e) (e_box e)) as [[or0 or1] [r0 r1]].
  destruct (get_clipped_boxes (nc (m_plane m t)) (e_scol e) (e_box e)) as [[oc0 oc1] [c0 c1]].
  destruct (e_box e <? 0); [reflexivity|]. destruct (DEFAULT_IMAGE_VALUES t) as [f|]; [|reflexivity].
  set (d := ifill (e_box e) (e_box e) f).
  assert (G : grows le (nr (m_plane m t)) (nc (m_plane m t)) (m_plane m t) (m_plane m' t)) by (split; [split; reflexivity|]; split; [split; assumption|exact H]).
  pose proof (assign_more num le (e_box e) (e_box e) d r0 r1 c0 c1 _ _ RF (conj eq_refl eq_refl) (slice_more _ le _ _ or0 or1 oc0 oc1 R C G)) as A.
  destruct (assign_slice d r0 r1 c0 c1 (slice (m_plane m t) or0 or1 oc0 oc1)) as [x|], (assign_slice d r0 r1 c0 c1 (slice (m_plane m' t) or0 or1 oc0 oc1)) as [y|]; cbn [outcomes] in *; try contradiction; [|exact A].
  destruct A as ((X1 & X2) & (Y1 & Y2) & V). split; [split; reflexivity|]. split; [split; congruence|]. rewrite X1, X2. exact V.
Qed.
Lemma sums_more : forall g near (s s' : img Q) good, (forall i j, near i j = true -> (0 <= g i j)%Q) -> grows Qle (nr s) (nc s) s s' ->
  outcomes (fun a b => (fst a <= fst b)%Q /\ snd b = snd a) (weighted_sums g near s good) (weighted_sums g near s' good).
Proof.
  intros g near s s' good G (_ & (S1 & S2) & H). unfold weighted_sums. rewrite S1, S2.
  destruct (filter (fun ij => good (fst ij) (snd ij)) (coords (nr s) (nc s))) as [|p l] eqn:E; [reflexivity|]. rewrite <- E. cbn [outcomes fst snd]. split; [|reflexivity].
  apply qsum_le_map. intros [i j] I. apply filter_In in I. destruct I as [I N]. apply filter_In in I. destruct I as [I _]. apply in_coords in I. cbn [fst snd] in *.
  rewrite (Qmult_comm (g i j) (px s i j)), (Qmult_comm (g i j) (px s' i j)). apply Qmult_le_compat_r; [now apply H|now apply G].
Qed.
Lemma gsum_nonneg : forall g near (s : img Q) good w v, (forall i j, near i j = true -> (0 <= g i j)%Q) -> weighted_sums g near s good = Ok (v, w) -> (0 <= w)%Q.
Proof.
  intros g near s good w v G H. unfold weighted_sums in H. destruct (filter _ (coords _ _)) as [|p l] eqn:E; [discriminate|]. rewrite <- E in H. apply Ok_inj in H. injection H as _ <-.
  assert (Z : (qsum (map (fun _ : Z * Z => 0%Q) (filter (fun ij => near (fst ij) (snd ij)) (filter (fun ij => good (fst ij) (snd ij)) (coords (nr s) (nc s))))) == 0)%Q).
  { generalize (filter (fun ij => near (fst ij) (snd ij)) (filter (fun ij => good (fst ij) (snd ij)) (coords (nr s) (nc s)))). intro k. induction k as [|x k IH]; [reflexivity|]. unfold qsum in *. cbn [map fold_right]. rewrite IH. reflexivity. }
  rewrite <- Z. apply qsum_le_map. intros [i j] I. apply filter_In in I. destruct I as [_ N]. now apply G.
Qed.
Lemma mfrac_one_more : forall mf mf' bm g near y x box, (forall i j, near i j = true -> (0 <= g i j)%Q) -> 0 <= nr mf -> 0 <= nc mf -> grows Qle (nr mf) (nc mf) mf mf' ->
  outcomes mval_le (measure_mfrac_one mf bm g near y x box) (measure_mfrac_one mf' bm g near y x box).
Proof.
  intros mf mf' bm g near y x box G R C M. unfold measure_mfrac_one. destruct (0 <? box); [|cbn; apply Qle_refl].
  destruct M as (S0 & (S1 & S2) & H). rewrite S1, S2. cbv zeta.
  set (m := mkMedsI _ (imap F mf) _). set (m' := mkMedsI _ (imap F mf') _).
  assert (CI := cutout_more (fun a b => (num_q a <= num_q b)%Q) m m' 0 "image" (fun a => Qle_refl _) eq_refl ltac:(discriminate) R C).
  assert (G1 : grows (fun a b => (num_q a <= num_q b)%Q) (nr (m_plane m "image")) (nc (m_plane m "image")) (m_plane m "image") (m_plane m' "image")).
  { split; [split; reflexivity|]. split; [split; cbn; assumption|]. exact H. }
  specialize (CI G1).
  destruct (get_cutout m 0 "image") as [im|e], (get_cutout m' 0 "image") as [im'|e']; cbn [outcomes obind] in *; try contradiction; [|exact CI].
  assert (CB : get_cutout m' 0 "bmask" = get_cutout m 0 "bmask") by reflexivity. rewrite CB. destruct (get_cutout m 0 "bmask") as [bk|]; cbn [obind]; [|reflexivity].
  set (good := fun i j => Z.land (num_z (px bk i j)) BMASK_EDGE =? 0).
  assert (SM : grows Qle (nr (imap num_q im)) (nc (imap num_q im)) (imap num_q im) (imap num_q im')).
  { destruct CI as (A & B & D). split; [exact A|]. split; [exact B|]. exact D. }
  pose proof (sums_more g near _ _ good G SM) as SU.
  destruct (weighted_sums g near (imap num_q im) good) as [[v w]|e] eqn:E, (weighted_sums g near (imap num_q im') good) as [[v' w']|e']; cbn [outcomes fst snd] in SU; try contradiction.
  - destruct SU as [L ->]. pose proof (gsum_nonneg _ _ _ _ _ _ G E) as W. destruct (Qeq_bool w 0) eqn:Z; cbn [outcomes mval_le]; [exact Logic.I|].
    unfold Qdiv. apply Qmult_le_compat_r; [exact L|]. now apply Qinv_le_0_compat.
  - subst e'. destruct e; cbn; try reflexivity. apply Qle_refl.
Qed.
Lemma mfrac_objects_more : forall mf mf' bm objs, 0 <= nr mf -> 0 <= nc mf -> grows Qle (nr mf) (nc mf) mf mf' ->
  (forall y x b g near, In (y, x, b, (g, near)) objs -> forall i j, near i j = true -> (0 <= g i j)%Q) ->
  outcomes (Forall2 mval_le) (measure_mfrac mf bm objs) (measure_mfrac mf' bm objs).
Proof.
  intros mf mf' bm objs R C M G. unfold measure_mfrac. apply (omap_F2 _ _ eq); [clear; induction objs; constructor; auto|].
  intros [[[y x] b] [g near]] ? I _ <-. apply mfrac_one_more; auto. exact (G y x b g near I).
Qed.
End Detect.

(** ** Summaries *)
Section Summ.
Import Summ_model.
Lemma epochs_more : forall r c mb mb', Forall2 (Forall2 (more_sobs r c)) mb mb' -> outcomes (Forall2 (more_sobs r c)) (omap single_epoch mb) (omap single_epoch mb').
Proof.
  intros r c mb mb' F. apply (omap_F2 _ _ (Forall2 (more_sobs r c))); [exact F|]. intros a b _ _ H. destruct H as [|x y l l' E H]; [reflexivity|]. destruct H; [exact E|reflexivity].
Qed.
Lemma masks_more : forall r c mb mb', Forall2 (Forall2 (more_sobs r c)) mb mb' ->
  outcomes (fun a b => grows bits_in r c (fst a) (fst b) /\ grows bits_in r c (snd a) (snd b)) (get_ormask_and_bmask mb) (get_ormask_and_bmask mb').
Proof.
  intros r c mb mb' F. unfold get_ormask_and_bmask. pose proof (epochs_more r c mb mb' F) as E.
  destruct (omap single_epoch mb) as [l|], (omap single_epoch mb') as [l'|]; cbn [outcomes obind] in *; try contradiction; [|exact E].
  destruct E as [|a b l l' E L]; [reflexivity|]. cbn [outcomes].
  assert (X : grows bits_in r c (fst (so_ormask a, so_bmask a)) (fst (so_ormask b, so_bmask b)) /\ grows bits_in r c (snd (so_ormask a, so_bmask a)) (snd (so_ormask b, so_bmask b))) by (cbn [fst snd]; unfold more_sobs in E; tauto).
  clear E. revert X. generalize (so_ormask a, so_bmask a) (so_ormask b, so_bmask b). induction L as [|x y l l' E L IH]; intros p q [X Y]; [split; assumption|].
  cbn [fold_left]. apply IH. cbn [fst snd]. destruct E as (_ & _ & _ & B & O). split; now apply grows_lor.
Qed.
Lemma combined_more : forall r c mb mb', Forall2 (Forall2 (more_sobs r c)) mb mb' -> outcomes (grows Qle r c) (get_mfrac mb) (get_mfrac mb').
Proof.
  intros r c mb mb' F. unfold get_mfrac. pose proof (epochs_more r c mb mb' F) as E.
  destruct F as [|ol ol' mb mb' FO F]; [reflexivity|]. destruct FO as [|o o' ol ol' EO FO]; [reflexivity|].
  destruct (omap single_epoch ((o :: ol) :: mb)) as [l|], (omap single_epoch ((o' :: ol') :: mb')) as [l'|]; cbn [outcomes obind] in *; try contradiction; [|exact E].
  cbv zeta. assert (BW : forall a b, more_sobs r c a b -> band_weight b = band_weight a) by (intros a b (W & _); unfold band_weight; now rewrite W).
  rewrite (F2_map_eq _ _ (more_sobs r c) band_weight l l' E BW). destruct EO as (WE & (SR & SC) & _). rewrite WE, SR, SC.
  set (acc := fold_left _ l _). set (acc' := fold_left _ l' _).
  assert (A : grows Qle r c acc acc').
  { unfold acc, acc'. assert (Z : grows Qle r c (ifill r c 0%Q) (ifill r c 0%Q)) by (split; [split; reflexivity|]; split; [split; reflexivity|]; intros; apply Qle_refl).
    revert Z. generalize (ifill r c 0%Q) at 1 3. generalize (ifill r c 0%Q). clear - E BW. induction E as [|a b l l' E L IH]; intros q p Z; [exact Z|]. cbn [fold_left]. apply IH.
    pose proof (BW a b E) as W. destruct E as (_ & _ & M & _). destruct (so_mfrac a) as [m|], (so_mfrac b) as [m'|]; cbn [both] in M; try contradiction; [|exact Z].
    destruct Z as (S & S' & V). destruct M as (_ & _ & M). split; [exact S|]. split; [exact S'|]. intros i j I J. cbn [imap2 px]. rewrite W. apply Qplus_le_compat; [now apply V|].
    apply Qmult_le_compat_r; [now apply M|apply Summ_proofs.band_weight_nonneg]. }
  destruct A as (S & S' & V). destruct (negb (Qle_bool (qsum (map band_weight l)) 0)) eqn:P; cbn [outcomes].
  - split; [exact S|]. split; [exact S'|]. intros i j I J. cbn [imap px]. unfold Qdiv. apply Qmult_le_compat_r; [now apply V|]. apply Qinv_le_0_compat.
    apply negb_true_iff in P. apply Qlt_le_weak. destruct (Qlt_le_dec 0 (qsum (map band_weight l))) as [L|L]; [exact L|]. apply Qle_bool_iff in L. congruence.
  - split; [exact S|]. split; [exact S'|]. intros. apply Qle_refl.
Qed.
Lemma fill_more : forall reg reg' row col m m', reg <= reg' -> 0 < nr m -> 0 < nc m -> grows bits_in (nr m) (nc m) m m' ->
  exists v v', fill_in_mask reg row col m = Ok v /\ fill_in_mask reg' row col m' = Ok v' /\ bits_in v v'.
Proof.
  intros reg reg' row col m m' L R C (_ & (S1 & S2) & H).
  pose proof (Summ_proofs.clip_nearest row _ R) as [Br _]. pose proof (Summ_proofs.clip_nearest col _ C) as [Bc _].
  unfold fill_in_mask. rewrite S1, S2. set (rc := clip_and_round row (nr m)) in *. set (cc := clip_and_round col (nc m)) in *. clearbody rc cc.
  assert (IN : (0 <=? rc) && (rc <? nr m) && ((0 <=? cc) && (cc <? nc m)) = true) by (rewrite !andb_true_iff, !Z.leb_le, !Z.ltb_lt; lia). rewrite IN.
  destruct (Z.ltb_spec 1 reg) as [X|X], (Z.ltb_spec 1 reg') as [Y|Y]; try lia.
  - eexists. eexists. split; [reflexivity|]. split; [reflexivity|]. intros k K. apply Summ_proofs.fold_lor_bits in K. rewrite Z.bits_0 in K. destruct K as [K|(v & I & K)]; [discriminate|].
    apply Summ_proofs.slice_pixels_in in I; try lia. destruct I as (i & j & I & J & <-). apply Summ_proofs.fold_lor_bits. right. exists (px m' i j). split; [|apply H; lia || exact K].
    apply Summ_proofs.slice_pixels_in; try lia. exists i, j. split; [lia|]. split; [lia|reflexivity].
  - eexists. eexists. split; [reflexivity|]. split; [reflexivity|]. intros k K. apply Summ_proofs.fold_lor_bits. right. exists (px m' rc cc). split; [|apply H; lia || exact K].
    apply Summ_proofs.slice_pixels_in; try lia. exists rc, cc. split; [lia|]. split; [lia|reflexivity].
  - eexists. eexists. split; [reflexivity|]. split; [reflexivity|]. apply H; lia.
Qed.
Lemma column_more : forall reg reg' pos m m', reg <= reg' -> 0 < nr m -> 0 < nc m -> grows bits_in (nr m) (nc m) m m' ->
  exists l l', fill_in_mask_col reg pos m = Ok l /\ fill_in_mask_col reg' pos m' = Ok l' /\ Forall2 bits_in l l'.
Proof.
  intros reg reg' pos m m' L R C G. unfold fill_in_mask_col. induction pos as [|p pos IH]; cbn [omap]; [exists [], []; auto|].
  destruct (fill_more reg reg' (fst p) (snd p) m m' L R C G) as (v & v' & E & E' & B). destruct IH as (l & l' & I & I' & F). rewrite E, E', I, I'. cbn [obind]. eexists. eexists. split; [reflexivity|]. split; [reflexivity|]. now constructor.
Qed.
End Summ.

(** ** Coadds *)
Section Coadd.
Import Flags_model Coadd_model.
Lemma pixels_same : forall A r c (a b : img A), grows eq r c a b -> pixels b = pixels a.
Proof.
  intros A r c a b ((S1 & S2) & (T1 & T2) & H). unfold pixels. rewrite S1, S2, T1, T2. apply map_ext_in. intros [i j] I. apply in_coords in I. cbn [fst snd]. symmetry. apply H; tauto.
Qed.
Lemma cw_same : forall r c obs obs', Forall2 (more_fobs r c) obs obs' -> coadd_weights obs' = coadd_weights obs.
Proof. intros r c obs obs' F. induction F as [|a b l l' E F IH]; [reflexivity|]. cbn [coadd_weights]. destruct E as (_ & _ & W & _). unfold positive_of. now rewrite (pixels_same _ _ _ _ _ W), IH. Qed.
Lemma cw_pos : forall obs ws, coadd_weights obs = Some ws -> Forall (fun w => (0 < w)%Q) ws.
Proof.
  induction obs as [|o l IH]; intros ws H; cbn [coadd_weights] in H; [apply Some_inj in H; subst; constructor|].
  destruct (qmedian (positive_of (f_weight o))) as [m|] eqn:E; [|discriminate]. destruct (coadd_weights l) as [k|]; [|discriminate]. apply Some_inj in H. subst ws. constructor; [|now apply IH].
  apply (qmedian_pos _ _) with (2 := E). intros x Hx. now apply Coadd_proofs.positive_of_in in Hx.
Qed.
Lemma norm_nonneg : forall ws, Forall (fun w => (0 < w)%Q) ws -> Forall (fun w => (0 <= w)%Q) (normalized ws).
Proof.
  intros ws H. assert (S : (0 <= qsum ws)%Q).
  { clear - H. induction H as [|w ws W H IH]; [apply Qle_refl|]. unfold qsum in *. cbn [fold_right]. lra. }
  unfold normalized. apply Forall_map. eapply Forall_impl; [|exact H]. intros w W. cbv beta in *. unfold Qdiv. apply Qmult_le_0_compat; [now apply Qlt_le_weak|now apply Qinv_le_0_compat].
Qed.
Lemma plane_same : forall r c obs obs' ws get shape, Forall2 (more_fobs r c) obs obs' -> (forall a b, more_fobs r c a b -> get b = get a) ->
  wsum_plane shape get (combine obs' ws) = wsum_plane shape get (combine obs ws).
Proof.
  intros r c obs obs' ws get shape F G. unfold wsum_plane. generalize (ifill (nr shape) (nc shape) 0%Q). revert ws.
  induction F as [|a b l l' E F IH]; intros ws q; [reflexivity|]. destruct ws as [|w ws]; [reflexivity|]. cbn [combine fold_left fst snd]. rewrite (G a b E). apply IH.
Qed.
Lemma count_same : forall A r c obs obs' (get : fobs -> option A), Forall2 (more_fobs r c) obs obs' ->
  (forall a b, more_fobs r c a b -> match get a, get b with Some _, Some _ | None, None => True | _, _ => False end) -> count_plane get obs' = count_plane get obs.
Proof.
  intros A r c obs obs' get F G. unfold count_plane. induction F as [|a b l l' E F IH]; [reflexivity|]. cbn [filter]. specialize (G a b E).
  destruct (get a), (get b); try contradiction; [|exact IH]. unfold zlen in *. cbn [List.length]. lia.
Qed.
Lemma wsum_more : forall r c obs obs' ws (shape : img Q), shaped r c shape -> Forall2 (more_fobs r c) obs obs' -> Forall (fun w => (0 <= w)%Q) ws ->
  grows Qle r c (wsum_plane shape f_mfrac (combine obs ws)) (wsum_plane shape f_mfrac (combine obs' ws)).
Proof.
  intros r c obs obs' ws shape (SR & SC) F W. unfold wsum_plane. rewrite SR, SC.
  assert (Z : grows Qle r c (ifill r c 0%Q) (ifill r c 0%Q)) by (split; [split; reflexivity|]; split; [split; reflexivity|]; intros; apply Qle_refl).
  revert Z. generalize (ifill r c 0%Q) at 1 3. generalize (ifill r c 0%Q). revert ws W. induction F as [|a b l l' E F IH]; intros ws W q p Z; [exact Z|]. destruct W as [|w ws W0 W]; [exact Z|].
  cbn [combine fold_left fst snd]. apply IH; [exact W|]. destruct E as (_ & _ & _ & _ & _ & _ & M & _).
  destruct (f_mfrac a) as [m|], (f_mfrac b) as [m'|]; cbn [both] in M; try contradiction; [|exact Z].
  destruct Z as (S & S' & V). destruct M as (_ & _ & M). split; [exact S|]. split; [exact S'|]. intros i j I J. cbn [imap2 px]. apply Qplus_le_compat; [now apply V|].
  rewrite (Qmult_comm w (px m i j)), (Qmult_comm w (px m' i j)). apply Qmult_le_compat_r; [now apply M|exact W0].
Qed.
Lemma or_more : forall r c obs obs' (shape : img Q) get, shaped r c shape -> Forall2 (more_fobs r c) obs obs' ->
  (forall a b, more_fobs r c a b -> both (grows bits_in r c) (get a) (get b)) -> grows bits_in r c (or_plane shape get obs) (or_plane shape get obs').
Proof.
  intros r c obs obs' shape get (SR & SC) F G. unfold or_plane. rewrite SR, SC.
  assert (Z : grows bits_in r c (ifill r c 0) (ifill r c 0)) by (split; [split; reflexivity|]; split; [split; reflexivity|]; intros; apply bits_refl).
  revert Z. generalize (ifill r c 0) at 1 3. generalize (ifill r c 0). induction F as [|a b l l' E F IH]; intros q p Z; [exact Z|].
  cbn [fold_left]. apply IH. specialize (G a b E). destruct (get a), (get b); cbn [both] in G; try contradiction; [now apply grows_lor|exact Z].
Qed.
Lemma shape_both : forall A (R : A -> A -> Prop) a b, both R a b -> match a, b with Some _, Some _ | None, None => True | _, _ => False end.
Proof. intros A R [a|] [b|]; cbn; auto. Qed.
Lemma weight_same : forall r c obs obs' ws (s s' : img Q), shaped r c s -> shaped r c s' -> Forall2 (more_fobs r c) obs obs' ->
  grows eq r c (coadd_weight s (combine obs ws)) (coadd_weight s' (combine obs' ws)).
Proof.
  intros r c obs obs' ws s s' S S' F. unfold coadd_weight. split; [exact S|]. split; [exact S'|]. intros i j I J. cbn [px]. do 2 f_equal.
  revert ws. induction F as [|a b l l' E F IH]; intros ws; [reflexivity|]. destruct ws as [|w ws]; [reflexivity|]. cbn [combine map fst snd]. destruct E as (_ & _ & (_ & _ & W) & _). f_equal; [now rewrite W|apply IH].
Qed.
Lemma many_more : forall r c obs obs' fo fo' fp, Forall2 (more_fobs r c) obs obs' -> more_fobs r c fo fo' -> more_coadd r c (coadd_many obs fo fp) (coadd_many obs' fo' fp).
Proof.
  intros r c obs obs' fo fo' fp F E. unfold coadd_many. rewrite (cw_same _ _ _ _ F). destruct (coadd_weights obs) as [ws|] eqn:W; [|split; [exact Logic.I|reflexivity]].
  apply cw_pos in W. apply norm_nonneg in W. cbv zeta.
  assert (Ei : f_image fo' = f_image fo) by apply E. assert (Ej : f_jac fo' = f_jac fo) by apply E. rewrite Ei, Ej.
  assert (Si : shaped r c (f_image fo)) by apply E. destruct E as (_ & _ & (Sw & Sw' & _) & _).
  pose proof (weight_same r c obs obs' (normalized ws) _ _ Sw Sw' F) as G.
  assert (A : all_pixels (fun w => Qeq_bool w 0) (coadd_weight (f_weight fo') (combine obs' (normalized ws))) = all_pixels (fun w => Qeq_bool w 0) (coadd_weight (f_weight fo) (combine obs (normalized ws)))).
  { unfold all_pixels. now rewrite (pixels_same _ _ _ _ _ G). }
  rewrite A. clear A. destruct (all_pixels _ _); [split; [exact Logic.I|reflexivity]|].
  assert (C1 : count_plane f_mfrac obs' = count_plane f_mfrac obs) by (apply (count_same _ r c); [exact F|]; intros a b (_ & _ & _ & _ & _ & _ & X & _ & _); exact (shape_both _ _ _ _ X)).
  assert (C2 : count_plane f_bmask obs' = count_plane f_bmask obs) by (apply (count_same _ r c); [exact F|]; intros a b (_ & _ & _ & _ & _ & _ & _ & X & _); exact (shape_both _ _ _ _ X)).
  assert (C3 : count_plane f_ormask obs' = count_plane f_ormask obs) by (apply (count_same _ r c); [exact F|]; intros a b (_ & _ & _ & _ & _ & _ & _ & _ & X); exact (shape_both _ _ _ _ X)).
  assert (C4 : count_plane f_noise obs' = count_plane f_noise obs) by (apply (count_same _ r c); [exact F|]; intros a b (_ & _ & _ & _ & _ & X & _); rewrite X; destruct (f_noise a); exact Logic.I).
  rewrite C1, C2, C3, C4.
  assert (L : zlen obs' = zlen obs) by (unfold zlen; now rewrite (F2_len _ _ _ _ _ F)). rewrite L.
  destruct (negb _); [split; [exact Logic.I|reflexivity]|].
  split; [|reflexivity]. cbn [fst both]. unfold more_fobs. cbn [f_image f_weight f_jac f_psf f_noise f_mfrac f_bmask f_ormask].
  assert (P1 : wsum_plane (f_image fo) (fun o => Some (f_image o)) (combine obs' (normalized ws)) = wsum_plane (f_image fo) (fun o => Some (f_image o)) (combine obs (normalized ws))) by (apply (plane_same r c); [exact F|]; intros a b (X & _); now rewrite X).
  assert (P2 : wsum_plane (f_image fo) f_noise (combine obs' (normalized ws)) = wsum_plane (f_image fo) f_noise (combine obs (normalized ws))) by (apply (plane_same r c); [exact F|]; intros a b (_ & _ & _ & _ & _ & X & _); now rewrite X).
  assert (P3 : wsum_plane (p_image fp) psf_image_of (combine obs' (normalized ws)) = wsum_plane (p_image fp) psf_image_of (combine obs (normalized ws))) by (apply (plane_same r c); [exact F|]; intros a b (_ & _ & _ & _ & X & _); unfold psf_image_of; now rewrite X).
  rewrite P1, P2, P3.
  split; [reflexivity|]. split; [|split; [exact G|]; split; [reflexivity|]; split; [reflexivity|]; split; [reflexivity|]].
  - clear - Si F. unfold wsum_plane. assert (Z : shaped r c (ifill (nr (f_image fo)) (nc (f_image fo)) 0%Q)) by exact Si. revert Z. generalize (ifill (nr (f_image fo)) (nc (f_image fo)) 0%Q). generalize (combine obs (normalized ws)).
    intro l. induction l as [|x l IH]; intros q Z; [exact Z|]. cbn [fold_left]. apply IH. exact Z.
  - split; [|split].
    + destruct (0 <? count_plane f_mfrac obs); [now apply wsum_more|exact Logic.I].
    + destruct (0 <? count_plane f_bmask obs); [|exact Logic.I]. apply or_more; auto. intros a b X; unfold more_fobs in X; tauto.
    + destruct (0 <? count_plane f_ormask obs); [|exact Logic.I]. apply or_more; auto. intros a b X; unfold more_fobs in X; tauto.
Qed.
Lemma nth_F2 : forall A (R : A -> A -> Prop) l l' n, Forall2 R l l' -> both R (nth_error l n) (nth_error l' n).
Proof. intros A R l l' n F. revert n. induction F as [|a b l l' E F IH]; intros [|n]; cbn [nth_error]; [exact Logic.I|exact Logic.I|exact E|apply IH]. Qed.
Lemma index_F2 : forall A (R : A -> A -> Prop) l l' n, Forall2 R l l' -> outcomes R (py_index l n) (py_index l' n).
Proof.
  intros A R l l' n F. unfold py_index. assert (L : zlen l' = zlen l) by (unfold zlen; now rewrite (F2_len _ _ _ _ _ F)). rewrite L.
  repeat match goal with |- context [if ?b then _ else _] => destruct b end; try reflexivity;
  match goal with |- context [nth_error l ?k] => pose proof (nth_F2 _ R l l' k F) as N; destruct (nth_error l k), (nth_error l' k); cbn in *; try contradiction; auto end.
Qed.
Lemma band_F2 : forall r c mb mb' b, Forall2 (Forall2 (more_fobs r c)) mb mb' -> outcomes (more_fobs r c) (band_obs mb b) (band_obs mb' b).
Proof.
  intros r c mb mb' b F. unfold band_obs. pose proof (index_F2 _ _ _ _ b F) as X. destruct (py_index mb b) as [l|], (py_index mb' b) as [l'|]; cbn [outcomes obind] in *; try contradiction; [|exact X]. now apply index_F2.
Qed.
Lemma coadd_more : forall r c mb mb' sb, Forall2 (Forall2 (more_fobs r c)) mb mb' -> outcomes (more_coadd r c) (make_coadd_obs mb sb) (make_coadd_obs mb' sb).
Proof.
  intros r c mb mb' sb F. unfold make_coadd_obs. cbv zeta. assert (L : zlen mb' = zlen mb) by (unfold zlen; now rewrite (F2_len _ _ _ _ _ F)). rewrite L.
  assert (N : more_coadd r c (None, flag_value INCONSISTENT_BANDS) (None, flag_value INCONSISTENT_BANDS)) by (split; [exact Logic.I|reflexivity]).
  assert (ONE : forall b, outcomes (more_coadd r c) (do o <- band_obs mb b; Ok (Some o, 0)) (do o <- band_obs mb' b; Ok (Some o, 0))).
  { intro b. pose proof (band_F2 r c mb mb' b F) as X. destruct (band_obs mb b), (band_obs mb' b); cbn [outcomes obind] in *; try contradiction; [split; [exact X|reflexivity]|exact X]. }
  assert (ALL : forall fo fo' l, more_fobs r c fo fo' -> all_consistent mb' fo' l = all_consistent mb fo l).
  { intros fo fo' l E. induction l as [|b l IH]; [reflexivity|]. cbn [all_consistent]. pose proof (band_F2 r c mb mb' b F) as X. destruct (band_obs mb b) as [o|], (band_obs mb' b) as [o'|]; cbn [outcomes obind] in *; try contradiction; [|now subst].
    assert (C : consistent fo' o' = consistent fo o).
    { unfold consistent. destruct E as (E1 & _ & _ & E2 & E3 & _), X as (X1 & _ & _ & X2 & X3 & _). now rewrite E1, E2, E3, X1, X2, X3. }
    rewrite C. destruct (consistent fo o); [exact IH|reflexivity]. }
  assert (MANY : outcomes (more_coadd r c)
    (do s0 <- py_index sb 0; do fo <- band_obs mb s0; do ok <- all_consistent mb fo (tl sb);
      if negb ok then Ok (None, flag_value INCONSISTENT_BANDS) else do obs <- omap (band_obs mb) sb; match f_psf fo with None => Raise AttributeError | Some fp => Ok (coadd_many obs fo fp) end)
    (do s0 <- py_index sb 0; do fo <- band_obs mb' s0; do ok <- all_consistent mb' fo (tl sb);
      if negb ok then Ok (None, flag_value INCONSISTENT_BANDS) else do obs <- omap (band_obs mb') sb; match f_psf fo with None => Raise AttributeError | Some fp => Ok (coadd_many obs fo fp) end)).
  { destruct (py_index sb 0) as [s0|]; cbn [obind]; [|reflexivity]. pose proof (band_F2 r c mb mb' s0 F) as X. destruct (band_obs mb s0) as [fo|], (band_obs mb' s0) as [fo'|]; cbn [outcomes obind] in X |- *; try contradiction; [|exact X].
    rewrite (ALL fo fo' (tl sb) X). destruct (all_consistent mb fo (tl sb)) as [[|]|]; cbn [obind negb]; [|exact N|reflexivity].
    assert (O : outcomes (Forall2 (more_fobs r c)) (omap (band_obs mb) sb) (omap (band_obs mb') sb)).
    { apply (omap_F2 _ _ eq); [clear; induction sb; constructor; auto|]. intros a ? _ _ <-. now apply band_F2. }
    destruct (omap (band_obs mb) sb) as [obs|], (omap (band_obs mb') sb) as [obs'|]; cbn [outcomes obind] in O |- *; try contradiction; [|exact O].
    assert (P : f_psf fo' = f_psf fo) by apply X. rewrite P. destruct (f_psf fo) as [fp|]; [|reflexivity]. now apply many_more. }
  destruct (zlen mb =? 1).
  - destruct (py_index sb 0) as [s0|]; cbn [obind]; [|reflexivity]. destruct (s0 =? 0); [apply ONE|exact N].
  - destruct sb as [|s [|s' sb]].
    + destruct (existsb _ _); [exact N|exact MANY].
    + destruct (s <? zlen mb); [apply ONE|exact N].
    + destruct (existsb _ _); [exact N|exact MANY].
Qed.
End Coadd.

(** ** The LSST code *)
Section Lsst.
Import Lmdet_model.
Lemma ormasks_more : forall r c dims ms ms', Forall2 (grows bits_in r c) ms ms' -> outcomes (grows bits_in r c) (combine_ormasks dims (Some ms)) (combine_ormasks dims (Some ms')).
Proof.
  intros r c dims ms ms' F. unfold combine_ormasks. destruct F as [|m m' ms ms' E F]; [reflexivity|]. revert m m' E. induction F as [|a b l l' G F IH]; intros m m' E; [exact E|]. cbn [ofold].
  unfold or_into at 1 3. pose proof E as ((E1 & E2) & (E3 & E4) & _). pose proof G as ((G1 & G2) & (G3 & G4) & _). rewrite E1, E2, E3, E4, G1, G2, G3, G4, !Z.eqb_refl. cbn [andb obind]. apply IH. now apply grows_lor.
Qed.
Lemma get_more : forall A (le : A -> A -> Prop) r c m m' i j, grows le r c m m' -> outcomes le (np_get m i j) (np_get m' i j).
Proof.
  intros A le r c m m' i j ((S1 & S2) & (S3 & S4) & H). unfold np_get, insideb. rewrite S1, S2, S3, S4. cbv zeta.
  destruct ((0 <=? (if i <? 0 then i + r else i)) && ((if i <? 0 then i + r else i) <? r) && (0 <=? (if j <? 0 then j + c else j)) && ((if j <? 0 then j + c else j) <? c)) eqn:B; [|reflexivity].
  rewrite !andb_true_iff, !Z.leb_le, !Z.ltb_lt in B. cbn [outcomes]. apply H; tauto.
Qed.
Lemma ormask_rows_more : forall r c m m' res, grows bits_in r c m m' -> outcomes (Forall2 more_or_row) (add_ormask m res) (add_ormask m' res).
Proof.
  intros r c m m' res G. unfold add_ormask. apply (omap_F2 _ _ eq); [clear; induction res; constructor; auto|]. intros x ? _ _ <-.
  pose proof (get_more _ _ r c m m' (nearest (local_row x)) (nearest (local_col x)) G) as O.
  destruct (np_get m _ _) as [v|], (np_get m' _ _) as [v'|]; cbn [outcomes obind] in *; try contradiction; [|exact O]. split; [reflexivity|exact O].
Qed.
Lemma wgt_pos : forall v w, band_wgt v = Ok w -> (0 < w)%Q.
Proof.
  intros v w H. unfold band_wgt in H. destruct (qmedian (good_vars v)) as [m|] eqn:E; [|discriminate]. apply Ok_inj in H. subst w.
  assert (P : (0 < m)%Q). { apply (qmedian_pos _ _) with (2 := E). intros x Hx. unfold good_vars in Hx. apply in_flat_map in Hx. destruct Hx as ([q|] & _ & Hx); [|contradiction].
    destruct (Qle_bool q 0) eqn:L; [contradiction|]. destruct Hx as [<-|[]]. destruct (Qlt_le_dec 0 q) as [Y|Y]; [exact Y|]. apply Qle_bool_iff in Y. congruence. }
  unfold Qdiv. rewrite Qmult_1_l. now apply Qinv_lt_0_compat.
Qed.
Definition acc_more (r c : Z) (a b : option (img Q) * list Q) : Prop := both (grows Qle r c) (fst a) (fst b) /\ snd b = snd a /\ Forall (fun w => (0 < w)%Q) (snd a).
Lemma sum_mfracs_more : forall r c vars ms ms', Forall2 (grows Qle r c) ms ms' -> forall a a', both (grows Qle r c) a a' ->
  outcomes (acc_more r c) (sum_mfracs (combine vars ms) a) (sum_mfracs (combine vars ms') a').
Proof.
  intros r c vars ms ms' F. revert vars. induction F as [|m m' ms ms' E F IH]; intros vars a a' A.
  - destruct vars; cbn; (split; [exact A|split; [reflexivity|constructor]]).
  - destruct vars as [|v vars]; [split; [exact A|split; [reflexivity|constructor]]|]. cbn [combine sum_mfracs].
    destruct (band_wgt v) as [w|] eqn:W; cbn [obind]; [|reflexivity]. apply wgt_pos in W.
    assert (SC : grows Qle r c (scale w m) (scale w m')).
    { destruct E as (S & S' & H). split; [exact S|]. split; [exact S'|]. intros i j I J. unfold scale. cbn [imap px]. rewrite (Qmult_comm w (px m i j)), (Qmult_comm w (px m' i j)). apply Qmult_le_compat_r; [now apply H|now apply Qlt_le_weak]. }
    assert (X : outcomes (grows Qle r c) (match a with None => Ok (scale w m) | Some a => add_img a (scale w m) end) (match a' with None => Ok (scale w m') | Some a => add_img a (scale w m') end)).
    { destruct a as [a|], a' as [a'|]; cbn [both] in A; try contradiction; [|exact SC]. unfold add_img. pose proof A as ((A1 & A2) & (A3 & A4) & AV). pose proof SC as ((G1 & G2) & (G3 & G4) & GV). rewrite A1, A2, A3, A4, G1, G2, G3, G4, !Z.eqb_refl.
      cbn [andb outcomes]. split; [split; assumption|]. split; [split; assumption|]. intros i j I J. cbn [imap2 px]. apply Qplus_le_compat; [now apply AV|now apply GV]. }
    destruct (match a with None => Ok (scale w m) | Some a => add_img a (scale w m) end) as [b|], (match a' with None => Ok (scale w m') | Some a => add_img a (scale w m') end) as [b'|]; cbn [outcomes obind] in *; try contradiction; [|exact X].
    specialize (IH vars (Some b) (Some b') X). destruct (sum_mfracs (combine vars ms) (Some b)) as [s|], (sum_mfracs (combine vars ms') (Some b')) as [s'|]; cbn [outcomes obind] in *; try contradiction; [|exact IH].
    destruct IH as (I1 & I2 & I3). split; [exact I1|]. cbn [snd]. split; [now rewrite I2|]. constructor; assumption.
Qed.
Lemma qsum_nonneg : forall l, Forall (fun w => (0 < w)%Q) l -> (0 <= qsum l)%Q.
Proof. intros l H. induction H as [|w l W H IH]; [apply Qle_refl|]. unfold qsum in *. cbn [fold_right]. lra. Qed.
Lemma mbexp_more : forall r c vars ms ms', Forall2 (grows Qle r c) ms ms' ->
  outcomes (fun a b => grows Qle r c (fst a) (fst b) /\ snd b = snd a) (get_mfrac_mbexp vars (Some ms)) (get_mfrac_mbexp vars (Some ms')).
Proof.
  intros r c vars ms ms' F. unfold get_mfrac_mbexp. pose proof (sum_mfracs_more r c vars ms ms' F None None Logic.I) as S.
  destruct (sum_mfracs (combine vars ms) None) as [s|], (sum_mfracs (combine vars ms') None) as [s'|]; cbn [outcomes obind] in *; try contradiction; [|exact S].
  destruct S as (A & E & P). rewrite E. destruct (fst s) as [a|], (fst s') as [a'|]; cbn [both] in A; try contradiction; [|reflexivity]. cbn [outcomes fst snd]. split; [|reflexivity].
  destruct A as (S1 & S2 & H). split; [exact S1|]. split; [exact S2|]. intros i j I J. cbn [imap px]. apply Qmult_le_compat_r; [now apply H|]. unfold Qdiv. rewrite Qmult_1_l. apply Qinv_le_0_compat. now apply qsum_nonneg.
Qed.
Lemma qsum_map_nonneg : forall A (f : A -> Q) l, (forall a, In a l -> (0 <= f a)%Q) -> (0 <= qsum (map f l))%Q.
Proof. intros A f l H. induction l as [|a l IH]; [apply Qle_refl|]. unfold qsum in *. cbn [map fold_right]. assert (X := H a (or_introl eq_refl)). assert (Y := IH (fun b I => H b (or_intror I))). lra. Qed.
Lemma mean_more : forall W (a b : img Q) y x, (forall u v, (0 <= W u v)%Q) -> grows Qle (nr a) (nc a) a b ->
  both Qle (weighted_mean W a y x) (weighted_mean W b y x).
Proof.
  intros W a b y x P (_ & (S1 & S2) & H). unfold weighted_mean. rewrite S1, S2. cbv zeta. destruct (Qeq_bool _ 0); [exact Logic.I|]. cbn [both].
  unfold Qdiv. apply Qmult_le_compat_r.
  - apply qsum_le_map. intros [i j] I. apply in_coords in I. cbn [fst snd]. rewrite (Qmult_comm _ (px a i j)), (Qmult_comm _ (px b i j)). apply Qmult_le_compat_r; [apply H; tauto|apply P].
  - apply Qinv_le_0_compat. apply qsum_map_nonneg. intros. apply P.
Qed.
Lemma weighted_more : forall W rad r c (a b : img Q) x y, (forall u v, (0 <= W u v)%Q) -> 0 <= r -> 0 <= c -> grows Qle r c a b ->
  both Qle (weighted_mfrac W rad a x y) (weighted_mfrac W rad b x y).
Proof.
  intros W rad r c a b x y P R C G. pose proof G as ((S1 & S2) & (S3 & S4) & _). unfold weighted_mfrac. rewrite S1, S2, S3, S4. cbv zeta. rewrite <- S1, <- S2 in G.
  pose proof (slice_more Q Qle a b (Z.max 0 (nearest x - rad)) (Z.min c (nearest x + rad + 1)) (Z.max 0 (nearest y - rad)) (Z.min r (nearest y + rad + 1)) ltac:(lia) ltac:(lia) G) as SL. cbv zeta in SL.
  set (sa := slice a _ _ _ _) in *. set (sb := slice b _ _ _ _) in *. pose proof SL as (_ & (T1 & T2) & _). rewrite T1, T2. destruct (nr sa * nc sa =? 0); [apply Qle_refl|]. now apply mean_more.
Qed.
Lemma slice_nonneg : forall (a : img Q) r0 r1 c0 c1 i j, 0 <= nr a -> 0 <= nc a -> (forall i j, inside a i j -> (0 <= px a i j)%Q) ->
  inside (slice a r0 r1 c0 c1) i j -> (0 <= px (slice a r0 r1 c0 c1) i j)%Q.
Proof.
  intros a r0 r1 c0 c1 i j R C H (I & J). unfold slice in *. cbn [px nr nc] in *. apply H. split; eapply slice_in; eauto.
Qed.
Lemma weighted_nonneg : forall W rad (a : img Q) x y v, (forall u v, (0 <= W u v)%Q) -> 0 <= nr a -> 0 <= nc a -> (forall i j, inside a i j -> (0 <= px a i j)%Q) ->
  weighted_mfrac W rad a x y = Some v -> (0 <= v)%Q.
Proof.
  intros W rad a x y v P R C N. unfold weighted_mfrac. cbv zeta. set (sa := slice a _ _ _ _). destruct (nr sa * nc sa =? 0); [intro E; apply Some_inj in E; subst; discriminate|].
  unfold weighted_mean. cbv zeta. destruct (Qeq_bool _ 0); [discriminate|]. intro E. apply Some_inj in E. subst v. unfold Qdiv. apply Qmult_le_0_compat.
  - apply qsum_map_nonneg. intros [i j] I. apply in_coords in I. cbn [fst snd]. apply Qmult_le_0_compat; [apply P|]. apply slice_nonneg; auto.
  - apply Qinv_le_0_compat. apply qsum_map_nonneg. intros. apply P.
Qed.
Lemma mfrac_rows_more : forall W rad r c m m' res, (forall u v, (0 <= W u v)%Q) -> 0 <= r -> 0 <= c -> (forall i j, 0 <= i < r -> 0 <= j < c -> (0 <= px m i j)%Q) -> grows Qle r c m m' ->
  Forall2 more_mfrac_row (add_mfrac W rad m res) (add_mfrac W rad m' res).
Proof.
  intros W rad r c m m' res P R C N G. pose proof G as ((S1 & S2) & (S3 & S4) & H). unfold add_mfrac.
  assert (X : existsb (fun v => negb (Qle_bool v 0)) (pixels m) = true -> existsb (fun v => negb (Qle_bool v 0)) (pixels m') = true).
  { rewrite !existsb_exists. intros (v & I & L). unfold pixels in *. apply in_map_iff in I. destruct I as ([i j] & <- & I). pose proof I as I'. apply in_coords in I. exists (px m' i j). split.
    - rewrite S3, S4, <- S1, <- S2. apply in_map_iff. exists (i, j). split; [reflexivity|exact I'].
    - apply negb_true_iff in L. apply negb_true_iff. destruct (Qle_bool (px m' i j) 0) eqn:Q; [|reflexivity]. apply Qle_bool_iff in Q. assert (px m i j <= px m' i j)%Q by (apply H; cbn in I; lia). cbn [fst snd] in L.
      assert (Z : Qle_bool (px m i j) 0 = true) by (apply Qle_bool_iff; lra). congruence. }
  assert (K : forall f g, (forall x, more_mfrac_row (f x) (g x)) -> Forall2 more_mfrac_row (map f res) (map g res)) by (intros f g FG; clear - FG; induction res; constructor; auto).
  destruct (existsb _ (pixels m)) eqn:E1; [rewrite (X eq_refl)|destruct (existsb _ (pixels m')) eqn:E2]; apply K; intro x; (split; [reflexivity|]); cbn [with_mfrac l_mfrac]; intros v v' V V'.
  - pose proof (weighted_more W rad r c m m' (local_col x) (local_row x) P R C G) as B. rewrite V, V' in B. exact B.
  - apply Some_inj in V. subst v. apply weighted_nonneg in V'; auto; try lia. intros i j [I J]. apply Qle_trans with (px m i j); [apply N; lia|apply H; lia].
  - apply Some_inj in V. apply Some_inj in V'. subst. apply Qle_refl.
Qed.
End Lsst.
Lemma lsst_coadd_more : forall r c es es', Forall2 (more_exp r c) es es' ->
  outcomes (both (more_coadded r c)) (Lexp_model.coadd_exposures es) (Lexp_model.coadd_exposures es').
Proof.
  intros r c es es' F. unfold Lexp_model.coadd_exposures.
  assert (S : forall e e', more_exp r c e e' -> exists m', e' = Lexp_model.mkExp (Lexp_model.e_x0 e) (Lexp_model.e_y0 e) (Lexp_model.e_image e) (Lexp_model.e_var e) m' (Lexp_model.e_psf e) (Lexp_model.e_wcs e) /\ grows bits_in r c (Lexp_model.e_mask e) m').
  { intros [a b d g h k w] [a' b' d' g' h' k' w'] H. unfold more_exp in H. cbn in H. destruct H as (-> & -> & -> & -> & -> & -> & M). exists h'. split; [reflexivity|exact M]. }
  destruct F as [|e e' es es' E F]; [reflexivity|].
  assert (FF : Forall2 (more_exp r c) (e :: es) (e' :: es')) by (constructor; assumption).
  assert (PS : forall a b, more_exp r c a b -> Lexp_model.psf_at_center b = Lexp_model.psf_at_center a) by (intros a b X; destruct (S a b X) as (m & -> & _); reflexivity).
  assert (IM : forall a b, more_exp r c a b -> Lexp_model.e_image b = Lexp_model.e_image a) by (intros a b X; destruct (S a b X) as (m & -> & _); reflexivity).
  assert (VA : forall a b, more_exp r c a b -> Lexp_model.e_var b = Lexp_model.e_var a) by (intros a b X; destruct (S a b X) as (m & -> & _); reflexivity).
  assert (BW : forall a b, more_exp r c a b -> Lexp_model.band_weight b = Lexp_model.band_weight a) by (intros a b X; destruct (S a b X) as (m & -> & _); reflexivity).
  assert (WW : forall a b, more_exp r c a b -> Lexp_model.bw b = Lexp_model.bw a) by (intros a b X; destruct (S a b X) as (m & -> & _); reflexivity).
  cbv zeta. rewrite (IM e e' E), (PS e e' E). destruct (Lexp_model.psf_at_center e) as [p0|]; cbn [obind]; [|reflexivity].
  assert (OM : omap (fun x => obind (Lexp_model.psf_at_center x) (fun p => if Lexp_model.same_size (Lexp_model.e_image x) (Lexp_model.e_image e) && Lexp_model.same_size p p0 then Ok p else Raise ValueError)) (e' :: es')
             = omap (fun x => obind (Lexp_model.psf_at_center x) (fun p => if Lexp_model.same_size (Lexp_model.e_image x) (Lexp_model.e_image e) && Lexp_model.same_size p p0 then Ok p else Raise ValueError)) (e :: es)).
  { clear - FF PS IM. induction FF as [|a b l l' X F IH]; [reflexivity|]. cbn [omap]. now rewrite (PS a b X), (IM a b X), IH. }
  rewrite OM. clear OM. destruct (omap _ (e :: es)) as [psfs|]; cbn [obind]; [|reflexivity].
  assert (EX : existsb (fun x => match Lexp_model.band_weight x with None => true | _ => false end) (e' :: es') = existsb (fun x => match Lexp_model.band_weight x with None => true | _ => false end) (e :: es)).
  { clear - FF BW. induction FF as [|a b l l' X F IH]; [reflexivity|]. cbn [existsb]. now rewrite (BW a b X), IH. }
  rewrite EX. rewrite (F2_map_eq _ _ _ Lexp_model.bw _ _ FF WW). destruct (negb _ && _); [exact Logic.I|]. cbn [outcomes both]. unfold more_coadded.
  cbn [Lexp_model.c_image Lexp_model.c_var Lexp_model.c_mask Lexp_model.c_psf Lexp_model.c_wcs Lexp_model.c_x0 Lexp_model.c_y0].
  assert (SI : forall R C, Lexp_model.sum_image (e' :: es') R C = Lexp_model.sum_image (e :: es) R C).
  { intros R C. unfold Lexp_model.sum_image. generalize (ifill R C 0%Q). clear - FF VA IM WW. induction FF as [|a b l l' X F IH]; intro q; [reflexivity|]. cbn [fold_left]. rewrite (VA a b X), (IM a b X), (WW a b X). apply IH. }
  assert (SW : forall R C, Lexp_model.sum_weight (e' :: es') R C = Lexp_model.sum_weight (e :: es) R C).
  { intros R C. unfold Lexp_model.sum_weight. generalize (ifill R C 0%Q). clear - FF VA. induction FF as [|a b l l' X F IH]; intro q; [reflexivity|]. cbn [fold_left]. rewrite (VA a b X). apply IH. }
  rewrite SI, SW. split; [reflexivity|]. split; [reflexivity|]. split; [reflexivity|].
  assert (E0 : Lexp_model.e_wcs e' = Lexp_model.e_wcs e /\ Lexp_model.e_x0 e' = Lexp_model.e_x0 e /\ Lexp_model.e_y0 e' = Lexp_model.e_y0 e) by (destruct (S e e' E) as (m & -> & _); repeat split; reflexivity).
  destruct E0 as (E1 & E2 & E3). split; [exact E1|]. split; [exact E2|]. split; [exact E3|].
  assert (M : grows bits_in r c (Lexp_model.e_mask e) (Lexp_model.e_mask e')) by apply E.
  unfold Lexp_model.or_masks. clear - FF M. revert M. generalize (Lexp_model.e_mask e) (Lexp_model.e_mask e'). induction FF as [|a b l l' X F IH]; intros m q M; [exact M|]. cbn [fold_left]. apply IH. apply grows_lor; [exact M|apply X].
Qed.
Lemma bmasks_more : forall r c env env' cat, Lmeas_model.m_dety0 env' = Lmeas_model.m_dety0 env -> Lmeas_model.m_detx0 env' = Lmeas_model.m_detx0 env ->
  grows bits_in r c (Lmeas_model.m_detmask env) (Lmeas_model.m_detmask env') ->
  outcomes (Forall2 bits_in) (Lmeas_model.get_bmasks env cat) (Lmeas_model.get_bmasks env' cat).
Proof.
  intros r c env env' cat Y X ((S1 & S2) & (S3 & S4) & H). unfold Lmeas_model.get_bmasks. apply (omap_F2 _ _ eq); [clear; induction cat; constructor; auto|]. intros s ? _ _ <-.
  unfold Lmeas_model.get_bmask. destruct (Lmeas_model.first_peak s) as [pk|]; cbn [obind]; [|reflexivity]. cbv zeta. rewrite X, Y. unfold insideb. rewrite S1, S2, S3, S4.
  destruct (_ && _) eqn:B; [|reflexivity]. rewrite !andb_true_iff, !Z.leb_le, !Z.ltb_lt in B. cbn [outcomes]. apply H; tauto.
Qed.

(** ** Bright objects *)
Section Bright.
Import Masking_model Masking_spec.
Lemma masked_incl : forall cat cat' s n i j, incl cat cat' -> masked cat s n i j -> masked cat' s n i j.
Proof. intros cat cat' s n i j I (h & H & C). exists h. split; [now apply I|exact C]. Qed.
Lemma grow_incl : forall rad cat cat', incl cat cat' -> incl (grow rad cat) (grow rad cat').
Proof. intros rad cat cat' I h H. unfold grow in *. apply in_map_iff in H. destruct H as (x & E & H). apply in_map_iff. exists x. split; [exact E|now apply I]. Qed.
Lemma bits_zero : forall b, bits_in 0 b.
Proof. intros b k. rewrite Z.bits_0. discriminate. Qed.
Lemma expand_incl : forall cat cat' rad s n bit r c extra extra' i j, incl cat cat' -> expand_bits cat rad s n bit r c extra -> expand_bits cat' rad s n bit r c extra' ->
  0 <= i < r -> 0 <= j < c -> bits_in (extra i j) (extra' i j).
Proof.
  intros cat cat' rad s n bit r c extra extra' i j IN X X' I J. destruct (X i j I J) as [A B], (X' i j I J) as [A' B'].
  destruct (Rlt_dec 0 rad) as [L|L].
  - destruct (Masking_proofs.masked_dec (grow rad cat) s n i j) as [M|M].
    + rewrite A, A'; [apply bits_refl| |]; (split; [exact L|]); [eapply masked_incl; [apply grow_incl; exact IN|exact M]|exact M].
    + rewrite B; [apply bits_zero|]. tauto.
  - rewrite B; [apply bits_zero|]. tauto.
Qed.
Lemma bits_lor_l : forall a b c, bits_in a b -> bits_in a (Z.lor b c).
Proof. intros a b c H k K. rewrite Z.lor_spec, orb_true_iff. left. now apply H. Qed.
Lemma bits_diff : forall a b e, bits_in a b -> bits_in (Z.ldiff a e) b.
Proof. intros a b e H k K. rewrite Z.ldiff_spec, andb_true_iff in K. apply H. tauto. Qed.
Lemma bits_diff_except : forall a b e, bits_in a (Z.lor b e) -> bits_in (Z.ldiff a e) b.
Proof. intros a b e H k K. rewrite Z.ldiff_spec, andb_true_iff, negb_true_iff in K. destruct K as [K N]. apply H in K. rewrite Z.lor_spec, N, orb_false_r in K. exact K. Qed.
(** What is left at one pixel by a smaller mask (o1) and by a larger one (o2). *)
Lemma heavier_at : forall except bits bits' ex ex' o o1 o2 i j (M M' : Prop), (M \/ ~ M) -> (M' \/ ~ M') -> (M -> M') ->
  (M -> masks_set (Z.lor bits ex) o o1 i j) -> (~ M -> masks_kept ex o o1 i j) -> (M' -> masks_set (Z.lor bits' ex') o o2 i j) -> (~ M' -> masks_kept ex' o o2 i j) ->
  bits_in ex ex' -> (M -> bits_in (Z.ldiff bits except) bits') -> (forall m, o_mfrac o = Some m -> (px m i j <= 1)%R) ->
  (px (o_weight o2) i j = px (o_weight o1) i j \/ px (o_weight o2) i j = 0%R) /\
  bits_in (Z.ldiff (px (o_bmask o1) i j) except) (px (o_bmask o2) i j) /\
  both (fun m m' => (px m i j <= px m' i j)%R) (o_mfrac o1) (o_mfrac o2).
Proof.
  intros except bits bits' ex ex' o o1 o2 i j M M' D D' MM S K S' K' E B F.
  assert (FR : forall P P' : R -> R -> Prop, (forall a b, P a b -> b = a \/ b = 1%R) -> (forall a b, P' a b -> b = 1%R \/ (b = a /\ forall x, P a x -> x = a)) ->
     mfrac_rel P i j (o_mfrac o) (o_mfrac o1) -> mfrac_rel P' i j (o_mfrac o) (o_mfrac o2) -> both (fun m m' => (px m i j <= px m' i j)%R) (o_mfrac o1) (o_mfrac o2)).
  { intros P P' H H' X Y. unfold mfrac_rel in *. destruct (o_mfrac o) as [m|], (o_mfrac o1) as [m1|], (o_mfrac o2) as [m2|]; try contradiction; [|exact Logic.I]. cbn [both]. specialize (F m eq_refl).
    destruct (H' _ _ Y) as [->|[-> U]]; [|rewrite (U _ X); Lra.lra]. destruct (H _ _ X) as [->| ->]; Lra.lra. }
  destruct D as [m|nm]; [specialize (S m); specialize (S' (MM m)); specialize (B m); clear K K' | clear S B; specialize (K nm); destruct D' as [m'|nm']; [specialize (S' m'); clear K'|specialize (K' nm'); clear S']].
  - destruct S as (W & BM & MF), S' as (W' & BM' & MF'). split; [now right|]. split.
    + rewrite BM, BM'. intros k H. rewrite Z.ldiff_spec, !Z.lor_spec, andb_true_iff, negb_true_iff, !orb_true_iff in H. rewrite !Z.lor_spec, !orb_true_iff. destruct H as [[H|[H|H]] N]; [now left| |].
      * right. left. apply B. now rewrite Z.ldiff_spec, H, N.
      * right. right. now apply E.
    + eapply FR; [| |exact MF|exact MF']; intros; tauto.
  - destruct K as (W & BM & MF), S' as (W' & BM' & MF'). split; [now right|]. split.
    + rewrite BM, BM'. apply bits_diff. apply bits_lor; [apply bits_refl|]. intros k H. rewrite Z.lor_spec, orb_true_iff. right. now apply E.
    + eapply FR; [| |exact MF|exact MF']; intros; tauto.
  - destruct K as (W & BM & MF), K' as (W' & BM' & MF'). split; [left; now rewrite W, W'|]. split.
    + rewrite BM, BM'. apply bits_diff. apply bits_lor; [apply bits_refl|exact E].
    + eapply FR; [| |exact MF|exact MF']; cbv beta; intros; tauto.
Qed.
Lemma F2_join : forall A (R S T : A -> A -> Prop) l m n, Forall2 R l m -> Forall2 S l n -> (forall a b d, In a l -> R a b -> S a d -> T b d) -> Forall2 T m n.
Proof.
  intros A R S T l m n F. revert n. induction F as [|a b l m E F IH]; intros n G H; inversion G as [|a' d l' n' E' G' EQ]; subst; constructor.
  - exact (H a b d (or_introl eq_refl) E E').
  - apply IH; [exact G'|]. intros x y z I. apply H. now right.
Qed.
Lemma F2_join2 : forall A (R S T : A -> A -> Prop) (l m n : list (list A)), Forall2 (Forall2 R) l m -> Forall2 (Forall2 S) l n -> (forall k a b d, In k l -> In a k -> R a b -> S a d -> T b d) -> Forall2 (Forall2 T) m n.
Proof. intros A R S T l m n F G H. eapply F2_join; [exact F|exact G|]. intros a b d I X Y. eapply F2_join; [exact X|exact Y|]. intros a0 b0 d0 I0. now apply (H a). Qed.
Lemma bright_apodize_more : forall W (sv : services W) mbobs cat cat' rad bit ebit ibit s h iso out out' r c,
  (0 < h)%R -> incl cat cat' -> radii_ok cat' -> mb_shape r c mbobs -> fractions r c mbobs ->
  apply_foreground_masking_corrections sv mbobs cat "apodize" rad bit ebit ibit s h iso = Ok out ->
  apply_foreground_masking_corrections sv mbobs cat' "apodize" rad bit ebit ibit s h iso = Ok out' ->
  Forall2 (Forall2 (heavier r c 0)) out out'.
Proof.
  intros W sv mbobs cat cat' rad bit ebit ibit s h iso out out' r c H I RO SH FR E E'.
  assert (RO0 : radii_ok cat) by (intros x X; apply RO, I, X).
  destruct (Masking_proofs.fg_apodize_spec W sv mbobs cat rad bit ebit ibit s h iso out r c H RO0 SH E) as (extra & X & F).
  destruct (Masking_proofs.fg_apodize_spec W sv mbobs cat' rad bit ebit ibit s h iso out' r c H RO SH E') as (extra' & X' & F').
  eapply F2_join2; [exact F|exact F'|]. intros k o o1 o2 Ik Io (_ & P) (_ & P') i j Hi Hj.
  destruct (P i j Hi Hj) as (_ & _ & P1 & P2), (P' i j Hi Hj) as (_ & _ & P1' & P2').
  destruct (Masking_proofs.apod_factor_spec h cat s r i j H) as [[_ L1] L2], (Masking_proofs.apod_factor_spec h cat' s r i j H) as [[_ L1'] L2'].
  apply (heavier_at 0 bit bit (extra i j) (extra' i j) o o1 o2 i j (masked cat s r i j) (masked cat' s r i j)).
  - apply Masking_proofs.masked_dec.
  - apply Masking_proofs.masked_dec.
  - now apply masked_incl.
  - intro M. apply P1, L2, M.
  - intro M. apply P2. destruct (Rlt_dec (apod_factor h cat s r i j) 1) as [L|L]; [exfalso; apply M, L2, L|Lra.lra].
  - intro M. apply P1', L2', M.
  - intro M. apply P2'. destruct (Rlt_dec (apod_factor h cat' s r i j) 1) as [L|L]; [exfalso; apply M, L2', L|Lra.lra].
  - eapply expand_incl; eauto.
  - intros _. apply bits_diff, bits_refl.
  - intros m Hm. exact (FR k o m i j Ik Io Hm Hi Hj).
Qed.
Lemma bright_interp_more : forall W (sv : services W) mbobs cat cat' (noise : bool) rad bit ebit ibit s h iso out out' r c except,
  incl cat cat' -> radii_ok cat' -> mb_shape r c mbobs -> fractions r c mbobs -> bit <> 0 -> draws_ok sv ->
  except = ibit \/ (except = 0 /\ exists i j, 0 <= i < r /\ 0 <= j < c /\ ~ masked cat' s r i j) ->
  apply_foreground_masking_corrections sv mbobs cat (if noise then "interp-noise" else "interp") rad bit ebit ibit s h iso = Ok out ->
  apply_foreground_masking_corrections sv mbobs cat' (if noise then "interp-noise" else "interp") rad bit ebit ibit s h iso = Ok out' ->
  Forall2 (Forall2 (heavier r c except)) out out'.
Proof.
  intros W sv mbobs cat cat' noise rad bit ebit ibit s h iso out out' r c except I RO SH FR NB DR EX E E'.
  assert (RO0 : radii_ok cat) by (intros x X; apply RO, I, X).
  destruct (Masking_proofs.fg_interp_spec W sv mbobs cat noise rad bit ebit ibit s h iso out r c RO0 SH NB DR E) as (extra & X & F).
  destruct (Masking_proofs.fg_interp_spec W sv mbobs cat' noise rad bit ebit ibit s h iso out' r c RO SH NB DR E') as (extra' & X' & F').
  eapply F2_join2; [exact F|exact F'|]. intros k o o1 o2 Ik Io (_ & K & P) (_ & K' & P') i j Hi Hj.
  assert (EI : bits_in (extra i j) (extra' i j)) by (eapply expand_incl; eauto).
  assert (MF : forall m, o_mfrac o = Some m -> (px m i j <= 1)%R) by (intros m Hm; exact (FR k o m i j Ik Io Hm Hi Hj)).
  pose proof (Masking_proofs.masked_dec cat s r i j) as D. pose proof (Masking_proofs.masked_dec cat' s r i j) as D'. pose proof (masked_incl cat cat' s r i j I) as MM.
  assert (IB : forall b, bits_in (Z.ldiff bit b) (Z.lor bit ibit)) by (intro b; apply bits_diff, bits_lor_l, bits_refl).
  destruct P as [(_ & _ & _ & S)|(_ & _ & _ & S)], P' as [(A' & _ & _ & S')|(_ & _ & _ & S')].
  - apply (heavier_at except bit bit (extra i j) (extra' i j) o o1 o2 i j (masked cat s r i j) (masked cat' s r i j)); auto; try (intros _; apply bits_diff, bits_refl).
  - apply (heavier_at except bit (Z.lor bit ibit) (extra i j) (extra' i j) o o1 o2 i j (masked cat s r i j) (masked cat' s r i j)); auto.
  - destruct EX as [->|(_ & a & b & Ha & Hb & N)]; [|exfalso; apply N; apply (A' (a, b)); split; cbn; assumption].
    apply (heavier_at ibit (Z.lor bit ibit) bit (extra i j) (extra' i j) o o1 o2 i j (masked cat s r i j) (masked cat' s r i j)); auto.
    intros _. apply bits_diff_except, bits_refl.
  - apply (heavier_at except (Z.lor bit ibit) (Z.lor bit ibit) (extra i j) (extra' i j) o o1 o2 i j (masked cat s r i j) (masked cat' s r i j)); auto.
    intros _. apply bits_diff, bits_refl.
Qed.
Lemma bright_bmask_more : forall cat cat' r c s bit m m', incl cat cat' -> radii_ok cat' -> make_foreground_bmask cat r c s bit = Ok m -> make_foreground_bmask cat' r c s bit = Ok m' -> grows bits_in r c m m'.
Proof.
  intros cat cat' r c s bit m m' I RO E E'. assert (RO0 : radii_ok cat) by (intros x X; apply RO, I, X).
  destruct (Masking_proofs.foreground_bmask_spec _ _ _ _ _ _ RO0 E) as (S1 & S2 & H), (Masking_proofs.foreground_bmask_spec _ _ _ _ _ _ RO E') as (S3 & S4 & H').
  split; [split; assumption|]. split; [split; assumption|]. intros i j Hi Hj. destruct (H i j Hi Hj) as [A B], (H' i j Hi Hj) as [A' B'].
  destruct (Masking_proofs.masked_dec cat s r i j) as [M|M]; [rewrite (A M), (A' (masked_incl _ _ _ _ _ _ I M)); apply bits_refl|rewrite (B M); apply bits_zero].
Qed.
End Bright.
Section LsstBright.
Import Masking_spec Dict Lmask_model Lmask_spec.
Lemma factor_where : forall wcs xy0 info i j, let a := cat_factor (3 / 2) (map (circle_of wcs xy0) info) i j in
  ((a < 1)%R <-> exists b, In b info /\ covers (circle_of wcs xy0 b) i j).
Proof.
  intros wcs xy0 info i j a. destruct (Masking_proofs.cat_factor_spec AP_RAD (map (circle_of wcs xy0) info) i j Lmask_proofs.ap_rad_pos) as [_ B]. unfold a. change (3/2)%R with AP_RAD. rewrite B. split.
  - intros (h & H & C). apply in_map_iff in H. destruct H as (b & <- & H). eauto.
  - intros (b & H & C). exists (circle_of wcs xy0 b). split; [now apply in_map|exact C].
Qed.
Lemma exp_heavier : forall r c (a a' : Z -> Z -> R) bit extra extra' e e1 e2, (forall i j, (a i j < 1)%R -> (a' i j < 1)%R) ->
  (forall i j, 0 <= i < r -> 0 <= j < c -> bits_in (extra i j) (extra' i j)) ->
  masked_exp r c a bit extra e e1 -> masked_exp r c a' bit extra' e e2 -> heavier_exp r c e1 e2.
Proof.
  intros r c a a' bit extra extra' e e1 e2 L X (_ & H) (_ & H') i j I J. destruct (H i j I J) as (_ & A & B), (H' i j I J) as (_ & A' & B'). specialize (X i j I J).
  destruct (Rlt_dec (a i j) 1) as [K|K].
  - destruct (A K) as (V & M), (A' (L i j K)) as (V' & M'). rewrite V', M, M'. split; [now right|]. apply bits_lor; [apply bits_refl|exact X].
  - destruct (B K) as (V & M). destruct (Rlt_dec (a' i j) 1) as [K'|K'].
    + destruct (A' K') as (V' & M'). rewrite V', M, M'. split; [now right|]. apply bits_lor; [apply bits_lor_l, bits_refl|exact X].
    + destruct (B' K') as (V' & M'). rewrite V', V, M, M'. split; [now left|]. apply bits_lor; [apply bits_refl|exact X].
Qed.
Lemma sget_pair : forall V k (v : V) d, sget k d = Some v -> In (k, v) d.
Proof. intros V k v d. induction d as [|[k0 v0] d IH]; [discriminate|]. cbn [sget]. destruct (String.eqb_spec k k0) as [->|N]; [intro E; apply Some_inj in E; subst; now left|right; now apply IH]. Qed.
Lemma dict_join : forall V (R S T : V -> V -> Prop) keys d d1 d2, dict_rel keys R d d1 -> dict_rel keys S d d2 -> incl keys (skeys d) -> (forall k v a b, In (k, v) d -> R v a -> S v b -> T a b) ->
  in_each T keys d1 d2.
Proof.
  intros V R S T keys d d1 d2 (_ & H & _) (_ & H' & _) IN J k I. destruct (sget k d) as [v|] eqn:G.
  - destruct (H k v I G) as (a & A & Ra), (H' k v I G) as (b & B & Sb). exists a, b. split; [exact A|]. split; [exact B|]. apply (J k v a b); auto. exact (sget_pair _ k v d G).
  - exfalso. apply IN in I. apply sget_None in G. contradiction.
Qed.
Lemma lsst_bright_more : forall wcs xy0 info info' bit ebit r c w, incl info info' -> (forall b, In b info' -> (0 <= br_rad b)%R) -> world_ok r c w ->
  (forall d b m i j, w_mfrac w = Some d -> In (b, m) d -> 0 <= i < r -> 0 <= j < c -> (px m i j <= 1)%R) ->
  exists w1 w2, apply_bright wcs xy0 info bit ebit w = Ok w1 /\ apply_bright wcs xy0 info' bit ebit w = Ok w2 /\ heavier_world r c (skeys (w_exp w)) w1 w2.
Proof.
  intros wcs xy0 info info' bit ebit r c w IN RO WO FR.
  destruct (Lmask_props.C66_bright wcs xy0 info bit ebit r c w (fun b H => RO b (IN b H)) WO) as (w1 & x1 & E1 & (M1 & M2 & M3 & M4) & X1).
  destruct (Lmask_props.C66_bright wcs xy0 info' bit ebit r c w RO WO) as (w2 & x2 & E2 & (N1 & N2 & N3 & N4) & X2).
  exists w1, w2. split; [exact E1|]. split; [exact E2|].
  set (a1 := fun i j => cat_factor (3 / 2) (map (circle_of wcs xy0) info) i j) in *. set (a2 := fun i j => cat_factor (3 / 2) (map (circle_of wcs xy0) info') i j) in *.
  assert (L : forall i j, (a1 i j < 1)%R -> (a2 i j < 1)%R). { intros i j. unfold a1, a2. rewrite !factor_where. intros (b & I & C). exists b. split; [now apply IN|exact C]. }
  assert (X : forall i j, 0 <= i < r -> 0 <= j < c -> bits_in (x1 i j) (x2 i j)).
  { intros i j I J. destruct (X1 i j I J) as [A B], (X2 i j I J) as [A' B'].
    destruct (Masking_proofs.some_covers_dec (Masking_spec.grow 16 (map (circle_of wcs xy0) info)) i j) as [(h & Hh & C)|N].
    - unfold Masking_spec.grow in Hh. apply in_map_iff in Hh. destruct Hh as (h0 & <- & Hh). apply in_map_iff in Hh. destruct Hh as (b & <- & Hb).
      assert (Y : within_circle 16 wcs xy0 info i j) by (exists b; split; [exact Hb|exact C]).
      assert (Y' : within_circle 16 wcs xy0 info' i j) by (exists b; split; [now apply IN|exact C]). rewrite (A Y), (A' Y'). apply bits_refl.
    - rewrite B; [apply bits_zero|]. intros (b & Hb & C). apply (N (Masking_model.mkHole (Masking_model.h_x (circle_of wcs xy0 b)) (Masking_model.h_y (circle_of wcs xy0 b)) (br_rad b + 16)%R)); [|exact C].
      unfold Masking_spec.grow. apply in_map_iff. exists (circle_of wcs xy0 b). split; [reflexivity|]. apply in_map. exact Hb. }
  destruct WO as (_ & _ & _ & WN & WM & WR). split; [|split; [|split]].
  - eapply dict_join; [exact M1|exact N1|apply incl_refl|]. intros k v a b _ P Q. exact (exp_heavier r c a1 a2 bit x1 x2 v a b L X P Q).
  - destruct (w_noise w) as [d|], (w_noise w1) as [d1|], (w_noise w2) as [d2|]; cbn [opt_rel both] in *; try contradiction; [|exact Logic.I].
    eapply dict_join; [exact M2|exact N2|exact (proj1 (WN d eq_refl))|]. intros k v a b _ P Q. exact (exp_heavier r c a1 a2 bit x1 x2 v a b L X P Q).
  - destruct (w_mfrac w) as [d|], (w_mfrac w1) as [d1|], (w_mfrac w2) as [d2|]; cbn [opt_rel both] in *; try contradiction; [|exact Logic.I].
    eapply dict_join; [exact M3|exact N3|exact (proj1 (WM d eq_refl))|]. intros k v a b Iv (SA & P) (SB & Q). split; [exact SA|]. split; [exact SB|]. intros i j I J.
    destruct (P i j I J) as [A B], (Q i j I J) as [A' B']. specialize (FR d k v i j eq_refl Iv I J).
    destruct (Rlt_dec (a1 i j) 1) as [K|K]; [rewrite (A K), (A' (L i j K)); Lra.lra|]. rewrite (B K). destruct (Rlt_dec (a2 i j) 1) as [K'|K']; [rewrite (A' K'); exact FR|rewrite (B' K'); Lra.lra].
  - destruct (w_ormasks w) as [d|], (w_ormasks w1) as [d1|], (w_ormasks w2) as [d2|]; cbn [opt_rel both] in *; try contradiction; [|exact Logic.I].
    eapply F2_join; [exact M4|exact N4|]. intros m a b _ (SA & P) (SB & Q). split; [exact SA|]. split; [exact SB|]. intros i j I J. destruct (P i j I J) as [A B], (Q i j I J) as [A' B']. specialize (X i j I J).
    destruct (Rlt_dec (a1 i j) 1) as [K|K]; [rewrite (A K), (A' (L i j K)); apply bits_lor; [apply bits_refl|exact X]|]. rewrite (B K).
    destruct (Rlt_dec (a2 i j) 1) as [K'|K']; [rewrite (A' K'); apply bits_lor; [apply bits_lor_l, bits_refl|exact X]|rewrite (B' K'); apply bits_lor; [apply bits_refl|exact X]].
Qed.
End LsstBright.

(** ** The LSST run *)
Section LsstRun.
Import Lmdet_model.
Definition nn (r c : Z) (m : img Q) : Prop := forall i j, 0 <= i < r -> 0 <= j < c -> (0 <= px m i j)%Q.
Lemma sum_nonneg : forall r c vars ms, Forall (fun m => shaped r c m /\ nn r c m) ms -> forall a s, (forall m, a = Some m -> shaped r c m /\ nn r c m) ->
  sum_mfracs (combine vars ms) a = Ok s -> forall m, fst s = Some m -> shaped r c m /\ nn r c m.
Proof.
  intros r c vars ms F. revert vars. induction F as [|m ms E F IH]; intros vars a s A H.
  - assert (X : sum_mfracs [] a = Ok s) by (destruct vars; exact H). cbn [sum_mfracs] in X. apply Ok_inj in X. subst s. exact A.
  - destruct vars as [|v vars]; cbn [combine sum_mfracs] in H; [apply Ok_inj in H; subst s; exact A|].
    destruct (band_wgt v) as [w|] eqn:W; cbn [obind] in H; [|discriminate]. apply wgt_pos in W.
    assert (SC : shaped r c (scale w m) /\ nn r c (scale w m)). { split; [apply E|]. intros i j I J. unfold scale. cbn [imap px]. apply Qmult_le_0_compat; [now apply Qlt_le_weak|now apply E]. }
    destruct (match a with None => Ok (scale w m) | Some a => add_img a (scale w m) end) as [b|] eqn:B; cbn [obind] in H; [|discriminate].
    destruct (sum_mfracs (combine vars ms) (Some b)) as [t|] eqn:T; cbn [obind] in H; [|discriminate]. apply Ok_inj in H. subst s. cbn [fst]. refine (IH vars (Some b) t _ T).
    intros x X. apply Some_inj in X. subst x. destruct a as [a|]; [|apply Ok_inj in B; now subst b]. unfold add_img in B. destruct (_ && _); [|discriminate]. apply Ok_inj in B. subst b. destruct (A a eq_refl) as (SA & NA).
    split; [exact SA|]. intros i j I J. cbn [imap2 px]. destruct SC as (_ & NS). specialize (NA i j I J). specialize (NS i j I J). lra.
Qed.
Lemma mbexp_nonneg : forall r c vars ms x, Forall (fun m => shaped r c m /\ nn r c m) ms -> get_mfrac_mbexp vars (Some ms) = Ok x -> nn r c (fst x).
Proof.
  intros r c vars ms x F H. unfold get_mfrac_mbexp in H. pose proof (sum_mfracs_more r c vars ms ms) as SM.
  assert (FR : Forall2 (grows Qle r c) ms ms). { clear - F. induction F as [|m ms (S & _) F IH]; constructor; [|exact IH]. split; [exact S|]. split; [exact S|]. intros; apply Qle_refl. }
  specialize (SM FR None None Logic.I). destruct (sum_mfracs (combine vars ms) None) as [s|] eqn:E; cbn [obind outcomes] in *; [|discriminate]. destruct SM as (_ & _ & P).
  pose proof (sum_nonneg r c vars ms F None s ltac:(discriminate) E) as N. destruct (fst s) as [a|]; [|discriminate]. apply Ok_inj in H. subst x. cbn [fst]. destruct (N a eq_refl) as (_ & NA).
  intros i j I J. cbn [imap px]. apply Qmult_le_0_compat; [now apply NA|]. unfold Qdiv. rewrite Qmult_1_l. apply Qinv_le_0_compat. now apply qsum_nonneg.
Qed.
Lemma annotate_more : forall d oms mfs r c om om' mf mf' p res, (forall u v, (0 <= d_W d u v)%Q) -> 0 <= r -> 0 <= c -> nn r c mf -> grows bits_in r c om om' -> grows Qle r c mf mf' ->
  outcomes (Forall2 more_row) (annotate d om mf p res) (annotate (with_masks d oms mfs) om' mf' p res).
Proof.
  intros d oms mfs r c om om' mf mf' p res P R C N GO GM. unfold annotate. cbn [with_masks d_W d_rad].
  pose proof (mfrac_rows_more (d_W d) (d_rad d) r c mf mf' res P R C N GM) as F.
  assert (O : outcomes (Forall2 more_row) (add_ormask om (add_mfrac (d_W d) (d_rad d) mf res)) (add_ormask om' (add_mfrac (d_W d) (d_rad d) mf' res))).
  { unfold add_ormask. apply (omap_F2 _ _ more_mfrac_row); [exact F|]. intros x y _ _ (E & M). rewrite E. unfold local_row, local_col. cbn [with_mfrac l_row l_row0 l_col l_col0].
    pose proof (get_more _ _ r c om om' (nearest (l_row x - inject_Z (l_row0 x))) (nearest (l_col x - inject_Z (l_col0 x))) GO) as G.
    destruct (np_get om _ _) as [v|], (np_get om' _ _) as [v'|]; cbn [outcomes obind] in *; try contradiction; [|exact G]. split; [reflexivity|]. split; [exact G|]. exact M. }
  destruct (add_ormask om _) as [l|], (add_ormask om' _) as [l'|]; cbn [outcomes obind] in *; try contradiction; [|exact O].
  unfold add_original_psf. clear - O. induction O as [|x y l l' (E & B & M) O IH]; constructor; [|exact IH]. split; [rewrite E; reflexivity|]. split; [exact B|exact M].
Qed.
Lemma run_more : forall r c d oms mfs, 0 <= r -> 0 <= c -> d_dims d = (r, c) -> (forall u v, (0 <= d_W d u v)%Q) ->
  both (Forall2 (grows bits_in r c)) (d_ormasks d) oms -> both (Forall2 (grows Qle r c)) (d_mfracs d) mfs ->
  (forall ms m i j, d_mfracs d = Some ms -> In m ms -> 0 <= i < r -> 0 <= j < c -> (0 <= px m i j)%Q) ->
  outcomes more_tables (task_run d) (task_run (with_masks d oms mfs)).
Proof.
  intros r c d oms mfs R C DM P OM MF NNM. unfold task_run.
  cbn [with_masks d_dims d_ormasks d_vars d_mfracs d_sky d_shear d_psffits d_to_g d_metacal d_measure].
  assert (O : outcomes (grows bits_in r c) (combine_ormasks (d_dims d) (d_ormasks d)) (combine_ormasks (d_dims d) oms)).
  { destruct (d_ormasks d) as [ms|], oms as [ms'|]; cbn [both] in OM; try contradiction; [now apply ormasks_more|]. cbn [combine_ormasks outcomes]. rewrite DM. split; [split; reflexivity|]. split; [split; reflexivity|]. intros. apply bits_refl. }
  destruct (combine_ormasks (d_dims d) (d_ormasks d)) as [om|], (combine_ormasks (d_dims d) oms) as [om'|]; cbn [outcomes obind] in O |- *; try contradiction; [|exact O].
  assert (M : outcomes (fun a b => grows Qle r c (fst a) (fst b) /\ snd b = snd a) (get_mfrac_mbexp (d_vars d) (d_mfracs d)) (get_mfrac_mbexp (d_vars d) mfs)).
  { destruct (d_mfracs d) as [ms|], mfs as [ms'|]; cbn [both] in MF; try contradiction; [now apply mbexp_more|reflexivity]. }
  destruct (get_mfrac_mbexp (d_vars d) (d_mfracs d)) as [x|] eqn:E, (get_mfrac_mbexp (d_vars d) mfs) as [x'|]; cbn [outcomes obind] in M |- *; try contradiction; [|exact M].
  destruct M as (M & SX). rewrite SX.
  assert (N : nn r c (fst x)).
  { destruct (d_mfracs d) as [ms|], mfs as [ms'|]; cbn [both] in MF; try contradiction; [|discriminate]. apply (mbexp_nonneg r c (d_vars d) ms x); [|exact E]. rewrite Forall_forall. intros m Im.
    split; [|intros i j; exact (NNM ms m i j eq_refl Im)]. clear - MF Im. induction MF as [|a b l l' G F IH]; [contradiction|]. destruct Im as [<-|Im]; [apply G|now apply IH]. }
  destruct (d_sky d); cbn [obind]; [|reflexivity]. destruct (fit_original_psfs _ _ _ _) as [p|]; cbn [obind]; [|reflexivity]. destruct (d_metacal d) as [mcal|]; cbn [obind]; [|reflexivity].
  match goal with |- outcomes _ (obind ?a _) (obind ?b _) => assert (T : outcomes (Forall2 more_table) a b) end.
  { apply (omap_F2 _ _ eq); [clear; induction mcal; constructor; auto|]. intros sm ? _ _ <-. destruct (d_measure d (snd sm)) as [[rows|]|]; cbn [obind]; [|split; [reflexivity|exact Logic.I]|reflexivity].
    pose proof (annotate_more d oms mfs r c om om' (fst x) (fst x') p rows P R C N O M) as A. destruct (annotate d om (fst x) p rows) as [l|], (annotate (with_masks d oms mfs) om' (fst x') p rows) as [l'|]; cbn [outcomes obind] in *; try contradiction; [|exact A].
    split; [reflexivity|exact A]. }
  match goal with |- outcomes _ (obind ?a _) (obind ?b _) => destruct a as [t|], b as [t'|] end; cbn [outcomes obind] in T |- *; try contradiction; [|exact T]. split; [exact T|reflexivity].
Qed.
End LsstRun.
