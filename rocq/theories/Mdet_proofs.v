From Coq Require Import ZArith QArith Lqa Lia List String Bool Permutation.
From Verif Require Import Base Arr Median Flags_model Detect_model Wavg_model Wavg_proofs Joint_model Summ_model
  Conf_model Mdet_model Mdet_spec Mcache_proofs.
Import ListNotations.
Local Open Scope Z_scope.

(** ** Lists of outcomes *)
Lemma omap_Forall2 : forall A B (f : A -> outcome B) l r, omap f l = Ok r <-> Forall2 (fun x y => f x = Ok y) l r.
Proof.
  intros A B f l r. split; [apply omap_ok_Forall2|]. intros H. induction H; cbn [omap]; auto.
  rewrite H. cbn [obind]. rewrite IHForall2. reflexivity.
Qed.
Lemma out_rel_omap : forall A B C (R : B -> C -> Prop) (f : A -> outcome B) (g : A -> outcome C) l,
  (forall x, match f x, g x with Ok a, Ok b => R a b | Raise a, Raise b => a = b | _, _ => False end) ->
  match omap f l, omap g l with Ok a, Ok b => Forall2 R a b | Raise a, Raise b => a = b | _, _ => False end.
Proof.
  intros A B C R f g l H. induction l as [|x l IH]; cbn [omap]; [constructor|].
  specialize (H x). destruct (f x) as [a|], (g x) as [b|]; cbn [obind]; auto; try contradiction.
  destruct (omap f l), (omap g l); cbn [obind]; auto; contradiction.
Qed.
Lemma Forall2_fun : forall A B (f : A -> outcome B) l r r', Forall2 (fun x y => f x = Ok y) l r ->
  Forall2 (fun x y => f x = Ok y) l r' -> r = r'.
Proof. intros A B f l r r' H1 H2. apply omap_Forall2 in H1. apply omap_Forall2 in H2. congruence. Qed.

Section Matrix.
Context {A B C : Type} (g : A -> B -> outcome C).
Lemma transpose_rows : forall xs fs cols, Forall2 (fun f c => Forall2 (fun x y => g f x = Ok y) xs c) fs cols ->
  Forall2 (fun x row => Forall2 (fun f y => g f x = Ok y) fs row) xs (transpose (List.length xs) cols).
Proof.
  intros xs fs cols H. induction H as [|f c fs cols Hc Hr IH]; cbn [transpose].
  - induction xs; cbn; constructor; auto.
  - clear Hr. revert c Hc IH. generalize (transpose (List.length xs) cols). clear cols. induction xs as [|x xs IHx];
      intros rows c Hc Hr; inversion Hc; subst; inversion Hr; subst; cbn; constructor; auto.
Qed.
Lemma rows_columns : forall xs fs rows, Forall2 (fun x row => Forall2 (fun f y => g f x = Ok y) fs row) xs rows ->
  exists cols, Forall2 (fun f c => Forall2 (fun x y => g f x = Ok y) xs c) fs cols /\
    transpose (List.length xs) cols = rows.
Proof.
  intros xs fs. induction fs as [|f fs IH]; intros rows H.
  - exists []. split; [constructor|]. cbn [transpose]. induction H; cbn; auto. inversion H; subst. now f_equal.
  - assert (X : exists c rows', Forall2 (fun x y => g f x = Ok y) xs c /\
       Forall2 (fun x row => Forall2 (fun f y => g f x = Ok y) fs row) xs rows' /\
       rows = map (fun p => fst p :: snd p) (combine c rows')).
    { clear IH. induction H.
      - exists [], []. repeat split; constructor.
      - inversion H; subst. destruct IHForall2 as [c [rows' [X1 [X2 ->]]]].
        exists (y0 :: c), (l'0 :: rows'). repeat split; constructor; auto. }
    destruct X as [c [rows' [X1 [X2 ->]]]]. destruct (IH _ X2) as [cols [Y1 Y2]]. subst rows'.
    exists (c :: cols). split; [constructor; auto|]. reflexivity.
Qed.
End Matrix.

Lemma oall_some : forall A (l : list A), oall (map Some l) = Some l.
Proof. induction l; cbn; auto. now rewrite IHl. Qed.

Lemma Forall2_len : forall A B (R : A -> B -> Prop) l l', Forall2 R l l' -> List.length l = List.length l'.
Proof. intros A B R l l' H. induction H; cbn; auto. Qed.
Lemma Forall2_imp : forall A B (R R' : A -> B -> Prop) l l', (forall a b, R a b -> R' a b) -> Forall2 R l l' -> Forall2 R' l l'.
Proof. intros A B R R' l l' H X. induction X; constructor; auto. Qed.
Lemma Forall2_In_l : forall A B (R : A -> B -> Prop) l l', Forall2 R l l' -> Forall2 (fun a b => In a l /\ R a b) l l'.
Proof.
  intros A B R l l' H. induction H; constructor; [split; [now left|auto]|].
  eapply Forall2_imp; [|exact IHForall2]. intros a b [X Y]. split; auto. now right.
Qed.

Section Driver.
Variables O SEG ST FL FR : Type.
Variable sob : O -> sobs.
Notation env := (env O SEG ST FL FR).
Notation state := (state O FR).
Variable e : env.

(** ** Measurement, object by object *)
Definition rowfun (sb db : list Z) (t : string) (su : summary) (ds : det * ST) : outcome (drow FR) :=
  do fits <- omap (fun f => e_fit e f sb (snd ds)) (e_fitters e);
  do x <- extra_of sob e t su db (fst ds);
  Ok (mkDrow fits x).
Definition fitters_ok : Prop :=
  match e_fitters e with [] => False | [_] => True | fs => nodupb (map (e_colname e) fs) = true end.

Lemma fit_list_ok : forall fs sb stamps all, omap (fun f => fit_list e f sb stamps) fs = Ok all -> stamps <> [] ->
  exists cols, all = map Some cols /\ Forall2 (fun f c => Forall2 (fun st y => e_fit e f sb st = Ok y) stamps c) fs cols.
Proof.
  intros fs sb stamps all H N. apply omap_Forall2 in H. induction H as [|f r fs all Hf Hr IH].
  - exists []. split; auto.
  - destruct IH as [cols [-> IH]]. unfold fit_list in Hf.
    destruct (omap (e_fit e f sb) stamps) as [rows|] eqn:E; [|discriminate]. cbn [obind] in Hf. apply Ok_inj in Hf.
    apply omap_Forall2 in E. exists (rows :: cols). split; [|constructor; auto]. subst r.
    destruct rows; [inversion E; subst; contradiction|]. reflexivity.
Qed.
Lemma fit_list_back : forall fs sb stamps cols, stamps <> [] ->
  Forall2 (fun f c => Forall2 (fun st y => e_fit e f sb st = Ok y) stamps c) fs cols ->
  omap (fun f => fit_list e f sb stamps) fs = Ok (map Some cols).
Proof.
  intros fs sb stamps cols N H. induction H as [|f c fs cols Hf Hr IH]; auto. cbn [omap map].
  unfold fit_list at 1. assert (E := Hf). apply omap_Forall2 in E. rewrite E. cbn [obind]. rewrite IH. cbn [obind].
  destruct c; [inversion Hf; subst; contradiction|]. reflexivity.
Qed.

Lemma combine_rows_ok : forall fs cols sb stamps, fs = e_fitters e -> stamps <> [] ->
  Forall2 (fun f c => Forall2 (fun st y => e_fit e f sb st = Ok y) stamps c) fs cols ->
  forall rows, combine_rows (map (e_colname e) fs) (map Some cols) = Ok rows <->
    fitters_ok /\ rows = Some (transpose (List.length stamps) cols).
Proof.
  intros fs cols sb stamps Hfs N H rows. unfold fitters_ok. rewrite <- Hfs.
  destruct H as [|f c fs cols Hf Hr].
  - cbn. split; [discriminate|]. intros [[] _].
  - destruct Hr as [|f2 c2 fs cols Hf2 Hr].
    + cbn. assert (L : List.length c = List.length stamps) by (symmetry; eapply Forall2_len; eauto).
      assert (T : map (fun x : FR => [x]) c = map (fun p => fst p :: snd p) (combine c (repeat [] (List.length stamps)))).
      { rewrite <- L. clear. induction c; cbn; congruence. }
      rewrite T. split; [intros X; apply Ok_inj in X; auto|]. intros [_ ->]. reflexivity.
    + unfold combine_rows. rewrite oall_some. cbn [map].
      assert (L : List.length c = List.length stamps) by (symmetry; eapply Forall2_len; eauto).
      assert (F : forallb (fun c0 => Nat.eqb (List.length c0) (List.length c)) (c2 :: cols) = true).
      { apply forallb_forall. intros c0 Hc0. apply Nat.eqb_eq. rewrite L. symmetry.
        assert (G : Forall2 (fun f c => Forall2 (fun st y => e_fit e f sb st = Ok y) stamps c) (f2 :: fs) (c2 :: cols))
          by (constructor; auto).
        clear - G Hc0. revert G. generalize (f2 :: fs). generalize dependent (c2 :: cols). intros l Hin l' G.
        induction G; [destruct Hin|]. destruct Hin as [<-|Hin]; auto. eapply Forall2_len; eauto. }
      rewrite F, L. destruct (nodupb (e_colname e f :: e_colname e f2 :: map (e_colname e) fs)) eqn:D.
      * split; [intros X; apply Ok_inj in X; auto|]. intros [_ ->]. reflexivity.
      * split; [discriminate|]. intros [X _]. cbn [map] in X. congruence.
Qed.

Lemma measure_nil : forall cat sb db t su, e_fitters e <> [] -> measure sob e cat [] sb db t su = Ok None.
Proof.
  intros cat sb db t su N. unfold measure.
  assert (G : forall fs, omap (fun f => fit_list e f sb []) fs = Ok (map (fun _ => None) fs)).
  { induction fs as [|f0 fs IHfs]; [reflexivity|]. cbn [map]. 
    change (omap (fun f => fit_list e f sb []) (f0 :: fs)) with
      (do y <- fit_list e f0 sb []; do ys <- omap (fun f => fit_list e f sb []) fs; Ok (y :: ys)). rewrite IHfs. reflexivity. }
  rewrite G. cbn [obind]. destruct (e_fitters e) as [|f [|f2 fs]]; [contradiction| |].
  - reflexivity.
  - cbn [map combine_rows oall]. replace (existsb has (None :: None :: map (fun _ => None) fs)) with false; [reflexivity|].
    clear. cbn. induction fs; cbn; auto.
Qed.
Lemma measure_nil_inv : forall cat sb db t su r, measure sob e cat [] sb db t su = Ok r -> e_fitters e <> [] /\ r = None.
Proof.
  intros cat sb db t su r H. destruct (e_fitters e) as [|f fs] eqn:E.
  - unfold measure in H. rewrite E in H. discriminate.
  - rewrite measure_nil in H by congruence. apply Ok_inj in H. split; congruence.
Qed.

Lemma add_positions_rows : forall cat stamps sb db t su mat res, List.length cat = List.length stamps ->
  Forall2 (fun st row => Forall2 (fun f y => e_fit e f sb st = Ok y) (e_fitters e) row) stamps mat ->
  add_positions sob e cat mat t su db = Ok res <->
    zlen db <= 6 /\ omap (rowfun sb db t su) (combine cat stamps) = Ok res.
Proof.
  intros cat stamps sb db t su mat res L H. unfold add_positions. destruct (6 <? zlen db) eqn:D.
  - apply Z.ltb_lt in D. split; [discriminate|]. intros [X _]. lia.
  - apply Z.ltb_ge in D.
    enough (E : omap (fun dr => do x <- extra_of sob e t su db (fst dr); Ok (mkDrow (snd dr) x)) (combine cat mat) =
            omap (rowfun sb db t su) (combine cat stamps)).
    { rewrite E. tauto. }
    revert cat L. induction H as [|st row stamps mat Hr Hrest IH]; intros [|d cat] L; try discriminate; auto.
    cbn [combine omap]. rewrite IH by (cbn in L; lia). apply omap_Forall2 in Hr.
    assert (X : rowfun sb db t su (d, st) = (do x <- extra_of sob e t su db d; Ok (mkDrow row x)))
      by (unfold rowfun; cbn [fst snd]; rewrite Hr; reflexivity).
    rewrite X. reflexivity.
Qed.

Lemma rowfun_fits : forall cat stamps sb db t su rows, List.length cat = List.length stamps ->
  omap (rowfun sb db t su) (combine cat stamps) = Ok rows ->
  exists mat, Forall2 (fun st row => Forall2 (fun f y => e_fit e f sb st = Ok y) (e_fitters e) row) stamps mat.
Proof.
  intros cat. induction cat as [|d cat IH]; intros [|st stamps] sb db t su rows L H; try discriminate.
  - exists []. constructor.
  - cbn [combine omap] in H. unfold rowfun at 1 in H. cbn [fst snd] in H.
    destruct (omap (fun f => e_fit e f sb st) (e_fitters e)) as [fits|] eqn:E; [|discriminate]. cbn [obind] in H.
    destruct (extra_of sob e t su db d) as [x|]; [|discriminate]. cbn [obind] in H.
    destruct (omap (rowfun sb db t su) (combine cat stamps)) as [rs|] eqn:E2; [|discriminate].
    destruct (IH stamps sb db t su rs) as [mat Hm]; [cbn in L; lia|exact E2|].
    exists (fits :: mat). constructor; auto. now apply omap_Forall2.
Qed.

(** _measure, for a catalogue that is not empty. *)
Lemma measure_iff : forall cat stamps sb db t su res, List.length cat = List.length stamps -> stamps <> [] ->
  measure sob e cat stamps sb db t su = Ok res <->
  fitters_ok /\ zlen db <= 6 /\ exists rows, omap (rowfun sb db t su) (combine cat stamps) = Ok rows /\ res = Some rows.
Proof.
  intros cat stamps sb db t su res L N. unfold measure. split.
  - intros H. destruct (omap (fun f => fit_list e f sb stamps) (e_fitters e)) as [all|] eqn:E; [|discriminate].
    cbn [obind] in H. destruct (fit_list_ok _ _ _ _ E N) as [cols [-> Hc]].
    destruct (combine_rows (map (e_colname e) (e_fitters e)) (map Some cols)) as [r|] eqn:E2; [|discriminate].
    cbn [obind] in H. apply (combine_rows_ok _ _ sb stamps eq_refl N Hc) in E2. destruct E2 as [F ->].
    destruct (add_positions sob e cat (transpose (List.length stamps) cols) t su db) as [rows|] eqn:E3; [|discriminate].
    cbn [obind] in H. apply Ok_inj in H. subst res.
    apply (add_positions_rows cat stamps sb) in E3; [|exact L|apply (transpose_rows (fun f st => e_fit e f sb st)); exact Hc].
    destruct E3 as [D E3]. repeat split; auto. exists rows. auto.
  - intros [F [D [rows [H ->]]]].
    destruct (rowfun_fits _ _ _ _ _ _ _ L H) as [mat Hm].
    destruct (rows_columns (fun f st => e_fit e f sb st) _ _ _ Hm) as [cols [Hc <-]].
    rewrite (fit_list_back _ _ _ _ N Hc). cbn [obind].
    assert (X := combine_rows_ok _ _ sb stamps eq_refl N Hc (Some (transpose (List.length stamps) cols))).
    destruct X as [_ X]. rewrite (X (conj F eq_refl)). cbn [obind].
    assert (Y := add_positions_rows cat stamps sb db t su (transpose (List.length stamps) cols) rows L Hm).
    destruct Y as [_ Y]. rewrite (Y (conj D H)). reflexivity.
Qed.

(** ** Measurement does not depend on the representation of the summary *)
Lemma pixels_ext : forall A (a b : img A), nr a = nr b -> nc a = nc b -> (forall i j, px a i j = px b i j) -> pixels a = pixels b.
Proof. intros A a b H1 H2 H3. unfold pixels. rewrite H1, H2. apply map_ext. intros. apply H3. Qed.
Lemma fill_in_mask_eqv : forall n r c a b, zimg_eqv a b -> fill_in_mask n r c a = fill_in_mask n r c b.
Proof.
  intros n r c a b [H1 [H2 H3]]. unfold fill_in_mask. rewrite H1, H2. cbv zeta. destruct (1 <? n).
  - do 2 f_equal. apply pixels_ext; unfold slice; cbn [nr nc px]; rewrite ?H1, ?H2; auto.
  - destruct (_ && _ && _); auto. now rewrite H3.
Qed.
Lemma qpixels_eqv : forall a b, qimg_eqv a b -> Forall2 Qeq (pixels a) (pixels b).
Proof.
  intros a b [H1 [H2 H3]]. unfold pixels. rewrite H1, H2. induction (coords (nr b) (nc b)); cbn; constructor; auto.
Qed.
Lemma qsum_Forall2 : forall l l', Forall2 Qeq l l' -> (qsum l == qsum l')%Q.
Proof. intros l l' H. induction H; [reflexivity|]. apply Qplus_comp; auto. Qed.
Lemma qmean_eqv : forall a b, qimg_eqv a b -> (qmean a == qmean b)%Q.
Proof.
  intros a b H. apply qpixels_eqv in H. unfold qmean, zlen. rewrite (qsum_Forall2 _ _ H), (Forall2_len _ _ _ _ _ H). reflexivity.
Qed.
Lemma any_positive_eqv : forall a b, qimg_eqv a b -> any_positive a = any_positive b.
Proof.
  intros a b H. apply qpixels_eqv in H. unfold any_positive. induction H; cbn; auto.
  rewrite IHForall2, (Qle_bool_ext _ _ H). reflexivity.
Qed.

Definition nimg_eqv (R : Detect_model.num -> Detect_model.num -> Prop) (a b : img Detect_model.num) : Prop :=
  nr a = nr b /\ nc a = nc b /\ forall i j, R (px a i j) (px b i j).
Lemma get_cutout_rel : forall (R : Detect_model.num -> Detect_model.num -> Prop) m1 m2 i ty, (forall x, R x x) ->
  m_cat m1 = m_cat m2 -> nimg_eqv R (m_plane m1 ty) (m_plane m2 ty) -> String.eqb ty "psf" = false ->
  out_rel (nimg_eqv R) (get_cutout m1 i ty) (get_cutout m2 i ty).
Proof.
  intros R m1 m2 i ty Rr Hc [H1 [H2 H3]] Hp. unfold get_cutout. rewrite <- Hc.
  destruct (nth_error (m_cat m1) i) as [en|]; [|reflexivity]. rewrite Hp.
  destruct (existsb (String.eqb ty) image_types); [|reflexivity]. cbv zeta. rewrite <- H1, <- H2.
  destruct (get_clipped_boxes (nr (m_plane m1 ty)) (e_srow en) (e_box en)) as [[or0 or1] [r0 r1]].
  destruct (get_clipped_boxes (nc (m_plane m1 ty)) (e_scol en) (e_box en)) as [[oc0 oc1] [c0 c1]].
  destruct (e_box en <? 0); [reflexivity|]. destruct (DEFAULT_IMAGE_VALUES ty) as [fill|]; [|reflexivity].
  unfold assign_slice, slice. cbn [nr nc px]. rewrite <- H1, <- H2.
  destruct (_ && _); [|reflexivity]. cbn [out_rel]. split; [reflexivity|]. split; [reflexivity|].
  intros k l. cbn [px]. destruct (_ && _ && _ && _); auto.
Qed.
Lemma weighted_sums_rel : forall g near a b good good', nr a = nr b -> nc a = nc b ->
  (forall i j, (px a i j == px b i j)%Q) -> (forall i j, good i j = good' i j) ->
  out_rel (fun x y => (fst x == fst y)%Q /\ (snd x == snd y)%Q) (weighted_sums g near a good) (weighted_sums g near b good').
Proof.
  intros g near a b good good' H1 H2 H3 H4. unfold weighted_sums. cbv zeta. rewrite H1, H2.
  assert (E : filter (fun ij => good (fst ij) (snd ij)) (coords (nr b) (nc b)) =
              filter (fun ij => good' (fst ij) (snd ij)) (coords (nr b) (nc b))) by (apply filter_ext; intros; apply H4).
  rewrite E. set (l0 := filter (fun ij => good' (fst ij) (snd ij)) (coords (nr b) (nc b))). clearbody l0.
  destruct l0 as [|x l].
  { reflexivity. } cbn [out_rel fst snd].
  split; [|cbn; reflexivity]. apply qsum_Forall2. generalize (filter (fun ij => near (fst ij) (snd ij)) (x :: l)).
  intros l0. induction l0; cbn [map]; constructor; auto. now rewrite H3.
Qed.
Lemma out_rel_elim : forall A (R : A -> A -> Prop) x y, out_rel R x y ->
  (exists a b, x = Ok a /\ y = Ok b /\ R a b) \/ (exists r, x = Raise r /\ y = Raise r).
Proof. intros A R [a|a] [b|b] H; cbn in H; try contradiction; [left; eauto|right; subst; eauto]. Qed.

Lemma measure_mfrac_one_eqv : forall a b bm g near y x box, qimg_eqv a b ->
  out_rel mval_eqv (measure_mfrac_one a bm g near y x box) (measure_mfrac_one b bm g near y x box).
Proof.
  intros a b bm g near y x box [H1 [H2 H3]]. unfold measure_mfrac_one. destruct (0 <? box); [|cbn; reflexivity].
  set (m1 := mkMedsI _ (imap F a) _). set (m2 := mkMedsI _ (imap F b) _).
  assert (C : m_cat m1 = m_cat m2) by (unfold m1, m2; cbn [m_cat]; now rewrite H1, H2).
  assert (G1 : out_rel (nimg_eqv (fun p q => (num_q p == num_q q)%Q)) (get_cutout m1 0 "image") (get_cutout m2 0 "image")).
  { apply get_cutout_rel; auto; [cbn; reflexivity|]. unfold m1, m2. cbn [m_plane]. cbn [String.eqb Ascii.eqb Bool.eqb].
    repeat split; auto. }
  assert (G2 : out_rel (nimg_eqv eq) (get_cutout m1 0 "bmask") (get_cutout m2 0 "bmask")).
  { apply get_cutout_rel; auto. repeat split; auto. }
  clearbody m1 m2.
  apply out_rel_elim in G1. destruct G1 as [(i1 & i2 & -> & -> & [A1 [A2 A3]])|(r & -> & ->)]; [|cbn; reflexivity].
  cbn [obind].
  apply out_rel_elim in G2. destruct G2 as [(k1 & k2 & -> & -> & [B1 [B2 B3]])|(r & -> & ->)]; [|cbn; reflexivity].
  cbn [obind].
  assert (W := weighted_sums_rel g near (imap num_q i1) (imap num_q i2)
    (fun i j => Z.land (num_z (px k1 i j)) BMASK_EDGE =? 0) (fun i j => Z.land (num_z (px k2 i j)) BMASK_EDGE =? 0)
    A1 A2 A3 (fun i j => f_equal (fun v => Z.land (num_z v) BMASK_EDGE =? 0) (B3 i j))).
  apply out_rel_elim in W. destruct W as [([s1 w1] & [s2 w2] & -> & -> & [W1 W2])|(r & -> & ->)].
  - cbn [fst snd] in *. assert (Ew : Qeq_bool w1 0 = Qeq_bool w2 0).
    { destruct (Qeq_bool w1 0) eqn:X.
      - symmetry. apply Qeq_bool_iff. apply Qeq_bool_iff in X. now rewrite <- W2.
      - destruct (Qeq_bool w2 0) eqn:Y; auto. apply Qeq_bool_iff in Y. rewrite <- W2 in Y. apply Qeq_bool_iff in Y. congruence. }
    rewrite Ew. destruct (Qeq_bool w2 0); cbn [out_rel mval_eqv]; auto. now rewrite W1, W2.
  - destruct r; cbn; auto; reflexivity.
Qed.
Lemma mfrac_value_eqv : forall s s' r c box, qimg_eqv (sm_mfrac s) (sm_mfrac s') ->
  out_rel mval_eqv (mfrac_value sob e s r c box) (mfrac_value sob e s' r c box).
Proof.
  intros s s' r c box H. unfold mfrac_value. rewrite (any_positive_eqv _ _ H).
  destruct (any_positive (sm_mfrac s')); [|cbn; reflexivity].
  destruct (py_index (e_main e) 0) as [ol|]; [|cbn; reflexivity]. cbn [obind].
  destruct (py_index ol 0) as [o|]; [|cbn; reflexivity]. cbn [obind]. now apply measure_mfrac_one_eqv.
Qed.
Lemma extra_of_eqv : forall t s s' db d, summary_eqv s s' ->
  out_rel extra_eqv (extra_of sob e t s db d) (extra_of sob e t s' db d).
Proof.
  intros t s s' db d [H1 [H2 [H3 H4]]]. unfold extra_of.
  destruct (e_unshear e t (dc_y d) (dc_x d)) as [ns|]; [|cbn; reflexivity]. cbn [obind].
  rewrite !(fill_in_mask_eqv _ _ _ _ _ H3), !(fill_in_mask_eqv _ _ _ _ _ H2).
  destruct (fill_in_mask (ormask_region e) (dc_y d) (dc_x d) (sm_ormask s')); [|cbn; reflexivity]. cbn [obind].
  destruct (fill_in_mask (ormask_region e) (fst ns) (snd ns) (sm_ormask s')); [|cbn; reflexivity]. cbn [obind].
  destruct (fill_in_mask (bmask_region e) (dc_y d) (dc_x d) (sm_bmask s')); [|cbn; reflexivity]. cbn [obind].
  destruct (fill_in_mask (bmask_region e) (fst ns) (snd ns) (sm_bmask s')); [|cbn; reflexivity]. cbn [obind].
  assert (M1 := mfrac_value_eqv s s' (dc_y d) (dc_x d) (dc_box d) H1). apply out_rel_elim in M1.
  destruct M1 as [(m1 & m1' & -> & -> & M1)|(r & -> & ->)]; [|cbn; reflexivity]. cbn [obind].
  assert (M2 := mfrac_value_eqv s s' (fst ns) (snd ns) (dc_box d) H1). apply out_rel_elim in M2.
  destruct M2 as [(m2 & m2' & -> & -> & M2)|(r & -> & ->)]; [|cbn; reflexivity]. cbn [obind out_rel].
  unfold extra_eqv. cbn [x_row x_col x_row_ns x_col_ns x_ormask x_ormask_ns x_bmask x_bmask_ns x_mfrac x_mfrac_ns x_mfrac_img x_psf x_det_bands].
  repeat (split; [first [reflexivity|assumption|now apply qmean_eqv]|]). reflexivity.
Qed.
Lemma measure_eqv : forall cat stamps sb db t s s', summary_eqv s s' ->
  out_rel (opt_rel (Forall2 row_eqv)) (measure sob e cat stamps sb db t s) (measure sob e cat stamps sb db t s').
Proof.
  intros cat stamps sb db t s s' H. unfold measure.
  destruct (omap (fun f => fit_list e f sb stamps) (e_fitters e)) as [all|]; [|cbn; reflexivity]. cbn [obind].
  destruct (combine_rows (map (e_colname e) (e_fitters e)) all) as [[rows|]|]; cbn [obind]; [|cbn; auto|cbn; reflexivity].
  unfold add_positions. destruct (6 <? zlen db); [cbn; reflexivity|].
  assert (X := out_rel_omap _ _ _ row_eqv
    (fun dr => do x <- extra_of sob e t s db (fst dr); Ok (mkDrow (snd dr) x))
    (fun dr => do x <- extra_of sob e t s' db (fst dr); Ok (mkDrow (snd dr) x)) (combine cat rows)).
  match type of X with ?P -> _ => assert (Y : P) end.
  { intros dr. assert (Z := extra_of_eqv t s s' db (fst dr) H). apply out_rel_elim in Z.
    destruct Z as [(x & x' & -> & -> & Z)|(r & -> & ->)]; cbn [obind]; auto. split; auto. }
  specialize (X Y).
  destruct (omap (fun dr => do x <- extra_of sob e t s db (fst dr); Ok (mkDrow (snd dr) x)) (combine cat rows)),
           (omap (fun dr => do x <- extra_of sob e t s' db (fst dr); Ok (mkDrow (snd dr) x)) (combine cat rows));
    cbn [obind out_rel opt_rel]; auto; contradiction.
Qed.

(** ** The driver without caches *)
Definition pbands (sb db : list Z) (mcal : list (string * mb O)) : outcome (results FR) :=
  do kd <- uncached sob e None sb;
  omap (fun sm =>
    do cs <- do_detect e (snd sm) db;
    do su <- kd_summary kd;
    do r <- measure sob e (fst cs) (snd cs) sb db (fst sm) su;
    Ok (fst sm, r)) mcal.
Definition pcolor_one (sb db : list Z) (t : string) (dk : det * option Z) : outcome (list (drow FR)) :=
  do kd <- uncached sob e (snd dk) sb;
  do mc <- kd_mcal kd;
  match mc with
  | None => Ok []
  | Some dict =>
    do m <- match assoc String.eqb t dict with Some m => Ok m | None => Raise KeyError end;
    do st <- e_stamp e m None (fst dk);
    do su <- kd_summary kd;
    do r <- measure sob e [fst dk] [st] sb db t su;
    Ok (match r with None => [] | Some l => l end)
  end.
Definition pbands_color (keyf : FL -> outcome (option Z)) (sb db : list Z) (mcal : list (string * mb O))
  : outcome (results FR) :=
  omap (fun sm =>
    do f0 <- match e_fitters e with
             | [] => Raise IndexError
             | f :: _ => if fi_wavg f then Ok f else Raise RuntimeError
             end;
    do cs <- do_detect e (snd sm) db;
    do fluxes <- omap (e_flux e f0 sb) (snd cs);
    match fluxes with
    | [] => Ok (fst sm, None)
    | _ =>
      do keys <- omap keyf fluxes;
      do data <- omap (pcolor_one sb db (fst sm)) (combine (fst cs) keys);
      Ok (fst sm, match List.concat data with [] => None | l => Some l end)
    end) mcal.
Definition pcomb (mcal : list (string * mb O)) (sd : list Z * list Z) : outcome (results FR) :=
  match e_color e with
  | Some (keyf, _) => pbands_color keyf (fst sd) (snd sd) mcal
  | None => pbands (fst sd) (snd sd) mcal
  end.
Definition pgo : outcome (option (results FR)) :=
  do mf <- get_mfrac (map (map sob) (e_main e));
  if give_up sob e mf then Ok None
  else
    do kd <- uncached sob e None (zrange (zlen (e_main e)));
    do mc <- kd_mcal kd;
    match mc with
    | None => Ok None
    | Some mcal =>
      do all <- omap (pcomb mcal) (combine (e_shear e) (e_det e));
      Ok (Some (finish e (fold_left add_tables all [])))
    end.

Definition good (s : state) : Prop := cache_ok _ _ _ _ _ sob e s /\ clean_cache _ _ _ _ _ e s.
Definition sem {A B} (R : A -> B -> Prop) (p : M O FR A) (o : outcome B) : Prop :=
  forall s, good s -> match fst (p s), o with
                      | Ok a, Ok b => R a b /\ good (snd (p s))
                      | Raise x, Raise y => x = y
                      | _, _ => False
                      end.
Lemma sem_bind : forall A B C D (R : A -> B -> Prop) (R' : C -> D -> Prop) p o f g,
  sem R p o -> (forall a b, R a b -> sem R' (f a) (g b)) -> sem R' (mbind p f) (obind o g).
Proof.
  intros A B C D R R' p o f g H1 H2 s G. specialize (H1 s G). unfold mbind.
  destruct (p s) as [[a|x] s1]; cbn [fst snd] in H1; destruct o as [b|y]; cbn [obind fst]; try contradiction; auto.
  destruct H1 as [X Y]. now apply H2.
Qed.
Lemma sem_ret : forall A B (R : A -> B -> Prop) a b, R a b -> sem R (ret a) (Ok b).
Proof. intros A B R a b H s G. cbn. auto. Qed.
Lemma sem_lift : forall A B (R : A -> B -> Prop) x y,
  match x, y with Ok a, Ok b => R a b | Raise a, Raise b => a = b | _, _ => False end -> sem R (lift x) y.
Proof. intros A B R x y H s G. cbn. destruct x, y; auto. Qed.
Lemma sem_lift_eq : forall A (x : outcome A), sem eq (lift x) x.
Proof. intros. apply sem_lift. destruct x; auto. Qed.
Lemma sem_mmap : forall A B C (R : B -> C -> Prop) (f : A -> M O FR B) g l,
  (forall a, sem R (f a) (g a)) -> sem (Forall2 R) (mmap f l) (omap g l).
Proof.
  intros A B C R f g l H. induction l as [|a l IH]; cbn [mmap omap]; [apply sem_ret; constructor|].
  eapply sem_bind; [apply H|]. intros b c Hb. eapply sem_bind; [exact IH|]. intros bs cs Hbs. apply sem_ret. now constructor.
Qed.
Hypothesis U : env_uniform sob e.
Lemma sem_get_data : forall key sb, sem kdata_eqv (get_data sob e key sb) (uncached sob e key sb).
Proof.
  intros key sb s [G1 G2]. assert (T := get_data_transparent _ _ _ _ _ sob e key sb s U G1 G2).
  rewrite fresh_uncached in T. unfold out_rel in T.
  assert (C := get_data_cache _ _ _ _ _ sob e key sb s G1).
  destruct (get_data sob e key sb s) as [r s'] eqn:E. cbn [fst snd] in *.
  destruct r as [kd|x], (uncached sob e key sb) as [kd'|y]; auto. split; auto. split; auto.
  eapply get_data_clean; eauto.
Qed.
Definition entry_eqv (a b : string * option (list (drow FR))) : Prop :=
  fst a = fst b /\ opt_rel (Forall2 row_eqv) (snd a) (snd b).
Lemma kd_summary_sem : forall kd kd' : kdata O, kdata_eqv kd kd' -> sem summary_eqv (lift (kd_summary kd)) (kd_summary kd').
Proof.
  intros kd kd' [_ H]. apply sem_lift. unfold kd_summary. destruct (kd_sum kd), (kd_sum kd'); cbn in H; auto.
Qed.
Lemma measure_sem : forall cat stamps sb db t s s', summary_eqv s s' ->
  sem (opt_rel (Forall2 row_eqv)) (lift (measure sob e cat stamps sb db t s)) (measure sob e cat stamps sb db t s').
Proof. intros. apply sem_lift. apply measure_eqv. exact H. Qed.
Lemma sem_go_bands : forall sb db mcal, sem (Forall2 entry_eqv) (go_bands sob e sb db mcal) (pbands sb db mcal).
Proof.
  intros sb db mcal. unfold go_bands, pbands. eapply sem_bind; [apply sem_get_data|]. intros kd kd' K.
  apply sem_mmap. intros sm. eapply sem_bind; [apply sem_lift_eq|]. intros cs cs' <-.
  eapply sem_bind; [now apply kd_summary_sem|]. intros su su' S. eapply sem_bind; [now apply measure_sem|].
  intros r r' Hr. apply sem_ret. split; auto.
Qed.
Lemma sem_color_one : forall sb db t dk, sem (Forall2 row_eqv) (color_one sob e sb db t dk) (pcolor_one sb db t dk).
Proof.
  intros sb db t dk. unfold color_one, pcolor_one. eapply sem_bind; [apply sem_get_data|]. intros kd kd' K.
  assert (E : kd_mcal kd = kd_mcal kd') by (unfold kd_mcal; destruct K as [-> _]; reflexivity). rewrite E.
  eapply sem_bind; [apply sem_lift_eq|]. intros mc mc' <-. destruct mc as [dict|]; [|apply sem_ret; constructor].
  eapply sem_bind; [apply sem_lift_eq|]. intros m m' <-. eapply sem_bind; [apply sem_lift_eq|]. intros st st' <-.
  eapply sem_bind; [now apply kd_summary_sem|]. intros su su' S. eapply sem_bind; [now apply measure_sem|].
  intros r r' Hr. apply sem_ret. destruct r, r'; cbn in Hr; auto; contradiction.
Qed.
Lemma Forall2_concat : forall A B (R : A -> B -> Prop) l l', Forall2 (Forall2 R) l l' -> Forall2 R (List.concat l) (List.concat l').
Proof. intros A B R l l' H. induction H; cbn; [constructor|]. now apply Forall2_app. Qed.
Lemma sem_go_bands_color : forall keyf sb db mcal,
  sem (Forall2 entry_eqv) (go_bands_color sob e keyf sb db mcal) (pbands_color keyf sb db mcal).
Proof.
  intros keyf sb db mcal. unfold go_bands_color, pbands_color. apply sem_mmap. intros sm.
  eapply sem_bind; [apply sem_lift_eq|]. intros f f' <-. eapply sem_bind; [apply sem_lift_eq|]. intros cs cs' <-.
  eapply sem_bind; [apply sem_lift_eq|]. intros fl fl' <-. destruct fl as [|fl fls]; [apply sem_ret; split; [reflexivity|exact Logic.I]|].
  eapply sem_bind; [apply sem_lift_eq|]. intros ks ks' <-.
  eapply sem_bind; [apply sem_mmap; intros dk; apply sem_color_one|]. intros data data' D. apply sem_ret. split; auto.
  cbn [snd]. apply Forall2_concat in D. destruct D; cbn; auto.
Qed.

(** ** The dictionary of tables *)
Lemma assoc_In : forall V t (l : list (string * V)), (exists v, assoc String.eqb t l = Some v) <-> In t (map fst l).
Proof.
  intros V t l. induction l as [|[k v] l IH]; cbn.
  - split; [intros [v X]; discriminate|intros []].
  - destruct (String.eqb t k) eqn:E.
    + apply String.eqb_eq in E. subst. split; eauto.
    + apply String.eqb_neq in E. rewrite IH. split; auto. intros [X|X]; auto. congruence.
Qed.
Lemma assoc_NoDup : forall V t (v : V) l, NoDup (map fst l) -> In (t, v) l -> assoc String.eqb t l = Some v.
Proof.
  intros V t v l N H. induction l as [|[k w] l IH]; cbn; [destruct H|]. cbn in N. inversion N; subst.
  destruct H as [H|H].
  - injection H as -> ->. now rewrite String.eqb_refl.
  - destruct (String.eqb t k) eqn:E; auto. apply String.eqb_eq in E. subst. exfalso. apply H2.
    change k with (fst (k, v)). now apply in_map.
Qed.
Lemma dput_keys : forall V t (v : V) l k, In k (map fst (dput String.eqb t v l)) <-> k = t \/ In k (map fst l).
Proof.
  intros V t v l k. rewrite <- !assoc_In. destruct (string_dec k t) as [->|N].
  - rewrite (assoc_dput_same _ string_eqb_ok). split; eauto.
  - rewrite (assoc_dput_other _ string_eqb_ok); auto. split; auto. intros [X|X]; auto. contradiction.
Qed.
Lemma dput_NoDup : forall V t (v : V) l, NoDup (map fst l) -> NoDup (map fst (dput String.eqb t v l)).
Proof.
  intros V t v l N. induction l as [|[k w] l IH]; cbn.
  - constructor; [auto|constructor].
  - cbn in N. inversion N; subst. destruct (String.eqb t k) eqn:E; cbn; constructor; auto.
    intros X. apply dput_keys in X. destruct X as [->|X]; auto. rewrite String.eqb_refl in E. discriminate.
Qed.

Definition pick (t : string) (kv : string * option (list (drow FR))) : list (list (drow FR)) :=
  if String.eqb t (fst kv) then match snd kv with Some v => [v] | None => [] end else [].
Definition picks (t : string) (l : results FR) := flat_map (pick t) l.
Lemma picks_app : forall t a b, picks t (a ++ b) = (picks t a ++ picks t b)%list.
Proof. intros. apply flat_map_app. Qed.
Definition or_nil {A} (o : option (list A)) : list A := match o with Some l => l | None => [] end.

Lemma add_tables_lookup : forall (res : results FR) acc t, assoc String.eqb t (add_tables acc res) =
  match picks t res with [] => assoc String.eqb t acc | l => Some (or_nil (assoc String.eqb t acc) ++ l)%list end.
Proof.
  intros res. unfold add_tables, picks. induction res as [|[k v] res IH]; intros acc t; [reflexivity|].
  cbn [fold_left flat_map fst snd]. rewrite IH. unfold pick at 2. cbn [fst snd].
  destruct v as [v|].
  - destruct (String.eqb t k) eqn:E.
    + apply String.eqb_eq in E. subst k. rewrite (assoc_dput_same _ string_eqb_ok). cbn [app or_nil].
      fold (or_nil (assoc String.eqb t acc)). destruct (flat_map (pick t) res); auto. now rewrite <- app_assoc.
    + apply String.eqb_neq in E. rewrite (assoc_dput_other _ string_eqb_ok); auto.
  - destruct (String.eqb t k); reflexivity.
Qed.
Lemma all_tables_lookup : forall (all : list (results FR)) acc t, assoc String.eqb t (fold_left add_tables all acc) =
  match picks t (List.concat all) with [] => assoc String.eqb t acc | l => Some (or_nil (assoc String.eqb t acc) ++ l)%list end.
Proof.
  induction all as [|res all IH]; intros acc t; [reflexivity|]. cbn [fold_left List.concat]. rewrite IH, add_tables_lookup.
  rewrite picks_app.
  destruct (picks t res) as [|a l]; [reflexivity|]. cbn [app or_nil].
  destruct (picks t (List.concat all)); rewrite ?app_nil_r; auto. rewrite <- app_assoc. reflexivity.
Qed.
Lemma add_tables_NoDup : forall (res : results FR) acc, NoDup (map fst acc) -> NoDup (map fst (add_tables acc res)).
Proof.
  intros res. unfold add_tables. induction res as [|[k v] res IH]; intros acc N; auto. cbn [fold_left].
  apply IH. destruct v; cbn [snd]; auto. now apply dput_NoDup.
Qed.
Lemma all_tables_NoDup : forall (all : list (results FR)) acc, NoDup (map fst acc) -> NoDup (map fst (fold_left add_tables all acc)).
Proof. induction all; intros acc N; auto. cbn [fold_left]. apply IHall. now apply add_tables_NoDup. Qed.

Lemma fill_types : forall types (acc : results FR), NoDup (map fst acc) ->
  let r := fold_left (fun acc t => match assoc String.eqb t acc with
                          | Some _ => acc | None => dput String.eqb t None acc end) types acc in
  NoDup (map fst r) /\
  forall t, assoc String.eqb t r = match assoc String.eqb t acc with
                                  | Some v => Some v
                                  | None => if existsb (String.eqb t) types then Some None else None end.
Proof.
  induction types as [|t0 types IH]; intros acc N; cbn [fold_left existsb].
  - split; auto. intros t. destruct (assoc String.eqb t acc); auto.
  - destruct (assoc String.eqb t0 acc) as [v|] eqn:E.
    + destruct (IH acc N) as [X Y]. split; auto. intros t. rewrite Y. destruct (assoc String.eqb t acc) eqn:E2; auto.
      destruct (String.eqb t t0) eqn:E3; auto. apply String.eqb_eq in E3. congruence.
    + destruct (IH (dput String.eqb t0 None acc) (dput_NoDup _ _ _ _ N)) as [X Y]. split; auto. intros t. rewrite Y.
      destruct (String.eqb t t0) eqn:E3.
      * apply String.eqb_eq in E3. subst. rewrite (assoc_dput_same _ string_eqb_ok), E. reflexivity.
      * apply String.eqb_neq in E3. rewrite (assoc_dput_other _ string_eqb_ok); auto.
Qed.
Lemma assoc_map : forall V W (g : V -> W) t l, assoc String.eqb t (map (fun kv => (fst kv, g (snd kv))) l) =
  option_map g (assoc String.eqb t l).
Proof. intros V W g t l. induction l as [|[k v] l IH]; cbn; auto. destruct (String.eqb t k); auto. Qed.

Lemma finish_lookup : forall (all : list (results FR)) t,
  table (finish e (fold_left add_tables all [])) t =
  match picks t (List.concat all) with
  | [] => if existsb (String.eqb t) (e_types e) then Some None else None
  | l => Some (Some (List.concat l))
  end.
Proof.
  intros all t. unfold table, finish.
  destruct (fill_types (e_types e) (map (fun kv => (fst kv, Some (List.concat (snd kv)))) (fold_left add_tables all [])))
    as [_ H].
  { rewrite map_map. cbn [fst]. apply all_tables_NoDup. constructor. }
  rewrite H. rewrite (assoc_map _ _ (fun l => Some (List.concat l))), all_tables_lookup. cbn [assoc or_nil app].
  destruct (picks t (List.concat all)); reflexivity.
Qed.
Lemma finish_NoDup : forall all : list (results FR), NoDup (map fst (finish e (fold_left add_tables all []))).
Proof.
  intros all. unfold finish. apply fill_types. rewrite map_map. cbn [fst]. apply all_tables_NoDup. constructor.
Qed.

Lemma picks_eqv : forall t (a b : results FR), Forall2 entry_eqv a b -> Forall2 (Forall2 row_eqv) (picks t a) (picks t b).
Proof.
  intros t a b H. unfold picks. induction H as [|x y a b Hxy Hr IH]; cbn [flat_map]; [constructor|].
  apply Forall2_app; auto. destruct Hxy as [E1 E2]. unfold pick. rewrite <- E1. destruct (String.eqb t (fst x)); [|constructor].
  destruct (snd x), (snd y); cbn in E2; try contradiction; constructor; auto.
Qed.
Lemma finish_eqv : forall a b : list (results FR), Forall2 (Forall2 entry_eqv) a b ->
  tables_eqv (finish e (fold_left add_tables a [])) (finish e (fold_left add_tables b [])).
Proof.
  intros a b H t. rewrite !finish_lookup. apply Forall2_concat in H. apply (picks_eqv t) in H.
  destruct H as [|x y l l' Hx Hl].
  - destruct (existsb (String.eqb t) (e_types e)); cbn; auto.
  - cbn [opt_rel]. apply Forall2_concat. now constructor.
Qed.

(** ** go() against its version without caches *)
Definition gobody : M O FR (option (results FR)) :=
  mbind (lift (get_mfrac (map (map sob) (e_main e)))) (fun mf =>
  if give_up sob e mf then ret None
  else
    mbind (get_data sob e None (zrange (zlen (e_main e)))) (fun kd =>
    mbind (lift (kd_mcal kd)) (fun mc =>
    match mc with
    | None => ret None
    | Some mcal =>
      mbind (mmap (fun sd => match e_color e with
                             | Some (keyf, _) => go_bands_color sob e keyf (fst sd) (snd sd) mcal
                             | None => go_bands sob e (fst sd) (snd sd) mcal
                             end) (combine (e_shear e) (e_det e))) (fun all =>
      ret (Some (finish e (fold_left add_tables all []))))
    end))).
Lemma go_body : forall s, go sob e s = mbind gobody (fun r => set_result r) s.
Proof.
  intros s. unfold go, gobody, mbind, lift. destruct (get_mfrac (map (map sob) (e_main e))) as [mf|]; [|reflexivity].
  destruct (give_up sob e mf); [reflexivity|].
  destruct (get_data sob e None (zrange (zlen (e_main e))) s) as [[kd|] s1]; [|reflexivity].
  destruct (kd_mcal kd) as [[mcal|]|]; [|reflexivity|reflexivity].
  destruct (mmap _ (combine (e_shear e) (e_det e)) s1) as [[all|] s2]; reflexivity.
Qed.
Lemma sem_gobody : sem result_eqv gobody pgo.
Proof.
  unfold gobody, pgo. eapply sem_bind; [apply sem_lift_eq|]. intros mf mf' <-.
  destruct (give_up sob e mf); [apply sem_ret; exact Logic.I|].
  eapply sem_bind; [apply sem_get_data|]. intros kd kd' K.
  assert (E : kd_mcal kd = kd_mcal kd') by (unfold kd_mcal; destruct K as [-> _]; reflexivity). rewrite E.
  eapply sem_bind; [apply sem_lift_eq|]. intros mc mc' <-. destruct mc as [mcal|]; [|apply sem_ret; exact Logic.I].
  eapply sem_bind; [apply sem_mmap|].
  - intros sd. unfold pcomb. destruct (e_color e) as [[keyf dep]|]; [apply sem_go_bands_color|apply sem_go_bands].
  - intros all all' H. apply sem_ret. cbn [result_eqv opt_rel]. now apply finish_eqv.
Qed.
Lemma good_result : forall s r, good s -> good (mkState (s_cache s) (s_log s) r).
Proof. intros s r [H1 H2]. split; auto. Qed.
Lemma go_sem : forall s, good s ->
  match fst (go sob e s), pgo with
  | Ok _, Ok r => exists r', result_property (snd (go sob e s)) = Ok r' /\ result_eqv r' r /\ good (snd (go sob e s))
  | Raise x, Raise y => x = y
  | _, _ => False
  end.
Proof.
  intros s G. rewrite go_body. assert (H := sem_gobody s G). unfold mbind.
  destruct (gobody s) as [[r'|x] s1]; cbn [fst snd] in H; destruct pgo as [r|y]; try contradiction; auto.
  destruct H as [H1 H2]. cbn [set_result fst snd]. exists r'. split; [reflexivity|]. split; [exact H1|now apply good_result].
Qed.
Lemma good_after : forall h, healthy sob e h -> good (after sob e h).
Proof. intros h H. split; [apply cache_ok_after|now apply clean_after]. Qed.

(** ** When go() gives up *)
Lemma existsb2 : forall A (f : A -> bool) (l : list (list A)), existsb (existsb f) l = true <->
  exists ol o, In ol l /\ In o ol /\ f o = true.
Proof.
  intros A f l. rewrite existsb_exists. split.
  - intros [ol [H1 H2]]. apply existsb_exists in H2. destruct H2 as [o [H2 H3]]. eauto.
  - intros (ol & o & H1 & H2 & H3). exists ol. split; auto. apply existsb_exists. eauto.
Qed.
Lemma forall_pixels : forall A (P : A -> bool) (im : img A), forallb P (pixels im) = true <->
  forall i j, inside im i j -> P (px im i j) = true.
Proof.
  intros A P im. rewrite forallb_forall. unfold pixels. split.
  - intros H i j [Hi Hj]. apply H. apply in_map_iff. exists (i, j). split; auto. apply in_coords. auto.
  - intros H x Hx. apply in_map_iff in Hx. destruct Hx as [[i j] [<- Hx]]. apply in_coords in Hx. apply H. exact Hx.
Qed.
Lemma give_up_iff : forall mf, get_mfrac (map (map sob) (e_main e)) = Ok mf ->
  give_up sob e mf = true <->
  no_usable_pixel sob e \/ zero_weight_observation sob e \/ excluded_observation sob e.
Proof.
  intros mf Hm. unfold give_up. rewrite !orb_true_iff, !existsb2, or_assoc.
  assert (A : negb (existsb (fun v => negb (Qle_bool 1 v)) (pixels mf)) = true <-> no_usable_pixel sob e).
  { unfold no_usable_pixel. rewrite negb_true_iff. split.
    - intros H. exists mf. split; auto. intros i j Hij.
      assert (X : forallb (fun v => Qle_bool 1 v) (pixels mf) = true).
      { apply forallb_forall. intros v Hv. destruct (Qle_bool 1 v) eqn:E; auto.
        assert (Y : existsb (fun v => negb (Qle_bool 1 v)) (pixels mf) = true) by (apply existsb_exists; exists v; rewrite E; auto).
        congruence. }
      rewrite forall_pixels in X. apply Qle_bool_iff. now apply X.
    - intros [mf' [Hm' H]]. assert (mf' = mf) by congruence. subst mf'.
      destruct (existsb (fun v => negb (Qle_bool 1 v)) (pixels mf)) eqn:E; auto.
      apply existsb_exists in E. destruct E as [v [Hv Hn]].
      assert (X : forallb (fun v => Qle_bool 1 v) (pixels mf) = true).
      { apply forall_pixels. intros i j Hij. apply Qle_bool_iff. now apply H. }
      rewrite forallb_forall in X. rewrite (X v Hv) in Hn. discriminate. }
  rewrite A. unfold zero_weight_observation, excluded_observation, all_zero_weight, all_masked.
  apply or_iff_compat_l. split; (intros [(ol & o & H1 & H2 & H3)|(ol & o & H1 & H2 & H3)]; [left|right]; exists ol, o; repeat split; auto).
  - intros i j Hij. rewrite forall_pixels in H3. apply Qeq_bool_iff. now apply H3.
  - intros i j Hij X. rewrite forall_pixels in H3. specialize (H3 i j Hij). cbv beta in H3. rewrite X in H3. cbn in H3. discriminate H3.
  - apply forall_pixels. intros i j Hij. apply Qeq_bool_iff. now apply H3.
  - apply forall_pixels. intros i j Hij. specialize (H3 i j Hij). apply negb_true_iff. now apply Z.eqb_neq.
Qed.
Lemma uncached_inv : forall key sb kd, uncached sob e key sb = Ok kd ->
  exists k m f r s, obs_of e key = Ok (k, m) /\ psf_flags e m = Ok f /\ all_metacal e m = Ok r /\
    summarise sob e (mkMP (Some f) (Some r)) m sb = Ok s /\ kd = mkK (mkMP (Some f) (Some r)) (Some s).
Proof.
  intros key sb kd H. unfold uncached in H. destruct (obs_of e key) as [[k m]|]; [|discriminate]. cbn [obind snd] in H.
  destruct (psf_flags e m) as [f|] eqn:Ef; [|discriminate]. cbn [obind] in H.
  destruct (all_metacal e m) as [r|] eqn:Er; [|discriminate]. cbn [obind] in H.
  destruct (summarise sob e (mkMP (Some f) (Some r)) m sb) as [s|] eqn:Es; [|discriminate]. cbn [obind] in H.
  apply Ok_inj in H. subst. exists k, m, f, r, s. auto.
Qed.
Lemma all_metacal_none : forall m, all_metacal e m = Ok None <-> e_metacal e m = Raise BootPSFFailure.
Proof.
  intros m. unfold all_metacal. destruct (e_metacal e m) as [d|x]; [split; discriminate|].
  destruct x; split; intros H; try discriminate; auto.
Qed.
Lemma all_metacal_some : forall m d, all_metacal e m = Ok (Some d) <-> e_metacal e m = Ok d.
Proof.
  intros m d. unfold all_metacal. destruct (e_metacal e m) as [d'|x].
  - split; intros H; apply Ok_inj in H; congruence.
  - destruct x; split; intros H; try discriminate.
Qed.

Lemma pgo_inv : forall r, pgo = Ok r ->
  (r = None /\ (no_usable_pixel sob e \/ zero_weight_observation sob e \/ excluded_observation sob e \/ metacal_psf_failure e)) \/
  (exists mcal all, e_metacal e (e_main e) = Ok mcal /\ omap (pcomb mcal) (combine (e_shear e) (e_det e)) = Ok all /\
     r = Some (finish e (fold_left add_tables all [])) /\
     ~ (no_usable_pixel sob e \/ zero_weight_observation sob e \/ excluded_observation sob e \/ metacal_psf_failure e)).
Proof.
  intros r H. unfold pgo in H. destruct (get_mfrac (map (map sob) (e_main e))) as [mf|] eqn:Em; [|discriminate]. cbn [obind] in H.
  assert (G := give_up_iff mf Em). destruct (give_up sob e mf).
  - apply Ok_inj in H. left. split; auto. destruct (proj1 G eq_refl) as [X|[X|X]]; auto.
  - destruct (uncached sob e None (zrange (zlen (e_main e)))) as [kd|] eqn:Eu; [|discriminate]. cbn [obind] in H.
    destruct (uncached_inv _ _ _ Eu) as (k & m & f & rr & s & Ho & Hf & Hr & Hs & ->). cbn in Ho. apply Ok_inj in Ho.
    apply pair_equal_spec in Ho. destruct Ho as [_ <-]. cbn in H. destruct rr as [mcal|].
    + apply all_metacal_some in Hr. destruct (omap (pcomb mcal) (combine (e_shear e) (e_det e))) as [all|] eqn:Ea; [|discriminate].
      cbn [obind] in H. apply Ok_inj in H. right. exists mcal, all. split; [exact Hr|]. split; [exact Ea|]. split; [auto|].
      intros X. unfold metacal_psf_failure in X. rewrite Hr in X.
      assert (Y : no_usable_pixel sob e \/ zero_weight_observation sob e \/ excluded_observation sob e).
      { destruct X as [X|[X|[X|X]]]; auto. discriminate. }
      apply G in Y. discriminate.
    + apply all_metacal_none in Hr. apply Ok_inj in H. left. auto.
Qed.

(** ** Blocks *)
Lemma do_detect_inv : forall m db cat stamps, do_detect e m db = Ok (cat, stamps) ->
  exists seg, detected e m db cat seg /\ Forall2 (fun d st => e_stamp e m (Some seg) d = Ok st) cat stamps.
Proof.
  intros m db cat stamps H. unfold do_detect in H.
  destruct (omap (py_index m) db) as [sel|] eqn:E1; [|discriminate]. cbn [obind] in H.
  destruct (e_detect e sel) as [[c seg]|] eqn:E2; [|discriminate]. cbn [obind fst snd] in H.
  destruct (omap (e_stamp e m (Some seg)) c) as [sts|] eqn:E3; [|discriminate]. cbn [obind] in H. apply Ok_inj in H.
  apply pair_equal_spec in H. destruct H as [<- <-]. exists seg. split.
  - exists sel. split; auto. now apply omap_Forall2.
  - now apply omap_Forall2.
Qed.
Lemma num_refl : forall a : mval, mval_eqv a a.
Proof. intros [q|]; cbn; auto. reflexivity. Qed.
Lemma extra_eqv_refl : forall x, extra_eqv x x.
Proof.
  intros x. unfold extra_eqv. repeat (split; [first [reflexivity|apply num_refl|apply stats_eqv_refl]|]). reflexivity.
Qed.
Lemma row_eqv_refl : forall r : drow FR, row_eqv r r.
Proof. intros r. split; auto. apply extra_eqv_refl. Qed.
Lemma nodupb_nth : forall (l : list string), nodupb l = true -> forall i j a b, nth_error l i = Some a -> nth_error l j = Some b ->
  i <> j -> a <> b.
Proof.
  induction l as [|s l IH]; intros H i j a b Hi Hj Hn; [destruct i; discriminate|].
  cbn [nodupb] in H. apply andb_true_iff in H. destruct H as [H1 H2]. apply negb_true_iff in H1.
  assert (K : forall y, In y l -> s <> y).
  { intros y Hy E. rewrite <- not_true_iff_false in H1. apply H1. apply existsb_exists. exists y. split; [exact Hy|].
    apply String.eqb_eq. exact E. }
  destruct i as [|i], j as [|j]; cbn [nth_error] in Hi, Hj.
  - contradiction.
  - apply Some_inj in Hi. subst a. apply K. exact (nth_error_In _ _ Hj).
  - apply Some_inj in Hj. subst b. intros E. symmetry in E. revert E. apply K. exact (nth_error_In _ _ Hi).
  - apply (IH H2 i j a b Hi Hj). intros E. apply Hn. now f_equal.
Qed.
Lemma fitters_ok_nth : fitters_ok -> forall i j f g, nth_error (e_fitters e) i = Some f -> nth_error (e_fitters e) j = Some g ->
  i <> j -> e_colname e f <> e_colname e g.
Proof.
  intros H i j f g Hi Hj Hn. unfold fitters_ok in H. destruct (e_fitters e) as [|f0 [|f1 fs]] eqn:E.
  - contradiction.
  - destruct i as [|[|i]]; [|discriminate Hi|discriminate Hi]. destruct j as [|[|j]]; [contradiction|discriminate Hj|discriminate Hj].
  - refine (nodupb_nth _ H i j _ _ _ _ Hn); apply map_nth_error; assumption.
Qed.
Lemma rowfun_row_of : forall sb db t su d st r, fitters_ok -> rowfun sb db t su (d, st) = Ok r -> row_of sob e sb db t su d st r.
Proof.
  intros sb db t su d st r Hok H. unfold rowfun in H. cbn [fst snd] in H.
  destruct (omap (fun f => e_fit e f sb st) (e_fitters e)) as [fits|] eqn:E; [|discriminate]. cbn [obind] in H.
  destruct (extra_of sob e t su db d) as [x|] eqn:Ex; [|discriminate]. cbn [obind] in H. apply Ok_inj in H. subst.
  split; cbn [r_fits r_extra]; [now apply omap_Forall2|]. split; [exact (fitters_ok_nth Hok)|].
  exists x. split; auto. apply extra_eqv_refl.
Qed.
Lemma Forall2_split : forall A B C (P : A -> B -> Prop) (Q : A * B -> C -> Prop) l l' r,
  Forall2 P l l' -> Forall2 Q (combine l l') r -> Forall2 (fun a c => exists b, P a b /\ Q (a, b) c) l r.
Proof.
  intros A B C P Q l l' r H. revert r. induction H; intros r X; inversion X; subst; constructor; eauto.
Qed.

Lemma measure_block : forall cat stamps seg m sb db t su v, Forall2 (fun d st => e_stamp e m (Some seg) d = Ok st) cat stamps ->
  measure sob e cat stamps sb db t su = Ok v ->
  v <> Some [] /\
  Forall2 (fun d r => exists st, e_stamp e m (Some seg) d = Ok st /\ row_of sob e sb db t su d st r) cat (or_nil v).
Proof.
  intros cat stamps seg m sb db t su v Hs H. destruct stamps as [|st0 stamps].
  - inversion Hs; subst. apply measure_nil_inv in H. destruct H as [_ ->]. split; [discriminate|]. constructor.
  - apply measure_iff in H; [|eapply Forall2_len; eauto|discriminate]. destruct H as [Hok [_ [rows [H ->]]]].
    apply omap_Forall2 in H. cbn [or_nil]. split.
    + intros X. apply Some_inj in X. subst. inversion Hs; subst. inversion H.
    + eapply Forall2_imp; [|eapply Forall2_split; [exact Hs|exact H]].
      intros d r [st [A B]]. exists st. split; auto. now apply rowfun_row_of.
Qed.

Lemma Forall2_chain : forall A B C (P : A -> B -> Prop) (Q : B -> C -> Prop) l l' l'',
  Forall2 P l l' -> Forall2 Q l' l'' -> Forall2 (fun a c => exists b, P a b /\ Q b c) l l''.
Proof. intros A B C P Q l l' l'' H. revert l''. induction H; intros l'' X; inversion X; subst; constructor; eauto. Qed.
Lemma picks_cons : forall t kv (l : results FR), picks t (kv :: l) = (pick t kv ++ picks t l)%list.
Proof. reflexivity. Qed.
Lemma pick_same : forall t kv, fst kv = t -> pick t kv = match snd kv with Some l => [l] | None => [] end.
Proof. intros t kv H. unfold pick. rewrite H, String.eqb_refl. reflexivity. Qed.
Lemma pick_other : forall t kv, fst kv <> t -> pick t kv = [].
Proof. intros t kv H. unfold pick. destruct (String.eqb t (fst kv)) eqn:E; auto. apply String.eqb_eq in E. congruence. Qed.
Lemma picks_other : forall t (mcal : list (string * mb O)) (res : results FR),
  Forall2 (fun sm kv => fst kv = fst sm) mcal res -> ~ In t (map fst mcal) -> picks t res = [].
Proof.
  intros t mcal res H. induction H as [|sm kv mcal res Hk Hr IH]; intros N; [reflexivity|].
  cbn [map] in N. rewrite picks_cons, pick_other, IH; auto.
  - intros X. apply N. now right.
  - intros X. apply N. left. congruence.
Qed.
Lemma picks_one : forall t m (P : string * mb O -> option (list (drow FR)) -> Prop) mcal (res : results FR),
  NoDup (map fst mcal) -> In (t, m) mcal -> Forall2 (fun sm kv => fst kv = fst sm /\ P sm (snd kv)) mcal res ->
  exists v, P (t, m) v /\ picks t res = match v with Some l => [l] | None => [] end.
Proof.
  intros t m P mcal res N Hin H. induction H as [|sm kv mcal res [Hk HP] Hr IH]; [destruct Hin|].
  cbn [map] in N. inversion N; subst. rewrite picks_cons. destruct Hin as [->|Hin].
  - exists (snd kv). split; auto. cbn [fst] in *. rewrite (picks_other t mcal res); auto.
    + now rewrite app_nil_r, pick_same.
    + eapply Forall2_imp; [|exact Hr]. intros a b [X _]. exact X.
  - destruct IH as [v [Hv Hp]]; auto. exists v. split; auto. rewrite pick_other; [exact Hp|].
    intros E. apply H1. rewrite <- Hk, E. change t with (fst (t, m)). now apply in_map.
Qed.

(** From tables per combination to the table of a type. *)
Lemma blocks_of_type : forall t m (B : list Z * list Z -> option (list (drow FR)) -> Prop) mcal combs (all : list (results FR)),
  NoDup (map fst mcal) -> In (t, m) mcal -> In t (e_types e) ->
  (forall sd res, pcomb mcal sd = Ok res ->
     exists v, B sd v /\ v <> Some [] /\ picks t res = match v with Some l => [l] | None => [] end) ->
  omap (pcomb mcal) combs = Ok all ->
  exists vs, Forall2 B combs vs /\
    table (finish e (fold_left add_tables all [])) t =
      Some (match List.concat (map or_nil vs) with [] => None | l => Some l end).
Proof.
  intros t m B mcal combs all N Hin Ht HB H. apply omap_Forall2 in H.
  assert (X : exists vs, Forall2 B combs vs /\ Forall (fun v => v <> Some []) vs /\
     picks t (List.concat all) = flat_map (fun v => match v with Some l => [l] | None => [] end) vs).
  { induction H as [|sd res combs all Hc Hr IH].
    - exists []. repeat split; constructor.
    - destruct IH as [vs [IH1 [IH2 IH3]]]. destruct (HB sd res Hc) as [v [Hv [Hn Hp]]].
      exists (v :: vs). split; [constructor; auto|]. split; [constructor; auto|].
      cbn [List.concat flat_map]. now rewrite picks_app, Hp, IH3. }
  destruct X as [vs [X1 [X2 X3]]]. exists vs. split; auto. rewrite finish_lookup, X3.
  assert (E : existsb (String.eqb t) (e_types e) = true) by (apply existsb_exists; exists t; split; auto; apply String.eqb_refl).
  assert (Y : List.concat (flat_map (fun v : option (list (drow FR)) => match v with Some l => [l] | None => [] end) vs) =
              List.concat (map or_nil vs)).
  { clear. induction vs as [|v vs IH]; cbn; auto. rewrite concat_app, IH. destruct v; cbn; auto. now rewrite app_nil_r. }
  rewrite <- Y.
  destruct (flat_map (fun v : option (list (drow FR)) => match v with Some l => [l] | None => [] end) vs) as [|l ls] eqn:F.
  - rewrite E. reflexivity.
  - assert (Hl : l <> []).
    { assert (Z : In l (flat_map (fun v : option (list (drow FR)) => match v with Some l => [l] | None => [] end) vs)) by (rewrite F; now left).
      apply in_flat_map in Z. destruct Z as [v [Hv Z]]. rewrite Forall_forall in X2. specialize (X2 v Hv).
      destruct v as [l0|]; [|destruct Z]. destruct Z as [<-|[]]. congruence. }
    destruct l; [contradiction|]. reflexivity.
Qed.

Definition plain_block (t : string) (m : mb O) (sd : list Z * list Z) (v : option (list (drow FR))) : Prop :=
  block_of sob e t m sd (or_nil v).
Lemma pbands_blocks : forall t m mcal sd res, NoDup (map fst mcal) -> In (t, m) mcal ->
  pbands (fst sd) (snd sd) mcal = Ok res ->
  exists v, plain_block t m sd v /\ v <> Some [] /\ picks t res = match v with Some l => [l] | None => [] end.
Proof.
  intros t m mcal [sb db] res N Hin H. cbn [fst snd] in *. unfold pbands in H.
  destruct (uncached sob e None sb) as [kd|] eqn:Eu; [|discriminate]. cbn [obind] in H.
  apply omap_Forall2 in H.
  destruct (picks_one t m (fun sm v => v <> Some [] /\ plain_block (fst sm) (snd sm) (sb, db) v) mcal res N Hin) as [v [[Hn Hv] Hp]].
  { eapply Forall2_imp; [|exact H]. intros [t0 m0] kv K. cbn [fst snd] in *.
    destruct (do_detect e m0 db) as [[cat stamps]|] eqn:Ed; [|discriminate]. cbn [obind fst snd] in K.
    unfold kd_summary in K. destruct (kd_sum kd) as [su|] eqn:Es; [|discriminate]. cbn [obind] in K.
    destruct (measure sob e cat stamps sb db t0 su) as [v|] eqn:Em; [|discriminate]. cbn [obind] in K. apply Ok_inj in K.
    subst kv. split; auto. cbn [snd]. destruct (do_detect_inv _ _ _ _ Ed) as [seg [D1 D2]].
    destruct (measure_block _ _ _ _ _ _ _ _ _ D2 Em) as [M1 M2]. split; auto.
    exists cat, seg, kd, su. cbn [fst snd]. auto. }
  exists v. cbn [fst snd] in *. auto.
Qed.

Definition colour_block (keyf : FL -> outcome (option Z)) (t : string) (m : mb O) (sd : list Z * list Z) (v : option (list (drow FR))) : Prop :=
  colour_block_of sob e keyf t m sd (or_nil v).
Lemma pcolor_one_inv : forall sb db t d key part, pcolor_one sb db t (d, key) = Ok part ->
  colour_rows sob e sb db t key d part.
Proof.
  intros sb db t d key part H. unfold pcolor_one in H. cbn [fst snd] in H.
  destruct (uncached sob e key sb) as [kd|] eqn:Eu; [|discriminate]. cbn [obind] in H. exists kd. split; auto.
  unfold kd_mcal in H. destruct (mp_mcal (kd_mp kd)) as [[dict|]|]; [| |discriminate]; cbn [obind] in H.
  - right. destruct (assoc String.eqb t dict) as [m|] eqn:Ea; [|discriminate]. cbn [obind] in H.
    destruct (e_stamp e m None d) as [st|] eqn:Es; [|discriminate]. cbn [obind] in H.
    unfold kd_summary in H. destruct (kd_sum kd) as [su|]; [|discriminate]. cbn [obind] in H.
    destruct (measure sob e [d] [st] sb db t su) as [v|] eqn:Em; [|discriminate]. cbn [obind] in H. apply Ok_inj in H.
    apply measure_iff in Em; [|reflexivity|discriminate]. destruct Em as [Hok [_ [rows [Er ->]]]].
    cbn [combine omap] in Er. destruct (rowfun sb db t su (d, st)) as [r|] eqn:Erow; [|discriminate]. cbn [obind] in Er.
    apply Ok_inj in Er. subst rows part. exists dict, m, st, su, r. repeat split; auto; now apply (rowfun_row_of _ _ _ _ _ _ _ Hok Erow).
  - left. apply Ok_inj in H. auto.
Qed.
Lemma pbands_color_blocks : forall keyf t m mcal sd res, NoDup (map fst mcal) -> In (t, m) mcal ->
  pbands_color keyf (fst sd) (snd sd) mcal = Ok res ->
  exists v, colour_block keyf t m sd v /\ v <> Some [] /\ picks t res = match v with Some l => [l] | None => [] end.
Proof.
  intros keyf t m mcal [sb db] res N Hin H. cbn [fst snd] in *. unfold pbands_color in H.
  apply omap_Forall2 in H.
  destruct (picks_one t m (fun sm v => v <> Some [] /\ colour_block keyf (fst sm) (snd sm) (sb, db) v) mcal res N Hin) as [v [[Hn Hv] Hp]].
  { eapply Forall2_imp; [|exact H]. intros [t0 m0] kv K. cbn [fst snd] in *.
    destruct (e_fitters e) as [|f0 fs] eqn:Ef; [discriminate|]. destruct (fi_wavg f0); [|discriminate]. cbn [obind] in K.
    destruct (do_detect e m0 db) as [[cat stamps]|] eqn:Ed; [|discriminate]. cbn [obind fst snd] in K.
    destruct (omap (e_flux e f0 sb) stamps) as [fluxes|] eqn:Efl; [|discriminate]. cbn [obind] in K.
    destruct (do_detect_inv _ _ _ _ Ed) as [seg [D1 D2]]. apply omap_Forall2 in Efl.
    destruct fluxes as [|fl fls].
    - inversion Efl; subst. inversion D2; subst. apply Ok_inj in K. subst kv. split; auto. cbn [snd]. split; [discriminate|].
      exists [], seg, [], []. cbn. repeat split; auto; constructor.
    - destruct (omap keyf (fl :: fls)) as [keys|] eqn:Ek; [|discriminate]. cbn [obind] in K.
      destruct (omap (pcolor_one sb db t0) (combine cat keys)) as [data|] eqn:Edt; [|discriminate]. cbn [obind] in K.
      apply Ok_inj in K. subst kv. split; auto. cbn [snd]. split.
      { destruct (List.concat data); congruence. }
      apply omap_Forall2 in Ek. apply omap_Forall2 in Edt. exists cat, seg, keys, data. cbn [fst snd].
      split; auto. split; [|split].
      + eapply Forall2_imp; [|exact (Forall2_chain _ _ _ _ _ _ _ _ D2 (Forall2_chain _ _ _ _ _ _ _ _ Efl Ek))].
        intros d key (st & X1 & fl0 & X2 & X3). exists f0, fs, st, fl0. auto.
      + eapply Forall2_imp; [|exact Edt]. intros [d key] part X. cbn [fst snd]. now apply pcolor_one_inv.
      + destruct (List.concat data); reflexivity. }
  exists v. cbn [fst snd] in *. auto.
Qed.

(** Splitting related rows along blocks. *)
Lemma Forall2_concat_inv : forall A B (R : A -> B -> Prop) blocks rows, Forall2 R rows (List.concat blocks) ->
  exists blocks', rows = List.concat blocks' /\ Forall2 (Forall2 R) blocks' blocks.
Proof.
  intros A B R blocks. induction blocks as [|b blocks IH]; intros rows H; cbn in H.
  - inversion H; subst. exists []. split; auto.
  - apply Forall2_app_inv_r in H. destruct H as [r1 [r2 [H1 [H2 ->]]]]. destruct (IH _ H2) as [bs [-> Hb]].
    exists (r1 :: bs). split; auto.
Qed.
Lemma mval_eqv_trans : forall a b c, mval_eqv a b -> mval_eqv b c -> mval_eqv a c.
Proof. intros [a|] [b|] [c|]; cbn; auto; try contradiction. intros -> ->. reflexivity. Qed.
Lemma mval_eqv_sym : forall a b, mval_eqv a b -> mval_eqv b a.
Proof. intros [a|] [b|]; cbn; auto. intros ->. reflexivity. Qed.
Lemma opt_q_trans : forall a b c : option Q, opt_rel Qeq a b -> opt_rel Qeq b c -> opt_rel Qeq a c.
Proof. intros [a|] [b|] [c|]; cbn; auto; try contradiction. intros -> ->. reflexivity. Qed.
Lemma opt_q_sym : forall a b : option Q, opt_rel Qeq a b -> opt_rel Qeq b a.
Proof. intros [a|] [b|]; cbn; auto. intros ->. reflexivity. Qed.
Lemma stats_eqv_trans : forall a b c, stats_eqv a b -> stats_eqv b c -> stats_eqv a c.
Proof.
  intros a b c (A1&A2&A3&A4) (B1&B2&B3&B4).
  split; [congruence|]. split; [eapply opt_q_trans; eauto|]. split; eapply opt_q_trans; eauto.
Qed.
Lemma stats_eqv_sym : forall a b, stats_eqv a b -> stats_eqv b a.
Proof. intros a b (A1&A2&A3&A4). repeat split; auto using opt_q_sym. Qed.
Lemma extra_eqv_trans : forall a b c, extra_eqv a b -> extra_eqv b c -> extra_eqv a c.
Proof.
  intros a b c (A1&A2&A3&A4&A5&A6&A7&A8&A9&A10&A11&A12&A13) (B1&B2&B3&B4&B5&B6&B7&B8&B9&B10&B11&B12&B13).
  unfold extra_eqv. repeat (split; [first [congruence|eapply mval_eqv_trans; eassumption|rewrite A11; exact B11|eapply stats_eqv_trans; eassumption]|]).
  congruence.
Qed.
Lemma extra_eqv_sym : forall a b, extra_eqv a b -> extra_eqv b a.
Proof.
  intros a b (A1&A2&A3&A4&A5&A6&A7&A8&A9&A10&A11&A12&A13).
  unfold extra_eqv. repeat (split; [first [congruence|apply mval_eqv_sym; assumption|symmetry; assumption|apply stats_eqv_sym; assumption]|]).
  congruence.
Qed.
Lemma row_eqv_join : forall a b c : drow FR, row_eqv a c -> row_eqv b c -> row_eqv a b.
Proof.
  intros a b c [A1 A2] [B1 B2]. split; [congruence|]. eapply extra_eqv_trans; [exact A2|now apply extra_eqv_sym].
Qed.
Lemma opt_rel_join : forall A (R : A -> A -> Prop), (forall a b c, R a c -> R b c -> R a b) ->
  forall a b c, opt_rel R a c -> opt_rel R b c -> opt_rel R a b.
Proof. intros A R H [a|] [b|] [c|]; cbn; auto; try contradiction. apply H. Qed.
Lemma Forall2_join : forall A (R : A -> A -> Prop), (forall a b c, R a c -> R b c -> R a b) ->
  forall a b c, Forall2 R a c -> Forall2 R b c -> Forall2 R a b.
Proof.
  intros A R H a b c H1. revert b. induction H1; intros b0 H2; inversion H2; subst; constructor; eauto.
Qed.
Lemma result_eqv_join : forall a b c : option (results FR), result_eqv a c -> result_eqv b c -> result_eqv a b.
Proof.
  apply opt_rel_join. intros a b c H1 H2 t. eapply opt_rel_join; [|apply H1|apply H2].
  apply opt_rel_join. apply Forall2_join. apply row_eqv_join.
Qed.
Lemma row_of_eqv : forall sb db t su d st r r', row_eqv r' r -> row_of sob e sb db t su d st r -> row_of sob e sb db t su d st r'.
Proof.
  intros sb db t su d st r r' [E1 E2] [H1 [Hd [x [H2 H3]]]]. split; [now rewrite E1|]. split; [exact Hd|]. exists x. split; auto.
  eapply extra_eqv_trans; eauto.
Qed.
Lemma Forall2_compose : forall A B C (P : A -> B -> Prop) (Q : C -> B -> Prop) (R : A -> C -> Prop) l l' r,
  (forall a b c, P a b -> Q c b -> R a c) -> Forall2 P l l' -> Forall2 Q r l' -> Forall2 R l r.
Proof.
  intros A B C P Q R l l' r H H1. revert r. induction H1; intros r H2; inversion H2; subst; constructor; eauto.
Qed.
Lemma block_of_eqv : forall t m sd rows rows', Forall2 row_eqv rows' rows -> block_of sob e t m sd rows -> block_of sob e t m sd rows'.
Proof.
  intros t m sd rows rows' E (cat & seg & kd & su & H1 & H2 & H3 & H4). exists cat, seg, kd, su. repeat split; auto.
  eapply Forall2_compose; [|exact H4|exact E]. intros d r r' [st [X Y]] Z. exists st. split; auto. eapply row_of_eqv; eauto.
Qed.
Lemma colour_rows_eqv : forall sb db t key d part part', Forall2 row_eqv part' part ->
  colour_rows sob e sb db t key d part -> colour_rows sob e sb db t key d part'.
Proof.
  intros sb db t key d part part' E [kd [H1 H2]]. exists kd. split; auto. destruct H2 as [[H2 ->]|H2].
  - left. split; auto. now inversion E.
  - right. destruct H2 as (dict & m & st & su & r & A & B & C & D & F & ->). inversion E as [|r' ? ? ? Hr Hn]; subst. inversion Hn; subst.
    exists dict, m, st, su, r'. repeat split; auto; apply (row_of_eqv _ _ _ _ _ _ r r' Hr F).
Qed.
Lemma colour_block_of_eqv : forall keyf t m sd rows rows', Forall2 row_eqv rows' rows ->
  colour_block_of sob e keyf t m sd rows -> colour_block_of sob e keyf t m sd rows'.
Proof.
  intros keyf t m sd rows rows' E (cat & seg & keys & parts & H1 & H2 & H3 & ->).
  apply Forall2_concat_inv in E. destruct E as [parts' [-> E]]. exists cat, seg, keys, parts'. repeat split; auto.
  eapply Forall2_compose; [|exact H3|exact E]. intros dk part part' X Y. eapply colour_rows_eqv; eauto.
Qed.

(** The table of a type, for a block predicate closed under equivalence. *)
Lemma table_blocks : forall t m (B : list Z * list Z -> list (drow FR) -> Prop) mcal combs all r',
  NoDup (map fst mcal) -> In (t, m) mcal -> In t (e_types e) ->
  (forall sd rows rows', Forall2 row_eqv rows' rows -> B sd rows -> B sd rows') ->
  (forall sd res, pcomb mcal sd = Ok res ->
     exists v, B sd (or_nil v) /\ v <> Some [] /\ picks t res = match v with Some l => [l] | None => [] end) ->
  omap (pcomb mcal) combs = Ok all ->
  tables_eqv r' (finish e (fold_left add_tables all [])) ->
  exists blocks, Forall2 B combs blocks /\
    table r' t = Some (match List.concat blocks with [] => None | l => Some l end).
Proof.
  intros t m B mcal combs all r' N Hin Ht HE HB H T.
  destruct (blocks_of_type t m (fun sd v => B sd (or_nil v)) mcal combs all N Hin Ht HB H) as [vs [F E]].
  specialize (T t). rewrite E in T. destruct (table r' t) as [o|]; [|destruct T]. cbn [opt_rel] in T.
  assert (X : exists blocks', or_nil o = List.concat blocks' /\ Forall2 (Forall2 row_eqv) blocks' (map or_nil vs)).
  { apply Forall2_concat_inv. destruct (List.concat (map or_nil vs)), o; cbn in T |- *; auto; contradiction. }
  destruct X as [bs [Ebs Hbs]]. exists bs. split.
  - assert (F' : Forall2 B combs (map or_nil vs)) by (clear - F; induction F; cbn; constructor; auto).
    eapply Forall2_compose; [|exact F'|exact Hbs]. intros sd rows rows' X Y. eapply HE; eauto.
  - rewrite <- Ebs. f_equal. destruct o as [l|]; [|reflexivity]. cbn [or_nil].
    destruct (List.concat (map or_nil vs)); cbn in T; [contradiction|]. inversion T; subst. reflexivity.
Qed.

Hypothesis MT : metacal_types e.
Lemma go_tables : forall h s' r', healthy sob e h -> go sob e (after sob e h) = (Ok tt, s') -> result_property s' = Ok (Some r') ->
  exists mcal all, e_metacal e (e_main e) = Ok mcal /\ omap (pcomb mcal) (combine (e_shear e) (e_det e)) = Ok all /\
    tables_eqv r' (finish e (fold_left add_tables all [])).
Proof.
  intros h s' r' Hh Hg Hr. assert (S := go_sem _ (good_after h Hh)). rewrite Hg in S. cbn [fst snd] in S.
  destruct pgo as [r|] eqn:Ep; [|contradiction]. destruct S as [r0 [Hr0 [S _]]].
  rewrite Hr in Hr0. apply Ok_inj in Hr0. subst r0. destruct (pgo_inv r Ep) as [[-> _]|(mcal & all & H1 & H2 & -> & _)].
  - destruct S.
  - exists mcal, all. auto.
Qed.
Lemma go_plain_blocks : forall h s' r', e_color e = None -> healthy sob e h ->
  go sob e (after sob e h) = (Ok tt, s') -> result_property s' = Ok (Some r') ->
  exists mcal, e_metacal e (e_main e) = Ok mcal /\ forall t m, In (t, m) mcal ->
  exists blocks, Forall2 (block_of sob e t m) (combine (e_shear e) (e_det e)) blocks /\
    table r' t = Some (match List.concat blocks with [] => None | l => Some l end).
Proof.
  intros h s' r' Hc Hh Hg Hr. destruct (go_tables h s' r' Hh Hg Hr) as (mcal & all & H1 & H2 & H3). exists mcal. split; auto.
  intros t m Hin. destruct (MT _ _ H1) as [N T]. eapply table_blocks; eauto.
  - apply T. change t with (fst (t, m)). now apply in_map.
  - intros. eapply block_of_eqv; eauto.
  - intros sd res X. unfold pcomb in X. rewrite Hc in X. apply (pbands_blocks t m mcal sd res N Hin X).
Qed.
Lemma go_colour_blocks : forall keyf dep h s' r', e_color e = Some (keyf, dep) -> healthy sob e h ->
  go sob e (after sob e h) = (Ok tt, s') -> result_property s' = Ok (Some r') ->
  exists mcal, e_metacal e (e_main e) = Ok mcal /\ forall t m, In (t, m) mcal ->
  exists blocks, Forall2 (colour_block_of sob e keyf t m) (combine (e_shear e) (e_det e)) blocks /\
    table r' t = Some (match List.concat blocks with [] => None | l => Some l end).
Proof.
  intros keyf dep h s' r' Hc Hh Hg Hr. destruct (go_tables h s' r' Hh Hg Hr) as (mcal & all & H1 & H2 & H3). exists mcal. split; auto.
  intros t m Hin. destruct (MT _ _ H1) as [N T]. eapply table_blocks; eauto.
  - apply T. change t with (fst (t, m)). now apply in_map.
  - intros. eapply colour_block_of_eqv; eauto.
  - intros sd res X. unfold pcomb in X. rewrite Hc in X. apply (pbands_color_blocks keyf t m mcal sd res N Hin X).
Qed.
End Driver.

(** ** Colours with the content of the main observations *)
Section Colour.
Variables O SEG ST FL FR : Type.
Variable sob : O -> sobs.
Variable e : env O SEG ST FL FR.
Variables (keyf : FL -> outcome (option Z)) (dep : Z -> option (cobs O)) (f0 : fitter) (fs : list fitter).
Hypothesis Hc : e_color e = Some (keyf, dep).
Hypothesis Hf : e_fitters e = f0 :: fs.
Hypothesis Hw : fi_wavg f0 = true.
Hypothesis Hflux : forall sb st x, e_fit e f0 sb st = Ok x -> exists fl, e_flux e f0 sb st = Ok fl.
Hypothesis Hkey : forall fl, exists key, keyf fl = Ok key /\
  (key = None \/ exists k, key = Some k /\ (dep k = Some SameObject \/ dep k = Some (Other (e_main e)))).
Hypothesis Hstamp : forall m seg d, e_stamp e m None d = e_stamp e m (Some seg) d.

Lemma uncached_same : forall key sb, (key = None \/ exists k, key = Some k /\ (dep k = Some SameObject \/ dep k = Some (Other (e_main e)))) ->
  uncached sob e key sb = uncached sob e None sb.
Proof.
  intros key sb H. unfold uncached, obs_of. destruct H as [->|[k [-> [H|H]]]]; auto; rewrite Hc, H; reflexivity.
Qed.

Lemma colour_same : forall mcal sb db res, e_metacal e (e_main e) = Ok mcal -> NoDup (map fst mcal) ->
  pbands O SEG ST FL FR sob e sb db mcal = Ok res -> pbands_color O SEG ST FL FR sob e keyf sb db mcal = Ok res.
Proof.
  intros mcal sb db res Hm N H. unfold pbands in H.
  destruct (uncached sob e None sb) as [kd|] eqn:Eu; [|discriminate]. cbn [obind] in H.
  apply omap_Forall2 in H. unfold pbands_color. apply omap_Forall2.
  apply Forall2_In_l in H. eapply Forall2_imp; [|exact H]. clear H. intros [t m] kv [Hin K]. cbn [fst snd] in *.
  destruct (do_detect e m db) as [[cat stamps]|] eqn:Ed; [|discriminate]. cbn [obind fst snd] in K |- *.
  unfold kd_summary in K. destruct (kd_sum kd) as [su|] eqn:Es; [|discriminate]. cbn [obind] in K.
  destruct (measure sob e cat stamps sb db t su) as [v|] eqn:Em; [|discriminate]. cbn [obind] in K. apply Ok_inj in K. subst kv.
  rewrite Hf, Hw. cbn [obind]. destruct (do_detect_inv _ _ _ _ _ e _ _ _ _ Ed) as [seg [_ D2]].
  destruct stamps as [|st0 stamps].
  - apply measure_nil_inv in Em. destruct Em as [_ ->]. reflexivity.
  - assert (L := Forall2_len _ _ _ _ _ D2).
    apply measure_iff in Em; [|exact L|discriminate]. destruct Em as [F [Dl [rows [Hrows ->]]]].
    destruct (rowfun_fits _ _ _ _ _ sob e _ _ _ _ _ _ _ L Hrows) as [mat Hmat].
    remember (st0 :: stamps) as sts eqn:Ests.
    assert (X : exists fluxes keys, omap (e_flux e f0 sb) sts = Ok fluxes /\ omap keyf fluxes = Ok keys /\
      Forall2 (fun st key => key = None \/ exists k, key = Some k /\ (dep k = Some SameObject \/ dep k = Some (Other (e_main e)))) sts keys).
    { clear - Hmat Hf Hflux Hkey. rewrite Hf in Hmat. induction Hmat as [|st row sts mat Hr Hrest IH].
      - exists [], []. repeat split; constructor.
      - destruct IH as [fls [keys [X1 [X2 X3]]]]. inversion Hr; subst. destruct (Hflux _ _ _ H1) as [fl Hfl].
        destruct (Hkey fl) as [key [Hk Hk2]]. exists (fl :: fls), (key :: keys). cbn [omap]. rewrite Hfl, X1, Hk, X2.
        repeat split. constructor; auto. }
    destruct X as [fluxes [keys [X1 [X2 X3]]]]. rewrite X1. cbn [obind].
    assert (Lf := omap_ok_length _ _ _ _ _ X1). destruct fluxes as [|fl fls]; [subst sts; discriminate|].
    rewrite X2. cbn [obind].
    assert (Y : omap (pcolor_one O SEG ST FL FR sob e sb db t) (combine cat keys) = Ok (map (fun r => [r]) rows)).
    { clear X1 X2 Lf Ests fl fls Hmat mat. apply omap_Forall2. apply omap_Forall2 in Hrows.
      assert (Ek : forall d st r key, e_stamp e m (Some seg) d = Ok st ->
        (key = None \/ exists k, key = Some k /\ (dep k = Some SameObject \/ dep k = Some (Other (e_main e)))) ->
        rowfun O SEG ST FL FR sob e sb db t su (d, st) = Ok r -> pcolor_one O SEG ST FL FR sob e sb db t (d, key) = Ok [r]).
      { intros d st r key A B C. unfold pcolor_one. cbn [fst snd]. rewrite (uncached_same key sb B), Eu. cbn [obind].
        destruct (uncached_inv _ _ _ _ _ sob e _ _ _ Eu) as (k & m' & f & rr & s & Ho & _ & Hr & _ & Ekd). cbn in Ho. apply Ok_inj in Ho.
        apply pair_equal_spec in Ho. destruct Ho as [_ <-]. assert (Hmc := proj2 (all_metacal_some _ _ _ _ _ e (e_main e) mcal) Hm).
        rewrite Hr in Hmc. apply Ok_inj in Hmc. subst rr. unfold kd_mcal, kd_summary. rewrite Es. rewrite Ekd. cbn [kd_mp mp_mcal obind].
        rewrite (assoc_NoDup _ t m mcal N Hin). cbn [obind]. rewrite (Hstamp m seg d), A. cbn [obind].
        assert (M : measure sob e [d] [st] sb db t su = Ok (Some [r])).
        { apply measure_iff; [reflexivity|discriminate|]. split; [exact F|]. split; [exact Dl|]. exists [r]. split; auto.
          cbn [combine omap]. rewrite C. reflexivity. }
        rewrite M. reflexivity. }
      clear - D2 X3 Hrows Ek. revert keys rows X3 Hrows. induction D2 as [|d st cat sts Hd D2 IH]; intros keys rows X3 Hrows;
        inversion X3; subst; cbn [combine] in Hrows |- *; inversion Hrows; subst; cbn [map]; constructor; eauto. }
    rewrite Y. cbn [obind].
    assert (Z : List.concat (map (fun r : drow FR => [r]) rows) = rows) by (clear; induction rows; cbn; congruence).
    rewrite Z. destruct rows; [|reflexivity].
    exfalso. apply omap_ok_length in Hrows. rewrite combine_length, L, Nat.min_id in Hrows. subst sts. discriminate.
Qed.

Lemma pgo_same : forall r, metacal_types e -> pgo O SEG ST FL FR sob (without_colour e) = Ok r -> pgo O SEG ST FL FR sob e = Ok r.
Proof.
  intros r MT H. unfold pgo in *. change (e_main (without_colour e)) with (e_main e) in H.
  destruct (get_mfrac (map (map sob) (e_main e))) as [mf|]; [|discriminate]. cbn [obind] in *.
  change (give_up sob (without_colour e) mf) with (give_up sob e mf) in H. destruct (give_up sob e mf); auto.
  change (uncached sob (without_colour e) None (zrange (zlen (e_main e)))) with (uncached sob e None (zrange (zlen (e_main e)))) in H.
  destruct (uncached sob e None (zrange (zlen (e_main e)))) as [kd|] eqn:Eu; [|discriminate]. cbn [obind] in *.
  destruct (uncached_inv _ _ _ _ _ sob e _ _ _ Eu) as (k & m & f & rr & s & Ho & _ & Hr & _ & ->). cbn in Ho. apply Ok_inj in Ho.
  apply pair_equal_spec in Ho. destruct Ho as [_ <-]. unfold kd_mcal in *. cbn [kd_mp mp_mcal obind] in *.
  destruct rr as [mcal|]; auto. apply all_metacal_some in Hr. destruct (MT _ _ Hr) as [N _].
  change (e_shear (without_colour e)) with (e_shear e) in H. change (e_det (without_colour e)) with (e_det e) in H.
  destruct (omap (pcomb O SEG ST FL FR sob (without_colour e) mcal) (combine (e_shear e) (e_det e))) as [all|] eqn:Ea; [|discriminate].
  assert (X : omap (pcomb O SEG ST FL FR sob e mcal) (combine (e_shear e) (e_det e)) = Ok all).
  { apply omap_Forall2. apply omap_Forall2 in Ea. eapply Forall2_imp; [|exact Ea]. intros sd res R. unfold pcomb in *.
    cbn [without_colour e_color] in R. rewrite Hc. eapply colour_same; eauto. }
  rewrite X. exact H.
Qed.
End Colour.

(** ** Consequences *)
Section More.
Variables O SEG ST FL FR : Type.
Variable sob : O -> sobs.
Variable e : env O SEG ST FL FR.

Lemma go_types : forall h s' r,
  env_uniform sob e -> metacal_types e -> healthy sob e h ->
  go sob e (after sob e h) = (Ok tt, s') -> result_property s' = Ok (Some r) ->
  NoDup (map fst r) /\ forall t, In t (map fst r) <-> In t (e_types e).
Proof.
  intros h s' r U MT Hh Hg Hr. split.
  - rewrite go_body in Hg. unfold mbind in Hg.
    destruct (gobody O SEG ST FL FR sob e (after sob e h)) as [[r0|x] s1] eqn:Eb; [|discriminate].
    apply pair_equal_spec in Hg. destruct Hg as [_ <-]. cbn in Hr. apply Ok_inj in Hr. subst r0.
    unfold gobody, mbind, lift, ret in Eb.
    destruct (get_mfrac (map (map sob) (e_main e))); [|discriminate].
    destruct (give_up sob e a); [apply pair_equal_spec in Eb; destruct Eb; discriminate|].
    destruct (get_data sob e None (zrange (zlen (e_main e))) (after sob e h)) as [[kd|] s2]; [|discriminate].
    destruct (kd_mcal kd) as [[mcal|]|]; [|apply pair_equal_spec in Eb; destruct Eb; discriminate|discriminate].
    destruct (mmap _ (combine (e_shear e) (e_det e)) s2) as [[all|] s3]; [|discriminate].
    apply pair_equal_spec in Eb. destruct Eb as [Eb _]. apply Ok_inj, Some_inj in Eb. subst r. apply finish_NoDup.
  - intros t. destruct (go_tables _ _ _ _ _ sob e U h s' r Hh Hg Hr) as (mcal & all & H1 & H2 & H3).
    specialize (H3 t). destruct (MT _ _ H1) as [N T]. rewrite <- (assoc_In _ t r). unfold table in H3.
    assert (X : (exists v, assoc String.eqb t (finish e (fold_left add_tables all [])) = Some v) <-> In t (e_types e)).
    { change (assoc String.eqb t (finish e (fold_left add_tables all []))) with (table (finish e (fold_left add_tables all [])) t).
      rewrite finish_lookup. split.
      - intros [v Hv]. destruct (picks FR t (List.concat all)) as [|p ps] eqn:Ep.
        + destruct (existsb (String.eqb t) (e_types e)) eqn:Ex; [|discriminate]. apply existsb_exists in Ex.
          destruct Ex as [t' [X Y]]. apply String.eqb_eq in Y. now subst.
        + apply T. assert (Hp : In p (picks FR t (List.concat all))) by (rewrite Ep; now left).
          unfold picks in Hp. apply in_flat_map in Hp. destruct Hp as [[t' v'] [Hin Hp]].
          apply in_concat in Hin. destruct Hin as [res [Hres Hin]].
          unfold pick in Hp. cbn [fst snd] in Hp. destruct (String.eqb_spec t t') as [<-|]; [|destruct v'; destruct Hp].
          assert (K : exists sd, pcomb O SEG ST FL FR sob e mcal sd = Ok res).
          { apply omap_Forall2 in H2. clear - H2 Hres. induction H2; [destruct Hres|]. destruct Hres as [<-|Hres]; eauto. }
          destruct K as [sd K]. change t with (fst (t, v')). unfold pcomb in K.
          assert (Q : map fst res = map fst mcal).
          { destruct (e_color e) as [[keyf dep]|].
            - unfold pbands_color in K. apply omap_Forall2 in K. clear - K.
              induction K as [|[t0 m0] kv l l' H K IH]; [reflexivity|]. cbn [map]. rewrite IH. f_equal. cbn [fst snd] in *.
              destruct (match e_fitters e with [] => _ | f :: _ => _ end); [|discriminate]. cbn [obind] in H.
              destruct (do_detect e m0 (snd sd)); [|discriminate]. cbn [obind] in H.
              destruct (omap (e_flux e a (fst sd)) (snd a0)) as [fl|]; [|discriminate]. cbn [obind] in H.
              destruct fl; [apply Ok_inj in H; subst; reflexivity|].
              destruct (omap keyf (f :: fl)); [|discriminate]. cbn [obind] in H.
              destruct (omap _ (combine (fst a0) a1)); [|discriminate]. cbn [obind] in H. apply Ok_inj in H. now subst.
            - unfold pbands in K. destruct (uncached sob e None (fst sd)) as [kd|]; [|discriminate]. cbn [obind] in K.
              apply omap_Forall2 in K. clear - K.
              induction K as [|[t0 m0] kv l l' H K IH]; [reflexivity|]. cbn [map]. rewrite IH. f_equal. cbn [fst snd] in *.
              destruct (do_detect e m0 (snd sd)); [|discriminate]. cbn [obind] in H.
              destruct (kd_summary kd); [|discriminate]. cbn [obind] in H.
              destruct (measure sob e (fst a) (snd a) (fst sd) (snd sd) t0 a0); [|discriminate]. cbn [obind] in H.
              apply Ok_inj in H. now subst. }
          rewrite <- Q. now apply in_map.
      - intros Hin. destruct (picks FR t (List.concat all)); [|eauto].
        assert (Ex : existsb (String.eqb t) (e_types e) = true) by (apply existsb_exists; exists t; rewrite String.eqb_refl; auto).
        rewrite Ex. eauto. }
    rewrite <- X. destruct (assoc String.eqb t r), (assoc String.eqb t (finish e (fold_left add_tables all []))); cbn in H3; try contradiction;
      split; intros [v Hv]; eauto; discriminate.
Qed.

Lemma extra_label : forall t su db d x, extra_of sob e t su db d = Ok x -> x_det_bands x = band_label db.
Proof.
  intros t su db d x H. unfold extra_of in H.
  repeat match type of H with obind ?a _ = Ok _ => destruct a; [cbn [obind] in H|discriminate] end.
  apply Ok_inj in H. now subst.
Qed.
Lemma row_labels : forall (lab : FR -> string) sb db t su d st r,
  (forall f sb st x, e_fit e f sb st = Ok x -> lab x = band_label sb) ->
  row_of sob e sb db t su d st r -> x_det_bands (r_extra r) = band_label db /\ forall x, In x (r_fits r) -> lab x = band_label sb.
Proof.
  intros lab sb db t su d st r L [F [_ [x [Hx E]]]]. split.
  - destruct E as (_ & _ & _ & _ & _ & _ & _ & _ & _ & _ & _ & _ & E). rewrite E. eapply extra_label; eauto.
  - clear - F L. induction F as [|f y fs ys H F IH]; intros z Hz; [destruct Hz|destruct Hz as [<-|Hz]; eauto].
Qed.
Lemma block_labels : forall (lab : FR -> string) t m sd rows keyf,
  (forall f sb st x, e_fit e f sb st = Ok x -> lab x = band_label sb) ->
  block_of sob e t m sd rows \/ colour_block_of sob e keyf t m sd rows ->
  forall r, In r rows -> x_det_bands (r_extra r) = band_label (snd sd) /\
    forall x, In x (r_fits r) -> lab x = band_label (fst sd).
Proof.
  intros lab t m sd rows keyf L [(cat & seg & kd & su & _ & _ & _ & F)|(cat & seg & keys & parts & _ & _ & F & ->)] r Hr.
  - clear - F Hr L. induction F as [|d r0 cat rows [st [_ H]] F IH]; [destruct Hr|]. destruct Hr as [<-|Hr]; auto.
    eapply row_labels; eauto.
  - apply in_concat in Hr. destruct Hr as [part [Hp Hr]].
    clear - F Hp Hr L. induction F as [|dk p0 l0 rows H F IH]; [destruct Hp|]. destruct Hp as [<-|Hp]; auto.
    destruct H as [kd [_ [[_ ->]|(dict & m & st & su & r0 & _ & _ & _ & _ & H & ->)]]]; [destruct Hr|].
    destruct Hr as [<-|[]]. eapply row_labels; eauto.
Qed.

Lemma Forall2_nth : forall A B (R : A -> B -> Prop) l l' i a, Forall2 R l l' -> nth_error l i = Some a ->
  exists b, nth_error l' i = Some b /\ R a b.
Proof.
  intros A B R l l' i a H. revert i. induction H; intros [|i] Hi; cbn in *; try discriminate.
  - apply Some_inj in Hi. subst. eauto.
  - eauto.
Qed.
Lemma combine_nth_error : forall A B (l : list A) (l' : list B) i a b, nth_error l i = Some a -> nth_error l' i = Some b ->
  nth_error (combine l l') i = Some (a, b).
Proof.
  induction l as [|x l IH]; intros [|y l'] [|i] a b H1 H2; cbn in *; try discriminate.
  - congruence.
  - eauto.
Qed.
Lemma go_all_run : forall h s' r t,
  env_uniform sob e -> metacal_types e -> e_color e = None -> healthy sob e h ->
  go sob e (after sob e h) = (Ok tt, s') -> result_property s' = Ok (Some r) ->
  List.length (e_shear e) = List.length (e_det e) -> In t (e_types e) ->
  exists mcal m blocks, e_metacal e (e_main e) = Ok mcal /\ In (t, m) mcal /\
    List.length blocks = List.length (e_shear e) /\
    (forall i sb db, nth_error (e_shear e) i = Some sb -> nth_error (e_det e) i = Some db ->
       exists block, nth_error blocks i = Some block /\ block_of sob e t m (sb, db) block) /\
    table r t = Some (match List.concat blocks with [] => None | l => Some l end).
Proof.
  intros h s' r t U MT Hc Hh Hg Hr L Ht.
  destruct (go_plain_blocks _ _ _ _ _ sob e U MT h s' r Hc Hh Hg Hr) as [mcal [Hm H]].
  destruct (MT _ _ Hm) as [N T]. apply T in Ht. apply in_map_iff in Ht. destruct Ht as [[t' m] [<- Hin]]. cbn [fst].
  destruct (H t' m Hin) as [blocks [F E]]. exists mcal, m, blocks. split; [exact Hm|]. split; [exact Hin|]. split.
  - rewrite <- (Forall2_len _ _ _ _ _ F), combine_length, <- L. apply Nat.min_id.
  - split; [|exact E]. intros i sb db H1 H2. eapply Forall2_nth; [exact F|]. now apply combine_nth_error.
Qed.

Lemma go_transparent : forall h, env_uniform sob e -> healthy sob e h ->
  match go sob e (after sob e h), go sob e init_state with
  | (Ok _, s1), (Ok _, s2) => exists r1 r2, result_property s1 = Ok r1 /\ result_property s2 = Ok r2 /\ result_eqv r1 r2
  | (Raise x, _), (Raise y, _) => x = y
  | _, _ => False
  end.
Proof.
  intros h U Hh. assert (A := go_sem _ _ _ _ _ sob e U _ (good_after _ _ _ _ _ sob e h Hh)).
  assert (H0 : healthy sob e []) by (intros x []).
  assert (B := go_sem _ _ _ _ _ sob e U _ (good_after _ _ _ _ _ sob e [] H0)). change (after sob e []) with (@init_state O FR) in B.
  destruct (go sob e (after sob e h)) as [[u|x] s1], (go sob e init_state) as [[v|y] s2]; cbn [fst snd] in A, B;
    destruct (pgo O SEG ST FL FR sob e) as [r|z]; try contradiction.
  - destruct A as [r1 [A1 [A2 _]]], B as [r2 [B1 [B2 _]]]. exists r1, r2. repeat split; auto. eapply result_eqv_join; eauto.
  - congruence.
Qed.

Lemma colour_one_row : forall keyf t m sd rows,
  (forall key k mm, obs_of e key = Ok (k, mm) -> e_metacal e mm <> Raise BootPSFFailure) ->
  colour_block_of sob e keyf t m sd rows ->
  exists cat seg keys, detected e m (snd sd) cat seg /\ Forall2 (colour_of e keyf (fst sd) m seg) cat keys /\
    List.length rows = List.length cat /\
    Forall2 (fun dk r => colour_rows sob e (fst sd) (snd sd) t (snd dk) (fst dk) [r]) (combine cat keys) rows.
Proof.
  intros keyf t m sd rows H (cat & seg & keys & parts & D & K & F & ->). exists cat, seg, keys. split; [exact D|]. split; [exact K|].
  assert (X : Forall2 (fun dk r => colour_rows sob e (fst sd) (snd sd) t (snd dk) (fst dk) [r]) (combine cat keys) (List.concat parts)).
  { clear - F H. induction F as [|dk p l parts Hd F IH]; [constructor|]. cbn [List.concat].
    assert (Y := Hd). destruct Y as [kd [Hu [[Hn ->]|(dict & m & st & su & r & _ & _ & _ & _ & _ & ->)]]].
    - exfalso. destruct (uncached_inv _ _ _ _ _ sob e _ _ _ Hu) as (k & m' & f & rr & s & Ho & _ & Hr & _ & ->).
      cbn in Hn. apply Some_inj in Hn. subst rr. apply all_metacal_none in Hr. eapply H; eauto.
    - cbn [app]. constructor; auto. }
  split; [|exact X]. rewrite <- (Forall2_len _ _ _ _ _ X), combine_length, <- (Forall2_len _ _ _ _ _ K). apply Nat.min_id.
Qed.
End More.

Lemma result_eqv_refl : forall FR (r : option (results FR)), result_eqv r r.
Proof.
  intros FR [r|]; [|exact Logic.I]. intros t. destruct (table r t) as [[l|]|]; cbn; auto.
  induction l; constructor; auto. apply row_eqv_refl.
Qed.
Lemma result_eqv_sym : forall FR (a b : option (results FR)), result_eqv a b -> result_eqv b a.
Proof. intros FR a b H. eapply result_eqv_join; [apply result_eqv_refl|exact H]. Qed.

Lemma colour_run_same : forall O SEG ST FL FR (sob : O -> sobs) (e : env O SEG ST FL FR) keyf dep f0 fs s' r,
  env_uniform sob e -> metacal_types e ->
  e_color e = Some (keyf, dep) -> e_fitters e = f0 :: fs -> fi_wavg f0 = true ->
  (forall sb st x, e_fit e f0 sb st = Ok x -> exists fl, e_flux e f0 sb st = Ok fl) ->
  (forall fl, exists key, keyf fl = Ok key /\
     (key = None \/ exists k, key = Some k /\ (dep k = Some SameObject \/ dep k = Some (Other (e_main e))))) ->
  (forall m seg d, e_stamp e m None d = e_stamp e m (Some seg) d) ->
  go sob (without_colour e) init_state = (Ok tt, s') -> result_property s' = Ok r ->
  exists s2 r2, go sob e init_state = (Ok tt, s2) /\ result_property s2 = Ok r2 /\ result_eqv r2 r.
Proof.
  intros O SEG ST FL FR sob e keyf dep f0 fs s' r U MT Hc Hf Hw Hfl Hk Hst Hg Hr.
  assert (U' : env_uniform sob (without_colour e)) by (split; [apply U|]; intros; discriminate).
  assert (H0 : forall e : env O SEG ST FL FR, healthy sob e []) by (intros ? x []).
  assert (A := go_sem _ _ _ _ _ sob _ U' _ (good_after _ _ _ _ _ sob _ [] (H0 _))).
  assert (B := go_sem _ _ _ _ _ sob _ U _ (good_after _ _ _ _ _ sob _ [] (H0 _))).
  change (after sob (without_colour e) []) with (@init_state O FR) in A. change (after sob e []) with (@init_state O FR) in B.
  rewrite Hg in A. cbn [fst snd] in A. destruct (pgo O SEG ST FL FR sob (without_colour e)) as [p|] eqn:Ep; [|contradiction].
  rewrite (pgo_same _ _ _ _ _ sob e keyf dep f0 fs Hc Hf Hw Hfl Hk Hst p MT Ep) in B.
  destruct A as [r1 [A1 [A2 _]]]. rewrite Hr in A1. apply Ok_inj in A1. subst r1.
  destruct (go sob e init_state) as [[[]|] s2]; cbn [fst snd] in B; [|contradiction].
  destruct B as [r2 [B1 [B2 _]]]. exists s2, r2. repeat split; auto. eapply result_eqv_join; eauto.
Qed.
