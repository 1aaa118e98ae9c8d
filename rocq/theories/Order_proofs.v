From Coq Require Import ZArith QArith Qround List String Bool Lia Lqa Permutation.
From Verif Require Import Base Arr Median Flags_model Order_spec.
From Verif Require Detect_model Detect_spec Detect_proofs Summ_model Summ_spec Summ_proofs
  Coadd_model Coadd_spec Coadd_proofs Lexp_model Lexp_spec Lexp_proofs Lmdet_model Lmdet_spec Lmdet_proofs.
Import ListNotations.
Local Open Scope Z_scope.

(** ** Permutations *)
Lemma qsum_map_perm : forall A (f : A -> Q) l l', Permutation l l' -> (qsum (map f l) == qsum (map f l'))%Q.
Proof. intros. apply qsum_perm. now apply Permutation_map. Qed.

Lemma Forall2_perm : forall A B (R : A -> B -> Prop) l l', Permutation l l' -> forall v, Forall2 R l v ->
  exists v', Forall2 R l' v' /\ Permutation v v' /\ Permutation (combine l v) (combine l' v').
Proof.
  intros A B R l l' P. induction P as [|x l l' P IH|x y l|l l' l'' P1 IH1 P2 IH2]; intros v F.
  - inversion F; subst. exists []. repeat constructor.
  - inversion F as [|? b ? v0 H F0]; subst. destruct (IH v0 F0) as (v' & F' & PV & PC). exists (b :: v').
    split; [now constructor|]. split; [now constructor|]. cbn [combine]. now constructor.
  - inversion F as [|? b ? v0 H F0]; subst. inversion F0 as [|? b' ? v1 H' F1]; subst. exists (b' :: b :: v1).
    split; [now repeat constructor|]. split; [apply perm_swap|]. cbn [combine]. apply perm_swap.
  - destruct (IH1 v F) as (v' & F' & PV & PC). destruct (IH2 v' F') as (v'' & F'' & PV' & PC'). exists v''.
    split; [assumption|]. split; eapply Permutation_trans; eassumption.
Qed.

Lemma combine_maps : forall A B C D (f : A -> C) (g : B -> D) l m,
  combine (map f l) (map g m) = map (fun p => (f (fst p), g (snd p))) (combine l m).
Proof. induction l as [|a l IH]; intros [|b m]; cbn; try reflexivity. now rewrite IH. Qed.

Lemma perm_In : forall A (l l' : list A) x, Permutation l l' -> In x l' -> In x l.
Proof. intros A l l' x P H. eapply Permutation_in; [apply Permutation_sym; exact P|exact H]. Qed.

Lemma existsb_perm : forall A (f : A -> bool) l l', Permutation l l' -> existsb f l = existsb f l'.
Proof.
  intros A f l l' P. apply eq_true_iff_eq. rewrite !existsb_exists. split; intros (x & I & E); exists x; split; auto.
  - eapply Permutation_in; eassumption.
  - eapply perm_In; eassumption.
Qed.
Lemma perm_zlen : forall A (l l' : list A), Permutation l l' -> zlen l = zlen l'.
Proof. intros. unfold zlen. f_equal. now apply Permutation_length. Qed.
Lemma perm_filter : forall A (f : A -> bool) l l', Permutation l l' -> Permutation (filter f l) (filter f l').
Proof.
  intros A f l l' P. induction P as [|x l l' P IH|x y l|l l' l'' P1 IH1 P2 IH2]; cbn [filter].
  - constructor.
  - destruct (f x); auto.
  - destruct (f x), (f y); auto. apply perm_swap.
  - eapply Permutation_trans; eassumption.
Qed.

Lemma same_opt_none : forall A (R : A -> A -> Prop), same_opt R None None.
Proof. intros. exact Logic.I. Qed.

(** ** The detection image *)
Lemma detim_order : forall nodet bands bands', Permutation bands bands' -> Detect_spec.same_shape bands ->
  same_opt (fun a b => same_real (fst (fst a)) (fst (fst b)) /\ (snd (fst a) == snd (fst b))%Q /\ same_bool (snd a) (snd b))
    (Detect_model.set_detim nodet bands) (Detect_model.set_detim nodet bands').
Proof.
  intros nodet bands bands' P SH.
  destruct bands as [|b0 l].
  { apply Permutation_nil in P. subst. exact Logic.I. }
  set (bands := b0 :: l) in *. 
  assert (N' : bands' <> []) by (intro; subst bands'; apply Permutation_sym, Permutation_nil in P; discriminate).
  assert (D : (forall b, In b bands -> Detect_spec.usable b) \/ exists b, In b bands /\ ~ Detect_spec.usable b).
  { generalize bands. clear. intro bands. induction bands as [|b l IH]; [left; intros ? []|].
    destruct (Detect_model.positive_weights b) as [|q0 ql] eqn:E.
    - right. exists b. split; [now left|]. intro U. apply Detect_proofs.usable_positive in U. congruence.
    - destruct IH as [IH|(x & I & U)].
      + left. intros x [<-|I]; [apply Detect_proofs.usable_positive; congruence|auto].
      + right. exists x. split; [now right|assumption]. }
  destruct D as [U|(b & I & U)].
  - destruct (Detect_proofs.set_detim_val nodet bands) as (d & m & E & S & V & M); [discriminate|assumption|].
    destruct (Detect_proofs.set_detim_val nodet bands') as (d' & m' & E' & S' & V' & M'); [assumption|intros b I; apply U; eapply perm_In; eassumption|].
    rewrite E, E'. cbn [same_opt fst snd].
    assert (W : (Detect_proofs.detwsum bands == Detect_proofs.detwsum bands')%Q) by now apply qsum_map_perm.
    assert (I0 : In b0 bands) by now left.
    assert (SH' : Detect_spec.same_shape bands') by (intros x y X Y; apply SH; eapply perm_In; eassumption).
    destruct (S b0 I0 SH) as (R1 & R2 & R3 & R4).
    destruct (S' b0 (Permutation_in _ P I0) SH') as (Q1 & Q2 & Q3 & Q4).
    split; [|split; [exact W|]].
    + split; [congruence|]. split; [congruence|]. intros i j. rewrite V, V', W.
      now rewrite (qsum_map_perm _ _ _ _ P).
    + split; [congruence|]. split; [congruence|]. intros i j. apply eq_true_iff_eq. rewrite M, M'.
      split; intros (b & bm & I & X); exists b, bm; split; auto; [eapply Permutation_in; eassumption|eapply perm_In; eassumption].
  - rewrite (Detect_proofs.set_detim_unusable nodet bands b I U).
    now rewrite (Detect_proofs.set_detim_unusable nodet bands' b (Permutation_in _ P I) U).
Qed.

(** ** Metacal images: masked fraction and masks *)
Lemma mfrac_order : forall obs obs', Permutation obs obs' ->
  (forall o o', In o obs -> In o' obs -> nr (Summ_model.so_weight o) = nr (Summ_model.so_weight o') /\ nc (Summ_model.so_weight o) = nc (Summ_model.so_weight o')) ->
  same_outcome same_real (Summ_model.get_mfrac (map (fun o => [o]) obs)) (Summ_model.get_mfrac (map (fun o => [o]) obs')).
Proof.
  intros obs obs' P SH. destruct obs as [|o0 r].
  { apply Permutation_nil in P. subst. reflexivity. }
  destruct obs' as [|o0' r'].
  { apply Permutation_sym, Permutation_nil in P. discriminate. }
  destruct (Summ_proofs.get_mfrac_val (o0 :: r) o0 r eq_refl) as (im & E & R & C & V1 & V0).
  destruct (Summ_proofs.get_mfrac_val (o0' :: r') o0' r' eq_refl) as (im' & E' & R' & C' & V1' & V0').
  rewrite E, E'. cbn [same_outcome].
  assert (W : (qsum (map Summ_model.band_weight (o0 :: r)) == qsum (map Summ_model.band_weight (o0' :: r')))%Q) by now apply qsum_map_perm.
  assert (S : nr (Summ_model.so_weight o0) = nr (Summ_model.so_weight o0') /\ nc (Summ_model.so_weight o0) = nc (Summ_model.so_weight o0')).
  { apply SH; [now left|]. eapply perm_In; [exact P|now left]. }
  destruct S as [S1 S2]. split; [congruence|]. split; [congruence|]. intros i j.
  destruct (Qlt_le_dec 0 (qsum (map Summ_model.band_weight (o0 :: r)))) as [L|L].
  - rewrite V1 by assumption. rewrite V1' by (now rewrite <- W). rewrite W.
    unfold Summ_proofs.msum. now rewrite (qsum_map_perm _ _ _ _ P).
  - rewrite V0 by lra. rewrite V0' by (rewrite <- W; lra). reflexivity.
Qed.

Lemma masks_order : forall obs obs', Permutation obs obs' ->
  (forall o o', In o obs -> In o' obs ->
     nr (Summ_model.so_ormask o) = nr (Summ_model.so_ormask o') /\ nc (Summ_model.so_ormask o) = nc (Summ_model.so_ormask o') /\
     nr (Summ_model.so_bmask o) = nr (Summ_model.so_bmask o') /\ nc (Summ_model.so_bmask o) = nc (Summ_model.so_bmask o')) ->
  same_outcome (fun a b => same_int (fst a) (fst b) /\ same_int (snd a) (snd b))
    (Summ_model.get_ormask_and_bmask (map (fun o => [o]) obs)) (Summ_model.get_ormask_and_bmask (map (fun o => [o]) obs')).
Proof.
  intros obs obs' P SH. destruct obs as [|o0 r].
  { apply Permutation_nil in P. subst. reflexivity. }
  destruct obs' as [|o0' r'].
  { apply Permutation_sym, Permutation_nil in P. discriminate. }
  destruct (Summ_proofs.combined_masks o0 r) as (om & bm & E & R1 & R2 & R3 & R4 & V).
  destruct (Summ_proofs.combined_masks o0' r') as (om' & bm' & E' & R1' & R2' & R3' & R4' & V').
  rewrite E, E'. cbn [same_outcome fst snd].
  destruct (SH o0 o0') as (S1 & S2 & S3 & S4); [now left|eapply perm_In; [exact P|now left]|].
  assert (EX : forall (f : Summ_model.sobs -> Prop), (exists o, In o (o0 :: r) /\ f o) <-> (exists o, In o (o0' :: r') /\ f o)).
  { intro f. split; intros (o & I & F); exists o; split; auto; [eapply Permutation_in; eassumption|eapply perm_In; eassumption]. }
  split; (split; [congruence|]; split; [congruence|]); intros i j; apply Z.bits_inj'; intros n _; apply eq_true_iff_eq;
    destruct (V i j n) as [A B]; destruct (V' i j n) as [A' B']; [rewrite A, A'|rewrite B, B']; apply EX.
Qed.

(** ** The averages of the psf *)
Lemma psf_value_dec : forall o, (exists v, Summ_spec.psf_values o v) \/ (forall s, Summ_model.add_psf s o = Raise KeyError).
Proof.
  intro o. unfold Summ_spec.psf_values, Summ_model.add_psf. destruct (Summ_model.po_result o) as [r|]; [|right; intros [[[a b] c] d]; reflexivity].
  destruct (Summ_model.pr_T r) as [T|] eqn:ET; [|right; intros [[[a b] c] d]; reflexivity].
  destruct (Summ_model.pr_e r) as [g|] eqn:Ee.
  - left. exists (fst g, snd g, T), r, T, g. auto.
  - destruct (Summ_model.pr_g r) as [g|] eqn:Eg; [|right; intros [[[a b] c] d]; reflexivity].
    left. exists (fst g, snd g, T), r, T, g. auto 6.
Qed.
Lemma psf_all_dec : forall l, (exists vals, Forall2 Summ_spec.psf_values l vals) \/
  ((exists o, In o l /\ forall v, ~ Summ_spec.psf_values o v) /\ forall s, ofold Summ_model.add_psf l s = Raise KeyError).
Proof.
  induction l as [|o l IH]; [left; exists []; constructor|].
  destruct (psf_value_dec o) as [[v V]|N].
  - destruct IH as [[vs F]|((o' & I & N) & R)].
    + left. exists (v :: vs). now constructor.
    + right. split; [exists o'; split; [now right|assumption]|]. intro s. cbn [ofold].
      destruct (Summ_proofs.ofold_psf [o] [v] s) as (t & E & _); [now repeat constructor|].
      cbn [ofold] in E. destruct (Summ_model.add_psf s o) as [t'|e] eqn:Ea; cbn [obind] in *; [apply R|discriminate].
  - right. split.
    + exists o. split; [now left|]. intros v V.
      destruct (Summ_proofs.ofold_psf [o] [v] (0, 0, 0, 0)%Q) as (t & E & _); [now repeat constructor|].
      cbn [ofold] in E. rewrite N in E. discriminate.
    + intro s. cbn [ofold]. now rewrite N.
Qed.

Lemma concat_perm : forall A (l l' : list (list A)), Permutation l l' -> Permutation (List.concat l) (List.concat l').
Proof.
  intros A l l' P. induction P as [|x l l' P IH|x y l|l l' l'' P1 IH1 P2 IH2]; cbn [List.concat].
  - constructor.
  - now apply Permutation_app_head.
  - rewrite !app_assoc. apply Permutation_app_tail. apply Permutation_app_comm.
  - eapply Permutation_trans; eassumption.
Qed.

Lemma psf_order : forall mb mb' fl, Permutation mb mb' ->
  same_outcome same_stats (Summ_model.get_psf_stats mb fl) (Summ_model.get_psf_stats mb' fl).
Proof.
  intros mb mb' fl P. apply concat_perm in P. destruct (Z.eq_dec fl 0) as [->|NZ].
  2:{ unfold Summ_model.get_psf_stats. destruct (Z.eqb_spec fl 0); [contradiction|]. cbn [negb same_outcome]. split; [reflexivity|]. split; [exact Logic.I|]. split; exact Logic.I. }
  destruct (psf_all_dec (List.concat mb)) as [[vals F]|((o & I & N) & R)].
  - destruct (Forall2_perm _ _ _ _ _ P _ F) as (vals' & F' & _ & PC).
    destruct (Summ_proofs.psf_stats_ok mb vals F) as (s & E & A & B). destruct (Summ_proofs.psf_stats_ok mb' vals' F') as (s' & E' & A' & B').
    rewrite E, E'. cbn [same_outcome].
    assert (W : (qsum (map Summ_model.po_maxw (List.concat mb)) == qsum (map Summ_model.po_maxw (List.concat mb')))%Q) by now apply qsum_map_perm.
    destruct (Qlt_le_dec 0 (qsum (map Summ_model.po_maxw (List.concat mb)))) as [L|L].
    + destruct (A L) as (g1 & g2 & T & -> & H1 & H2 & H3). destruct A' as (g1' & g2' & T' & -> & H1' & H2' & H3'); [now rewrite <- W|].
      assert (M : forall f : Q * Q * Q -> Q, (Summ_spec.wmean (map Summ_model.po_maxw (List.concat mb)) (map f vals) ==
        Summ_spec.wmean (map Summ_model.po_maxw (List.concat mb')) (map f vals'))%Q).
      { intro f. unfold Summ_spec.wmean. rewrite W, !combine_maps, !map_map. cbn [fst snd].
        rewrite (qsum_map_perm _ (fun x => (Summ_model.po_maxw (fst x) * f (snd x))%Q) _ _ PC). reflexivity. }
      unfold same_stats. cbn [Summ_model.ps_flags Summ_model.ps_g1 Summ_model.ps_g2 Summ_model.ps_T same_opt].
      rewrite H1, H2, H3, H1', H2', H3', !M. repeat split; reflexivity.
    + rewrite B by assumption. rewrite B' by (now rewrite <- W). split; [reflexivity|]. split; [exact Logic.I|]. split; exact Logic.I.
  - destruct (psf_all_dec (List.concat mb')) as [[vals' F']|(_ & R')].
    + exfalso. destruct (Forall2_perm _ _ _ _ _ (Permutation_sym P) _ F') as (vals & F & _).
      clear - I N F. induction F as [|a v l vs V F IH]; [destruct I|]. destruct I as [->|I]; [exact (N v V)|auto].
    + unfold Summ_model.get_psf_stats. cbn [Z.eqb negb]. rewrite R, R'. reflexivity.
Qed.

(** ** The coadd of the shear bands *)
Section Coadds.
Import Coadd_model Coadd_spec Coadd_proofs.

Definition cw (o : fobs) : Q := match qmedian (positive_of (f_weight o)) with Some m => m | None => 0%Q end.
Lemma coadd_weights_map : forall obs ws, coadd_weights obs = Some ws -> ws = map cw obs.
Proof.
  induction obs as [|o obs IH]; intros ws H; cbn [coadd_weights] in H.
  - apply Some_inj in H. now subst.
  - cbn [map]. destruct (qmedian (positive_of (f_weight o))) as [m|] eqn:E; [|discriminate].
    destruct (coadd_weights obs) as [l|]; [|discriminate]. apply Some_inj in H. subst. f_equal; [|now apply IH].
    unfold cw. now rewrite E.
Qed.
Lemma coadd_weights_perm : forall obs obs', Permutation obs obs' ->
  (coadd_weights obs = None /\ coadd_weights obs' = None) \/
  (coadd_weights obs = Some (map cw obs) /\ coadd_weights obs' = Some (map cw obs') /\ (forall o, In o obs -> (0 < cw o)%Q)).
Proof.
  intros obs obs' P.
  destruct (coadd_weights obs) as [ws|] eqn:E, (coadd_weights obs') as [ws'|] eqn:E'.
  - right. rewrite <- (coadd_weights_map _ _ E), <- (coadd_weights_map _ _ E'). split; [reflexivity|]. split; [reflexivity|].
    intros o I. destruct (coadd_weights_ok _ _ E) as [_ W]. apply W. rewrite (coadd_weights_map _ _ E). now apply in_map.
  - exfalso. apply coadd_weights_none in E'. destruct E' as (o & I & N). assert (X : coadd_weights obs = None).
    { apply coadd_weights_none. exists o. split; [eapply perm_In; eassumption|assumption]. } congruence.
  - exfalso. apply coadd_weights_none in E. destruct E as (o & I & N). assert (X : coadd_weights obs' = None).
    { apply coadd_weights_none. exists o. split; [eapply Permutation_in; eassumption|assumption]. } congruence.
  - now left.
Qed.
Lemma combine_normalized : forall obs, combine obs (normalized (map cw obs)) = map (fun o => (o, cw o / qsum (map cw obs))%Q) obs.
Proof. intro obs. unfold normalized. generalize (qsum (map cw obs)). intro q. rewrite map_map. induction obs as [|o l IH]; cbn; [reflexivity|now rewrite IH]. Qed.

Lemma wsum_order : forall get obs obs' sh sh', Permutation obs obs' -> nr sh = nr sh' -> nc sh = nc sh' ->
  same_real (wsum_plane sh get (combine obs (normalized (map cw obs)))) (wsum_plane sh' get (combine obs' (normalized (map cw obs')))).
Proof.
  intros get obs obs' sh sh' P R C.
  destruct (wsum_plane_val get (combine obs (normalized (map cw obs))) sh) as (R1 & C1 & V1).
  destruct (wsum_plane_val get (combine obs' (normalized (map cw obs'))) sh') as (R2 & C2 & V2).
  split; [congruence|]. split; [congruence|]. intros i j. rewrite V1, V2, !combine_normalized, !map_map. cbn [fst snd].
  assert (W : (qsum (map cw obs) == qsum (map cw obs'))%Q) by now apply qsum_map_perm.
  rewrite (qsum_map_perm _ _ _ _ P). apply qsum_map_ext. intros o _. now rewrite W.
Qed.
Lemma or_order : forall get obs obs' sh sh', Permutation obs obs' -> nr sh = nr sh' -> nc sh = nc sh' ->
  same_int (or_plane sh get obs) (or_plane sh' get obs').
Proof.
  intros get obs obs' sh sh' P R C. destruct (or_plane_val get obs sh) as (R1 & C1 & V1). destruct (or_plane_val get obs' sh') as (R2 & C2 & V2).
  split; [congruence|]. split; [congruence|]. intros i j. apply Z.bits_inj'. intros n _. apply eq_true_iff_eq. rewrite V1, V2.
  split; intros (o & p & I & X); exists o, p; split; auto; [eapply Permutation_in; eassumption|eapply perm_In; eassumption].
Qed.
Lemma count_order : forall A (get : fobs -> option A) obs obs', Permutation obs obs' -> count_plane get obs = count_plane get obs'.
Proof. intros A get obs obs' P. unfold count_plane. apply perm_zlen. now apply perm_filter. Qed.

Lemma fold_var_none : forall l, fold_left add_var l None = None.
Proof. induction l as [|x l IH]; cbn; auto. Qed.
Lemma fold_var_zero : forall l a, existsb (fun x => Qeq_bool (fst x) 0) l = true -> fold_left add_var l (Some a) = None.
Proof.
  induction l as [|x l IH]; intros a H; cbn [existsb] in H; [discriminate|]. cbn [fold_left]. unfold add_var at 2.
  destruct (Qeq_bool (fst x) 0); [apply fold_var_none|]. now apply IH.
Qed.
Lemma fold_var_sum : forall l a, existsb (fun x => Qeq_bool (fst x) 0) l = false ->
  exists v, fold_left add_var l (Some a) = Some v /\ (v == a + qsum (map (fun x => snd x * snd x / fst x) l))%Q.
Proof.
  induction l as [|x l IH]; intros a H; cbn [existsb] in H; [exists a; split; [reflexivity|cbn; ring]|].
  cbn [fold_left]. unfold add_var at 2. destruct (Qeq_bool (fst x) 0); [discriminate|].
  destruct (IH (a + snd x * snd x / fst x)%Q H) as (v & E & V). exists v. split; [exact E|]. rewrite V.
  cbn [map qsum fold_right]. fold (qsum (map (fun x => snd x * snd x / fst x)%Q l)). ring.
Qed.
Lemma existsb_map : forall A B (f : A -> B) p l, existsb p (map f l) = existsb (fun x => p (f x)) l.
Proof. induction l as [|a l IH]; cbn; [reflexivity|now rewrite IH]. Qed.
Lemma weight_order : forall obs obs' sh sh', Permutation obs obs' -> nr sh = nr sh' -> nc sh = nc sh' ->
  same_real (coadd_weight sh (combine obs (normalized (map cw obs)))) (coadd_weight sh' (combine obs' (normalized (map cw obs')))).
Proof.
  intros obs obs' sh sh' P R C. split; [exact R|]. split; [exact C|]. intros i j. unfold coadd_weight. cbn [px].
  rewrite !combine_normalized, !map_map. cbn [fst snd].
  assert (W : (qsum (map cw obs) == qsum (map cw obs'))%Q) by now apply qsum_map_perm.
  set (l := map (fun o => (px (f_weight o) i j, cw o / qsum (map cw obs))%Q) obs).
  set (l' := map (fun o => (px (f_weight o) i j, cw o / qsum (map cw obs'))%Q) obs').
  assert (Z : existsb (fun x => Qeq_bool (fst x) 0) l = existsb (fun x => Qeq_bool (fst x) 0) l').
  { unfold l, l'. rewrite !existsb_map. cbn [fst]. now apply existsb_perm. }
  destruct (existsb (fun x => Qeq_bool (fst x) 0) l') eqn:E.
  - rewrite !fold_var_zero by assumption. reflexivity.
  - destruct (fold_var_sum l 0%Q Z) as (v & -> & V). destruct (fold_var_sum l' 0%Q E) as (v' & -> & V'). cbn [inv_var].
    assert (VV : (v == v')%Q).
    { rewrite V, V'. unfold l, l'. rewrite !map_map. cbn [fst snd]. rewrite (qsum_map_perm _ _ _ _ P).
      rewrite (qsum_map_ext _ _ (fun o => cw o / qsum (map cw obs') * (cw o / qsum (map cw obs')) / px (f_weight o) i j)%Q obs').
      - reflexivity.
      - intros o _. now rewrite W. }
    destruct (Qeq_bool v 0) eqn:E1, (Qeq_bool v' 0) eqn:E2; try reflexivity.
    + apply Qeq_bool_iff in E1. apply Qeq_bool_neq in E2. lra.
    + apply Qeq_bool_iff in E2. apply Qeq_bool_neq in E1. lra.
    + now rewrite VV.
Qed.
Lemma all_pixels_order : forall a b, same_real a b ->
  all_pixels (fun w => Qeq_bool w 0) a = all_pixels (fun w => Qeq_bool w 0) b.
Proof.
  intros a b (R & C & V). apply eq_true_iff_eq. rewrite !all_pixels_spec. unfold inside. rewrite R, C.
  split; intros H i j I; specialize (H i j I); apply Qeq_bool_iff in H; apply Qeq_bool_iff; rewrite <- H; [symmetry|]; apply V.
Qed.
Lemma squares_order : forall a b, same_real a b ->
  (qsum (map (fun v => v * v) (pixels a)) == qsum (map (fun v => v * v) (pixels b)))%Q.
Proof.
  intros a b (R & C & V). unfold pixels. rewrite R, C, !map_map. apply qsum_map_ext. intros [i j] _. cbn [fst snd]. now rewrite V.
Qed.

Lemma coadd_many_order : forall obs obs' fo fo' fp fp', Permutation obs obs' ->
  nr (f_image fo) = nr (f_image fo') -> nc (f_image fo) = nc (f_image fo') ->
  nr (f_weight fo) = nr (f_weight fo') -> nc (f_weight fo) = nc (f_weight fo') ->
  nr (p_image fp) = nr (p_image fp') -> nc (p_image fp) = nc (p_image fp') ->
  f_jac fo = f_jac fo' -> p_jac fp = p_jac fp' ->
  same_coadd (coadd_many obs fo fp) (coadd_many obs' fo' fp').
Proof.
  intros obs obs' fo fo' fp fp' P R C RW CW RP CP J JP. unfold coadd_many.
  destruct (coadd_weights_perm obs obs' P) as [[-> ->]|(-> & -> & POS)]; [split; [reflexivity|exact Logic.I]|].
  pose proof (weight_order obs obs' _ _ P RW CW) as SW. pose proof (wsum_order psf_image_of obs obs' _ _ P RP CP) as SP.
  rewrite (all_pixels_order _ _ SW). destruct (all_pixels _ _); [split; [reflexivity|exact Logic.I]|].
  rewrite (count_order _ f_mfrac _ _ P), (count_order _ f_noise _ _ P), (count_order _ f_bmask _ _ P), (count_order _ f_ormask _ _ P), (perm_zlen _ _ _ P).
  destruct (negb _); [split; [reflexivity|exact Logic.I]|]. split; [reflexivity|].
  cbn [same_opt fst]. unfold same_obs. cbn [f_image f_weight f_jac f_psf f_mfrac f_noise f_bmask f_ormask].
  split; [now apply wsum_order|]. split; [exact SW|]. split; [exact J|]. split.
  { cbn [same_opt]. unfold same_psf. cbn [p_image p_weight p_jac]. split; [exact SP|]. split; [|exact JP].
    pose proof (squares_order _ _ SP) as SQ. destruct SP as (A & B & V). split; [exact A|]. split; [exact B|]. intros i j. cbn [imap px]. now rewrite SQ. }
  split; [destruct (0 <? _); [now apply wsum_order|exact Logic.I]|].
  split; [destruct (0 <? _); [now apply wsum_order|exact Logic.I]|].
  split; [destruct (0 <? _); [now apply or_order|exact Logic.I]|].
  destruct (0 <? _); [now apply or_order|exact Logic.I].
Qed.

Lemma same_array_refl : forall A (R : A -> A -> Prop), (forall a, R a a) -> forall im, same_array R im im.
Proof. intros A R H im. split; [reflexivity|]. split; [reflexivity|]. intros. apply H. Qed.
Lemma same_opt_refl : forall A (R : A -> A -> Prop), (forall a, R a a) -> forall o, same_opt R o o.
Proof. intros A R H [a|]; cbn; auto. Qed.
Lemma same_real_refl : forall im, same_real im im.
Proof. apply same_array_refl. reflexivity. Qed.
Lemma same_int_refl : forall im, same_int im im.
Proof. apply same_array_refl. reflexivity. Qed.
Lemma same_obs_refl : forall o, same_obs o o.
Proof.
  intro o. repeat split; try apply same_real_refl; try apply same_opt_refl; intros; try apply same_real_refl; try apply same_int_refl.
  repeat split; apply same_real_refl.
Qed.

Lemma compatible_sym : forall a b, compatible a b -> compatible b a.
Proof. intros a b (J & R & C & p & q & Ep & Eq & JP & RP & CP). repeat split; auto. exists q, p. repeat split; auto. Qed.
Lemma compatible_trans : forall a b c, compatible a b -> compatible b c -> compatible a c.
Proof.
  intros a b c (J & R & C & p & q & Ep & Eq & JP & RP & CP) (J' & R' & C' & q' & r & Eq' & Er & JP' & RP' & CP').
  assert (q' = q) by congruence. subst q'. repeat split; try congruence. exists p, r. repeat split; congruence.
Qed.

Lemma coadd_order : forall mb sb sb' obs, Permutation sb sb' -> sb_valid mb sb obs ->
  (forall o, In o obs -> nr (f_weight o) = nr (f_image o) /\ nc (f_weight o) = nc (f_image o)) ->
  same_outcome same_coadd (make_coadd_obs mb sb) (make_coadd_obs mb sb').
Proof.
  intros mb sb sb' obs P V SH. destruct (Forall2_perm _ _ _ _ _ P _ V) as (obs' & V' & PO & _). fold (sb_valid mb sb' obs') in V'.
  destruct sb as [|s0 sb].
  { apply Permutation_nil in P. subst. unfold make_coadd_obs. destruct (zlen mb =? 1); reflexivity. }
  destruct sb' as [|s0' sb'].
  { apply Permutation_sym, Permutation_nil in P. discriminate. }
  inversion V as [|? o0 ? r (B0 & H0) V0]; subst. inversion V' as [|? o0' ? r' (B0' & H0') V0']; subst.
  destruct (Z.eq_dec (zlen mb) 1) as [E1|N1].
  { rewrite E1 in B0, B0'. assert (s0 = 0) by lia. assert (s0' = 0) by lia. subst s0 s0'. unfold make_coadd_obs. rewrite E1. cbn [Z.eqb Pos.eqb].
    unfold py_index, zlen at 1 3. cbn [List.length]. destruct (Z.ltb_spec 0 (Z.of_nat (S (List.length sb)))); [|lia].
    destruct (Z.ltb_spec 0 (Z.of_nat (S (List.length sb')))); [|lia]. cbn [Z.ltb Z.compare Z.leb andb Z.to_nat nth_error obind Z.eqb].
    destruct (band_obs mb 0) as [o|e]; cbn [obind same_outcome]; [|reflexivity]. split; [reflexivity|]. apply same_obs_refl. }
  destruct sb as [|s1 sb].
  { apply Permutation_length_1_inv in P. injection P as -> ->. destruct (make_coadd_obs mb [s0]) as [[[o|] fl]|e]; cbn [same_outcome same_coadd];
    [split; [reflexivity|apply same_obs_refl]|split; [reflexivity|exact Logic.I]|reflexivity]. }
  destruct sb' as [|s1' sb'].
  { apply Permutation_length in P. discriminate. }
  inversion V0 as [|? o1 ? r1 _ _]; subst. inversion V0' as [|? o1' ? r1' _ _]; subst.
  destruct (coadd_many_bands mb s0 s1 sb o0 o1 r1 N1 V) as [A B].
  destruct (coadd_many_bands mb s0' s1' sb' o0' o1' r1' N1 V') as [A' B'].
  assert (K : forall (x x1 y y1 : fobs) (l m : list fobs), Permutation (x :: x1 :: l) (y :: y1 :: m) ->
    (forall o, In o (x1 :: l) -> compatible x o) -> forall o, In o (y1 :: m) -> compatible y o).
  { clear. intros x x1 y y1 l m P H o I.
    assert (X : compatible x x).
    { eapply compatible_trans; [|apply compatible_sym]; apply H; now left. }
    assert (H' : forall o, In o (x :: x1 :: l) -> compatible x o) by (intros z [<-|Z]; auto).
    eapply compatible_trans; [apply compatible_sym|]; apply H'; eapply perm_In; try exact P; [now left|now right]. }
  assert (D : (forall o, In o (o1 :: r1) -> compatible o0 o) \/ ~ (forall o, In o (o1 :: r1) -> compatible o0 o)).
  { generalize (o1 :: r1). clear. intro l. induction l as [|o l [IH|IH]].
    - left. intros o [].
    - destruct (consistent o0 o) eqn:E.
      + left. intros x [<-|I]; [now apply consistent_iff|auto].
      + right. intro H. assert (X : consistent o0 o = true) by (apply consistent_iff, H; now left). congruence.
    - right. intro H. apply IH. intros; apply H; now right. }
  destruct D as [D|D].
  - assert (D' : forall o, In o (o1' :: r1') -> compatible o0' o) by (eapply K; eassumption).
    destruct (B D) as (fp & Ep & ->). destruct (B' D') as (fp' & Ep' & ->). cbn [same_outcome].
    assert (CC : compatible o0 o0').
    { assert (I : In o0' (o0 :: o1 :: r1)) by (eapply perm_In; [exact PO|now left]). destruct I as [<-|I]; [|auto].
      eapply compatible_trans; [|apply compatible_sym]; apply D; now left. }
    destruct CC as (J & R & C & p & q & Eq1 & Eq2 & JP & RP & CP).
    assert (p = fp) by congruence. assert (q = fp') by congruence. subst p q.
    destruct (SH o0) as [W1 W2]; [now left|]. destruct (SH o0') as [W1' W2']; [eapply perm_In; [exact PO|now left]|].
    apply coadd_many_order; auto; congruence.
  - assert (D' : ~ (forall o, In o (o1' :: r1') -> compatible o0' o)).
    { intro H. apply D. eapply K; [apply Permutation_sym; exact PO|exact H]. }
    rewrite (A D), (A' D'). split; [reflexivity|exact Logic.I].
Qed.
End Coadds.

(** ** Coadds of exposures and of observations (lsst) *)
Section Exposures.
Import Lexp_model Lexp_spec Lexp_proofs.

Lemma same_size_sym : forall A B (a : img A) (b : img B), same_size a b = same_size b a.
Proof. intros. unfold same_size. now rewrite (Z.eqb_sym (nr a)), (Z.eqb_sym (nc a)). Qed.
Lemma same_size_iff : forall A B (a : img A) (b : img B), same_size a b = true <-> nr a = nr b /\ nc a = nc b.
Proof. intros. unfold same_size. now rewrite andb_true_iff, !Z.eqb_eq. Qed.
(** All sizes equal those of the first: the same for every order. *)
Lemma sizes_order : forall E (f g : E -> img Q) e0 r e0' r', Permutation (e0 :: r) (e0' :: r') ->
  forallb (fun e => same_size (f e) (f e0) && same_size (g e) (g e0)) (e0 :: r) =
  forallb (fun e => same_size (f e) (f e0') && same_size (g e) (g e0')) (e0' :: r').
Proof.
  assert (K : forall E (f g : E -> img Q) e0 r e0' r', Permutation (e0 :: r) (e0' :: r') ->
    forallb (fun e => same_size (f e) (f e0) && same_size (g e) (g e0)) (e0 :: r) = true ->
    forallb (fun e => same_size (f e) (f e0') && same_size (g e) (g e0')) (e0' :: r') = true).
  { intros E f g e0 r e0' r' P H. rewrite forallb_forall in *.
    assert (H0 : forall e, In e (e0 :: r) -> (nr (f e) = nr (f e0) /\ nc (f e) = nc (f e0)) /\ nr (g e) = nr (g e0) /\ nc (g e) = nc (g e0)).
    { intros e I. specialize (H e I). rewrite andb_true_iff, !same_size_iff in H. exact H. }
    intros e I. rewrite andb_true_iff, !same_size_iff.
    destruct (H0 e) as [[A B] [C D]]; [eapply perm_In; eassumption|].
    destruct (H0 e0') as [[A' B'] [C' D']]; [eapply perm_In; [exact P|now left]|]. repeat split; congruence. }
  intros. apply eq_true_iff_eq. split; eapply K; [eassumption|apply Permutation_sym; eassumption].
Qed.

Definition pc (e : exposure) : img Q :=
  match e_psf e with Some draw => draw ((inject_Z (nc (e_image e)) - 1) / 2)%Q ((inject_Z (nr (e_image e)) - 1) / 2)%Q | None => ifill 0 0 0%Q end.
Lemma psf_pc : forall e, e_psf e <> None -> psf_at_center e = Ok (pc e).
Proof. intros e H. unfold psf_at_center, pc. destruct (e_psf e); [reflexivity|contradiction]. Qed.
Lemma omap_sizes : forall (e0 : exposure) (p0 : img Q) l, (forall e, In e l -> e_psf e <> None) ->
  omap (fun e => do p <- psf_at_center e; if same_size (e_image e) (e_image e0) && same_size p p0 then Ok p else Raise ValueError) l =
  if forallb (fun e => same_size (e_image e) (e_image e0) && same_size (pc e) p0) l then Ok (map pc l) else Raise ValueError.
Proof.
  intros e0 p0. induction l as [|e l IH]; intro H; [reflexivity|]. cbn [omap forallb map]. rewrite psf_pc by (apply H; now left). cbn [obind].
  destruct (same_size (e_image e) (e_image e0) && same_size (pc e) p0); [|reflexivity]. cbn [obind andb].
  rewrite IH by (intros; apply H; now right). destruct (forallb _ l); reflexivity.
Qed.

Lemma combine_map2 : forall A B C (f : A -> B) (g : A -> C) l, combine (map f l) (map g l) = map (fun a => (f a, g a)) l.
Proof. induction l as [|a l IH]; cbn; [reflexivity|now rewrite IH]. Qed.
Lemma pixels_sum_order : forall a b, same_real a b -> (qsum (pixels a) == qsum (pixels b))%Q.
Proof. intros a b (R & C & V). unfold pixels. rewrite R, C. apply qsum_map_ext. intros [i j] _. apply V. Qed.
Lemma normalize_order : forall a b, same_real a b -> same_real (normalize a) (normalize b).
Proof.
  intros a b S. pose proof (pixels_sum_order a b S) as Q. destruct S as (R & C & V). split; [exact R|]. split; [exact C|].
  intros i j. unfold normalize. cbn [imap px]. now rewrite V, Q.
Qed.
Lemma num_order : forall (f g : Q -> Q) (isnan : bool) a b, same_real a b -> (forall x y, (x == y)%Q -> (f x == g y)%Q) ->
  same_nan (imap (fun v => if isnan then None else Some (f v)) a) (imap (fun v => if isnan then None else Some (g v)) b).
Proof.
  intros f g isnan a b (R & C & V) H. split; [exact R|]. split; [exact C|]. intros i j. cbn [imap px].
  destruct isnan; cbn [same_opt]; [exact Logic.I|]. apply H, V.
Qed.
Lemma sum_psf_order : forall A (p : A -> img Q) (w : A -> Q) l l' r c r' c', Permutation l l' -> r = r' -> c = c' ->
  same_real (sum_psf (map (fun a => (p a, w a)) l) r c) (sum_psf (map (fun a => (p a, w a)) l') r' c').
Proof.
  intros A p w l l' r c r' c' P -> ->. destruct (sum_psf_size (map (fun a => (p a, w a)) l) r' c') as [R C].
  destruct (sum_psf_size (map (fun a => (p a, w a)) l') r' c') as [R' C']. split; [congruence|]. split; [congruence|].
  intros i j. rewrite !sum_psf_px, !map_map. cbn [fst snd]. now apply qsum_map_perm.
Qed.
Lemma sum_weight_size : forall es r c, nr (sum_weight es r c) = r /\ nc (sum_weight es r c) = c.
Proof.
  intros es r c. unfold sum_weight.
  assert (G : forall acc, nr acc = r /\ nc acc = c -> let im := fold_left (fun acc e => mkImg r c (fun i j => if vpos (px (e_var e) i j) then (px acc i j + vinv (px (e_var e) i j))%Q else px acc i j)) es acc in nr im = r /\ nc im = c).
  { induction es as [|e es IH]; intros acc A; cbn; [auto|]. apply IH. auto. }
  apply G. auto.
Qed.
Lemma Qle_bool_proper : forall a b, (a == b)%Q -> Qle_bool a 0 = Qle_bool b 0.
Proof. intros a b H. apply eq_true_iff_eq. rewrite !Qle_bool_iff. now rewrite H. Qed.
Lemma or_masks_size : forall es m, nr (or_masks es m) = nr m /\ nc (or_masks es m) = nc m.
Proof.
  unfold or_masks. induction es as [|e es IH]; intro m; cbn [fold_left]; [auto|]. destruct (IH (imap2 Z.lor m (e_mask e))) as [A B]. rewrite A, B. auto.
Qed.

Lemma exposures_order : forall es es', Permutation es es' -> (forall e, In e es -> e_psf e <> None) ->
  (forall e, In e es -> nr (e_mask e) = nr (e_image e) /\ nc (e_mask e) = nc (e_image e)) ->
  same_outcome (same_opt same_pixels) (coadd_exposures es) (coadd_exposures es').
Proof.
  intros es es' P H SM. destruct es as [|e0 r].
  { apply Permutation_nil in P. subst. reflexivity. }
  destruct es' as [|e0' r'].
  { apply Permutation_sym, Permutation_nil in P. discriminate. }
  assert (H' : forall e, In e (e0' :: r') -> e_psf e <> None) by (intros e I; apply H; eapply perm_In; eassumption).
  unfold coadd_exposures. rewrite (psf_pc e0) by (apply H; now left). rewrite (psf_pc e0') by (apply H'; now left). cbn [obind].
  rewrite (omap_sizes e0 (pc e0) (e0 :: r) H), (omap_sizes e0' (pc e0') (e0' :: r') H').
  rewrite (sizes_order _ e_image pc _ _ _ _ P).
  destruct (forallb _ (e0' :: r')) eqn:SZ; [|reflexivity]. cbn [obind].
  assert (W : (qsum (map bw (e0 :: r)) == qsum (map bw (e0' :: r')))%Q) by now apply qsum_map_perm.
  rewrite (existsb_perm _ (fun e => match band_weight e with None => true | _ => false end) _ _ P).
  set (isnan := existsb _ (e0' :: r')). rewrite (Qle_bool_proper _ _ W).
  destruct (negb isnan && Qle_bool (qsum (map bw (e0' :: r'))) 0); [exact Logic.I|]. cbn [same_outcome same_opt].
  assert (S0 : (nr (e_image e0) = nr (e_image e0') /\ nc (e_image e0) = nc (e_image e0')) /\ nr (pc e0) = nr (pc e0') /\ nc (pc e0) = nc (pc e0')).
  { rewrite forallb_forall in SZ. assert (I : In e0 (e0' :: r')) by (eapply Permutation_in; [exact P|now left]). specialize (SZ e0 I).
    rewrite andb_true_iff, !same_size_iff in SZ. exact SZ. }
  destruct S0 as [[R C] [RP CP]]. unfold same_pixels. cbn [c_image c_var c_mask c_psf].
  split; [|split; [|split]].
  - apply num_order; [|intros x y E; now rewrite E, W].
    destruct (sum_image_size (e0 :: r) (nr (e_image e0)) (nc (e_image e0))) as [A B]. destruct (sum_image_size (e0' :: r') (nr (e_image e0')) (nc (e_image e0'))) as [A' B'].
    split; [congruence|]. split; [congruence|]. intros i j. rewrite !sum_image_px. now apply qsum_map_perm.
  - destruct (sum_weight_size (e0 :: r) (nr (e_image e0)) (nc (e_image e0))) as [A B]. destruct (sum_weight_size (e0' :: r') (nr (e_image e0')) (nc (e_image e0'))) as [A' B'].
    split; [cbn [imap nr]; congruence|]. split; [cbn [imap nc]; congruence|]. intros i j. cbn [imap px].
    assert (V : (px (sum_weight (e0 :: r) (nr (e_image e0)) (nc (e_image e0))) i j == px (sum_weight (e0' :: r') (nr (e_image e0')) (nc (e_image e0'))) i j)%Q).
    { rewrite !sum_weight_px. now apply qsum_map_perm. }
    rewrite (Qle_bool_proper _ _ V). destruct (negb _); [|exact Logic.I]. cbn [same_opt]. now rewrite V.
  - destruct (or_masks_size (e0 :: r) (e_mask e0)) as [A B]. destruct (or_masks_size (e0' :: r') (e_mask e0')) as [A' B'].
    destruct (SM e0) as [M1 M2]; [now left|]. destruct (SM e0') as [M1' M2']; [eapply perm_In; [exact P|now left]|].
    split; [congruence|]. split; [congruence|]. intros i j. apply Z.bits_inj'. intros n _. rewrite !or_masks_px.
    rewrite (existsb_perm _ _ _ _ P). assert (I0 : In e0 (e0' :: r')) by (eapply Permutation_in; [exact P|now left]).
    assert (T : forall e, In e (e0' :: r') -> Z.testbit (px (e_mask e) i j) n || existsb (fun e => Z.testbit (px (e_mask e) i j) n) (e0' :: r') = existsb (fun e => Z.testbit (px (e_mask e) i j) n) (e0' :: r')).
    { intros e I. destruct (Z.testbit (px (e_mask e) i j) n) eqn:E; [|reflexivity]. symmetry. cbn [orb]. apply existsb_exists. now exists e. }
    rewrite (T e0 I0). symmetry. apply T. now left.
  - rewrite !combine_map2. apply (num_order (fun v => v) (fun v => v)); [|auto]. apply normalize_order. now apply sum_psf_order.
Qed.

Lemma mbobs_order : forall os os', Permutation os os' ->
  same_outcome same_coaddobs (coadd_mbobs os) (coadd_mbobs os').
Proof.
  intros os os' P. destruct os as [|o0 r].
  { apply Permutation_nil in P. subst. reflexivity. }
  destruct os' as [|o0' r'].
  { apply Permutation_sym, Permutation_nil in P. discriminate. }
  unfold coadd_mbobs. rewrite (sizes_order _ o_image (fun o => op_image (o_psf o)) _ _ _ _ P).
  destruct (forallb _ (o0' :: r')) eqn:SZ; [|reflexivity]. cbn [negb].
  assert (W : (qsum (map obs_w (o0 :: r)) == qsum (map obs_w (o0' :: r')))%Q) by now apply qsum_map_perm.
  rewrite (existsb_perm _ (fun o => match obs_weight o with None => true | _ => false end) _ _ P).
  set (isnan := existsb _ (o0' :: r')). cbn [same_outcome]. unfold same_coaddobs. cbn [co_image co_weight co_psf].
  assert (S0 : (nr (o_image o0) = nr (o_image o0') /\ nc (o_image o0) = nc (o_image o0')) /\ nr (op_image (o_psf o0)) = nr (op_image (o_psf o0')) /\ nc (op_image (o_psf o0)) = nc (op_image (o_psf o0'))).
  { rewrite forallb_forall in SZ. assert (I : In o0 (o0' :: r')) by (eapply Permutation_in; [exact P|now left]). specialize (SZ o0 I).
    rewrite andb_true_iff, !same_size_iff in SZ. exact SZ. }
  destruct S0 as [[R C] [RP CP]].
  assert (G : forall (f : lobs -> img Q) (h : lobs -> Q -> Q -> Q) (t : lobs -> Q -> Q), (forall o a v, (h o a v == a + t o v)%Q) ->
    forall l acc, nr (fold_left (fun acc o => imap2 (h o) acc (f o)) l acc) = nr acc /\ nc (fold_left (fun acc o => imap2 (h o) acc (f o)) l acc) = nc acc /\
    forall i j, (px (fold_left (fun acc o => imap2 (h o) acc (f o)) l acc) i j == px acc i j + qsum (map (fun o => t o (px (f o) i j)) l))%Q).
  { intros f h t Hh. induction l as [|o l IH]; intro acc; cbn [fold_left map qsum fold_right].
    - repeat split. intros. ring.
    - destruct (IH (imap2 (h o) acc (f o))) as (A & B & V). split; [exact A|]. split; [exact B|]. intros i j. rewrite V. cbn [imap2 px].
      rewrite Hh. fold (qsum (map (fun o => t o (px (f o) i j)) l)). ring. }
  assert (G' : forall (f : lobs -> img Q) (h : lobs -> Q -> Q -> Q) (t : lobs -> Q -> Q), (forall o a v, (h o a v == a + t o v)%Q) ->
    same_real (fold_left (fun acc o => imap2 (h o) acc (f o)) (o0 :: r) (ifill (nr (o_image o0)) (nc (o_image o0)) 0%Q))
              (fold_left (fun acc o => imap2 (h o) acc (f o)) (o0' :: r') (ifill (nr (o_image o0')) (nc (o_image o0')) 0%Q))).
  { intros f h t Hh. destruct (G f h t Hh (o0 :: r) (ifill (nr (o_image o0)) (nc (o_image o0)) 0%Q)) as (A & B & V).
    destruct (G f h t Hh (o0' :: r') (ifill (nr (o_image o0')) (nc (o_image o0')) 0%Q)) as (A' & B' & V'). cbn [ifill nr nc px] in *.
    split; [congruence|]. split; [congruence|]. intros i j. rewrite V, V'. now rewrite (qsum_map_perm _ _ _ _ P). }
  split; [|split].
  - apply num_order; [|intros x y E; now rewrite E, W]. apply (G' o_image (fun o a v => (a + v * obs_w o)%Q) (fun o v => (v * obs_w o)%Q)). reflexivity.
  - apply (G' o_weight (fun _ => Qplus) (fun _ v => v)). reflexivity.
  - apply (num_order (fun v => v) (fun v => v)); [|auto]. apply normalize_order. now apply sum_psf_order.
Qed.
End Exposures.

(** ** The masks and masked fractions of the lsst task *)
Section Task.
Import Lmdet_model Lmdet_spec Lmdet_proofs.

Lemma ofold_or_ok : forall l m, Forall (fun x => nr x = nr m /\ nc x = nc m) l -> exists om, ofold or_into l m = Ok om.
Proof.
  induction l as [|x l IH]; intros m F; cbn [ofold]; [eauto|]. inversion F as [|? ? [A B] F']; subst. unfold or_into at 1.
  rewrite A, B, !Z.eqb_refl. cbn [andb obind]. apply IH. exact F'.
Qed.
Lemma ofold_or_err : forall l m e, ofold or_into l m = Raise e -> e = ValueError.
Proof.
  induction l as [|x l IH]; intros m e H; cbn [ofold] in H; [discriminate|]. unfold or_into at 1 in H.
  destruct (_ && _); cbn [obind] in H; [eauto|]. now inversion H.
Qed.
Lemma ormasks_order : forall dims ms ms', Permutation ms ms' ->
  same_outcome same_int (combine_ormasks dims (Some ms)) (combine_ormasks dims (Some ms')).
Proof.
  intros dims ms ms' P. destruct ms as [|m r].
  { apply Permutation_nil in P. subst. reflexivity. }
  destruct ms' as [|m' r'].
  { apply Permutation_sym, Permutation_nil in P. discriminate. }
  assert (K : forall m r m' r' om, Permutation (m :: r) (m' :: r') -> ofold or_into r m = Ok om -> exists om', ofold or_into r' m' = Ok om').
  { clear. intros m r m' r' om P H. destruct (ofold_or _ _ _ H) as (_ & _ & F & _). rewrite Forall_forall in F.
    assert (A : forall x, In x (m :: r) -> nr x = nr m /\ nc x = nc m) by (intros x [<-|I]; auto).
    apply ofold_or_ok. apply Forall_forall. intros x I. destruct (A x) as [A1 A2]; [eapply perm_In; [exact P|now right]|].
    destruct (A m') as [B1 B2]; [eapply perm_In; [exact P|now left]|]. split; congruence. }
  cbn [combine_ormasks]. destruct (ofold or_into r m) as [om|e] eqn:E.
  - destruct (K _ _ _ _ _ P E) as [om' E']. rewrite E'. cbn [same_outcome].
    destruct (ofold_or _ _ _ E) as (R & C & F & V). destruct (ofold_or _ _ _ E') as (R' & C' & F' & V').
    assert (A : nr m' = nr m /\ nc m' = nc m).
    { rewrite Forall_forall in F. assert (I : In m' (m :: r)) by (eapply perm_In; [exact P|now left]). destruct I as [<-|I]; auto. }
    destruct A as [A1 A2]. split; [congruence|]. split; [congruence|]. intros i j. apply Z.bits_inj'. intros n N. apply eq_true_iff_eq.
    rewrite V, V' by assumption.
    assert (X : forall m r, (Z.testbit (px m i j) n = true \/ (exists x, In x r /\ Z.testbit (px x i j) n = true)) <->
      exists x, In x (m :: r) /\ Z.testbit (px x i j) n = true).
    { clear. intros m r. split.
      - intros [H|(x & I & H)]; [exists m|exists x]; split; auto; [now left|now right].
      - intros (x & [<-|I] & H); [now left|right; eauto]. }
    rewrite !X. split; intros (x & I & H); exists x; split; auto; [eapply Permutation_in; eassumption|eapply perm_In; eassumption].
  - destruct (ofold or_into r' m') as [om'|e'] eqn:E'.
    + destruct (K _ _ _ _ _ (Permutation_sym P) E') as [om X]. congruence.
    + cbn. apply ofold_or_err in E, E'. congruence.
Qed.

Lemma sum_mfracs_err : forall l acc e, sum_mfracs l acc = Raise e -> e = ValueError.
Proof.
  induction l as [|[v m] l IH]; intros acc e H; cbn [sum_mfracs] in H; [discriminate|].
  unfold band_wgt at 1 in H. destruct (qmedian (good_vars v)); cbn [obind] in H; [|now inversion H].
  destruct acc as [a|].
  - unfold add_img in H. destruct (_ && _); cbn [obind] in H; [|now inversion H].
    destruct (sum_mfracs l _) as [[? ?]|e0] eqn:E; cbn [obind] in H; [discriminate|]. inversion H; subst. eauto.
  - cbn [obind] in H. destruct (sum_mfracs l _) as [[? ?]|e0] eqn:E; cbn [obind] in H; [discriminate|]. inversion H; subst. eauto.
Qed.
Lemma sum_mfracs_some : forall l acc o ws, sum_mfracs l acc = Ok (o, ws) -> l <> [] \/ acc <> None -> o <> None.
Proof.
  induction l as [|[v m] l IH]; intros acc o ws H N; cbn [sum_mfracs] in H.
  - apply Ok_inj in H. apply pair_equal_spec in H. destruct H as [-> _]. destruct N; auto.
  - destruct (band_wgt v) as [w|]; cbn [obind] in H; [|discriminate].
    destruct (match acc with None => Ok (scale w m) | Some a0 => add_img a0 (scale w m) end) as [b|]; cbn [obind] in H; [|discriminate].
    destruct (sum_mfracs l (Some b)) as [[a' ws']|] eqn:Es; cbn [obind fst snd] in H; [|discriminate].
    apply Ok_inj in H. apply pair_equal_spec in H. destruct H as [-> <-]. eapply IH; [exact Es|]. right. discriminate.
Qed.
Definition wv (v : img (option Q)) : Q := match band_wgt v with Ok w => w | Raise _ => 0%Q end.
Lemma sum_mfracs_ok : forall l acc, (forall x, In x l -> exists w, band_wgt (fst x) = Ok w) ->
  (forall a x, acc = Some a -> In x l -> nr (snd x) = nr a /\ nc (snd x) = nc a) ->
  (forall x y, In x l -> In y l -> nr (snd x) = nr (snd y) /\ nc (snd x) = nc (snd y)) ->
  exists o ws, sum_mfracs l acc = Ok (o, ws).
Proof.
  induction l as [|[v m] l IH]; intros acc W A S; cbn [sum_mfracs]; [eauto|].
  destruct (W (v, m) (or_introl eq_refl)) as [w Ew]. cbn [fst] in Ew. rewrite Ew. cbn [obind].
  assert (B : exists b, match acc with None => Ok (scale w m) | Some a0 => add_img a0 (scale w m) end = Ok b /\ nr b = nr m /\ nc b = nc m).
  { destruct acc as [a|]; [|exists (scale w m); auto]. destruct (A a (v, m) eq_refl (or_introl eq_refl)) as [A1 A2]. cbn [snd] in A1, A2.
    unfold add_img. cbn [scale imap nr nc]. rewrite A1, A2, !Z.eqb_refl. cbn [andb]. eexists. split; [reflexivity|]. cbn [imap2 nr nc]. auto. }
  destruct B as (b & -> & B1 & B2). cbn [obind]. destruct (IH (Some b)) as (o & ws & ->).
  - intros x I. apply W. now right.
  - intros a x E I. apply Some_inj in E. subst a. rewrite B1, B2. apply (S x (v, m)); [now right|now left].
  - intros x y I J. apply S; now right.
  - cbn [obind]. eauto.
Qed.
Lemma wpairs_map : forall l ws, Forall2 (fun vm w => band_wgt (fst vm) = Ok w) l ws ->
  ws = map (fun vm => wv (fst vm)) l /\ wpairs l ws = map (fun vm => (wv (fst vm), snd vm)) l.
Proof.
  intros l ws F. induction F as [|x w l ws H F [IH1 IH2]]; [split; reflexivity|]. unfold wpairs in *. cbn [map combine].
  assert (E : wv (fst x) = w) by (unfold wv; now rewrite H). rewrite E, IH2, <- IH1. split; reflexivity.
Qed.

Lemma mfracs_order : forall l l' : list (img (option Q) * img Q), Permutation l l' ->
  same_outcome (fun a b => same_real (fst a) (fst b) /\ Permutation (snd a) (snd b))
    (get_mfrac_mbexp (map fst l) (Some (map snd l))) (get_mfrac_mbexp (map fst l') (Some (map snd l'))).
Proof.
  intros l l' P.
  assert (CS : forall l : list (img (option Q) * img Q), combine (map fst l) (map snd l) = l).
  { clear. induction l as [|[a b] l IH]; cbn; [reflexivity|now rewrite IH]. }
  unfold get_mfrac_mbexp. rewrite !CS.
  assert (K : forall l l' o ws, Permutation l l' -> sum_mfracs l None = Ok (o, ws) -> exists o' ws', sum_mfracs l' None = Ok (o', ws')).
  { clear. intros l l' o ws P H. destruct l as [|x l].
    { apply Permutation_nil in P. subst. eauto. }
    destruct o as [a|]; [|exfalso; eapply sum_mfracs_some; [exact H|left; discriminate|reflexivity]].
    destruct (sum_mfracs_spec _ _ _ _ H) as (_ & F & _ & M & _). apply sum_mfracs_ok.
    - intros y I. assert (J : In y (x :: l)) by (eapply perm_In; eassumption). clear - F J. revert F J. generalize (x :: l). intros k F J.
      induction F as [|z w k vs E F IH]; [destruct J|]. destruct J as [->|J]; eauto.
    - discriminate.
    - intros y z I J. destruct (M (snd y)) as [A1 A2]; [apply in_map; eapply perm_In; eassumption|].
      destruct (M (snd z)) as [B1 B2]; [apply in_map; eapply perm_In; eassumption|]. split; congruence. }
  destruct (sum_mfracs l None) as [[o ws]|e] eqn:E.
  - destruct (K _ _ _ _ P E) as (o' & ws' & E'). rewrite E'. cbn [obind fst snd]. destruct l as [|x l].
    { apply Permutation_nil in P. subst. cbn in E, E'. apply Ok_inj in E, E'. apply pair_equal_spec in E, E'. destruct E as [<- _], E' as [<- _]. reflexivity. }
    destruct o as [a|]; [|exfalso; eapply sum_mfracs_some; [exact E|left; discriminate|reflexivity]].
    destruct l' as [|x' l']; [apply Permutation_sym, Permutation_nil in P; discriminate|].
    destruct o' as [a'|]; [|exfalso; eapply sum_mfracs_some; [exact E'|left; discriminate|reflexivity]].
    destruct (sum_mfracs_spec _ _ _ _ E) as (_ & F & _ & M & V). destruct (sum_mfracs_spec _ _ _ _ E') as (_ & F' & _ & M' & V').
    destruct (wpairs_map _ _ F) as [-> WP]. destruct (wpairs_map _ _ F') as [-> WP']. cbn [same_outcome fst snd].
    split; [|now apply Permutation_map].
    destruct (M (snd x)) as [A1 A2]; [now left|]. destruct (M' (snd x)) as [B1 B2]; [apply in_map; eapply Permutation_in; [exact P|now left]|].
    split; [cbn [imap nr]; congruence|]. split; [cbn [imap nc]; congruence|]. intros i j. cbn [imap px].
    rewrite V, V', WP, WP', !map_map. cbn [fst snd]. rewrite !(qsum_map_perm _ _ _ _ P). reflexivity.
  - destruct (sum_mfracs l' None) as [[o' ws']|e'] eqn:E'.
    + destruct (K _ _ _ _ (Permutation_sym P) E') as (o & ws & X). congruence.
    + cbn [obind same_outcome]. apply sum_mfracs_err in E, E'. congruence.
Qed.
End Task.
