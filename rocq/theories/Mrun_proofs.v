(** Proofs for C88 and C89. *)
From Coq Require Import ZArith QArith Qabs Qminmax List String Ascii Bool Lia Lqa DecimalString.
From Verif Require Import Base Arr Median Flags_model Detect_model Detect_spec Detect_proofs Summ_model Coadd_model
  Summ_spec Summ_proofs Coadd_spec Wavg_model Wavg_spec Wavg_proofs Joint_model Joint_spec Joint_proofs
  Conf_model Mdet_model Mdet_spec Mdet_proofs Mcol_spec Mcol_proofs Mrun_model Mrun_spec.
Import ListNotations.
Local Open Scope string_scope.
Local Open Scope Z_scope.

Lemma py_index_0 : forall A (a : A) l, py_index (a :: l) 0 = Ok a.
Proof.
  intros A a l. unfold py_index, zlen. cbn [List.length]. rewrite Nat2Z.inj_succ.
  destruct (0 <? 0) eqn:E0; [discriminate|].
  replace (0 <=? 0) with true by reflexivity. replace (0 <? Z.succ (Z.of_nat (List.length l))) with true by (symmetry; apply Z.ltb_lt; lia).
  reflexivity.
Qed.
Lemma F2_weaken : forall A B (R S : A -> B -> Prop), (forall a b, R a b -> S a b) -> forall l l', Forall2 R l l' -> Forall2 S l l'.
Proof. intros A B R S H l l' F. induction F; constructor; auto. Qed.
Lemma F2_by_nth : forall A B (R : A -> B -> Prop) l l', List.length l = List.length l' ->
  (forall i a b, nth_error l i = Some a -> nth_error l' i = Some b -> R a b) -> Forall2 R l l'.
Proof.
  induction l as [|a l IH]; destruct l' as [|b l']; cbn [List.length]; intros E H; try discriminate; constructor.
  - exact (H O a b eq_refl eq_refl).
  - apply IH; [congruence|]. intros i. exact (H (S i)).
Qed.

(** ** Fits and prefixes *)
Lemma fit_fitted : forall x c f sb st r, fit x c f sb st = Ok r <-> fitted x c f sb st r.
Proof.
  intros x c f sb st r. unfold fit, fitted. cbv zeta.
  change (match st_bmask_flags c with Some n => n | None => 0 end) with (bmask_flags c).
  change (Wavg_model.mkFitter (fi_base f) (tp_go x f) (tp_go_psf x f)) with (kernel x f).
  destruct (fi_wavg f).
  { split; [intros H; left; auto|]. intros [[_ H]|[[H _]|[H _]]]; [exact H|discriminate|discriminate]. }
  destruct (String.eqb_spec (fi_base f) "am") as [E1|E1]; cbn [orb].
  { split; [intros H; right; left; auto|]. intros [[H _]|[[_ [_ H]]|[_ [H _]]]]; [discriminate|exact H|congruence]. }
  destruct (String.eqb_spec (fi_base f) "admom") as [E2|E2]; cbn [orb].
  { split; [intros H; right; left; auto|]. intros [[H _]|[[_ [_ H]]|[_ [H _]]]]; [discriminate|exact H|congruence]. }
  destruct (String.eqb_spec (fi_base f) "gauss") as [E3|E3].
  { split; [intros H; right; right; auto|]. intros [[H _]|[[_ [[H|H] _]]|[_ [_ H]]]]; [discriminate|congruence|congruence|exact H]. }
  split; [discriminate|]. intros [[H _]|[[_ [[H|H] _]]|[_ [H _]]]]; [discriminate|congruence|congruence|congruence].
Qed.
Lemma fits_measured : forall x c fs sb st rs, Forall2 (fun f r => fit x c f sb st = Ok r) fs rs <-> measured x c fs sb st rs.
Proof.
  intros x c fs sb st rs. unfold measured. split; (intros F; induction F; constructor; [now apply fit_fitted|assumption]).
Qed.

Lemma nearest_unique : forall a n m, (Qabs (a - inject_Z n) <= 1 # 2)%Q -> (Qabs (a - inject_Z m) <= 1 # 2)%Q ->
  ((Qabs (a - inject_Z n) == 1 # 2)%Q -> Z.even n = true) -> ((Qabs (a - inject_Z m) == 1 # 2)%Q -> Z.even m = true) -> n = m.
Proof.
  assert (G : forall a n m, n < m -> (Qabs (a - inject_Z n) <= 1 # 2)%Q -> (Qabs (a - inject_Z m) <= 1 # 2)%Q ->
    ((Qabs (a - inject_Z n) == 1 # 2)%Q -> Z.even n = true) -> ((Qabs (a - inject_Z m) == 1 # 2)%Q -> Z.even m = true) -> False).
  { intros a n m L H1 H2 H3 H4. apply Qabs_Qle_condition in H1. apply Qabs_Qle_condition in H2.
    destruct H1 as [A1 A2], H2 as [B1 B2].
    assert (K : (inject_Z n + 1 <= inject_Z m)%Q).
    { change 1%Q with (inject_Z 1). rewrite <- inject_Z_plus, <- Zle_Qle. lia. }
    assert (E1 : (a - inject_Z n == 1 # 2)%Q) by lra. assert (E2 : (a - inject_Z m == - (1 # 2))%Q) by lra.
    assert (M : m = n + 1).
    { assert (M : (inject_Z m == inject_Z (n + 1))%Q) by (rewrite inject_Z_plus; change (inject_Z 1) with 1%Q; lra). unfold Qeq in M. cbn in M. lia. }
    assert (X : Z.even n = true) by (apply H3; rewrite E1; reflexivity).
    assert (Y : Z.even m = true) by (apply H4; rewrite E2; reflexivity).
    subst m. rewrite Z.even_add, X in Y. discriminate Y. }
  intros a n m H1 H2 H3 H4. destruct (Z.lt_trichotomy n m) as [L|[E|L]]; [|exact E|]; exfalso; eapply G; eauto.
Qed.
Lemma cents_qrint : forall q n, 0 <= n -> cents q n -> n = Z.abs (qrint (q * 100)).
Proof.
  intros q n Hn [H1 H2]. pose proof (qrint_half (q * 100)) as [A1 A2]. pose proof (qrint_even (q * 100)) as E.
  set (m := qrint (q * 100)) in *. clearbody m.
  assert (P : (0 <= q)%Q -> n = m).
  { intros Hq. pose proof (Qabs_pos q Hq) as Hp. apply (nearest_unique (100 * Qabs q)); [exact H1| |exact H2|].
    - apply Qabs_Qle_condition. rewrite Hp. split; lra.
    - intros T. apply E. rewrite <- T. apply Qabs_wd. rewrite Hp. lra. }
  assert (M : (q <= 0)%Q -> n = - m).
  { intros Hq. pose proof (Qabs_neg q Hq) as Hp. apply (nearest_unique (100 * Qabs q)); [exact H1| |exact H2|].
    - apply Qabs_Qle_condition. rewrite Hp, inject_Z_opp. split; lra.
    - intros T. rewrite Z.even_opp. apply E. rewrite <- T. rewrite <- (Qabs_opp (q * 100 - inject_Z m)). apply Qabs_wd.
      rewrite Hp, inject_Z_opp. lra. }
  destruct (Qlt_le_dec q 0) as [Hq|Hq]; [specialize (M (Qlt_le_weak _ _ Hq)); lia|specialize (P Hq); lia].
Qed.
Lemma digit_text : forall z, 0 <= z <= 9 -> int_str z = decimal_digit z.
Proof. exact int_str_digit. Qed.
Lemma number_text_ok : forall q s, number_text q s -> s = two_decimals q.
Proof.
  intros q s (n & whole & Hn & Hc & Hw & Hs). apply cents_qrint in Hc; [|exact Hn]. unfold two_decimals. cbv zeta. rewrite <- Hc.
  pose proof (Z.mod_pos_bound (n / 10) 10 eq_refl). pose proof (Z.mod_pos_bound n 10 eq_refl).
  rewrite (digit_text (n / 10 mod 10)), (digit_text (n mod 10)) by lia.
  change (int_str (n / 100)) with (NilZero.string_of_int (Z.to_int (n / 100))). rewrite <- Hw.
  destruct Hs as [[Hq ->]|[Hq ->]].
  - apply Qle_bool_iff in Hq. rewrite Hq. reflexivity.
  - destruct (Qle_bool 0 q) eqn:E; [apply Qle_bool_iff in E; exfalso; lra|reflexivity].
Qed.
Lemma prefix_colname : forall f p, prefix f p -> p = colname f.
Proof.
  intros f p [[E ->]|[[E [Es ->]]|[E (q & text & Es & Ht & ->)]]]; unfold colname.
  - rewrite E. reflexivity.
  - rewrite (proj2 (String.eqb_neq _ _) E), Es. reflexivity.
  - rewrite (proj2 (String.eqb_neq _ _) E), Es, <- (number_text_ok _ _ Ht). reflexivity.
Qed.

(** ** PSF fits *)
Lemma qmax_of_in : forall l, l <> [] -> In (qmax_of l) l /\ forall v, In v l -> (v <= qmax_of l)%Q.
Proof.
  intros [|a l] H; [congruence|]. clear H. cbn [qmax_of].
  assert (G : forall l a, (In (fold_left Qmax l a) (a :: l)) /\ (a <= fold_left Qmax l a)%Q /\ forall v, In v l -> (v <= fold_left Qmax l a)%Q).
  { clear. induction l as [|b l IH]; intros a; cbn [fold_left].
    - split; [left; reflexivity|]. split; [apply Qle_refl|]. intros v [].
    - destruct (IH (Qmax a b)) as (H1 & H2 & H3).
      assert (M : Qmax a b = a \/ Qmax a b = b).
      { unfold Qmax, GenericMinMax.gmax. destruct (a ?= b)%Q; auto. }
      split; [|split; [|]].
      + destruct H1 as [H1|H1]; [|right; right; exact H1].
        rewrite <- H1. destruct M as [M|M]; rewrite M; [left; reflexivity|right; left; reflexivity].
      + exact (Qle_trans _ _ _ (Q.le_max_l a b) H2).
      + intros v [<-|Hv]; [exact (Qle_trans _ _ _ (Q.le_max_r a b) H2)|exact (H3 v Hv)]. }
  destruct (G l a) as (H1 & H2 & H3). split; [exact H1|]. intros v [<-|Hv]; [exact H2|exact (H3 v Hv)].
Qed.
Lemma in_pixels : forall A (im : img A) v, In v (pixels im) <-> exists i j, inside im i j /\ px im i j = v.
Proof.
  intros A im v. unfold pixels. rewrite in_map_iff. split.
  - intros ([i j] & E & H). apply in_coords in H. exists i, j. split; [exact H|exact E].
  - intros (i & j & H & E). exists (i, j). split; [exact E|]. apply in_coords. exact H.
Qed.
Lemma qmax_largest : forall im, 0 < nr im -> 0 < nc im -> largest im (qmax_of (pixels im)).
Proof.
  intros im Hr Hc. assert (N : pixels im <> []).
  { assert (K : In (px im 0 0) (pixels im)) by (apply in_pixels; exists 0, 0; split; [unfold inside; lia|reflexivity]).
    intros E. rewrite E in K. destruct K. }
  destruct (qmax_of_in _ N) as [H1 H2]. split.
  - apply in_pixels in H1. exact H1.
  - intros i j Hij. apply H2. apply in_pixels. exists i, j. split; [exact Hij|reflexivity].
Qed.
Lemma psf_fit_bands : forall x obs, 
  (exists l, psf_fit x (map (fun o => [o]) obs) = (l, Raise BootPSFFailure) /\ exists o, In o obs /\ pr_flags (tp_psf x o) <> 0) \/
  ((forall o, In o obs -> pr_flags (tp_psf x o) = 0) /\
   psf_fit x (map (fun o => [o]) obs) =
     (map (fun o => [mkPobs (qmax_of (pixels (ob_weight o))) (Some (tp_psf x o))]) obs, Ok tt)).
Proof.
  intros x obs. unfold psf_fit, fit_all_psfs.
  set (fit := fun k => match nth_error (map (fun o => [o]) obs) k with Some (o :: _) => tp_psf x o | _ => Summ_model.mkPsfres 0 None None None end).
  assert (G : forall post k, (forall i o, nth_error post i = Some o -> fit (k + i)%nat = tp_psf x o) ->
    (exists l, fit_all_psfs_from fit k (map (map pobs_of) (map (fun o => [o]) post)) = (l, Raise BootPSFFailure) /\
       exists o, In o post /\ pr_flags (tp_psf x o) <> 0) \/
    ((forall o, In o post -> pr_flags (tp_psf x o) = 0) /\
     fit_all_psfs_from fit k (map (map pobs_of) (map (fun o => [o]) post)) =
      (map (fun o => [mkPobs (qmax_of (pixels (ob_weight o))) (Some (tp_psf x o))]) post, Ok tt))).
  { induction post as [|o post IH]; intros k Hk.
    - right. split; [intros o []|reflexivity].
    - assert (E0 : fit k = tp_psf x o) by (rewrite <- (Hk O o eq_refl); f_equal; lia).
      cbn [map fit_all_psfs_from]. rewrite E0. destruct (Z.eqb_spec (pr_flags (tp_psf x o)) 0) as [Ez|Ez]; cbn [negb].
      + destruct (IH (S k)) as [(l & E & o' & Hin & Hf)|[Hall E]].
        { intros i o' Hi. rewrite <- (Hk (S i) o' Hi). f_equal. lia. }
        * left. rewrite E. eexists. split; [reflexivity|]. exists o'. split; [right; exact Hin|exact Hf].
        * right. split; [intros o' [<-|Hin]; [exact Ez|exact (Hall o' Hin)]|]. rewrite E. reflexivity.
      + left. eexists. split; [reflexivity|]. exists o. split; [left; reflexivity|exact Ez]. }
  apply (G obs O). intros i o Hi. cbn [Nat.add]. unfold fit. rewrite (map_nth_error _ _ _ Hi). reflexivity.
Qed.
Lemma py_index_map : forall A B (f : A -> B) l i, py_index (map f l) i = match py_index l i with Ok a => Ok (f a) | Raise e => Raise e end.
Proof.
  intros A B f l i. unfold py_index, zlen. rewrite map_length. cbv zeta. destruct (_ && _); [|reflexivity].
  rewrite nth_error_map. destruct (nth_error l _); reflexivity.
Qed.
Lemma psf_means_ok : forall x c md main color m sb os s R C, has_shape m R C -> bands_at m sb os ->
  psf_column (environment x c md main color) m sb s -> psf_means x m os s.
Proof.
  intros x c md main color m sb os s R C (HR & HC & Hm) Hb Hp.
  assert (Em : exists obs, m = map (fun o => [o]) obs).
  { clear - Hm. induction m as [|ol m IH]; [exists []; reflexivity|]. destruct IH as [obs ->]; [intros ol' H; apply Hm; right; exact H|].
    destruct (Hm ol (or_introl eq_refl)) as (o & -> & _). exists (o :: obs). reflexivity. }
  destruct Em as [obs Em].
  assert (Hin : forall o, In [o] m <-> In o obs).
  { intros o. rewrite Em. rewrite in_map_iff. split; [intros (o' & E & H); injection E as <-; exact H|]. intros H. exists o. auto. }
  unfold psf_column in Hp. change (e_psf_fit (environment x c md main color) m) with (psf_fit x m) in Hp.
  rewrite Em in Hp. destruct (psf_fit_bands x obs) as [(l & E & o & Ho & Hf)|[Hall E]]; rewrite E in Hp; cbn [fst snd] in Hp.
  - left. destruct Hp as [[_ ->]|[Hx _]]; [|discriminate]. split; [|reflexivity]. exists o. split; [apply Hin; exact Ho|exact Hf].
  - right. split; [intros o Ho; apply Hall, Hin; exact Ho|].
    destruct Hp as [[Hx _]|(_ & psel & s' & F & Hs & Hss)]; [discriminate|].
    assert (P : psel = map (fun o => [mkPobs (qmax_of (pixels (ob_weight o))) (Some (tp_psf x o))]) os).
    { clear - F Hb Em. revert psel F. induction Hb as [|b o sb os H Hb IH]; intros psel F; inversion F as [|? p ? psel' Hp F']; subst; [reflexivity|].
      cbn [map]. f_equal; [|apply IH; exact F'].
      rewrite py_index_map in Hp, H. destruct (py_index obs b) as [o'|]; [|discriminate].
      apply Ok_inj in H. injection H as <-. apply Ok_inj in Hp. symmetry. exact Hp. }
    assert (L : List.concat psel = map (fun o => mkPobs (qmax_of (pixels (ob_weight o))) (Some (tp_psf x o))) os).
    { rewrite P. clear. induction os as [|o os IH]; [reflexivity|]. cbn [map List.concat app]. f_equal. exact IH. }
    assert (V : exists vals, Forall2 psf_values (List.concat psel) vals /\
       Forall2 (fun o v => exists T g, pr_T (tp_psf x o) = Some T /\
       (pr_e (tp_psf x o) = Some g \/ (pr_e (tp_psf x o) = None /\ pr_g (tp_psf x o) = Some g)) /\ v = (fst g, snd g, T)) os vals).
    { assert (K : forall o, In o (List.concat psel) ->
        ~ (po_result o = None \/ exists r, po_result o = Some r /\ (pr_T r = None \/ (pr_e r = None /\ pr_g r = None)))).
      { intros o Ho Hbad. rewrite (psf_stats_keyerror _ _ Ho Hbad) in Hs. discriminate. }
      rewrite L in K |- *. clear - K. induction os as [|o os IH]; [exists []; split; constructor|].
      destruct IH as (vals & V1 & V2); [intros o' Ho'; apply K; right; exact Ho'|].
      specialize (K _ (or_introl eq_refl)). cbn [po_result] in K.
      destruct (pr_T (tp_psf x o)) as [T|] eqn:ET; [|exfalso; apply K; right; eexists; split; [reflexivity|left; exact ET]].
      assert (G : exists g, pr_e (tp_psf x o) = Some g \/ (pr_e (tp_psf x o) = None /\ pr_g (tp_psf x o) = Some g)).
      { destruct (pr_e (tp_psf x o)) as [g|] eqn:Ee; [exists g; auto|]. destruct (pr_g (tp_psf x o)) as [g|] eqn:Eg; [exists g; auto|].
        exfalso. apply K. right. eexists. split; [reflexivity|right; split; [exact Ee|exact Eg]]. }
      destruct G as [g G]. exists ((fst g, snd g, T) :: vals). cbn [map]. split; constructor; auto.
      - exists (tp_psf x o), T, g. cbn [po_result]. auto.
      - exists T, g. auto. }
    destruct V as (vals & V1 & V2). exists (map (fun o => qmax_of (pixels (ob_weight o))) os), vals.
    assert (Hos : forall o, In o os -> In [o] m).
    { clear - Hb. induction Hb as [|b o sb os H Hb IH]; [intros o []|]. intros o' [<-|Ho]; [exact (py_index_in _ _ _ _ H)|exact (IH o' Ho)]. }
    split; [|split; [exact V2|]].
    { clear - Hos Hm HR HC. induction os as [|o os IH]; [constructor|]. cbn [map]. constructor; [|apply IH; intros o' Ho; apply Hos; right; exact Ho].
      destruct (Hm [o] (Hos o (or_introl eq_refl))) as (o' & Eo & _ & _ & W1 & W2 & _). injection Eo as <-. apply qmax_largest; lia. }
    destruct (psf_stats_ok _ _ V1) as (s0 & E0 & S1 & S2). assert (s0 = s') by congruence. subst s0.
    rewrite L, map_map in S1, S2. cbn [po_maxw] in S1, S2. destruct Hss as (F1 & F2 & F3 & F4). split.
    + intros Hw. destruct (S1 Hw) as (g1 & g2 & T & -> & M1 & M2 & M3). cbn [Summ_model.ps_flags Summ_model.ps_g1 Summ_model.ps_g2 Summ_model.ps_T] in F1, F2, F3, F4.
      destruct s as [sf s1 s2 sT]. cbn [Summ_model.ps_flags Summ_model.ps_g1 Summ_model.ps_g2 Summ_model.ps_T] in F1, F2, F3, F4. subst sf.
      destruct s1 as [q1|]; [|contradiction]. destruct s2 as [q2|]; [|contradiction]. destruct sT as [qT|]; [|contradiction].
      cbn in F2, F3, F4. exists q1, q2, qT. split; [reflexivity|]. rewrite F2, F3, F4. auto.
    + intros Hw. rewrite (S2 Hw) in F1, F2, F3, F4. destruct s as [sf s1 s2 sT]. cbn [Summ_model.ps_flags Summ_model.ps_g1 Summ_model.ps_g2 Summ_model.ps_T] in F1, F2, F3, F4. subst sf.
      destruct s1; [contradiction|]. destruct s2; [contradiction|]. destruct sT; [contradiction|]. reflexivity.
Qed.

Section Proofs.
Variables (x : third) (c : settings) (R C : Z).

(** ** Detection *)
Lemma bands_sel : forall m db sel, has_shape m R C -> Forall2 (fun b y => py_index m b = Ok y) db sel ->
  exists obs, sel = map (fun o => [o]) obs /\ bands_at m db obs /\ forall o, In o obs -> In [o] m.
Proof.
  intros m db sel (_ & _ & Hm) F. induction F as [|b y db sel H F IH].
  - exists []. repeat split; [constructor|]. intros o [].
  - destruct IH as (obs & -> & B & I). pose proof (py_index_in _ _ _ _ H) as Hin. destruct (Hm y Hin) as (o & -> & _).
    exists (o :: obs). split; [reflexivity|]. split; [constructor; assumption|]. intros o' [<-|Ho]; auto.
Qed.

Lemma omap_bands : forall os, omap (fun ol => do o <- py_index ol 0; Ok (band_of o)) (map (fun o : obs => [o]) os) = Ok (map band_of os).
Proof.
  induction os as [|o os IH]; [reflexivity|]. cbn [map omap]. rewrite py_index_0. cbn [obind]. rewrite IH. reflexivity.
Qed.

Lemma usable_dec : forall os : list obs, (forall o, In o os -> usable (det_band o)) \/ (exists o, In o os /\ ~ usable (det_band o)).
Proof.
  induction os as [|o os IH]; [left; intros o []|].
  destruct (positive_weights (det_band o)) as [|w l] eqn:E.
  - right. exists o. split; [left; reflexivity|]. rewrite usable_positive. congruence.
  - destruct IH as [IH|(o' & H & N)]; [left|right; exists o'; split; [right; exact H|exact N]].
    intros o' [<-|H]; [|auto]. rewrite usable_positive. congruence.
Qed.

Lemma Forall2_combine_box : forall A B D (f : A * B -> D) (P : A -> B -> Prop) l l', Forall2 P l l' ->
  Forall2 (fun a d => exists b, P a b /\ d = f (a, b)) l (map f (combine l l')).
Proof. intros A B D f P l l' F. induction F; cbn [combine map]; constructor; eauto. Qed.

(** Positions of detections are inside of every image of [m]. *)
Definition in_images (no : Z * detobj) : Prop := pos_in R C (d_y (snd no)) (d_x (snd no)).

Lemma detect_found : forall nodet m db sel cat seg, has_shape m R C -> boxes_ok (st_meds c) -> sep_ok x ->
  Forall2 (fun b y => py_index m b = Ok y) db sel -> detect x c nodet sel = Ok (cat, seg) ->
  exists objs, found x nodet m db objs seg /\ Forall in_images objs /\
    Forall2 (fun no d => exists b, (stamp_size x (st_meds c) (snd no) b /\ 2 <= b) /\
               d = mkDetc (d_x (snd no)) (d_y (snd no)) b (fst no)) objs cat.
Proof.
  intros nodet m db sel cat seg Hm Hb Hsep F H.
  destruct (bands_sel m db sel Hm F) as (obs & -> & B & I). unfold detect in H.
  destruct obs as [|o0 obs]; [discriminate|]. cbn [map] in H. cbn [List.length Nat.eqb negb] in H.
  change ([o0] :: map (fun o => [o]) obs) with (map (fun o : Mrun_model.obs => [o]) (o0 :: obs)) in H.
  rewrite omap_bands in H. cbn [obind] in H.
  destruct (tp_sep x (set_detim nodet (map band_of (o0 :: obs)))) as [[objs sg]|] eqn:Es; [|discriminate].
  cbn [obind fst snd] in H.
  destruct (get_box_sizes (tp_fwhm_fac x) (st_meds c) (map snd objs)) as [boxes|] eqn:Eb; [|discriminate].
  cbn [obind] in H. apply Ok_inj, pair_equal_spec in H. destruct H as [<- <-].
  assert (Hb' : 0 < min_box_size (st_meds c) <= max_box_size (st_meds c)) by (unfold boxes_ok in Hb; lia).
  destruct (get_box_sizes_ok _ _ _ _ Hb' Eb) as [Hl Hs].
  exists objs. split; [|split].
  - exists (o0 :: obs). split; [exact B|]. split; [discriminate|].
    destruct (usable_dec (o0 :: obs)) as [U|(o & Ho & N)].
    + right. split; [exact U|].
      destruct (set_detim_spec nodet (map band_of (o0 :: obs))) as (detim & w & mask & ws & E & M1 & _ & M2 & M3 & M4).
      { discriminate. }
      { intros b Hin. apply in_map_iff in Hin. destruct Hin as (o & <- & Ho). exact (U o Ho). }
      rewrite E in Es. exists detim, w, mask, ws. split; [exact Es|]. split; [exact M1|]. split; [exact M2|].
      split; [exact M3|]. split.
      * intros o Ho. refine ((fun X => conj (proj1 X) (proj1 (proj2 X))) (set_detim_shape nodet (map band_of (o0 :: obs)) detim w mask (band_of o) _ _ E)).
        -- destruct Hm as (_ & _ & Hm). intros b b' Hi Hi'. apply in_map_iff in Hi. apply in_map_iff in Hi'.
           destruct Hi as (o1 & <- & H1). destruct Hi' as (o2 & <- & H2).
           destruct (Hm _ (I o1 H1)) as (o1' & E1 & D1 & D2 & _). destruct (Hm _ (I o2 H2)) as (o2' & E2 & D1' & D2' & _).
           injection E1 as <-. injection E2 as <-. cbn [b_image band_of]. split; congruence.
        -- apply in_map. exact Ho.
      * intros i j. rewrite M4. split.
        -- intros (b & bm & Hi & Eb' & Hz). apply in_map_iff in Hi. destruct Hi as (o & <- & Ho). cbn [b_bmask band_of] in Eb'.
           apply Some_inj in Eb'. subst bm. exists o. auto.
        -- intros (o & Ho & Hz). exists (band_of o), (ob_bmask o). split; [apply in_map; exact Ho|]. split; [reflexivity|exact Hz].
    + left. split; [exists o; auto|]. rewrite (set_detim_unusable nodet _ (band_of o)) in Es; [exact Es| |exact N].
      apply in_map. exact Ho.
  - apply Forall_forall. intros [n d] Hd. unfold in_images. cbn [snd].
    destruct (usable_dec (o0 :: obs)) as [U|(o' & Ho' & N)].
    + destruct (set_detim_spec nodet (map band_of (o0 :: obs))) as (detim & w & mask & ws & E & _).
      { discriminate. }
      { intros b Hin. apply in_map_iff in Hin. destruct Hin as (o' & <- & Ho'). exact (U o' Ho'). }
      rewrite E in Es. pose proof (proj1 Hsep _ _ _ _ _ _ _ Es Hd) as P.
      assert (S : nr detim = R /\ nc detim = C).
      { destruct Hm as (_ & _ & Hm).
        destruct (Hm _ (I o0 (or_introl eq_refl))) as (o'' & E2 & D1' & D2' & _). injection E2 as <-.
        rewrite <- D1', <- D2'.
        refine ((fun X => conj (proj1 X) (proj1 (proj2 X))) (set_detim_shape nodet (map band_of (o0 :: obs)) detim w mask (band_of o0) _ _ E)); [|left; reflexivity].
        intros b b' Hi Hi'. apply in_map_iff in Hi. apply in_map_iff in Hi'.
        destruct Hi as (o1 & <- & H1). destruct Hi' as (o2 & <- & H2).
        destruct (Hm _ (I o1 H1)) as (o1' & E1 & F1 & F2 & _). destruct (Hm _ (I o2 H2)) as (o2' & E2 & F1' & F2' & _).
        injection E1 as <-. injection E2 as <-. cbn [b_image band_of]. split; congruence. }
      destruct S as [<- <-]. exact P.
    + rewrite (set_detim_unusable nodet _ (band_of o')) in Es; [|apply in_map; exact Ho'|exact N].
      rewrite (proj2 Hsep _ _ Es) in Hd. destruct Hd.
  - refine (F2_weaken _ _ _ _ _ _ _ (Forall2_combine_box _ _ _ (fun nob => mkDetc (d_x (snd (fst nob))) (d_y (snd (fst nob))) (snd nob) (fst (fst nob)))
      (fun no b => stamp_size x (st_meds c) (snd no) b /\ 2 <= b) objs boxes _)).
    + intros no d (b & Hbb & ->). exists b. split; [exact Hbb|reflexivity].
    + rewrite map_length in Hl. apply F2_by_nth; [congruence|]. intros i no b Hi Hbi.
      destruct (Hs i (snd no) b) as (want & W1 & W2 & W3 & _); [rewrite nth_error_map, Hi; reflexivity|exact Hbi|].
      split; [exists want; split; [exact (requested_wanted _ _ _ _ W1)|exact W3]|]. unfold boxes_ok in Hb. lia.
Qed.

(** ** Stamps *)
Lemma plane_ok : forall o seg t p, plane_of o seg t p -> plane o seg t = Ok p /\ In t image_types.
Proof.
  intros o seg t p [[-> ->]|[[-> ->]|[[-> ->]|[[-> ->]|[-> (n & E & ->)]]]]]; (split; [|cbn; tauto]); try reflexivity.
  unfold plane. cbn. rewrite E. reflexivity.
Qed.
Lemma plane_missing : forall o seg t, (forall p, ~ plane_of o seg t p) ->
  (t = "noise" /\ plane o seg t = Raise AttributeError) \/ (t <> "noise" /\ plane o seg t = Raise ValueError).
Proof.
  intros o seg t N. unfold plane.
  destruct (String.eqb_spec t "image") as [->|_]; [destruct (N (imap F (ob_image o))); left; split; reflexivity|].
  destruct (String.eqb_spec t "weight") as [->|_]; [destruct (N (imap F (ob_weight o))); right; left; split; reflexivity|].
  destruct (String.eqb_spec t "bmask") as [->|_]; [destruct (N (imap I (ob_bmask o))); right; right; left; split; reflexivity|].
  destruct (String.eqb_spec t "noise") as [->|H].
  - left. split; [reflexivity|]. destruct (ob_noise o) as [n|] eqn:E; [|reflexivity].
    destruct (N (imap F n)). right. right. right. right. split; [reflexivity|]. exists n. split; [exact E|reflexivity].
  - destruct (String.eqb_spec t "seg") as [->|_]; [destruct (N (imap I seg)); right; right; right; left; split; reflexivity|].
    right. split; [exact H|reflexivity].
Qed.

Lemma stamp_stamps : forall m seg d st, has_shape m R C -> stamp x c m seg d = Ok st -> 2 <= dc_box d ->
  pos_in R C (dc_y d) (dc_x d) ->
  exists o0 rest, m = [o0] :: rest /\
    stamps_in x c (match seg with Some s => s | None => ifill (nr (ob_image o0)) (nc (ob_image o0)) 0 end)
      (match seg with Some _ => dc_number d | None => 1 end) (dc_y d) (dc_x d) (dc_box d) m st.
Proof.
  intros m seg d st Hm H Hbox Hpos. unfold stamp in H. destruct m as [|ol0 rest]; [discriminate|].
  destruct Hm as (Hr & Hc & Hm). destruct (Hm ol0 (or_introl eq_refl)) as (o0 & -> & D0 & D0' & _).
  cbn [List.length Nat.eqb negb] in H. rewrite py_index_0 in H. cbn [obind] in H.
  exists o0, rest. split; [reflexivity|]. exists o0, rest. split; [reflexivity|].
  set (y := dc_y d) in *. set (xx := dc_x d) in *. set (b := dc_box d) in *.
  set (n := match seg with Some _ => dc_number d | None => 1 end).
  set (e := make_entry (nr (ob_image o0)) (nc (ob_image o0)) (n - 1) n y xx b).
  assert (Ecat : catalog_medsify (nr (ob_image o0)) (nc (ob_image o0)) [(y, xx, b)]
                   match seg with Some _ => Some [dc_number d] | None => None end = [e]).
  { unfold e, n. destruct seg; reflexivity. }
  rewrite Ecat in H. cbn [nth_error] in H. apply omap_ok_Forall2 in H.
  assert (P0 : pos_in (nr (ob_image o0)) (nc (ob_image o0)) y xx) by (rewrite D0, D0'; exact Hpos).
  pose proof (make_entry_anchor _ _ (n - 1) n y xx b P0 Hbox) as X. cbv zeta in X. fold e in X.
  destruct X as (A1 & A2 & A3 & A4 & A5 & A6 & A7 & A8 & A9 & _).
  assert (Q1 : qtrunc y < nr (ob_image o0)) by lia. assert (Q2 : qtrunc xx < nc (ob_image o0)) by lia.
  assert (G : forall ol s, In ol ([o0] :: rest) ->
     (do o <- py_index ol 0;
      tp_read x (weight_type c) (fun type : string => do p <- plane o match seg with Some s => s | None => ifill (nr (ob_image o0)) (nc (ob_image o0)) 0 end type;
         get_cutout {| m_plane := fun _ : string => p; m_psf := imap F (ob_psf o); m_cat := [e] |} 0 type) e (ob_jac o0)
         (((inject_Z (nr (ob_psf o0)) - 1) / 2)%Q, ((inject_Z (nc (ob_psf o0)) - 1) / 2)%Q) (ob_psf o)) = Ok s ->
     exists o, ol = [o] /\ stamp_in x c match seg with Some s => s | None => ifill (nr (ob_image o0)) (nc (ob_image o0)) 0 end n y xx b o0 o s).
  { intros ol s Hin Hs. destruct (Hm ol Hin) as (o & -> & _). rewrite py_index_0 in Hs. cbn [obind] in Hs.
    exists o. split; [reflexivity|]. do 2 eexists. split; [exact Hs|].
    split; [reflexivity|]. split; [reflexivity|]. split; [reflexivity|]. split; [reflexivity|].
    split; [reflexivity|]. split; [reflexivity|]. split; [reflexivity|]. split; [reflexivity|].
    split; [|intros t Hp; destruct (plane_missing _ _ _ Hp) as [[E ->]|[E ->]]; [left|right]; (split; [exact E|reflexivity])].
    intros t p Hp Hn1 Hn2. destruct (plane_ok _ _ _ _ Hp) as [-> Ht]. cbn [obind].
    destruct (get_cutout_ok {| m_plane := fun _ : string => p; m_psf := imap F (ob_psf o); m_cat := [e] |} 0 t e eq_refl Ht)
      as (s' & E1 & E2 & E3 & E4); cbn [m_plane]; try (unfold e; cbn [e_box]; lia); try lia.
    exists s'. split; [exact E1|]. split; [exact E2|]. split; [exact E3|]. intros i j Hi Hj. exact (E4 i j Hi Hj). }
  clear - H G. revert st H G. generalize ([o0] :: rest) as l. induction l as [|ol l IH]; intros st H G; inversion H as [|? ? ? ? H1 H2]; subst; constructor.
  - exact (G ol y0 (or_introl eq_refl) H1).
  - apply IH; [exact H2|]. intros ol' s Hi Hs. exact (G ol' s (or_intror Hi) Hs).
Qed.


(** ** The driver *)
Section Driver.
Variables (md : mdet) (main : mbo) (color : option (keyfun * colours)).
Let e := environment x c md main color.
Hypothesis Hmain : has_shape main R C.
Hypothesis Hdep : forall keyf dep k m, color = Some (keyf, dep) -> dep k = Some (Other m) -> has_shape m R C.
Hypothesis Hmc : metacal_ok x c.
Hypothesis Hbox : boxes_ok (st_meds c).
Hypothesis Hsep : sep_ok x.

Lemma shape_uniform : forall m, has_shape m R C -> uniform sob m.
Proof.
  intros m (_ & _ & Hm). exists R, C. intros ol o Hin Ho. destruct (Hm ol Hin) as (o' & -> & _ & _ & W1 & W2 & W3 & W4 & W5 & W6 & _).
  destruct Ho as [<-|[]]. cbn [sob so_weight so_bmask so_ormask]. auto 10.
Qed.
Lemma shape_pixels : forall m, has_shape m R C -> has_pixels sob m.
Proof.
  intros m (H1 & H2 & Hm). intros ol o Hin Ho. destruct (Hm ol Hin) as (o' & -> & _ & _ & W1 & W2 & W3 & W4 & W5 & W6 & _).
  destruct Ho as [<-|[]]. cbn [sob so_weight so_bmask so_ormask]. rewrite W3, W4, W5, W6. auto.
Qed.
Lemma run_uniform : env_uniform sob e.
Proof.
  split; [exact (shape_uniform _ Hmain)|]. intros keyf dep k m H1 H2. exact (shape_uniform _ (Hdep _ _ _ _ H1 H2)).
Qed.
Lemma run_pixels : env_pixels sob e.
Proof.
  split; [exact (shape_pixels _ Hmain)|]. intros keyf dep k m H1 H2. exact (shape_pixels _ (Hdep _ _ _ _ H1 H2)).
Qed.
Lemma run_types : metacal_types e.
Proof. intros m d H. destruct (Hmc m d H) as (N & T & _). split; assumption. Qed.
Lemma data_shape : forall key m, data_of e key m -> has_shape m R C.
Proof.
  intros [k|] m H; [|cbn in H; subst m; exact Hmain]. destruct H as (keyf & dep & H1 & [[_ ->]|H2]); [exact Hmain|]. exact (Hdep _ _ _ _ H1 H2).
Qed.
Lemma mcal_shape : forall m d t m', has_shape m R C -> tp_metacal x m = Ok d -> In (t, m') d -> has_shape m' R C.
Proof. intros m d t m' Hm H Hin. destruct (Hmc m d H) as (_ & _ & K). exact (proj2 (K t m' Hin) R C Hm). Qed.

Lemma uncached_data : forall key sb kd, uncached sob e key sb = Ok kd ->
  exists data r, data_of e key data /\ all_metacal e data = Ok r /\ mp_mcal (kd_mp kd) = Some r.
Proof.
  intros key sb kd H. unfold uncached in H. destruct (obs_of e key) as [[k m]|] eqn:Eo; [|discriminate]. cbn [obind snd] in H.
  destruct (psf_flags e m) as [f|]; [|discriminate]. cbn [obind] in H.
  destruct (all_metacal e m) as [r|] eqn:Ea; [|discriminate]. cbn [obind] in H.
  destruct (summarise sob e _ m sb) as [s|]; [|discriminate]. cbn [obind] in H. apply Ok_inj in H. subst kd.
  exists m, r. split; [|split; [exact Ea|reflexivity]].
  unfold obs_of in Eo. destruct key as [kk|]; [|apply Ok_inj, pair_equal_spec in Eo; destruct Eo; subst; reflexivity].
  destruct (e_color e) as [[kf dep]|] eqn:Ec; [|discriminate]. exists kf, dep. split; [exact Ec|].
  destruct (dep kk) as [[|m']|]; [| |discriminate]; apply Ok_inj, pair_equal_spec in Eo; destruct Eo; subst; auto.
Qed.

Lemma one_row : forall key sb db t m seg sg n no b st kd su r, has_shape m R C ->
  uncached sob e key sb = Ok kd -> kd_sum kd = Some su ->
  stamp_size x (st_meds c) (snd no) b -> stamps_in x c sg n (d_y (snd no)) (d_x (snd no)) b m st ->
  stamp x c m seg (mkDetc (d_x (snd no)) (d_y (snd no)) b (fst no)) = Ok st ->
  row_of sob e sb db t su (mkDetc (d_x (snd no)) (d_y (snd no)) b (fst no)) st r ->
  object_row x c md main color key sb db t m sg n no r.
Proof.
  intros key sb db t m seg sg n no b st kd su r Hm Hk Hs Hsz Hst _ (Hf & Hd & ex & Hx & Hxe).
  exists b, st. split; [exact Hsz|]. split; [exact Hst|]. split; [exact (proj1 (fits_measured _ _ _ _ _ _) Hf)|].
  assert (K := columns_ok _ _ _ _ _ sob e key sb db t _ kd su ex _ run_uniform run_pixels Hk Hs Hx Hxe).
  split.
  - destruct K as (m1 & os & mf & wo & wb & K1 & K2 & K3 & K4 & K5 & K6 & K7 & K8 & U & K10 & K11 & K12 & K13 & K14 & K15 & K16 & K17 & K18).
    cbn [dc_y dc_x dc_box] in *.
    change (unshear x main t (d_y (snd no)) (d_x (snd no)) = Ok (x_row_ns (r_extra r), x_col_ns (r_extra r))) in U.
    assert (Ho : exists o0 more rest, main = (o0 :: more) :: rest).
    { unfold unshear in U. destruct main as [|[|o0 more] rest]; [discriminate U| |].
      - rewrite py_index_0 in U. discriminate U.
      - exists o0, more, rest. reflexivity. }
    destruct Ho as (o0 & more & rest & Em).
    assert (MF : forall row col bx v, mfrac_column sob e mf row col bx v -> mfrac_at_pos x main mf row col bx v).
    { intros row col bx v [M1 M2]. split; [exact M1|]. intros Hpos. destruct (M2 Hpos) as (ol & o & u & O1 & O2 & O3 & O4).
      change (e_main e) with main in O1. rewrite Em, py_index_0 in O1. apply Ok_inj in O1. subst ol. rewrite py_index_0 in O2. apply Ok_inj in O2. subst o.
      exists o0, more, rest, u. split; [exact Em|]. split; [exact O3|exact O4]. }
    exists m1, os, mf, wo, wb, o0, more, rest. split; [exact K1|]. split; [exact K2|]. split; [exact K3|]. split; [exact K4|].
    split; [exact K5|]. split; [exact K6|]. split; [exact K7|]. split; [exact K8|]. split; [exact Em|].
    split. { unfold unshear in U. rewrite Em, py_index_0 in U. cbn [obind] in U. rewrite py_index_0 in U. exact U. }
    rewrite K7, K8 in *. split; [exact K10|]. split; [exact K11|]. split; [exact K12|]. split; [exact K13|].
    split; [exact (MF _ _ _ _ K14)|]. split; [exact (MF _ _ _ _ K15)|]. split; [exact K16|]. split; [|exact K18].
    exact (psf_means_ok x c md main color m1 sb os _ R C (data_shape _ _ K1) K2 K17).
  - intros i j f g p q Hi Hj Hp Hq Hn. rewrite (prefix_colname _ _ Hp), (prefix_colname _ _ Hq). exact (Hd i j f g Hi Hj Hn).
Qed.

Lemma found_block : forall t m sd rows, has_shape m R C -> block_of sob e t m sd rows ->
  block x c md main color t m sd rows.
Proof.
  intros t m [sb db] rows Hm (cat & seg & kd & su & (sel & F & Hd) & Hk & Hs & HR). cbn [fst snd] in *.
  destruct (detect_found _ _ _ _ _ _ Hm Hbox Hsep F Hd) as (objs & Hfo & Hin & Hcat).
  exists objs, seg. split; [exact Hfo|]. cbn [fst snd].
  clear Hfo Hd F. revert rows HR Hin. induction Hcat as [|no d objs cat (b & (Hsz & H2) & ->) Hcat IH]; intros rows HR Hin.
  - inversion HR; subst. constructor.
  - inversion HR as [|? r ? rows' (st & Hst & Hrow) HR' E1 E2]; subst. inversion Hin as [|? ? Hno Hin']; subst.
    constructor; [|apply IH; assumption].
    destruct (stamp_stamps m (Some seg) _ st Hm Hst H2 Hno) as (o0 & rest & _ & Hsi).
    exact (one_row None sb db t m (Some seg) seg (fst no) no b st kd su r Hm Hk Hs Hsz Hsi Hst Hrow).
Qed.

Lemma key_found : forall keyf sb m seg no b key, has_shape m R C -> in_images no -> 2 <= b ->
  stamp_size x (st_meds c) (snd no) b ->
  colour_of e keyf sb m seg (mkDetc (d_x (snd no)) (d_y (snd no)) b (fst no)) key ->
  key_of x c md keyf sb m seg no key.
Proof.
  intros keyf sb m seg no b key Hm Hno Hb Hsz (f0 & rest & st & fl & E1 & E2 & E3 & E4).
  destruct (stamp_stamps m (Some seg) _ st Hm E2 Hb Hno) as (o0 & rs & _ & Hsi).
  change (e_flux e f0 sb st) with (fluxes x c f0 sb st) in E3. unfold fluxes in E3.
  destruct (fit_mbobs_wavg _ _ _ _ st (kernel x f0) (bmask_flags c) (Some sb) 0 true) as [r|] eqn:Ef; [|discriminate].
  cbn [obind] in E3. apply Ok_inj in E3. subst fl.
  exists b, st, f0, rest, r. split; [exact Hsz|]. split; [exact Hsi|]. split; [exact E1|]. split; [exact Ef|exact E4].
Qed.

Lemma part_found : forall sb db t no b key part, in_images no -> 2 <= b ->
  stamp_size x (st_meds c) (snd no) b ->
  colour_rows sob e sb db t key (mkDetc (d_x (snd no)) (d_y (snd no)) b (fst no)) part ->
  colour_part x c md main color sb db t no key part.
Proof.
  intros sb db t no b key part Hno Hb Hsz (kd & Hk & Hcase).
  destruct (uncached_data _ _ _ Hk) as (data & r & Hd & Ha & Hm). exists data. split; [exact Hd|].
  unfold all_metacal in Ha. change (e_metacal e data) with (tp_metacal x data) in Ha.
  destruct Hcase as [[E ->]|(dict & m & st & su & r0 & E1 & E2 & E3 & E4 & E5 & ->)].
  - left. split; [|reflexivity]. rewrite Hm in E. apply Some_inj in E. subst r.
    destruct (tp_metacal x data) as [|x0]; [discriminate|]. destruct x0; try discriminate. reflexivity.
  - right. rewrite Hm in E1. apply Some_inj in E1. subst r.
    destruct (tp_metacal x data) as [dict'|x0] eqn:Em; [|destruct x0; discriminate]. apply Ok_inj, Some_inj in Ha. subst dict'.
    assert (Hin : In (t, m) dict).
    { clear - E2. induction dict as [|[k v] dict IH]; [discriminate|]. cbn [assoc] in E2.
      destruct (String.eqb t k) eqn:Ek; [apply String.eqb_eq in Ek; apply Some_inj in E2; subst; left; reflexivity|right; auto]. }
    pose proof (mcal_shape _ _ _ _ (data_shape _ _ Hd) Em Hin) as Hms.
    destruct (stamp_stamps m None _ st Hms E4 Hb Hno) as (o0 & rest & Emm & Hsi).
    exists dict, m, o0, rest, r0. split; [reflexivity|]. split; [exact Hin|]. split; [exact Emm|]. split; [|reflexivity].
    exact (one_row key sb db t m None _ 1 no b st kd su r0 Hms Hk E3 Hsz Hsi E4 E5).
Qed.

Lemma found_colour_block : forall keyf t m sd rows, has_shape m R C -> colour_block_of sob e keyf t m sd rows ->
  colour_block x c md main color keyf t m sd rows.
Proof.
  intros keyf t m [sb db] rows Hm (cat & seg & keys & parts & (sel & F & Hd) & Hkeys & Hparts & ->). cbn [fst snd] in *.
  destruct (detect_found _ _ _ _ _ _ Hm Hbox Hsep F Hd) as (objs & Hfo & Hin & Hcat).
  exists objs, seg, keys, parts. split; [exact Hfo|]. cbn [fst snd].
  clear Hfo Hd F. revert keys parts Hkeys Hparts Hin.
  induction Hcat as [|no d objs cat (b & (Hsz & H2) & ->) Hcat IH]; intros keys parts Hkeys Hparts Hin.
  - inversion Hkeys; subst. cbn [combine] in Hparts. inversion Hparts; subst. repeat split; constructor.
  - inversion Hkeys as [|? key ? keys' Hkey Hkeys']; subst. cbn [combine] in Hparts.
    inversion Hparts as [|? part ? parts' Hpart Hparts']; subst. inversion Hin as [|? ? Hno Hin']; subst.
    destruct (IH _ _ Hkeys' Hparts' Hin') as (K1 & K2 & _). cbn [fst snd] in Hpart.
    split; [|split; [|reflexivity]].
    + constructor; [|exact K1]. exact (key_found keyf sb m seg no b key Hm Hno H2 Hsz Hkey).
    + constructor; [|exact K2]. cbn [fst snd]. exact (part_found sb db t no b key part Hno H2 Hsz Hpart).
Qed.
End Driver.
End Proofs.

(** ** do_metadetect *)
Lemma run_inv : forall x c main sbc keyf dep dbc o, do_metadetect x c main sbc keyf dep dbc = Ok o ->
  exists md s', construct (st_conf c) (zlen main) (has keyf) (has dep) sbc dbc = Ok md /\
    go sob (environment x c md main (color_arg keyf dep)) (after sob (environment x c md main (color_arg keyf dep)) []) = (Ok tt, s') /\
    result_property s' = Ok o.
Proof.
  intros x c main sbc keyf dep dbc o H. unfold do_metadetect in H.
  destruct (construct _ _ _ _ _ _) as [md|] eqn:Ec; [|discriminate]. cbn [obind] in H.
  change (after sob (environment x c md main (color_arg keyf dep)) []) with (@init_state obs row).
  destruct (go sob (environment x c md main (color_arg keyf dep)) init_state) as [[[]|] s] eqn:Eg; [|discriminate].
  exists md, s. split; [reflexivity|]. split; [exact Eg|exact H].
Qed.
Lemma healthy_nil : forall O SEG ST FL FR (sb : O -> sobs) (e : env O SEG ST FL FR), healthy sb e [].
Proof. intros O SEG ST FL FR sb e y []. Qed.

Lemma run_rows : forall x c main sbc dbc r, all_one_shape main None -> metacal_ok x c -> boxes_ok (st_meds c) -> sep_ok x ->
  do_metadetect x c main sbc None None dbc = Ok (Some r) ->
  exists md mcal, construct (st_conf c) (zlen main) false false sbc dbc = Ok md /\ tp_metacal x main = Ok mcal /\
    NoDup (map fst r) /\ (forall t, In t (map fst r) <-> In t (st_types c)) /\
    (forall t, In t (map fst mcal) <-> In t (st_types c)) /\
    forall t m, In (t, m) mcal -> exists blocks,
      Forall2 (block x c md main None t m) (combine (md_shear md) (md_det md)) blocks /\
      table r t = Some (match List.concat blocks with [] => None | l => Some l end).
Proof.
  intros x c main sbc dbc r (R & C & Hm & _) Hmc Hb Hs H.
  destruct (run_inv _ _ _ _ _ _ _ _ H) as (md & s' & Ec & Eg & Er). cbn [color_arg] in Eg.
  assert (Hdep : forall keyf dep k m, @None (keyfun * colours) = Some (keyf, dep) -> dep k = Some (Other m) -> has_shape m R C)
    by (intros; discriminate).
  pose proof (run_uniform x c R C md main None Hm Hdep) as HU.
  pose proof (run_types x c md main None Hmc) as HT.
  destruct (go_types _ _ _ _ _ sob _ [] s' r HU HT (healthy_nil _ _ _ _ _ _ _) Eg Er) as [N T].
  destruct (go_plain_blocks _ _ _ _ _ sob _ HU HT [] s' r eq_refl (healthy_nil _ _ _ _ _ _ _) Eg Er) as (mcal & E1 & E2).
  exists md, mcal. split; [exact Ec|]. split; [exact E1|]. split; [exact N|]. split; [exact T|].
  split; [exact (proj1 (proj2 (Hmc _ _ E1)))|].
  intros t m Hin. destruct (E2 t m Hin) as (blocks & B1 & B2). exists blocks. split; [|exact B2].
  pose proof (mcal_shape x c R C Hmc main mcal t m Hm E1 Hin) as Hms.
  refine (F2_weaken _ _ _ _ _ _ _ B1). intros sd rows. apply (found_block x c R C md main None); assumption.
Qed.

Lemma run_colour_rows : forall x c main sbc keyf dep dbc r, all_one_shape main (Some dep) -> metacal_ok x c -> boxes_ok (st_meds c) ->
  sep_ok x -> do_metadetect x c main sbc (Some keyf) (Some dep) dbc = Ok (Some r) ->
  exists md mcal, construct (st_conf c) (zlen main) true true sbc dbc = Ok md /\ tp_metacal x main = Ok mcal /\
    NoDup (map fst r) /\ (forall t, In t (map fst r) <-> In t (st_types c)) /\
    (forall t, In t (map fst mcal) <-> In t (st_types c)) /\
    forall t m, In (t, m) mcal -> exists blocks,
      Forall2 (colour_block x c md main (Some (keyf, dep)) keyf t m) (combine (md_shear md) (md_det md)) blocks /\
      table r t = Some (match List.concat blocks with [] => None | l => Some l end).
Proof.
  intros x c main sbc keyf dep dbc r (R & C & Hm & Hd) Hmc Hb Hs H.
  destruct (run_inv _ _ _ _ _ _ _ _ H) as (md & s' & Ec & Eg & Er). cbn [color_arg] in Eg.
  assert (Hdep : forall kf dp k m, Some (keyf, dep) = Some (kf, dp) -> dp k = Some (Other m) -> has_shape m R C).
  { intros kf dp k m E. apply Some_inj, pair_equal_spec in E. destruct E as [_ <-]. apply (Hd dep k m eq_refl). }
  pose proof (run_uniform x c R C md main (Some (keyf, dep)) Hm Hdep) as HU.
  pose proof (run_types x c md main (Some (keyf, dep)) Hmc) as HT.
  destruct (go_types _ _ _ _ _ sob _ [] s' r HU HT (healthy_nil _ _ _ _ _ _ _) Eg Er) as [N T].
  destruct (go_colour_blocks _ _ _ _ _ sob _ HU HT keyf dep [] s' r eq_refl (healthy_nil _ _ _ _ _ _ _) Eg Er) as (mcal & E1 & E2).
  exists md, mcal. split; [exact Ec|]. split; [exact E1|]. split; [exact N|]. split; [exact T|].
  split; [exact (proj1 (proj2 (Hmc _ _ E1)))|].
  intros t m Hin. destruct (E2 t m Hin) as (blocks & B1 & B2). exists blocks. split; [|exact B2].
  pose proof (mcal_shape x c R C Hmc main mcal t m Hm E1 Hin) as Hms.
  refine (F2_weaken _ _ _ _ _ _ _ B1). intros sd rows. apply (found_colour_block x c R C md main (Some (keyf, dep))); assumption.
Qed.

Lemma run_none : forall x c main sbc keyf dep dbc o, all_one_shape main dep ->
  do_metadetect x c main sbc keyf dep dbc = Ok o ->
  exists md, construct (st_conf c) (zlen main) (has keyf) (has dep) sbc dbc = Ok md /\
    let e := environment x c md main (color_arg keyf dep) in
    (o = None <-> no_usable_pixel sob e \/ zero_weight_observation sob e \/ excluded_observation sob e \/
       tp_metacal x main = Raise BootPSFFailure).
Proof.
  intros x c main sbc keyf dep dbc o (R & C & Hm & Hd) H.
  destruct (run_inv _ _ _ _ _ _ _ _ H) as (md & s' & Ec & Eg & Er). exists md. split; [exact Ec|]. intros e.
  assert (Hdep : forall kf dp k m, color_arg keyf dep = Some (kf, dp) -> dp k = Some (Other m) -> has_shape m R C).
  { intros kf dp k m E. destruct keyf as [kf'|]; [|discriminate]. destruct dep as [dp'|]; [|discriminate].
    apply Some_inj, pair_equal_spec in E. destruct E as [_ <-]. exact (Hd dp' k m eq_refl). }
  pose proof (run_uniform x c R C md main (color_arg keyf dep) Hm Hdep) as HU. fold e in HU, Eg.
  assert (S := go_sem _ _ _ _ _ sob e HU _ (good_after _ _ _ _ _ sob e [] (healthy_nil _ _ _ _ _ _ _))).
  rewrite Eg in S. cbn [fst snd] in S. destruct (pgo _ _ _ _ _ sob e) as [r|] eqn:Ep; [|contradiction].
  destruct S as [r' [Hr [S _]]]. rewrite Er in Hr. apply Ok_inj in Hr. subst r'.
  destruct (pgo_inv _ _ _ _ _ sob e r Ep) as [[-> K]|(mcal & all & _ & _ & -> & K)].
  - split; [intros _; exact K|]. intros _. destruct o; [destruct S|reflexivity].
  - split; [|intros X; exfalso; exact (K X)]. intros ->. destruct S.
Qed.

(** ** Colours with the content of the main observations *)
Lemma wavg_any_reg : forall ng mk toT sq st ft bm sb fw fw' sym r,
  fit_mbobs_wavg ng mk toT sq st ft bm sb fw sym = Ok r ->
  exists r', fit_mbobs_wavg ng mk toT sq st ft bm sb fw' sym = Ok r'.
Proof.
  intros ng mk toT sq st ft bm sb fw fw' sym r H. unfold fit_mbobs_wavg in *.
  destruct (String.eqb (k_kind ft) "am" && negb (Nat.eqb (List.length st) 1)); [discriminate|].
  destruct (omap _ st) as [fits|]; [|discriminate]. cbn [obind] in *. unfold combine_fit_results_wavg in *.
  destruct (get_wavg_output_struct _ _ _) as [d0|]; [|discriminate]. cbn [obind] in *.
  match goal with |- exists r', (if ?b then _ else _) = _ => destruct b end; eexists; reflexivity.
Qed.

Lemma get_cutout_place : forall pl ps e e' type, same_place e e' ->
  get_cutout (mkMedsI pl ps [e]) 0 type = get_cutout (mkMedsI pl ps [e']) 0 type.
Proof.
  intros pl ps e e' type (S1 & S2 & S3 & S4 & S5 & S6 & S7 & S8 & S9). unfold get_cutout. cbn [m_cat m_plane m_psf].
  unfold get_cutout. cbn. rewrite ?S1, ?S2, ?S3, ?S4, ?S5, ?S6, ?S7, ?S8, ?S9. reflexivity.
Qed.

Lemma omap_ext_in : forall A B (f g : A -> outcome B) l, (forall a, In a l -> f a = g a) -> omap f l = omap g l.
Proof.
  induction l as [|a l IH]; intros H; [reflexivity|]. cbn [omap]. rewrite (H a (or_introl eq_refl)), IH; [reflexivity|].
  intros b Hb. apply H. right. exact Hb.
Qed.

Lemma stamp_no_seg : forall x c m seg d, weight_type c = "weight" -> reader_weight x ->
  stamp x c m None d = stamp x c m (Some seg) d.
Proof.
  intros x c m seg d Hw Hr. unfold stamp. destruct m as [|ol0 rest]; [reflexivity|].
  destruct (negb (Nat.eqb (List.length ol0) 1)); [reflexivity|]. destruct (py_index ol0 0) as [o0|]; [|reflexivity]. cbn [obind].
  apply omap_ext_in. intros ol _. destruct (py_index ol 0) as [o|]; [|reflexivity]. cbn [obind].
  set (e1 := make_entry (nr (ob_image o0)) (nc (ob_image o0)) 0 1 (dc_y d) (dc_x d) (dc_box d)).
  set (e2 := make_entry (nr (ob_image o0)) (nc (ob_image o0)) (dc_number d - 1) (dc_number d) (dc_y d) (dc_x d) (dc_box d)).
  change (catalog_medsify (nr (ob_image o0)) (nc (ob_image o0)) [(dc_y d, dc_x d, dc_box d)] None) with [e1].
  change (catalog_medsify (nr (ob_image o0)) (nc (ob_image o0)) [(dc_y d, dc_x d, dc_box d)] (Some [dc_number d])) with [e2].
  cbn [nth_error]. rewrite Hw.
  assert (S : same_place e1 e2) by (unfold same_place, e1, e2, make_entry; cbn; repeat split; reflexivity).
  apply Hr; [|exact S]. intros t Ht.
  assert (P : plane o (ifill (nr (ob_image o0)) (nc (ob_image o0)) 0) t = plane o seg t).
  { unfold plane. destruct (String.eqb t "seg") eqn:E; [apply String.eqb_eq in E; contradiction|reflexivity]. }
  rewrite P. destruct (plane o seg t) as [p|]; [|reflexivity]. cbn [obind]. apply get_cutout_place. exact S.
Qed.

Lemma run_colour_same : forall x c main sbc keyf dep dbc md f0 fs r, all_one_shape main (Some dep) -> metacal_ok x c ->
  (st_weight_type c = None \/ st_weight_type c = Some "weight") -> reader_weight x ->
  construct (st_conf c) (zlen main) false false sbc dbc = Ok md ->
  md_fitters md = f0 :: fs -> fi_wavg f0 = true -> fi_symm f0 = true ->
  (forall fl, exists key, keyf fl = Ok key /\
     (key = None \/ exists k, key = Some k /\ (dep k = Some SameObject \/ dep k = Some (Other main)))) ->
  do_metadetect x c main sbc None None dbc = Ok r ->
  exists r2, do_metadetect x c main sbc (Some keyf) (Some dep) dbc = Ok r2 /\ result_eqv r2 r.
Proof.
  intros x c main sbc keyf dep dbc md f0 fs r (R & C & Hm & Hd) Hmc Hw Hr Hc Hf Hf1 Hf2 Hk H.
  unfold do_metadetect in H. cbn [has] in H. rewrite Hc in H. cbn [obind] in H.
  destruct (go sob (environment x c md main (color_arg None None)) init_state) as [[[]|] s'] eqn:Eg; [|discriminate].
  assert (Hc' : construct (st_conf c) (zlen main) true true sbc dbc = Ok md).
  { revert Hc. unfold construct. cbn [andb orb negb]. auto. }
  unfold do_metadetect. cbn [has]. rewrite Hc'. cbn [obind].
  assert (Hdep : forall kf dp k m, Some (keyf, dep) = Some (kf, dp) -> dp k = Some (Other m) -> has_shape m R C).
  { intros kf dp k m E. apply Some_inj, pair_equal_spec in E. destruct E as [_ <-]. apply (Hd dep k m eq_refl). }
  destruct (colour_run_same _ _ _ _ _ sob (environment x c md main (Some (keyf, dep))) keyf dep f0 fs s' r
    (run_uniform x c R C md main (Some (keyf, dep)) Hm Hdep) (run_types x c md main (Some (keyf, dep)) Hmc) eq_refl Hf Hf1) as (s2 & r2 & G1 & G2 & G3).
  - intros sb st y Hy. change (fit x c f0 sb st = Ok y) in Hy. change (exists fl, fluxes x c f0 sb st = Ok fl).
    unfold fit in Hy. rewrite Hf1, Hf2 in Hy. destruct (wavg_any_reg _ _ _ _ _ _ _ _ _ 0%Q _ _ Hy) as (r' & E).
    unfold fluxes. rewrite E. cbn [obind]. eexists. reflexivity.
  - exact Hk.
  - intros m seg d. apply stamp_no_seg; [|exact Hr]. unfold weight_type. destruct Hw as [->| ->]; reflexivity.
  - exact Eg.
  - exact H.
  - change (color_arg (Some keyf) (Some dep)) with (Some (keyf, dep)). rewrite G1. exists r2. split; assumption.
Qed.

(** ** C89 *)
Lemma size_ge_2 : forall x c o b, boxes_ok (st_meds c) -> stamp_size x (st_meds c) o b -> 2 <= b.
Proof.
  intros x c o b (H1 & H2) (want & _ & (_ & W & _)). unfold into_range in W. lia.
Qed.

Lemma stamp_bits : forall x c seg n y xx b o0 o st flags fo bm R C, reader_ok x -> 2 <= b ->
  nr (ob_image o0) = R -> nc (ob_image o0) = C -> nr (ob_image o) = R -> nc (ob_image o) = C ->
  nr (ob_bmask o) = R -> nc (ob_bmask o) = C ->
  stamp_in x c seg n y xx b o0 o st -> In fo st -> f_bmask fo = Some bm ->
  (forall i j, inside bm i j -> Z.land (px bm i j) flags = 0) ->
  stamp_clean flags y xx b o /\ (Z.testbit flags 30 = true -> stamp_inside y xx b o).
Proof.
  intros x c seg n y xx b o0 o st flags fo bm R C Hr Hb D1 D2 D3 D4 D5 D6
    (cut & e & Hread & _ & _ & _ & _ & _ & _ & _ & _ & Hcut & _) Hfo Hbm Hz.
  destruct (Hr _ _ _ _ _ _ _ _ Hread Hfo) as (s & Hs & Hbm'). rewrite Hbm in Hbm'. apply Some_inj in Hbm'. subst bm.
  destruct (Hcut "bmask" (imap I (ob_bmask o))) as (s' & Hs' & N1 & N2 & Hpx).
  { right. right. left. split; reflexivity. } { cbn [nr imap]. congruence. } { cbn [nc imap]. congruence. }
  rewrite Hs in Hs'. apply Ok_inj in Hs'. subst s'.
  assert (L : forall i j, 0 <= i < b -> 0 <= j < b ->
     Z.land (if insideb (imap I (ob_bmask o)) (first_pixel y b + i) (first_pixel xx b + j)
             then px (ob_bmask o) (first_pixel y b + i) (first_pixel xx b + j) else 2 ^ 30) flags = 0).
  { intros i j Hi Hj. rewrite <- (Hz i j).
    - cbn [px imap]. rewrite (Hpx i j Hi Hj). unfold stamp_pixel. f_equal.
      destruct (insideb (imap I (ob_bmask o)) (first_pixel y b + i) (first_pixel xx b + j)); reflexivity.
    - unfold inside. cbn [nr nc imap]. lia. }
  split.
  - intros i j Hin Hi Hj. specialize (L (i - first_pixel y b) (j - first_pixel xx b)).
    replace (first_pixel y b + (i - first_pixel y b)) with i in L by lia.
    replace (first_pixel xx b + (j - first_pixel xx b)) with j in L by lia.
    destruct (insideb (imap I (ob_bmask o)) i j) eqn:E.
    + apply L; lia.
    + exfalso. unfold insideb in E. cbn [nr nc imap] in E. unfold inside in Hin.
      destruct Hin as [[? ?] [? ?]]. repeat (rewrite ?Bool.andb_false_iff, ?Z.leb_gt, ?Z.ltb_ge in E). lia.
  - intros Hbit. assert (Bz : Z.land (2 ^ 30) flags <> 0).
    { intros X. assert (T : Z.testbit (Z.land (2 ^ 30) flags) 30 = true) by (rewrite Z.land_spec, Hbit; reflexivity).
      rewrite X, Z.bits_0 in T. discriminate. }
    assert (In' : forall i j, 0 <= i < b -> 0 <= j < b -> first_pixel y b + i < R /\ first_pixel xx b + j < C).
    { intros i j Hi Hj. specialize (L i j Hi Hj).
      destruct (insideb (imap I (ob_bmask o)) (first_pixel y b + i) (first_pixel xx b + j)) eqn:E; [|contradiction].
      unfold insideb in E. cbn [nr nc imap] in E. repeat (rewrite ?Bool.andb_true_iff, ?Z.leb_le, ?Z.ltb_lt in E). lia. }
    unfold stamp_inside. rewrite D3, D4. specialize (In' (b - 1) (b - 1)). lia.
Qed.

Lemma symm_bmask : forall o o', symmetrize_obs_weights o = Ok o' -> f_bmask o' = f_bmask o.
Proof.
  intros o o' H. unfold symmetrize_obs_weights in H.
  repeat match type of H with
  | (if ?b then _ else _) = _ => destruct b; try discriminate
  | obind ?z _ = _ => destruct z; try discriminate; cbn [obind] in H
  end; apply Ok_inj in H; subst o'; reflexivity.
Qed.

Lemma F2_in_l : forall A B (P : A -> B -> Prop) l l' a, Forall2 P l l' -> In a l -> exists b, In b l' /\ P a b.
Proof.
  intros A B P l l' a F. induction F as [|a0 b0 l l' H F IH]; intros Hin; [destruct Hin|]. destruct Hin as [<-|Hin].
  - exists b0. split; [left; reflexivity|exact H].
  - destruct (IH Hin) as (b & K1 & K2). exists b. split; [right; exact K1|exact K2].
Qed.

(** The bit mask of every stamp passed the check. *)
Lemma fit_clean : forall x c f sb st r, fit x c f sb st = Ok r -> o_flags r = 0 ->
  forall ol, In ol st ->
  exists fo bm, In fo ol /\ f_bmask fo = Some bm /\ forall i j, inside bm i j -> Z.land (px bm i j) (bmask_flags c) = 0.
Proof.
  intros x c f sb st r H H0 ol Hn. unfold fit in H. destruct (fi_wavg f).
  - destruct (wavg_every_band _ _ _ _ _ _ _ _ _ _ _ H H0 ol Hn) as (o & rest & o' & bm & -> & Hfit & _ & Hbm & Hz).
    exists o, bm. split; [left; reflexivity|]. split; [|exact Hz]. unfold fitted_obs in Hfit.
    destruct (fi_symm f); [rewrite <- (symm_bmask _ _ Hfit); exact Hbm|subst o'; exact Hbm].
  - assert (G : good_data (bmask_flags c) st).
    { destruct (String.eqb (fi_base f) "am" || String.eqb (fi_base f) "admom").
      - exact (proj1 (admom_clean _ _ _ _ _ _ _ _ H H0)).
      - destruct (String.eqb (fi_base f) "gauss"); [|discriminate]. exact (proj1 (gauss_clean _ _ _ _ _ _ _ H H0)). }
    destruct (G ol Hn) as (o & bm & -> & _ & Hbm & Hz). exists o, bm. split; [left; reflexivity|]. split; assumption.
Qed.

Lemma row_clean : forall x c md main color key sb db t m seg n no dr f fr R C, reader_ok x -> boxes_ok (st_meds c) ->
  has_shape m R C -> object_row x c md main color key sb db t m seg n no dr ->
  In (f, fr) (combine (md_fitters md) (r_fits dr)) -> o_flags fr = 0 ->
  x_row (r_extra dr) = d_y (snd no) /\ x_col (r_extra dr) = d_x (snd no) /\
  exists b, stamp_size x (st_meds c) (snd no) b /\
    forall o, In [o] m ->
      stamp_clean (bmask_flags c) (d_y (snd no)) (d_x (snd no)) b o /\
      (Z.testbit (bmask_flags c) 30 = true -> stamp_inside (d_y (snd no)) (d_x (snd no)) b o).
Proof.
  intros x c md main color key sb db t m seg n no dr f fr R C Hr Hb Hm (b & st & Hsz & Hst & Hms & Hcol & _) Hin Hfl.
  pose proof (size_ge_2 _ _ _ _ Hb Hsz) as H2.
  destruct Hcol as (m1 & os & mf & wo & wb & p0 & pm & pr & _ & _ & _ & _ & _ & _ & X1 & X2 & _). split; [exact X1|]. split; [exact X2|].
  exists b. split; [exact Hsz|]. intros o Hn.
  assert (Hf : fit x c f sb st = Ok fr).
  { apply fits_measured in Hms. clear - Hms Hin. induction Hms as [|a r l l' H F IH]; [destruct Hin|]. destruct Hin as [E|Hin]; [injection E as <- <-; exact H|exact (IH Hin)]. }
  destruct Hst as (o0 & rest & Em & F).
  destruct (F2_in_l _ _ _ _ _ _ F Hn) as (ol & Hol & o1 & E1 & Hsi). injection E1 as <-.
  destruct (fit_clean _ _ _ _ _ _ Hf Hfl ol Hol) as (fo & bm & Hfo & Hbm & Hz).
  destruct Hm as (_ & _ & Hm).
  assert (I0 : In [o0] m) by (rewrite Em; left; reflexivity).
  destruct (Hm [o0] I0) as (o0' & E0 & A1 & A2 & _). injection E0 as <-.
  destruct (Hm [o] Hn) as (o' & E' & B1 & B2 & _ & _ & B3 & B4 & _). injection E' as <-.
  exact (stamp_bits x c seg n _ _ b o0 o ol (bmask_flags c) fo bm R C Hr H2 A1 A2 B1 B2 B3 B4 Hsi Hfo Hbm Hz).
Qed.

Lemma in_blocks : forall A B (P : A -> list B -> Prop) l blocks b, Forall2 P l blocks -> In b (List.concat blocks) ->
  exists a bl, In a l /\ P a bl /\ In b bl.
Proof.
  intros A B P l blocks b F Hin. apply in_concat in Hin. destruct Hin as (bl & H1 & H2).
  induction F as [|a bl0 l blocks H F IH]; [destruct H1|]. destruct H1 as [<-|H1].
  - exists a, bl0. split; [left; reflexivity|]. split; assumption.
  - destruct (IH H1) as (a' & bl' & K1 & K2 & K3). exists a', bl'. split; [right; exact K1|]. split; assumption.
Qed.

Lemma F2_in_r : forall A B (P : A -> B -> Prop) l l' b, Forall2 P l l' -> In b l' -> exists a, In a l /\ P a b.
Proof.
  intros A B P l l' b F. induction F as [|a0 b0 l l' H F IH]; intros Hin; [destruct Hin|]. destruct Hin as [<-|Hin].
  - exists a0. split; [left; reflexivity|exact H].
  - destruct (IH Hin) as (a & K1 & K2). exists a. split; [right; exact K1|exact K2].
Qed.

(** The sheared images and bands a row was measured on. *)
Lemma run_clean : forall x c main sbc dbc r t rows dr, all_one_shape main None -> metacal_ok x c -> boxes_ok (st_meds c) -> sep_ok x ->
  reader_ok x ->
  do_metadetect x c main sbc None None dbc = Ok (Some r) -> table r t = Some (Some rows) -> In dr rows ->
  exists md mcal m sb db o, construct (st_conf c) (zlen main) false false sbc dbc = Ok md /\ tp_metacal x main = Ok mcal /\
    In (t, m) mcal /\ In (sb, db) (combine (md_shear md) (md_det md)) /\
    x_row (r_extra dr) = d_y o /\ x_col (r_extra dr) = d_x o /\
    forall f fr, In (f, fr) (combine (md_fitters md) (r_fits dr)) -> o_flags fr = 0 ->
      exists b, stamp_size x (st_meds c) o b /\
        forall ob, In [ob] m ->
          stamp_clean (bmask_flags c) (x_row (r_extra dr)) (x_col (r_extra dr)) b ob /\
          (Z.testbit (bmask_flags c) 30 = true -> stamp_inside (x_row (r_extra dr)) (x_col (r_extra dr)) b ob).
Proof.
  intros x c main sbc dbc r t rows dr HS Hmc Hb Hs Hr H Ht Hin. pose proof HS as (R & C & Hm & _).
  destruct (run_rows _ _ _ _ _ _ HS Hmc Hb Hs H) as (md & mcal & Ec & Em & N & T & T' & K).
  assert (Htt : In t (map fst mcal)).
  { apply T', T. unfold table in Ht. apply assoc_In. exists (Some rows). exact Ht. }
  apply in_map_iff in Htt. destruct Htt as ([t' m] & E & Hmt). cbn [fst] in E. subst t'.
  destruct (K t m Hmt) as (blocks & B1 & B2). rewrite Ht in B2. apply Some_inj in B2.
  assert (Hc : In dr (List.concat blocks)).
  { destruct (List.concat blocks) as [|d0 l]; [discriminate|]. apply Some_inj in B2. subst rows. exact Hin. }
  destruct (in_blocks _ _ _ _ _ _ B1 Hc) as ([sb db] & bl & Hsd & (objs & seg & _ & F) & Hbl).
  destruct (F2_in_r _ _ _ _ _ _ F Hbl) as (no & _ & Hrow). cbn [fst snd] in Hrow.
  pose proof (mcal_shape x c R C Hmc main mcal t m Hm Em Hmt) as Hms.
  exists md, mcal, m, sb, db, (snd no). split; [exact Ec|]. split; [exact Em|]. split; [exact Hmt|]. split; [exact Hsd|].
  pose proof Hrow as (b0 & st0 & _ & _ & _ & (m1 & os & mf & wo & wb & p0 & pm & pr & _ & _ & _ & _ & _ & _ & X1 & X2 & _) & _).
  split; [exact X1|]. split; [exact X2|]. intros f fr Hf Hfl. rewrite X1, X2.
  exact (proj2 (proj2 (row_clean x c md main None None sb db t m seg (fst no) no dr f fr R C Hr Hb Hms Hrow Hf Hfl))).
Qed.
