(** Proofs about Lrng_model. *)
From Coq Require Import ZArith QArith Qcanon List String Bool Lia.
From Verif Require Import Base Arr Median Dict Flags_model Lutil_model Lutil_spec Lutil_proofs Lexp_model Lthr_model Lthr_spec Lmdet_model Lmdet_spec Lmdet_proofs
  Lmeas_model Lmeas_spec Lmeas_proofs Lsub_model Lscar_model Lphot_model Lphot_spec Lphot_proofs Lrun_model Lrun_spec Lrun_proofs Lrng_model Lrng_spec.
From Verif Require Lmcal_model Lmcal_proofs.
Import ListNotations.
Local Open Scope string_scope.
Local Open Scope Z_scope.

(** ** Rows *)
Lemma skeys_put_same : forall (r r' : row) c v v', skeys r = skeys r' -> skeys (sput c v r) = skeys (sput c v' r').
Proof.
  intros r r' c v v' K. destruct (in_dec string_dec c (skeys r)) as [I|I].
  - rewrite !Lmcal_proofs.skeys_sput_old by (rewrite <- ?K; exact I). exact K.
  - rewrite !Lmcal_proofs.skeys_sput_new by (rewrite <- ?K; exact I). now rewrite K.
Qed.
Lemma same_put : forall r r' c v v', same_but_drawn r r' -> v = v' \/ In c drawn_columns -> same_but_drawn (sput c v r) (sput c v' r').
Proof.
  intros r r' c v v' [K S] V. split; [now apply skeys_put_same|]. intros c' N. rewrite !sget_put. destruct (String.eqb_spec c' c) as [->|_]; [|auto].
  destruct V as [->|I]; [reflexivity|contradiction].
Qed.
Lemma sget_cols : forall (g : string -> cell) l rest c, sget c (map (fun c => (c, g c)) l ++ rest)%list = if smem c l then Some (g c) else sget c rest.
Proof.
  intros g l rest c. induction l as [|a l IH]; [reflexivity|]. cbn [map app sget smem existsb]. destruct (String.eqb_spec c a) as [->|_]; [reflexivity|]. exact IH.
Qed.
Lemma skeys_cols : forall (g g' : string -> cell) l rest, skeys (map (fun c => (c, g c)) l ++ rest)%list = skeys (map (fun c => (c, g' c)) l ++ rest)%list.
Proof. intros g g' l rest. unfold skeys. now rewrite !map_app, !map_map. Qed.
Lemma same_cols : forall (g g' : string -> cell) rest, g "shear_bands" = g' "shear_bands" ->
  same_but_drawn (map (fun c => (c, g c)) gauss_columns ++ rest)%list (map (fun c => (c, g' c)) gauss_columns ++ rest)%list.
Proof.
  intros g g' rest E. split; [apply skeys_cols|]. intros c N. rewrite !sget_cols. destruct (smem c gauss_columns) eqn:S; [|reflexivity].
  apply smem_In in S. destruct (string_dec c "shear_bands") as [->|Ne]; [now rewrite E|]. destruct N. cbn in S |- *.
  repeat (destruct S as [<-|S]; [try congruence; tauto|]). destruct S.
Qed.

Section Rng.
Context {G : Type} (L : draws G) (LB : labels_bands L).

Lemma one_same : forall env shear label stamp bmasks i s g g' r g1 r' g1',
  rmeasure_one L env shear label stamp bmasks i s g = Ok (r, g1) -> rmeasure_one L env shear label stamp bmasks i s g' = Ok (r', g1') ->
  same_but_drawn r r'.
Proof.
  intros env shear label stamp bmasks i s g g' r g1 r' g1' H H'. unfold rmeasure_one in *.
  destruct (measure_one (gauss_at L env shear g) label stamp bmasks i s) as [x|] eqn:E; cbn [obind] in H; [|discriminate].
  destruct (measure_one (gauss_at L env shear g') label stamp bmasks i s) as [x'|] eqn:E'; cbn [obind] in H'; [|discriminate].
  apply Ok_inj, pair_equal_spec in H. destruct H as [<- _]. apply Ok_inj, pair_equal_spec in H'. destruct H' as [<- _].
  apply measure_one_ok in E. apply measure_one_ok in E'. destruct E as (f & gc & p & bm & B & C & O). destruct E' as (f' & gc' & p' & bm' & B' & C' & O').
  assert (bm = bm') by congruence. subst bm'.
  assert (X : f = f' /\ p = p' /\ gc "shear_bands" = gc' "shear_bands").
  { clear O O'. unfold stamp_case in *. destruct (stamp (s_id s)) as [obs|[]]; try contradiction.
    - destruct C as (-> & Cg & Cp). destruct C' as (-> & Cg' & Cp'). cbn in Cg, Cg', Cp, Cp'. split; [reflexivity|]. split; [congruence|].
      exact (LB shear obs g obs g' gc gc' Cg Cg').
    - destruct C as (-> & -> & ->). destruct C' as (-> & -> & ->). auto.
    - destruct n as [|[|n]]; try contradiction. destruct C as (-> & -> & ->). destruct C' as (-> & -> & ->). auto. }
  destruct X as (<- & <- & X). apply get_output_ok in O. apply get_output_ok in O'.
  destruct O as (a & b & px & py & pks & bx & A1 & A2 & A3 & ->). destruct O' as (a' & b' & px' & py' & pks' & bx' & A1' & A2' & A3' & ->).
  cbn in A1, A1', A3, A3'. rewrite A2' in A2. inversion A2; subst. clear A2.
  change (mbexp_box (gauss_at L env shear g')) with (mbexp_box env) in A3'. change (mbexp_box (gauss_at L env shear g)) with (mbexp_box env) in A3.
  rewrite A3' in A3. apply Some_inj in A3. subst bx'. rewrite <- A1' in A1. inversion A1; subst. clear A1.
  unfold base_row. rewrite <- !app_assoc. apply same_cols. exact X.
Qed.
Lemma loop_same : forall env shear label stamp bmasks children i g g' o o',
  rmeasure_loop L env shear label stamp bmasks i children g = Ok o -> rmeasure_loop L env shear label stamp bmasks i children g' = Ok o' ->
  Forall2 same_but_drawn (fst o) (fst o').
Proof.
  intros env shear label stamp bmasks. induction children as [|c children IH]; intros i g g' o o' H H'; cbn [rmeasure_loop] in H, H'.
  - apply Ok_inj in H, H'. subst. constructor.
  - destruct (some_or_attr c) as [s|]; cbn [obind] in H, H'; [|discriminate].
    destruct (rmeasure_one L env shear label stamp bmasks i s g) as [[x g1]|] eqn:E; cbn [obind fst snd] in H; [|discriminate].
    destruct (rmeasure_one L env shear label stamp bmasks i s g') as [[x' g1']|] eqn:E'; cbn [obind fst snd] in H'; [|discriminate].
    destruct (rmeasure_loop L env shear label stamp bmasks (S i) children g1) as [l|] eqn:F; cbn [obind] in H; [|discriminate].
    destruct (rmeasure_loop L env shear label stamp bmasks (S i) children g1') as [l'|] eqn:F'; cbn [obind] in H'; [|discriminate].
    apply Ok_inj in H, H'. subst. cbn [fst]. constructor; [exact (one_same _ _ _ _ _ _ _ _ _ _ _ _ _ E E')|exact (IH _ _ _ _ _ F F')].
Qed.
Lemma some_rows_same : forall l l', Forall2 same_but_drawn l l' -> same_tables (some_rows l) (some_rows l').
Proof. intros l l' F. destruct F; cbn; [trivial|constructor; assumption]. Qed.
Lemma measure_same : forall env shear label order cat g g' o o',
  rmeasure L env shear label order cat g = Ok o -> rmeasure L env shear label order cat g' = Ok o' -> same_tables (fst o) (fst o').
Proof.
  intros env shear label order cat g g' o o' H H'. unfold rmeasure in *. destruct cat as [|c0 cat0] eqn:Ec.
  - apply Ok_inj in H, H'. subst. exact Logic.I.
  - rewrite <- Ec in *. destruct (m_shear_bands env) as [sb|]; cbn [obind] in H, H'; [|discriminate].
    destruct (get_bmasks env cat) as [bms|]; cbn [obind] in H, H'; [|discriminate].
    destruct (rmeasure_loop L env shear _ _ bms 0 _ g) as [l|] eqn:E in H; cbn [obind] in H; [|discriminate].
    destruct (rmeasure_loop L env shear _ _ bms 0 _ g') as [l'|] eqn:E' in H'; cbn [obind] in H'; [|discriminate].
    apply Ok_inj in H, H'. subst. cbn [fst]. apply some_rows_same. exact (loop_same _ _ _ _ _ _ _ _ _ _ _ E E').
Qed.
Lemma scar_same : forall env shear names bands cat label bmasks ids i s g g' o o',
  rscar_loop L env shear names bands cat label bmasks i s ids g = Ok o -> rscar_loop L env shear names bands cat label bmasks i s ids g' = Ok o' ->
  Forall2 same_but_drawn (fst o) (fst o').
Proof.
  intros env shear names bands cat label bmasks. induction ids as [|id ids IH]; intros i s g g' o o' H H'; cbn [rscar_loop] in H, H'.
  - apply Ok_inj in H, H'. subst. constructor.
  - destruct (some_or_attr (find_source cat id)) as [src|]; cbn [obind] in H, H'; [|discriminate].
    destruct (with_source Qc Qcplus Qcminus s id _) as [s1 st].
    destruct (rmeasure_one L env shear label (fun _ => st) bmasks i src g) as [[x g1]|] eqn:E; cbn [obind fst snd] in H; [|discriminate].
    destruct (rmeasure_one L env shear label (fun _ => st) bmasks i src g') as [[x' g1']|] eqn:E'; cbn [obind fst snd] in H'; [|discriminate].
    destruct (rscar_loop L env shear names bands cat label bmasks (S i) s1 ids g1) as [l|] eqn:F; cbn [obind] in H; [|discriminate].
    destruct (rscar_loop L env shear names bands cat label bmasks (S i) s1 ids g1') as [l'|] eqn:F'; cbn [obind] in H'; [|discriminate].
    apply Ok_inj in H, H'. subst. cbn [fst]. constructor; [exact (one_same _ _ _ _ _ _ _ _ _ _ _ _ _ E E')|exact (IH _ _ _ _ _ _ F F')].
Qed.
Lemma measure_scarlet_same : forall env shear names mbands fbox blends orig label cat g g' o o',
  rmeasure_scarlet L env shear names mbands fbox blends orig label cat g = Ok o ->
  rmeasure_scarlet L env shear names mbands fbox blends orig label cat g' = Ok o' -> same_tables (fst o) (fst o').
Proof.
  intros env shear names mbands fbox blends orig label cat g g' o o' H H'. unfold rmeasure_scarlet in *. destruct cat as [|c0 cat0] eqn:Ec.
  - apply Ok_inj in H, H'. subst. exact Logic.I.
  - rewrite <- Ec in *. destruct (m_shear_bands env) as [sb|]; cbn [obind] in H, H'; [|discriminate].
    destruct (get_bmasks env cat) as [bms|]; cbn [obind] in H, H'; [|discriminate].
    destruct (copy_mbexp false (m_bands env)) as [bs|]; cbn [obind] in H, H'; [|discriminate].
    destruct (make_subtractor _ _ _ _ _ _ _ _) as [s|]; cbn [obind] in H, H'; [|discriminate].
    destruct (rscar_loop L env shear _ _ _ _ bms 0 s _ g) as [l|] eqn:E in H; cbn [obind] in H; [|discriminate].
    destruct (rscar_loop L env shear _ _ _ _ bms 0 s _ g') as [l'|] eqn:E' in H'; cbn [obind] in H'; [|discriminate].
    apply Ok_inj in H, H'. subst. cbn [fst]. apply some_rows_same. exact (scar_same _ _ _ _ _ _ _ _ _ _ _ _ _ _ E E').
Qed.

(** ** The columns added afterwards *)
Lemma lrow_same : forall r r', same_but_drawn r r' -> lrow_of r = lrow_of r'.
Proof.
  intros r r' [_ S]. unfold lrow_of. rewrite (S "row"), (S "col"), (S "row0"), (S "col0"); [reflexivity|..]; cbn; intuition discriminate.
Qed.
Lemma lrows_same : forall l l', Forall2 same_but_drawn l l' -> omap lrow_of l = omap lrow_of l'.
Proof. intros l l' F. induction F as [|r r' l l' S F IH]; [reflexivity|]. cbn [omap]. now rewrite (lrow_same _ _ S), IH. Qed.
Lemma zip_same : forall A (f : row -> A -> row) l l' (xs : list A), (forall r r' x, same_but_drawn r r' -> same_but_drawn (f r x) (f r' x)) ->
  Forall2 same_but_drawn l l' -> Forall2 same_but_drawn (zip_with f l xs) (zip_with f l' xs).
Proof.
  intros A f l l' xs Hf F. revert xs. induction F as [|r r' l l' S F IH]; intros [|x xs]; cbn; constructor; auto. apply IH.
Qed.
Lemma finish_same : forall P om mf p p' l l' a b, Forall2 same_but_drawn l l' -> st_flags p = st_flags p' -> st_navg p = st_navg p' ->
  finish P om mf p l = Ok a -> finish P om mf p' l' = Ok b -> Forall2 same_but_drawn a b.
Proof.
  intros P om mf p p' l l' a b F Ef En H H'. unfold finish in *. rewrite <- (lrows_same _ _ F) in H'.
  destruct (omap lrow_of l) as [xs|]; cbn [obind] in H, H'; [|discriminate]. cbv zeta in H, H'.
  destruct (add_ormask om xs) as [ys|]; cbn [obind] in H, H'; [|discriminate]. apply Ok_inj in H, H'. subst a b.
  assert (X : Forall2 same_but_drawn (zip_with set_ormask (zip_with set_mfrac l (add_mfrac (ph_W P) (ph_rad P) mf xs)) ys)
    (zip_with set_ormask (zip_with set_mfrac l' (add_mfrac (ph_W P) (ph_rad P) mf xs)) ys)).
  { apply zip_same; [intros; apply same_put; auto|]. apply zip_same; [intros; apply same_put; auto|exact F]. }
  revert X. generalize (zip_with set_ormask (zip_with set_mfrac l (add_mfrac (ph_W P) (ph_rad P) mf xs)) ys) as m.
  generalize (zip_with set_ormask (zip_with set_mfrac l' (add_mfrac (ph_W P) (ph_rad P) mf xs)) ys) as m'. intros m' m X.
  induction X as [|r r' m m' S X IH]; cbn [map]; constructor; [|exact IH]. unfold set_psfrec. rewrite Ef, En.
  apply same_put; [|right; cbn; tauto]. apply same_put; [|right; cbn; tauto]. apply same_put; [|auto]. apply same_put; auto.
Qed.

(** ** The statistics of the original PSFs *)
Lemma draw_length : forall bands g, List.length (fst (draw_psfs L bands g)) = List.length bands.
Proof.
  induction bands as [|e bands IH]; intro g; [reflexivity|]. cbn [draw_psfs]. destruct (g_psf L e g) as [f g1]. specialize (IH g1).
  destruct (draw_psfs L bands g1) as [fs g2]. cbn in *. congruence.
Qed.
Lemma stats_same : forall to_g shear fits fits' ws p p', NoDup shear -> (forall i, In i shear -> 0 <= i < zlen fits) ->
  List.length fits = List.length fits' ->
  fit_original_psfs to_g shear fits ws = Ok p -> fit_original_psfs to_g shear fits' ws = Ok p' -> st_flags p = st_flags p' /\ st_navg p = st_navg p'.
Proof.
  intros to_g shear fits fits' ws p p' N I Le H H'.
  destruct (fit_original_means _ _ _ _ _ N I H) as (_ & fs & _ & _ & _ & Fl & Nv & _).
  assert (I' : forall i, In i shear -> 0 <= i < zlen fits') by (unfold zlen in *; rewrite <- Le; exact I).
  destruct (fit_original_means _ _ _ _ _ N I' H') as (_ & fs' & _ & _ & _ & Fl' & Nv' & _). split; congruence.
Qed.

(** ** Every type *)
Context {Prof : Type} (R : mrun Prof).
Let P := r_phot R.
Lemma type_same : forall s shear names bands g g' o o',
  rmeasure_type L R s shear names bands g = Ok o -> rmeasure_type L R s shear names bands g' = Ok o' -> same_tables (fst o) (fst o').
Proof.
  intros s shear names bands g g' o o' H H'. unfold rmeasure_type in *. fold P in H, H'.
  destruct (snd (detect_and_deblend_config (ph_stack P) (s_thresh s) (s_deblender s) None)) as [c|]; cbn [obind] in H, H'; [|discriminate].
  destruct (String.eqb (s_deblender s) "scarlet").
  - match type of H with obind ?a _ = _ => destruct a as [[d|]|]; cbn [obind] in H, H'; try discriminate end.
    destruct (r_scarlet R c bands d) as [[[cat sc]|]|]; cbn [obind] in H, H'; try discriminate.
    + exact (measure_scarlet_same _ _ _ _ _ _ _ _ _ _ _ _ _ H H').
    + apply Ok_inj in H, H'. subst. exact Logic.I.
  - destruct (dd_run _ _ bands) as [[l|l d]|]; cbn [obind] in H, H'; try discriminate. exact (measure_same _ _ _ _ _ _ _ _ _ H H').
Qed.
Definition same_results (res res' : list (string * entry)) : Prop :=
  Forall2 (fun a b => fst a = fst b /\ same_entry (snd a) (snd b)) res res'.
Lemma results_put : forall res res' t a b, same_results res res' -> same_entry a b -> same_results (sput t a res) (sput t b res').
Proof.
  intros res res' t a b F S. induction F as [|[k x] [k' y] res res' [E X] F IH]; cbn; [repeat constructor; assumption|]. cbn in E. subst k'.
  destruct (String.eqb t k); constructor; auto.
Qed.
Lemma results_get : forall res res' t, same_results res res' ->
  match sget t res, sget t res' with Some a, Some b => same_entry a b | None, None => True | _, _ => False end.
Proof.
  intros res res' t F. induction F as [|[k x] [k' y] res res' [E X] F IH]; cbn [sget]; [exact Logic.I|]. cbn in E. subst k'.
  destruct (String.eqb t k); [exact X|exact IH].
Qed.
Lemma results_keys : forall res res', same_results res res' -> skeys res = skeys res'.
Proof. intros res res' F. induction F as [|a b res res' [E X] F IH]; [reflexivity|]. unfold skeys in *. cbn [map]. congruence. Qed.
Lemma entries_same : forall s shear names om mf p p' l st st' o o', st_flags p = st_flags p' -> st_navg p = st_navg p' ->
  same_results (fst st) (fst st') ->
  ofold (rtype_entry L R s shear names om mf p) l st = Ok o -> ofold (rtype_entry L R s shear names om mf p') l st' = Ok o' ->
  same_results (fst o) (fst o').
Proof.
  intros s shear names om mf p p' l. induction l as [|[t m] l IH]; intros st st' o o' Ef En S H H'; cbn [ofold] in H, H'.
  - apply Ok_inj in H, H'. now subst.
  - destruct (rtype_entry L R s shear names om mf p st (t, m)) as [st1|] eqn:E; cbn [obind] in H; [|discriminate].
    destruct (rtype_entry L R s shear names om mf p' st' (t, m)) as [st1'|] eqn:E'; cbn [obind] in H'; [|discriminate].
    refine (IH _ _ _ _ Ef En _ H H'). clear IH H H'. unfold rtype_entry in E, E'. cbn [fst snd] in E, E'. fold P in E, E'.
    destruct (rmeasure_type L R s shear names (map of_mcal m) (snd st)) as [r|] eqn:M; cbn [obind] in E; [|discriminate].
    destruct (rmeasure_type L R s shear names (map of_mcal m) (snd st')) as [r'|] eqn:M'; cbn [obind] in E'; [|discriminate].
    pose proof (type_same _ _ _ _ _ _ _ _ M M') as T. destruct (fst r) as [rows|], (fst r') as [rows'|]; try contradiction; cbn in T.
    + destruct (finish P om mf p rows) as [a|] eqn:F; cbn [obind] in E; [|discriminate].
      destruct (finish P om mf p' rows') as [b|] eqn:F'; cbn [obind] in E'; [|discriminate].
      apply Ok_inj in E, E'. subst. cbn [fst]. apply results_put; [exact S|]. exact (finish_same _ _ _ _ _ _ _ _ _ T Ef En F F').
    + cbn [obind] in E, E'. apply Ok_inj in E, E'. subst. cbn [fst]. apply results_put; [exact S|exact Logic.I].
Qed.

Lemma rrun_ok : forall user names bands noise mfracs ormasks gp g bands1 res g1,
  rrun_metadetect L R user names bands noise mfracs ormasks gp g = (bands1, Ok (res, g1)) ->
  exists s om mf ws shear p d nd res0,
    read_config R user = Ok s /\
    match ormasks, bands with
    | None, [] => Raise IndexError
    | None, e :: _ => combine_ormasks (nr (e_image e), nc (e_image e)) None
    | Some l, _ => combine_ormasks (0, 0) (Some l)
    end = Ok om /\ get_mfrac_mbexp (map e_var bands) mfracs = Ok (mf, ws) /\
    (if truthy (s_sky s) then subtract_sky_mbexp P (s_thresh s) bands else (bands, Ok tt)) = (bands1, Ok tt) /\
    extract_shear_band_indices names (s_shear s) = Ok shear /\
    fit_original_psfs (ph_to_g P) shear (fst (draw_psfs L bands1 g)) ws = Ok p /\
    Lmcal_model.get_metacal_mbexps_fixnoise (mcal_galsim R) (map to_mcal (combine names bands1)) (map to_mcal (combine names noise))
      (Some (s_types s)) (if String.eqb (s_reconv s) "fitgauss" then Some (perband (fst (draw_psfs L bands1 g))) else None) = Ok (d, nd) /\
    ofold (rtype_entry L R s shear names om mf p) d ([], snd (draw_psfs L bands1 g)) = Ok (res0, g1) /\
    res = if gp then sput "psf_stats" (PsfStats p) res0 else res0.
Proof.
  intros user names bands noise mfracs ormasks gp g bands1 res g1 H. unfold rrun_metadetect in H. fold P in H.
  destruct (obind (read_config R user) _) as [[[s om] mw]|x] eqn:E; [|inversion H].
  destruct (read_config R user) as [s0|] eqn:E1; cbn [obind] in E; [|discriminate].
  match type of E with obind ?a _ = _ => destruct a as [om0|] eqn:E2; cbn [obind] in E; [|discriminate] end.
  destruct (get_mfrac_mbexp (map e_var bands) mfracs) as [[mf ws]|] eqn:E3; cbn [obind] in E; [|discriminate].
  apply Ok_inj in E. inversion E; subst s0 om0 mw. clear E.
  destruct (if truthy (s_sky s) then subtract_sky_mbexp P (s_thresh s) bands else (bands, Ok tt)) as [b1 [[]|x]] eqn:E4; [|inversion H].
  apply pair_equal_spec in H. destruct H as [<- H]. cbn [fst snd] in H.
  destruct (extract_shear_band_indices names (s_shear s)) as [shear|] eqn:E5; cbn [obind] in H; [|discriminate].
  destruct (draw_psfs L b1 g) as [fits gg] eqn:Ed.
  destruct (fit_original_psfs (ph_to_g P) shear fits ws) as [p|] eqn:E6; cbn [obind] in H; [|discriminate].
  cbv zeta in H. destruct (Lmcal_model.get_metacal_mbexps_fixnoise _ _ _ _ _) as [[d nd]|] eqn:E7 in H; cbn [obind fst] in H; [|discriminate].
  destruct (ofold (rtype_entry L R s shear names om mf p) d ([], gg)) as [[res0 g2]|] eqn:E8; cbn [obind fst snd] in H; [|discriminate].
  apply Ok_inj, pair_equal_spec in H. destruct H as [H <-].
  exists s, om, mf, ws, shear, p, d, nd, res0. repeat (split; [first [assumption|reflexivity]|]). now symmetry.
Qed.

Lemma run_same : forall user names bands noise mfracs ormasks gp g g' bands1 res g1 bands1' res' g1',
  distinct_keys (ODict (given_items user)) -> one_name (given_items user) -> List.length names = List.length bands ->
  rrun_metadetect L R user names bands noise mfracs ormasks gp g = (bands1, Ok (res, g1)) ->
  rrun_metadetect L R user names bands noise mfracs ormasks gp g' = (bands1', Ok (res', g1')) ->
  (exists r, given (ODict (given_items user)) ["metacal"; "reconv_type"] = Some (AStr r) /\ r <> "fitgauss") \/
    fst (draw_psfs L bands1 g) = fst (draw_psfs L bands1 g') ->
  bands1 = bands1' /\ same_results res res'.
Proof.
  intros user names bands noise mfracs ormasks gp g g' bands1 res g1 bands1' res' g1' Dk On Ln H H' C.
  destruct (rrun_ok _ _ _ _ _ _ _ _ _ _ _ H) as (s & om & mf & ws & shear & p & d & nd & res0 & E1 & E2 & E3 & E4 & E5 & E6 & E7 & E8 & E9).
  destruct (rrun_ok _ _ _ _ _ _ _ _ _ _ _ H') as (s' & om' & mf' & ws' & shear' & p' & d' & nd' & res0' & E1' & E2' & E3' & E4' & E5' & E6' & E7' & E8' & E9').
  assert (s' = s) by congruence. subst s'. assert (om' = om) by congruence. subst om'. rewrite E3 in E3'. apply Ok_inj in E3'. inversion E3'; subst mf' ws'.
  assert (shear' = shear) by congruence. subst shear'. rewrite E4 in E4'. apply pair_equal_spec in E4'. destruct E4' as [<- _]. split; [reflexivity|].
  assert (Eq : (if String.eqb (s_reconv s) "fitgauss" then Some (perband (fst (draw_psfs L bands1 g))) else None) =
               (if String.eqb (s_reconv s) "fitgauss" then Some (perband (fst (draw_psfs L bands1 g'))) else None)).
  { destruct C as [(r & Gr & Nr)|Eq]; [|now rewrite Eq]. destruct (read_config_ok R user s Dk On E1) as [(_ & _ & _ & _ & _ & (a & [Ga _] & Sr) & _) _].
    rewrite (Ga _ Gr) in Sr. cbn [str_of] in Sr. rewrite Sr. destruct (String.eqb_spec r "fitgauss"); [contradiction|reflexivity]. }
  rewrite <- Eq, E7 in E7'. apply Ok_inj, pair_equal_spec in E7'. destruct E7' as [<- <-].
  destruct (sky_part R s bands bands1 (Ok tt) E4) as [Lo _].
  assert (Lb : List.length bands1 = List.length bands) by (clear -Lo; induction Lo; cbn; congruence).
  pose proof (sorted_nodup _ (shear_bands_sorted names _ shear E5)) as Nd. pose proof (shear_bands_exact names _ shear E5) as Exact.
  assert (Rng : forall i, In i shear -> 0 <= i < zlen (fst (draw_psfs L bands1 g))).
  { intros i I. apply Exact in I. destruct I as (I0 & b & I1 & _). assert (X : nth_error names (Z.to_nat i) <> None) by congruence.
    apply nth_error_Some in X. unfold zlen. rewrite draw_length, Lb. lia. }
  assert (Le : List.length (fst (draw_psfs L bands1 g)) = List.length (fst (draw_psfs L bands1 g'))) by now rewrite !draw_length.
  destruct (stats_same _ _ _ _ _ _ _ Nd Rng Le E6 E6') as [Sf Sn].
  pose proof (entries_same s shear names om mf p p' d ([], snd (draw_psfs L bands1 g)) ([], snd (draw_psfs L bands1 g')) _ _ Sf Sn (Forall2_nil _) E8 E8') as Sr. cbn [fst] in Sr.
  subst res res'. destruct gp; [|exact Sr]. apply results_put; [exact Sr|]. split; assumption.
Qed.

(** ** run_photometry *)
Lemma phot_same : forall P0 h user names bands mfracs ormasks g g' h1 bands1 t g1 h1' bands1' t' g1',
  List.length names = List.length bands ->
  rrun_photometry L P0 h user names bands mfracs ormasks g = (h1, bands1, Ok (t, g1)) ->
  rrun_photometry L P0 h user names bands mfracs ormasks g' = (h1', bands1', Ok (t', g1')) ->
  h1 = h1' /\ bands1 = bands1' /\ same_tables t t'.
Proof.
  intros P0 h user names bands mfracs ormasks g g' h1 bands1 t g1 h1' bands1' t' g1' Ln H H'. unfold rrun_photometry in *.
  destruct (get_config h user) as [h2 [cfg|x]]; [|inversion H].
  match type of H with match ?a with _ => _ end = _ => destruct a as [[[[om mw] ss] thresh]|x] eqn:E0; [|inversion H] end.
  destruct (if truthy ss then _ else _) as [b1 [[]|x]] eqn:E4; [|inversion H].
  assert (Lb : List.length b1 = List.length bands).
  { destruct (truthy ss); [|inversion E4; reflexivity]. apply subtract_lowered in E4. clear -E4. induction E4; cbn; congruence. }
  destruct (conf h2 cfg "shear_bands") as [sb|]; cbn [obind] in H, H'; [|inversion H].
  destruct (names_of sb) as [nb|]; cbn [obind] in H, H'; [|inversion H].
  destruct (extract_shear_band_indices names nb) as [shear|] eqn:E5; cbn [obind] in H, H'; [|inversion H].
  pose proof (draw_length b1 g) as L1. pose proof (draw_length b1 g') as L2.
  destruct (draw_psfs L b1 g) as [fits gg]. destruct (draw_psfs L b1 g') as [fits' gg']. cbn [fst] in L1, L2.
  destruct (fit_original_psfs (ph_to_g P0) shear fits (snd mw)) as [p|] eqn:E6; cbn [obind] in H; [|inversion H].
  destruct (fit_original_psfs (ph_to_g P0) shear fits' (snd mw)) as [p'|] eqn:E6'; cbn [obind] in H'; [|inversion H'].
  pose proof (sorted_nodup _ (shear_bands_sorted names _ shear E5)) as Nd. pose proof (shear_bands_exact names _ shear E5) as Exact.
  assert (Rng : forall i, In i shear -> 0 <= i < zlen fits).
  { intros i I. apply Exact in I. destruct I as (I0 & b & I1 & _). assert (X : nth_error names (Z.to_nat i) <> None) by congruence.
    apply nth_error_Some in X. unfold zlen. rewrite L1, Lb. lia. }
  assert (Le : List.length fits = List.length fits') by congruence.
  destruct (stats_same _ _ _ _ _ _ _ Nd Rng Le E6 E6') as [Sf Sn].
  assert (K : forall b r b' r', rphot_measure L P0 h2 cfg b1 thresh shear gg = (b, Ok r) -> rphot_measure L P0 h2 cfg b1 thresh shear gg' = (b', Ok r') ->
    b = b' /\ same_tables (fst r) (fst r')).
  { clear -LB. intros b r b' r' H H'. unfold rphot_measure in *. destruct (snd (detect_and_deblend_config (ph_stack P0) thresh "sdss" None)) as [c|]; [|inversion H].
    destruct (dd_run _ _ b1) as [[l|l d]|]; try (inversion H; fail). apply pair_equal_spec in H, H'. destruct H as [<- H]. destruct H' as [<- H'].
    split; [reflexivity|]. destruct l as [|c0 l0]; [apply Ok_inj in H, H'; subst; exact Logic.I|].
    destruct (subconf h2 cfg "pgauss" "fwhm") as [fw|]; cbn [obind] in H, H'; [|discriminate].
    destruct (conf h2 cfg "stamp_size") as [a|]; cbn [obind] in H, H'; [|discriminate]. destruct (int_of a) as [sz|]; cbn [obind] in H, H'; [|discriminate].
    exact (measure_same _ _ _ _ _ _ _ _ _ H H'). }
  destruct (rphot_measure L P0 h2 cfg b1 thresh shear gg) as [b [r|]] eqn:M; cbn [obind] in H; [|inversion H].
  destruct (rphot_measure L P0 h2 cfg b1 thresh shear gg') as [b' [r'|]] eqn:M'; cbn [obind] in H'; [|inversion H'].
  destruct (K _ _ _ _ eq_refl eq_refl) as [<- T]. destruct (fst r) as [rows|] eqn:Er, (fst r') as [rows'|] eqn:Er'; try contradiction; cbn in T.
  - destruct (finish P0 om (fst mw) p rows) as [a|] eqn:F; cbn [obind] in H; [|inversion H].
    destruct (finish P0 om (fst mw) p' rows') as [a'|] eqn:F'; cbn [obind] in H'; [|inversion H'].
    inversion H; inversion H'; subst. split; [reflexivity|]. split; [reflexivity|]. exact (finish_same _ _ _ _ _ _ _ _ _ T Sf Sn F F').
  - inversion H; inversion H'; subst. split; [reflexivity|]. split; [reflexivity|exact Logic.I].
Qed.
End Rng.

(** ** Without an influence of the generator: the models without it *)
Definition values {A B} (o : outcome (A * B)) : outcome A := do x <- o; Ok (fst x).
Section Refine.
Context {G : Type} (L : draws G).
Lemma one_values : forall env shear label stamp bmasks i s g, (forall obs g, fst (g_gauss L shear obs g) = m_gauss env obs) ->
  values (rmeasure_one L env shear label stamp bmasks i s g) = measure_one env label stamp bmasks i s.
Proof.
  intros env shear label stamp bmasks i s g Hg. unfold rmeasure_one.
  assert (E : measure_one (gauss_at L env shear g) label stamp bmasks i s = measure_one env label stamp bmasks i s).
  { unfold measure_one. destruct (nth_error bmasks i); [|reflexivity]. cbn [obind].
    assert (F : fit_stamp (gauss_at L env shear g) label (stamp (s_id s)) = fit_stamp env label (stamp (s_id s))).
    { unfold fit_stamp. destruct (stamp (s_id s)) as [obs|]; [|reflexivity]. cbn [gauss_at m_gauss m_pgauss]. now rewrite Hg. }
    rewrite F. reflexivity. }
  rewrite E. unfold values. destruct (measure_one env label stamp bmasks i s); reflexivity.
Qed.
Lemma values_bind : forall A B C D (o : outcome (A * B)) (f : A * B -> outcome (C * D)) (h : A -> outcome C),
  (forall x, values (f x) = h (fst x)) -> values (obind o f) = obind (values o) h.
Proof. intros A B C D [x|e] f h H; [exact (H x)|reflexivity]. Qed.
Lemma loop_values : forall env shear label stamp bmasks, (forall obs g, fst (g_gauss L shear obs g) = m_gauss env obs) -> forall children i g,
  values (rmeasure_loop L env shear label stamp bmasks i children g) = measure_loop env label stamp bmasks i children.
Proof.
  intros env shear label stamp bmasks Hg. induction children as [|c children IH]; intros i g; [reflexivity|]. cbn [rmeasure_loop measure_loop].
  destruct (some_or_attr c) as [s|]; [|reflexivity]. cbn [obind].
  rewrite (values_bind _ _ _ _ _ _ (fun x => do l <- measure_loop env label stamp bmasks (S i) children; Ok (x :: l))); [now rewrite one_values|].
  intro x. rewrite (values_bind _ _ _ _ _ _ (fun l => Ok (fst x :: l))); [now rewrite IH|reflexivity].
Qed.
Lemma measure_values : forall env shear label order cat g, (forall obs g, fst (g_gauss L shear obs g) = m_gauss env obs) ->
  values (rmeasure L env shear label order cat g) = measure env label order cat.
Proof.
  intros env shear label order cat g Hg. unfold rmeasure, measure, measure_with. destruct cat as [|c0 cat0] eqn:Ec; [reflexivity|]. rewrite <- Ec.
  destruct (m_shear_bands env) as [sb|]; [|reflexivity]. cbn [obind]. destruct (get_bmasks env cat) as [bm|]; [|reflexivity]. cbn [obind].
  rewrite (values_bind _ _ _ _ _ _ (fun l => Ok (some_rows l))); [|reflexivity]. rewrite loop_values by exact Hg.
  destruct (measure_loop _ _ _ _ _ _) as [[|r rows]|]; reflexivity.
Qed.
Lemma scar_values : forall env shear names bands cat label bmasks, (forall obs g, fst (g_gauss L shear obs g) = m_gauss env obs) -> forall ids i s g,
  values (rscar_loop L env shear names bands cat label bmasks i s ids g) =
  snd (scar_loop Qc Qcplus Qcminus this env names bands cat label bmasks i s ids).
Proof.
  intros env shear names bands cat label bmasks Hg. induction ids as [|id ids IH]; intros i s g; [reflexivity|]. cbn [rscar_loop scar_loop].
  destruct (find_source cat id) as [src|]; [|reflexivity]. cbn [some_or_attr obind].
  destruct (with_source Qc Qcplus Qcminus s id _) as [s1 st] eqn:W. pose proof (one_values env shear label (fun _ => st) bmasks i src g Hg) as O.
  destruct (rmeasure_one L env shear label (fun _ => st) bmasks i src g) as [[x g1]|]; cbn [obind values fst snd] in O |- *; rewrite <- O; [|reflexivity].
  specialize (IH (S i) s1 g1). destruct (scar_loop Qc Qcplus Qcminus this env names bands cat label bmasks (S i) s1 ids) as [s2 o]. cbn [snd] in IH |- *.
  rewrite <- IH. destruct (rscar_loop _ _ _ _ _ _ _ _ _ _ _ _) as [[l g2]|]; reflexivity.
Qed.
Lemma scarlet_values : forall env shear names mbands fbox blends orig label cat g, (forall obs g, fst (g_gauss L shear obs g) = m_gauss env obs) ->
  values (rmeasure_scarlet L env shear names mbands fbox blends orig label cat g) =
  snd (measure_scarlet Qc Qcplus Qcminus this env names mbands fbox blends orig label cat).
Proof.
  intros env shear names mbands fbox blends orig label cat g Hg. unfold rmeasure_scarlet, measure_scarlet. destruct cat as [|c0 cat0] eqn:Ec; [reflexivity|]. rewrite <- Ec.
  destruct (m_shear_bands env) as [sb|]; [|reflexivity]. cbn [obind]. destruct (get_bmasks env cat) as [bm|]; [|reflexivity]. cbn [obind].
  destruct (copy_mbexp false (m_bands env)) as [bs|]; [|reflexivity]. cbn [obind]. destruct (make_subtractor _ _ _ _ _ _ _ _) as [s|]; [|reflexivity]. cbn [obind].
  rewrite (values_bind _ _ _ _ _ _ (fun l => Ok (some_rows l))); [|reflexivity]. rewrite scar_values by exact Hg.
  destruct (scar_loop _ _ _ _ _ _ _ _ _ _ _ _ _) as [s2 [[|r rows]|]]; reflexivity.
Qed.
Lemma draw_values : forall P bands g, (forall e g, fst (g_psf L e g) = ph_psffit P e) -> fst (draw_psfs L bands g) = map (ph_psffit P) bands.
Proof.
  intros P bands g Hp. revert g. induction bands as [|e bands IH]; intro g; [reflexivity|]. cbn [draw_psfs map]. specialize (Hp e g).
  destruct (g_psf L e g) as [f g1]. specialize (IH g1). destruct (draw_psfs L bands g1) as [fs g2]. cbn in *. congruence.
Qed.
Context {Prof : Type} (R : mrun Prof).
Lemma type_values : forall s shear names bands g, no_influence L (r_phot R) ->
  values (rmeasure_type L R s shear names bands g) = measure_type R s shear names bands.
Proof.
  intros s shear names bands g [_ Hg]. unfold rmeasure_type, measure_type. destruct (snd (detect_and_deblend_config _ _ _ _)) as [c|]; [|reflexivity]. cbn [obind].
  destruct (String.eqb (s_deblender s) "scarlet").
  - match goal with |- values (obind ?a _) = _ => destruct a as [[d|]|]; cbn [obind]; try reflexivity end.
    destruct (r_scarlet R c bands d) as [[[cat sc]|]|]; cbn [obind]; try reflexivity. apply scarlet_values. intros obs g0. exact (Hg shear obs g0).
  - unfold detect_deblend_and_measure. destruct (dd_run _ _ bands) as [[l|l d]|]; cbn [obind]; try reflexivity. apply measure_values. intros obs g0. exact (Hg shear obs g0).
Qed.
Lemma entry_values : forall s shear names om mf p st tm, no_influence L (r_phot R) ->
  values (rtype_entry L R s shear names om mf p st tm) = type_entry R s shear names om mf p (fst st) tm.
Proof.
  intros s shear names om mf p st tm N. unfold rtype_entry, type_entry. pose proof (type_values s shear names (map of_mcal (snd tm)) (snd st) N) as T.
  destruct (rmeasure_type L R s shear names (map of_mcal (snd tm)) (snd st)) as [[r g1]|]; cbn [values obind fst snd] in T |- *; rewrite <- T; [|reflexivity].
  cbn [obind]. destruct r as [rows|]; [|reflexivity]. destruct (finish _ _ _ _ _); reflexivity.
Qed.
Lemma entries_values : forall s shear names om mf p l st, no_influence L (r_phot R) ->
  values (ofold (rtype_entry L R s shear names om mf p) l st) = ofold (type_entry R s shear names om mf p) l (fst st).
Proof.
  intros s shear names om mf p l st N. revert st. induction l as [|tm l IH]; intro st; [destruct st; reflexivity|]. cbn [ofold].
  pose proof (entry_values s shear names om mf p st tm N) as T. destruct (rtype_entry L R s shear names om mf p st tm) as [st1|]; cbn [values obind] in T |- *.
  - rewrite <- T. cbn [obind]. apply IH.
  - rewrite <- T. reflexivity.
Qed.
Lemma run_values : forall user names bands noise mfracs ormasks gp g, no_influence L (r_phot R) ->
  let o := rrun_metadetect L R user names bands noise mfracs ormasks gp g in
  (fst o, values (snd o)) = run_metadetect R user names bands noise mfracs ormasks gp.
Proof.
  intros user names bands noise mfracs ormasks gp g N o. subst o. unfold rrun_metadetect, run_metadetect.
  destruct (obind (read_config R user) _) as [[[s om] mw]|x]; [|reflexivity].
  destruct (if truthy (s_sky s) then _ else _) as [b1 [[]|x]]; [|reflexivity]. cbn [fst snd]. f_equal.
  destruct (extract_shear_band_indices names (s_shear s)) as [shear|]; [|reflexivity]. cbn [obind].
  pose proof (draw_values (r_phot R) b1 g (proj1 N)) as D. destruct (draw_psfs L b1 g) as [fits gg]. cbn [fst] in D. subst fits.
  destruct (fit_original_psfs _ _ _ _) as [p|]; [|reflexivity]. cbn [obind]. cbv zeta.
  destruct (Lmcal_model.get_metacal_mbexps_fixnoise _ _ _ _ _) as [[d nd]|]; [|reflexivity]. cbn [obind fst].
  pose proof (entries_values s shear names om (fst mw) p d ([], gg) N) as E. cbn [fst] in E. rewrite <- E.
  destruct (ofold (rtype_entry _ _ _ _ _ _ _ _) d ([], gg)) as [[res g1]|]; reflexivity.
Qed.
Lemma phot_values : forall P h user names bands mfracs ormasks g, no_influence L P ->
  let o := rrun_photometry L P h user names bands mfracs ormasks g in
  (fst o, values (snd o)) = run_photometry P h user names bands mfracs ormasks.
Proof.
  intros P h user names bands mfracs ormasks g N o. subst o. unfold rrun_photometry, run_photometry.
  destruct (get_config h user) as [h2 [cfg|x]]; [|reflexivity].
  match goal with |- (fst (match ?a with _ => _ end), _) = _ => destruct a as [[[[om mw] ss] thresh]|x]; [|reflexivity] end.
  destruct (if truthy ss then _ else _) as [b1 [[]|x]]; [|reflexivity].
  destruct (conf h2 cfg "shear_bands") as [sb|]; cbn [obind]; [|reflexivity].
  destruct (names_of sb) as [nb|]; cbn [obind]; [|reflexivity].
  destruct (extract_shear_band_indices names nb) as [shear|]; cbn [obind]; [|reflexivity].
  pose proof (draw_values P b1 g (proj1 N)) as D. destruct (draw_psfs L b1 g) as [fits gg]. cbn [fst] in D. subst fits.
  destruct (fit_original_psfs _ _ _ _) as [p|]; [|reflexivity]. cbn [obind].
  assert (M : (fst (rphot_measure L P h2 cfg b1 thresh shear gg), values (snd (rphot_measure L P h2 cfg b1 thresh shear gg))) = phot_measure P h2 cfg b1 thresh shear).
  { unfold rphot_measure, phot_measure. destruct (snd (detect_and_deblend_config _ _ _ _)) as [c|]; [|reflexivity].
    destruct (dd_run _ _ b1) as [[l|l d]|]; try reflexivity. cbn [fst snd]. f_equal. destruct l as [|c0 l0] eqn:El; [reflexivity|]. rewrite <- El.
    destruct (subconf _ _ _ _) as [fw|]; [|reflexivity]. cbn [obind]. destruct (conf h2 cfg "stamp_size") as [a|]; [|reflexivity]. cbn [obind].
    destruct (int_of a) as [z|]; [|reflexivity]. cbn [obind]. apply measure_values. intros obs g0. exact (proj2 N shear obs g0). }
  destruct (rphot_measure L P h2 cfg b1 thresh shear gg) as [b r]. destruct (phot_measure P h2 cfg b1 thresh shear) as [b' r'].
  cbn [fst snd] in M. apply pair_equal_spec in M. destruct M as [<- <-]. cbn [fst snd]. f_equal. destruct r as [[[rows|] g1]|]; [|reflexivity|reflexivity].
  cbn [values obind fst snd]. destruct (finish _ _ _ _ _); reflexivity.
Qed.
End Refine.

(** ** More types *)
Section Types.
Import Lmcal_model Lmcal_proofs Lmcal_spec.
Context {PSF I W P : Type} (g : galsim PSF I W P).
Definition agree {V} (l : list string) (d d' : list (string * V)) : Prop := forall t, In t l -> sget t d = sget t d'.
Lemma exps_fewer : forall exp st l l' rot d', incl l l' -> get_metacal_exps g exp st (Some l') rot = Ok d' ->
  exists d, get_metacal_exps g exp st (Some l) rot = Ok d /\ agree l d d'.
Proof.
  intros exp st l l' rot d' Inc H. unfold get_metacal_exps in *. cbv zeta in *.
  destruct (g_jac g exp) as [w|]; cbn [obind] in *; [|discriminate]. destruct (g_kernel g exp) as [k|]; cbn [obind] in *; [|discriminate].
  match type of H with obind ?a _ = _ => destruct a as [t|]; cbn [obind] in *; [|discriminate] end.
  match type of H with ofold (fun d t => do e <- @?F t; _) _ _ = _ => set (f := F) in * end.
  destruct (fill_loop _ f _ _ _ H) as (A & _ & _).
  destruct (fill_loop_total _ f l []) as [d E]; [intros ty I1; destruct (A ty (Inc _ I1)) as (e & X & _); eauto|].
  exists d. split; [exact E|]. intros ty I1. destruct (fill_loop _ f _ _ _ E) as (B & _ & _). destruct (A ty (Inc _ I1)) as (e & X & Y).
  destruct (B ty I1) as (e' & X' & Y'). congruence.
Qed.
Lemma bands_fewer : forall mbexp stats l l' rot lists lists' d', incl l l' -> agree l lists lists' -> (forall t, In t l -> exists x, sget t lists = Some x) ->
  band_loop g mbexp stats l' rot lists' = Ok d' -> exists d, band_loop g mbexp stats l rot lists = Ok d /\ agree l d d'.
Proof.
  induction mbexp as [|exp mb IH]; intros stats l l' rot lists lists' d' Inc Ag HK H; cbn [band_loop] in *.
  - apply Ok_inj in H. subst. eauto.
  - match type of H with obind ?a _ = _ => destruct a as [st|]; cbn [obind] in *; [|discriminate] end.
    destruct (get_metacal_exps g exp st (Some l') rot) as [this'|] eqn:E1; cbn [obind] in H; [|discriminate].
    destruct (exps_fewer _ _ _ _ _ _ Inc E1) as (this & E & At). rewrite E. cbn [obind].
    destruct (ofold _ this' lists') as [lists1'|] eqn:E2; cbn [obind] in H; [|discriminate].
    destruct (exps_spec g _ _ _ _ _ E) as (N1 & K1 & _). destruct (exps_spec g _ _ _ _ _ E1) as (N1' & _). cbn [requested] in K1.
    destruct (append_loop_total _ this lists) as [lists1 E3]; [intros t I1; apply HK, K1, I1|]. rewrite E3. cbn [obind].
    destruct (append_loop _ _ _ _ N1 E3) as [_ A]. destruct (append_loop _ _ _ _ N1' E2) as [_ A'].
    refine (IH _ _ _ _ _ _ _ Inc _ _ H).
    + intros t I1. rewrite A, A', (At t I1), (Ag t I1). reflexivity.
    + intros t I1. rewrite A. destruct (HK t I1) as [x ->]. destruct (sget t this); cbn; eauto.
Qed.
Lemma mbexps_fewer : forall mbexp l l' rot stats d', incl l l' -> get_metacal_mbexps g mbexp (Some l') rot stats = Ok d' ->
  exists d, get_metacal_mbexps g mbexp (Some l) rot stats = Ok d /\ agree l d d'.
Proof.
  intros mbexp l l' rot stats d' Inc H. unfold get_metacal_mbexps in *. cbv zeta in *.
  destruct (match stats with Some s => _ | None => _ end); [discriminate|].
  destruct (band_loop g mbexp stats l' rot _) as [lists'|] eqn:E; cbn [obind] in H; [|discriminate].
  assert (Ag : agree l (fold_left (fun d t => sput t [] d) l []) (fold_left (fun d t => sput t [] d) l' ([] : list (string * list (exposure PSF I))))).
  { intros t I1. rewrite !init_lists. pose proof (Inc _ I1) as I2. apply smem_In in I1, I2. now rewrite I1, I2. }
  assert (Hk : forall t, In t l -> exists x, sget t (fold_left (fun d t => sput t [] d) l ([] : list (string * list (exposure PSF I)))) = Some x).
  { intros t I1. rewrite init_lists. apply smem_In in I1. rewrite I1. eauto. }
  destruct (bands_fewer _ _ _ _ _ _ _ _ Inc Ag Hk E) as (lists & El & Al).
  rewrite El. cbn [obind]. destruct (fill_loop _ (fun t => dget t lists') _ _ _ H) as (A & _).
  assert (Ad : forall t, In t l -> dget t lists = dget t lists') by (intros t I1; unfold dget; now rewrite (Al t I1)).
  destruct (fill_loop_total _ (fun t => dget t lists) l []) as [d Ed]; [intros t I1; rewrite (Ad t I1); destruct (A t (Inc _ I1)) as (e & X & _); eauto|].
  exists d. split; [exact Ed|]. intros t I1. destruct (fill_loop _ (fun t => dget t lists) _ _ _ Ed) as (B & _).
  destruct (A t (Inc _ I1)) as (e & X & Y). destruct (B t I1) as (e' & X' & Y'). rewrite (Ad t I1) in X'. congruence.
Qed.
Lemma fixnoise_fewer : forall mbexp nmbexp l l' stats d' nd', incl l l' ->
  get_metacal_mbexps_fixnoise g mbexp nmbexp (Some l') stats = Ok (d', nd') ->
  exists d nd, get_metacal_mbexps_fixnoise g mbexp nmbexp (Some l) stats = Ok (d, nd) /\ agree l d d' /\
    (NoDup l -> skeys d = l) /\ (NoDup l' -> skeys d' = l').
Proof.
  intros mbexp nmbexp l l' stats d' nd' Inc H. unfold get_metacal_mbexps_fixnoise in *.
  destruct (get_metacal_mbexps g mbexp (Some l') false stats) as [d0'|] eqn:E1; cbn [obind] in H; [|discriminate].
  destruct (get_metacal_mbexps g nmbexp (Some l') true stats) as [n0'|] eqn:E2; cbn [obind] in H; [|discriminate].
  destruct (ofold _ (skeys d0') d0') as [d1'|] eqn:E3; cbn [obind] in H; [|discriminate].
  apply Ok_inj, pair_equal_spec in H. destruct H as [<- <-].
  destruct (mbexps_fewer _ _ _ _ _ _ Inc E1) as (d0 & F1 & A1). destruct (mbexps_fewer _ _ _ _ _ _ Inc E2) as (n0 & F2 & A2). rewrite F1, F2. cbn [obind].
  destruct (mbexps_spec g _ _ _ _ _ E1) as (N1' & K1' & O1' & _ & _). destruct (mbexps_spec g _ _ _ _ _ F1) as (N1 & K1 & O1 & _ & _).
  destruct (change_loop _ _ (fun t => dget t n0') fix_zip _ _ _ N1' E3) as (K' & C' & _).
  destruct (change_loop_total _ _ (fun t => dget t n0) fix_zip (skeys d0) d0) as [d1 F3].
  { intros t I1. split; [now apply sget_In|]. apply K1 in I1. cbn in I1. destruct (C' t (proj2 (K1' t) (Inc _ I1))) as (e & n & _ & X & _).
    exists n. unfold dget in *. now rewrite (A2 t I1). }
  rewrite F3. cbn [obind]. exists d1, n0. split; [reflexivity|].
  destruct (change_loop _ _ (fun t => dget t n0) fix_zip _ _ _ N1 F3) as (K & C & _). split; [|split; [intro N; rewrite K; now apply O1|intro N; rewrite K'; now apply O1']].
  intros t I1. destruct (C' t (proj2 (K1' t) (Inc _ I1))) as (e' & n' & X1' & X2' & X3'). destruct (C t (proj2 (K1 t) I1)) as (e & n & X1 & X2 & X3).
  rewrite (A1 t I1) in X1. unfold dget in X2, X2'. rewrite (A2 t I1) in X2. rewrite X2' in X2. apply Ok_inj in X2. congruence.
Qed.
End Types.

Lemma assoc_prefix : forall V (d d' : list (string * V)) more, NoDup (skeys d') -> skeys d' = (skeys d ++ more)%list -> agree (skeys d) d d' ->
  exists tl, d' = (d ++ tl)%list /\ skeys tl = more.
Proof.
  intros V. induction d as [|[k v] d IH]; intros d' more N K A; [exists d'; auto|]. destruct d' as [|[k' v'] d']; [discriminate|].
  cbn [skeys map fst app] in K. inversion K as [[K0 K1]]. subst k'. pose proof (A k (or_introl eq_refl)) as E. cbn [sget] in E. rewrite String.eqb_refl in E.
  apply Some_inj in E. subst v'. inversion N as [|x y N1 N2]; subst.
  assert (A' : agree (skeys d) d d').
  { intros t I1. specialize (A t (or_intror I1)). cbn [sget] in A. destruct (String.eqb_spec t k) as [Et|_]; [|exact A]. subst t.
    exfalso. apply N1. change (In k (skeys d')). unfold skeys. rewrite K1. apply in_or_app. left. exact I1. }
  destruct (IH d' more N2 K1 A') as (tl & -> & M). exists tl. split; [reflexivity|exact M].
Qed.
Lemma ofold_app : forall A S (f : S -> A -> outcome S) l1 l2 s, ofold f (l1 ++ l2)%list s = (do s1 <- ofold f l1 s; ofold f l2 s1).
Proof. intros A S f. induction l1 as [|a l1 IH]; intros l2 s; [reflexivity|]. cbn [app ofold]. destruct (f s a); cbn [obind]; [apply IH|reflexivity]. Qed.

Section More.
Context {G Prof : Type} (L : draws G) (R : mrun Prof).
Lemma entries_kept : forall s shear names om mf p l st o, ofold (rtype_entry L R s shear names om mf p) l st = Ok o ->
  forall t, ~ In t (skeys l) -> sget t (fst o) = sget t (fst st).
Proof.
  intros s shear names om mf p. induction l as [|[k m] l IH]; intros st o H t N; cbn [ofold] in H; [apply Ok_inj in H; now subst|].
  destruct (rtype_entry L R s shear names om mf p st (k, m)) as [st1|] eqn:E; cbn [obind] in H; [|discriminate].
  rewrite (IH _ _ H t) by (intro X; apply N; right; exact X). unfold rtype_entry in E.
  destruct (rmeasure_type _ _ _ _ _ _ _) as [r|]; cbn [obind] in E; [|discriminate].
  match type of E with obind ?a _ = _ => destruct a as [x|]; cbn [obind] in E; [|discriminate] end.
  apply Ok_inj in E. subst st1. cbn [fst]. rewrite sget_put. destruct (String.eqb_spec t k) as [->|_]; [|reflexivity]. destruct N. left. reflexivity.
Qed.
Lemma entry_types : forall s types shear names om mf p, rtype_entry L R (with_types s types) shear names om mf p = rtype_entry L R s shear names om mf p.
Proof. reflexivity. Qed.
Lemma run_fewer : forall user user' s more names bands noise mfracs ormasks gp g bands1 res' g1',
  read_config R user = Ok s -> read_config R user' = Ok (with_types s (s_types s ++ more)) -> NoDup (s_types s ++ more)%list ->
  rrun_metadetect L R user' names bands noise mfracs ormasks gp g = (bands1, Ok (res', g1')) ->
  exists res g1, rrun_metadetect L R user names bands noise mfracs ormasks gp g = (bands1, Ok (res, g1)) /\
    forall t, ~ In t more -> sget t res = sget t res'.
Proof.
  intros user user' s more names bands noise mfracs ormasks gp g bands1 res' g1' C C' N H.
  destruct (rrun_ok L R _ _ _ _ _ _ _ _ _ _ _ H) as (s' & om & mf & ws & shear & p & d' & nd' & res0' & E1 & E2 & E3 & E4 & E5 & E6 & E7 & E8 & E9).
  rewrite C' in E1. apply Ok_inj in E1. subst s'. cbn [with_types s_sky s_thresh s_shear s_types s_reconv] in *.
  destruct (fixnoise_fewer (mcal_galsim R) _ _ (s_types s) _ _ _ _ (incl_appl _ (incl_refl _)) E7) as (d & nd & F & Ag & K & K').
  assert (Nl : NoDup (s_types s)) by (clear -N; induction (s_types s); cbn in *; [constructor|inversion N; subst; constructor; [intro X; apply H1, in_or_app; auto|auto]]).
  specialize (K Nl). specialize (K' N). rewrite <- K in Ag.
  destruct (assoc_prefix _ d d' more) as (tl & Ed & Kt); [now rewrite K'|rewrite K', K; reflexivity|exact Ag|]. subst d'.
  rewrite ofold_app in E8. rewrite entry_types in E8. match type of E8 with obind ?a _ = _ => destruct a as [[res0 g1]|] eqn:E; cbn [obind] in E8; [|discriminate] end.
  exists (if gp then sput "psf_stats" (PsfStats p) res0 else res0), g1. split.
  - unfold rrun_metadetect. rewrite C, E3. cbn [obind]. rewrite E2. cbn [obind]. rewrite E4. f_equal. rewrite E5. cbn [obind snd fst].
    destruct (draw_psfs L bands1 g) as [fits gg]. cbn [fst snd] in *. rewrite E6. cbn [obind]. cbv zeta. rewrite F. cbn [obind fst]. unfold mexp. rewrite E. reflexivity.
  - intros t Nt. pose proof (entries_kept _ _ _ _ _ _ _ _ _ E8 t (eq_ind_r (fun l => ~ In t l) Nt Kt)) as X. cbn [fst] in X.
    subst res'. destruct gp; [rewrite !sget_put, X|now rewrite X]. reflexivity.
Qed.

(** One table, whatever the other types are. *)
Lemma entries_table : forall s shear names om mf p l st o, NoDup (skeys l) -> ofold (rtype_entry L R s shear names om mf p) l st = Ok o ->
  forall t m, sget t l = Some m -> exists g0 r tab, rmeasure_type L R s shear names (map of_mcal m) g0 = Ok r /\
    match fst r with None => Ok None | Some rows => do rows <- finish (r_phot R) om mf p rows; Ok (Some rows) end = Ok tab /\
    sget t (fst o) = Some (Table tab).
Proof.
  intros s shear names om mf p. induction l as [|[k m0] l IH]; intros st o N H t m S; [discriminate|]. cbn [ofold] in H. inversion N as [|x y N1 N2]; subst.
  destruct (rtype_entry L R s shear names om mf p st (k, m0)) as [st1|] eqn:E; cbn [obind] in H; [|discriminate]. cbn [sget] in S.
  destruct (String.eqb_spec t k) as [Et|_]; [|exact (IH _ _ N2 H t m S)]. apply Some_inj in S. subst t m0. clear IH.
  pose proof (entries_kept _ _ _ _ _ _ _ _ _ H k N1) as K. unfold rtype_entry in E. cbn [fst snd] in E.
  destruct (rmeasure_type L R s shear names (map of_mcal m) (snd st)) as [r|] eqn:M; cbn [obind] in E; [|discriminate].
  match type of E with obind ?a _ = _ => destruct a as [tab|] eqn:F; cbn [obind] in E; [|discriminate] end.
  apply Ok_inj in E. subst st1. cbn [fst] in K. exists (snd st), r, tab. split; [exact M|]. split; [exact F|]. rewrite K, sget_put, String.eqb_refl. reflexivity.
Qed.
Lemma other_types : forall user user' s types names bands noise mfracs ormasks gp gp' g bands1 res g1 bands1' res' g1', labels_bands L ->
  read_config R user = Ok s -> read_config R user' = Ok (with_types s types) -> NoDup (s_types s) -> NoDup types ->
  rrun_metadetect L R user names bands noise mfracs ormasks gp g = (bands1, Ok (res, g1)) ->
  rrun_metadetect L R user' names bands noise mfracs ormasks gp' g = (bands1', Ok (res', g1')) ->
  forall t, In t (s_types s) -> In t types -> t <> "psf_stats" -> exists tab tab', sget t res = Some (Table tab) /\ sget t res' = Some (Table tab') /\ same_tables tab tab'.
Proof.
  intros user user' s types names bands noise mfracs ormasks gp gp' g bands1 res g1 bands1' res' g1' LB C C' N N' H H' t It It' Np.
  destruct (rrun_ok L R _ _ _ _ _ _ _ _ _ _ _ H) as (s1 & om & mf & ws & shear & p & d & nd & res0 & E1 & E2 & E3 & E4 & E5 & E6 & E7 & E8 & E9).
  destruct (rrun_ok L R _ _ _ _ _ _ _ _ _ _ _ H') as (s' & om' & mf' & ws' & shear' & p' & d' & nd' & res0' & E1' & E2' & E3' & E4' & E5' & E6' & E7' & E8' & E9').
  rewrite C in E1. apply Ok_inj in E1. subst s1. rewrite C' in E1'. apply Ok_inj in E1'. subst s'. cbn [with_types s_sky s_thresh s_shear s_types s_reconv] in *.
  rewrite E2 in E2'. apply Ok_inj in E2'. subst om'. rewrite E3 in E3'. apply Ok_inj in E3'. inversion E3'; subst mf' ws'.
  rewrite E4 in E4'. apply pair_equal_spec in E4'. destruct E4' as [<- _]. rewrite E5 in E5'. apply Ok_inj in E5'. subst shear'.
  rewrite E6 in E6'. apply Ok_inj in E6'. subst p'. rewrite entry_types in E8'.
  destruct (fixnoise_fewer (mcal_galsim R) _ _ [t] _ _ _ _ (fun x (I0 : In x [t]) => match I0 with or_introl e => eq_ind t (fun y => In y (s_types s)) It x e | or_intror f => match f with end end) E7)
    as (d0 & nd0 & F & Ag & _ & K).
  destruct (fixnoise_fewer (mcal_galsim R) _ _ [t] _ _ _ _ (fun x (I0 : In x [t]) => match I0 with or_introl e => eq_ind t (fun y => In y types) It' x e | or_intror f => match f with end end) E7')
    as (d0' & nd0' & F' & Ag' & _ & K').
  rewrite F in F'. apply Ok_inj, pair_equal_spec in F'. destruct F' as [<- <-]. specialize (K N). specialize (K' N').
  specialize (Ag t (or_introl eq_refl)). specialize (Ag' t (or_introl eq_refl)). rewrite Ag in Ag'.
  assert (X : exists m, sget t d = Some m) by (apply sget_In; rewrite K; exact It). destruct X as [m Sm].
  assert (Sm' : sget t d' = Some m) by (rewrite <- Sm; symmetry; exact Ag').
  destruct (entries_table _ _ _ _ _ _ _ _ _ (eq_ind_r (@NoDup string) N K) E8 t m Sm) as (ga & r & tab & M & T & S).
  destruct (entries_table _ _ _ _ _ _ _ _ _ (eq_ind_r (@NoDup string) N' K') E8' t m Sm') as (ga' & r' & tab' & M' & T' & S').
  exists tab, tab'. cbn [fst] in S, S'. split; [|split].
  - subst res. destruct gp; [rewrite sget_put; destruct (String.eqb_spec t "psf_stats"); [contradiction|exact S]|exact S].
  - subst res'. destruct gp'; [rewrite sget_put; destruct (String.eqb_spec t "psf_stats"); [contradiction|exact S']|exact S'].
  - pose proof (type_same L LB R _ _ _ _ _ _ _ _ M M') as Y. destruct (fst r) as [rows|], (fst r') as [rows'|]; try contradiction; cbn in Y.
    + destruct (finish (r_phot R) om mf p rows) as [a|] eqn:Fa; cbn [obind] in T; [|discriminate].
      destruct (finish (r_phot R) om mf p rows') as [b|] eqn:Fb; cbn [obind] in T'; [|discriminate].
      apply Ok_inj in T, T'. subst tab tab'. exact (finish_same _ _ _ _ _ _ _ _ _ Y eq_refl eq_refl Fa Fb).
    + apply Ok_inj in T, T'. subst tab tab'. exact Logic.I.
Qed.
End More.
