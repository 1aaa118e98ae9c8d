(** Proofs for C131. *)
From Coq Require Import ZArith QArith List String Bool Lia.
From Verif Require Import Base Arr Median Flags_model Detect_model Detect_spec Detect_proofs Coadd_model Wavg_model Wavg_spec Wavg_proofs
  Joint_model Conf_model Mdet_model Mdet_spec Mrun_model Mrun_spec Mrun_proofs Mlocal_spec Mlocal_proofs Onlyb_spec.
Import ListNotations.
Local Open Scope string_scope.
Local Open Scope Z_scope.

(** ** Averaged moments *)
Definition alike_sb (b b' : sband) : Prop := b_issb b = b_issb b' /\ (b_issb b = true -> b = b').

Lemma step_alike : forall w s b b', alike_sb b b' -> sum_step w s b = sum_step w s b'.
Proof.
  intros w s b b' [E S]. destruct (b_issb b) eqn:I; [rewrite (S eq_refl); reflexivity|].
  unfold sum_step. rewrite I, <- E. reflexivity.
Qed.

Lemma sums_alike : forall w l l', Forall2 alike_sb l l' -> sum_bands_wavg w l = sum_bands_wavg w l'.
Proof.
  intros w l l' H. unfold sum_bands_wavg. assert (E : fold_left (sum_step w) l sums0 = fold_left (sum_step w) l' sums0).
  { generalize sums0. induction H as [|b b' l l' A H IH]; intro s; cbn [fold_left]; [reflexivity|]. rewrite (step_alike w s b b' A). apply IH. }
  rewrite E. reflexivity.
Qed.

(** Two bands that agree when they are shear bands. *)
Definition alike_band (j j' : Wavg_spec.band) : Prop := j_is j = j_is j' /\ (j_is j = true -> j = j').

Lemma alike_obj : forall js js', Forall2 alike_band js js' -> Forall2 alike_sb (map obj_band js) (map obj_band js').
Proof.
  induction 1 as [|j j' js js' [E S] H IH]; cbn [map]; constructor; [|exact IH]. split; [exact E|]. cbn [b_issb obj_band]. intro I. rewrite (S I). reflexivity.
Qed.
Lemma alike_psf : forall js js', Forall2 alike_band js js' -> Forall2 alike_sb (map psf_band js) (map psf_band js').
Proof.
  induction 1 as [|j j' js js' [E S] H IH]; cbn [map]; constructor; [|exact IH]. split; [exact E|]. cbn [b_issb psf_band]. intro I. rewrite (S I). reflexivity.
Qed.
Lemma alike_exists : forall js js', Forall2 alike_band js js' -> existsb j_is js = existsb j_is js'.
Proof. induction 1 as [|j j' js js' [E S] H IH]; cbn [existsb]; [reflexivity|]. rewrite E, IH. reflexivity. Qed.

Lemma finish_alike : forall ng mk to_T qsqrt d0 n mf pf sd pd fw bf be ff bf' be' ff',
  same_object (finish_row ng mk to_T qsqrt d0 n mf pf sd pd fw bf be ff) (finish_row ng mk to_T qsqrt d0 n mf pf sd pd fw bf' be' ff').
Proof. intros. unfold same_object, finish_row. cbn -[make_mom_res flag_value]. repeat split; reflexivity. Qed.

Lemma combine_alike : forall ng mk to_T qsqrt js js' sb fw r r', Forall2 alike_band js js' ->
  combine_bands ng mk to_T qsqrt js sb fw = Ok r -> combine_bands ng mk to_T qsqrt js' sb fw = Ok r' -> same_object r r'.
Proof.
  intros ng mk to_T qsqrt js js' sb fw r r' F H H'. rewrite combine_bands_eq in H, H'.
  assert (L : List.length js' = List.length js) by (apply F2_len in F; congruence).
  assert (So : sum_obj js' = sum_obj js) by (unfold sum_obj; symmetry; apply sums_alike, alike_obj; exact F).
  assert (Sp : sum_psf js' = sum_psf js) by (unfold sum_psf; symmetry; apply sums_alike, alike_psf; exact F).
  assert (D : differ js' = differ js) by (unfold differ; rewrite So, Sp; reflexivity).
  rewrite <- (alike_exists js js' F), L in H'. unfold comb_flags in H, H'. rewrite D, So, Sp in H'.
  destruct (zlen sb <=? MAX_NUM_SHEAR_BANDS); [|discriminate H].
  destruct (existsb j_is js); apply Ok_inj in H, H'; subst r r'; apply finish_alike.
Qed.

Lemma combine_flux : forall ng mk to_T qsqrt js js' sb fw r r' k j j', Forall2 (fun j j' => j_is j = j_is j') js js' ->
  combine_bands ng mk to_T qsqrt js sb fw = Ok r -> combine_bands ng mk to_T qsqrt js' sb fw = Ok r' ->
  nth_error js k = Some j -> nth_error js' k = Some j' -> j_res j = j_res j' -> j_flags j = j_flags j' -> same_flux k r r'.
Proof.
  intros ng mk to_T qsqrt js js' sb fw r r' k j j' F H H' K K' R G. rewrite combine_bands_eq in H, H'.
  assert (L : List.length js' = List.length js) by (apply F2_len in F; congruence).
  assert (X : existsb j_is js' = existsb j_is js).
  { clear - F. induction F as [|a b l l' E F IH]; cbn [existsb]; [reflexivity|]. rewrite E, IH. reflexivity. }
  rewrite X, L in H'. destruct (zlen sb <=? MAX_NUM_SHEAR_BANDS); [|discriminate H].
  assert (N : exists n, List.length js = S n).
  { destruct js as [|a js]; [destruct k; discriminate K|]. exists (List.length js). reflexivity. }
  destruct N as [n N]. rewrite N in H, H'.
  assert (C : nth_error (flux_cols js) k = nth_error (flux_cols js') k).
  { unfold flux_cols. rewrite (map_nth_error _ _ _ K), (map_nth_error _ _ _ K'), R, G. reflexivity. }
  assert (M : forall B (f : num * num * Z -> B), nth_error (map f (flux_cols js)) k = nth_error (map f (flux_cols js')) k).
  { intros B f. rewrite !nth_error_map. rewrite C. reflexivity. }
  destruct (existsb j_is js); apply Ok_inj in H, H'; subst r r'; unfold same_flux, finish_row;
    cbn [o_band_flux o_band_flux_err o_band_flux_flags]; repeat split; try apply M.
Qed.

Lemma index_bands : forall k n, (k < n)%nat -> nth_error (zrange (Z.of_nat n)) k = Some (Z.of_nat k).
Proof.
  intros k n H. unfold zrange, zrange2. rewrite (map_nth_error _ _ _ (d := k)).
  - reflexivity.
  - rewrite (nth_error_nth' _ 0%nat) by (rewrite seq_length; lia). rewrite seq_nth by lia. reflexivity.
Qed.

Lemma nth_combine : forall A B (l : list A) (m : list B) k a b, nth_error l k = Some a -> nth_error m k = Some b ->
  nth_error (combine l m) k = Some (a, b).
Proof.
  intros A B l m k. revert l m. induction k as [|k IH]; intros [|x l] [|y m] a b H H'; try discriminate; cbn [nth_error combine] in *.
  - apply Some_inj in H, H'. subst. reflexivity.
  - apply IH; assumption.
Qed.

Lemma bands_nth : forall sb fits k f, nth_error fits k = Some f ->
  nth_error (mk_bands sb fits (zrange (zlen fits))) k =
  Some (Wavg_spec.mkBand (bf_wgt f) (bf_obj f) (bf_psf f) (existsb (Z.eqb (Z.of_nat k)) sb) (bf_flags f)).
Proof.
  intros sb fits k f H. unfold mk_bands. assert (L : (k < List.length fits)%nat) by (apply nth_error_Some; congruence).
  rewrite (map_nth_error _ _ _ (d := (f, Z.of_nat k))); [reflexivity|]. apply nth_combine; [exact H|]. apply index_bands. exact L.
Qed.

Lemma F2_nth : forall A B (P : A -> B -> Prop) l l', List.length l = List.length l' ->
  (forall k a b, nth_error l k = Some a -> nth_error l' k = Some b -> P a b) -> Forall2 P l l'.
Proof.
  intros A B P l. induction l as [|a l IH]; intros [|b l'] L H; try discriminate; constructor.
  - exact (H 0%nat a b eq_refl eq_refl).
  - apply IH; [cbn in L; lia|]. intros k x y K K'. exact (H (S k) x y K K').
Qed.

Lemma omap_nth : forall A B (f : A -> outcome B) l r k, omap f l = Ok r -> List.length r = List.length l /\
  forall b, nth_error r k = Some b -> exists a, nth_error l k = Some a /\ f a = Ok b.
Proof.
  intros A B f l r k H. revert r k H. induction l as [|a l IH]; intros r k H; cbn [omap] in H.
  - apply Ok_inj in H. subst r. split; [reflexivity|]. intros b K. destruct k; discriminate K.
  - destruct (f a) as [b|e] eqn:E; cbn [obind] in H; [|discriminate H].
    destruct (omap f l) as [bs|e] eqn:E2; cbn [obind] in H; [|discriminate H]. apply Ok_inj in H. subst r.
    destruct (IH bs (pred k) eq_refl) as [L K]. split; [cbn; lia|]. intros x X. destruct k as [|k]; cbn [nth_error] in *.
    + apply Some_inj in X. subst x. exists a. split; [reflexivity|exact E].
    + cbn [pred] in K. exact (K x X).
Qed.

(** The two lists of bands, position by position. *)
Lemma fits_alike : forall ft bm sym bs (mb mb' : list (list fobs)) fits fits' k f f', agree_in bs mb mb' ->
  omap (fun ol => fit_obslist ol ft bm sym) mb = Ok fits -> omap (fun ol => fit_obslist ol ft bm sym) mb' = Ok fits' ->
  nth_error fits k = Some f -> nth_error fits' k = Some f' -> In (Z.of_nat k) bs -> f = f'.
Proof.
  intros ft bm sym bs mb mb' fits fits' k f f' [L A] E E' K K' I.
  destruct (omap_nth _ _ _ _ _ k E) as [_ N]. destruct (omap_nth _ _ _ _ _ k E') as [_ N'].
  destruct (N f K) as (a & Ka & Fa). destruct (N' f' K') as (a' & Ka' & Fa'). rewrite (A k I), Ka' in Ka. apply Some_inj in Ka. subst a'.
  congruence.
Qed.

Lemma wavg_object : forall ng mk to_T qsqrt ft bm sb fw sym mb mb' r r', agree_in sb mb mb' ->
  fit_mbobs_wavg ng mk to_T qsqrt mb ft bm (Some sb) fw sym = Ok r ->
  fit_mbobs_wavg ng mk to_T qsqrt mb' ft bm (Some sb) fw sym = Ok r' -> same_object r r'.
Proof.
  intros ng mk to_T qsqrt ft bm sb fw sym mb mb' r r' A H H'.
  destruct (fit_mbobs_as_bands _ _ _ _ _ _ _ _ _ _ _ H) as (fits & E & L & C).
  destruct (fit_mbobs_as_bands _ _ _ _ _ _ _ _ _ _ _ H') as (fits' & E' & L' & C').
  cbn [the_shear_bands] in C, C'. pose proof A as [LA _].
  replace (zlen mb) with (zlen fits) in C by (unfold zlen; rewrite L; reflexivity).
  replace (zlen mb') with (zlen fits') in C' by (unfold zlen; rewrite L'; reflexivity).
  refine (combine_alike _ _ _ _ _ _ _ _ _ _ _ C C'). apply F2_nth.
  - unfold mk_bands. rewrite !map_length, !combine_length, !zrange_len. lia.
  - intros k j j' K K'.
    assert (Lk : forall fs jj, nth_error (mk_bands sb fs (zrange (zlen fs))) k = Some jj -> exists f, nth_error fs k = Some f).
    { intros fs jj X. assert (Y : (k < List.length (mk_bands sb fs (zrange (zlen fs))))%nat) by (apply nth_error_Some; congruence).
      unfold mk_bands in Y. rewrite map_length, combine_length, zrange_len in Y.
      destruct (nth_error fs k) as [f|] eqn:Z; [exists f; reflexivity|]. apply nth_error_None in Z. lia. }
    destruct (Lk _ _ K) as [f F]. destruct (Lk _ _ K') as [f' F'].
    rewrite (bands_nth sb fits k f F) in K. rewrite (bands_nth sb fits' k f' F') in K'. apply Some_inj in K, K'. subst j j'.
    split; [reflexivity|]. cbn [j_is]. intro I. apply existsb_exists in I. destruct I as (z & Iz & Ez). apply Z.eqb_eq in Ez. subst z.
    rewrite (fits_alike ft bm sym sb mb mb' fits fits' k f f' A E E' F F' Iz). reflexivity.
Qed.

Lemma wavg_flux : forall ng mk to_T qsqrt ft bm sb fw sym bs mb mb' r r' k, agree_in bs mb mb' ->
  fit_mbobs_wavg ng mk to_T qsqrt mb ft bm (Some sb) fw sym = Ok r ->
  fit_mbobs_wavg ng mk to_T qsqrt mb' ft bm (Some sb) fw sym = Ok r' ->
  In (Z.of_nat k) bs -> (k < List.length mb)%nat -> same_flux k r r'.
Proof.
  intros ng mk to_T qsqrt ft bm sb fw sym bs mb mb' r r' k A H H' I Lk.
  destruct (fit_mbobs_as_bands _ _ _ _ _ _ _ _ _ _ _ H) as (fits & E & L & C).
  destruct (fit_mbobs_as_bands _ _ _ _ _ _ _ _ _ _ _ H') as (fits' & E' & L' & C').
  cbn [the_shear_bands] in C, C'. pose proof A as [LA _].
  replace (zlen mb) with (zlen fits) in C by (unfold zlen; rewrite L; reflexivity).
  replace (zlen mb') with (zlen fits') in C' by (unfold zlen; rewrite L'; reflexivity).
  destruct (nth_error fits k) as [f|] eqn:F; [|apply nth_error_None in F; lia].
  destruct (nth_error fits' k) as [f'|] eqn:F'; [|apply nth_error_None in F'; lia].
  pose proof (fits_alike ft bm sym bs mb mb' fits fits' k f f' A E E' F F' I) as Q. subst f'.
  refine (combine_flux _ _ _ _ _ _ _ _ _ _ k _ _ _ C C' (bands_nth sb fits k f F) (bands_nth sb fits' k f F') eq_refl eq_refl).
  apply F2_nth.
  - unfold mk_bands. rewrite !map_length, !combine_length, !zrange_len. lia.
  - intros q j j' K K'.
    assert (Lq : forall fs jj, nth_error (mk_bands sb fs (zrange (zlen fs))) q = Some jj -> exists f, nth_error fs q = Some f).
    { intros fs jj X. assert (Y : (q < List.length (mk_bands sb fs (zrange (zlen fs))))%nat) by (apply nth_error_Some; congruence).
      unfold mk_bands in Y. rewrite map_length, combine_length, zrange_len in Y.
      destruct (nth_error fs q) as [g|] eqn:Z; [exists g; reflexivity|]. apply nth_error_None in Z. lia. }
    destruct (Lq _ _ K) as [g G]. destruct (Lq _ _ K') as [g' G'].
    rewrite (bands_nth sb fits q g G) in K. rewrite (bands_nth sb fits' q g' G') in K'. apply Some_inj in K, K'. subst j j'. reflexivity.
Qed.

(** ** Joint fits *)
Lemma index_agree : forall A bs (l l' : list A) b, agree_in bs l l' -> In b bs -> 0 <= b -> py_index l b = py_index l' b.
Proof.
  intros A bs l l' b [L E] I P. unfold py_index. assert (Z' : zlen l = zlen l') by (unfold zlen; rewrite L; reflexivity).
  cbv zeta. rewrite Z'. destruct (Z.ltb_spec b 0); [lia|]. rewrite (E (Z.to_nat b)); [reflexivity|]. rewrite Z2Nat.id by lia. exact I.
Qed.
Lemma omap_agree : forall A B (f : list A -> Z -> outcome B) (l l' : list A) bs,
  (forall b, In b bs -> f l b = f l' b) -> omap (f l) bs = omap (f l') bs.
Proof.
  intros A B f l l' bs H. induction bs as [|b bs IH]; cbn [omap]; [reflexivity|].
  rewrite (H b (or_introl eq_refl)), IH; [reflexivity|]. intros x X. apply H. right. exact X.
Qed.

Lemma coadd_agree : forall sb mb mb', agree_in sb mb mb' -> (forall b, In b sb -> 0 <= b) -> make_coadd_obs mb sb = make_coadd_obs mb' sb.
Proof.
  intros sb mb mb' A P. assert (Z' : zlen mb = zlen mb') by (unfold zlen; rewrite (proj1 A); reflexivity).
  assert (B : forall b, In b sb -> band_obs mb b = band_obs mb' b).
  { intros b I. unfold band_obs. rewrite (index_agree _ sb mb mb' b A I (P b I)). reflexivity. }
  assert (H0 : forall s0, py_index sb 0 = Ok s0 -> In s0 sb).
  { intros s0 E. unfold py_index in E. cbv zeta in E. change (0 <? 0) with false in E. cbv iota in E.
    destruct (andb (0 <=? 0) (0 <? zlen sb)); [|discriminate E].
    destruct (nth_error sb (Z.to_nat 0)) as [x|] eqn:N; [|discriminate E]. apply Ok_inj in E. subst x. exact (nth_error_In _ _ N). }
  assert (AC : forall fo l, incl l sb -> all_consistent mb fo l = all_consistent mb' fo l).
  { intros fo l. induction l as [|b l IH]; intro I; cbn [all_consistent]; [reflexivity|]. rewrite (B b (I b (or_introl eq_refl))).
    destruct (band_obs mb' b) as [o|e]; cbn [obind]; [|reflexivity]. destruct (consistent fo o); [|reflexivity].
    apply IH. intros x X. apply I. right. exact X. }
  assert (TL : incl (tl sb) sb) by (destruct sb as [|b l]; [intros x X; exact X|intros x X; right; exact X]).
  unfold make_coadd_obs. rewrite Z'. cbv zeta.
  assert (M : (if existsb (fun s => zlen mb' <=? s) sb then Ok (None, flag_value INCONSISTENT_BANDS)
    else do s0 <- py_index sb 0; do fo <- band_obs mb s0; do ok <- all_consistent mb fo (tl sb);
      if negb ok then Ok (None, flag_value INCONSISTENT_BANDS)
      else do obs <- omap (band_obs mb) sb; match f_psf fo with None => Raise AttributeError | Some fp => Ok (coadd_many obs fo fp) end) =
    (if existsb (fun s => zlen mb' <=? s) sb then Ok (None, flag_value INCONSISTENT_BANDS)
    else do s0 <- py_index sb 0; do fo <- band_obs mb' s0; do ok <- all_consistent mb' fo (tl sb);
      if negb ok then Ok (None, flag_value INCONSISTENT_BANDS)
      else do obs <- omap (band_obs mb') sb; match f_psf fo with None => Raise AttributeError | Some fp => Ok (coadd_many obs fo fp) end)).
  { destruct (existsb (fun s => zlen mb' <=? s) sb); [reflexivity|].
    destruct (py_index sb 0) as [s0|e] eqn:E0; cbn [obind]; [|reflexivity]. rewrite (B s0 (H0 s0 eq_refl)).
    destruct (band_obs mb' s0) as [fo|e]; cbn [obind]; [|reflexivity]. rewrite (AC fo (tl sb) TL).
    rewrite (omap_agree _ _ band_obs mb mb' sb B). reflexivity. }
  destruct (zlen mb' =? 1).
  - destruct (py_index sb 0) as [s0|e] eqn:E0; cbn [obind]; [|reflexivity]. destruct (Z.eqb_spec s0 0) as [->|_]; [|reflexivity].
    rewrite (B 0 (H0 0 eq_refl)). reflexivity.
  - destruct sb as [|s [|s1 l]]; [exact M| |exact M]. destruct (s <? zlen mb'); [|reflexivity]. rewrite (B s (or_introl eq_refl)). reflexivity.
Qed.

Lemma no_attempt : forall ng n sb d0 f, NO_ATTEMPT ng <> 0 -> get_wavg_output_struct ng n sb = Ok d0 -> o_flags (add_flags d0 f) <> 0.
Proof.
  intros ng n sb d0 f N E Z. unfold get_wavg_output_struct in E. destruct (zlen sb <=? MAX_NUM_SHEAR_BANDS); [|discriminate E].
  apply Ok_inj in E. subst d0. cbn [o_flags add_flags] in Z. apply Z.lor_eq_0_iff in Z. tauto.
Qed.

Lemma gauss_agree : forall ng boot mb mb' bm sb coadd r r', NO_ATTEMPT ng <> 0 -> agree_in sb mb mb' -> (forall b, In b sb -> 0 <= b) ->
  fit_mbobs_gauss ng boot mb bm (Some sb) coadd = Ok r -> fit_mbobs_gauss ng boot mb' bm (Some sb) coadd = Ok r' ->
  o_flags r = 0 -> o_flags r' = 0 -> r = r'.
Proof.
  intros ng boot mb mb' bm sb coadd r r' N A P H H' F F'. unfold fit_mbobs_gauss in H, H'. cbn [default_bands] in H, H'. cbv zeta in H, H'.
  assert (Z' : zlen mb = zlen mb') by (unfold zlen; rewrite (proj1 A); reflexivity). pose proof (proj1 A) as L.
  assert (G : gauss_stamps mb sb coadd = gauss_stamps mb' sb coadd).
  { unfold gauss_stamps. rewrite (coadd_agree sb mb mb' A P).
    rewrite (omap_agree _ _ py_index mb mb' sb); [reflexivity|]. intros b I. exact (index_agree _ sb mb mb' b A I (P b I)). }
  rewrite L in H. rewrite Z' in H. destruct (get_wavg_output_struct ng (List.length mb') sb) as [d0|e] eqn:D; cbn [obind] in H, H'; [|discriminate H].
  pose proof (fun f => no_attempt ng _ sb d0 f N D) as NA.
  destruct (data_flags bm mb) as [f|e]; cbn [obind] in H; [|discriminate H].
  destruct (data_flags bm mb') as [f'|e]; cbn [obind] in H'; [|discriminate H'].
  match type of H with (if ?c then _ else _) = _ => destruct c end; [apply Ok_inj in H; subst r; destruct (NA _ F)|].
  match type of H' with (if ?c then _ else _) = _ => destruct c end; [apply Ok_inj in H'; subst r'; destruct (NA _ F')|].
  rewrite G in H. rewrite H in H'. apply Ok_inj in H'. exact H'.
Qed.

Lemma admom_agree : forall ng rp ro mb mb' bm sb sym r r', NO_ATTEMPT ng <> 0 -> agree_in sb mb mb' -> (forall b, In b sb -> 0 <= b) ->
  fit_mbobs_admom ng rp ro mb bm (Some sb) sym = Ok r -> fit_mbobs_admom ng rp ro mb' bm (Some sb) sym = Ok r' ->
  o_flags r = 0 -> o_flags r' = 0 -> r = r'.
Proof.
  intros ng rp ro mb mb' bm sb sym r r' N A P H H' F F'. unfold fit_mbobs_admom in H, H'. cbn [default_bands] in H, H'. cbv zeta in H, H'.
  pose proof (proj1 A) as L. rewrite L in H. rewrite (coadd_agree sb mb mb' A P) in H.
  destruct (get_wavg_output_struct ng (List.length mb') sb) as [d0|e] eqn:D; cbn [obind] in H, H'; [|discriminate H].
  pose proof (fun f => no_attempt ng _ sb d0 f N D) as NA.
  destruct (data_flags bm mb) as [f|e]; cbn [obind] in H; [|discriminate H].
  destruct (data_flags bm mb') as [f'|e]; cbn [obind] in H'; [|discriminate H'].
  match type of H with (if ?c then _ else _) = _ => destruct c end; [apply Ok_inj in H; subst r; destruct (NA _ F)|].
  match type of H' with (if ?c then _ else _) = _ => destruct c end; [apply Ok_inj in H'; subst r'; destruct (NA _ F')|].
  rewrite H in H'. apply Ok_inj in H'. exact H'.
Qed.

(** ** The run *)
Lemma stamp_same_in : forall x c seg seg' n y xx b o0 o0' o o' st st' R C, reader_local x ->
  nr (ob_image o0) = R -> nc (ob_image o0) = C -> nr (ob_image o0') = R -> nc (ob_image o0') = C ->
  ob_jac o0 = ob_jac o0' -> nr (ob_psf o0) = nr (ob_psf o0') -> nc (ob_psf o0) = nc (ob_psf o0') ->
  (forall t p, plane_of o seg t p -> nr p = R /\ nc p = C) ->
  same_obs_under y xx b o o' -> same_under y xx b seg seg' ->
  stamp_in x c seg n y xx b o0 o st -> stamp_in x c seg' n y xx b o0' o' st' -> st = st'.
Proof.
  intros x c seg seg' n y xx b o0 o0' o o' st st' R C Hr N0 C0 N0' C0' J P1 P2 Hp Ho Hs
    (cut & e & E & A1 & A2 & A3 & A4 & A5 & A6 & A7 & A8 & Hc & Hm)
    (cut' & e' & E' & B1 & B2 & B3 & B4 & B5 & B6 & B7 & B8 & Hc' & Hm').
  rewrite <- J, <- P1, <- P2 in E'.
  rewrite (Hr _ cut cut' e e' _ _ (ob_psf o) (ob_psf o')) in E.
  - congruence.
  - intro t. destruct (planes_same y xx b o o' seg seg' Ho Hs t) as [(p & p' & Q & Q' & U)|[Q Q']].
    + left. destruct (Hp t p Q) as [D1 D2]. pose proof U as (U1 & U2 & _).
      destruct (Hc t p Q) as (s & S1 & S2 & S3 & S4); [congruence|congruence|].
      destruct (Hc' t p' Q') as (s' & S1' & S2' & S3' & S4'); [congruence|congruence|].
      exists s, s'. split; [exact S1|]. split; [exact S1'|]. split; [congruence|]. split; [congruence|].
      intros i j [Hi Hj]. rewrite S4, S4' by lia. apply stamp_pixel_same; [exact U|lia|lia].
    + right. destruct (Hm t Q) as [[T ->]|[T ->]], (Hm' t Q') as [[T' ->]|[T' ->]]; try contradiction; eexists; split; reflexivity.
  - unfold same_entry. split; [congruence|]. split; [congruence|]. split; [congruence|]. split; [congruence|].
    split; [congruence|]. split; [congruence|]. split; congruence.
  - destruct Ho as (_ & _ & _ & _ & _ & P). exact P.
Qed.

Lemma stamps_agree : forall x c seg seg' n bs y xx b m m' st st' R C R' C', reader_local x -> has_shape m R C -> has_shape m' R' C' ->
  same_stamps_in bs y xx b seg seg' m m' ->
  stamps_in x c seg n y xx b m st -> stamps_in x c seg' n y xx b m' st' -> agree_in bs st st'.
Proof.
  intros x c seg seg' n bs y xx b m m' st st' R C R' C' Hr (_ & _ & Hm) (_ & _ & Hm') (L & A & F0 & Sg) (o0 & rest & E & F) (o0' & rest' & E' & F').
  destruct (F0 o0 o0' rest rest' E E') as (J & P1 & P2).
  assert (H0 : nr (ob_image o0) = R /\ nc (ob_image o0) = C).
  { destruct (Hm [o0]) as (o & X & Y1 & Y2 & _); [rewrite E; left; reflexivity|]. injection X as <-. split; assumption. }
  assert (H0' : nr (ob_image o0') = R' /\ nc (ob_image o0') = C').
  { destruct (Hm' [o0']) as (o & X & Y1 & Y2 & _); [rewrite E'; left; reflexivity|]. injection X as <-. split; assumption. }
  destruct H0 as [N0 C0]. destruct H0' as [N0' C0'].
  pose proof (F2_len _ _ _ _ _ F) as L1. pose proof (F2_len _ _ _ _ _ F') as L2. split; [congruence|].
  intros k I. destruct (nth_error st k) as [s|] eqn:K; destruct (nth_error st' k) as [s'|] eqn:K'.
  - assert (X : exists ol, nth_error m k = Some ol).
    { destruct (nth_error m k) as [ol|] eqn:Z; [exists ol; reflexivity|]. apply nth_error_None in Z.
      assert (k < List.length st)%nat by (apply nth_error_Some; congruence). lia. }
    destruct X as [ol X]. assert (X' : exists ol, nth_error m' k = Some ol).
    { destruct (nth_error m' k) as [ol'|] eqn:Z; [exists ol'; reflexivity|]. apply nth_error_None in Z.
      assert (k < List.length st')%nat by (apply nth_error_Some; congruence). lia. }
    destruct X' as [ol' X']. destruct (A k ol ol' I X X') as (o & o' & -> & -> & U & G1 & G2).
    pose proof (F2_both _ _ _ _ _ F k _ _ X K) as (q & Q & S1). injection Q as <-.
    pose proof (F2_both _ _ _ _ _ F' k _ _ X' K') as (q & Q & S1'). injection Q as <-.
    destruct (Hm [o] (nth_error_In _ _ X)) as (q & Q & D1 & D2 & D3 & D4 & D5 & D6 & _ & _ & D7). injection Q as <-.
    destruct (Hm' [o'] (nth_error_In _ _ X')) as (q & Q & D1' & D2' & _). injection Q as <-.
    pose proof U as ((U1 & U2 & _) & _). f_equal.
    refine (stamp_same_in x c seg seg' n y xx b o0 o0' o o' s s' R C Hr N0 C0 _ _ J P1 P2 _ U Sg S1 S1'); [congruence|congruence|].
    intros t p [[_ ->]|[[_ ->]|[[_ ->]|[[_ ->]|[_ (z & Ek & ->)]]]]]; cbn [nr nc imap]; try (split; congruence).
    destruct (D7 z Ek) as [Y1 Y2]. split; congruence.
  - apply nth_error_None in K'. assert (k < List.length st)%nat by (apply nth_error_Some; congruence). lia.
  - apply nth_error_None in K. assert (k < List.length st')%nat by (apply nth_error_Some; congruence). lia.
  - reflexivity.
Qed.

Lemma agree_incl : forall A bs cs (l l' : list A), incl cs bs -> agree_in bs l l' -> agree_in cs l l'.
Proof. intros A bs cs l l' I [L E]. split; [exact L|]. intros k K. apply E, I, K. Qed.

Lemma fitted_agree : forall x c f sb bs st st' u u', agree_in bs st st' -> fitted x c f sb st u -> fitted x c f sb st' u' ->
  fit_agrees (tp_ng x) f sb bs (List.length st) u u'.
Proof.
  intros x c f sb bs st st' u u' A H H'. split; [|split].
  - intros W I. destruct H as [[_ H]|[[X _]|[X _]]]; [|congruence|congruence]. destruct H' as [[_ H']|[[X _]|[X _]]]; [|congruence|congruence].
    exact (wavg_object _ _ _ _ _ _ _ _ _ _ _ _ _ (agree_incl _ _ _ _ _ I A) H H').
  - intros W k K Lk. destruct H as [[_ H]|[[X _]|[X _]]]; [|congruence|congruence]. destruct H' as [[_ H']|[[X _]|[X _]]]; [|congruence|congruence].
    exact (wavg_flux _ _ _ _ _ _ _ _ _ bs _ _ _ _ k A H H' K Lk).
  - intros W I P N Z Z'. pose proof (agree_incl _ _ _ _ _ I A) as As.
    destruct H as [[X _]|[[_ [B H]]|[_ [B H]]]]; [congruence| |]; (destruct H' as [[X _]|[[_ [B' H']]|[_ [B' H']]]]; [congruence| |]).
    + exact (admom_agree _ _ _ _ _ _ _ _ _ _ N As P H H' Z Z').
    + destruct B as [B|B]; rewrite B in B'; discriminate B'.
    + destruct B' as [B'|B']; rewrite B in B'; discriminate B'.
    + exact (gauss_agree _ _ _ _ _ _ _ _ _ N As P H H' Z Z').
Qed.

Lemma row_agree : forall x c md main main' color color' key key' sb db db' t t' m m' seg seg' n no r r' b bs R C R' C',
  reader_local x -> has_shape m R C -> has_shape m' R' C' -> stamp_size x (st_meds c) (snd no) b ->
  same_stamps_in bs (d_y (snd no)) (d_x (snd no)) b seg seg' m m' ->
  object_row x c md main color key sb db t m seg n no r ->
  object_row x c md main' color' key' sb db' t' m' seg' n no r' ->
  forall q f u u', nth_error (md_fitters md) q = Some f -> nth_error (r_fits r) q = Some u -> nth_error (r_fits r') q = Some u' ->
    fit_agrees (tp_ng x) f sb bs (List.length m) u u'.
Proof.
  intros x c md main main' color color' key key' sb db db' t t' m m' seg seg' n no r r' b bs R C R' C' Hr Hm Hm' Hb Hs
    (b1 & st & B1 & S1 & M1 & _) (b2 & st' & B2 & S2 & M2 & _) q f u u' Q U U'.
  rewrite (size_unique _ _ _ _ _ B1 Hb) in S1. rewrite (size_unique _ _ _ _ _ B2 Hb) in S2.
  pose proof (stamps_agree _ _ _ _ _ _ _ _ _ _ _ _ _ R C R' C' Hr Hm Hm' Hs S1 S2) as A.
  assert (L : List.length st = List.length m) by (destruct S1 as (o0 & rest & E & F); exact (F2_len _ _ _ _ _ F)). rewrite <- L.
  exact (fitted_agree x c f sb bs st st' u u' A (F2_both _ _ _ _ _ M1 q f u Q U) (F2_both _ _ _ _ _ M2 q f u' Q U')).
Qed.

Lemma runs_agree : forall x c main main' sbc dbc r r',
  reader_local x -> metacal_ok x c -> boxes_ok (st_meds c) -> sep_ok x ->
  all_one_shape main None -> all_one_shape main' None -> zlen main = zlen main' ->
  do_metadetect x c main sbc None None dbc = Ok (Some r) -> do_metadetect x c main' sbc None None dbc = Ok (Some r') ->
  exists md mcal mcal', construct (st_conf c) (zlen main) false false sbc dbc = Ok md /\
    tp_metacal x main = Ok mcal /\ tp_metacal x main' = Ok mcal' /\
    forall t m m', In (t, m) mcal -> In (t, m') mcal' -> exists blocks blocks',
      table r t = Some (match List.concat blocks with [] => None | l => Some l end) /\
      table r' t = Some (match List.concat blocks' with [] => None | l => Some l end) /\
      List.length blocks = List.length (combine (md_shear md) (md_det md)) /\
      List.length blocks' = List.length (combine (md_shear md) (md_det md)) /\
      forall k sd rows rows', nth_error (combine (md_shear md) (md_det md)) k = Some sd ->
        nth_error blocks k = Some rows -> nth_error blocks' k = Some rows' ->
        exists objs seg objs' seg', found x (md_nodet md) m (snd sd) objs seg /\ found x (md_nodet md) m' (snd sd) objs' seg' /\
          List.length rows = List.length objs /\ List.length rows' = List.length objs' /\
          forall i i' no dr dr' b bs, nth_error objs i = Some no -> nth_error objs' i' = Some no ->
            nth_error rows i = Some dr -> nth_error rows' i' = Some dr' ->
            stamp_size x (st_meds c) (snd no) b -> same_stamps_in bs (d_y (snd no)) (d_x (snd no)) b seg seg' m m' ->
            List.length (r_fits dr) = List.length (md_fitters md) /\ List.length (r_fits dr') = List.length (md_fitters md) /\
            forall q f u u', nth_error (md_fitters md) q = Some f -> nth_error (r_fits dr) q = Some u -> nth_error (r_fits dr') q = Some u' ->
              fit_agrees (tp_ng x) f (fst sd) bs (List.length m) u u'.
Proof.
  intros x c main main' sbc dbc r r' Hr Hmc Hb Hs Hm Hm' Hz H H'.
  destruct (run_rows _ _ _ _ _ _ Hm Hmc Hb Hs H) as (md & mcal & E1 & E2 & _ & _ & _ & T).
  destruct (run_rows _ _ _ _ _ _ Hm' Hmc Hb Hs H') as (md' & mcal' & E1' & E2' & _ & _ & _ & T').
  rewrite <- Hz, E1 in E1'. apply Ok_inj in E1'. subst md'.
  exists md, mcal, mcal'. split; [exact E1|]. split; [exact E2|]. split; [exact E2'|].
  intros t m m' Hi Hi'. destruct (T t m Hi) as (bl & F & Q). destruct (T' t m' Hi') as (bl' & F' & Q').
  exists bl, bl'. split; [exact Q|]. split; [exact Q'|]. split; [exact (F2_len _ _ _ _ _ F)|]. split; [exact (F2_len _ _ _ _ _ F')|].
  intros k sd rows rows' K K1 K2. pose proof (F2_both _ _ _ _ _ F k sd rows K K1) as B.
  pose proof (F2_both _ _ _ _ _ F' k sd rows' K K2) as B'.
  destruct B as (objs & seg & Fo & Fr). destruct B' as (objs' & seg' & Fo' & Fr').
  exists objs, seg, objs', seg'. split; [exact Fo|]. split; [exact Fo'|]. split; [exact (F2_len _ _ _ _ _ Fr)|].
  split; [exact (F2_len _ _ _ _ _ Fr')|].
  intros i i' no dr dr' b bs I1 I1' I2 I2' Sb Ss.
  pose proof (F2_both _ _ _ _ _ Fr i no dr I1 I2) as O. pose proof (F2_both _ _ _ _ _ Fr' i' no dr' I1' I2') as O'.
  destruct Hm as (R & C & Hm & _). pose proof (proj2 (proj2 (proj2 (Hmc main mcal E2)) t m Hi) R C Hm) as Hms.
  destruct Hm' as (R' & C' & Hm' & _). pose proof (proj2 (proj2 (proj2 (Hmc main' mcal' E2')) t m' Hi') R' C' Hm') as Hms'.
  assert (LO : List.length (r_fits dr) = List.length (md_fitters md)) by (destruct O as (? & ? & _ & _ & M & _); exact (F2_len _ _ _ _ _ M)).
  assert (LO' : List.length (r_fits dr') = List.length (md_fitters md)) by (destruct O' as (? & ? & _ & _ & M & _); exact (F2_len _ _ _ _ _ M)).
  split; [exact LO|]. split; [exact LO'|].
  exact (row_agree _ _ _ _ _ _ _ _ _ _ _ _ _ _ _ _ _ _ _ _ _ _ b bs R C R' C' Hr Hms Hms' Sb Ss O O').
Qed.
