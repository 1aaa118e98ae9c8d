(** Proofs for C114. *)
From Coq Require Import ZArith QArith Lia List String Bool.
From Verif Require Import Base Arr Median Flags_model Flags_proofs Coadd_model Coadd_spec Coadd_proofs Detect_model Summ_model Summ_spec Conf_model
  Wavg_model Wavg_spec Wavg_proofs Joint_model Joint_spec Joint_proofs Wflag_spec Wflag_proofs Jflag_spec Jflag_proofs
  Mdet_model Mdet_spec Mcol_spec Width_spec.
Import ListNotations.
Local Open Scope Z_scope.

(** ** Bits and ranges *)
Lemma range_bits : forall v, flag_range v <-> forall n, 31 <= n -> Z.testbit v n = false.
Proof.
  intro v. unfold flag_range. split.
  - intros H n Hn. destruct (Z.eq_dec v 0) as [->|Nz]; [apply Z.bits_0|].
    apply Z.bits_above_log2; [lia|]. assert (Z.log2 v < 31); [|lia]. apply Z.log2_lt_pow2; lia.
  - intro H. assert (0 <= v).
    { destruct (Z_lt_le_dec v 0) as [L|L]; [|exact L]. exfalso.
      destruct (proj1 (Z.bits_iff_neg_ex v) L) as (k & K).
      specialize (K (Z.max (k + 1) 31)). rewrite H in K by lia. discriminate K. lia. }
    split; [assumption|]. destruct (Z_lt_le_dec v (2 ^ 31)) as [L|L]; [change (2 ^ 31) with 2147483648 in L; lia|]. exfalso.
    assert (B : Z.testbit v (Z.log2 v) = true) by (apply Z.bit_log2; change (2 ^ 31) with 2147483648 in L; lia).
    rewrite H in B; [discriminate|]. apply Z.log2_le_pow2; [change (2 ^ 31) with 2147483648 in L; lia|exact L].
Qed.
Lemma fits_bits : forall v, fits_i4 v <-> forall n, 31 <= n -> Z.testbit v n = Z.testbit v 31.
Proof.
  intro v. destruct (Z_lt_le_dec v 0) as [L|L].
  - transitivity (flag_range (Z.lnot v)); [unfold fits_i4, flag_range, Z.lnot; lia|]. rewrite range_bits. split.
    + intros H n Hn. pose proof (H n Hn) as A. pose proof (H 31 ltac:(lia)) as B. rewrite Z.lnot_spec in A, B by lia.
      destruct (Z.testbit v n), (Z.testbit v 31); cbn in *; congruence.
    + intros H n Hn. rewrite Z.lnot_spec by lia. rewrite H by exact Hn.
      destruct (proj1 (Z.bits_iff_neg_ex v) L) as (k & K).
      specialize (K (Z.max (k + 1) 31)). rewrite H in K by lia. rewrite K by lia. reflexivity.
  - transitivity (flag_range v); [unfold fits_i4, flag_range; lia|]. rewrite range_bits. split.
    + intros H n Hn. rewrite !H by lia. reflexivity.
    + intros H n Hn. rewrite H by exact Hn.
      destruct (proj1 (Z.bits_iff_nonneg_ex v) L) as (k & K).
      specialize (K (Z.max (k + 1) 31)). rewrite H in K by lia. apply K. lia.
Qed.
Lemma range_lor : forall a b, flag_range a -> flag_range b -> flag_range (Z.lor a b).
Proof. intros a b A B. rewrite range_bits in *. intros n Hn. now rewrite Z.lor_spec, A, B. Qed.
Lemma range_0 : flag_range 0.
Proof. unfold flag_range; lia. Qed.
Lemma range_flag : forall p, flag_range (flag_value p).
Proof. intro p. destruct p; vm_compute; split; discriminate. Qed.
Lemma fits_lor : forall a b, fits_i4 a -> fits_i4 b -> fits_i4 (Z.lor a b).
Proof. intros a b A B. rewrite fits_bits in *. intros n Hn. now rewrite !Z.lor_spec, A, B. Qed.
Lemma fits_land : forall a b, fits_i4 a -> fits_i4 b -> fits_i4 (Z.land a b).
Proof. intros a b A B. rewrite fits_bits in *. intros n Hn. now rewrite !Z.land_spec, A, B. Qed.
Lemma fits_lnot : forall a, fits_i4 a -> fits_i4 (Z.lnot a).
Proof. intro a. unfold fits_i4, Z.lnot. lia. Qed.
Lemma fits_0 : fits_i4 0.
Proof. unfold fits_i4; lia. Qed.

(** ** Mask columns of Metadetect *)
Section Cols.
Variables (O SEG ST FL FR : Type) (sob : O -> sobs).

Lemma mask_column_fits : forall (plane : sobs -> img Z) (obs : list O) w row col v,
  mask_column sob plane obs w row col v -> (forall o, In o obs -> plane_fits (plane (sob o))) -> fits_i4 v.
Proof.
  intros plane obs w row col v (o0 & r & c & _ & _ & _ & B) F. rewrite fits_bits.
  assert (S : forall n m, 31 <= n -> 31 <= m -> Z.testbit v n = true -> Z.testbit v m = true).
  { intros n m Hn Hm H. apply B in H. destruct H as (o & I & i & j & In' & W & H). apply B.
    exists o. split; [exact I|]. exists i, j. split; [exact In'|]. split; [exact W|].
    pose proof (proj1 (fits_bits _) (F o I i j In')) as E. rewrite E in H by exact Hn. rewrite E by exact Hm. exact H. }
  intros n Hn. destruct (Z.testbit v n) eqn:E.
  - symmetry. apply (S n); try lia; try exact E.
  - destruct (Z.testbit v 31) eqn:E'; [|reflexivity]. rewrite (S 31 n) in E by (lia || exact E'). discriminate.
Qed.
Lemma bands_of_in : forall (m : list (list O)) bands obs, bands_of m bands obs ->
  forall o, In o obs -> exists ol, In ol m /\ In o ol.
Proof.
  intros m bands obs F o I. induction F as [|b o' bs os E F IH]; [destruct I|].
  destruct I as [<-|I]; [|now apply IH]. exists [o']. split; [|now left]. eapply py_index_in. exact E.
Qed.
Lemma columns_fit : forall (e : env O SEG ST FL FR) key sb db t d x, columns sob e key sb db t d x ->
  masks_fit sob (e_main e) ->
  (forall keyf dep k m, e_color e = Some (keyf, dep) -> dep k = Some (Other m) -> masks_fit sob m) ->
  fits_i4 (x_ormask x) /\ fits_i4 (x_ormask_ns x) /\ fits_i4 (x_bmask x) /\ fits_i4 (x_bmask_ns x).
Proof.
  intros e key sb db t d x (m & obs & mf & wo & wb & D & B & _ & _ & _ & _ & _ & _ & _ & M1 & M2 & M3 & M4 & _) F G.
  assert (Fm : masks_fit sob m).
  { destruct key as [k|]; [|now rewrite D]. destruct D as (keyf & dep & E & [[_ ->]|E']); [exact F|exact (G _ _ _ _ E E')]. }
  assert (P : forall o, In o obs -> plane_fits (so_bmask (sob o)) /\ plane_fits (so_ormask (sob o))).
  { intros o I. destruct (bands_of_in _ _ _ B o I) as (ol & I1 & I2). exact (Fm ol o I1 I2). }
  split; [|split; [|split]].
  - eapply mask_column_fits; [exact M1|]. intros o I. exact (proj2 (P o I)).
  - eapply mask_column_fits; [exact M2|]. intros o I. exact (proj2 (P o I)).
  - eapply mask_column_fits; [exact M3|]. intros o I. exact (proj1 (P o I)).
  - eapply mask_column_fits; [exact M4|]. intros o I. exact (proj1 (P o I)).
Qed.
End Cols.

(** ** Flags of the fitters *)
Lemma nz_bit : forall v, v <> 0 -> exists n, Z.testbit v n = true.
Proof.
  intros v H. destruct (Z_lt_le_dec v 0) as [L|L].
  - destruct (proj1 (Z.bits_iff_neg_ex v) L) as (k & K). exists (k + 1). apply K. lia.
  - exists (Z.log2 v). apply Z.bit_log2. lia.
Qed.
Lemma bits_range : forall v (cause : Z -> Prop), bits_from v cause -> (forall f, cause f -> flag_range f) -> flag_range v.
Proof.
  intros v cause B F. rewrite range_bits. intros n Hn. destruct (Z.testbit v n) eqn:E; [|reflexivity]. exfalso.
  apply B in E. destruct E as (f & C & E). rewrite (proj1 (range_bits f) (F f C) n Hn) in E. discriminate.
Qed.
Lemma zor_range : forall l, Forall flag_range l -> flag_range (zor l).
Proof.
  intros l F. unfold zor. assert (G : forall a, flag_range a -> flag_range (fold_left Z.lor l a)).
  { induction F as [|x l Hx F IH]; intros a Ha; [exact Ha|]. cbn [fold_left]. apply IH. now apply range_lor. }
  apply G, range_0.
Qed.

Section Wavg.
Variables (ng : ngcodes) (mk : vec -> mat -> momresult) (to_T qsqrt : Q -> Q).
Hypothesis Ng : codes_range ng.
Hypothesis Mk : forall m c, flag_range (mo_flags (mk m c)) /\ flag_range (mo_T_flags (mk m c)).

Lemma mom_res_range : forall raw cov flux var fw,
  flag_range (m_flags (make_mom_res ng mk to_T qsqrt raw cov flux var fw)) /\
  flag_range (m_T_flags (make_mom_res ng mk to_T qsqrt raw cov flux var fw)).
Proof.
  intros raw cov flux var fw. unfold make_mom_res. cbv zeta.
  destruct Ng as (N1 & N2 & N3).
  match goal with |- context [nle0 flux] => idtac end.
  set (base := if negb (Qle_bool fw 0) then _ else _).
  assert (B : flag_range (mo_flags base) /\ flag_range (mo_T_flags base)).
  { unfold base. destruct (negb (Qle_bool fw 0)); [|apply Mk]. cbn [mo_flags mo_T_flags].
    split; [apply range_lor; apply Mk|apply Mk]. }
  clearbody base. destruct B as (B1 & B2).
  assert (F : flag_range (if nle0 flux then Z.lor (mo_flags base) (NONPOS_FLUX ng) else mo_flags base)).
  { destruct (nle0 flux); [now apply range_lor|exact B1]. }
  destruct var as [v|]; [destruct (negb (Qle_bool v 0))|]; cbn [m_flags m_T_flags]; split; try assumption; now apply range_lor.
Qed.
Lemma finish_row_range : forall d0 n mf pf sd pd fw bf be ff,
  flag_range mf -> flag_range pf -> flag_range (o_T_flags d0) -> Forall flag_range ff ->
  row_range (finish_row ng mk to_T qsqrt d0 n mf pf sd pd fw bf be ff).
Proof.
  intros d0 n mf pf sd pd fw bf be ff Hm Hp Ht Hf. unfold finish_row. cbv zeta.
  set (pr := if pf =? 0 then Some _ else None).
  set (or := if mf =? 0 then Some _ else None).
  assert (P : flag_range (match pr with Some r => Z.lor pf (m_flags r) | None => pf end)).
  { unfold pr. destruct (pf =? 0); [apply range_lor; [exact Hp|apply mom_res_range]|exact Hp]. }
  assert (Q : flag_range (match or with Some r => Z.lor mf (m_flags r) | None => mf end)).
  { unfold or. destruct (mf =? 0); [apply range_lor; [exact Hm|apply mom_res_range]|exact Hm]. }
  assert (T : flag_range (match or with Some r => m_T_flags r | None => o_T_flags d0 end)).
  { unfold or. destruct (mf =? 0); [apply mom_res_range|exact Ht]. }
  clearbody pr or. unfold row_range. cbn [o_flags o_psf_flags o_obj_flags o_T_flags o_band_flux_flags].
  set (P' := match pr with Some r => Z.lor pf (m_flags r) | None => pf end) in *.
  set (Q' := match or with Some r => Z.lor mf (m_flags r) | None => mf end) in *.
  clearbody P' Q'.
  assert (R : flag_range (if negb (P' =? 0) then Z.lor Q' (flag_value PSF_FAILURE) else Q')).
  { destruct (negb (P' =? 0)); [apply range_lor; [exact Q|apply range_flag]|exact Q]. }
  split; [apply range_lor; [exact R|now apply zor_range]|]. split; [exact P|]. split; [exact R|]. split; [exact T|].
  intros v I. destruct n; [destruct I as [<-|[]]; apply range_flag|]. rewrite Forall_forall in Hf. now apply Hf.
Qed.

Definition band_range (j : band) : Prop :=
  flag_range (j_flags j) /\ forall r v, j_res j = Some r -> r_flux_flags r = Some v -> flag_range v.
Lemma flux_cols_range : forall js, (forall j, In j js -> band_range j) -> Forall flag_range (map snd (flux_cols js)).
Proof.
  intros js H. rewrite Forall_forall. intros v I. rewrite in_map_iff in I. destruct I as (c & <- & I).
  unfold flux_cols in I. rewrite in_map_iff in I. destruct I as (j & <- & I). destruct (H j I) as (Hf & Hr).
  unfold band_flux_cols. destruct (j_res j) as [[a b c d fl fe ff]|]; [|cbn [snd]; apply range_lor; [exact Hf|apply range_flag]].
  destruct fl, fe, ff; cbn [snd]; (apply range_lor; [exact Hf|]); try apply range_flag. eapply Hr; reflexivity.
Qed.

Lemma bands_row_range : forall js sb fw r, (forall j, In j js -> band_range j) ->
  combine_bands ng mk to_T qsqrt js sb fw = Ok r -> row_range r.
Proof.
  intros js sb fw r H E. rewrite combine_bands_eq in E. destruct (zlen sb <=? MAX_NUM_SHEAR_BANDS); [|discriminate].
  assert (D : flag_range (o_T_flags (row0 ng (List.length js) sb))) by (cbn [o_T_flags row0]; apply Ng).
  assert (A : flag_range (s_flags (sum_obj js))).
  { eapply bits_range; [apply Wflag_proofs.obj_bits|]. intros f (j & I & _ & C). destruct C; try apply range_flag. apply (H j I). }
  assert (B : flag_range (s_flags (sum_psf js))).
  { eapply bits_range; [apply Wflag_proofs.psf_bits|]. intros f (j & I & _ & C). destruct C; try apply range_flag. apply (H j I). }
  assert (C : forall s, flag_range (s_flags s) -> flag_range (comb_flags js s)).
  { intros s Hs. unfold comb_flags. destruct (differ js); [apply range_lor; [exact Hs|apply range_flag]|exact Hs]. }
  destruct (existsb j_is js); apply Ok_inj in E; subst r; apply finish_row_range; try exact D; try apply range_flag.
  - now apply C.
  - now apply C.
  - now apply flux_cols_range.
  - rewrite Forall_forall. intros v I. apply repeat_spec in I. subst v. apply range_flag.
Qed.
Lemma problem_range : forall bm sym ol f, band_problem bm sym ol f -> flag_range f.
Proof. intros bm sym ol f H. destruct H; apply range_flag. Qed.
Lemma wavg_range : forall mbobs ft bm sb fw sym r,
  (forall o fr v, k_go ft o = Ok fr -> r_flux_flags fr = Some v -> flag_range v) ->
  fit_mbobs_wavg ng mk to_T qsqrt mbobs ft bm sb fw sym = Ok r -> row_range r.
Proof.
  intros mbobs ft bm sb fw sym r G E. destruct (wavg_band_results _ _ _ _ _ _ _ _ _ _ _ E) as (js & C & L & J).
  apply (bands_row_range js _ _ _) in C; [exact C|]. clear C. intros j I. apply In_nth_error in I. destruct I as (k & Hk).
  destruct (nth_error mbobs k) as [ol|] eqn:Ho.
  2:{ apply nth_error_None in Ho. assert (nth_error js k <> None) by congruence. rewrite nth_error_Some in H. lia. }
  destruct (J k ol j Ho Hk) as (_ & B & P & N). split; [eapply bits_range; [exact B|apply problem_range]|].
  intros fr v Er Ev. destruct (Z.eq_dec (j_flags j) 0) as [Z0|Nz].
  - destruct N as (o & rest & o' & fr' & p & pr & _ & _ & K & _ & _ & R & _).
    { intros f Pf. apply (flag_nz MISSING_BAND). exfalso.
      assert (f = 0). { apply Z.bits_inj'. intros n _. rewrite Z.bits_0. destruct (Z.testbit f n) eqn:Et; [|reflexivity].
        exfalso. assert (T : Z.testbit (j_flags j) n = true) by (apply B; exists f; auto). rewrite Z0, Z.bits_0 in T. discriminate. }
      destruct Pf; eapply flag_nz; eassumption. }
    rewrite Er in R. apply Some_inj in R. subst fr'. exact (G _ _ _ K Ev).
  - destruct P as (R & _).
    { destruct (nz_bit (j_flags j) Nz) as (n & T). apply B in T. destruct T as (f & Pf & _). now exists f. }
    congruence.
Qed.
End Wavg.

(** ** The joint fits *)
Lemma coadd_many_range : forall obs fo fp o f, coadd_many obs fo fp = (o, f) -> flag_range f.
Proof.
  intros obs fo fp o f H. apply (f_equal snd) in H. cbn [snd] in H. subst f. unfold coadd_many.
  destruct (coadd_weights obs); [|apply range_flag]. cbv zeta.
  destruct (all_pixels _ _); [apply range_flag|]. destruct (negb _); [apply range_flag|apply range_0].
Qed.
Lemma coadd_flags_range : forall mbobs sb o f, make_coadd_obs mbobs sb = Ok (o, f) -> flag_range f.
Proof.
  intros mbobs sb o f H. unfold make_coadd_obs in H. cbv zeta in H.
  assert (T : forall e : outcome fobs, (do x <- e; Ok (Some x, 0)) = Ok (o, f) -> flag_range f).
  { intros e K. destruct e as [x|]; cbn [obind] in K; [|discriminate]. apply Ok_inj in K. inversion K; subst. apply range_0. }
  assert (U : Ok (None, flag_value INCONSISTENT_BANDS) = Ok (o, f) -> flag_range f).
  { intro K. apply Ok_inj in K. apply (f_equal snd) in K. cbn [snd] in K. subst f. apply range_flag. }
  assert (M : (if existsb (fun s => zlen mbobs <=? s) sb then Ok (None, flag_value INCONSISTENT_BANDS)
    else
      do s0 <- py_index sb 0;
      do fo <- band_obs mbobs s0;
      do ok <- all_consistent mbobs fo (tl sb);
      if negb ok then Ok (None, flag_value INCONSISTENT_BANDS)
      else
        do obs <- omap (band_obs mbobs) sb;
        match f_psf fo with
        | None => Raise AttributeError
        | Some fp => Ok (coadd_many obs fo fp)
        end) = Ok (o, f) -> flag_range f).
  { intro K. destruct (existsb _ sb); [exact (U K)|]. destruct (py_index sb 0) as [s0|]; cbn [obind] in K; [|discriminate].
    destruct (band_obs mbobs s0) as [fo|]; cbn [obind] in K; [|discriminate].
    destruct (all_consistent mbobs fo (tl sb)) as [[]|]; cbn [obind negb] in K; [|exact (U K)|discriminate].
    destruct (omap (band_obs mbobs) sb) as [obs|]; cbn [obind] in K; [|discriminate].
    destruct (f_psf fo) as [fp|]; [|discriminate]. apply Ok_inj in K. exact (coadd_many_range _ _ _ _ _ K). }
  destruct (zlen mbobs =? 1).
  { destruct (py_index sb 0) as [s0|]; cbn [obind] in H; [|discriminate]. destruct (s0 =? 0); [exact (T _ H)|exact (U H)]. }
  destruct sb as [|a [|b l]]; [exact (M H)| |exact (M H)]. destruct (a <? zlen mbobs); [exact (T _ H)|exact (U H)].
Qed.
Lemma data_flags_range : forall bm mbobs f, data_flags bm mbobs = Ok f -> flag_range f.
Proof.
  intros bm mbobs f H. unfold data_flags in H.
  assert (G : forall a, flag_range a -> forall f, ofold (fun f ol => do g <- band_data_flags bm ol; Ok (Z.lor f g)) mbobs a = Ok f -> flag_range f).
  { clear H f. induction mbobs as [|ol l IH]; intros a Ha f H; cbn [ofold] in H; [apply Ok_inj in H; now subst|].
    destruct (band_data_flags bm ol) as [g|] eqn:E; cbn [obind] in H; [|discriminate].
    assert (Hg : flag_range g).
    { unfold band_data_flags in E. destruct ol as [|o [|]]; [apply Ok_inj in E; subst g; apply range_flag| |apply Ok_inj in E; subst g; apply range_flag].
      cbv zeta in E. destruct (f_bmask o); [|discriminate]. apply Ok_inj in E. subst g.
      assert (W : flag_range (if any_pixel qpos (f_weight o) then 0 else flag_value ZERO_WEIGHTS)) by (destruct (any_pixel qpos (f_weight o)); [apply range_0|apply range_flag]).
      destruct (any_pixel _ i); [apply range_lor; [exact W|apply range_flag]|exact W]. }
    eapply IH; [|exact H]. now apply range_lor. }
  exact (G 0 range_0 f H).
Qed.
Lemma struct_range : forall ng n sb d0, codes_range ng -> get_wavg_output_struct ng n sb = Ok d0 -> row_range d0.
Proof.
  intros ng n sb d0 (N & _) H. unfold get_wavg_output_struct in H. destruct (_ <=? _); [|discriminate].
  apply Ok_inj in H. subst d0. unfold row_range. cbn [o_flags o_psf_flags o_obj_flags o_T_flags o_band_flux_flags].
  do 4 (split; [exact N|]). intros v I. apply repeat_spec in I. now subst v.
Qed.
Lemma add_flags_range : forall d0 f, row_range d0 -> flag_range f -> row_range (add_flags d0 f).
Proof.
  intros d0 f (A & B & C & D & E) F. unfold row_range, add_flags. cbn [o_flags o_psf_flags o_obj_flags o_T_flags o_band_flux_flags].
  split; [now apply range_lor|]. auto.
Qed.
Lemma set_nth_In : forall A (l : list A) k v x, In x (set_nth l k v) -> In x l \/ x = v.
Proof.
  induction l as [|y l IH]; intros k v x H; cbn [set_nth] in H; [destruct H|].
  destruct k; destruct H as [H|H]; [now right|left; now right|left; now left|].
  destruct (IH _ _ _ H); [left; now right|now right].
Qed.
Lemma set_at_In : forall A (l : list A) i v l' x, set_at l i v = Ok l' -> In x l' -> In x l \/ x = v.
Proof.
  intros A l i v l' x H I. unfold set_at in H. cbv zeta in H. destruct (_ && _); [|discriminate]. apply Ok_inj in H. subst l'.
  now apply set_nth_In in I.
Qed.
Lemma assign_bands_In : forall A n (l : list A) idx v l' x, assign_bands n l idx [v] = Ok l' -> In x l' -> In x l \/ x = v.
Proof.
  intros A n l idx v l' x H I. unfold assign_bands in H. destruct (Nat.leb n 1).
  - apply Ok_inj in H. subst l'. destruct I as [<-|[]]. now right.
  - cbn [assign_at] in H. revert l H. induction idx as [|i idx IH]; intros l H; cbn [ofold] in H.
    + apply Ok_inj in H. subst l'. now left.
    + destruct (set_at l i v) as [l1|] eqn:E; cbn [obind] in H; [|discriminate].
      destruct (IH l1 H) as [J|J]; [|now right]. exact (set_at_In _ _ _ _ _ _ E J).
Qed.
Lemma psf_columns_range : forall d0 coadd mb p, (forall k, flag_range (q_flags (p k))) ->
  flag_range (fst (fst (psf_columns d0 coadd mb p))).
Proof.
  intros d0 coadd mb p P. unfold psf_columns. destruct coadd; cbn [fst]; [apply P|]. cbv zeta. cbn [fst].
  assert (G : forall l s, flag_range (ps_flags s) -> (forall q o, In (q, o) l -> flag_range (q_flags q)) ->
    flag_range (ps_flags (fold_left psf_step l s))).
  { induction l as [|[q o] l IH]; intros s Hs H; [exact Hs|]. cbn [fold_left]. apply IH; [|intros q' o' I; apply (H q' o'); now right].
    assert (L : flag_range (Z.lor (ps_flags s) (q_flags q))) by (apply range_lor; [exact Hs|apply (H q o); now left]).
    unfold psf_step. destruct (q_flags q =? 0); [|exact L]. destruct (qmedian _); cbn [ps_flags]; [exact L|].
    apply range_lor; [exact L|apply range_flag]. }
  apply G; [apply range_0|]. intros q o I. rewrite in_map_iff in I. destruct I as ([k o'] & E & _).
  cbn [fst snd] in E. inversion E; subst. apply P.
Qed.
Lemma gauss_range : forall ng boot mbobs bm sb coadd r, codes_range ng ->
  (forall mb g p, boot mb = BootOk g p -> flag_range (g_flags g) /\ forall k, flag_range (q_flags (p k))) ->
  fit_mbobs_gauss ng boot mbobs bm sb coadd = Ok r -> row_range r.
Proof.
  intros ng boot mbobs bm sb coadd r Ng Hb H. unfold fit_mbobs_gauss in H. cbv zeta in H.
  destruct (get_wavg_output_struct _ _ _) as [d0|] eqn:D; cbn [obind] in H; [|discriminate].
  apply struct_range in D; [|exact Ng].
  destruct (data_flags bm mbobs) as [f0|] eqn:F; cbn [obind] in H; [|discriminate]. apply data_flags_range in F.
  set (s := default_bands mbobs sb) in *.
  assert (F1 : flag_range (if existsb (fun s => zlen mbobs <=? s) s then Z.lor f0 (flag_value INCONSISTENT_BANDS) else f0)).
  { destruct (existsb _ s); [apply range_lor; [exact F|apply range_flag]|exact F]. }
  set (f1 := if existsb _ _ then _ else _) in *. clearbody f1.
  destruct (negb (f1 =? 0)); [apply Ok_inj in H; subst r; now apply add_flags_range|].
  destruct (gauss_stamps mbobs s coadd) as [[mb|cf]|] eqn:G; cbn [obind] in H; [| |discriminate].
  2:{ apply Ok_inj in H. subst r. apply add_flags_range; [exact D|]. unfold gauss_stamps in G. destruct coadd.
      - destruct (make_coadd_obs mbobs s) as [[o c]|] eqn:C; cbn [obind] in G; [|discriminate]. apply coadd_flags_range in C.
        destruct o as [o|]; [destruct (c =? 0); [discriminate|]|]; apply Ok_inj in G; injection G as <-; exact C.
      - destruct (omap _ s); cbn [obind] in G; discriminate. }
  destruct (boot mb) as [g p| |] eqn:B.
  - destruct (Hb _ _ _ B) as (Hg & Hp). unfold gauss_row in H.
    destruct (assign_bands _ (o_band_flux_flags d0) _ _) as [bff|] eqn:A; cbn [obind] in H; [|discriminate]. cbv zeta in H.
    destruct (if g_flags g =? 0 then assign_bands (List.length mbobs) (o_band_flux d0) s (g_flux g) else Ok (o_band_flux d0)) as [bf|]; cbn [obind] in H; [|discriminate].
    destruct (if g_flags g =? 0 then assign_bands (List.length mbobs) (o_band_flux_err d0) s (g_flux_err g) else Ok (o_band_flux_err d0)) as [be|]; cbn [obind] in H; [|discriminate].
    pose proof (psf_columns_range d0 coadd mb p Hp) as Pc. destruct (psf_columns d0 coadd mb p) as [[pf pT] pg]. cbn [fst] in Pc.
    apply Ok_inj in H. subst r. unfold row_range. cbn [o_flags o_psf_flags o_obj_flags o_T_flags o_band_flux_flags].
    split; [now apply range_lor|]. do 3 (split; [assumption|]). intros v I.
    destruct (assign_bands_In _ _ _ _ _ _ _ A I) as [J|J]; [now apply D|now subst v].
  - apply Ok_inj in H. subst r. apply add_flags_range; [exact D|apply range_flag].
  - apply Ok_inj in H. subst r. apply add_flags_range; [exact D|apply range_lor; apply range_flag].
Qed.
Lemma admom_range : forall ng rp ro mbobs bm sb sym r, codes_range ng ->
  (forall p a, rp p = Ok a -> flag_range (a_flags a)) ->
  (forall o a, ro o = Ok a -> flag_range (a_flags a) /\ flag_range (a_T_flags a)) ->
  fit_mbobs_admom ng rp ro mbobs bm sb sym = Ok r -> row_range r.
Proof.
  intros ng rp ro mbobs bm sb sym r Ng Hp Ho H. unfold fit_mbobs_admom in H. cbv zeta in H.
  destruct (get_wavg_output_struct _ _ _) as [d0|] eqn:D; cbn [obind] in H; [|discriminate].
  apply struct_range in D; [|exact Ng].
  destruct (data_flags bm mbobs) as [f0|] eqn:F; cbn [obind] in H; [|discriminate]. apply data_flags_range in F.
  destruct (negb (f0 =? 0)); [apply Ok_inj in H; subst r; now apply add_flags_range|].
  destruct (make_coadd_obs _ _) as [[o c]|] eqn:C; cbn [obind] in H; [|discriminate]. apply coadd_flags_range in C.
  assert (T : Ok (add_flags d0 c) = Ok r -> row_range r) by (intro K; apply Ok_inj in K; subst r; now apply add_flags_range).
  destruct o as [co|]; [|exact (T H)]. destruct c; [|exact (T H)|exact (T H)].
  unfold admom_psf in H. destruct (f_psf co) as [p|]; [|apply Ok_inj in H; subst r; apply add_flags_range; [exact D|apply range_flag]].
  destruct (rp p) as [pres|] eqn:R; [|apply Ok_inj in H; subst r; apply add_flags_range; [exact D|apply range_flag]].
  apply Hp in R. unfold admom_row in H. cbv zeta in H.
  destruct (if sym then symmetrize_obs_weights co else Ok co) as [so|]; cbn [obind] in H; [|discriminate].
  destruct D as (D1 & D2 & D3 & D4 & D5).
  destruct (ro so) as [gr|] eqn:G; apply Ok_inj in H; subst r; unfold row_range; cbn [o_flags o_psf_flags o_obj_flags o_T_flags o_band_flux_flags].
  - destruct (Ho _ _ G) as (G1 & G2). split; [now apply range_lor|]. auto.
  - split; [apply range_flag|]. auto.
Qed.

(** ** The lsst tasks *)
From Verif Require Lmdet_model Lmdet_proofs Lmeas_model Lmeas_spec.
Section Lmdet.
Import Lmdet_model Lmdet_proofs.
Lemma combined_fit : forall dims ormasks om, combine_ormasks dims ormasks = Ok om ->
  (forall ms m, ormasks = Some ms -> In m ms -> plane_fits m) -> plane_fits om.
Proof.
  intros dims ormasks om H F i j I. destruct ormasks as [[|m ms]|]; cbn [combine_ormasks] in H; [discriminate| |].
  - specialize (F (m :: ms)). assert (G : forall x, In x (m :: ms) -> plane_fits x) by (intros x; now apply F). clear F.
    revert m H G. induction ms as [|x ms IH]; intros m H G; cbn [ofold] in H.
    + apply Ok_inj in H. subst om. apply G; [now left|exact I].
    + unfold or_into in H at 1. destruct ((nr m =? nr x) && (nc m =? nc x)) eqn:E; cbn [obind] in H; [|discriminate].
      apply andb_true_iff in E. destruct E as [E1 E2]. apply Z.eqb_eq in E1, E2.
      apply IH in H; [exact H|]. intros y [<-|Y]; [|apply G; right; now right].
      intros a b Iab. cbn [imap2 px]. apply fits_lor; [apply G; [now left|exact Iab]|].
      apply G; [right; now left|]. unfold inside in Iab |- *. cbn [imap2 nr nc] in Iab. now rewrite <- E1, <- E2.
  - apply Ok_inj in H. subst om. cbn [ifill px]. apply fits_0.
Qed.
Lemma ormask_fits : forall om res res', plane_fits om -> add_ormask om res = Ok res' ->
  forall x, In x res' -> fits_i4 (l_ormask x).
Proof.
  intros om res res' F H. apply add_ormask_spec in H. induction H as [|x x' l l' [G _] E IH]; intros y I; [destruct I|].
  destruct I as [<-|I]; [|now apply IH]. unfold np_get in G. cbv zeta in G.
  destruct (insideb om _ _) eqn:In'; [|discriminate]. apply Ok_inj in G. rewrite <- G. apply F. now apply insideb_spec.
Qed.
Lemma run_ormask_fits : forall d tabs ps, task_run d = Ok (tabs, ps) ->
  (forall ms m, d_ormasks d = Some ms -> In m ms -> plane_fits m) ->
  forall t rows x, In (t, Some rows) tabs -> In x rows -> fits_i4 (l_ormask x).
Proof.
  intros d tabs ps H F t rows x I Ix. unfold task_run in H.
  destruct (combine_ormasks (d_dims d) (d_ormasks d)) as [om|] eqn:C; cbn [obind] in H; [|discriminate].
  destruct (get_mfrac_mbexp _ _) as [mw|]; cbn [obind] in H; [|discriminate].
  destruct (d_sky d); cbn [obind] in H; [|discriminate].
  destruct (fit_original_psfs _ _ _ _) as [p|]; cbn [obind] in H; [|discriminate].
  destruct (d_metacal d) as [mc|]; cbn [obind] in H; [|discriminate].
  destruct (omap _ mc) as [tb|] eqn:T; cbn [obind] in H; [|discriminate]. apply Ok_inj in H. inversion H; subst tb p. clear H.
  pose proof (combined_fit _ _ _ C F) as Fo. apply omap_ok_Forall2 in T.
  induction T as [|sm y l l' E T IH]; [destruct I|]. destruct I as [->|I]; [|now apply IH].
  destruct (d_measure d (snd sm)) as [[res|]|]; cbn [obind] in E; [|apply Ok_inj in E; inversion E|discriminate].
  unfold annotate in E. destruct (add_ormask om _) as [r|] eqn:A; cbn [obind] in E; [|discriminate].
  apply Ok_inj in E. inversion E; subst. unfold add_original_psf in Ix. rewrite in_map_iff in Ix. destruct Ix as (z & <- & Iz).
  exact (ormask_fits _ _ _ Fo A z Iz).
Qed.
End Lmdet.
Section Lmeas.
Import Lmeas_model Lmeas_spec.
Lemma peak_mask_fits : forall env s v, plane_fits (m_detmask env) -> fits_i4 (m_detected env) ->
  mask_at_peak env s v -> fits_i4 v.
Proof.
  intros env s v F D (x & y & _ & I & ->). apply fits_land; [now apply F|now apply fits_lnot].
Qed.
End Lmeas.
