(** Proofs for C111 and C112. *)
From Coq Require Import ZArith QArith Lqa List String Bool Lia.
From Verif Require Import Base Arr Median Flags_model Coadd_model Coadd_spec Coadd_proofs Wavg_model Wavg_spec Wavg_proofs Wflag_spec.
Import ListNotations.
Local Open Scope Z_scope.

(** ** Bits *)
Lemma zor_bits : forall l k, Z.testbit (zor l) k = true <-> exists x, In x l /\ Z.testbit x k = true.
Proof.
  induction l as [|x l IH]; intro k.
  - unfold zor. cbn [fold_left]. rewrite Z.bits_0. split; [discriminate|]. intros (x & [] & _).
  - rewrite zor_cons, Z.lor_spec, orb_true_iff, IH. split.
    + intros [H|(y & I & H)]; [exists x; split; [now left|exact H]|exists y; split; [now right|exact H]].
    + intros (y & [<-|I] & H); [now left|right; eauto].
Qed.
Lemma bits_lor : forall a b P Q0, bits_from a P -> bits_from b Q0 -> bits_from (Z.lor a b) (fun f => P f \/ Q0 f).
Proof.
  intros a b P Q0 Ha Hb k. rewrite Z.lor_spec, orb_true_iff, (Ha k), (Hb k). split.
  - intros [(f & H & T)|(f & H & T)]; eauto.
  - intros (f & [H|H] & T); eauto.
Qed.
Lemma bits_ext : forall a P Q0, (forall f, P f <-> Q0 f) -> bits_from a P -> bits_from a Q0.
Proof. intros a P Q0 E H k. rewrite (H k). split; intros (f & X & T); exists f; (split; [apply E; exact X|exact T]). Qed.
Lemma bits_self : forall a, bits_from a (fun f => f = a).
Proof. intros a k. split; [intro H; eauto|]. intros (f & -> & H). exact H. Qed.
Lemma bits_if : forall (b : bool) (P : Prop) f, (b = true <-> P) -> bits_from (if b then f else 0) (fun g => P /\ g = f).
Proof.
  intros b P f H k. destruct b.
  - split; [intro T; exists f; split; [split; [now apply H|reflexivity]|exact T]|]. intros (g & (_ & ->) & T). exact T.
  - rewrite Z.bits_0. split; [discriminate|]. intros (g & (X & _) & _). apply H in X. discriminate.
Qed.
Lemma bits_zero : forall a P, bits_from a P -> (a = 0 <-> forall f, P f -> f = 0).
Proof.
  intros a P H. split.
  - intros -> f X. apply Z.bits_inj'. intros k _. rewrite Z.bits_0. destruct (Z.testbit f k) eqn:T; [|reflexivity].
    assert (Z.testbit 0 k = true) as E by (apply H; eauto). rewrite Z.bits_0 in E. discriminate.
  - intro Z0. apply Z.bits_inj'. intros k _. rewrite Z.bits_0. destruct (Z.testbit a k) eqn:T; [|reflexivity].
    apply H in T. destruct T as (f & X & T). rewrite (Z0 f X), Z.bits_0 in T. discriminate.
Qed.

(** ** The flags of one band *)
Lemma has_moms_iff : forall r, has_moms r = true <-> has_moments r.
Proof.
  intro r. unfold has_moms, has, has_moments. destruct (r_mom r), (r_cov r); cbn; split; intro H; try discriminate;
    try (destruct H; congruence); split; discriminate.
Qed.
Lemma weight_bits : forall w, bits_from (if Qle_bool w 0 then flag_value ZERO_WEIGHTS else 0)
  (fun f => (w <= 0)%Q /\ f = flag_value ZERO_WEIGHTS).
Proof. intro w. apply bits_if. apply Qle_bool_iff. Qed.

Lemma obj_band_bits : forall j, bits_from (band_flag false (obj_band j)) (band_cause j).
Proof.
  intro j. unfold band_flag.
  assert (M : bits_from (missing_flags false (obj_band j))
    (fun f => (j_res j = None /\ f = flag_value MISSING_BAND) \/
              (exists r, j_res j = Some r /\ ~ has_moments r /\ f = flag_value NOMOMENTS_FAILURE))).
  { unfold missing_flags, obj_band. cbn [b_res b_wres]. destruct (j_res j) as [r|]; cbn [andb orb has negb].
    - rewrite orb_false_r. apply bits_ext with (P := fun f => ~ has_moments r /\ f = flag_value NOMOMENTS_FAILURE).
      + intro f. split; [intros [A B]; right; eauto|]. intros [[A _]|(r' & A & B & C)]; [discriminate|].
        apply Some_inj in A. subst. auto.
      + apply bits_if. rewrite negb_true_iff, <- not_true_iff_false, has_moms_iff. reflexivity.
    - apply bits_ext with (P := fun f => f = flag_value MISSING_BAND); [|apply bits_self].
      intro f. split; [auto|]. intros [[_ H]|(r & H & _)]; [exact H|discriminate]. }
  assert (R : snd (flux_mom_ratio false (obj_band j)) = 0) by reflexivity. rewrite R, Z.lor_0_r.
  pose proof (bits_lor _ _ _ _ (bits_lor _ _ _ _ (bits_self (b_flags (obj_band j))) M) (weight_bits (b_wgt (obj_band j)))) as H.
  refine (bits_ext _ _ _ _ H). intro f. cbn [obj_band b_flags b_wgt]. split.
  - intros [[->|[[A ->]|(r & A & B & ->)]]|[A ->]]; [apply data_flag|now apply not_fit|eapply no_moments; eauto|now apply not_weighted].
  - intros [|A|r A B|A]; [tauto|tauto| |tauto]. left. right. right. eauto.
Qed.

Lemma Qeq_bool_false_iff : forall q, Qeq_bool q 0 = false <-> ~ (q == 0)%Q.
Proof. intro q. rewrite <- not_true_iff_false, Qeq_bool_iff. reflexivity. Qed.
Lemma ratio_bits : forall j, bits_from (snd (flux_mom_ratio true (psf_band j)))
  (fun f => f = flag_value ZERO_WEIGHTS /\ exists r p mr mp, j_res j = Some r /\ j_psf j = Some p /\ r_mom r = Some mr /\ r_mom p = Some mp /\
     ((exists q, mp 5%nat = Some q /\ (q == 0)%Q) \/
      exists nr np, r_norm r = Some (Some nr) /\ r_norm p = Some (Some np) /\ (nr == 0)%Q)).
Proof.
  assert (Z0 : forall P : Z -> Prop, (forall f, ~ P f) -> bits_from 0 P).
  { intros P N k. rewrite Z.bits_0. split; [discriminate|]. intros (f & X & _). now apply N in X. }
  assert (Y : forall P : Z -> Prop, (forall f, P f <-> f = flag_value ZERO_WEIGHTS) -> bits_from (flag_value ZERO_WEIGHTS) P).
  { intros P E. apply bits_ext with (P := fun f => f = flag_value ZERO_WEIGHTS); [intro f; symmetry; apply E|apply bits_self]. }
  intro j. unfold flux_mom_ratio, psf_band. cbn [b_wres b_res].
  destruct (j_res j) as [r|] eqn:Er; [|apply Z0; intros f (_ & r & p & mr & mp & A & _); discriminate].
  destruct (j_psf j) as [p|] eqn:Ep; [|apply Z0; intros f (_ & r' & p & mr & mp & _ & A & _); discriminate].
  destruct (r_mom p) as [mp|] eqn:Emp; [|apply Z0; intros f (_ & r' & p' & mr & mp & A & B & _ & C & _); apply Some_inj in B; subst; congruence].
  destruct (r_mom r) as [mr|] eqn:Emr; [|apply Z0; intros f (_ & r' & p' & mr & mp' & A & B & C & _); apply Some_inj in A; subst; congruence].
  assert (Use : forall f, (f = flag_value ZERO_WEIGHTS /\ exists r0 p0 mr0 mp0, Some r = Some r0 /\ Some p = Some p0 /\ r_mom r0 = Some mr0 /\ r_mom p0 = Some mp0 /\
     ((exists q, mp0 5%nat = Some q /\ (q == 0)%Q) \/ exists nr np, r_norm r0 = Some (Some nr) /\ r_norm p0 = Some (Some np) /\ (nr == 0)%Q)) <->
     (f = flag_value ZERO_WEIGHTS /\ ((exists q, mp 5%nat = Some q /\ (q == 0)%Q) \/ exists nr np, r_norm r = Some (Some nr) /\ r_norm p = Some (Some np) /\ (nr == 0)%Q))).
  { intro f. split.
    - intros (-> & r0 & p0 & mr0 & mp0 & A & B & C & D & E). apply Some_inj in A, B. subst r0 p0. rewrite Emp in D. apply Some_inj in D. subst mp0. auto.
    - intros (-> & E). split; [reflexivity|]. exists r, p, mr, mp. repeat (split; [reflexivity || assumption|]). exact E. }
  apply bits_ext with (1 := fun f => iff_sym (Use f)). clear Use.
  destruct (mp 5%nat) as [q|] eqn:Eq; cbn [nne0].
  - destruct (Qeq_bool q 0) eqn:E0; cbn [negb snd].
    + apply Y. intro f. split; [tauto|]. intros ->. split; [reflexivity|]. left. exists q. split; [reflexivity|]. now apply Qeq_bool_iff.
    + apply Qeq_bool_false_iff in E0. unfold finite_norm.
      assert (Nq : ~ exists q0, Some q = Some q0 /\ (q0 == 0)%Q) by (intros (q0 & A & B); apply Some_inj in A; subst; contradiction).
      destruct (r_norm p) as [[np|]|] eqn:Np; [destruct (r_norm r) as [[nr|]|] eqn:Nr; [destruct (Qeq_bool nr 0) eqn:E1; cbn [snd]| |]| |]; cbn [snd].
      * apply Y. intro f. split; [tauto|]. intros ->. split; [reflexivity|]. right. exists nr, np. repeat split. now apply Qeq_bool_iff.
      * apply Z0. intros f (_ & [X|(a & b & A & B & C)]); [exact (Nq X)|]. injection A as A. subst a. apply Qeq_bool_iff in C. congruence.
      * apply Z0. intros f (_ & [X|(a & b & A & B & C)]); [exact (Nq X)|]. discriminate.
      * apply Z0. intros f (_ & [X|(a & b & A & B & C)]); [exact (Nq X)|]. discriminate.
      * apply Z0. intros f (_ & [X|(a & b & A & B & C)]); [exact (Nq X)|]. discriminate.
      * apply Z0. intros f (_ & [X|(a & b & A & B & C)]); [exact (Nq X)|]. discriminate.
  - unfold finite_norm.
    assert (Nq : ~ exists q0, @None Q = Some q0 /\ (q0 == 0)%Q) by (intros (q0 & A & B); discriminate).
    destruct (r_norm p) as [[np|]|] eqn:Np; [destruct (r_norm r) as [[nr|]|] eqn:Nr; [destruct (Qeq_bool nr 0) eqn:E1; cbn [snd]| |]| |]; cbn [snd].
    * apply Y. intro f. split; [tauto|]. intros ->. split; [reflexivity|]. right. exists nr, np. repeat split. now apply Qeq_bool_iff.
    * apply Z0. intros f (_ & [X|(a & b & A & B & C)]); [exact (Nq X)|]. injection A as A. subst a. apply Qeq_bool_iff in C. congruence.
    * apply Z0. intros f (_ & [X|(a & b & A & B & C)]); [exact (Nq X)|]. discriminate.
    * apply Z0. intros f (_ & [X|(a & b & A & B & C)]); [exact (Nq X)|]. discriminate.
    * apply Z0. intros f (_ & [X|(a & b & A & B & C)]); [exact (Nq X)|]. discriminate.
    * apply Z0. intros f (_ & [X|(a & b & A & B & C)]); [exact (Nq X)|]. discriminate.
Qed.

Lemma psf_band_bits : forall j, bits_from (band_flag true (psf_band j)) (psf_cause j).
Proof.
  intro j. unfold band_flag.
  assert (M : bits_from (missing_flags true (psf_band j))
    (fun f => ((j_res j = None \/ j_psf j = None) /\ f = flag_value MISSING_BAND) \/
              (exists r p, j_res j = Some r /\ j_psf j = Some p /\ ~ (has_moments r /\ has_moments p) /\ f = flag_value NOMOMENTS_FAILURE))).
  { unfold missing_flags, psf_band. cbn [b_res b_wres]. destruct (j_psf j) as [p|]; cbn [andb].
    - destruct (j_res j) as [r|]; cbn [has negb].
      + apply bits_ext with (P := fun f => ~ (has_moments r /\ has_moments p) /\ f = flag_value NOMOMENTS_FAILURE).
        * intro f. split; [intros [A ->]; right; exists r, p; auto|]. intros [[[A|A] _]|(r' & p' & A & B & C & D)]; try discriminate.
          apply Some_inj in A, B. subst. auto.
        * apply bits_if. rewrite orb_true_iff, !negb_true_iff, <- !not_true_iff_false, !has_moms_iff.
          assert (D : has_moments p \/ ~ has_moments p) by (rewrite <- has_moms_iff; destruct (has_moms p); [now left|right; discriminate]).
          tauto.
      + apply bits_ext with (P := fun f => f = flag_value MISSING_BAND); [|apply bits_self].
        intro f. split; [auto|]. intros [[_ H]|(r & p' & H & _)]; [exact H|discriminate].
    - apply bits_ext with (P := fun f => f = flag_value MISSING_BAND); [|apply bits_self].
      intro f. split; [auto|]. intros [[_ H]|(r & p' & _ & H & _)]; [exact H|discriminate]. }
  pose proof (bits_lor _ _ _ _ (bits_lor _ _ _ _ (bits_lor _ _ _ _ (bits_self (b_flags (psf_band j))) M) (ratio_bits j)) (weight_bits (b_wgt (psf_band j)))) as H.
  refine (bits_ext _ _ _ _ H). intro f. cbn [psf_band b_flags b_wgt]. split.
  - intros [[[->|[[A ->]|(r & p & A & B & C & ->)]]|(-> & r & p & mr & mp & A & B & C & D & [(q & E & F)|(nr & np & E & F & G)])]|[A ->]].
    + apply psf_data_flag.
    + now apply psf_not_fit.
    + eapply psf_no_moments; eauto.
    + eapply psf_no_flux; eauto.
    + eapply psf_no_norm; eauto.
    + now apply psf_not_weighted.
  - intros [|A|r p A B C|r p mr mp q A B C D E F|r p mr mp nr np A B C D E F G|A]; try tauto.
    + left. left. right. right. exists r, p. auto.
    + left. right. split; [reflexivity|]. exists r, p, mr, mp. repeat (split; [assumption|]). left. eauto.
    + left. right. split; [reflexivity|]. exists r, p, mr, mp. repeat (split; [assumption|]). right. eauto.
Qed.

(** ** The flags of the sums *)
Lemma qsum_nonpos : forall l, (0 < List.length l)%nat -> (qsum l <= 0)%Q -> exists x, In x l /\ (x <= 0)%Q.
Proof.
  intros l L H. destruct (Forall_Exists_dec (fun x : Q => (0 < x)%Q)) with (l := l) as [F|X].
  - intro x. destruct (Qlt_le_dec 0 x); [now left|right; intro; lra].
  - exfalso. assert (0 < qsum l)%Q; [|lra]. apply qsum_pos; [destruct l; [cbn in L; lia|discriminate]|].
    intros x I. rewrite Forall_forall in F. now apply F.
  - apply Exists_exists in X. destruct X as (x & I & N). exists x. split; [exact I|]. destruct (Qlt_le_dec 0 x); [contradiction|assumption].
Qed.
Lemma sum_bits : forall w (f : band -> sband) (cause : band -> Z -> Prop) js,
  (forall j, b_issb (f j) = j_is j) -> (forall j, bits_from (band_flag w (f j)) (cause j)) ->
  (forall j, (b_wgt (f j) <= 0)%Q -> cause j (flag_value ZERO_WEIGHTS)) ->
  bits_from (s_flags (sum_bands_wavg w (map f js))) (by_a_band cause js).
Proof.
  intros w f cause js I B W. destruct (sum_bands_closed w (map f js)) as (_ & _ & _ & E & _). rewrite E. clear E.
  assert (A : bits_from (zor (map (band_flag w) (filter b_issb (map f js)))) (by_a_band cause js)).
  { intro k. rewrite zor_bits. split.
    - intros (x & X & T). apply in_map_iff in X. destruct X as (b & <- & X). apply filter_In in X. destruct X as [X Y].
      apply in_map_iff in X. destruct X as (j & <- & X). apply B in T. destruct T as (g & G & T). exists g. split; [|exact T].
      exists j. rewrite <- I. auto.
    - intros (g & (j & X & Y & G) & T). exists (band_flag w (f j)). split; [|apply B; eauto].
      apply in_map. apply filter_In. split; [now apply in_map|now rewrite I]. }
  destruct (existsb is_used (map f js) && Qle_bool (qsum (map b_wgt (used (map f js)))) 0) eqn:U; [|rewrite Z.lor_0_r; exact A].
  apply andb_true_iff in U. destruct U as [U V]. apply Qle_bool_iff in V.
  assert (C : by_a_band cause js (flag_value ZERO_WEIGHTS)).
  { assert (L : (0 < List.length (map b_wgt (used (map f js))))%nat).
    { rewrite map_length. apply existsb_exists in U. destruct U as (b & X & Y).
      assert (Z1 : In b (used (map f js))) by (apply filter_In; auto). destruct (used (map f js)); [destruct Z1|cbn; lia]. }
    destruct (qsum_nonpos _ L V) as (x & X & Y).
    apply in_map_iff in X. destruct X as (b & <- & X). apply filter_In in X. destruct X as [X Z]. apply in_map_iff in X. destruct X as (j & <- & X).
    exists j. split; [exact X|]. unfold is_used in Z. apply andb_true_iff in Z. rewrite <- I. split; [tauto|]. now apply W. }
  intro k. rewrite Z.lor_spec, orb_true_iff, (A k). split; [intros [H|H]; [exact H|eauto]|auto].
Qed.
Lemma obj_bits : forall js, bits_from (s_flags (sum_obj js)) (by_a_band band_cause js).
Proof. intro js. apply sum_bits; [reflexivity|apply obj_band_bits|]. intros j H. now apply not_weighted. Qed.
Lemma psf_bits : forall js, bits_from (s_flags (sum_psf js)) (by_a_band psf_cause js).
Proof. intro js. apply sum_bits; [reflexivity|apply psf_band_bits|]. intros j H. now apply psf_not_weighted. Qed.

Lemma moments_dec : forall r, has_moments r \/ ~ has_moments r.
Proof. intro r. rewrite <- has_moms_iff. destruct (has_moms r); [now left|right; discriminate]. Qed.
Lemma flag_nz : forall p, flag_value p = 0 -> False.
Proof. intros p H. exact (flag_value_nonzero p H). Qed.
(** Without a cause for the PSF the bands contributed. *)
Lemma no_cause_psf : forall js, (forall f, by_a_band psf_cause js f -> f = 0) -> forall j, In j js -> j_is j = true -> contributed j.
Proof.
  intros js N j I S. assert (N' : forall f, psf_cause j f -> f = 0) by (intros f C; apply N; exists j; auto).
  assert (W : (0 < j_w j)%Q).
  { destruct (Qlt_le_dec 0 (j_w j)) as [H|H]; [exact H|]. exfalso. exact (flag_nz _ (N' _ (psf_not_weighted j H))). }
  destruct (j_res j) as [r|] eqn:Er; [|exfalso; exact (flag_nz _ (N' _ (psf_not_fit j (or_introl Er))))].
  destruct (j_psf j) as [p|] eqn:Ep; [|exfalso; exact (flag_nz _ (N' _ (psf_not_fit j (or_intror Ep))))].
  split; [exact W|]. split; [exact (N' _ (psf_data_flag j))|].
  destruct (moments_dec r) as [Hr|Hr]; [|exfalso; refine (flag_nz _ (N' _ (psf_no_moments j r p Er Ep _))); tauto].
  destruct (moments_dec p) as [Hp|Hp]; [|exfalso; refine (flag_nz _ (N' _ (psf_no_moments j r p Er Ep _))); tauto].
  split; eauto.
Qed.
Definition dup (j : band) : band := mkBand (j_w j) (j_res j) (j_res j) (j_is j) (j_flags j).
Lemma no_cause_obj : forall js, (forall f, by_a_band band_cause js f -> f = 0) ->
  forall j, In j (map dup js) -> j_is j = true -> contributed j.
Proof.
  intros js N j I S. apply in_map_iff in I. destruct I as (j0 & <- & I). cbn [dup j_is] in S.
  assert (N' : forall f, band_cause j0 f -> f = 0) by (intros f C; apply N; exists j0; auto).
  unfold contributed. cbn [dup j_w j_flags j_res j_psf]. split.
  { destruct (Qlt_le_dec 0 (j_w j0)) as [H|H]; [exact H|]. exfalso. exact (flag_nz _ (N' _ (not_weighted j0 H))). }
  split; [exact (N' _ (data_flag j0))|].
  destruct (j_res j0) as [r|] eqn:Er; [|exfalso; exact (flag_nz _ (N' _ (not_fit j0 Er)))].
  destruct (moments_dec r) as [Hr|Hr]; [|exfalso; exact (flag_nz _ (N' _ (no_moments j0 r Er Hr)))].
  split; eauto.
Qed.
Lemma sum_obj_dup : forall js, sum_obj (map dup js) = sum_obj js.
Proof. intro js. unfold sum_obj. rewrite map_map. reflexivity. Qed.
Lemma shear_fits_dup : forall js, shear_fits (map dup js) = shear_fits js.
Proof. induction js as [|j js IH]; [reflexivity|]. cbn [map shear_fits flat_map]. fold (shear_fits js). now rewrite <- IH. Qed.

Lemma never_differ : forall js, differ js = false.
Proof.
  intro js. unfold differ. destruct (s_flags (sum_obj js) =? 0) eqn:A; [|reflexivity]. destruct (s_flags (sum_psf js) =? 0) eqn:B; [|reflexivity].
  cbn [andb]. apply Z.eqb_eq in B. pose proof (proj1 (bits_zero _ _ (psf_bits js)) B) as N. pose proof (no_cause_psf js N) as C.
  destruct (list_eq_dec _ _ _) as [E|E]; [reflexivity|]. exfalso. apply E. unfold sum_obj, sum_psf.
  destruct (sum_bands_closed false (map obj_band js)) as (_ & _ & _ & _ & -> & _).
  destruct (sum_bands_closed true (map psf_band js)) as (_ & _ & _ & _ & -> & _).
  rewrite !map_map. apply map_ext_in. intros j I. destruct (j_is j) eqn:S.
  - destruct (is_used_contrib j (C j I S) S) as [-> ->]. reflexivity.
  - unfold is_used, obj_band, psf_band. cbn [b_issb]. now rewrite S.
Qed.

(** ** The flags of the averaged moments *)
Lemma mom_res_bits : forall ng mk to_T qsqrt raw cov fl fv fw m c flux var,
  flags_of_values mk -> (forall i, (i <= 5)%nat -> neqv (raw i) (m i)) ->
  (forall i j, (i <= 5)%nat -> (j <= 5)%nat -> neqv (cov i j) (c i j)) -> neqv fl flux -> neqv fv var ->
  (fw <= 0)%Q \/ finite_moments m c ->
  bits_from (m_flags (make_mom_res ng mk to_T qsqrt raw cov fl fv fw)) (moment_cause ng mk to_T fw m c flux var).
Proof.
  intros ng mk to_T qsqrt raw cov fl fv fw m c flux var K Em Ec Ef Ev Fin.
  assert (E : m_flags (make_mom_res ng mk to_T qsqrt raw cov fl fv fw) =
    Z.lor (Z.lor (Z.lor (if negb (Qle_bool fw 0) then mo_flags (mk (reg_moments (to_T fw) raw) (reg_cov (to_T fw) cov)) else 0) (mo_flags (mk raw cov)))
      (if nle0 fl then NONPOS_FLUX ng else 0)) (if match fv with Some v => Qle_bool v 0 | None => true end then NONPOS_VAR ng else 0)).
  { unfold make_mom_res. cbv zeta. destruct (negb (Qle_bool fw 0)), (nle0 fl), fv as [v|]; try (destruct (Qle_bool v 0));
      cbn [negb m_flags mo_flags]; rewrite ?Z.lor_0_l, ?Z.lor_0_r; reflexivity. }
  rewrite E. clear E.
  assert (A : mo_flags (mk raw cov) = mo_flags (mk m c)) by (apply K; assumption).
  assert (B : (0 < fw)%Q -> mo_flags (mk (reg_moments (to_T fw) raw) (reg_cov (to_T fw) cov)) =
    mo_flags (mk (regularised (to_T fw) m) (regularised_cov (to_T fw) c))).
  { intro Hf. destruct Fin as [Hz|[F1 F2]]; [lra|].
    assert (F1' : forall i, (2 <= i <= 5)%nat -> raw i <> None).
    { intros i Hi X. specialize (F1 i Hi). specialize (Em i ltac:(lia)). rewrite X in Em. destruct (m i); [destruct Em|congruence]. }
    assert (F2' : forall i j, (i <= 5)%nat -> (j <= 5)%nat -> cov i j <> None).
    { intros i j Hi Hj X. specialize (F2 i j Hi Hj). specialize (Ec i j Hi Hj). rewrite X in Ec. destruct (c i j); [destruct Ec|congruence]. }
    destruct (reg_moments_vals (to_T fw) raw F1') as [V1 V2]. pose proof (reg_cov_vals (to_T fw) cov F2') as V3. cbv zeta in V3.
    apply K.
    - intros i Hi. unfold regularised. destruct (Nat.eqb i 4) eqn:E4.
      + apply Nat.eqb_eq in E4. subst i. rewrite V2. apply nadd_proper; [apply Em; lia|]. apply nmul_proper; [reflexivity|apply Em; lia].
      + apply Nat.eqb_neq in E4. rewrite V1 by lia. apply Em. exact Hi.
    - intros i j Hi Hj. rewrite V3 by assumption. unfold regularised_cov. cbv zeta.
      destruct (Nat.eqb i 4), (Nat.eqb j 4); repeat (first [apply nadd_proper|apply nmul_proper]); try reflexivity; apply Ec; lia. }
  assert (R : bits_from (if negb (Qle_bool fw 0) then mo_flags (mk (reg_moments (to_T fw) raw) (reg_cov (to_T fw) cov)) else 0)
    (fun f => (0 < fw)%Q /\ f = mo_flags (mk (regularised (to_T fw) m) (regularised_cov (to_T fw) c)))).
  { destruct (Qle_bool_dec fw) as [[X Y]|[X Y]]; rewrite X; cbn [negb].
    - intro k. rewrite Z.bits_0. split; [discriminate|]. intros (f & (L & _) & _). lra.
    - rewrite (B Y). apply bits_ext with (2 := bits_self _). intro f. tauto. }
  assert (S : bits_from (if nle0 fl then NONPOS_FLUX ng else 0) (fun f => (exists q, flux = Some q /\ (q <= 0)%Q) /\ f = NONPOS_FLUX ng)).
  { apply bits_if. destruct fl as [x|], flux as [y|]; cbn in Ef |- *; try contradiction.
    - rewrite Qle_bool_iff. split; [intro H; exists y; split; [reflexivity|lra]|]. intros (q & Q1 & Q2). injection Q1 as <-. lra.
    - split; [discriminate|]. intros (q & X & _). discriminate. }
  assert (T : bits_from (if match fv with Some v => Qle_bool v 0 | None => true end then NONPOS_VAR ng else 0)
    (fun f => (forall q, var = Some q -> (q <= 0)%Q) /\ f = NONPOS_VAR ng)).
  { apply bits_if. destruct fv as [x|], var as [y|]; cbn in Ev |- *; try contradiction.
    - rewrite Qle_bool_iff. split; [intros H q Q1; injection Q1 as <-; lra|]. intro H. specialize (H y eq_refl). lra.
    - split; [intros _ q X; discriminate|reflexivity]. }
  pose proof (bits_lor _ _ _ _ (bits_lor _ _ _ _ (bits_lor _ _ _ _ R (bits_self (mo_flags (mk raw cov)))) S) T) as H.
  rewrite A in H |- *.
  refine (bits_ext _ _ _ _ H). intro f. split.
  - intros [[[[X ->]| ->]|[(q & X & Y) ->]]|[X ->]]; [now apply from_regularised|apply from_moments|eapply flux_not_positive; eauto|now apply var_not_positive].
  - intros [|X|q X Y|X]; [tauto|tauto| |tauto]. left. right. split; [eauto|reflexivity].
Qed.

(** ** The average of the PSFs *)
Lemma psf_share : forall j r p mp q, (0 < j_w j)%Q -> alike j -> j_res j = Some r -> j_psf j = Some p -> has_moments r ->
  r_mom p = Some mp -> (forall f, psf_cause j f -> f = 0) -> mp 5%nat = Some q ->
  neqv (factor true (psf_band j)) (ndiv (nmul (Some (j_w j)) (normalised r 5)) (Some q)) /\ ~ (q == 0)%Q.
Proof.
  intros j r p mp q Hw Al Er Ep [Hr _] Emp N Eq.
  destruct (r_mom r) as [mr|] eqn:Emr; [|congruence].
  assert (Q0 : ~ (q == 0)%Q) by (intro H; exact (flag_nz _ (N _ (psf_no_flux j r p mr mp q Er Ep Emr Emp Eq H)))). split; [|exact Q0].
  assert (Eb : Qeq_bool q 0 = false) by now apply Qeq_bool_false_iff.
  unfold factor, mom_norm, flux_mom_ratio, psf_band, normalised. cbn [b_wgt b_res b_wres].
  rewrite Er, Ep, Emp, Emr, Eq. cbn [nne0]. rewrite Eb. cbn [negb]. unfold finite_norm, norm_of.
  destruct (Al r p Er Ep) as [(nr & np & A & B & C)|[A B]].
  - rewrite A, B. assert (D : ~ (nr == 0)%Q) by (intro H; exact (flag_nz _ (N _ (psf_no_norm j r p mr mp nr np Er Ep Emr Emp A B H)))).
    pose proof (proj2 (Qeq_bool_false_iff _) C) as C'. pose proof (proj2 (Qeq_bool_false_iff _) D) as D'. rewrite D'. cbn [fst].
    destruct (mr 5%nat) as [x|]; cbn [ndiv nmul]; rewrite ?D', ?C', ?Eb; cbn; [|rewrite ?C', ?D', ?Eb; exact Logic.I].
    rewrite ?C', ?D', ?Eb. cbn. rewrite ?C', ?D', ?Eb. cbn. field. auto.
  - assert (E1 : match r_norm p with Some (Some q0) => Some q0 | _ => None end = None) by (destruct B as [X0|X0]; rewrite X0; reflexivity).
    assert (E2 : match r_norm r with Some (Some q0) => q0 | _ => 1%Q end = 1%Q) by (destruct A as [X0|X0]; rewrite X0; reflexivity).
    rewrite E1, E2. cbn [fst]. destruct (mr 5%nat) as [x|]; cbn [ndiv nmul]; rewrite ?Eb; cbn; rewrite ?Eb; cbn; [field; exact Q0|exact Logic.I].
Qed.
Lemma psf_share_nan : forall j r p mp, alike j -> j_res j = Some r -> j_psf j = Some p -> has_moments r ->
  r_mom p = Some mp -> (forall f, psf_cause j f -> f = 0) -> mp 5%nat = None -> factor true (psf_band j) = None.
Proof.
  intros j r p mp Al Er Ep [Hr _] Emp N Eq. destruct (r_mom r) as [mr|] eqn:Emr; [|congruence].
  unfold factor, mom_norm, flux_mom_ratio, psf_band. cbn [b_wgt b_res b_wres]. rewrite Er, Ep, Emp, Emr, Eq. cbn [nne0].
  unfold finite_norm. destruct (Al r p Er Ep) as [(nr & np & A & B & C)|[A B]].
  - rewrite A, B. assert (D : ~ (nr == 0)%Q) by (intro H; exact (flag_nz _ (N _ (psf_no_norm j r p mr mp nr np Er Ep Emr Emp A B H)))).
    pose proof (proj2 (Qeq_bool_false_iff _) D) as D'. rewrite D'. cbn [fst]. destruct (mr 5%nat) as [x|]; cbn [ndiv nmul]; rewrite ?D'; reflexivity.
  - assert (E1 : match r_norm p with Some (Some q0) => Some q0 | _ => None end = None) by (destruct B as [X0|X0]; rewrite X0; reflexivity).
    rewrite E1. cbn [fst]. destruct (mr 5%nat); reflexivity.
Qed.

Lemma triples_map : forall js (G : Q * fitres * fitres -> num) (F : band -> num),
  (forall j, In j js -> j_is j = true -> contributed j) ->
  (forall j r p, In j js -> j_is j = true -> j_res j = Some r -> j_psf j = Some p -> neqv (F j) (G (j_w j, r, p))) ->
  neqv (nsum (map F (filter j_is js))) (nsum (map G (shear_triples js))) /\
  map j_w (filter j_is js) = map (fun t => fst (fst t)) (shear_triples js).
Proof.
  induction js as [|j js IH]; intros G F C H; [split; reflexivity|].
  destruct (IH G F (fun x I => C x (or_intror I)) (fun x r p I => H x r p (or_intror I))) as [I1 I2].
  cbn [filter shear_triples flat_map]. fold (shear_triples js). destruct (j_is j) eqn:S.
  - destruct (C j (or_introl eq_refl) S) as (_ & _ & (r & Er & _) & (p & Ep & _)). rewrite Er, Ep.
    cbn [map app nsum fold_right fst]. split; [|f_equal; exact I2]. apply nadd_proper; [|exact I1]. apply H; auto. now left.
  - destruct (j_res j), (j_psf j); split; assumption.
Qed.

Lemma psf_mean_formula : forall js, (forall f, by_a_band psf_cause js f -> f = 0) ->
  (forall j, In j js -> j_is j = true -> alike j) ->
  (forall i, neqv (vdiv (s_mom (sum_psf js)) (s_wgt (sum_psf js)) i) (psf_mean js i)) /\
  (forall i k, neqv (mdiv (s_cov (sum_psf js)) (s_wgt (sum_psf js) * s_wgt (sum_psf js)) i k) (psf_mean_cov js i k)) /\
  neqv (ndiv (s_flux (sum_psf js)) (Some (s_wgt (sum_psf js)))) (wmean (shear_psfs js) flux_of) /\
  neqv (ndiv (s_flux_var (sum_psf js)) (Some (s_wgt (sum_psf js) * s_wgt (sum_psf js))%Q)) (wmean_var (shear_psfs js) flux_var_of).
Proof.
  intros js N Al. pose proof (no_cause_psf js N) as C. unfold sum_psf.
  destruct (sum_bands_closed true (map psf_band js)) as (B1 & B2 & B3 & _ & _ & B6 & B7).
  rewrite (used_contrib psf_band js (or_intror eq_refl) C) in B1, B2, B3, B6, B7.
  set (s := sum_bands_wavg true (map psf_band js)) in *. clearbody s.
  assert (Wt : map j_w (filter j_is js) = map (fun t => fst (fst t)) (shear_triples js)).
  { apply (triples_map js (fun _ => None) (fun _ => None) C). intros. exact Logic.I. }
  assert (W1 : (s_wgt s == qsum (map (fun t => fst (fst t)) (shear_triples js)))%Q).
  { rewrite B3, map_map. change (map (fun x => b_wgt (psf_band x)) (filter j_is js)) with (map j_w (filter j_is js)). now rewrite Wt. }
  assert (W2 : (s_wgt s * s_wgt s == qsum (map (fun t => fst (fst t)) (shear_triples js)) * qsum (map (fun t => fst (fst t)) (shear_triples js)))%Q)
    by now rewrite W1.
  assert (P1 : map fst (shear_psfs js) = map (fun t => fst (fst t)) (shear_triples js)) by (unfold shear_psfs; now rewrite map_map).
  assert (N' : forall j, In j js -> j_is j = true -> forall f, psf_cause j f -> f = 0) by (intros j I S f X; apply N; exists j; auto).
  split; [|split; [|split]].
  - intro i. apply vdiv_ext; [|exact W1]. rewrite B1, map_map.
    refine (proj1 (triples_map js (fun t => nmul (nmul (Some (fst (fst t))) (normalised (snd (fst t)) 5)) (unit_psf (snd t) i)) _ C _)).
    intros j r p I S Er Ep. cbn [fst snd]. destruct (C j I S) as (Hw & _ & (r' & Er' & Hr) & (p' & Ep' & Hp)).
    rewrite Er in Er'. rewrite Ep in Ep'. apply Some_inj in Er', Ep'. subst r' p'.
    unfold unit_psf, bmom, psf_band at 2. cbn [b_res]. rewrite Ep. destruct (r_mom p) as [mp|] eqn:Emp; [|destruct Hp; congruence].
    destruct (mp 5%nat) as [q|] eqn:Eq.
    + destruct (psf_share j r p mp q Hw (Al j I S) Er Ep Hr Emp (N' j I S) Eq) as [F Q0].
      rewrite F. pose proof (proj2 (Qeq_bool_false_iff _) Q0) as Q0'. destruct (normalised r 5) as [x|], (mp i) as [y|]; cbn; rewrite ?Q0'; cbn; try exact Logic.I.
      field. exact Q0.
    + rewrite (psf_share_nan j r p mp (Al j I S) Er Ep Hr Emp (N' j I S) Eq). destruct (normalised r 5), (mp i); exact Logic.I.
  - intros i k. apply vdiv_ext; [|exact W2]. rewrite B2, map_map.
    refine (proj1 (triples_map js (fun t => let s := nmul (Some (fst (fst t))) (normalised (snd (fst t)) 5) in
                            nmul (nmul s s) (unit_psf_cov (snd t) i k)) _ C _)).
    intros j r p I S Er Ep. cbn [fst snd]. destruct (C j I S) as (Hw & _ & (r' & Er' & Hr) & (p' & Ep' & Hp)).
    rewrite Er in Er'. rewrite Ep in Ep'. apply Some_inj in Er', Ep'. subst r' p'.
    unfold unit_psf_cov, bcov, psf_band at 3. cbn [b_res]. rewrite Ep. destruct (r_mom p) as [mp|] eqn:Emp; [|destruct Hp; congruence].
    destruct (r_cov p) as [cp|] eqn:Ecp; [|destruct Hp; congruence]. cbv zeta.
    destruct (mp 5%nat) as [q|] eqn:Eq.
    + destruct (psf_share j r p mp q Hw (Al j I S) Er Ep Hr Emp (N' j I S) Eq) as [F Q0].
      rewrite F. pose proof (proj2 (Qeq_bool_false_iff _) Q0) as Q0'. destruct (normalised r 5) as [x|], (cp i k) as [y|]; cbn; rewrite ?Q0', ?Qeq_bool_sq, ?Q0'; cbn; try exact Logic.I.
      field. exact Q0.
    + rewrite (psf_share_nan j r p mp (Al j I S) Er Ep Hr Emp (N' j I S) Eq). destruct (normalised r 5), (cp i k); exact Logic.I.
  - unfold wmean. rewrite P1. apply vdiv_ext; [|exact W1]. rewrite B6, map_map. unfold shear_psfs. rewrite map_map. cbn [fst snd].
    refine (proj1 (triples_map js (fun t => nmul (Some (fst (fst t))) (flux_of (snd t))) _ C _)).
    intros j r p I S Er Ep. cbn [fst snd psf_band b_wgt]. unfold bmom, psf_band, flux_of. cbn [b_res]. rewrite Ep. reflexivity.
  - unfold wmean_var. rewrite P1. apply vdiv_ext; [|exact W2]. rewrite B7, map_map. unfold shear_psfs. rewrite map_map. cbn [fst snd].
    refine (proj1 (triples_map js (fun t => nmul (Some (fst (fst t) * fst (fst t))%Q) (flux_var_of (snd t))) _ C _)).
    intros j r p I S Er Ep. cbn [fst snd psf_band b_wgt]. unfold bcov, psf_band, flux_var_of. cbn [b_res]. rewrite Ep. reflexivity.
Qed.

(** ** The row *)
Definition obj_mom ng mk to_T qsqrt js fw :=
  make_mom_res ng mk to_T qsqrt (vdiv (s_mom (sum_obj js)) (s_wgt (sum_obj js)))
    (mdiv (s_cov (sum_obj js)) (s_wgt (sum_obj js) * s_wgt (sum_obj js)))
    (ndiv (s_flux (sum_obj js)) (Some (s_wgt (sum_obj js))))
    (ndiv (s_flux_var (sum_obj js)) (Some (s_wgt (sum_obj js) * s_wgt (sum_obj js))%Q)) fw.
Definition psf_mom ng mk to_T qsqrt js :=
  make_mom_res ng mk to_T qsqrt (vdiv (s_mom (sum_psf js)) (s_wgt (sum_psf js)))
    (mdiv (s_cov (sum_psf js)) (s_wgt (sum_psf js) * s_wgt (sum_psf js)))
    (ndiv (s_flux (sum_psf js)) (Some (s_wgt (sum_psf js))))
    (ndiv (s_flux_var (sum_psf js)) (Some (s_wgt (sum_psf js) * s_wgt (sum_psf js))%Q)) 0.
Lemma row_flags : forall ng mk to_T qsqrt js sb fw r,
  combine_bands ng mk to_T qsqrt js sb fw = Ok r -> (exists j, In j js /\ j_is j = true) ->
  o_psf_flags r = (if s_flags (sum_psf js) =? 0 then m_flags (psf_mom ng mk to_T qsqrt js) else s_flags (sum_psf js)) /\
  o_obj_flags r = Z.lor (if s_flags (sum_obj js) =? 0 then m_flags (obj_mom ng mk to_T qsqrt js fw) else s_flags (sum_obj js))
                        (if negb (o_psf_flags r =? 0) then flag_value PSF_FAILURE else 0) /\
  (s_flags (sum_psf js) = 0 -> o_psf_T r = m_T (psf_mom ng mk to_T qsqrt js) /\
     o_psf_g r = (m_e1 (psf_mom ng mk to_T qsqrt js), m_e2 (psf_mom ng mk to_T qsqrt js))) /\
  o_band_flux_flags r = map (fun j => snd (band_flux_cols (j_res j) (j_flags j))) js.
Proof.
  intros ng mk to_T qsqrt js sb fw r H He. pose proof (proj2 (existsb_is js) He) as He'. rewrite combine_bands_eq in H.
  destruct (zlen sb <=? MAX_NUM_SHEAR_BANDS); [|discriminate]. rewrite He' in H. apply Ok_inj in H.
  unfold comb_flags in H. rewrite never_differ in H.
  assert (Hn : List.length js <> O) by (destruct He as (j & I & _); destruct js; [destruct I|discriminate]).
  subst r. unfold finish_row. cbv zeta. cbn [o_psf_flags o_obj_flags o_psf_T o_psf_g o_band_flux_flags].
  fold (obj_mom ng mk to_T qsqrt js fw). fold (psf_mom ng mk to_T qsqrt js).
  split. { destruct (s_flags (sum_psf js) =? 0) eqn:E; [|reflexivity]. apply Z.eqb_eq in E. rewrite E. apply Z.lor_0_l. }
  split.
  { match goal with |- context [negb (?x =? 0)] => set (pf := x) end.
    destruct (s_flags (sum_obj js) =? 0) eqn:E.
    - apply Z.eqb_eq in E. rewrite E, Z.lor_0_l. destruct (negb (pf =? 0)); [reflexivity|now rewrite Z.lor_0_r].
    - destruct (negb (pf =? 0)); [reflexivity|now rewrite Z.lor_0_r]. }
  split. { intros ->. cbn [Z.eqb]. split; reflexivity. }
  destruct (List.length js); [congruence|]. unfold flux_cols. now rewrite map_map.
Qed.

Lemma psf_flags_exact : forall ng mk to_T qsqrt js sb fw r,
  combine_bands ng mk to_T qsqrt js sb fw = Ok r -> (exists j, In j js /\ j_is j = true) ->
  ((exists f, by_a_band psf_cause js f /\ f <> 0) -> bits_from (o_psf_flags r) (by_a_band psf_cause js)) /\
  ((forall f, by_a_band psf_cause js f -> f = 0) -> flags_of_values mk -> (forall j, In j js -> j_is j = true -> alike j) ->
     bits_from (o_psf_flags r) (moment_cause ng mk to_T 0 (psf_mean js) (psf_mean_cov js)
       (wmean (shear_psfs js) flux_of) (wmean_var (shear_psfs js) flux_var_of))).
Proof.
  intros ng mk to_T qsqrt js sb fw r H He. destruct (row_flags _ _ _ _ _ _ _ _ H He) as (P & _). rewrite P.
  pose proof (bits_zero _ _ (psf_bits js)) as Z0. split.
  - intros (f & C & N). destruct (s_flags (sum_psf js) =? 0) eqn:E; [|apply psf_bits].
    apply Z.eqb_eq in E. exfalso. apply N. exact (proj1 Z0 E f C).
  - intros N K Al. rewrite (proj2 Z0 N). cbn [Z.eqb]. destruct (psf_mean_formula js N Al) as (A & B & C & D).
    apply mom_res_bits; auto. left. lra.
Qed.
Lemma obj_flags_exact : forall ng mk to_T qsqrt js sb fw r,
  combine_bands ng mk to_T qsqrt js sb fw = Ok r -> (exists j, In j js /\ j_is j = true) ->
  let psf f := o_psf_flags r <> 0 /\ f = flag_value PSF_FAILURE in
  ((exists f, by_a_band band_cause js f /\ f <> 0) -> bits_from (o_obj_flags r) (fun f => by_a_band band_cause js f \/ psf f)) /\
  ((forall f, by_a_band band_cause js f -> f = 0) -> flags_of_values mk ->
   let l := shear_fits js in
   let m i := wmean l (fun r => normalised r i) in let c i k := wmean_var l (fun r => normalised_cov r i k) in
     (fw <= 0)%Q \/ finite_moments m c ->
     bits_from (o_obj_flags r) (fun f => moment_cause ng mk to_T fw m c (wmean l flux_of) (wmean_var l flux_var_of) f \/ psf f)).
Proof.
  intros ng mk to_T qsqrt js sb fw r H He psf. destruct (row_flags _ _ _ _ _ _ _ _ H He) as (_ & P & _). rewrite P.
  assert (B : bits_from (if negb (o_psf_flags r =? 0) then flag_value PSF_FAILURE else 0) psf).
  { apply bits_if. rewrite negb_true_iff, Z.eqb_neq. reflexivity. }
  pose proof (bits_zero _ _ (obj_bits js)) as Z0. split.
  - intros (f & C & N). apply bits_lor; [|exact B]. destruct (s_flags (sum_obj js) =? 0) eqn:E; [|apply obj_bits].
    apply Z.eqb_eq in E. exfalso. apply N. exact (proj1 Z0 E f C).
  - intros N K l m c Fin. apply bits_lor; [|exact B]. rewrite (proj2 Z0 N). cbn [Z.eqb].
    destruct (obj_mom_formula (map dup js) (no_cause_obj js N)) as (M1 & M2 & M3 & M4).
    rewrite sum_obj_dup, shear_fits_dup in M1, M2, M3, M4. apply mom_res_bits; [exact K|intros i _; apply M1|intros i k _ _; apply M2|exact M3|exact M4|exact Fin].
Qed.

Lemma flux_flags_exact : forall ng mk to_T qsqrt js sb fw r k j,
  combine_bands ng mk to_T qsqrt js sb fw = Ok r -> (exists j, In j js /\ j_is j = true) -> nth_error js k = Some j ->
  exists v, nth_error (o_band_flux_flags r) k = Some v /\
    v = Z.lor (j_flags j) (match j_res j with
                           | None => flag_value MISSING_BAND
                           | Some f => match r_flux f, r_flux_err f, r_flux_flags f with
                                       | Some _, Some _, Some v => v
                                       | _, _, _ => flag_value NOMOMENTS_FAILURE
                                       end
                           end).
Proof.
  intros ng mk to_T qsqrt js sb fw r k j H He Hk. destruct (row_flags _ _ _ _ _ _ _ _ H He) as (_ & _ & _ & ->).
  eexists. split; [rewrite (map_nth_error _ _ _ Hk); reflexivity|]. unfold band_flux_cols.
  destruct (j_res j) as [[a b c d e f g]|]; [|reflexivity]. cbn [r_flux r_flux_err r_flux_flags]. destruct e, f, g; reflexivity.
Qed.

(** ** C112 *)
Lemma ndiv_ndiv : forall a b w, ~ (w == 0)%Q -> neqv (ndiv (ndiv a (Some w)) (ndiv b (Some w))) (ndiv a b).
Proof.
  intros [a|] [b|] w W; cbn; pose proof (proj2 (Qeq_bool_false_iff _) W) as W'; rewrite ?W'; cbn; rewrite ?W'; try exact Logic.I.
  destruct (Qeq_bool b 0) eqn:E.
  - apply Qeq_bool_iff in E. assert (Qeq_bool (b / w) 0 = true) as -> by (apply Qeq_bool_iff; rewrite E; field; exact W). exact Logic.I.
  - apply Qeq_bool_false_iff in E. assert (Qeq_bool (b / w) 0 = false) as ->.
    { apply Qeq_bool_false_iff. intro X. apply E. assert (b == (b / w) * w)%Q by (field; exact W). rewrite H, X. ring. }
    cbn. field. auto.
Qed.
Lemma psf_average : forall ng mk to_T qsqrt js sb fw r,
  mk_size mk -> mk_shape mk -> combine_bands ng mk to_T qsqrt js sb fw = Ok r -> (exists j, In j js /\ j_is j = true) ->
  o_psf_flags r = 0 -> (forall j, In j js -> j_is j = true -> alike j) ->
  (forall t, In t (shear_triples js) -> forall m, r_mom (snd t) = Some m -> m 5%nat <> None) ->
  neqv (o_psf_T r) (flux_weighted js psf_size) /\
  neqv (fst (o_psf_g r)) (ndiv (flux_sum js (fun p => unit_psf p 2)) (flux_sum js (fun p => unit_psf p 4))) /\
  neqv (snd (o_psf_g r)) (ndiv (flux_sum js (fun p => unit_psf p 3)) (flux_sum js (fun p => unit_psf p 4))).
Proof.
  intros ng mk to_T qsqrt js sb fw r Sz Sh H He Z0 Al Fin. destruct (row_flags _ _ _ _ _ _ _ _ H He) as (P & _ & T & _).
  rewrite Z0 in P. destruct (s_flags (sum_psf js) =? 0) eqn:E; [|apply Z.eqb_neq in E; congruence]. apply Z.eqb_eq in E.
  destruct (T E) as [T1 T2]. rewrite T1, T2. cbn [fst snd]. clear T T1 T2.
  pose proof (proj1 (bits_zero _ _ (psf_bits js)) E) as N. destruct (psf_mean_formula js N Al) as (A & _). pose proof (no_cause_psf js N) as C.
  assert (W : ~ (qsum (map (fun t => fst (fst t)) (shear_triples js)) == 0)%Q).
  { pose proof (total_weight_pos js (proj2 (existsb_is js) He) C) as X. destruct (shear_fits_used js C) as (_ & _ & Y). rewrite Y in X.
    destruct (triples_map js (fun _ => None) (fun _ => None) C (fun _ _ _ _ _ _ _ => Logic.I)) as [_ Wt]. rewrite <- Wt. lra. }
  assert (F5 : neqv (psf_mean js 5) (ndiv (flux_sum js (fun _ => Some 1%Q)) (Some (qsum (map (fun t => fst (fst t)) (shear_triples js)))))).
  { unfold psf_mean. apply vdiv_ext; [|reflexivity]. apply nsum_ext. intros [[w o] p] I. cbn [fst snd]. unfold unit_psf.
    unfold shear_triples in I. apply in_flat_map in I as I'. destruct I' as (j & Ij & X).
    destruct (j_res j) as [r0|] eqn:Er; [|destruct X]. destruct (j_psf j) as [p0|] eqn:Ep; [|destruct X]. destruct (j_is j) eqn:S; [|destruct X].
    destruct X as [X|[]]. injection X as <- <- <-. destruct (C j Ij S) as (Hw & _ & (r' & Er' & Hr) & (p' & Ep' & Hp)).
    rewrite Er in Er'. rewrite Ep in Ep'. apply Some_inj in Er', Ep'. subst r' p'.
    destruct (r_mom p0) as [mp|] eqn:Emp; [|destruct Hp; congruence].
    destruct (mp 5%nat) as [q|] eqn:Eq; [|exfalso; exact (Fin _ I mp Emp Eq)].
    destruct (psf_share j r0 p0 mp q Hw (Al j Ij S) Er Ep Hr Emp (fun f X => N f (ex_intro _ j (conj Ij (conj S X)))) Eq) as [_ Q0].
    pose proof (proj2 (Qeq_bool_false_iff _) Q0) as Q0'. cbn [ndiv]. rewrite Q0'.
    destruct (normalised r0 5) as [x|]; cbn; [field; exact Q0|exact Logic.I]. }
  symmetry in P. destruct (mom_res_T ng mk to_T qsqrt (vdiv (s_mom (sum_psf js)) (s_wgt (sum_psf js)))
    (mdiv (s_cov (sum_psf js)) (s_wgt (sum_psf js) * s_wgt (sum_psf js))) (ndiv (s_flux (sum_psf js)) (Some (s_wgt (sum_psf js))))
    (ndiv (s_flux_var (sum_psf js)) (Some (s_wgt (sum_psf js) * s_wgt (sum_psf js))%Q)) 0) as (P1 & _ & _ & P4).
  fold (psf_mom ng mk to_T qsqrt js) in P1, P4.
  destruct (mom_res_plain ng mk to_T qsqrt (vdiv (s_mom (sum_psf js)) (s_wgt (sum_psf js)))
    (mdiv (s_cov (sum_psf js)) (s_wgt (sum_psf js) * s_wgt (sum_psf js))) (ndiv (s_flux (sum_psf js)) (Some (s_wgt (sum_psf js))))
    (ndiv (s_flux_var (sum_psf js)) (Some (s_wgt (sum_psf js) * s_wgt (sum_psf js))%Q)) 0 ltac:(lra)) as (G1 & G2 & _).
  fold (psf_mom ng mk to_T qsqrt js) in G1, G2. specialize (P4 P).
  set (raw := vdiv (s_mom (sum_psf js)) (s_wgt (sum_psf js))) in *. set (cov := mdiv _ _) in *.
  destruct (Sh raw cov P4) as [S1 S2].
  assert (T4 : neqv (ndiv (raw 4%nat) (raw 5%nat)) (flux_weighted js psf_size)).
  { rewrite (A 4%nat), (A 5%nat), F5. unfold psf_mean, flux_weighted. apply ndiv_ndiv. exact W. }
  rewrite P1, (Sz raw cov P4), G1, G2, S1, S2. split; [exact T4|].
  assert (Hs : forall i, neqv (ndiv (raw i) (raw 4%nat)) (ndiv (flux_sum js (fun p => unit_psf p i)) (flux_sum js (fun p => unit_psf p 4)))).
  { intro i. rewrite (A i), (A 4%nat). apply ndiv_ndiv. exact W. }
  split; apply Hs.
Qed.

(** ** From the observations *)
Lemma problem_cases : forall bm sym ol, (exists fl, band_problem bm sym ol fl) \/ forall fl, ~ band_problem bm sym ol fl.
Proof.
  intros bm sym [|o rest]; [left; eexists; constructor|].
  destruct (if sym then symmetrize_obs_weights o else Ok o) as [o'|e] eqn:Es.
  - assert (Fo : fitted_obs sym o o') by (unfold fitted_obs; destruct sym; [exact Es|apply Ok_inj in Es; congruence]).
    destruct (any_pixel qpos (f_weight o')) eqn:Ea.
    + destruct (f_bmask o') as [b|] eqn:Eb.
      * destruct (any_pixel (fun v => negb (Z.land v bm =? 0)) b) eqn:Em.
        -- left. apply any_pixel_spec in Em. destruct Em as (i & j & I & M). apply negb_true_iff, Z.eqb_neq in M.
           eexists. eapply masked_pixel; eauto.
        -- right. intros fl P. inversion P as [|o0 r0 o1 F1 W E1 E2|o0 r0 o1 b1 i j F1 B1 I1 M1 E1 E2]; subst.
           ++ assert (o1 = o') by (unfold fitted_obs in F1, Fo; destruct sym; [rewrite Fo in F1; apply Ok_inj in F1|]; congruence). subst o1.
              apply W. apply any_pixel_spec in Ea. destruct Ea as (i & j & I & Q0). exists i, j. split; [exact I|now apply qpos_iff].
           ++ assert (o1 = o') by (unfold fitted_obs in F1, Fo; destruct sym; [rewrite Fo in F1; apply Ok_inj in F1|]; congruence). subst o1.
              rewrite Eb in B1. apply Some_inj in B1. subst b1. apply not_true_iff_false in Em. apply Em. apply any_pixel_spec.
              exists i, j. split; [exact I1|]. apply negb_true_iff, Z.eqb_neq. exact M1.
      * right. intros fl P. inversion P as [|o0 r0 o1 F1 W E1 E2|o0 r0 o1 b1 i j F1 B1 I1 M1 E1 E2]; subst.
        -- assert (o1 = o') by (unfold fitted_obs in F1, Fo; destruct sym; [rewrite Fo in F1; apply Ok_inj in F1|]; congruence). subst o1.
           apply W. apply any_pixel_spec in Ea. destruct Ea as (i & j & I & Q0). exists i, j. split; [exact I|now apply qpos_iff].
        -- assert (o1 = o') by (unfold fitted_obs in F1, Fo; destruct sym; [rewrite Fo in F1; apply Ok_inj in F1|]; congruence). subst o1. congruence.
    + left. exists (flag_value ZERO_WEIGHTS). apply no_weight with o'; [exact Fo|]. intros (i & j & I & Q0).
      apply not_true_iff_false in Ea. apply Ea. apply any_pixel_spec. exists i, j. split; [exact I|now apply qpos_iff].
  - right. intros fl P. inversion P as [|o0 r0 o1 F1 W E1 E2|o0 r0 o1 b1 i j F1 B1 I1 M1 E1 E2]; subst;
      unfold fitted_obs in F1; destruct sym; congruence.
Qed.
Lemma problem_bits : forall bm sym ol ft f, fit_obslist ol ft bm sym = Ok f -> bits_from (bf_flags f) (band_problem bm sym ol).
Proof.
  intros bm sym [|o rest] ft f H; cbn [fit_obslist] in H.
  - apply Ok_inj in H. subst f. cbn [bf_flags]. refine (bits_ext _ _ _ _ (bits_self _)). intro g.
    split; [intros ->; constructor|]. intro P. inversion P; reflexivity.
  - unfold fit_obs in H. destruct (if sym then symmetrize_obs_weights o else Ok o) as [o'|e] eqn:Es; cbn [obind] in H; [|discriminate].
    assert (Fo : fitted_obs sym o o') by (unfold fitted_obs; destruct sym; [exact Es|apply Ok_inj in Es; congruence]).
    destruct (f_bmask o') as [b|] eqn:Eb; [|discriminate].
    match type of H with (if negb (?x =? 0) then _ else _) = _ => set (f2 := x) in * end.
    assert (E : bf_flags f = f2).
    { destruct (f2 =? 0) eqn:E2; cbn [negb] in H.
      - apply Z.eqb_eq in E2. destruct (k_go ft o'); cbn [obind] in H; [|discriminate]. destruct (f_psf o'); [|discriminate].
        destruct (k_go_psf ft p); cbn [obind] in H; [|discriminate]. apply Ok_inj in H. subst f. cbn [bf_flags]. congruence.
      - apply Ok_inj in H. subst f. reflexivity. }
    rewrite E. clear H E.
    assert (A : bits_from (if negb (any_pixel qpos (f_weight o')) then flag_value ZERO_WEIGHTS else 0)
      (fun g => ~ has_positive (f_weight o') /\ g = flag_value ZERO_WEIGHTS)).
    { apply bits_if. rewrite negb_true_iff, <- not_true_iff_false, any_pixel_spec. unfold has_positive.
      split; intros N (i & j & I & Q0); apply N; exists i, j; (split; [exact I|now apply qpos_iff]). }
    assert (B : bits_from (if any_pixel (fun v => negb (Z.land v bm =? 0)) b then flag_value EDGE_HIT else 0)
      (fun g => (exists i j, inside b i j /\ Z.land (px b i j) bm <> 0) /\ g = flag_value EDGE_HIT)).
    { apply bits_if. rewrite any_pixel_spec. split; intros (i & j & I & M); exists i, j; (split; [exact I|]);
        [apply negb_true_iff, Z.eqb_neq in M; exact M|apply negb_true_iff, Z.eqb_neq; exact M]. }
    assert (C : f2 = Z.lor (if negb (any_pixel qpos (f_weight o')) then flag_value ZERO_WEIGHTS else 0)
                           (if any_pixel (fun v => negb (Z.land v bm =? 0)) b then flag_value EDGE_HIT else 0)).
    { subst f2. destruct (any_pixel (fun v => negb (Z.land v bm =? 0)) b); [reflexivity|now rewrite Z.lor_0_r]. }
    rewrite C. refine (bits_ext _ _ _ _ (bits_lor _ _ _ _ A B)). intro g. split.
    + intros [[N ->]|[(i & j & I & M) ->]]; [exact (no_weight bm sym o rest o' Fo N)|exact (masked_pixel bm sym o rest o' b i j Fo Eb I M)].
    + intro P. inversion P as [|o0 r0 o1 F1 W E1 E2|o0 r0 o1 b1 i j F1 B1 I1 M1 E1 E2]; subst;
        (assert (o1 = o') by (unfold fitted_obs in F1, Fo; destruct sym; [rewrite Fo in F1; apply Ok_inj in F1|]; congruence); subst o1).
      * left. auto.
      * right. rewrite Eb in B1. apply Some_inj in B1. subst b1. split; [eauto|reflexivity].
Qed.
Lemma problem_weight : forall bm sym ol ft f fl, fit_obslist ol ft bm sym = Ok f -> band_problem bm sym ol fl ->
  bf_obj f = None /\ bf_psf f = None /\ (bf_wgt f == 0)%Q.
Proof.
  intros bm sym ol ft f fl H P. destruct (obslist_problem _ _ _ _ _ _ P H) as (A & B & C). split; [exact B|]. split; [exact C|].
  assert (N : bf_flags f <> 0) by (destruct P; exact (has_flag_nonzero _ _ A)).
  destruct ol as [|o rest]; cbn [fit_obslist] in H; [apply Ok_inj in H; subst f; reflexivity|].
  unfold fit_obs in H. destruct (if sym then symmetrize_obs_weights o else Ok o) as [o'|e] eqn:Es; cbn [obind] in H; [|discriminate].
  destruct (f_bmask o') as [b|]; [|discriminate].
  match type of H with (if negb (?x =? 0) then _ else _) = _ => set (f2 := x) in * end.
  destruct (f2 =? 0) eqn:E2; cbn [negb] in H.
  - destruct (k_go ft o'); cbn [obind] in H; [|discriminate]. destruct (f_psf o'); [|discriminate].
    destruct (k_go_psf ft p); cbn [obind] in H; [|discriminate]. apply Ok_inj in H. subst f. cbn [bf_flags] in N. congruence.
  - apply Ok_inj in H. subst f. reflexivity.
Qed.
Lemma obslist_ok_obs : forall ol ft bm sym f, fit_obslist ol ft bm sym = Ok f -> (forall fl, ~ band_problem bm sym ol fl) ->
  exists o rest o', ol = o :: rest /\ fitted_obs sym o o'.
Proof.
  intros [|o rest] ft bm sym f H N; [exfalso; exact (N _ (no_observation bm sym))|].
  cbn [fit_obslist] in H. unfold fit_obs in H. destruct (if sym then symmetrize_obs_weights o else Ok o) as [o'|e] eqn:Es; [|discriminate].
  exists o, rest, o'. split; [reflexivity|]. unfold fitted_obs. destruct sym; [exact Es|apply Ok_inj in Es; congruence].
Qed.

Lemma wavg_band_results : forall ng mk to_T qsqrt mbobs ft bm sb fw sym r,
  fit_mbobs_wavg ng mk to_T qsqrt mbobs ft bm sb fw sym = Ok r ->
  exists js, combine_bands ng mk to_T qsqrt js (the_shear_bands mbobs sb) fw = Ok r /\
    List.length js = List.length mbobs /\
    forall k ol j, nth_error mbobs k = Some ol -> nth_error js k = Some j ->
      band_result ft bm sym (the_shear_bands mbobs sb) k ol j.
Proof.
  intros ng mk to_T qsqrt mbobs ft bm sb fw sym r H.
  destruct (fit_mbobs_as_bands _ _ _ _ _ _ _ _ _ _ _ H) as (fits & Hf & Hl & Hc).
  set (s := the_shear_bands mbobs sb) in *. clearbody s.
  exists (mk_bands s fits (zrange (zlen mbobs))). split; [exact Hc|]. split.
  { unfold mk_bands. rewrite map_length, combine_length, zrange_len, Hl. apply Nat.min_id. }
  intros k ol j Ho Hj.
  destruct (forall2_nth _ _ _ _ _ _ _ (omap_ok_Forall2 _ _ _ _ _ Hf) Ho) as (f & Hfn & Hfo). cbn beta in Hfo.
  unfold zlen in Hj. rewrite <- Hl in Hj. rewrite (nth_mk_bands s fits _ k f eq_refl Hfn) in Hj. apply Some_inj in Hj. subst j.
  unfold band_result. cbn [j_is j_flags j_res j_psf j_w]. split.
  { rewrite existsb_exists. split; [intros (x & I & E); apply Z.eqb_eq in E; now subst x|]. intro I. exists (Z.of_nat k). split; [exact I|apply Z.eqb_refl]. }
  split; [exact (problem_bits _ _ _ _ _ Hfo)|]. split.
  - intros (fl & P). exact (problem_weight _ _ _ _ _ _ Hfo P).
  - intro N. destruct (obslist_ok_obs _ _ _ _ _ Hfo N) as (o & rest & o' & -> & Fo).
    destruct (obslist_fit _ _ _ _ _ _ _ N Fo Hfo) as (fr & p & pr & w & G & Ps & Gp & M & Pw & ->).
    cbn [bf_obj bf_psf bf_wgt]. exists o, rest, o', fr, p, pr. repeat (split; [assumption || reflexivity|]).
    exact Pw.
Qed.

Lemma no_shear_band_flags : forall ng mk to_T qsqrt js sb fw r,
  combine_bands ng mk to_T qsqrt js sb fw = Ok r -> (forall j, In j js -> j_is j = false) ->
  o_psf_flags r = flag_value MISSING_BAND /\ o_obj_flags r = Z.lor (flag_value MISSING_BAND) (flag_value PSF_FAILURE) /\
  forall k, (k < List.length js)%nat -> nth_error (o_band_flux_flags r) k = Some (flag_value MISSING_BAND).
Proof.
  intros ng mk to_T qsqrt js sb fw r H N. rewrite combine_bands_eq in H.
  destruct (zlen sb <=? MAX_NUM_SHEAR_BANDS); [|discriminate].
  assert (E : existsb j_is js = false).
  { apply not_true_iff_false. rewrite existsb_is. intros (j & I & T). rewrite (N j I) in T. discriminate. }
  rewrite E in H. apply Ok_inj in H. subst r. split; [reflexivity|]. split; [reflexivity|].
  intros k Hk. unfold finish_row. cbv zeta. cbn [o_band_flux_flags]. destruct (List.length js) as [|n] eqn:L; [lia|].
  rewrite nth_error_nth' with (d := flag_value MISSING_BAND) by (rewrite repeat_length; lia). now rewrite nth_repeat.
Qed.
