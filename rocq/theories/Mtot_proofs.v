From Coq Require Import ZArith QArith Qabs List String Bool Lia Lqa.
From Verif Require Import Base Arr Median Flags_model Detect_model Detect_spec Detect_proofs Summ_model Summ_spec Summ_proofs Coadd_model Wavg_model
  Joint_model Joint_proofs Refuse_spec Refuse_proofs Conf_model Conf_spec Conf_proofs Mdet_model Mdet_spec Mdet_proofs Mcol_spec Mrun_model Mrun_spec Mrun_proofs Mtot_spec.
Import ListNotations.
Local Open Scope string_scope.
Local Open Scope Z_scope.

Lemma omap_total_in : forall A B (f : A -> outcome B) l, (forall a, In a l -> exists b, f a = Ok b) -> exists r, omap f l = Ok r.
Proof.
  intros A B f l. induction l as [|a l IH]; intros H; [exists []; reflexivity|].
  destruct (H a (or_introl eq_refl)) as (b & E). destruct IH as (r & Er); [intros a' Ha; apply H; right; exact Ha|].
  exists (b :: r). cbn [omap]. rewrite E. cbn [obind]. rewrite Er. reflexivity.
Qed.
Lemma py_index_total : forall A (l : list A) b, 0 <= b < zlen l -> exists a, py_index l b = Ok a /\ In a l.
Proof.
  intros A l b H. destruct (omap_py_index_in _ l [b]) as (r & E & _); [intros b' [<-|[]]; exact H|].
  cbn [omap] in E. destruct (py_index l b) as [a|] eqn:Ea; [|discriminate]. exists a. split; [reflexivity|]. exact (py_index_in _ _ _ _ Ea).
Qed.
Lemma omap_index : forall A (l : list A) bs, (forall b, In b bs -> 0 <= b < zlen l) ->
  exists r, omap (py_index l) bs = Ok r /\ List.length r = List.length bs /\ forall a, In a r -> In a l.
Proof.
  intros A l bs H. destruct (omap_py_index_in _ l bs H) as (r & E & L). exists r. split; [exact E|]. split; [exact L|].
  apply omap_ok_Forall2 in E. clear - E. induction E as [|b a bs r H E IH]; [intros a []|].
  intros a' [<-|Ha]; [exact (py_index_in _ _ _ _ H)|exact (IH a' Ha)].
Qed.

(** ** Fits *)
Definition good_obs (o : fobs) : Prop := f_bmask o <> None /\ f_psf o <> None /\ nr (f_weight o) = nc (f_weight o).
Definition good_stamps (n : Z) (st : list (list fobs)) : Prop := zlen st = n /\ forall ol o, In ol st -> In o ol -> good_obs o.

Lemma symm_total : forall o, good_obs o -> exists o', symmetrize_obs_weights o = Ok o' /\ f_bmask o' = f_bmask o /\ f_psf o' = f_psf o.
Proof.
  intros o (_ & _ & H). unfold symmetrize_obs_weights. destruct (any_pixel _ _); [|eauto].
  rewrite H, Z.eqb_refl. eexists. split; [reflexivity|]. split; reflexivity.
Qed.
Lemma fit_obs_total : forall ft bf sy o, good_obs o -> (forall o, exists r, k_go ft o = Ok r) -> (forall p, exists r, k_go_psf ft p = Ok r) ->
  exists b, fit_obs o ft bf sy = Ok b.
Proof.
  intros ft bf sy o Ho H1 H2. unfold fit_obs.
  assert (S : exists o', (if sy then symmetrize_obs_weights o else Ok o) = Ok o' /\ f_bmask o' = f_bmask o /\ f_psf o' = f_psf o).
  { destruct sy; [exact (symm_total o Ho)|eauto]. }
  destruct S as (o' & -> & Eb & Ep). cbn [obind]. rewrite Eb. destruct Ho as (Hb & Hp & _).
  destruct (f_bmask o) as [bm|]; [|congruence].
  match goal with |- context [negb (?f =? 0)] => destruct (negb (f =? 0)) end; [eauto|].
  destruct (H1 o') as (r & ->). cbn [obind]. rewrite Ep. destruct (f_psf o) as [p|]; [|congruence].
  destruct (H2 p) as (pr & ->). cbn [obind]. eauto.
Qed.
Lemma struct_total : forall ng n sb, (List.length sb <= 6)%nat -> exists d0, get_wavg_output_struct ng n sb = Ok d0 /\
  List.length (o_band_flux_flags d0) = Nat.max n 1 /\ List.length (o_band_flux d0) = Nat.max n 1 /\ List.length (o_band_flux_err d0) = Nat.max n 1.
Proof.
  intros ng n sb H. unfold get_wavg_output_struct.
  assert (E : (zlen sb <=? MAX_NUM_SHEAR_BANDS) = true) by (apply Z.leb_le; unfold zlen, MAX_NUM_SHEAR_BANDS; lia).
  rewrite E. eexists. split; [reflexivity|]. cbn [o_band_flux_flags o_band_flux o_band_flux_err]. rewrite !repeat_length. auto.
Qed.
Lemma wavg_total : forall ng mk toT sq st ft bf sb reg sy n, good_stamps n st -> good_bands n sb ->
  k_kind ft <> "am" -> (forall o, exists r, k_go ft o = Ok r) -> (forall p, exists r, k_go_psf ft p = Ok r) ->
  exists r, fit_mbobs_wavg ng mk toT sq st ft bf (Some sb) reg sy = Ok r.
Proof.
  intros ng mk toT sq st ft bf sb reg sy n (Hn & Hst) (_ & _ & H6 & _) Hk H1 H2. unfold fit_mbobs_wavg. cbv zeta.
  rewrite (proj2 (String.eqb_neq _ _) Hk). cbn [andb].
  destruct (omap_total_in _ _ (fun ol => fit_obslist ol ft bf sy) st) as (fits & ->).
  { intros ol Hol. unfold fit_obslist. destruct ol as [|o ol]; [eauto|].
    apply fit_obs_total; auto. exact (Hst _ o Hol (or_introl eq_refl)). }
  cbn [obind]. unfold combine_fit_results_wavg. cbv zeta.
  match goal with |- context [get_wavg_output_struct ?a ?b ?c] => destruct (struct_total a b c H6) as (d0 & -> & _) end.
  cbn [obind]. match goal with |- context [if ?b then _ else _] => destruct b end; eauto.
Qed.

Lemma data_flags_total : forall bf st n, good_stamps n st -> exists f, data_flags bf st = Ok f /\
  (f = 0 -> forall ol, In ol st -> exists o, ol = [o] /\ good_obs o).
Proof.
  intros bf st n (_ & Hst). unfold data_flags.
  assert (G : forall l f0, (forall ol o, In ol l -> In o ol -> good_obs o) ->
    exists f, ofold (fun f ol => do g <- band_data_flags bf ol; Ok (Z.lor f g)) l f0 = Ok f /\
      (f = 0 -> f0 = 0 /\ forall ol, In ol l -> exists o, ol = [o] /\ good_obs o)).
  { induction l as [|ol l IH]; intros f0 Hl.
    - exists f0. split; [reflexivity|]. intros ->. split; [reflexivity|]. intros ol [].
    - cbn [ofold].
      assert (B : exists g, band_data_flags bf ol = Ok g /\ (g = 0 -> exists o, ol = [o])).
      { unfold band_data_flags. destruct ol as [|o [|o' ol]].
        - eexists. split; [reflexivity|]. intros E. vm_compute in E. discriminate.
        - destruct (Hl [o] o (or_introl eq_refl) (or_introl eq_refl)) as (Hb & _). destruct (f_bmask o); [|congruence]. eauto.
        - eexists. split; [reflexivity|]. intros E. vm_compute in E. discriminate. }
      destruct B as (g & -> & Hg). cbn [obind].
      destruct (IH (Z.lor f0 g)) as (f & E & Hf); [intros ol' o H H'; exact (Hl ol' o (or_intror H) H')|].
      exists f. split; [exact E|]. intros Z0. destruct (Hf Z0) as (E0 & Hr). apply Z.lor_eq_0_iff in E0. destruct E0 as [E1 E2].
      split; [exact E1|]. intros ol' [<-|Hin]; [|exact (Hr ol' Hin)]. destruct (Hg E2) as (o & ->). exists o. split; [reflexivity|].
      exact (Hl [o] o (or_introl eq_refl) (or_introl eq_refl)). }
  destruct (G st 0 Hst) as (f & E & Hf). exists f. split; [exact E|]. intros Z0. exact (proj2 (Hf Z0)).
Qed.
Definition all_single (st : list (list fobs)) : Prop := forall ol, In ol st -> exists o, ol = [o] /\ good_obs o.
Lemma band_obs_total : forall st b, all_single st -> 0 <= b < zlen st -> exists o, band_obs st b = Ok o /\ good_obs o.
Proof.
  intros st b H Hb. unfold band_obs. destruct (py_index_total _ st b Hb) as (ol & -> & Hin). cbn [obind].
  destruct (H ol Hin) as (o & -> & Ho). exists o. split; [apply py_index_0|exact Ho].
Qed.
Lemma coadd_weight_dims : forall sh ow, nr (coadd_weight sh ow) = nr sh /\ nc (coadd_weight sh ow) = nc sh.
Proof. intros. split; reflexivity. Qed.
Lemma coadd_total : forall st sb, all_single st -> good_bands (zlen st) sb ->
  exists r, make_coadd_obs st sb = Ok r /\ forall o f, r = (Some o, f) -> f_psf o <> None /\ nr (f_weight o) = nc (f_weight o).
Proof.
  intros st sb Hs (Hne & _ & _ & Hb). unfold make_coadd_obs. cbv zeta. destruct (Z.eqb_spec (zlen st) 1) as [E1|E1].
  - destruct sb as [|s0 sb]; [congruence|]. rewrite py_index_0. cbn [obind]. destruct (s0 =? 0); [|eexists; split; [reflexivity|]; intros o f E; discriminate].
    destruct (band_obs_total st 0 Hs) as (o & -> & Ho); [lia|]. cbn [obind]. eexists. split; [reflexivity|].
    intros o' f E. apply pair_equal_spec in E. destruct E as [E _]. apply Some_inj in E. subst o'. exact (proj2 Ho).
  - assert (M : exists r, (if existsb (fun s => zlen st <=? s) sb then Ok (None, flag_value INCONSISTENT_BANDS)
        else do s0 <- py_index sb 0; do fo <- band_obs st s0; do ok <- all_consistent st fo (tl sb);
          if negb ok then Ok (None, flag_value INCONSISTENT_BANDS)
          else do obs <- omap (band_obs st) sb; match f_psf fo with None => Raise AttributeError | Some fp => Ok (coadd_many obs fo fp) end) = Ok r /\
        forall o f, r = (Some o, f) -> f_psf o <> None /\ nr (f_weight o) = nc (f_weight o)).
    { destruct (existsb _ sb); [eexists; split; [reflexivity|]; intros o f E; discriminate|].
      destruct sb as [|s0 sb]; [congruence|]. rewrite py_index_0. cbn [obind tl].
      destruct (band_obs_total st s0 Hs) as (fo & -> & Ho); [apply Hb; left; reflexivity|]. cbn [obind].
      assert (A : exists ok, all_consistent st fo sb = Ok ok).
      { assert (Hb' : forall b, In b sb -> 0 <= b < zlen st) by (intros b H; apply Hb; right; exact H). clear - Hs Hb'.
        induction sb as [|b sb IH]; [eexists; reflexivity|]. cbn [all_consistent].
        destruct (band_obs_total st b Hs) as (o & -> & _); [apply Hb'; left; reflexivity|]. cbn [obind].
        destruct (consistent fo o); [|eauto]. apply IH. intros b' H. apply Hb'. right. exact H. }
      destruct A as (ok & ->). cbn [obind]. destruct (negb ok); [eexists; split; [reflexivity|]; intros o f E; discriminate|].
      destruct (omap_total_in _ _ (band_obs st) (s0 :: sb)) as (obs & ->).
      { intros b H. destruct (band_obs_total st b Hs) as (o & E & _); [apply Hb; exact H|eauto]. }
      cbn [obind]. destruct Ho as (_ & Hp & Hw). destruct (f_psf fo) as [fp|]; [|congruence]. eexists. split; [reflexivity|].
      intros o f E. unfold coadd_many in E. destruct (coadd_weights obs) as [ws|]; [|discriminate]. cbv zeta in E.
      destruct (all_pixels _ _); [discriminate|]. destruct (negb _); [discriminate|].
      apply pair_equal_spec in E. destruct E as [E _]. apply Some_inj in E. subst o. cbn [f_psf f_weight]. split; [discriminate|exact Hw]. }
    destruct sb as [|s [|s' sb]]; [congruence| |exact M].
    destruct (s <? zlen st); [|eexists; split; [reflexivity|]; intros o f E; discriminate].
    destruct (band_obs_total st s Hs) as (o & -> & Ho); [apply Hb; left; reflexivity|]. cbn [obind]. eexists. split; [reflexivity|].
    intros o' f E. apply pair_equal_spec in E. destruct E as [E _]. apply Some_inj in E. subst o'. exact (proj2 Ho).
Qed.

Lemma admom_total : forall ng rp ro st bf sb sy n, good_stamps n st -> good_bands n sb ->
  exists r, fit_mbobs_admom ng rp ro st bf (Some sb) sy = Ok r.
Proof.
  intros ng rp ro st bf sb sy n Hst Hsb. unfold fit_mbobs_admom. cbn [default_bands]. cbv zeta.
  destruct (struct_total ng (List.length st) sb) as (d0 & -> & _); [exact (proj1 (proj2 (proj2 Hsb)))|]. cbn [obind].
  destruct (data_flags_total bf st n Hst) as (f & -> & Hf). cbn [obind]. destruct (Z.eqb_spec f 0) as [E|E]; cbn [negb]; [|eauto].
  destruct (coadd_total st sb (Hf E)) as (r & -> & Hr); [rewrite (proj1 Hst); exact Hsb|]. cbn [obind].
  destruct r as [[co|] cf]; [|eauto]. destruct cf; [|eauto|eauto].
  destruct (admom_psf rp co) as [pres|]; [|eauto]. unfold admom_row. cbv zeta. destruct (Hr co 0 eq_refl) as [_ Hw].
  assert (S : exists o', (if sy then symmetrize_obs_weights co else Ok co) = Ok o').
  { destruct sy; [|eauto]. unfold symmetrize_obs_weights. destruct (any_pixel _ _); [|eauto]. rewrite Hw, Z.eqb_refl. eauto. }
  destruct S as (o' & ->). cbn [obind]. destruct (ro o'); eauto.
Qed.

Lemma set_nth_length : forall A (l : list A) k v, List.length (set_nth l k v) = List.length l.
Proof. intros A l. induction l as [|a l IH]; intros [|k] v; cbn; auto. Qed.
Lemma set_at_total : forall A (l : list A) i v, 0 <= i < zlen l -> exists l', set_at l i v = Ok l' /\ List.length l' = List.length l.
Proof.
  intros A l i v H. unfold set_at. cbv zeta. destruct (Z.ltb_spec i 0); [lia|].
  assert (E : (0 <=? i) && (i <? zlen l) = true) by (apply andb_true_iff; split; [apply Z.leb_le|apply Z.ltb_lt]; lia).
  rewrite E. eexists. split; [reflexivity|]. apply set_nth_length.
Qed.
Lemma assign_total : forall A n (l : list A) sb vals, List.length l = Nat.max n 1 -> good_bands (Z.of_nat n) sb ->
  List.length vals = 1%nat \/ List.length vals = List.length sb -> exists l', assign_bands n l sb vals = Ok l'.
Proof.
  intros A n l sb vals Hl (Hne & Hnd & _ & Hb) Hv. unfold assign_bands. destruct (Nat.leb n 1) eqn:En.
  - apply Nat.leb_le in En.
    assert (L : List.length sb = 1%nat).
    { destruct sb as [|b [|b' sb]]; [congruence|reflexivity|]. exfalso.
      assert (H1 := Hb b (or_introl eq_refl)). assert (H2 := Hb b' (or_intror (or_introl eq_refl))). inversion Hnd as [|? ? N _]. apply N. left. lia. }
    destruct vals as [|v [|v' vals]]; cbn in Hv; [lia|eauto|lia].
  - apply Nat.leb_gt in En.
    assert (G : forall C (f : C -> Z * A) (idx : list C) l0, List.length l0 = n -> (forall i, In i idx -> 0 <= fst (f i) < Z.of_nat n) ->
      exists l', ofold (fun l i => set_at l (fst (f i)) (snd (f i))) idx l0 = Ok l').
    { intros C f idx. induction idx as [|i idx IH]; intros l0 H0 Hi; [eexists; reflexivity|]. cbn [ofold].
      destruct (set_at_total _ l0 (fst (f i)) (snd (f i))) as (l1 & -> & L1); [unfold zlen; rewrite H0; apply Hi; left; reflexivity|].
      cbn [obind]. apply IH; [lia|]. intros j Hj. apply Hi. right. exact Hj. }
    unfold assign_at. destruct vals as [|v [|v' vals]].
    + cbn in Hv. destruct Hv as [Hv|Hv]; [lia|]. destruct sb; [congruence|discriminate].
    + exact (G Z (fun i => (i, v)) sb l ltac:(lia) Hb).
    + destruct Hv as [Hv|Hv]; [cbn in Hv; lia|]. rewrite Hv, Nat.eqb_refl.
      refine (G (Z * A)%type (fun iv => iv) (combine sb (v :: v' :: vals)) l _ _); [lia|].
      intros iv Hin. apply Hb. destruct iv as [i w]. exact (in_combine_l _ _ _ _ Hin).
Qed.

Lemma gauss_total : forall ng boot st bf sb co n, good_stamps n st -> good_bands n sb ->
  (forall mb g p, boot mb = BootOk g p -> g_flags g = 0 ->
     List.length (g_flux g) = List.length mb /\ List.length (g_flux_err g) = List.length mb) ->
  exists r, fit_mbobs_gauss ng boot st bf (Some sb) co = Ok r.
Proof.
  intros ng boot st bf sb co n Hst Hsb Hboot. unfold fit_mbobs_gauss. cbn [default_bands]. cbv zeta.
  destruct (struct_total ng (List.length st) sb) as (d0 & -> & L1 & L2 & L3); [exact (proj1 (proj2 (proj2 Hsb)))|]. cbn [obind].
  destruct (data_flags_total bf st n Hst) as (f & -> & Hf). cbn [obind].
  match goal with |- context [negb (?g =? 0)] => destruct (Z.eqb_spec g 0) as [E|E]; cbn [negb]; [|eauto] end.
  assert (F0 : f = 0) by (destruct (existsb _ sb); [apply Z.lor_eq_0_iff in E; exact (proj1 E)|exact E]).
  assert (Hsb' : good_bands (Z.of_nat (List.length st)) sb) by (change (Z.of_nat (List.length st)) with (zlen st); rewrite (proj1 Hst); exact Hsb).
  assert (GS : exists r, gauss_stamps st sb co = Ok r /\ forall mb, r = inl mb -> List.length mb = 1%nat \/ List.length mb = List.length sb).
  { unfold gauss_stamps. destruct co.
    - destruct (coadd_total st sb (Hf F0) Hsb') as (r & -> & _). cbn [obind]. destruct r as [[o|] cf]; (eexists; split; [reflexivity|]).
      + intros mb Hm. destruct (cf =? 0); [|discriminate]. injection Hm as <-. left. reflexivity.
      + intros mb Hm. discriminate.
    - destruct (omap_index _ st sb) as (l & -> & L & _); [exact (proj2 (proj2 (proj2 Hsb')))|]. cbn [obind]. eexists. split; [reflexivity|].
      intros mb Hm. injection Hm as <-. right. exact L. }
  destruct GS as (r & -> & Hr). cbn [obind]. destruct r as [mb|cf]; [|eauto].
  destruct (boot mb) as [g p| |] eqn:Eb; [|eauto|eauto]. unfold gauss_row. cbv zeta.
  destruct (assign_total _ _ (o_band_flux_flags d0) sb [g_flags g] L1 Hsb') as (bff & ->); [left; reflexivity|]. cbn [obind].
  destruct (Z.eqb_spec (g_flags g) 0) as [Eg|Eg].
  - destruct (Hboot mb g p Eb Eg) as [B1 B2].
    destruct (assign_total _ _ (o_band_flux d0) sb (g_flux g) L2 Hsb') as (l2 & ->); [rewrite B1; exact (Hr mb eq_refl)|]. cbn [obind].
    destruct (assign_total _ _ (o_band_flux_err d0) sb (g_flux_err g) L3 Hsb') as (l3 & ->); [rewrite B2; exact (Hr mb eq_refl)|]. cbn [obind].
    destruct (psf_columns d0 co mb p) as [[pf pT] pg]. eauto.
  - cbn [obind]. destruct (psf_columns d0 co mb p) as [[pf pT] pg]. eauto.
Qed.

Definition known_fitter (f : fitter) : Prop :=
  (fi_wavg f = true /\ fi_base f <> "am") \/ (fi_wavg f = false /\ In (fi_base f) ["admom"; "am"; "gauss"]).
Lemma constructed_known : forall cfg n k co sa da md, construct cfg n k co sa da = Ok md -> forall f, In f (md_fitters md) -> known_fitter f.
Proof.
  intros cfg n k co sa da md H f Hf. apply construct_for in H. induction H as [|c0 f0 cs fs H H' IH]; [destruct Hf|].
  destruct Hf as [<-|Hf]; [|exact (IH Hf)]. destruct H as (_ & W1 & W2 & _). unfold known_fitter. destruct (fi_wavg f0) eqn:E.
  - left. split; [reflexivity|]. intros X. rewrite X in W1. destruct (proj1 W1 eq_refl) as [Y|[Y|[Y|[]]]]; discriminate Y.
  - right. split; [reflexivity|]. exact (proj1 W2 eq_refl).
Qed.
Lemma fit_total : forall x c f sb st n, fitters_return x -> known_fitter f -> good_stamps n st -> good_bands n sb -> exists r, fit x c f sb st = Ok r.
Proof.
  intros x c f sb st n (F1 & F2 & F3) K Hst Hsb. unfold fit. destruct K as [[-> K]|[-> K]].
  - apply (wavg_total _ _ _ _ _ _ _ _ _ _ n Hst Hsb); [exact K|exact (F1 f)|exact (F2 f)].
  - destruct K as [<-|[<-|[<-|[]]]]; cbn [String.eqb Ascii.eqb Bool.eqb orb].
    + exact (admom_total _ _ _ _ _ _ _ n Hst Hsb).
    + exact (admom_total _ _ _ _ _ _ _ n Hst Hsb).
    + exact (gauss_total _ _ _ _ _ _ n Hst Hsb F3).
Qed.

(** ** Prefixes *)
Lemma cents_ok : forall q, cents q (Z.abs (qrint (q * 100))).
Proof.
  intros q. pose proof (qrint_half (q * 100)) as [A1 A2]. pose proof (qrint_even (q * 100)) as E. unfold cents.
  set (m := qrint (q * 100)) in *. clearbody m.
  assert (S : (Qabs (100 * Qabs q - inject_Z (Z.abs m)) == Qabs (q * 100 - inject_Z m))%Q).
  { destruct (Qlt_le_dec q 0) as [Hq|Hq].
    - assert (Hm : m <= 0).
      { destruct (Z.le_gt_cases m 0) as [L|L]; [exact L|]. exfalso.
        assert (K : (1 <= inject_Z m)%Q) by (change 1%Q with (inject_Z 1); rewrite <- Zle_Qle; lia). lra. }
      pose proof (Qabs_neg q (Qlt_le_weak _ _ Hq)) as Hp. rewrite Z.abs_neq by exact Hm.
      rewrite <- (Qabs_opp (q * 100 - inject_Z m)). apply Qabs_wd. rewrite Hp, inject_Z_opp. lra.
    - assert (Hm : 0 <= m).
      { destruct (Z.le_gt_cases 0 m) as [L|L]; [exact L|]. exfalso.
        assert (K : (inject_Z m <= -1)%Q) by (change (-1)%Q with (inject_Z (-1)); rewrite <- Zle_Qle; lia). lra. }
      pose proof (Qabs_pos q Hq) as Hp. rewrite Z.abs_eq by exact Hm. apply Qabs_wd. rewrite Hp. lra. }
  split.
  - rewrite S. apply Qabs_Qle_condition. split; lra.
  - intros T. rewrite S in T. apply E in T. destruct (Z.abs_eq_or_opp m) as [-> | ->]; [exact T|]. rewrite Z.even_opp. exact T.
Qed.
Lemma number_text_two : forall q, number_text q (two_decimals q).
Proof.
  intros q. exists (Z.abs (qrint (q * 100))). eexists. split; [lia|]. split; [apply cents_ok|]. split; [reflexivity|].
  unfold two_decimals. cbv zeta. set (n := Z.abs (qrint (q * 100))).
  pose proof (Z.mod_pos_bound (n / 10) 10 eq_refl). pose proof (Z.mod_pos_bound n 10 eq_refl).
  rewrite (digit_text (n / 10 mod 10)), (digit_text (n mod 10)) by lia.
  destruct (Qle_bool 0 q) eqn:E.
  - left. split; [apply Qle_bool_iff; exact E|]. reflexivity.
  - right. apply Qle_bool_false in E. split; [exact E|]. reflexivity.
Qed.
Lemma prefix_own : forall f, prefix f (colname f).
Proof.
  intros f. unfold prefix, colname. destruct (String.eqb_spec (fi_base f) "admom") as [E|E]; [left; auto|right].
  destruct (fi_suffix f) as [q|]; [right|left; auto]. split; [exact E|]. exists q, (two_decimals q). split; [reflexivity|].
  split; [apply number_text_two|reflexivity].
Qed.
Lemma distinct_nodup : forall fs, distinct_prefixes fs -> NoDup (map colname fs).
Proof.
  intros fs H. apply NoDup_nth_error. intros i j Hi E. rewrite map_length in Hi.
  destruct (nth_error fs i) as [f|] eqn:Ef; [|apply nth_error_None in Ef; lia].
  rewrite (map_nth_error _ _ _ Ef) in E. rewrite nth_error_map in E.
  destruct (nth_error fs j) as [g|] eqn:Eg; [|discriminate]. apply Some_inj in E.
  destruct (Nat.eq_dec i j) as [|N]; [assumption|]. exfalso. exact (H i j f g _ _ Ef Eg (prefix_own f) (prefix_own g) N E).
Qed.

(** ** Summaries *)
Lemma psf_len : forall fit mb k, List.length (fst (fit_all_psfs_from fit k mb)) = List.length mb.
Proof.
  intros fit mb. induction mb as [|ol mb IH]; intros k; [reflexivity|]. destruct ol as [|o [|o' ol]]; [reflexivity| |reflexivity].
  cbn [fit_all_psfs_from]. destruct (negb _); [reflexivity|]. specialize (IH (S k)).
  destruct (fit_all_psfs_from fit (S k) mb) as [r e]. cbn [fst List.length] in *. lia.
Qed.
Lemma singles_of : forall m R C, has_shape m R C -> exists obs, m = map (fun o => [o]) obs.
Proof.
  intros m R C (_ & _ & Hm). induction m as [|ol m IH]; [exists []; reflexivity|].
  destruct IH as [obs ->]; [intros ol' H; apply Hm; right; exact H|].
  destruct (Hm ol (or_introl eq_refl)) as (o & -> & _). exists (o :: obs). reflexivity.
Qed.
Lemma values_total : forall l, (forall p, In p l -> exists v, psf_values p v) -> exists vals, Forall2 psf_values l vals.
Proof.
  induction l as [|p l IH]; intros H; [exists []; constructor|]. destruct (H p (or_introl eq_refl)) as (v & Hv).
  destruct IH as (vals & Hl); [intros p' Hp; apply H; right; exact Hp|]. exists (v :: vals). constructor; assumption.
Qed.
Definition summary_shape (s : summary) (R C : Z) : Prop :=
  nr (sm_mfrac s) = R /\ nc (sm_mfrac s) = C /\ nr (sm_bmask s) = R /\ nc (sm_bmask s) = C /\ nr (sm_ormask s) = R /\ nc (sm_ormask s) = C.

Section Run.
Variables (x : third) (c : settings) (md : mdet) (main : mbo) (color : option (keyfun * colours)) (R C : Z).
Let e := environment x c md main color.
Hypothesis Hmain : has_shape main R C.
Hypothesis Hne : main <> [].
Hypothesis Hdep : forall keyf dep k m, color = Some (keyf, dep) -> dep k = Some (Other m) -> has_shape m R C.
Hypothesis Hcol : forall keyf dep, color = Some (keyf, dep) -> colours_return keyf dep main.
Hypothesis Hmc : metacal_ok x c.
Hypothesis Hbox : boxes_ok (st_meds c).
Hypothesis Hbt : known_box_type (st_meds c).
Hypothesis Hsep : sep_ok x.
Hypothesis Hthird : third_returns x c.
Hypothesis Hnear : unsheared_near x c main.
Hypothesis Hfit : md_fitters md <> [].
Hypothesis Hknown : forall f, In f (md_fitters md) -> known_fitter f.
Hypothesis Hdis : distinct_prefixes (md_fitters md).

Definition in_range (n : Z) (sb : list Z) : Prop := sb <> [] /\ forall b, In b sb -> 0 <= b < n.

Lemma psf_total : forall m, has_shape m R C -> exists f, psf_flags e m = Ok f /\
  forall sb, in_range (zlen m) sb -> exists psel s, omap (py_index (fst (e_psf_fit e m))) sb = Ok psel /\ get_psf_stats psel f = Ok s.
Proof.
  intros m Hm. destruct (singles_of m R C Hm) as (obs & Em).
  assert (L : zlen (fst (psf_fit x m)) = zlen m).
  { unfold psf_fit, fit_all_psfs, zlen. rewrite psf_len, map_length. reflexivity. }
  unfold psf_flags. change (e_psf_fit e m) with (psf_fit x m). rewrite Em in L |- *.
  destruct (psf_fit_bands x obs) as [(l & E & _)|[Hall E]]; rewrite E in L |- *; cbn [fst snd] in L |- *; (eexists; split; [reflexivity|]);
    intros sb [_ Hsb]; destruct (omap_index _ _ sb ltac:(rewrite L; exact Hsb)) as (psel & Ep & _ & Hin); exists psel.
  - destruct (psf_stats_flagged psel (flag_value PSF_FAILURE)) as (s & Es & _); [vm_compute; discriminate|]. exists s. split; assumption.
  - destruct (values_total (List.concat psel)) as (vals & Hv).
    { intros p Hp. apply in_concat in Hp. destruct Hp as (pl & Hpl & Hp). apply Hin in Hpl. apply in_map_iff in Hpl.
      destruct Hpl as (o & <- & Ho). destruct Hp as [<-|[]]. destruct Hthird as (_ & _ & _ & Hpc & _).
      destruct (Hpc o (Hall o Ho)) as (HT & Hg). destruct (pr_T (tp_psf x o)) as [T|] eqn:ET; [|congruence].
      destruct (pr_e (tp_psf x o)) as [g|] eqn:Ee.
      - eexists. exists (tp_psf x o), T, g. split; [reflexivity|]. split; [exact ET|]. split; [left; exact Ee|reflexivity].
      - destruct (pr_g (tp_psf x o)) as [g|] eqn:Eg; [|exfalso; destruct Hg as [X|X]; apply X; reflexivity].
        eexists. exists (tp_psf x o), T, g. split; [reflexivity|]. split; [exact ET|]. split; [right; split; assumption|reflexivity]. }
    destruct (psf_stats_ok psel vals Hv) as (s & Es & _). exists s. split; assumption.
Qed.
Lemma sobs_map : forall obs : list Mrun_model.obs, map (map sob) (map (fun o => [o]) obs) = map (fun o => [o]) (map sob obs).
Proof. induction obs as [|o obs IH]; [reflexivity|]. cbn [map]. f_equal. exact IH. Qed.
Lemma summarise_total : forall m sb f r, has_shape m R C -> in_range (zlen m) sb -> psf_flags e m = Ok f ->
  exists s, summarise sob e (mkMP (Some f) r) m sb = Ok s /\ summary_shape s R C.
Proof.
  intros m sb f r Hm Hsb Hf. destruct (psf_total m Hm) as (f' & Ef & K). assert (f' = f) by congruence. subst f'.
  destruct (K sb Hsb) as (psel & ps & E1 & E2). unfold summarise. cbn [mp_psf].
  destruct (omap_index _ m sb (proj2 Hsb)) as (sel & Es & Ls & Hin). rewrite Es. cbn [obind].
  assert (F : Forall2 (fun b y => py_index m b = Ok y) sb sel) by (apply omap_ok_Forall2; exact Es).
  destruct (bands_sel R C m sb sel Hm F) as (obs & -> & _ & Io). rewrite sobs_map.
  destruct obs as [|o0 obs]; [destruct sb; [destruct (proj1 Hsb); reflexivity|discriminate]|].
  destruct Hm as (_ & _ & Hm). destruct (Hm [o0] (Io o0 (or_introl eq_refl))) as (o & Eo & _ & _ & W1 & W2 & W3 & W4 & W5 & W6 & _).
  injection Eo as <-.
  destruct (get_mfrac_val (map sob (o0 :: obs)) (sob o0) (map sob obs) eq_refl) as (im & -> & I1 & I2 & _). cbn [obind].
  change (map (fun o : sobs => [o]) (map sob (o0 :: obs))) with (map (fun o : sobs => [o]) (sob o0 :: map sob obs)).
  destruct (combined_masks (sob o0) (map sob obs)) as (om & bm & -> & M1 & M2 & M3 & M4 & _). cbn [obind fst snd].
  rewrite E1. cbn [obind]. rewrite E2. cbn [obind]. eexists. split; [reflexivity|].
  unfold summary_shape. cbn [sm_mfrac sm_bmask sm_ormask]. cbn [sob so_weight so_bmask so_ormask] in I1, I2, M1, M2, M3, M4.
  repeat split; congruence.
Qed.
Lemma metacal_total : forall m, exists r, all_metacal e m = Ok r /\ forall d, r = Some d -> tp_metacal x m = Ok d.
Proof.
  intros m. unfold all_metacal. change (e_metacal e m) with (tp_metacal x m). destruct Hthird as (_ & _ & H & _).
  destruct (H m) as [(d & ->)| ->]; (eexists; split; [reflexivity|]); intros d' E; [apply Some_inj in E; rewrite E; reflexivity|discriminate].
Qed.
Lemma uncached_total : forall key sb, (forall k, key = Some k -> exists keyf dep, color = Some (keyf, dep) /\ dep k <> None) ->
  in_range (zlen main) sb ->
  exists kd s r m, uncached sob e key sb = Ok kd /\ kd_sum kd = Some s /\ summary_shape s R C /\ mp_mcal (kd_mp kd) = Some r /\
    has_shape m R C /\ zlen m = zlen main /\ (key = None -> m = main) /\ forall d, r = Some d -> tp_metacal x m = Ok d.
Proof.
  intros key sb Hk Hsb. unfold uncached.
  assert (O : exists k m, obs_of e key = Ok (k, m) /\ has_shape m R C /\ zlen m = zlen main /\ (key = None -> m = main)).
  { unfold obs_of. destruct key as [k|]; [|exists None, main; split; [reflexivity|]; split; [exact Hmain|]; split; reflexivity].
    destruct (Hk k eq_refl) as (keyf & dep & Ec & Hd). change (e_color e) with color. rewrite Ec.
    destruct (dep k) as [[|m]|] eqn:Ek; [| |congruence].
    - exists None, main. split; [reflexivity|]. split; [exact Hmain|]. split; [reflexivity|discriminate].
    - exists (Some k), m. split; [reflexivity|]. split; [exact (Hdep _ _ _ _ Ec Ek)|]. split; [exact (proj2 (Hcol _ _ Ec) k m Ek)|discriminate]. }
  destruct O as (k & m & -> & Hm & Hz & Hmm). cbn [obind snd]. destruct (psf_total m Hm) as (f & Ef & _). rewrite Ef. cbn [obind].
  destruct (metacal_total m) as (r & -> & Hr). cbn [obind].
  destruct (summarise_total m sb f (Some r) Hm ltac:(rewrite Hz; exact Hsb) Ef) as (s & -> & Hs). cbn [obind].
  eexists. exists s, r, m. split; [reflexivity|]. split; [reflexivity|]. split; [exact Hs|]. split; [reflexivity|]. auto.
Qed.

(** ** Detection and stamps *)
Definition good_det (d : det) : Prop := pos_in R C (dc_y d) (dc_x d) /\ min_box_size (st_meds c) <= dc_box d.
Lemma detect_total : forall m db, has_shape m R C -> in_range (zlen m) db ->
  exists sel cat seg, omap (py_index m) db = Ok sel /\ detect x c (md_nodet md) sel = Ok (cat, seg) /\ Forall good_det cat /\
    (cat <> [] -> nr seg = R /\ nc seg = C).
Proof.
  intros m db Hm Hdb. destruct (omap_index _ m db (proj2 Hdb)) as (sel & Es & Ls & Hin). exists sel.
  assert (F : Forall2 (fun b y => py_index m b = Ok y) db sel) by (apply omap_ok_Forall2; exact Es).
  destruct (bands_sel R C m db sel Hm F) as (obs & Esel & _ & Io).
  assert (Hb' : 0 < min_box_size (st_meds c) <= max_box_size (st_meds c)) by (unfold boxes_ok in Hbox; lia).
  assert (D : exists objs boxes seg, tp_sep x (set_detim (md_nodet md) (map band_of obs)) = Ok (objs, seg) /\
     get_box_sizes (tp_fwhm_fac x) (st_meds c) (map snd objs) = Ok boxes /\
     detect x c (md_nodet md) sel = Ok (map (fun nob => mkDetc (d_x (snd (fst nob))) (d_y (snd (fst nob))) (snd nob) (fst (fst nob))) (combine objs boxes), seg)).
  { destruct Hthird as ((Hs & _) & _). destruct (Hs (set_detim (md_nodet md) (map band_of obs))) as ([objs seg] & Er).
    destruct (get_box_sizes_total (tp_fwhm_fac x) (st_meds c) (map snd objs) Hb' Hbt) as (boxes & Eb).
    exists objs, boxes, seg. split; [exact Er|]. split; [exact Eb|]. subst sel. unfold detect.
    destruct obs as [|o0 obs]; [destruct db; [destruct (proj1 Hdb); reflexivity|discriminate]|]. cbn [map]. cbn [List.length Nat.eqb negb].
    change ([o0] :: map (fun o => [o]) obs) with (map (fun o : Mrun_model.obs => [o]) (o0 :: obs)).
    rewrite omap_bands. cbn [obind]. rewrite Er. cbn [obind fst snd]. rewrite Eb. reflexivity. }
  destruct D as (objs & boxes & seg & Er & Eb & Ed). eexists. exists seg. split; [exact Es|]. split; [exact Ed|].
  destruct (detect_found x c R C _ _ _ _ _ _ Hm Hbox Hsep F Ed) as (objs' & _ & Hpos & Hcat). split.
  - clear - Hpos Hcat Hb'. induction Hcat as [|no d objs' cat H H' IH]; constructor.
    + inversion Hpos as [|? ? P _]. subst. destruct H as (b & ((want & _ & Hp & _) & _) & ->). split; [exact P|]. cbn [dc_box].
      unfold permitted in Hp. lia.
    + apply IH. inversion Hpos. assumption.
  - intros Hc. destruct (set_detim (md_nodet md) (map band_of obs)) as [[[dim w] mask]|] eqn:Edim.
    + destruct Hthird as ((_ & Hs) & _). destruct (Hs _ _ _ _ _ Er) as [-> ->].
      destruct obs as [|o0 obs]; [discriminate|]. destruct Hm as (_ & _ & Hm).
      destruct (Hm _ (Io o0 (or_introl eq_refl))) as (o'' & E2 & D1' & D2' & _). injection E2 as <-. rewrite <- D1', <- D2'.
      refine ((fun X => conj (proj1 X) (proj1 (proj2 X))) (set_detim_shape (md_nodet md) (map band_of (o0 :: obs)) dim w mask (band_of o0) _ _ Edim)); [|left; reflexivity].
      intros b b' Hi Hi'. apply in_map_iff in Hi. apply in_map_iff in Hi'.
      destruct Hi as (o1 & <- & H1). destruct Hi' as (o2 & <- & H2).
      destruct (Hm _ (Io o1 H1)) as (o1' & E1 & F1 & F2 & _). destruct (Hm _ (Io o2 H2)) as (o2' & E2 & F1' & F2' & _).
      injection E1 as <-. injection E2 as <-. cbn [b_image band_of]. split; congruence.
    + exfalso. apply Hc. rewrite (proj2 Hsep _ _ Er). reflexivity.
Qed.

Lemma stamp_total : forall m seg d, has_shape m R C -> m <> [] -> good_det d -> (forall s, seg = Some s -> nr s = R /\ nc s = C) ->
  exists st, stamp x c m seg d = Ok st /\ good_stamps (zlen m) st.
Proof.
  intros m seg d Hm Hmne [Hpos Hb] Hseg. unfold stamp. destruct m as [|ol0 rest]; [congruence|].
  destruct Hm as (Hr & Hc & Hm). destruct (Hm ol0 (or_introl eq_refl)) as (o0 & -> & D0 & D0' & _).
  cbn [List.length Nat.eqb negb]. rewrite py_index_0. cbn [obind]. cbv zeta.
  set (y := dc_y d) in *. set (xx := dc_x d) in *. set (b := dc_box d) in *.
  set (n := match seg with Some _ => dc_number d | None => 1 end).
  set (en := make_entry (nr (ob_image o0)) (nc (ob_image o0)) (n - 1) n y xx b).
  assert (Ecat : catalog_medsify (nr (ob_image o0)) (nc (ob_image o0)) [(y, xx, b)]
                   match seg with Some _ => Some [dc_number d] | None => None end = [en]).
  { unfold en, n. destruct seg; reflexivity. }
  rewrite Ecat. cbn [nth_error].
  assert (P0 : pos_in (nr (ob_image o0)) (nc (ob_image o0)) y xx) by (rewrite D0, D0'; exact Hpos).
  assert (Hb2 : 2 <= b) by (unfold boxes_ok in Hbox; lia).
  pose proof (make_entry_anchor _ _ (n - 1) n y xx b P0 Hb2) as X. cbv zeta in X. fold en in X.
  destruct X as (A1 & A2 & A3 & A4 & A5 & A6 & A7 & _).
  set (sg := match seg with Some s => s | None => ifill (nr (ob_image o0)) (nc (ob_image o0)) 0 end).
  assert (Hsg : nr sg = R /\ nc sg = C) by (unfold sg; destruct seg as [s|]; [exact (Hseg s eq_refl)|cbn [nr nc ifill]; split; assumption]).
  assert (G : forall ol, In ol ([o0] :: rest) -> exists l,
     (do o <- py_index ol 0;
      tp_read x (weight_type c) (fun type : string => do p <- plane o sg type;
         get_cutout {| m_plane := fun _ : string => p; m_psf := imap F (ob_psf o); m_cat := [en] |} 0 type) en (ob_jac o0)
         (((inject_Z (nr (ob_psf o0)) - 1) / 2)%Q, ((inject_Z (nc (ob_psf o0)) - 1) / 2)%Q) (ob_psf o)) = Ok l /\
      forall o, In o l -> good_obs o).
  { intros ol Hin. destruct (Hm ol Hin) as (o & -> & O1 & O2 & O3 & O4 & O5 & O6 & _). rewrite py_index_0. cbn [obind].
    destruct Hthird as (_ & Hrd & _). apply Hrd. intros t Ht.
    assert (P : exists p, plane o sg t = Ok p /\ nr p = R /\ nc p = C /\ In t image_types).
    { destruct Ht as [<-|[<-|[<-|[<-|[]]]]]; (eexists; split; [reflexivity|]); cbn [nr nc imap]; repeat split; try assumption; try (cbn; tauto). }
    destruct P as (p & -> & P1 & P2 & P3). cbn [obind].
    destruct (get_cutout_ok {| m_plane := fun _ : string => p; m_psf := imap F (ob_psf o); m_cat := [en] |} 0 t en eq_refl P3)
      as (s' & E1 & E2 & E3 & _); cbn [m_plane]; try lia.
    exists s'. auto. }
  clearbody sg en. clear - G. revert G. generalize ([o0] :: rest) as l. induction l as [|ol l IH]; intros G.
  - exists []. split; [reflexivity|]. split; [reflexivity|]. intros ol o [].
  - destruct (G ol (or_introl eq_refl)) as (s & Es & Hs). destruct IH as (st & Est & Hl & Hst); [intros ol' H; apply G; right; exact H|].
    exists (s :: st). cbn [omap]. rewrite Es. cbn [obind]. rewrite Est. cbn [obind]. split; [reflexivity|]. split.
    + unfold zlen in *. cbn [List.length]. lia.
    + intros ol' o [<-|H] Ho; [exact (Hs o Ho)|exact (Hst ol' o H Ho)].
Qed.

(** ** The other columns *)
Lemma start_bound : forall q n h b, 0 <= n -> 2 <= h <= b -> (q < inject_Z (n + h / 2))%Q -> 0 <= Z.max (qtrunc q - b / 2 + 1) 0 <= n.
Proof.
  intros q n h b Hn Hh Hq.
  assert (D : h / 2 <= b / 2) by (apply Z.div_le_mono; lia). assert (D1 : 1 <= h / 2) by (change 1 with (2 / 2); apply Z.div_le_mono; lia).
  destruct (Qlt_le_dec q 0) as [L|L].
  - assert (T : qtrunc q <= 0).
    { pose proof (qtrunc_part q) as P. unfold integer_part in P. destruct (Z.le_gt_cases (qtrunc q) 0) as [|X]; [assumption|]. exfalso.
      assert (K : (1 <= inject_Z (qtrunc q))%Q) by (change 1%Q with (inject_Z 1); rewrite <- Zle_Qle; lia).
      destruct P as [P1 P2]. specialize (P2 (Qlt_le_weak _ _ L)). lra. }
    lia.
  - destruct (qtrunc_bounds q (n + h / 2) L Hq) as (T & _). lia.
Qed.
Lemma mfrac_value_total : forall su r' c' b, summary_shape su R C -> min_box_size (st_meds c) <= b ->
  (r' < inject_Z (R + min_box_size (st_meds c) / 2))%Q -> (c' < inject_Z (C + min_box_size (st_meds c) / 2))%Q ->
  exists v, mfrac_value sob e su r' c' b = Ok v.
Proof.
  intros su r' c' b (S1 & S2 & _) Hb Hr Hc. unfold mfrac_value. destruct (any_positive (sm_mfrac su)); [|eauto].
  change (e_main e) with main. destruct main as [|ol rest] eqn:Em; [congruence|]. rewrite py_index_0. cbn [obind].
  destruct Hmain as (HR & HC & Hm). destruct (Hm ol) as (o & -> & _ & _ & _ & _ & B1 & B2 & _); [left; reflexivity|].
  rewrite py_index_0. cbn [obind sob so_bmask]. unfold measure_mfrac_one. destruct (0 <? b); [|eauto].
  assert (Hbb : 2 <= min_box_size (st_meds c) <= b) by (unfold boxes_ok in Hbox; lia).
  set (pl := fun t => if String.eqb t "bmask" then imap I (ob_bmask o) else imap F (sm_mfrac su)).
  set (en := make_entry (nr (sm_mfrac su)) (nc (sm_mfrac su)) 0 1 r' c' b).
  change (catalog_medsify (nr (sm_mfrac su)) (nc (sm_mfrac su)) [(r', c', b)] None) with [en].
  assert (E1 : 0 <= e_srow en <= R) by exact (start_bound r' R _ b (Z.lt_le_incl _ _ HR) Hbb Hr).
  assert (E2 : 0 <= e_scol en <= C) by exact (start_bound c' C _ b (Z.lt_le_incl _ _ HC) Hbb Hc).
  assert (E3 : e_box en = b) by reflexivity. clearbody en.
  destruct (get_cutout_ok {| m_plane := pl; m_psf := imap F (sm_mfrac su); m_cat := [en] |} 0 "image" en eq_refl ltac:(cbn; tauto))
    as (im & -> & _); cbn [m_plane pl String.eqb Ascii.eqb Bool.eqb nr nc imap]; try lia.
  cbn [obind].
  destruct (get_cutout_ok {| m_plane := pl; m_psf := imap F (sm_mfrac su); m_cat := [en] |} 0 "bmask" en eq_refl ltac:(cbn; tauto))
    as (bk & -> & _); cbn [m_plane pl String.eqb Ascii.eqb Bool.eqb nr nc imap]; try lia.
  cbn [obind]. unfold weighted_sums. cbv zeta. destruct (filter _ (coords _ _)) as [|ij l]; [eauto|].
  destruct (Qeq_bool _ 0); eauto.
Qed.
Lemma extra_total : forall t su db d, In t (st_types c) -> summary_shape su R C -> good_det d -> exists ex, extra_of sob e t su db d = Ok ex.
Proof.
  intros t su db d Ht Hsu [Hpos Hb]. unfold extra_of.
  assert (Em : exists o0 rest, main = [o0] :: rest /\ nr (ob_image o0) = R /\ nc (ob_image o0) = C).
  { destruct main as [|ol rest]; [congruence|]. destruct Hmain as (_ & _ & Hm). destruct (Hm ol (or_introl eq_refl)) as (o & -> & D1 & D2 & _). eauto. }
  destruct Em as (o0 & rest & Em & D1 & D2).
  assert (U : exists p, e_unshear e t (dc_y d) (dc_x d) = Ok p /\ tp_unshear x o0 t (dc_y d) (dc_x d) = Ok p).
  { change (e_unshear e t (dc_y d) (dc_x d)) with (unshear x main t (dc_y d) (dc_x d)). unfold unshear. rewrite Em, py_index_0. cbn [obind].
    rewrite py_index_0. cbn [obind]. destruct Hthird as (_ & _ & _ & _ & _ & Hu). destruct (Hu o0 t (dc_y d) (dc_x d) Ht) as (p & ->). eauto. }
  destruct U as ([r' c'] & -> & Eu). cbn [obind fst snd].
  destruct (Hnear o0 rest t (dc_y d) (dc_x d) r' c' Em Ht ltac:(rewrite D1, D2; exact Hpos) Eu) as [N1 N2]. rewrite D1 in N1. rewrite D2 in N2.
  assert (Hsu' := Hsu). destruct Hsu' as (_ & _ & M1 & M2 & M3 & M4). destruct Hmain as (HR & HC & _).
  assert (FM : forall reg r k mask, nr mask = R -> nc mask = C -> exists v, fill_in_mask reg r k mask = Ok v).
  { intros reg r k mask X1 X2. apply mask_lookup_refusals. right. lia. }
  destruct (FM (ormask_region e) (dc_y d) (dc_x d) (sm_ormask su) M3 M4) as (v1 & ->). cbn [obind].
  destruct (FM (ormask_region e) r' c' (sm_ormask su) M3 M4) as (v2 & ->). cbn [obind].
  destruct (FM (bmask_region e) (dc_y d) (dc_x d) (sm_bmask su) M1 M2) as (v3 & ->). cbn [obind].
  destruct (FM (bmask_region e) r' c' (sm_bmask su) M1 M2) as (v4 & ->). cbn [obind].
  assert (Hb1 : 1 <= min_box_size (st_meds c) / 2) by (change 1 with (2 / 2); apply Z.div_le_mono; unfold boxes_ok in Hbox; lia).
  destruct Hpos as (_ & P1 & _ & P2).
  assert (LR : forall n q, (q < inject_Z n)%Q -> (q < inject_Z (n + min_box_size (st_meds c) / 2))%Q).
  { intros n q Hq. apply Qlt_le_trans with (1 := Hq). rewrite <- Zle_Qle. lia. }
  destruct (mfrac_value_total su (dc_y d) (dc_x d) (dc_box d) Hsu Hb (LR _ _ P1) (LR _ _ P2)) as (v5 & ->). cbn [obind].
  destruct (mfrac_value_total su r' c' (dc_box d) Hsu Hb N1 N2) as (v6 & ->). cbn [obind]. eauto.
Qed.

(** ** Measurements *)
Lemma fitters_fine : fitters_ok _ _ _ _ _ e.
Proof.
  unfold fitters_ok. change (e_fitters e) with (md_fitters md). change (e_colname e) with colname.
  destruct (md_fitters md) as [|f [|g fs]] eqn:E; [congruence|exact Logic.I|]. apply nodupb_ok. rewrite <- E. apply distinct_nodup. rewrite E. exact Hdis.
Qed.
Lemma measure_total : forall cat stamps sb db t su, List.length cat = List.length stamps -> In t (st_types c) -> summary_shape su R C ->
  good_bands (zlen main) sb -> zlen db <= 6 -> Forall good_det cat -> Forall (good_stamps (zlen main)) stamps ->
  exists r, measure sob e cat stamps sb db t su = Ok r.
Proof.
  intros cat stamps sb db t su L Ht Hsu Hsb Hdb Hcat Hst. destruct stamps as [|s stamps'] eqn:Es.
  - exists None. apply measure_nil. exact Hfit.
  - assert (K : exists rows, omap (rowfun _ _ _ _ _ sob e sb db t su) (combine cat (s :: stamps')) = Ok rows).
    { apply omap_total_in. intros [d st] Hin. assert (H1 := in_combine_l _ _ _ _ Hin). assert (H2 := in_combine_r _ _ _ _ Hin).
      rewrite Forall_forall in Hcat, Hst. unfold rowfun. cbn [fst snd].
      destruct (omap_total_in _ _ (fun f => e_fit e f sb st) (e_fitters e)) as (fits & ->).
      { intros f Hf. exact (fit_total x c f sb st (zlen main) (proj1 (proj2 (proj2 (proj2 (proj2 Hthird))))) (Hknown f Hf) (Hst st H2) Hsb). }
      cbn [obind]. destruct (extra_total t su db d Ht Hsu (Hcat d H1)) as (ex & ->). cbn [obind]. eauto. }
    destruct K as (rows & K). exists (Some rows). apply measure_iff; [exact L|discriminate|]. split; [exact fitters_fine|]. split; [exact Hdb|]. eauto.
Qed.
Lemma good_in_range : forall n sb, good_bands n sb -> in_range n sb.
Proof. intros n sb (H1 & _ & _ & H2). split; assumption. Qed.
Lemma good_len : forall n sb, good_bands n sb -> zlen sb <= 6.
Proof. intros n sb (_ & _ & H & _). unfold zlen. lia. Qed.
Lemma zlen_pos : forall m : mbo, zlen m = zlen main -> m <> [].
Proof. intros m H ->. destruct main; [congruence|]. unfold zlen in H. cbn [List.length] in H. lia. Qed.

Lemma do_detect_total : forall m db, has_shape m R C -> zlen m = zlen main -> good_bands (zlen main) db ->
  exists cat stamps, do_detect e m db = Ok (cat, stamps) /\ List.length cat = List.length stamps /\ Forall good_det cat /\
    Forall (good_stamps (zlen main)) stamps.
Proof.
  intros m db Hm Hz Hdb. unfold do_detect. destruct (detect_total m db Hm) as (sel & cat & seg & E1 & E2 & E3 & E4); [rewrite Hz; apply good_in_range; exact Hdb|].
  rewrite E1. cbn [obind]. change (e_detect e sel) with (detect x c (md_nodet md) sel). rewrite E2. cbn [obind fst snd].
  assert (K : exists stamps, omap (e_stamp e m (Some seg)) cat = Ok stamps /\ Forall (good_stamps (zlen main)) stamps).
  { assert (G : forall d, In d cat -> exists st, stamp x c m (Some seg) d = Ok st /\ good_stamps (zlen main) st).
    { intros d Hd. rewrite Forall_forall in E3. rewrite <- Hz. apply stamp_total; [exact Hm|exact (zlen_pos m Hz)|exact (E3 d Hd)|].
      intros s Hs. apply Some_inj in Hs. subst s. apply E4. intros X. rewrite X in Hd. destruct Hd. }
    clear - G. induction cat as [|d cat IH]; [exists []; split; [reflexivity|constructor]|].
    destruct (G d (or_introl eq_refl)) as (st & Es & Hs). destruct IH as (sts & Ests & Hsts); [intros d' H; apply G; right; exact H|].
    exists (st :: sts). cbn [omap]. change (e_stamp e m (Some seg) d) with (stamp x c m (Some seg) d). rewrite Es. cbn [obind]. rewrite Ests. split; [reflexivity|].
    constructor; assumption. }
  destruct K as (stamps & K1 & K2). rewrite K1. cbn [obind]. exists cat, stamps. split; [reflexivity|]. split; [symmetry; exact (omap_ok_length _ _ _ _ _ K1)|]. auto.
Qed.

Lemma pbands_total : forall sb db mcal, good_bands (zlen main) sb -> good_bands (zlen main) db -> tp_metacal x main = Ok mcal ->
  exists r, pbands _ _ _ _ _ sob e sb db mcal = Ok r.
Proof.
  intros sb db mcal Hsb Hdb Hmcal. unfold pbands.
  destruct (uncached_total None sb ltac:(discriminate) (good_in_range _ _ Hsb)) as (kd & su & r & m & -> & Esu & Hsu & _). cbn [obind].
  apply omap_total_in. intros [t m'] Hin. cbn [fst snd]. destruct (Hmc main mcal Hmcal) as (_ & T & K). destruct (K t m' Hin) as [K1 K2].
  destruct (do_detect_total m' db (K2 R C Hmain) K1 Hdb) as (cat & stamps & -> & L & G1 & G2). cbn [obind fst snd].
  unfold kd_summary. rewrite Esu. cbn [obind].
  destruct (measure_total cat stamps sb db t su L) as (v & ->); auto; [apply T; exact (in_map fst _ _ Hin)|exact (good_len _ _ Hdb)|].
  cbn [obind]. eauto.
Qed.
Lemma assoc_total : forall A t (d : list (string * A)), In t (map fst d) -> exists m, assoc String.eqb t d = Some m /\ In (t, m) d.
Proof.
  intros A t d. induction d as [|[k v] d IH]; [intros []|]. cbn [map fst assoc]. intros H. destruct (String.eqb_spec t k) as [->|N].
  - exists v. split; [reflexivity|left; reflexivity].
  - destruct H as [H|H]; [congruence|]. destruct (IH H) as (m & E & Hin). exists m. split; [exact E|right; exact Hin].
Qed.
Lemma pcolor_total : forall keyf dep sb db t d key, color = Some (keyf, dep) -> (forall k, key = Some k -> dep k <> None) ->
  good_bands (zlen main) sb -> good_bands (zlen main) db -> In t (st_types c) -> good_det d ->
  exists r, pcolor_one _ _ _ _ _ sob e sb db t (d, key) = Ok r.
Proof.
  intros keyf dep sb db t d key Ec Hk Hsb Hdb Ht Hd. unfold pcolor_one. cbn [fst snd].
  destruct (uncached_total key sb) as (kd & su & r & m & -> & Esu & Hsu & Er & Hm & Hz & _ & Hr).
  { intros k E. exists keyf, dep. split; [exact Ec|exact (Hk k E)]. }
  { exact (good_in_range _ _ Hsb). }
  cbn [obind]. unfold kd_mcal. rewrite Er. cbn [obind]. destruct r as [dict|]; [|eauto]. specialize (Hr dict eq_refl).
  destruct (Hmc m dict Hr) as (_ & T & K). destruct (assoc_total _ t dict (proj2 (T t) Ht)) as (m' & -> & Hin). cbn [obind].
  destruct (K t m' Hin) as [K1 K2]. assert (Z' : zlen m' = zlen main) by congruence.
  destruct (stamp_total m' None d (K2 R C Hm) (zlen_pos m' Z') Hd ltac:(discriminate)) as (st & Es & Hst).
  change (e_stamp e m' None d) with (stamp x c m' None d). rewrite Es. cbn [obind]. unfold kd_summary. rewrite Esu. cbn [obind].
  rewrite Z' in Hst.
  destruct (measure_total [d] [st] sb db t su eq_refl) as (v & ->); auto; [exact (good_len _ _ Hdb)|]. cbn [obind]. eauto.
Qed.
Lemma pbands_color_total : forall keyf dep sb db mcal, color = Some (keyf, dep) -> (forall f fs, md_fitters md = f :: fs -> fi_wavg f = true) ->
  good_bands (zlen main) sb -> good_bands (zlen main) db -> tp_metacal x main = Ok mcal ->
  exists r, pbands_color _ _ _ _ _ sob e keyf sb db mcal = Ok r.
Proof.
  intros keyf dep sb db mcal Ec Hw Hsb Hdb Hmcal. unfold pbands_color. apply omap_total_in. intros [t m'] Hin. cbn [fst snd].
  assert (Ef : exists f0 fs, md_fitters md = f0 :: fs) by (destruct (md_fitters md) as [|f0 fs]; [congruence|eauto]).
  destruct Ef as (f0 & fs & Ef). change (e_fitters e) with (md_fitters md). rewrite Ef. rewrite (Hw f0 fs Ef). cbn [obind].
  destruct (Hmc main mcal Hmcal) as (_ & T & K). destruct (K t m' Hin) as [K1 K2].
  destruct (do_detect_total m' db (K2 R C Hmain) K1 Hdb) as (cat & stamps & -> & L & G1 & G2). cbn [obind fst snd].
  destruct (omap_total_in _ _ (e_flux e f0 sb) stamps) as (fl & Efl).
  { intros st Hst. rewrite Forall_forall in G2. change (e_flux e f0 sb st) with (fluxes x c f0 sb st). unfold fluxes.
    destruct (Hknown f0) as [[_ Kn]|[Kn _]]; [rewrite Ef; left; reflexivity| |rewrite (Hw f0 fs Ef) in Kn; discriminate].
    destruct Hthird as (_ & _ & _ & _ & (F1 & F2 & _) & _).
    destruct (wavg_total (tp_ng x) (tp_mk x) (tp_toT x) (tp_sqrt x) st (kernel x f0) (bmask_flags c) sb 0 true (zlen main) (G2 st Hst) Hsb Kn (F1 f0) (F2 f0)) as (r & ->).
    cbn [obind]. eauto. }
  rewrite Efl. cbn [obind]. destruct fl as [|v vs] eqn:Ev; [eauto|]. rewrite <- Ev in *. clear v vs Ev.
  assert (KK : exists keys, omap keyf fl = Ok keys /\ forall k, In (Some k) keys -> dep k <> None).
  { destruct (Hcol _ _ Ec) as [Hkey _]. clear - Hkey. induction fl as [|v fl IH]; [exists []; split; [reflexivity|intros k []]|].
    destruct (Hkey v) as (key & E & Hk). destruct IH as (keys & E' & Hks). exists (key :: keys). cbn [omap]. rewrite E. cbn [obind]. rewrite E'. split; [reflexivity|].
    intros k [H|H]; [exact (Hk k H)|exact (Hks k H)]. }
  destruct KK as (keys & -> & Hkeys). cbn [obind].
  destruct (omap_total_in _ _ (pcolor_one _ _ _ _ _ sob e sb db t) (combine cat keys)) as (data & ->).
  { intros [d key] Hdk. assert (H1 := in_combine_l _ _ _ _ Hdk). assert (H2 := in_combine_r _ _ _ _ Hdk). rewrite Forall_forall in G1.
    apply (pcolor_total keyf dep); auto; [intros k ->; exact (Hkeys k H2)|]. apply T. exact (in_map fst _ _ Hin). }
  cbn [obind]. eauto.
Qed.
Lemma pgo_total : (color <> None -> forall f fs, md_fitters md = f :: fs -> fi_wavg f = true) ->
  (forall sb, In sb (md_shear md) -> good_bands (zlen main) sb) -> (forall db, In db (md_det md) -> good_bands (zlen main) db) ->
  exists r, pgo _ _ _ _ _ sob e = Ok r.
Proof.
  intros Hw Hsb Hdb. unfold pgo.
  assert (MF : exists mf, get_mfrac (map (map sob) (e_main e)) = Ok mf).
  { change (e_main e) with main. destruct (singles_of main R C Hmain) as (obs & Em). rewrite Em, sobs_map.
    destruct obs as [|o0 obs]; [destruct (Hne Em)|].
    destruct (get_mfrac_val (map sob (o0 :: obs)) (sob o0) (map sob obs) eq_refl) as (im & -> & _). eauto. }
  destruct MF as (mf & ->). cbn [obind]. destruct (give_up sob e mf); [eauto|]. change (e_main e) with main.
  destruct (uncached_total None (zrange (zlen main)) ltac:(discriminate)) as (kd & su & r & m & -> & _ & _ & Er & _ & _ & Hm & Hr).
  { split; [|intros b Hb; apply in_zrange; exact Hb]. intros X. assert (Y : In 0 (zrange (zlen main))).
    { apply in_zrange. destruct main; [congruence|]. unfold zlen. cbn [List.length]. lia. }
    rewrite X in Y. destruct Y. }
  cbn [obind]. unfold kd_mcal. rewrite Er. cbn [obind]. destruct r as [mcal|]; [|eauto].
  specialize (Hr mcal eq_refl). rewrite (Hm eq_refl) in Hr.
  destruct (omap_total_in _ _ (pcomb _ _ _ _ _ sob e mcal) (combine (e_shear e) (e_det e))) as (all & ->).
  { intros [sb db] Hin. assert (H1 := in_combine_l _ _ _ _ Hin). assert (H2 := in_combine_r _ _ _ _ Hin). unfold pcomb. cbn [fst snd].
    change (e_color e) with color.
    assert (Ec : (exists keyf dep, color = Some (keyf, dep)) \/ color = None) by (clear; destruct color as [[keyf dep]|]; eauto).
    destruct Ec as [(keyf & dep & Ec)|Ec]; rewrite Ec.
    - destruct (pbands_color_total keyf dep sb db mcal) as (r & Er'); eauto. apply Hw. rewrite Ec. discriminate.
    - destruct (pbands_total sb db mcal) as (r & Er'); eauto. }
  cbn [obind]. eauto.
Qed.
End Run.

Lemma run_total : forall x c main sbc keyf dep dbc md,
  all_one_shape main dep -> main <> [] -> metacal_ok x c -> boxes_ok (st_meds c) -> known_box_type (st_meds c) -> sep_ok x ->
  third_returns x c -> unsheared_near x c main ->
  construct (st_conf c) (zlen main) (has keyf) (has dep) sbc dbc = Ok md -> md_fitters md <> [] -> distinct_prefixes (md_fitters md) ->
  (forall sb, In sb (md_shear md) -> good_bands (zlen main) sb) -> (forall db, In db (md_det md) -> good_bands (zlen main) db) ->
  (forall kf dp, keyf = Some kf -> dep = Some dp -> colours_return kf dp main /\ forall f fs, md_fitters md = f :: fs -> fi_wavg f = true) ->
  exists o, do_metadetect x c main sbc keyf dep dbc = Ok o.
Proof.
  intros x c main sbc keyf dep dbc md (R & C & Hm & Hd) Hne Hmc Hb Hbt Hs Ht Hn Ec Hf Hdis Hsb Hdb Hc. unfold do_metadetect. rewrite Ec. cbn [obind].
  assert (Hdep : forall kf dp k m, color_arg keyf dep = Some (kf, dp) -> dp k = Some (Other m) -> has_shape m R C).
  { intros kf dp k m E. destruct keyf as [kf'|]; [|discriminate]. destruct dep as [dp'|]; [|discriminate].
    apply Some_inj, pair_equal_spec in E. destruct E as [_ <-]. exact (Hd dp' k m eq_refl). }
  pose proof (run_uniform x c R C md main (color_arg keyf dep) Hm Hdep) as HU. set (e := environment x c md main (color_arg keyf dep)) in *.
  assert (S := go_sem _ _ _ _ _ sob e HU _ (good_after _ _ _ _ _ sob e [] (healthy_nil _ _ _ _ _ _ _))).
  change (after sob e []) with (@init_state obs row) in S.
  assert (P : exists r, pgo _ _ _ _ _ sob e = Ok r).
  { apply (pgo_total x c md main (color_arg keyf dep) R C); auto.
    - intros kf dp E. destruct keyf as [kf'|]; [|discriminate]. destruct dep as [dp'|]; [|discriminate].
      apply Some_inj, pair_equal_spec in E. destruct E as [<- <-]. exact (proj1 (Hc _ _ eq_refl eq_refl)).
    - exact (constructed_known _ _ _ _ _ _ _ Ec).
    - intros E. destruct keyf as [kf'|]; [|destruct (E eq_refl)]. destruct dep as [dp'|]; [|destruct (E eq_refl)].
      exact (proj2 (Hc _ _ eq_refl eq_refl)). }
  destruct P as (r & P). rewrite P in S. destruct (go sob e init_state) as [[u|ex] s]; cbn [fst snd] in S; [|destruct S].
  destruct S as (r' & Er & _). eauto.
Qed.

(** ** Positions beyond the image *)
Lemma far_raises : forall mf bm g near y xx b n, 0 <= nr mf -> 0 < b -> (inject_Z n <= y)%Q -> (y < inject_Z (n + 1))%Q ->
  nr mf < n - b / 2 + 1 < nr mf + b -> 0 <= n -> measure_mfrac_one mf bm g near y xx b = Raise ValueError.
Proof.
  intros mf bm g near y xx b n Hr Hb H1 H2 Hs Hn. unfold measure_mfrac_one. rewrite (proj2 (Z.ltb_lt 0 b) Hb). cbv zeta.
  set (en := make_entry (nr mf) (nc mf) 0 1 y xx b).
  change (catalog_medsify (nr mf) (nc mf) [(y, xx, b)] None) with [en].
  assert (T : qtrunc y = n).
  { assert (N0 : (0 <= inject_Z n)%Q) by (change 0%Q with (inject_Z 0); rewrite <- Zle_Qle; exact Hn).
    destruct (qtrunc_bounds y (n + 1) ltac:(lra) H2) as (T1 & T2 & T3).
    assert (A : (inject_Z n < inject_Z (qtrunc y + 1))%Q) by (rewrite inject_Z_plus; change (inject_Z 1) with 1%Q; lra).
    rewrite <- Zlt_Qlt in A. lia. }
  assert (E : e_srow en = n - b / 2 + 1) by (unfold en, make_entry; cbn [e_srow]; rewrite T; lia).
  assert (E3 : e_box en = b) by reflexivity. clearbody en.
  rewrite (get_cutout_far (mkMedsI (fun t => if String.eqb t "bmask" then imap I bm else imap F mf) (imap F mf) [en]) 0 "image" en eq_refl);
    [reflexivity|cbn; tauto| | |]; cbn [m_plane String.eqb Ascii.eqb Bool.eqb nr imap]; lia.
Qed.
Lemma nodup_distinct : forall fs, NoDup (map colname fs) -> distinct_prefixes fs.
Proof.
  intros fs H i j f g p q Hi Hj Hp Hq N E. apply prefix_colname in Hp. apply prefix_colname in Hq. subst p q. apply N.
  apply (proj1 (NoDup_nth_error _) H).
  - rewrite map_length. apply nth_error_Some. congruence.
  - rewrite (map_nth_error _ _ _ Hi), (map_nth_error _ _ _ Hj), E. reflexivity.
Qed.
