(** Proofs for C132. *)
From Coq Require Import ZArith QArith List String Ascii Bool Lia DecimalString.
From Verif Require Import Base Arr Median Flags_model Naming_model Detect_model Summ_model Coadd_model Wavg_model
  Joint_model Conf_model Mdet_model Mdet_spec Mdet_proofs Mrun_model Mrun_spec Mrun_proofs Mtab_model Mtab_spec.
Import ListNotations.
Local Open Scope string_scope.
Local Open Scope Z_scope.

(** ** The widths of the band columns *)
Lemma set_nth_length : forall A (l : list A) k v, List.length (set_nth l k v) = List.length l.
Proof. induction l as [|a l IH]; intros [|k] v; cbn; auto. Qed.
Lemma set_at_length : forall A (l : list A) i v l', set_at l i v = Ok l' -> List.length l' = List.length l.
Proof.
  intros A l i v l' H. unfold set_at in H. destruct (_ && _); [|discriminate]. apply Ok_inj in H. subst. apply set_nth_length.
Qed.
Lemma ofold_length : forall A B (f : list A -> B -> outcome (list A)), (forall l b l', f l b = Ok l' -> List.length l' = List.length l) ->
  forall bs l l', ofold f bs l = Ok l' -> List.length l' = List.length l.
Proof.
  intros A B f H bs. induction bs as [|b bs IH]; intros l l' E; cbn in E.
  - apply Ok_inj in E. subst. reflexivity.
  - destruct (f l b) as [m|] eqn:Em; [|discriminate]. cbn in E. rewrite (IH _ _ E). apply (H _ _ _ Em).
Qed.
Lemma assign_length : forall A n (l : list A) idx vals l', List.length l = Nat.max n 1 ->
  assign_bands n l idx vals = Ok l' -> List.length l' = Nat.max n 1.
Proof.
  intros A n l idx vals l' L H. unfold assign_bands in H. destruct (Nat.leb n 1) eqn:E.
  - apply Nat.leb_le in E. destruct vals as [|v [|]]; try discriminate. apply Ok_inj in H. subst. cbn. lia.
  - rewrite <- L. unfold assign_at in H.
    assert (G : forall idx (vals : list A), ofold (fun l iv => set_at l (fst iv) (snd iv)) (combine idx vals) l = Ok l' ->
      List.length l' = List.length l)
      by (intros i2 v2 X; refine (ofold_length _ _ (fun l iv => set_at l (fst iv) (snd iv)) _ _ _ _ X); intros; eapply set_at_length; eassumption).
    destruct vals as [|v [|v2 vs]].
    + destruct (Nat.eqb _ _); [|discriminate]. exact (G _ _ H).
    + refine (ofold_length _ _ (fun l i => set_at l i v) _ _ _ _ H). intros; eapply set_at_length; eassumption.
    + destruct (Nat.eqb _ _); [|discriminate]. exact (G _ _ H).
Qed.

Definition width (n : nat) (sb : list Z) (r : row) : Prop :=
  List.length (o_band_flux_flags r) = n /\ List.length (o_band_flux r) = n /\ List.length (o_band_flux_err r) = n /\
  o_shear_bands r = band_label sb.
Lemma struct_width : forall ng n sb d, get_wavg_output_struct ng n sb = Ok d -> width (Nat.max n 1) sb d.
Proof.
  intros ng n sb d H. unfold get_wavg_output_struct in H. destruct (_ <=? _); [|discriminate]. apply Ok_inj in H. subst d.
  unfold width. cbn [o_band_flux_flags o_band_flux o_band_flux_err o_shear_bands]. rewrite !repeat_length. auto.
Qed.
Lemma add_flags_width : forall n sb d f, width n sb d -> width n sb (add_flags d f).
Proof. intros n sb d f H. exact H. Qed.
Lemma omap_len : forall A B (f : A -> outcome B) l r, omap f l = Ok r -> List.length r = List.length l.
Proof. intros A B f l r H. apply omap_Forall2 in H. symmetry. eapply Forall2_len. exact H. Qed.

Lemma finish_width : forall ng mk to_T qsqrt d0 n mf pf sd pd fw bf be ff sb, width (Nat.max n 1) sb d0 ->
  List.length bf = n -> List.length be = n -> List.length ff = n ->
  width (Nat.max n 1) sb (finish_row ng mk to_T qsqrt d0 n mf pf sd pd fw bf be ff).
Proof.
  intros ng mk to_T qsqrt d0 n mf pf sd pd fw bf be ff sb (H1 & H2 & H3 & H4) L1 L2 L3.
  unfold width, finish_row. cbn [o_band_flux_flags o_band_flux o_band_flux_err o_shear_bands]. destruct n as [|n].
  - repeat split; auto.
  - rewrite L1, L2, L3. repeat split; auto; lia.
Qed.
Lemma wavg_width : forall ng mk to_T qsqrt mb ft bm sb fw sym r,
  fit_mbobs_wavg ng mk to_T qsqrt mb ft bm (Some sb) fw sym = Ok r -> width (Nat.max (List.length mb) 1) sb r.
Proof.
  intros ng mk to_T qsqrt mb ft bm sb fw sym r H. unfold fit_mbobs_wavg in H. destruct (_ && _); [discriminate|].
  destruct (omap _ mb) as [fits|] eqn:E; [|discriminate]. cbn [obind] in H.
  assert (L := omap_len _ _ _ _ _ E). unfold combine_fit_results_wavg in H. rewrite map_length, L in H.
  destruct (get_wavg_output_struct ng (List.length mb) sb) as [d0|] eqn:D; [|discriminate]. cbn [obind] in H.
  apply struct_width in D. destruct (_ || _).
  - apply Ok_inj in H. subst r. apply finish_width; auto; apply repeat_length.
  - cbv zeta in H. apply Ok_inj in H. subst r.
    apply finish_width; auto; rewrite !map_length, combine_length, !map_length; lia.
Qed.
Lemma gauss_width : forall ng boot mb bm sb coadd r, fit_mbobs_gauss ng boot mb bm (Some sb) coadd = Ok r ->
  width (Nat.max (List.length mb) 1) sb r.
Proof.
  intros ng boot mb bm sb coadd r H. unfold fit_mbobs_gauss in H. cbn [default_bands] in H.
  destruct (get_wavg_output_struct ng (List.length mb) sb) as [d0|] eqn:D; [|discriminate]. cbn [obind] in H.
  apply struct_width in D. destruct (data_flags bm mb) as [f0|]; [|discriminate]. cbn [obind] in H. cbv zeta in H.
  destruct (negb (_ =? 0)); [apply Ok_inj in H; subst r; exact D|].
  destruct (gauss_stamps mb sb coadd) as [[mb'|cf]|]; [|cbn [obind] in H|discriminate]; cbn [obind] in H.
  2: apply Ok_inj in H; subst r; exact D.
  destruct (boot mb') as [g p| |]; [|apply Ok_inj in H; subst r; exact D|apply Ok_inj in H; subst r; exact D].
  unfold gauss_row in H. destruct D as (D1 & D2 & D3 & D4).
  destruct (assign_bands (List.length mb) (o_band_flux_flags d0) sb [g_flags g]) as [bff|] eqn:A0; [|discriminate]. cbn [obind] in H.
  destruct (if g_flags g =? 0 then assign_bands _ _ _ (g_flux g) else _) as [bf|] eqn:A1; [|discriminate]. cbn [obind] in H.
  destruct (if g_flags g =? 0 then assign_bands _ _ _ (g_flux_err g) else _) as [be|] eqn:A2; [|discriminate]. cbn [obind] in H.
  destruct (psf_columns d0 coadd mb' p) as [[pf pT] pg]. apply Ok_inj in H. subst r.
  unfold width. cbn [o_band_flux_flags o_band_flux o_band_flux_err o_shear_bands].
  split; [|split; [|split]]; [| | |exact D4].
  - exact (assign_length _ _ _ _ _ _ D1 A0).
  - destruct (g_flags g =? 0); [exact (assign_length _ _ _ _ _ _ D2 A1)|apply Ok_inj in A1; subst bf; exact D2].
  - destruct (g_flags g =? 0); [exact (assign_length _ _ _ _ _ _ D3 A2)|apply Ok_inj in A2; subst be; exact D3].
Qed.
Lemma admom_width : forall ng rp ro mb bm sb sym r, fit_mbobs_admom ng rp ro mb bm (Some sb) sym = Ok r ->
  width (Nat.max (List.length mb) 1) sb r.
Proof.
  intros ng rp ro mb bm sb sym r H. unfold fit_mbobs_admom in H. cbn [default_bands] in H.
  destruct (get_wavg_output_struct ng (List.length mb) sb) as [d0|] eqn:D; [|discriminate]. cbn [obind] in H.
  apply struct_width in D. destruct (data_flags bm mb) as [f0|]; [|discriminate]. cbn [obind] in H.
  destruct (negb (_ =? 0)); [apply Ok_inj in H; subst r; exact D|].
  destruct (make_coadd_obs mb sb) as [[co cf]|]; [|discriminate]. cbn [obind] in H.
  assert (G : forall f, Ok (add_flags d0 f) = Ok r -> width (Nat.max (List.length mb) 1) sb r)
    by (intros f X; apply Ok_inj in X; subst r; exact D).
  destruct co as [co|]; [|exact (G _ H)]. destruct cf as [|p|p]; [|exact (G _ H)|exact (G _ H)].
  destruct (admom_psf rp co) as [pres|]; [|exact (G _ H)]. unfold admom_row in H. cbv zeta in H.
  destruct (if sym then symmetrize_obs_weights co else Ok co) as [so|]; [|discriminate]. cbn [obind] in H.
  destruct (ro so); apply Ok_inj in H; subst r; exact D.
Qed.
Lemma fit_width : forall x c f sb st r, fit x c f sb st = Ok r -> width (Nat.max (List.length st) 1) sb r.
Proof.
  intros x c f sb st r H. unfold fit in H. destruct (fi_wavg f); [exact (wavg_width _ _ _ _ _ _ _ _ _ _ _ H)|].
  destruct (_ || _); [exact (admom_width _ _ _ _ _ _ _ _ H)|].
  destruct (String.eqb (fi_base f) "gauss"); [exact (gauss_width _ _ _ _ _ _ _ H)|discriminate].
Qed.

(** ** Column names *)
Fixpoint plain (s : string) : bool :=
  match s with EmptyString => true | String a r => negb (Ascii.eqb a "_"%char) && plain r end.
Lemma split_underscore : forall a b x y, plain a = true -> plain b = true ->
  a ++ String "_" x = b ++ String "_" y -> a = b /\ x = y.
Proof.
  induction a as [|ca a IH]; intros [|cb b] x y Ha Hb E; cbn in *.
  - injection E as ->. auto.
  - injection E as <- _. rewrite Ascii.eqb_refl in Hb. discriminate.
  - injection E as -> _. rewrite Ascii.eqb_refl in Ha. discriminate.
  - apply andb_true_iff in Ha, Hb. injection E as -> E. destruct (IH b x y (proj2 Ha) (proj2 Hb) E) as [-> ->]. auto.
Qed.
Lemma plain_no : forall a b x, plain a = true -> a = b ++ String "_" x -> False.
Proof.
  induction a as [|ca a IH]; intros [|cb b] x Ha E; cbn in *; try discriminate.
  - injection E as -> _. rewrite Ascii.eqb_refl in Ha. discriminate.
  - apply andb_true_iff in Ha. injection E as -> E. exact (IH b x (proj2 Ha) E).
Qed.
Lemma plain_app : forall a b, plain (a ++ b) = plain a && plain b.
Proof. induction a as [|c a IH]; intros b; cbn; auto. rewrite IH. now rewrite andb_assoc. Qed.
Lemma plain_uint : forall d, plain (NilEmpty.string_of_uint d) = true.
Proof. induction d; cbn; auto. Qed.
Lemma plain_int : forall z, plain (int_str z) = true.
Proof.
  intros z. unfold int_str, NilZero.string_of_int, NilZero.string_of_uint. destruct (Z.to_int z) as [d|d].
  - destruct d; try reflexivity; apply (plain_uint (_ d)).
  - cbn [plain]. change (negb (Ascii.eqb "-" "_")) with true. cbn [andb]. destruct d; try reflexivity; apply (plain_uint (_ d)).
Qed.
Lemma plain_decimals : forall q, plain (two_decimals q) = true.
Proof.
  intros q. unfold two_decimals. cbv zeta. rewrite !plain_app, !plain_int. destruct (Qle_bool 0 q); reflexivity.
Qed.

Definition bases : list string := ["wmom"; "ksigma"; "pgauss"; "am"; "gauss"].
Definition proper (p : string) : Prop :=
  exists b, In b bases /\ (p = b \/ exists t, p = b ++ "_reg" ++ t /\ plain t = true).
Definition quantities : list string :=
  ["flags"; "psf_flags"; "psf_g"; "psf_T"; "obj_flags"; "s2n"; "g"; "g_cov"; "T"; "T_flags"; "T_err"; "T_ratio";
   "band_flux_flags"; "band_flux"; "band_flux_err"].
Lemma app_assoc_s : forall a b c : string, (a ++ b) ++ c = a ++ (b ++ c).
Proof. induction a as [|x a IH]; intros b c; cbn; auto. now rewrite IH. Qed.
Lemma base_plain : forall b, In b bases -> plain b = true.
Proof. intros b H. repeat (destruct H as [<-|H]; [reflexivity|]). destruct H. Qed.
Lemma quantity_reg : forall q t, In q quantities -> q = "reg" ++ t -> False.
Proof. intros q t H. repeat (destruct H as [<-|H]; [discriminate|]). destruct H. Qed.
Lemma proper_split : forall p, proper p -> exists b rest, In b bases /\ (forall q, p ++ String "_" q = b ++ String "_" (rest q)) /\
  ((forall q, rest q = q) /\ p = b \/ exists t, plain t = true /\ p = b ++ "_reg" ++ t /\ forall q, rest q = "reg" ++ t ++ String "_" q).
Proof.
  intros p (b & Hb & [->|(t & -> & Ht)]).
  - exists b, (fun q => q). split; [exact Hb|]. split; [reflexivity|]. left. auto.
  - exists b, (fun q => "reg" ++ t ++ String "_" q). split; [exact Hb|]. split.
    + intros q. rewrite app_assoc_s. f_equal.
    + right. exists t. auto.
Qed.
Lemma names_apart : forall p p' q q', proper p -> proper p' -> In q quantities -> In q' quantities ->
  p ++ String "_" q = p' ++ String "_" q' -> p = p'.
Proof.
  intros p p' q q' Hp Hp' Hq Hq' E. destruct (proper_split p Hp) as (b & rest & Hb & Hs & Hc).
  destruct (proper_split p' Hp') as (b' & rest' & Hb' & Hs' & Hc'). rewrite Hs, Hs' in E.
  apply split_underscore in E; [|now apply base_plain|now apply base_plain]. destruct E as [-> E].
  destruct Hc as [[Hr ->]|(t & Ht & -> & Hr)], Hc' as [[Hr' ->]|(t' & Ht' & -> & Hr')]; rewrite Hr, Hr' in E; auto.
  - exfalso. exact (quantity_reg _ _ Hq E).
  - exfalso. exact (quantity_reg _ _ Hq' (eq_sym E)).
  - cbn in E. injection E as E. apply split_underscore in E; auto. destruct E as [-> _]. reflexivity.
Qed.
Lemma proper_base : forall p b x y, proper p -> ~ In b bases -> plain b = true -> p ++ String "_" x = b ++ String "_" y -> False.
Proof.
  intros p b x y Hp Nb Pb E. destruct (proper_split p Hp) as (b' & rest & Hb & Hs & _). rewrite Hs in E.
  apply split_underscore in E; [|now apply base_plain|exact Pb]. destruct E as [-> _]. contradiction.
Qed.
Lemma proper_plain : forall p s x, proper p -> plain s = true -> p ++ String "_" x = s -> False.
Proof. intros p s x Hp Hs E. exact (plain_no s p x Hs (eq_sym E)). Qed.
Definition other_names : list string := "shear_bands" :: map fst common_columns.
Lemma proper_other : forall p q, proper p -> ~ In (p ++ String "_" q) other_names.
Proof.
  intros p q Hp H.
  assert (B : forall b y, ~ In b bases -> plain b = true -> b ++ String "_" y = p ++ String "_" q -> False)
    by (intros b y N P E; exact (proper_base p b q y Hp N P (eq_sym E))).
  assert (P : forall s, plain s = true -> s = p ++ String "_" q -> False)
    by (intros s Ps E; exact (proper_plain p s q Hp Ps (eq_sym E))).
  assert (NB : forall b, existsb (String.eqb b) bases = false -> ~ In b bases).
  { intros b X Y. enough (existsb (String.eqb b) bases = true) by congruence. apply existsb_exists. exists b. split; auto.
    apply String.eqb_refl. }
  unfold other_names, common_columns in H. cbn [map fst] in H.
  destruct H as [H|H]; [exact (B "shear" "bands" (NB "shear" eq_refl) eq_refl H)|].
  destruct H as [H|H]; [exact (B "sx" "row" (NB "sx" eq_refl) eq_refl H)|].
  destruct H as [H|H]; [exact (B "sx" "col" (NB "sx" eq_refl) eq_refl H)|].
  destruct H as [H|H]; [exact (B "sx" "row_noshear" (NB "sx" eq_refl) eq_refl H)|].
  destruct H as [H|H]; [exact (B "sx" "col_noshear" (NB "sx" eq_refl) eq_refl H)|].
  destruct H as [H|H]; [exact (P "ormask" eq_refl H)|].
  destruct H as [H|H]; [exact (P "mfrac" eq_refl H)|].
  destruct H as [H|H]; [exact (P "bmask" eq_refl H)|].
  destruct H as [H|H]; [exact (B "mfrac" "img" (NB "mfrac" eq_refl) eq_refl H)|].
  destruct H as [H|H]; [exact (B "ormask" "noshear" (NB "ormask" eq_refl) eq_refl H)|].
  destruct H as [H|H]; [exact (B "mfrac" "noshear" (NB "mfrac" eq_refl) eq_refl H)|].
  destruct H as [H|H]; [exact (B "bmask" "noshear" (NB "bmask" eq_refl) eq_refl H)|].
  destruct H as [H|H]; [exact (B "det" "bands" (NB "det" eq_refl) eq_refl H)|].
  destruct H as [H|H]; [exact (B "psfrec" "flags" (NB "psfrec" eq_refl) eq_refl H)|].
  destruct H as [H|H]; [exact (B "psfrec" "g" (NB "psfrec" eq_refl) eq_refl H)|].
  destruct H as [H|[]]; exact (B "psfrec" "T" (NB "psfrec" eq_refl) eq_refl H).
Qed.

Definition fit_names (p : string) : list string := map (fun q => p ++ String "_" q) quantities.
Lemma fit_names_nodup : forall p, NoDup (fit_names p).
Proof.
  intros p. unfold fit_names. assert (N : NoDup quantities).
  { repeat (constructor; [cbn; intros H; repeat (destruct H as [H|H]; [discriminate|]); exact H|]). constructor. }
  assert (I : forall q q', p ++ String "_" q = p ++ String "_" q' -> q = q').
  { induction p as [|a p IH]; intros q q' E; cbn in E; injection E; auto. }
  induction N as [|q l Hq N IH]; cbn [map]; constructor; auto.
  intros H. apply in_map_iff in H. destruct H as (q' & E & H). apply I in E. subst. contradiction.
Qed.
Lemma more_names : forall ps k, map fst (more_columns k ps) = flat_map fit_names ps.
Proof. induction ps as [|p ps IH]; intros k; cbn [more_columns flat_map]; [reflexivity|]. rewrite map_app, IH. reflexivity. Qed.
Lemma in_fit_names : forall p s, In s (fit_names p) -> exists q, In q quantities /\ s = p ++ String "_" q.
Proof. intros p s H. apply in_map_iff in H. destruct H as (q & <- & H). eauto. Qed.
Lemma NoDup_app_iff : forall A (l m : list A), NoDup (l ++ m) <-> NoDup l /\ NoDup m /\ forall a, In a l -> ~ In a m.
Proof.
  intros A l m. induction l as [|a l IH]; cbn [app].
  - split; [intros H; repeat split; auto; constructor|intros (_ & H & _); exact H].
  - rewrite (NoDup_cons_iff a (l ++ m)%list), (NoDup_cons_iff a l), IH, in_app_iff. split.
    + intros (H1 & H2 & H3 & H4). repeat split; auto. intros b [<-|Hb]; auto.
    + intros ((H1 & H2) & H3 & H4). repeat split; auto.
      * intros [X|X]; [exact (H1 X)|exact (H4 a (or_introl eq_refl) X)].
      * intros b Hb. apply H4. now right.
Qed.
Lemma flat_names_nodup : forall ps, Forall proper ps -> (NoDup (flat_map fit_names ps) <-> NoDup ps).
Proof.
  intros ps H. induction H as [|p ps Hp Hps IH]; cbn [flat_map]; [split; constructor|].
  rewrite NoDup_app_iff, NoDup_cons_iff, IH. split.
  - intros (_ & H2 & H3). split; auto. intros Hin. apply (H3 (p ++ String "_" "flags")).
    + left. reflexivity.
    + apply in_flat_map. exists p. split; auto. left. reflexivity.
  - intros (H1 & H2). split; [apply fit_names_nodup|]. split; auto. intros s Hs Hf.
    apply in_flat_map in Hf. destruct Hf as (p' & Hp' & Hs'). apply in_fit_names in Hs, Hs'.
    destruct Hs as (q & Hq & ->), Hs' as (q' & Hq' & E). rewrite Forall_forall in Hps.
    assert (X := names_apart p p' q q' Hp (Hps _ Hp') Hq Hq' E). subst. contradiction.
Qed.
Lemma flat_other : forall ps s, Forall proper ps -> In s (flat_map fit_names ps) -> ~ In s other_names.
Proof.
  intros ps s H Hs. apply in_flat_map in Hs. destruct Hs as (p & Hp & Hs). apply in_fit_names in Hs.
  destruct Hs as (q & _ & ->). rewrite Forall_forall in H. apply proper_other. auto.
Qed.
Lemma all_names : forall p ps, map fst (all_columns (p :: ps)) =
  (fit_names p ++ "shear_bands" :: flat_map fit_names ps ++ map fst common_columns)%list.
Proof.
  intros p ps. unfold all_columns. rewrite !map_app, more_names. reflexivity.
Qed.
Lemma common_nodup : NoDup other_names.
Proof.
  repeat (constructor; [cbn; intros H; repeat (destruct H as [H|H]; [discriminate|]); exact H|]). constructor.
Qed.
Lemma all_names_nodup : forall ps, Forall proper ps -> (NoDup (map fst (all_columns ps)) <-> NoDup ps).
Proof.
  intros [|p ps] H; [split; [constructor|]; intros _; exact (proj2 (proj1 (NoDup_cons_iff _ _) common_nodup))|].
  rewrite all_names. rewrite <- (flat_names_nodup (p :: ps) H). cbn [flat_map].
  assert (Hps : Forall proper ps) by (inversion H; auto). assert (Hp : proper p) by (inversion H; auto).
  assert (F : forall s, In s (fit_names p) -> ~ In s other_names).
  { intros s Hs. apply (flat_other [p]); [constructor; auto|]. cbn [flat_map]. rewrite app_nil_r. exact Hs. }
  rewrite !NoDup_app_iff. rewrite NoDup_cons_iff, NoDup_app_iff. split.
  - intros (H1 & (H2 & H3 & H4 & H5) & H6). repeat split; auto. intros s Hs X. apply (H6 s Hs). right. apply in_or_app. auto.
  - intros (H1 & H2 & H3). split; [exact H1|]. split.
    + split.
      * intros X. apply in_app_or in X. destruct X as [X|X].
        -- exact (flat_other ps _ Hps X (or_introl eq_refl)).
        -- revert X. exact (proj1 (proj1 (NoDup_cons_iff _ _) common_nodup)).
      * split; [exact H2|]. split; [exact (proj2 (proj1 (NoDup_cons_iff _ _) common_nodup))|].
        intros s Hs X. exact (flat_other ps s Hps Hs (or_intror X)).
    + intros s Hs [X|X].
      * exact (F s Hs (or_introl X)).
      * apply in_app_or in X. destruct X as [X|X]; [exact (H3 s Hs X)|exact (F s Hs (or_intror X))].
Qed.

(** ** Stacking *)
Definition table_of {R} (fs : list (string * (R -> cell))) (rows : list R) : tab :=
  mkTable (List.length rows) (map (fun ng => (fst ng, map (snd ng) rows)) fs).
Lemma append_of : forall R (fs : list (string * (R -> cell))) a b, append (table_of fs a) (table_of fs b) = table_of fs (a ++ b)%list.
Proof.
  intros R fs a b. unfold append, table_of. cbn [t_n t_cols]. rewrite app_length. f_equal.
  induction fs as [|f fs IH]; cbn [map combine fst snd]; [reflexivity|]. rewrite IH, map_app. reflexivity.
Qed.
Lemma append_all : forall R (fs : list (string * (R -> cell))) bs a, fold_left append (map (table_of fs) bs) (table_of fs a) =
  table_of fs (a ++ List.concat bs)%list.
Proof.
  intros R fs bs. induction bs as [|b bs IH]; intros a; cbn [map fold_left List.concat]; [now rewrite app_nil_r|].
  rewrite append_of, IH, app_assoc. reflexivity.
Qed.
Definition alike {R} (fs : list (string * (R -> cell))) (a b : R) : Prop :=
  forall ng, In ng fs -> cell_type (snd ng a) = cell_type (snd ng b).
Lemma type_eqb_refl : forall a, type_eqb a a = true.
Proof. intros [s n]. unfold type_eqb. cbn. now rewrite String.eqb_refl, Nat.eqb_refl. Qed.
Lemma dtype_of : forall R (fs : list (string * (R -> cell))) a l b m, alike fs a b ->
  list_eqb field_eqb (dtype (table_of fs (a :: l))) (dtype (table_of fs (b :: m))) = true.
Proof.
  intros R fs a l b m H. unfold dtype, table_of. cbn [t_cols]. rewrite !map_map.
  change (list_eqb field_eqb (map (fun ng => (fst ng, Some (cell_type (snd ng a)))) fs)
            (map (fun ng => (fst ng, Some (cell_type (snd ng b)))) fs) = true).
  induction fs as [|f fs IH]; cbn [map list_eqb]; [reflexivity|].
  rewrite IH by (intros ng Hn; apply H; now right). rewrite andb_true_r. unfold field_eqb. cbn [fst snd].
  rewrite String.eqb_refl, (H f (or_introl eq_refl)). apply type_eqb_refl.
Qed.
Lemma hstack_of : forall R (fs : list (string * (R -> cell))) bs, bs <> [] -> Forall (fun b => b <> []) bs ->
  (forall a b, In a (List.concat bs) -> In b (List.concat bs) -> alike fs a b) ->
  hstack (map (table_of fs) bs) = Ok (table_of fs (List.concat bs)).
Proof.
  intros R fs [|b0 bs] N H A; [congruence|]. cbn [map hstack List.concat]. rewrite append_all.
  assert (F : forallb (fun t => list_eqb field_eqb (dtype (table_of fs b0)) (dtype t)) (map (table_of fs) bs) = true).
  { apply forallb_forall. intros t Ht. apply in_map_iff in Ht. destruct Ht as (b & <- & Hb). inversion H as [|? ? H0 Hr]; subst.
    rewrite Forall_forall in Hr. specialize (Hr b Hb). destruct b0 as [|x b0]; [congruence|]. destruct b as [|y b]; [congruence|].
    apply dtype_of. apply A.
    - apply in_or_app. left. left. reflexivity.
    - apply in_or_app. right. apply in_concat. exists (y :: b). split; auto. left. reflexivity. }
  rewrite F. reflexivity.
Qed.

(** ** The table of one fitter *)
Definition single (p : string) : list (string * (row -> cell)) :=
  [ (p ++ "_flags", fun r => CInt (o_flags r));
    (p ++ "_psf_flags", fun r => CInt (o_psf_flags r));
    (p ++ "_psf_g", fun r => CPair (o_psf_g r));
    (p ++ "_psf_T", fun r => CNum (o_psf_T r));
    (p ++ "_obj_flags", fun r => CInt (o_obj_flags r));
    (p ++ "_s2n", fun r => CNum (o_s2n r));
    (p ++ "_g", fun r => CPair (o_g r));
    (p ++ "_g_cov", fun r => CMat (o_g_cov r));
    (p ++ "_T", fun r => CNum (o_T r));
    (p ++ "_T_flags", fun r => CInt (o_T_flags r));
    (p ++ "_T_err", fun r => CNum (o_T_err r));
    (p ++ "_T_ratio", fun r => CNum (o_T_ratio r));
    (p ++ "_band_flux_flags", fun r => CInts (o_band_flux_flags r));
    (p ++ "_band_flux", fun r => CNums (o_band_flux r));
    (p ++ "_band_flux_err", fun r => CNums (o_band_flux_err r)) ].
Definition sbf : string * (row -> cell) := ("shear_bands", fun r => CText (o_shear_bands r)).
Lemma proper_nonempty : forall p, proper p -> String.eqb p "" = false.
Proof.
  intros p (b & Hb & H). assert (N : forall t, (b ++ t)%string <> "").
  { intros t. repeat (destruct Hb as [<-|Hb]; [discriminate|]). destruct Hb. }
  apply String.eqb_neq. intros E. destruct H as [->|(t & -> & _)].
  - repeat (destruct Hb as [<-|Hb]; [discriminate|]). destruct Hb.
  - exact (N _ E).
Qed.
Lemma row_table_of : forall p r, proper p -> row_table p r = table_of (single p ++ [sbf]) [r].
Proof.
  intros p r H. unfold row_table. assert (E : forall s, namer (Some p) None s = p ++ String "_" s).
  { intros s. unfold namer, namer_front. rewrite (proper_nonempty p H). reflexivity. }
  cbv zeta. rewrite !E. reflexivity.
Qed.
Lemma widths_alike : forall n sb p a b, width n sb a -> width n sb b -> alike (single p ++ [sbf]) a b.
Proof.
  intros n sb p a b (A1 & A2 & A3 & _) (B1 & B2 & B3 & _) ng H. unfold single, sbf in H. cbn [app] in H.
  repeat (destruct H as [<-|H]; [cbn [snd cell_type]; congruence|]). destruct H.
Qed.
Lemma concat_singles : forall A (l : list A), List.concat (map (fun a => [a]) l) = l.
Proof. induction l; cbn; congruence. Qed.
Lemma fit_list_table_of : forall x c f sb n stamps, proper (colname f) -> (forall st, In st stamps -> List.length st = n) ->
  fit_list_table x c f sb stamps =
  (do rows <- omap (fit x c f sb) stamps;
   Ok (match rows with [] => None | _ => Some (table_of (single (colname f) ++ [sbf]) rows) end)).
Proof.
  intros x c f sb n stamps Hp Hn. unfold fit_list_table. destruct (omap (fit x c f sb) stamps) as [rows|] eqn:E; [|reflexivity].
  cbn [obind]. destruct rows as [|r rows]; [reflexivity|].
  assert (W : Forall (width (Nat.max n 1) sb) (r :: rows)).
  { apply omap_Forall2 in E. clear -E Hn. induction E as [|st q l l' Hf Hr IH]; constructor.
    - rewrite <- (Hn st (or_introl eq_refl)). exact (fit_width _ _ _ _ _ _ Hf).
    - apply IH. intros s Hs. apply Hn. now right. }
  rewrite (map_ext_in _ (fun r => table_of (single (colname f) ++ [sbf]) [r])) by (intros; now apply row_table_of).
  rewrite <- (map_map (fun r => [r]) (table_of (single (colname f) ++ [sbf]))).
  rewrite hstack_of.
  - rewrite concat_singles. reflexivity.
  - discriminate.
  - apply Forall_forall. intros b Hb. apply in_map_iff in Hb. destruct Hb as (q & <- & _). discriminate.
  - rewrite concat_singles. intros a b Ha Hb. rewrite Forall_forall in W. exact (widths_alike _ _ _ _ _ (W _ Ha) (W _ Hb)).
Qed.

(** ** Combining the fitters *)
Section Combine.
Variables (n : nat) (sv : list cell).
Hypothesis Hn : (0 < n)%nat.
Hypothesis Hsv : list_eqb cell_eqb sv sv = true.
Definition sbcol : string * list cell := ("shear_bands", sv).
Definition made (body : list (string * list cell)) : tab := mkTable n (body ++ [sbcol])%list.
Definition no_sb (body : list (string * list cell)) : Prop := forall cv, In cv body -> is_dupe (fst cv) = false.

Lemma header_rest : forall bodies dt, dt <> [] -> Forall no_sb bodies ->
  ofold header_step (map (fun b => Some (made b)) bodies) (Some n, dt) =
  Ok (Some n, (dt ++ flat_map (map fst) bodies)%list).
Proof.
  intros bodies. induction bodies as [|b bodies IH]; intros dt D H; cbn [map ofold]; [cbn [flat_map]; now rewrite app_nil_r|].
  inversion H as [|? ? Hb Hr]; subst. 
  assert (HS : forall n0 d, header_step (Some n0, d) (Some (made b)) = (do k <- (if Nat.eqb n0 n then Ok n0 else Raise RuntimeError);
    Ok (Some k, match d with [] => names (made b) | _ => (d ++ filter (fun c => negb (is_dupe c)) (names (made b)))%list end))) by reflexivity.
  rewrite HS, Nat.eqb_refl. cbn [obind].
  assert (F : filter (fun c => negb (is_dupe c)) (names (made b)) = map fst b).
  { unfold names, made. cbn [t_cols]. rewrite map_app, filter_app. cbn [map sbcol fst filter]. change (is_dupe "shear_bands") with true.
    cbn [negb]. rewrite app_nil_r. clear -Hb. induction b as [|cv b IHb]; cbn [map filter]; [reflexivity|].
    rewrite (Hb cv (or_introl eq_refl)). cbn [negb]. rewrite IHb; auto. intros cv' Hc. apply Hb. now right. }
  rewrite F. destruct dt as [|d dt]; [congruence|]. rewrite IH; auto; [|discriminate]. cbn [flat_map]. now rewrite app_assoc.
Qed.

Lemma get_col_skip : forall (c : string) (l m : list (string * list cell)), ~ In c (map fst l) -> get_col c (l ++ m)%list = get_col c m.
Proof.
  intros c l m. induction l as [|[d v] l IH]; intros H; [reflexivity|]. cbn [map fst In] in H. change (((d, v) :: l) ++ m)%list with ((d, v) :: (l ++ m))%list. cbn [get_col].
  destruct (String.eqb c d) eqn:E; [apply String.eqb_eq in E; subst; tauto|]. apply IH. tauto.
Qed.
Lemma put_col_skip : forall (c : string) v (l m : list (string * list cell)), ~ In c (map fst l) ->
  put_col c v (l ++ m)%list = (l ++ put_col c v m)%list.
Proof.
  intros c v l m. induction l as [|[d w] l IH]; intros H; [reflexivity|]. cbn [map fst In] in H. change (((d, w) :: l) ++ m)%list with ((d, w) :: (l ++ m))%list. cbn [put_col].
  destruct (String.eqb c d) eqn:E; [apply String.eqb_eq in E; subst; tauto|]. rewrite IH; tauto.
Qed.
Definition blank (c : string) : string * list cell := (c, repeat (CInt 0) n).
Lemma fill_body : forall first body done rest, no_sb body -> NoDup (map fst done ++ map fst body)%list ->
  ofold (col_step cell_eqb first) body (done ++ map blank (map fst body) ++ rest)%list = Ok (done ++ body ++ rest)%list.
Proof.
  intros first body. induction body as [|[c v] body IH]; intros done rest H N; cbn [map ofold app]; [reflexivity|].
  assert (Hc : is_dupe c = false) by exact (H (c, v) (or_introl eq_refl)).
  assert (Nc : ~ In c (map fst done)).
  { intros X. cbn [map fst] in N. apply NoDup_app_iff in N. destruct N as (_ & _ & N). exact (N c X (or_introl eq_refl)). }
  unfold col_step at 1. rewrite get_col_skip by exact Nc. cbn [fst get_col blank]. rewrite String.eqb_refl, Hc. cbn [andb obind].
  rewrite put_col_skip by exact Nc. unfold blank at 1. cbn [put_col]. rewrite String.eqb_refl.
  change (done ++ (c, v) :: map blank (map fst body) ++ rest)%list with (done ++ [(c, v)] ++ map blank (map fst body) ++ rest)%list.
  rewrite app_assoc. rewrite (IH (done ++ [(c, v)])%list rest).
  - rewrite <- app_assoc. reflexivity.
  - intros cv Hcv. apply H. now right.
  - rewrite map_app, <- app_assoc. exact N.
Qed.
Lemma fill_rest : forall bodies body0 done, Forall no_sb bodies -> no_sb body0 -> no_sb done ->
  NoDup (map fst body0 ++ map fst done ++ flat_map (map fst) bodies)%list ->
  fill_cols cell_eqb false (map (fun b => Some (made b)) bodies)
    (body0 ++ sbcol :: done ++ map blank (flat_map (map fst) bodies))%list =
  Ok (body0 ++ sbcol :: done ++ List.concat bodies)%list.
Proof.
  intros bodies. induction bodies as [|b bodies IH]; intros body0 done H H0 H1 N; cbn [map flat_map fill_cols List.concat]; [reflexivity|].
  inversion H as [|? ? Hb Hr]; subst. cbn [made t_cols].
  assert (NS : ~ In "shear_bands" (map fst body0)).
  { intros X. apply in_map_iff in X. destruct X as ([c v] & E & X). cbn [fst] in E. subst c. specialize (H0 _ X). discriminate. }
  assert (X : ofold (col_step cell_eqb false) (b ++ [sbcol])%list
     (body0 ++ sbcol :: done ++ map blank (map fst b ++ flat_map (map fst) bodies))%list =
     Ok (body0 ++ sbcol :: done ++ b ++ map blank (flat_map (map fst) bodies))%list).
  { assert (OA : forall (l m : list (string * list cell)) acc, ofold (col_step cell_eqb false) (l ++ m)%list acc =
      (do a <- ofold (col_step cell_eqb false) l acc; ofold (col_step cell_eqb false) m a)).
    { induction l as [|y l IHl]; intros m acc; cbn [app ofold]; [reflexivity|]. destruct (col_step cell_eqb false acc y); cbn [obind]; auto. }
    rewrite OA, map_app.
    change (body0 ++ sbcol :: done ++ map blank (map fst b) ++ map blank (flat_map (map fst) bodies))%list with
      (body0 ++ (sbcol :: done) ++ map blank (map fst b) ++ map blank (flat_map (map fst) bodies))%list.
    rewrite app_assoc, fill_body.
    - cbn [obind]. rewrite <- app_assoc. cbn [app ofold col_step sbcol].
      rewrite get_col_skip by exact NS. unfold sbcol. cbn [get_col]. change ("shear_bands" =? "shear_bands")%string with true. cbv iota.
      change (is_dupe "shear_bands" && negb false) with true. cbv iota. rewrite Hsv. reflexivity.
    - exact Hb.
    - rewrite map_app. cbn [map fst sbcol flat_map] in *. rewrite <- app_assoc. cbn [app].
      rewrite NoDup_app_iff in N. destruct N as (N1 & N2 & N3). rewrite !NoDup_app_iff in N2. destruct N2 as (N4 & (N5 & N6 & N7) & N8).
      apply NoDup_app_iff. split; [exact N1|]. split.
      + constructor.
        * intros X. apply in_app_or in X. destruct X as [X|X].
          -- apply in_map_iff in X. destruct X as ([c v] & E & X). cbn [fst] in E. subst c. specialize (H1 _ X). discriminate.
          -- apply in_map_iff in X. destruct X as ([c v] & E & X). cbn [fst] in E. subst c. specialize (Hb _ X). discriminate.
        * apply NoDup_app_iff. split; [exact N4|]. split; [exact N5|]. intros s Hs Hs'. apply (N8 s Hs). apply in_or_app. now left.
      + intros s Hs [<-|X]; [exact (NS Hs)|]. apply (N3 s Hs). apply in_app_or in X. destruct X as [X|X]; apply in_or_app; [now left|].
        right. apply in_or_app. now left. }
  rewrite X. cbn [obind]. rewrite (app_assoc done b), (IH body0 (done ++ b)%list Hr H0).
  - rewrite <- app_assoc. reflexivity.
  - intros cv Hc. apply in_app_or in Hc. destruct Hc; [now apply H1|now apply Hb].
  - rewrite map_app, <- app_assoc. exact N.
Qed.

Lemma nodupb_iff : forall l, nodupb l = true <-> NoDup l.
Proof.
  induction l as [|a l IH]; cbn [nodupb]; [split; constructor|]. rewrite andb_true_iff, negb_true_iff, IH, NoDup_cons_iff.
  split; intros [H1 H2]; split; auto.
  - intros H. enough (existsb (String.eqb a) l = true) by congruence. apply existsb_exists. exists a. split; auto. apply String.eqb_refl.
  - destruct (existsb (String.eqb a) l) eqn:E; auto. apply existsb_exists in E. destruct E as (b & Hb & E). apply String.eqb_eq in E. subst. contradiction.
Qed.
Lemma combine_made : forall b0 b1 bodies, b0 <> [] -> no_sb b0 -> no_sb b1 -> Forall no_sb bodies ->
  combine_fit_res cell_eqb (CInt 0) (map (fun b => Some (made b)) (b0 :: b1 :: bodies)) =
  if nodupb (map fst b0 ++ flat_map (map fst) (b1 :: bodies))%list
  then Ok (Some (mkTable n (b0 ++ sbcol :: List.concat (b1 :: bodies))%list)) else Raise ValueError.
Proof.
  intros b0 b1 bodies N0 H0 H1 H. assert (HF : Forall no_sb (b1 :: bodies)) by (constructor; auto).
  set (rest := b1 :: bodies) in *.
  assert (E : combine_fit_res cell_eqb (CInt 0) (map (fun b => Some (made b)) (b0 :: rest)) =
    do h <- ofold header_step (map (fun b => Some (made b)) (b0 :: rest)) (None, []);
    match h with
    | (None, _) => Raise TypeError
    | (Some n, dt) =>
      if Nat.ltb 0 n then
        if nodupb dt then
          do cols <- fill_cols cell_eqb true (map (fun b => Some (made b)) (b0 :: rest)) (map (fun c => (c, repeat (CInt 0) n)) dt);
          Ok (Some (mkTable n cols))
        else Raise ValueError
      else if existsb has (map (fun b => Some (made b)) (b0 :: rest)) then
        if nodupb dt then Ok (Some (mkTable O (map (fun c => (c, [])) dt))) else Raise ValueError
      else Ok None
    end) by reflexivity.
  rewrite E. cbn [map ofold].
  change (header_step (None, []) (Some (made b0))) with (@Ok (option nat * list string) (Some n, names (made b0))). cbn [obind].
  rewrite header_rest; [|unfold names, made; cbn [t_cols]; rewrite map_app; destruct b0; discriminate|exact HF]. cbn [obind].
  rewrite (proj2 (Nat.ltb_lt 0 n) Hn).
  assert (NE : names (made b0) = (map fst b0 ++ ["shear_bands"])%list) by (unfold names, made; cbn [t_cols]; rewrite map_app; reflexivity).
  rewrite NE, <- app_assoc. cbn [app].
  assert (SB : forall l, Forall no_sb l -> ~ In "shear_bands" (flat_map (map fst) l)).
  { intros l Hl X. apply in_flat_map in X. destruct X as (b & Hb & X). apply in_map_iff in X. destruct X as ([c v] & Ec & X).
    cbn [fst] in Ec. subst c. rewrite Forall_forall in Hl. specialize (Hl b Hb _ X). discriminate. }
  assert (S0 : ~ In "shear_bands" (map fst b0)).
  { intros X. apply (SB [b0]); [constructor; auto|]. cbn [flat_map]. rewrite app_nil_r. exact X. }
  assert (ND : nodupb (map fst b0 ++ "shear_bands" :: flat_map (map fst) rest) = nodupb (map fst b0 ++ flat_map (map fst) rest)).
  { apply eq_true_iff_eq. rewrite !nodupb_iff, !NoDup_app_iff, NoDup_cons_iff. split.
    - intros (A1 & (A2 & A3) & A4). repeat split; auto. intros s Hs X. apply (A4 s Hs). now right.
    - intros (A1 & A2 & A3). split; [exact A1|]. split; [split; [exact (SB rest HF)|exact A2]|].
      intros s Hs [<-|X]; [exact (S0 Hs)|exact (A3 s Hs X)]. }
  rewrite ND. destruct (nodupb (map fst b0 ++ flat_map (map fst) rest)) eqn:B; [|reflexivity].
  apply nodupb_iff in B. cbn [fill_cols made t_cols].
  assert (OA : forall first (l m : list (string * list cell)) acc, ofold (col_step cell_eqb first) (l ++ m)%list acc =
      (do a <- ofold (col_step cell_eqb first) l acc; ofold (col_step cell_eqb first) m a)).
  { intros first. induction l as [|y l IHl]; intros m acc; cbn [app ofold]; [reflexivity|]. destruct (col_step cell_eqb first acc y); cbn [obind]; auto. }
  rewrite OA.
  change (map (fun c => (c, repeat (CInt 0) n)) (map fst b0 ++ "shear_bands" :: flat_map (map fst) rest)) with
    (map blank (map fst b0 ++ "shear_bands" :: flat_map (map fst) rest)).
  rewrite map_app.
  assert (FB := fill_body true b0 [] (map blank ("shear_bands" :: flat_map (map fst) rest)) H0). cbn [app] in FB. cbn [map app] in FB |- *.
  rewrite FB by (apply NoDup_app_iff in B; exact (proj1 B)). cbn [obind ofold col_step sbcol]. unfold sbcol.
  cbn [ofold col_step]. rewrite get_col_skip by exact S0. cbn [get_col blank]. rewrite String.eqb_refl.
  change (is_dupe "shear_bands" && negb true) with false. cbv iota. cbn [obind].
  rewrite put_col_skip by exact S0. unfold blank at 1. cbn [put_col]. rewrite String.eqb_refl.
  assert (FR := fill_rest rest b0 [] HF H0 (fun cv (X : In cv []) => match X with end)). cbn [app map] in FR. specialize (FR B). unfold sbcol in FR.
  match type of FR with ?l = _ => match goal with |- obind ?g _ = _ => change g with l end end. rewrite FR. reflexivity.
Qed.
End Combine.

(** ** Rows and columns *)
Lemma transpose_nth : forall A n (cols : list (list A)) k col, (forall c, In c cols -> List.length c = n) ->
  nth_error cols k = Some col -> map (fun r => nth_error r k) (transpose n cols) = map Some col.
Proof.
  intros A n cols. induction cols as [|c cols IH]; intros k col L H; [destruct k; discriminate|].
  assert (TL : forall m (l : list (list A)), (forall c, In c l -> List.length c = m) -> List.length (transpose m l) = m).
  { intros m l. induction l as [|a l IHl]; intros Hl; cbn [transpose]; [apply repeat_length|].
    rewrite map_length, combine_length, IHl, (Hl a (or_introl eq_refl)); [lia|]. intros; apply Hl; now right. }
  assert (Lc := L c (or_introl eq_refl)). assert (Lr : forall a, In a cols -> List.length a = n) by (intros; apply L; now right).
  specialize (TL n cols Lr). cbn [transpose]. rewrite map_map. destruct k as [|k]; cbn [nth_error] in H.
  - apply Some_inj in H. subst col. cbn [nth_error]. clear -Lc TL. revert c Lc. generalize dependent n.
    generalize (transpose (A := A)). intros tr n TL c Lc. revert TL. generalize (tr n cols). intros l TL. rewrite <- TL in Lc. clear TL.
    revert l Lc. induction c as [|a c IH]; intros [|b l] L; cbn in *; try discriminate; [reflexivity|]. f_equal. apply IH. lia.
  - specialize (IH k col Lr H). rewrite <- IH. cbn [nth_error]. assert (E : List.length c = List.length (transpose n cols)) by congruence.
    revert E. generalize (transpose n cols). clear. induction c as [|a c IHc]; intros [|b l] E; cbn in *; try discriminate; [reflexivity|].
    f_equal. apply IHc. lia.
Qed.
Lemma omap_pairs : forall A B C D (f : A -> outcome B) (g : C -> B -> D) cat mat, List.length cat = List.length mat ->
  omap (fun dr : A * C => do x <- f (fst dr); Ok (g (snd dr) x)) (combine cat mat) =
  (do xs <- omap f cat; Ok (map (fun p => g (fst p) (snd p)) (combine mat xs))).
Proof.
  intros A B C D f g cat. induction cat as [|a cat IH]; intros [|m mat] L; try discriminate; [reflexivity|].
  cbn [combine omap fst snd]. destruct (f a) as [x|]; [|reflexivity]. cbn [obind]. rewrite IH by (cbn in L; lia).
  destruct (omap f cat) as [xs|]; reflexivity.
Qed.
Lemma pairs_fst : forall (mat : list (list row)) (xs : list extra), List.length mat = List.length xs ->
  map r_fits (map (fun p => mkDrow (fst p) (snd p)) (combine mat xs)) = mat.
Proof. induction mat as [|a m IH]; intros [|b l] E; cbn in *; try discriminate; [reflexivity|]. f_equal. apply IH. lia. Qed.
Lemma pairs_snd : forall (mat : list (list row)) (xs : list extra), List.length mat = List.length xs ->
  map r_extra (map (fun p => mkDrow (fst p) (snd p)) (combine mat xs)) = xs.
Proof. induction mat as [|a m IH]; intros [|b l] E; cbn in *; try discriminate; [reflexivity|]. f_equal. apply IH. lia. Qed.

Definition body (p : string) (col : list row) : list (string * list cell) :=
  map (fun ng => (fst ng, map (snd ng) col)) (single p).
Definition values (rows : list (drow row)) (fs : list (string * rowcell)) : list (string * list cell) :=
  map (fun ng => (fst ng, map (snd ng) rows)) fs.
Definition column_is (rows : list (drow row)) (k : nat) (col : list row) : Prop :=
  map (fun r => nth_error r k) (map r_fits rows) = map Some col.
Lemma of_fit_col : forall rows k col g, column_is rows k col -> map (of_fit k g) rows = map g col.
Proof.
  intros rows k col g H. unfold column_is in H. rewrite map_map in H.
  assert (E : map (of_fit k g) rows = map (fun o => match o with Some f => g f | None => CInt 0 end) (map (fun r => nth_error (r_fits r) k) rows))
    by (rewrite map_map; reflexivity).
  rewrite E, H, map_map. reflexivity.
Qed.
Lemma values_fit : forall rows k p col, column_is rows k col -> values rows (fit_columns k p) = body p col.
Proof.
  intros rows k p col H. unfold values, fit_columns, body, single. cbn [map fst snd]. rewrite !(of_fit_col rows k col) by exact H. reflexivity.
Qed.
Lemma values_more : forall rows ps cols k, List.length ps = List.length cols ->
  (forall j col, nth_error cols j = Some col -> column_is rows (k + j) col) ->
  values rows (more_columns k ps) = List.concat (map (fun pc => body (fst pc) (snd pc)) (combine ps cols)).
Proof.
  intros rows ps. induction ps as [|p ps IH]; intros [|c cols] k L H; try discriminate; [reflexivity|].
  cbn [more_columns combine map List.concat fst snd]. unfold values. rewrite map_app. f_equal.
  - assert (H0 := H O c eq_refl). rewrite Nat.add_0_r in H0. exact (values_fit rows k p c H0).
  - apply IH; [cbn in L; lia|]. intros j col Hj. specialize (H (S j) col Hj). replace (S k + j)%nat with (k + S j)%nat by lia. exact H.
Qed.
Lemma values_common : forall rows, values rows common_columns = (new_columns (map r_extra rows) ++ psfrec_columns (map r_extra rows))%list.
Proof.
  intros rows. unfold values, common_columns, new_columns, psfrec_columns, of_extra. cbn [map fst snd app]. rewrite !map_map. reflexivity.
Qed.

(** ** _measure *)
Definition full (n : nat) (p : string) (ps : list string) (cols : list (list row)) (sv : list cell) (c0 : list row) : tab :=
  mkTable n (body p c0 ++ ("shear_bands", sv) :: List.concat (map (fun pc => body (fst pc) (snd pc)) (combine ps cols)))%list.
Lemma body_names : forall p col, map fst (body p col) = fit_names p.
Proof. intros p col. unfold body. rewrite map_map. reflexivity. Qed.
Lemma body_no_sb : forall p col, proper p -> no_sb (body p col).
Proof.
  intros p col Hp [c v] H. cbn [fst]. assert (X : In c (fit_names p)) by (rewrite <- (body_names p col); exact (in_map fst _ _ H)).
  apply in_fit_names in X. destruct X as (q & _ & ->). unfold is_dupe, dupe_cols. cbn [existsb].
  destruct (String.eqb (p ++ String "_" q) "shear_bands") eqn:E; [|reflexivity]. apply String.eqb_eq in E.
  exfalso. apply (proper_other p q Hp). left. symmetry. exact E.
Qed.
Lemma bodies_names : forall ps cols, List.length ps = List.length cols ->
  flat_map (map fst) (map (fun pc => body (fst pc) (snd pc)) (combine ps cols)) = flat_map fit_names ps.
Proof.
  induction ps as [|p ps IH]; intros [|c cols] L; try discriminate; [reflexivity|]. cbn [combine map flat_map fst snd].
  rewrite body_names, IH by (cbn in L; lia). reflexivity.
Qed.
Lemma flat_concat : forall (l : list (list (string * list cell))), map fst (List.concat l) = flat_map (map fst) l.
Proof. induction l as [|a l IH]; cbn [List.concat flat_map]; [reflexivity|]. now rewrite map_app, IH. Qed.
Lemma full_names : forall n p ps cols sv c0, List.length ps = List.length cols ->
  names (full n p ps cols sv c0) = (fit_names p ++ "shear_bands" :: flat_map fit_names ps)%list.
Proof.
  intros n p ps cols sv c0 L. unfold names, full. cbn [t_cols]. rewrite map_app, body_names. cbn [map fst].
  rewrite flat_concat, bodies_names by exact L. reflexivity.
Qed.
Lemma full_clear : forall n p ps cols sv c0 s, List.length ps = List.length cols -> Forall proper (p :: ps) -> In s (map fst common_columns) ->
  existsb (String.eqb s) (names (full n p ps cols sv c0)) = false.
Proof.
  intros n p ps cols sv c0 s L H Hs. rewrite full_names by exact L.
  destruct (existsb (String.eqb s) _) eqn:E; [|reflexivity]. exfalso. apply existsb_exists in E. destruct E as (y & Hy & E).
  apply String.eqb_eq in E. subst y. apply in_app_or in Hy. destruct Hy as [Hy|[Hy|Hy]].
  - apply (flat_other (p :: ps) s H); [apply in_or_app; left; exact Hy|right; exact Hs].
  - subst s. exact (proj1 (proj1 (NoDup_cons_iff _ _) common_nodup) Hs).
  - apply (flat_other (p :: ps) s H); [apply in_or_app; right; exact Hy|right; exact Hs].
Qed.

Lemma add_fields_ok : forall t new, (forall s, In s (map fst common_columns) -> existsb (String.eqb s) (names t) = false) ->
  map fst new = map fst common_columns -> add_fields t new = Ok (mkTable (t_n t) (t_cols t ++ new)%list).
Proof.
  intros t new H E. unfold add_fields.
  assert (F : existsb (fun cv => existsb (String.eqb (fst cv)) (names t)) new = false).
  { destruct (existsb _ new) eqn:X; [|reflexivity]. apply existsb_exists in X. destruct X as (cv & Hc & X).
    rewrite H in X; [discriminate|]. rewrite <- E. now apply in_map. }
  rewrite F. reflexivity.
Qed.
Lemma new_names : forall xs, map fst (new_columns xs ++ psfrec_columns xs)%list = map fst common_columns.
Proof. reflexivity. Qed.

Section Measure.
Variables (x : third) (c : settings) (e : env obs (img Z) (list (list fobs)) (list Wavg_model.num) row).
Hypothesis Efit : e_fit e = fit x c.
Hypothesis Ecol : e_colname e = colname.
Hypothesis Epro : Forall (fun f => proper (colname f)) (e_fitters e).

Lemma omap_tables : forall sb n stamps fs, Forall (fun f => proper (colname f)) fs -> (forall st, In st stamps -> List.length st = n) ->
  omap (fun f => fit_list_table x c f sb stamps) fs =
  (do all <- omap (fun f => fit_list e f sb stamps) fs;
   Ok (map (fun fo => option_map (table_of (single (colname (fst fo)) ++ [sbf])) (snd fo)) (combine fs all))).
Proof.
  intros sb n stamps fs Hf Hn. induction Hf as [|f fs Hp Hf IH]; [reflexivity|]. cbn [omap].
  rewrite (fit_list_table_of x c f sb n stamps Hp Hn). unfold fit_list at 1. rewrite Efit.
  destruct (omap (fit x c f sb) stamps) as [rows|]; [|reflexivity]. cbn [obind]. rewrite IH.
  destruct (omap (fun f => fit_list e f sb stamps) fs) as [all|]; [|reflexivity]. cbn [obind combine map fst snd].
  destruct rows; reflexivity.
Qed.

Lemma add_positions_of : forall cat mat n p ps cols sv c0 t su db, List.length ps = List.length cols -> Forall proper (p :: ps) ->
  List.length cat = List.length mat -> List.length mat = n ->
  (forall k col, nth_error (c0 :: cols) k = Some col -> map (fun r => nth_error r k) mat = map Some col) ->
  sv = map (fun r => CText (o_shear_bands r)) c0 ->
  add_positions_table e cat (full n p ps cols sv c0) t su db =
  (do rows <- add_positions sob e cat mat t su db; Ok (shown (p :: ps) rows)).
Proof.
  intros cat mat n p ps cols sv c0 t su db L Hp Lc Ln Hcol Hsv. unfold add_positions_table, add_positions. cbv zeta.
  rewrite (full_clear n p ps cols sv c0 "psfrec_flags" L Hp) by (cbn; tauto).
  rewrite add_fields_ok; [|intros; now apply full_clear|reflexivity]. cbn [obind]. destruct (6 <? zlen db); [reflexivity|].
  rewrite (omap_pairs _ _ _ _ (extra_of sob e t su db) (fun r y => mkDrow r y) cat mat Lc).
  destruct (omap (extra_of sob e t su db) cat) as [xs|] eqn:Ex; [|reflexivity]. cbn [obind].
  assert (Lx : List.length mat = List.length xs) by (rewrite (omap_len _ _ _ _ _ Ex); congruence).
  rewrite add_fields_ok; [|intros; now apply full_clear|reflexivity]. cbn [obind]. f_equal.
  set (rows := map (fun p0 => mkDrow (fst p0) (snd p0)) (combine mat xs)).
  assert (R1 : map r_fits rows = mat) by (apply pairs_fst; exact Lx).
  assert (R2 : map r_extra rows = xs) by (apply pairs_snd; exact Lx).
  assert (CI : forall k col, nth_error (c0 :: cols) k = Some col -> column_is rows k col)
    by (intros k col Hk; unfold column_is; rewrite R1; auto).
  unfold shown. change (map (fun ng => (fst ng, map (snd ng) rows)) (all_columns (p :: ps))) with (values rows (all_columns (p :: ps))).
  cbn [full t_n t_cols]. replace (List.length rows) with n by (unfold rows; rewrite map_length, combine_length; lia). f_equal.
  assert (VA : forall a b, values rows (a ++ b)%list = (values rows a ++ values rows b)%list) by (intros; unfold values; apply map_app).
  unfold all_columns. rewrite !VA, values_common, R2.
  rewrite (values_fit rows 0 p c0) by (apply CI; reflexivity).
  rewrite (values_more rows ps cols 1 L) by (intros j col Hj; apply (CI (S j) col Hj)). unfold values.
  cbn [map fst snd]. rewrite (of_fit_col rows 0 c0) by (apply CI; reflexivity). rewrite <- Hsv.
  rewrite <- !app_assoc. reflexivity.
Qed.

Lemma table_of_made : forall p col n sv, List.length col = n -> map (fun r => CText (o_shear_bands r)) col = sv ->
  table_of (single p ++ [sbf]) col = made n sv (body p col).
Proof.
  intros p col n sv L S. unfold table_of, made, body, sbcol. rewrite L, map_app. cbn [map sbf fst snd]. rewrite S. reflexivity.
Qed.
Lemma cells_eqb_refl : forall A (f : A -> string) l, list_eqb cell_eqb (map (fun a => CText (f a)) l) (map (fun a => CText (f a)) l) = true.
Proof. intros A f l. induction l as [|a l IH]; cbn; [reflexivity|]. now rewrite String.eqb_refl, IH. Qed.

Lemma measure_tables : forall cat stamps sb db t su n, List.length cat = List.length stamps ->
  (forall st, In st stamps -> List.length st = n) ->
  measure_table x c e cat stamps sb db t su =
  (do r <- measure sob e cat stamps sb db t su; Ok (option_map (shown (map colname (e_fitters e))) r)).
Proof.
  intros cat stamps sb db t su n L Hn. unfold measure_table, measure.
  rewrite (omap_tables sb n stamps (e_fitters e) Epro Hn).
  destruct (omap (fun f => fit_list e f sb stamps) (e_fitters e)) as [all|] eqn:E; [|reflexivity]. cbn [obind].
  destruct stamps as [|st0 stamps'].
  - (* no objects *)
    assert (A : all = map (fun _ => None) (e_fitters e)).
    { clear -E. revert all E. induction (e_fitters e) as [|f fs IH]; intros all E; cbn [omap] in E; [apply Ok_inj in E; symmetry; exact E|].
      unfold fit_list at 1 in E. cbn [omap obind] in E.
      destruct (omap (fun f => fit_list e f sb []) fs) as [r|]; [|discriminate]. cbn [obind] in E. apply Ok_inj in E. subst all.
      cbn [map]. f_equal. apply IH. reflexivity. }
    subst all. assert (Z : forall fs : list Conf_model.fitter,
      map (fun fo => option_map (table_of (single (colname (fst fo)) ++ [sbf])) (snd fo)) (combine fs (map (fun _ => @None (list row)) fs)) =
      map (fun _ => None) fs) by (induction fs as [|f fs IH]; cbn [map combine fst snd option_map]; [reflexivity|rewrite IH; reflexivity]).
    rewrite Z. clear. generalize (map (e_colname e) (e_fitters e)). intros cn.
    destruct (e_fitters e) as [|f [|f2 fs]]; [reflexivity|reflexivity|].
    assert (C : combine_fit_res cell_eqb (CInt 0) (map (fun _ : Conf_model.fitter => @None tab) (f :: f2 :: fs)) = Ok None).
    { cbn [map]. unfold combine_fit_res.
      assert (O : forall gs : list Conf_model.fitter, ofold header_step (map (fun _ => @None tab) gs) (Some O, []) = Ok (Some O, []))
        by (induction gs; cbn; auto).
      cbn [ofold header_step obind Nat.eqb]. rewrite O. cbn [obind].
      assert (B : forall gs : list Conf_model.fitter, existsb has (map (fun _ => @None tab) gs) = false) by (induction gs; cbn; auto).
      cbn [existsb has orb]. rewrite B. reflexivity. }
    rewrite C. cbn [obind map combine_rows oall existsb has orb].
    assert (B : forall gs : list Conf_model.fitter, existsb has (map (fun _ => @None (list row)) gs) = false) by (induction gs; cbn; auto).
    rewrite B. reflexivity.
  - set (stamps := st0 :: stamps') in *.
    assert (N : stamps <> []) by discriminate.
    destruct (fit_list_ok _ _ _ _ _ e _ _ _ _ E N) as (cols & -> & Hc). rewrite Efit in Hc.
    assert (W : forall f col, In (f, col) (combine (e_fitters e) cols) -> List.length col = List.length stamps /\ Forall (fun r => o_shear_bands r = band_label sb) col).
    { clear -Hc. induction Hc as [|f col fs cols Hf Hr IH]; intros g d Hin; [destruct Hin|]. destruct Hin as [Hin|Hin]; [|exact (IH _ _ Hin)].
      apply pair_equal_spec in Hin. destruct Hin as [-> ->]. split; [symmetry; eapply Forall2_len; exact Hf|].
      clear -Hf. induction Hf as [|st r l l' H Hr IH]; constructor; auto. exact (proj2 (proj2 (proj2 (fit_width _ _ _ _ _ _ H)))). }
    assert (Lc := Forall2_len _ _ _ _ _ Hc).
    assert (S : forall col, List.length col = List.length stamps -> Forall (fun r => o_shear_bands r = band_label sb) col ->
      map (fun r => CText (o_shear_bands r)) col = map (fun _ => CText (band_label sb)) stamps).
    { generalize stamps. clear. intros l col. revert l. induction col as [|r col IH]; intros [|s l] L F; cbn in *; try discriminate; [reflexivity|].
      inversion F; subst. f_equal; [congruence|apply IH; [lia|assumption]]. }
    assert (T : map (fun fo => option_map (table_of (single (colname (fst fo)) ++ [sbf])) (snd fo)) (combine (e_fitters e) (map Some cols)) =
      map (fun b => Some (made (List.length stamps) (map (fun _ => CText (band_label sb)) stamps) b))
        (map (fun pc => body (fst pc) (snd pc)) (combine (map colname (e_fitters e)) cols))).
    { revert W Lc. clear -S. revert cols. induction (e_fitters e) as [|f fs IH]; intros [|col cols] W Lc; try discriminate; [reflexivity|].
      cbn [map combine fst snd option_map]. destruct (W f col (or_introl eq_refl)) as [W1 W2]. f_equal.
      - f_equal. apply table_of_made; auto.
      - apply IH; [|cbn in Lc; lia]. intros g d Hin. exact (W g d (or_intror Hin)). }
    rewrite T. clear T.
    assert (Wl : forall col, In col cols -> List.length col = List.length stamps).
    { intros col Hin. clear -W Lc Hin. revert cols W Lc Hin. induction (e_fitters e) as [|f fs IH]; intros [|d cols] W Lc Hin; try discriminate; [destruct Hin|].
      destruct Hin as [->|Hin]; [exact (proj1 (W f col (or_introl eq_refl)))|]. apply (IH cols); auto. intros g q X. exact (W g q (or_intror X)). }
    assert (Hcn := combine_rows_ok _ _ _ _ _ e _ cols sb stamps eq_refl N).
    rewrite Ecol in *.
    assert (TL : List.length (transpose (List.length stamps) cols) = List.length stamps).
    { clear -Wl. induction cols as [|a l IHl]; cbn [transpose]; [apply repeat_length|].
      rewrite map_length, combine_length, IHl, (Wl a (or_introl eq_refl)); [lia|]. intros; apply Wl; now right. }
    remember (e_fitters e) as fs eqn:Efs. destruct fs as [|f fs]; destruct cols as [|c0 cols]; try discriminate Lc; [reflexivity|].
    assert (AP := fun k col Hk => transpose_nth row (List.length stamps) (c0 :: cols) k col Wl Hk).
    assert (Hps : Forall proper (colname f :: map colname fs)).
    { inversion Epro as [|? ? P1 P2]; subst. constructor; auto. apply Forall_map. exact P2. }
    assert (S0 : map (fun r => CText (o_shear_bands r)) c0 = map (fun _ => CText (band_label sb)) stamps)
      by (destruct (W f c0 (or_introl eq_refl)); apply S; assumption).
    assert (Lps : List.length (map colname fs) = List.length cols) by (rewrite map_length; cbn in Lc; lia).
    assert (AT := add_positions_of cat (transpose (List.length stamps) (c0 :: cols)) (List.length stamps) (colname f) (map colname fs) cols
       _ c0 t su db Lps Hps (eq_trans L (eq_sym TL)) TL AP (eq_sym S0)).
    destruct fs as [|f1 fs]; destruct cols as [|c1 cols]; try discriminate Lc.
    + (* one fitter *)
      cbn [map combine fst snd combine_fit_res combine_rows obind option_map].
      assert (M1 : made (List.length stamps) (map (fun _ => CText (band_label sb)) stamps) (body (colname f) c0) =
        full (List.length stamps) (colname f) (map colname []) [] (map (fun _ => CText (band_label sb)) stamps) c0) by reflexivity.
      rewrite M1, AT.
      assert (TR : transpose (List.length stamps) [c0] = map (fun y => [y]) c0).
      { assert (W0 := Wl c0 (or_introl eq_refl)). rewrite <- W0. clear. cbn [transpose]. induction c0 as [|a l IH]; cbn; [reflexivity|].
        f_equal. exact IH. }
      rewrite <- TR. destruct (add_positions sob e cat _ t su db); reflexivity.
    + (* several fitters *)
      set (sv := map (fun _ => CText (band_label sb)) stamps) in *.
      assert (CM := combine_made (List.length stamps) sv ltac:(cbn; lia) (cells_eqb_refl _ (fun _ => band_label sb) stamps)
        (body (colname f) c0) (body (colname f1) c1) (map (fun pc => body (fst pc) (snd pc)) (combine (map colname fs) cols))).
      cbn [map combine fst snd] in CM |- *. rewrite CM; clear CM.
      * rewrite body_names.
        change (body (colname f1) c1 :: map (fun pc => body (fst pc) (snd pc)) (combine (map colname fs) cols)) with
          (map (fun pc => body (fst pc) (snd pc)) (combine (map colname (f1 :: fs)) (c1 :: cols))).
        rewrite bodies_names by exact Lps.
        assert (ND : nodupb (fit_names (colname f) ++ flat_map fit_names (map colname (f1 :: fs))) = nodupb (colname f :: map colname (f1 :: fs))).
        { apply eq_true_iff_eq. rewrite !nodupb_iff. exact (flat_names_nodup _ Hps). }
        rewrite ND.
        cbn [combine_rows oall]. 
        assert (OA : oall (map Some cols) = Some cols) by apply oall_some. rewrite OA. cbv iota.
        assert (FL : forallb (fun d => Nat.eqb (List.length d) (List.length c0)) (c1 :: cols) = true).
        { apply forallb_forall. intros d Hd. apply Nat.eqb_eq. rewrite (Wl c0), (Wl d); auto; [right; exact Hd|left; reflexivity]. }
        rewrite FL. replace (List.length c0) with (List.length stamps) by (symmetry; apply Wl; left; reflexivity).
        change (colname f :: colname f1 :: map colname fs) with (colname f :: map colname (f1 :: fs)).
        destruct (nodupb (colname f :: map colname (f1 :: fs))); [|reflexivity]. cbn [obind].
        change (mkTable (List.length stamps) (body (colname f) c0 ++ sbcol sv :: List.concat
          (map (fun pc => body (fst pc) (snd pc)) (combine (map colname (f1 :: fs)) (c1 :: cols))))) with
          (full (List.length stamps) (colname f) (map colname (f1 :: fs)) (c1 :: cols) sv c0).
        rewrite AT. destruct (add_positions sob e cat _ t su db); reflexivity.
      * discriminate.
      * apply body_no_sb. inversion Hps; auto.
      * apply body_no_sb. inversion Hps as [|? ? _ H2]. inversion H2; auto.
      * apply Forall_forall. intros b Hb. apply in_map_iff in Hb. destruct Hb as ([p col] & <- & Hb). cbn [fst snd].
        apply body_no_sb. apply in_combine_l in Hb. rewrite Forall_forall in Hps. apply Hps. right. right. exact Hb.
Qed.
End Measure.

(** ** The driver *)
Section Sim.
Variables (x : third) (c : settings) (md : mdet) (main : mbo) (color : option (keyfun * colours)) (R0 C0 : Z).
Hypothesis Hmain : has_shape main R0 C0.
Hypothesis Hdep : forall keyf dep k m, color = Some (keyf, dep) -> dep k = Some (Other m) -> has_shape m R0 C0.
Hypothesis Hmc : metacal_ok x c.
Hypothesis Hbands : forall keyf dep k m, color = Some (keyf, dep) -> dep k = Some (Other m) -> List.length m = List.length main.
Hypothesis Hpro : Forall (fun f => proper (colname f)) (md_fitters md).
Let e := environment x c md main color.
Let ps := map colname (md_fitters md).
Let N := List.length main.
Let gd := good obs (img Z) (list (list fobs)) (list Wavg_model.num) row sob e.

Definition row_ok (r : drow row) : Prop :=
  List.length (r_fits r) = List.length (md_fitters md) /\ Forall (fun f => exists sb, width (Nat.max N 1) sb f) (r_fits r) /\
  ps <> [] /\ NoDup ps /\
  exists sb st, Forall2 (fun f v => fit x c f sb st = Ok v) (md_fitters md) (r_fits r).

Lemma row_alike : forall a b, row_ok a -> row_ok b -> alike (all_columns ps) a b.
Proof.
  intros a b (La & Wa & _) (Lb & Wb & _).
  assert (F : forall k g, (forall r r' sb sb', width (Nat.max N 1) sb r -> width (Nat.max N 1) sb' r' -> cell_type (g r) = cell_type (g r')) ->
    cell_type (of_fit k g a) = cell_type (of_fit k g b)).
  { intros k g H. unfold of_fit. destruct (nth_error (r_fits a) k) as [f|] eqn:Ea, (nth_error (r_fits b) k) as [f'|] eqn:Eb.
    - apply nth_error_In in Ea, Eb. rewrite Forall_forall in Wa, Wb. destruct (Wa _ Ea) as [sb X], (Wb _ Eb) as [sb' Y]. exact (H _ _ _ _ X Y).
    - apply nth_error_None in Eb. assert (nth_error (r_fits a) k <> None) by congruence. apply nth_error_Some in H0. lia.
    - apply nth_error_None in Ea. assert (nth_error (r_fits b) k <> None) by congruence. apply nth_error_Some in H0. lia.
    - reflexivity. }
  assert (FC : forall k p ng, In ng (fit_columns k p) -> cell_type (snd ng a) = cell_type (snd ng b)).
  { intros k p ng H. unfold fit_columns in H.
    repeat (destruct H as [<-|H]; [cbn [snd]; apply F; intros r r' sb sb' (W1 & W2 & W3 & _) (V1 & V2 & V3 & _); cbn [cell_type]; congruence|]).
    destruct H. }
  assert (MC : forall l k ng, In ng (more_columns k l) -> cell_type (snd ng a) = cell_type (snd ng b)).
  { induction l as [|p l IH]; intros k ng H; cbn [more_columns] in H; [destruct H|]. apply in_app_or in H. destruct H as [H|H]; eauto. }
  assert (CC : forall ng, In ng common_columns -> cell_type (snd ng a) = cell_type (snd ng b)).
  { intros ng H. unfold common_columns in H. repeat (destruct H as [<-|H]; [reflexivity|]). destruct H. }
  intros ng H. unfold all_columns in H. destruct ps as [|p l]; [now apply CC|].
  apply in_app_or in H. destruct H as [H|H]; [eauto|]. apply in_app_or in H. destruct H as [[<-|[]]|H].
  - cbn [snd]. apply F. intros; reflexivity.
  - apply in_app_or in H. destruct H as [H|H]; eauto.
Qed.
Lemma stack_shown : forall bs, bs <> [] -> Forall (fun b => b <> []) bs -> Forall row_ok (List.concat bs) ->
  hstack (map (shown ps) bs) = Ok (shown ps (List.concat bs)).
Proof.
  intros bs H1 H2 H3. change (shown ps) with (table_of (all_columns ps)). apply hstack_of; auto.
  intros a b Ha Hb. rewrite Forall_forall in H3. apply row_alike; auto.
Qed.

Definition sim {A B} (R : A -> B -> Prop) (p : M obs row A) (q : M obs row B) : Prop :=
  forall s, gd s -> snd (p s) = snd (q s) /\
    match fst (p s), fst (q s) with
    | Ok a, Ok b => R a b /\ gd (snd (p s))
    | Raise y, Raise z => y = z
    | _, _ => False
    end.
Lemma sim_bind : forall A B C D (R : A -> B -> Prop) (R' : C -> D -> Prop) p q f g,
  sim R p q -> (forall a b, R a b -> sim R' (f a) (g b)) -> sim R' (mbind p f) (mbind q g).
Proof.
  intros A B C D R R' p q f g H1 H2 s G. destruct (H1 s G) as [S H]. unfold mbind.
  destruct (p s) as [[a|y] s1], (q s) as [[b|z] s2]; cbn [fst snd] in *; try contradiction; subst s2.
  - destruct H as [HR HG]. exact (H2 a b HR s1 HG).
  - split; auto.
Qed.
Lemma sim_ret : forall A B (R : A -> B -> Prop) a b, R a b -> sim R (ret a) (ret b).
Proof. intros A B R a b H s G. cbn. auto. Qed.
Lemma sim_lift : forall A B (R : A -> B -> Prop) y z,
  match y, z with Ok a, Ok b => R a b | Raise a, Raise b => a = b | _, _ => False end -> sim R (lift y) (lift z).
Proof. intros A B R y z H s G. cbn. split; [reflexivity|]. destruct y, z; auto. Qed.
Lemma sim_lift_eq : forall A (y : outcome A), sim (fun a b => a = b /\ y = Ok a) (lift y) (lift y).
Proof. intros A y. apply sim_lift. destruct y; auto. Qed.
Lemma sim_mmap : forall A B C (R : B -> C -> Prop) (f : A -> M obs row B) g l,
  (forall a, In a l -> sim R (f a) (g a)) -> sim (Forall2 R) (mmap f l) (mmap g l).
Proof.
  intros A B C R f g l H. induction l as [|a l IH]; cbn [mmap]; [apply sim_ret; constructor|].
  eapply sim_bind; [apply H; now left|]. intros b d Hb. eapply sim_bind; [apply IH; intros; apply H; now right|].
  intros bs ds Hbs. apply sim_ret. now constructor.
Qed.
Definition banded (dict : list (string * mbo)) : Prop := forall t m, In (t, m) dict -> List.length m = N.
Lemma sim_get : forall key sb, sim (fun kd kd' => kd = kd' /\ forall dict, kd_mcal kd = Ok (Some dict) -> banded dict)
  (get_data sob e key sb) (get_data sob e key sb).
Proof.
  intros key sb s G. split; [reflexivity|].
  assert (U : env_uniform sob e) by exact (run_uniform x c R0 C0 md main color Hmain Hdep).
  assert (H := sem_get_data _ _ _ _ _ sob e U key sb s G). destruct (fst (get_data sob e key sb s)) as [kd|y]; [|reflexivity].
  destruct (uncached sob e key sb) as [kd'|] eqn:E; [|contradiction]. destruct H as [[H1 _] H2]. split; [|exact H2]. split; [reflexivity|].
  intros dict Hd t m Hin. unfold kd_mcal in Hd. rewrite H1 in Hd. unfold uncached in E.
  destruct (obs_of e key) as [[k m0]|] eqn:Eo; [|discriminate]. cbn [obind snd] in E.
  destruct (psf_flags e m0) as [fl|]; [|discriminate]. cbn [obind] in E.
  destruct (all_metacal e m0) as [r|] eqn:Em; [|discriminate]. cbn [obind] in E.
  destruct (summarise sob e (mkMP (Some fl) (Some r)) m0 sb) as [su|]; [|discriminate]. cbn [obind] in E. apply Ok_inj in E. subst kd'.
  cbn [kd_mp mp_mcal] in Hd. apply Ok_inj in Hd. subst r. unfold all_metacal in Em.
  destruct (e_metacal e m0) as [d|ex] eqn:Ed; [|destruct ex; discriminate]. apply Ok_inj, Some_inj in Em. subst d.
  destruct (Hmc m0 dict Ed) as (_ & _ & Hz). destruct (Hz t m Hin) as [Hz1 _].
  assert (L0 : List.length m0 = N).
  { unfold obs_of in Eo. destruct key as [k0|]; [|apply Ok_inj, pair_equal_spec in Eo; destruct Eo as [_ <-]; reflexivity].
    change (e_color e) with color in Eo. destruct color as [[keyf dep]|] eqn:Ecol; [|discriminate].
    destruct (dep k0) as [[|m1]|] eqn:Edep; [| |discriminate]; apply Ok_inj, pair_equal_spec in Eo; destruct Eo as [_ <-]; [reflexivity|].
    exact (Hbands keyf dep k0 m1 eq_refl Edep). }
  unfold zlen in Hz1. lia.
Qed.

Lemma stamp_len : forall m seg d st, stamp x c m seg d = Ok st -> List.length st = List.length m.
Proof.
  intros [|ol m] seg d st H; [discriminate|]. unfold stamp in H. destruct (negb _); [discriminate|].
  destruct (py_index ol 0) as [o0|]; [|discriminate]. cbn [obind] in H. cbv zeta in H. exact (omap_len _ _ _ _ _ H).
Qed.
Lemma measure_rows : forall cat stamps sb db t su r, List.length cat = List.length stamps -> (forall st, In st stamps -> List.length st = N) ->
  measure sob e cat stamps sb db t su = Ok (Some r) -> r <> [] /\ Forall row_ok r.
Proof.
  intros cat stamps sb db t su r L Hn H. destruct stamps as [|st0 stamps].
  - apply measure_nil_inv in H. destruct H as [_ H]. discriminate.
  - apply measure_iff in H; [|exact L|discriminate]. destruct H as (Hf & _ & rows & H & E). apply Some_inj in E. subst rows.
    assert (Hf1 : e_fitters e <> []) by (unfold fitters_ok in Hf; destruct (e_fitters e); [destruct Hf|discriminate]).
    assert (Hf2 : NoDup ps).
    { change ps with (map (e_colname e) (e_fitters e)). unfold fitters_ok in Hf. destruct (e_fitters e) as [|f0 [|f1 fs]]; [destruct Hf| |now apply Joint_proofs.nodupb_ok].
      constructor; [intros []|constructor]. }
    split.
    + intros ->. apply omap_len in H. rewrite combine_length, L in H. cbn in H. lia.
    + apply omap_Forall2 in H. apply Forall_forall. intros dr Hdr.
      assert (X : exists ds, In ds (combine cat (st0 :: stamps)) /\ rowfun _ _ _ _ _ sob e sb db t su ds = Ok dr).
      { clear -H Hdr. induction H as [|a b l l' Hab Hr IH]; [destruct Hdr|]. destruct Hdr as [<-|Hdr]; [exists a; split; [now left|exact Hab]|].
        destruct (IH Hdr) as (ds & H1 & H2). exists ds. split; [now right|exact H2]. }
      destruct X as ([d st] & Hin & X). apply in_combine_r in Hin. unfold rowfun in X. cbn [fst snd] in X.
      destruct (omap (fun f => e_fit e f sb st) (e_fitters e)) as [fits|] eqn:Ef; [|discriminate]. cbn [obind] in X.
      destruct (extra_of sob e t su db d); [|discriminate]. cbn [obind] in X. apply Ok_inj in X. subst dr. unfold row_ok. cbn [r_fits].
      split; [exact (omap_len _ _ _ _ _ Ef)|]. split; [|split; [unfold ps; intros X; apply map_eq_nil in X; exact (Hf1 X)|split; [exact Hf2|exists sb, st; apply omap_Forall2 in Ef; exact Ef]]]. apply omap_Forall2 in Ef. specialize (Hn st Hin). clear -Ef Hn.
      induction Ef as [|f r fs rs Hf Hr IH]; constructor; auto. exists sb. rewrite <- Hn. exact (fit_width x c f sb st r Hf).
Qed.
Definition shows (o : option tab) (v : option (list (drow row))) : Prop :=
  o = option_map (shown ps) v /\ forall r, v = Some r -> r <> [] /\ Forall row_ok r.
Lemma sim_measure : forall cat stamps sb db t su, List.length cat = List.length stamps -> (forall st, In st stamps -> List.length st = N) ->
  sim shows (lift (measure_table x c e cat stamps sb db t su)) (lift (measure sob e cat stamps sb db t su)).
Proof.
  intros cat stamps sb db t su L Hn. apply sim_lift.
  rewrite (measure_tables x c e eq_refl eq_refl Hpro cat stamps sb db t su N L Hn).
  destruct (measure sob e cat stamps sb db t su) as [v|] eqn:E; [|reflexivity]. cbn [obind]. split; [reflexivity|].
  intros r ->. exact (measure_rows _ _ _ _ _ _ _ L Hn E).
Qed.
Lemma detect_lens : forall m db cs, List.length m = N -> do_detect e m db = Ok cs ->
  List.length (fst cs) = List.length (snd cs) /\ forall st, In st (snd cs) -> List.length st = N.
Proof.
  intros m db cs Hm H. unfold do_detect in H. destruct (omap (py_index m) db) as [dm|]; [|discriminate]. cbn [obind] in H.
  destruct (e_detect e dm) as [cc|]; [|discriminate]. cbn [obind] in H.
  destruct (omap (e_stamp e m (Some (snd cc))) (fst cc)) as [sts|] eqn:Es; [|discriminate]. cbn [obind] in H. apply Ok_inj in H. subst cs. cbn [fst snd].
  split; [symmetry; exact (omap_len _ _ _ _ _ Es)|]. intros st Hst. apply omap_Forall2 in Es.
  clear -Es Hst Hm. induction Es as [|d s l l' Hs Hr IH]; [destruct Hst|]. destruct Hst as [<-|Hst]; [|now apply IH].
  rewrite <- Hm. exact (stamp_len _ _ _ _ Hs).
Qed.
Definition entry (a : string * option tab) (b : string * option (list (drow row))) : Prop := fst a = fst b /\ shows (snd a) (snd b).
Lemma sim_bands : forall sb db mcal, banded mcal -> sim (Forall2 entry) (go_bands_tables x c e sb db mcal) (go_bands sob e sb db mcal).
Proof.
  intros sb db mcal HB. unfold go_bands_tables, go_bands. eapply sim_bind; [apply sim_get|]. intros kd kd' [<- _].
  apply sim_mmap. intros [t m] Hin. cbn [fst snd]. eapply sim_bind; [apply sim_lift_eq|]. intros cs cs' [<- Hcs].
  destruct (detect_lens m db cs (HB t m Hin) Hcs) as [L1 L2].
  eapply sim_bind; [apply sim_lift_eq|]. intros su su' [<- _]. eapply sim_bind; [apply sim_measure; assumption|].
  intros o v Ho. apply sim_ret. split; auto.
Qed.
Definition part (o : option tab) (l : list (drow row)) : Prop :=
  o = match l with [] => None | _ => Some (shown ps l) end /\ Forall row_ok l.
Lemma sim_color_one : forall sb db t dk, sim part (color_one_table x c e sb db t dk) (color_one sob e sb db t dk).
Proof.
  intros sb db t dk. unfold color_one_table, color_one. eapply sim_bind; [apply sim_get|]. intros kd kd' [<- HB].
  eapply sim_bind; [apply sim_lift_eq|]. intros mc mc' [<- Hmcal]. destruct mc as [dict|]; [|apply sim_ret; split; constructor].
  specialize (HB dict Hmcal). eapply sim_bind; [apply sim_lift_eq|]. intros m m' [<- Hm].
  destruct (assoc String.eqb t dict) as [m'|] eqn:Ea; [|discriminate]. apply Ok_inj in Hm. subst m'.
  assert (Lm : List.length m = N).
  { clear -Ea HB. induction dict as [|[k v] dict IH]; [discriminate|]. cbn [assoc] in Ea. destruct (String.eqb t k) eqn:Ek.
    - apply Some_inj in Ea. subst v. exact (HB k m (or_introl eq_refl)).
    - apply IH; auto. intros t' m' Hin. exact (HB t' m' (or_intror Hin)). }
  eapply sim_bind; [apply sim_lift_eq|]. intros st st' [<- Hst]. eapply sim_bind; [apply sim_lift_eq|]. intros su su' [<- _].
  assert (SM := sim_measure [fst dk] [st] sb db t su eq_refl (fun s (X : In s [st]) => match X with
    | or_introl E => eq_ind st (fun z => List.length z = N) (eq_trans (stamp_len _ _ _ _ Hst) Lm) s E | or_intror Fz => match Fz with end end)).
  intros s G. destruct (SM s G) as [S1 S2]. unfold mbind, lift, ret in *. cbn [fst snd] in *. split; [destruct (measure sob e _ _ _ _ _ _); reflexivity|].
  destruct (measure_table x c e _ _ _ _ _ _) as [o|]; destruct (measure sob e _ _ _ _ _ _) as [v|]; cbn [fst snd] in *; try contradiction; auto.
  destruct S2 as [[S3 S4] S5]. split; [|exact S5]. subst o. destruct v as [l|]; cbn [option_map]; [|split; constructor].
  destruct (S4 l eq_refl) as [N1 N2]. split; [|exact N2]. destruct l; [congruence|reflexivity].
Qed.
Lemma parts_some : forall data data', Forall2 part data data' -> exists bs, somes data = map (shown ps) bs /\
  Forall (fun b => b <> []) bs /\ List.concat bs = List.concat data' /\ Forall row_ok (List.concat bs).
Proof.
  intros data data' H. induction H as [|o l data data' [-> HF] Hr (bs & B1 & B2 & B3 & B4)].
  - exists []. repeat split; constructor.
  - destruct l as [|r l]; [exists bs; repeat split; auto|]. exists ((r :: l) :: bs). cbn [somes map List.concat]. rewrite B1, B3. repeat split.
    + constructor; auto. discriminate.
    + rewrite <- B3. apply Forall_app. auto.
Qed.
Lemma sim_bands_color : forall keyf sb db mcal, banded mcal ->
  sim (Forall2 entry) (go_bands_color_tables x c e keyf sb db mcal) (go_bands_color sob e keyf sb db mcal).
Proof.
  intros keyf sb db mcal HB. unfold go_bands_color_tables, go_bands_color. apply sim_mmap. intros [t m] Hin. cbn [fst snd].
  eapply sim_bind; [apply sim_lift_eq|]. intros f0 f0' [<- _]. eapply sim_bind; [apply sim_lift_eq|]. intros cs cs' [<- Hcs].
  eapply sim_bind; [apply sim_lift_eq|]. intros fl fl' [<- _].
  assert (NN : entry (t, None) (t, None)) by (split; [reflexivity|]; split; [reflexivity|intros r X; discriminate]).
  destruct fl as [|fl0 fl]; [apply sim_ret; exact NN|].
  eapply sim_bind; [apply sim_lift_eq|]. intros ks ks' [<- _].
  eapply sim_bind; [apply sim_mmap; intros dk _; apply sim_color_one|]. intros data data' HD.
  destruct (parts_some data data' HD) as (bs & B1 & B2 & B3 & B4). rewrite B1, <- B3.
  destruct bs as [|b bs]; [apply sim_ret; exact NN|].
  assert (ST := stack_shown (b :: bs) ltac:(discriminate) B2 B4). cbn [map] in ST |- *. rewrite ST.
  intros s G. cbn [mbind lift fst snd ret]. split; [reflexivity|]. split; [|exact G].
  assert (NE : List.concat (b :: bs) <> []) by (inversion B2 as [|? ? Hb _]; subst; destruct b; [congruence|discriminate]).
  destruct (List.concat (b :: bs)) as [|r l] eqn:Ec; [congruence|]. split; [reflexivity|]. split; [reflexivity|].
  intros r' X. apply Some_inj in X. subst r'. split; auto.
Qed.

(** The dictionaries of lists of tables. *)
Definition piles (a : string * list tab) (b : string * list (list (drow row))) : Prop :=
  fst a = fst b /\ snd a = map (shown ps) (snd b) /\ snd b <> [] /\ Forall (fun l => l <> []) (snd b) /\ Forall row_ok (List.concat (snd b)).
Lemma assoc_piles : forall t A B, Forall2 piles A B ->
  match assoc String.eqb t A, assoc String.eqb t B with
  | Some l, Some m => piles (t, l) (t, m)
  | None, None => True
  | _, _ => False
  end.
Proof.
  intros t A B H. induction H as [|[k l] [k' m] A B [Hk Hp] Hr IH]; cbn [assoc]; [exact Logic.I|]. cbn [fst snd] in *. subst k'.
  destruct (String.eqb t k) eqn:E; [|exact IH]. split; [reflexivity|exact Hp].
Qed.
Lemma dput_piles : forall t l m A B, piles (t, l) (t, m) -> Forall2 piles A B -> Forall2 piles (dput String.eqb t l A) (dput String.eqb t m B).
Proof.
  intros t l m A B Hp H. induction H as [|[k v] [k' w] A B [Hk Hq] Hr IH]; cbn [dput]; [constructor; [exact Hp|constructor]|].
  cbn [fst snd] in *. subst k'. destruct (String.eqb t k) eqn:E.
  - constructor; [|exact Hr]. split; [reflexivity|exact (proj2 Hp)].
  - constructor; [split; auto|exact IH].
Qed.
Lemma add_piles : forall res res' A B, Forall2 entry res res' -> Forall2 piles A B -> Forall2 piles (add_all A res) (add_tables B res').
Proof.
  intros res res' A B H. revert A B. unfold add_all, add_tables.
  induction H as [|[t o] [t' v] res res' [Ht [Ho Hv]] Hr IH]; intros A B HA; cbn [fold_left]; [exact HA|]. cbn [fst snd] in *. subst t' o.
  apply IH. destruct v as [l|]; cbn [option_map]; [|exact HA]. destruct (Hv l eq_refl) as [N1 N2]. apply dput_piles; [|exact HA].
  assert (AP := assoc_piles t A B HA). destruct (assoc String.eqb t A) as [la|], (assoc String.eqb t B) as [lb|]; try contradiction.
  - destruct AP as (_ & P2 & P3 & P4 & P5). cbn [fst snd] in *. subst la. split; [reflexivity|]. cbn [snd]. split; [now rewrite map_app|].
    split; [destruct lb; discriminate|]. split; [apply Forall_app; split; auto|]. rewrite concat_app. apply Forall_app. split; auto.
    cbn [List.concat]. rewrite app_nil_r. exact N2.
  - split; [reflexivity|]. cbn [snd app map List.concat]. split; [reflexivity|]. split; [discriminate|]. split; [auto|]. rewrite app_nil_r. exact N2.
Qed.
Lemma finish_rows : forall A B, Forall2 piles A B -> forall t rows, In (t, Some rows) (finish e B) -> rows <> [] /\ Forall row_ok rows.
Proof.
  intros A B H. unfold finish.
  assert (P : forall t rows, In (t, Some rows) (map (fun kv : string * list (list (drow row)) => (fst kv, Some (List.concat (snd kv)))) B) -> rows <> [] /\ Forall row_ok rows).
  { induction H as [|[k l] [k' m] A B (Hk & P2 & P3 & P4 & P5) Hr IH]; intros t rows Hin; [destruct Hin|]. cbn [map fst snd] in *.
    destruct Hin as [E|Hin]; [|exact (IH t rows Hin)]. injection E as <- <-. split; [|exact P5].
    destruct m as [|l0 m]; [congruence|]. inversion P4 as [|? ? Hl _]; subst. destruct l0; [congruence|discriminate]. }
  revert P. generalize (map (fun kv : string * list (list (drow row)) => (fst kv, Some (List.concat (snd kv)))) B). clear.
  induction (e_types e) as [|u us IH]; intros D P; cbn [fold_left]; [exact P|]. apply IH. intros t rows Hin.
  destruct (assoc String.eqb u D); [exact (P t rows Hin)|]. apply (P t). clear -Hin. induction D as [|[k v] D IHD]; cbn [dput] in Hin.
  - destruct Hin as [E|[]]. discriminate.
  - destruct (String.eqb u k); destruct Hin as [E|Hin]; try discriminate E; [right; exact Hin|left; exact E|right; exact (IHD Hin)].
Qed.
Lemma finish_shown : forall A B, Forall2 piles A B ->
  finish_tables e A = Ok (shown_result ps (finish e B)).
Proof.
  intros A B H. unfold finish_tables, finish.
  assert (O : omap (fun kv => do t <- hstack (snd kv); Ok (fst kv, Some t)) A =
    Ok (shown_result ps (map (fun kv => (fst kv, Some (List.concat (snd kv)))) B))).
  { induction H as [|[k l] [k' m] A B (Hk & P2 & P3 & P4 & P5) Hr IH]; [reflexivity|]. cbn [fst snd omap map shown_result] in *. subst k' l.
    rewrite (stack_shown m P3 P4 P5). cbn [obind]. rewrite IH. reflexivity. }
  rewrite O. cbn [obind]. f_equal. generalize (map (fun kv => (fst kv, Some (List.concat (snd kv)))) B). clear.
  induction (e_types e) as [|t ts IH]; intros D; cbn [fold_left]; [reflexivity|].
  assert (AS : forall D : results row, assoc String.eqb t (shown_result ps D) = option_map (option_map (shown ps)) (assoc String.eqb t D)).
  { clear D. intros D. induction D as [|[k v] D IHD]; cbn [shown_result map assoc fst snd]; [reflexivity|]. destruct (String.eqb t k); [reflexivity|exact IHD]. }
  assert (DS : forall D : results row, dput String.eqb t None (shown_result ps D) = shown_result ps (dput String.eqb t None D)).
  { clear D. intros D. induction D as [|[k v] D IHD]; cbn [shown_result map dput fst snd]; [reflexivity|]. destruct (String.eqb t k); [reflexivity|].
    cbn [map fst snd]. f_equal. exact IHD. }
  rewrite AS. destruct (assoc String.eqb t D) as [v|]; cbn [option_map]; [apply IH|]. rewrite DS. apply IH.
Qed.
Definition fine (b : option (results row)) : Prop :=
  forall r t rows, b = Some r -> In (t, Some rows) r -> rows <> [] /\ Forall row_ok rows.
Lemma sim_go : sim (fun a b => a = option_map (shown_result ps) b /\ fine b) (go_tables x c e)
  (gobody obs (img Z) (list (list fobs)) (list Wavg_model.num) row sob e).
Proof.
  unfold go_tables, gobody. eapply sim_bind; [apply sim_lift_eq|]. intros mf mf' [<- _]. destruct (give_up sob e mf); [apply sim_ret; split; [reflexivity|intros r t rows X; discriminate]|].
  eapply sim_bind; [apply sim_get|]. intros kd kd' [<- HB]. eapply sim_bind; [apply sim_lift_eq|]. intros mc mc' [<- Hm].
  destruct mc as [mcal|]; [|apply sim_ret; split; [reflexivity|intros r t rows X; discriminate]]. specialize (HB mcal Hm).
  eapply sim_bind with (R := Forall2 (Forall2 entry)).
  - apply sim_mmap. intros sd _. destruct (e_color e) as [[keyf dep]|]; [now apply sim_bands_color|now apply sim_bands].
  - intros all all' HA.
    assert (P : forall A B, Forall2 piles A B -> Forall2 piles (fold_left add_all all A) (fold_left add_tables all' B)).
    { induction HA as [|res res' all all' Hres Hr IH]; intros A B HP; cbn [fold_left]; [exact HP|]. apply IH. now apply add_piles. }
    specialize (P [] [] (Forall2_nil _)). rewrite (finish_shown _ _ P).
    intros s G. cbn [mbind lift ret fst snd]. split; [reflexivity|]. split; [|exact G]. split; [reflexivity|].
    intros r t rows X. apply Some_inj in X. subst r. exact (finish_rows _ _ P t rows).
Qed.
Lemma run_shown : match go sob e init_state with
  | (Ok _, s) => exists r, result_property s = Ok r /\ fst (go_tables x c e init_state) = Ok (option_map (shown_result ps) r) /\ fine r
  | (Raise y, _) => fst (go_tables x c e init_state) = Raise y
  end.
Proof.
  assert (G : gd init_state) by exact (good_after _ _ _ _ _ sob e [] (healthy_nil _ _ _ _ _ sob e)).
  destruct (sim_go init_state G) as [S1 S2]. rewrite go_body. unfold mbind.
  destruct (gobody obs (img Z) (list (list fobs)) (list Wavg_model.num) row sob e init_state) as [[r|y] s1]; cbn [fst snd] in *;
    destruct (fst (go_tables x c e init_state)) as [o|z]; try contradiction.
  - destruct S2 as [[-> Hf] _]. exists r. split; [reflexivity|]. split; [reflexivity|exact Hf].
  - congruence.
Qed.
End Sim.

Lemma get_proper : forall fc r, get_fitter fc = Ok r -> proper (colname (fst r)).
Proof.
  intros fc r H. unfold get_fitter in H. cbv zeta in H. set (model := default "wmom" (fc_model fc)) in H.
  assert (K : exists st, (model = "wmom" \/ model = "ksigma" \/ model = "pgauss" \/ ((model = "admom" \/ model = "am" \/ model = "gauss") /\ snd (fst (fst st)) = false)) /\
    (let '(aper, smooth, wavg, coadd, c) := st in
     do reg <- match weight_reg c with None => Ok (0%Q, None) | Some r => if wavg then Ok (r, Some r) else Raise AttributeError end;
     do f <- weight_fwhm c;
     Ok (mkFitter model (snd reg) aper smooth f (fst reg) wavg (default true (fc_symm fc)) coadd, c)) = Ok r).
  { destruct (String.eqb model "wmom") eqn:E1; [destruct (weight_fwhm fc) as [f|]; [|discriminate]; cbn [obind] in H; eexists (_, _, _, _, _); split; [left; now apply String.eqb_eq|exact H]|].
    destruct (String.eqb model "ksigma" || String.eqb model "pgauss") eqn:E2.
    { destruct (weight_fwhm fc) as [f|]; [|discriminate]; cbn [obind] in H. apply orb_true_iff in E2. rewrite !String.eqb_eq in E2.
      eexists (_, _, _, _, _); split; [tauto|exact H]. }
    destruct (String.eqb model "admom" || String.eqb model "am" || String.eqb model "gauss") eqn:E3; [|discriminate].
    apply orb_true_iff in E3. rewrite orb_true_iff, !String.eqb_eq in E3. cbn [obind] in H.
    eexists (_, _, _, _, _); split; [|exact H]. right. right. right. split; [tauto|reflexivity]. }
  clear H. destruct K as ([[[[aper smooth] wavg] coadd] c'] & Hm & H). cbn [fst snd] in Hm.
  destruct (weight_reg c') as [q|]; [destruct wavg|]; cbn [obind] in H; try discriminate;
    (destruct (weight_fwhm c') as [f|]; [|discriminate]); cbn [obind] in H; apply Ok_inj in H; subst r; unfold colname; cbn [fst snd fi_base fi_suffix].
  - assert (B : In model bases /\ String.eqb model "admom" = false).
    { destruct Hm as [ -> | [ -> | [ -> | [_ X]]]]; [..|discriminate]; (split; [cbn; tauto|reflexivity]). }
    destruct B as [B1 B2]. rewrite B2. exists model. split; [exact B1|]. right. exists (two_decimals q). split; [reflexivity|apply plain_decimals].
  - assert (B : model = "admom" \/ (In model bases /\ String.eqb model "admom" = false)).
    { destruct Hm as [ -> | [ -> | [ -> | [ [ -> | [ ->| ->]] _]]]]; try (now left); right; (split; [cbn; tauto|reflexivity]). }
    destruct B as [ -> | [B1 B2]]; [exists "am"; split; [cbn; tauto|now left]|]. rewrite B2. exists model. split; [exact B1|now left].
Qed.
Lemma construct_proper : forall cfg nb k d sh det md, construct cfg nb k d sh det = Ok md -> Forall (fun f => proper (colname f)) (md_fitters md).
Proof.
  intros cfg nb k d sh det md H. unfold construct in H. destruct (negb (cf_metacal cfg)); [discriminate|]. destruct (negb (cf_meds cfg)); [discriminate|].
  destruct ((d && negb k) || (negb d && k)); [discriminate|]. destruct (set_fitter cfg) as [r|] eqn:E; [|discriminate]. cbn [obind] in H. cbv zeta in H.
  apply Ok_inj in H. subst md. cbn [md_fitters]. unfold set_fitter in E. destruct (cf_fitters cfg) as [l|].
  - destruct (top_given (cf_top cfg)); [discriminate|]. destruct (omap get_fitter l) as [rs|] eqn:Eo; [|discriminate]. cbn [obind] in E. apply Ok_inj in E. subst r. cbn [fst].
    apply omap_Forall2 in Eo. induction Eo as [|a b l rs Ha Hr IH]; cbn [map]; constructor; [exact (get_proper _ _ Ha)|exact IH].
  - destruct (get_fitter (cf_top cfg)) as [b|] eqn:Eg; [|discriminate]. cbn [obind] in E. apply Ok_inj in E. subst r. cbn [fst]. constructor; [exact (get_proper _ _ Eg)|constructor].
Qed.

Lemma prefixes_of : forall fs ps, Forall2 prefix fs ps -> ps = map colname fs.
Proof.
  intros fs ps H. induction H as [|f p fs qs Hf Hr IH]; cbn [map]; [reflexivity|]. rewrite <- IH. f_equal. now apply prefix_colname.
Qed.
Section Run.
Variables (x : third) (c : settings) (main : mbo) (sbc : option (list (list Z))) (keyf : option keyfun) (dep : option colours) (dbc : det_arg).
Variables (md : mdet) (ps : list string).
Hypothesis Hs : all_one_shape main dep.
Hypothesis Hmc : metacal_ok x c.
Hypothesis Hb : same_bands main dep.
Hypothesis Hmd : construct (st_conf c) (zlen main) (has keyf) (has dep) sbc dbc = Ok md.
Hypothesis Hps : Forall2 prefix (md_fitters md) ps.
Lemma prefixes : ps = map colname (md_fitters md).
Proof. exact (prefixes_of _ _ Hps). Qed.
Lemma tables_shown : do_metadetect_tables x c main sbc keyf dep dbc = (do r <- do_metadetect x c main sbc keyf dep dbc; Ok (option_map (shown_result ps) r)) /\
  forall r t rows, do_metadetect x c main sbc keyf dep dbc = Ok (Some r) -> In (t, Some rows) r -> rows <> [] /\ Forall (row_ok x c md main) rows.
Proof.
  destruct Hs as (R & C & Hm & Hd). rewrite prefixes. unfold do_metadetect_tables, do_metadetect. rewrite Hmd. cbn [obind].
  assert (Hdep : forall keyf' dep' k m, color_arg keyf dep = Some (keyf', dep') -> dep' k = Some (Other m) -> has_shape m R C).
  { intros keyf' dep' k m H. unfold color_arg in H. destruct keyf; [|discriminate]. destruct dep as [d|]; [|discriminate].
    apply Some_inj, pair_equal_spec in H. destruct H as [_ <-]. exact (Hd d k m eq_refl). }
  assert (Hbands : forall keyf' dep' k m, color_arg keyf dep = Some (keyf', dep') -> dep' k = Some (Other m) -> List.length m = List.length main).
  { intros keyf' dep' k m H. unfold color_arg in H. destruct keyf; [|discriminate]. destruct dep as [d|]; [|discriminate].
    apply Some_inj, pair_equal_spec in H. destruct H as [_ <-]. exact (Hb d k m eq_refl). }
  assert (RS := run_shown x c md main (color_arg keyf dep) R C Hm Hdep Hmc Hbands (construct_proper _ _ _ _ _ _ _ Hmd)).
  destruct (go sob (environment x c md main (color_arg keyf dep)) init_state) as [[u|y] s].
  - destruct RS as (r & -> & -> & Hf). cbn [obind]. split; [reflexivity|]. intros r' t rows H. apply Ok_inj in H. subst r. exact (Hf r' t rows eq_refl).
  - split; [exact RS|]. intros r t rows H. discriminate.
Qed.
Lemma shown_in : forall ts t tb, do_metadetect_tables x c main sbc keyf dep dbc = Ok (Some ts) -> In (t, Some tb) ts ->
  exists r rows, do_metadetect x c main sbc keyf dep dbc = Ok (Some r) /\ In (t, Some rows) r /\ tb = shown ps rows /\
    rows <> [] /\ Forall (row_ok x c md main) rows.
Proof.
  intros ts t tb H Hin. destruct tables_shown as [T1 T2]. rewrite T1 in H.
  destruct (do_metadetect x c main sbc keyf dep dbc) as [[r|]|] eqn:E; [| discriminate|discriminate]. cbn [obind option_map] in H. apply Ok_inj, Some_inj in H. subst ts.
  unfold shown_result in Hin. apply in_map_iff in Hin. destruct Hin as ([t' [rows|]] & X & Hin); cbn [fst snd option_map] in X; [|discriminate].
  injection X as -> <-. exists r, rows. split; [reflexivity|]. split; [exact Hin|]. split; [reflexivity|]. exact (T2 r t rows eq_refl Hin).
Qed.
Lemma ps_proper : Forall proper ps.
Proof.
  rewrite prefixes. apply Forall_forall. intros p Hp. apply in_map_iff in Hp. destruct Hp as (f & <- & Hf).
  exact (proj1 (Forall_forall _ _) (construct_proper _ _ _ _ _ _ _ Hmd) f Hf).
Qed.
Lemma run_columns : forall ts t tb, do_metadetect_tables x c main sbc keyf dep dbc = Ok (Some ts) -> In (t, Some tb) ts ->
  (0 < t_n tb)%nat /\ Joint_model.names tb = map fst (all_columns ps) /\ NoDup (Joint_model.names tb) /\
  (forall n vs, In (n, vs) (t_cols tb) -> List.length vs = t_n tb).
Proof.
  intros ts t tb H Hin. destruct (shown_in ts t tb H Hin) as (r & rows & _ & _ & -> & Hne & Hok).
  assert (Nm : Joint_model.names (shown ps rows) = map fst (all_columns ps)).
  { unfold Joint_model.names, shown. cbn [t_cols]. rewrite map_map. reflexivity. }
  split; [destruct rows; [congruence|cbn; lia]|]. split; [exact Nm|]. split.
  - rewrite Nm. apply all_names_nodup; [exact ps_proper|]. destruct rows as [|d rows]; [congruence|].
    inversion Hok as [|? ? (_ & _ & _ & X & _) _]; subst. rewrite prefixes. exact X.
  - intros n vs Hv. unfold shown in *. cbn [t_cols t_n] in *. apply in_map_iff in Hv. destruct Hv as (ng & E & _). injection E as _ <-. apply map_length.
Qed.
Lemma run_types_alike : forall ts t tb t' tb' n vs vs' v v', do_metadetect_tables x c main sbc keyf dep dbc = Ok (Some ts) ->
  In (t, Some tb) ts -> In (t', Some tb') ts -> In (n, vs) (t_cols tb) -> In (n, vs') (t_cols tb') -> In v vs -> In v' vs' ->
  cell_type v = cell_type v'.
Proof.
  intros ts t tb t' tb' n vs vs' v v' H H1 H2 V1 V2 I1 I2. destruct (run_columns ts t tb H H1) as (_ & Nm & ND & _).
  destruct (shown_in ts t tb H H1) as (r & rows & _ & _ & -> & _ & Hok). destruct (shown_in ts t' tb' H H2) as (r' & rows' & _ & _ & -> & _ & Hok').
  unfold shown in V1, V2. cbn [t_cols] in V1, V2. apply in_map_iff in V1, V2. destruct V1 as ([n1 g1] & E1 & K1), V2 as ([n2 g2] & E2 & K2).
  cbn [fst snd] in *. injection E1 as -> <-. injection E2 as -> <-.
  assert (g1 = g2).
  { rewrite Nm in ND. clear -ND K1 K2. induction (all_columns ps) as [|[m g] l IH]; [destruct K1|]. cbn [map fst] in ND. inversion ND as [|? ? Nin ND']; subst.
    destruct K1 as [E1|K1], K2 as [E2|K2].
    - congruence.
    - injection E1 as -> ->. destruct Nin. apply in_map_iff. exists (n, g2). auto.
    - injection E2 as -> ->. destruct Nin. apply in_map_iff. exists (n, g1). auto.
    - auto. }
  subst g2. apply in_map_iff in I1, I2. destruct I1 as (a & <- & A), I2 as (b & <- & B).
  rewrite Forall_forall in Hok, Hok'. assert (AL := row_alike x c md main a b (Hok a A) (Hok' b B)). rewrite <- prefixes in AL. exact (AL (n, g1) K1).
Qed.
Lemma read_shown : forall rows n i v, read (shown ps rows) n i v <->
  exists dr g, nth_error rows i = Some dr /\ In (n, g) (all_columns ps) /\ v = g dr.
Proof.
  intros rows n i v. unfold read, shown. cbn [t_cols]. split.
  - intros (vs & Hin & Hn). apply in_map_iff in Hin. destruct Hin as ([m g] & E & Hin). cbn [fst snd] in E. injection E as -> <-.
    rewrite nth_error_map in Hn. destruct (nth_error rows i) as [dr|]; [|discriminate]. cbn [option_map] in Hn. apply Some_inj in Hn.
    exists dr, g. auto.
  - intros (dr & g & Hn & Hin & ->). exists (map g rows). split.
    + apply in_map_iff. exists (n, g). auto.
    + rewrite nth_error_map, Hn. reflexivity.
Qed.
Lemma more_columns_in : forall l k j p, nth_error l j = Some p -> forall ng, In ng (fit_columns (k + j) p) -> In ng (more_columns k l).
Proof.
  induction l as [|q l IH]; intros k j p Hj ng H; [destruct j; discriminate|]. cbn [more_columns]. apply in_or_app. destruct j as [|j].
  - cbn in Hj. apply Some_inj in Hj. subst q. rewrite Nat.add_0_r in H. now left.
  - right. apply (IH (S k) j p Hj). now rewrite <- plus_n_Sm in H.
Qed.
Lemma all_columns_fit : forall k p, nth_error ps k = Some p -> forall ng, In ng (fit_columns k p) -> In ng (all_columns ps).
Proof.
  intros k p H ng Hin. unfold all_columns. destruct ps as [|q l]; [destruct k; discriminate|]. destruct k as [|k].
  - cbn in H. apply Some_inj in H. subst q. apply in_or_app. now left.
  - apply in_or_app. right. apply in_or_app. right. apply in_or_app. left. exact (more_columns_in l 1%nat k p H ng Hin).
Qed.
Lemma all_columns_common : forall ng, In ng common_columns -> In ng (all_columns ps).
Proof.
  intros ng Hin. unfold all_columns. destruct ps as [|q l]; [exact Hin|]. apply in_or_app. right. apply in_or_app. right. apply in_or_app. now right.
Qed.
Lemma fun_columns : NoDup (map fst (all_columns ps)) -> forall n g g', In (n, g) (all_columns ps) -> In (n, g') (all_columns ps) -> g = g'.
Proof.
  intros ND n g g' K1 K2. induction (all_columns ps) as [|[m h] l IH]; [destruct K1|]. cbn [map fst] in ND. inversion ND as [|? ? Nin ND']; subst.
  destruct K1 as [E1|K1], K2 as [E2|K2].
  - congruence.
  - injection E1 as -> ->. destruct Nin. apply in_map_iff. exists (n, g'). auto.
  - injection E2 as -> ->. destruct Nin. apply in_map_iff. exists (n, g). auto.
  - auto.
Qed.
Lemma run_read : forall ts t tb, do_metadetect_tables x c main sbc keyf dep dbc = Ok (Some ts) -> In (t, Some tb) ts ->
  exists r rows, do_metadetect x c main sbc keyf dep dbc = Ok (Some r) /\ In (t, Some rows) r /\ t_n tb = List.length rows /\
  (forall k p n h, nth_error ps k = Some p -> In (n, of_fit k h) (fit_columns k p) -> forall i v,
     read tb n i v <-> exists dr f, nth_error rows i = Some dr /\ nth_error (r_fits dr) k = Some f /\ v = h f) /\
  (forall i v, read tb "shear_bands" i v <-> exists dr f, nth_error rows i = Some dr /\ hd_error (r_fits dr) = Some f /\ v = CText (o_shear_bands f)) /\
  (forall n h, In (n, of_extra h) common_columns -> forall i v,
     read tb n i v <-> exists dr, nth_error rows i = Some dr /\ v = h (r_extra dr)).
Proof.
  intros ts t tb H Hin. assert (RC := run_columns ts t tb H Hin). destruct RC as (_ & Nm & ND & _). rewrite Nm in ND.
  destruct (shown_in ts t tb H Hin) as (r & rows & E1 & E2 & -> & Hne & Hok). exists r, rows. split; [exact E1|]. split; [exact E2|]. split; [reflexivity|].
  assert (FIT : forall k n h, (k < List.length (md_fitters md))%nat -> In (n, of_fit k h) (all_columns ps) -> forall i v,
     read (shown ps rows) n i v <-> exists dr f, nth_error rows i = Some dr /\ nth_error (r_fits dr) k = Some f /\ v = h f).
  { intros k n h Hk Hc i v. rewrite read_shown. split.
    - intros (dr & g & Hi & Hg & ->). rewrite (fun_columns ND _ _ _ Hg Hc). assert (Hdr := nth_error_In _ _ Hi). rewrite Forall_forall in Hok.
      destruct (Hok dr Hdr) as (L & _). unfold of_fit. destruct (nth_error (r_fits dr) k) as [f|] eqn:Ek; [exists dr, f; auto|].
      apply nth_error_None in Ek. lia.
    - intros (dr & f & Hi & Hf & ->). exists dr, (of_fit k h). split; [exact Hi|]. split; [exact Hc|]. unfold of_fit. now rewrite Hf. }
  assert (LEN : List.length ps = List.length (md_fitters md)) by (rewrite prefixes; apply map_length).
  split; [|split].
  - intros k p n h Hp Hc. apply FIT; [|exact (all_columns_fit k p Hp _ Hc)]. rewrite <- LEN. apply nth_error_Some. congruence.
  - intros i v. destruct rows as [|d0 rows0] eqn:Er; [congruence|]. rewrite <- Er in *. 
    assert (NE : ps <> []) by (rewrite Forall_forall in Hok; destruct (Hok d0 ltac:(rewrite Er; now left)) as (_ & _ & X & _); rewrite prefixes; exact X).
    assert (Hsb : In ("shear_bands", of_fit 0 (fun f => CText (o_shear_bands f))) (all_columns ps)).
    { unfold all_columns. destruct ps as [|p l]; [congruence|]. apply in_or_app. right. apply in_or_app. left. now left. }
    assert (Hk : (0 < List.length (md_fitters md))%nat) by (rewrite <- LEN; destruct ps; [congruence|cbn; lia]).
    rewrite (FIT 0%nat _ _ Hk Hsb). split; intros (dr & f & A & B & D); exists dr, f; (split; [exact A|]; split; [|exact D]); destruct (r_fits dr); exact B.
  - intros n h Hc i v. rewrite read_shown. apply all_columns_common in Hc. split.
    + intros (dr & g & Hi & Hg & ->). rewrite (fun_columns ND _ _ _ Hg Hc). exists dr. auto.
    + intros (dr & Hi & ->). exists dr, (of_extra h). auto.
Qed.
End Run.
Lemma ps_proper_of : forall cfg nb k d sh det md ps,
  construct cfg nb k d sh det = Ok md -> Forall2 prefix (md_fitters md) ps -> Forall proper ps.
Proof.
  intros cfg nb k d sh det md ps H Hps. rewrite (prefixes_of _ _ Hps). apply Forall_forall. intros p Hp. apply in_map_iff in Hp.
  destruct Hp as (f & <- & Hf). exact (proj1 (Forall_forall _ _) (construct_proper _ _ _ _ _ _ _ H) f Hf).
Qed.
