From Coq Require Import ZArith QArith List String Bool Lia.
From Verif Require Import Base Arr Dict Median Lmcal_model Lmcal_spec.
Import ListNotations.
Local Open Scope string_scope.
Local Open Scope Z_scope.

(** ** Dictionaries filled in loops *)
Lemma fill_loop : forall V (F : string -> outcome V) l d0 d,
  ofold (fun d t => do e <- F t; Ok (sput t e d)) l d0 = Ok d ->
  (forall t, In t l -> exists e, F t = Ok e /\ sget t d = Some e) /\
  (forall t, ~ In t l -> sget t d = sget t d0) /\
  (NoDup (skeys d0) -> NoDup (skeys d)).
Proof.
  intros V F. induction l as [|a l IH]; intros d0 d H; cbn [ofold] in H.
  - apply Ok_inj in H. subst. split; [intros t []|]. auto.
  - destruct (F a) as [e|] eqn:E; cbn [obind] in H; [|discriminate]. destruct (IH _ _ H) as [A [B C]]. split; [|split].
    + intros t Ht. destruct (in_dec string_dec t l) as [L|L]; [auto|]. destruct Ht as [<-|Ht]; [|contradiction].
      exists e. split; [exact E|]. rewrite B by auto. rewrite sget_put, String.eqb_refl. reflexivity.
    + intros t Ht. rewrite B by (intros X; apply Ht; right; exact X). rewrite sget_put.
      destruct (String.eqb_spec t a) as [->|N]; [destruct Ht; left; reflexivity|reflexivity].
    + intros N. apply C. apply sput_NoDup. exact N.
Qed.
Lemma fill_loop_total : forall V (F : string -> outcome V) l d0, (forall t, In t l -> exists e, F t = Ok e) ->
  exists d, ofold (fun d t => do e <- F t; Ok (sput t e d)) l d0 = Ok d.
Proof.
  intros V F. induction l as [|a l IH]; intros d0 H; cbn [ofold]; [eauto|]. destruct (H a (or_introl eq_refl)) as [e E]. rewrite E. cbn [obind].
  apply IH. intros t Ht. apply H. right. exact Ht.
Qed.
Lemma fill_loop_raise : forall V (F : string -> outcome V) l d0 x, (exists t, In t l /\ F t = Raise x) ->
  (forall t, In t l -> (exists e, F t = Ok e) \/ F t = Raise x) ->
  ofold (fun d t => do e <- F t; Ok (sput t e d)) l d0 = Raise x.
Proof.
  intros V F. induction l as [|a l IH]; intros d0 x [t [Ht E]] H; [destruct Ht|]. cbn [ofold].
  destruct (H a (or_introl eq_refl)) as [[e Ea]|Ea]; rewrite Ea; cbn [obind]; [|reflexivity].
  apply IH; [|intros t0 H0; apply H; right; exact H0]. destruct Ht as [->|Ht]; [congruence|]. eauto.
Qed.
Lemma skeys_sput_new : forall V k (v : V) d, ~ In k (skeys d) -> skeys (sput k v d) = (skeys d ++ [k])%list.
Proof.
  intros V k v d. induction d as [|[a w] d IH]; cbn; [reflexivity|]. intros H. destruct (String.eqb_spec k a) as [->|N]; [tauto|]. cbn.
  f_equal. apply IH. tauto.
Qed.
Lemma skeys_sput_old : forall V k (v : V) d, In k (skeys d) -> skeys (sput k v d) = skeys d.
Proof.
  intros V k v d. induction d as [|[a w] d IH]; cbn; [tauto|]. intros H.
  destruct (String.eqb_spec k a) as [->|N]; cbn; [reflexivity|]. f_equal. apply IH. destruct H; [congruence|auto].
Qed.
Lemma fill_loop_keys : forall V (F : string -> outcome V) l d0 d, NoDup l -> (forall t, In t l -> ~ In t (skeys d0)) ->
  ofold (fun d t => do e <- F t; Ok (sput t e d)) l d0 = Ok d -> skeys d = (skeys d0 ++ l)%list.
Proof.
  intros V F. induction l as [|a l IH]; intros d0 d N D H; cbn [ofold] in H; [apply Ok_inj in H; subst; rewrite app_nil_r; reflexivity|].
  inversion N; subst. destruct (F a) as [e|]; cbn [obind] in H; [|discriminate].
  apply IH in H; [|auto|].
  - rewrite H, skeys_sput_new by (apply D; left; reflexivity). rewrite <- app_assoc. reflexivity.
  - intros t Ht X. apply skeys_put in X. destruct X as [->|X]; [contradiction|]. apply (D t); [right; exact Ht|exact X].
Qed.
(** A loop that changes each entry once. *)
Lemma change_loop : forall V U (G : string -> outcome U) (f : V -> U -> V) l d0 d, NoDup l ->
  ofold (fun d t => do e <- dget t d; do n <- G t; Ok (sput t (f e n) d)) l d0 = Ok d ->
  skeys d = skeys d0 /\
  (forall t, In t l -> exists e n, sget t d0 = Some e /\ G t = Ok n /\ sget t d = Some (f e n)) /\
  (forall t, ~ In t l -> sget t d = sget t d0).
Proof.
  intros V U G f. induction l as [|a l IH]; intros d0 d N H; cbn [ofold] in H.
  - apply Ok_inj in H. subst. split; [reflexivity|]. split; [intros t []|auto].
  - inversion N; subst. unfold dget in H at 1. destruct (sget a d0) as [e|] eqn:E; cbn [obind] in H; [|discriminate].
    destruct (G a) as [n|] eqn:En; cbn [obind] in H; [|discriminate]. destruct (IH _ _ H3 H) as [K [A B]].
    split; [rewrite K; apply skeys_sput_old; apply sget_In; eauto|]. split.
    + intros t [<-|Ht].
      * exists e, n. split; [exact E|]. split; [exact En|]. rewrite B by auto. rewrite sget_put, String.eqb_refl. reflexivity.
      * destruct (A t Ht) as [e1 [n1 [E1 [G1 S1]]]]. rewrite sget_put in E1. destruct (String.eqb_spec t a) as [->|Ne]; [contradiction|]. eauto.
    + intros t Ht. rewrite B by (intros X; apply Ht; right; exact X). rewrite sget_put.
      destruct (String.eqb_spec t a) as [->|Ne]; [destruct Ht; left; reflexivity|reflexivity].
Qed.
Lemma change_loop_total : forall V U (G : string -> outcome U) (f : V -> U -> V) l d0,
  (forall t, In t l -> (exists e, sget t d0 = Some e) /\ exists n, G t = Ok n) ->
  exists d, ofold (fun d t => do e <- dget t d; do n <- G t; Ok (sput t (f e n) d)) l d0 = Ok d.
Proof.
  intros V U G f. induction l as [|a l IH]; intros d0 H; cbn [ofold]; [eauto|].
  destruct (H a (or_introl eq_refl)) as [[e E] [n En]]. unfold dget at 1. rewrite E. cbn [obind]. rewrite En. cbn [obind].
  apply IH. intros t Ht. destruct (H t (or_intror Ht)) as [[e1 E1] X]. split; [|exact X]. rewrite sget_put. destruct (String.eqb t a); eauto.
Qed.

Section M.
Context {PSF I W P : Type} (g : galsim PSF I W P).

Lemma shear_documented : forall t,
  (if String.eqb t "noshear" then Ok None else do s <- get_shear_from_type t; Ok (Some s)) =
  match sget t documented with Some s => Ok s | None => Raise ValueError end.
Proof.
  intros t. unfold get_shear_from_type, documented. cbn [sget].
  destruct (String.eqb t "noshear"); [reflexivity|]. destruct (String.eqb t "1p"); [reflexivity|]. destruct (String.eqb t "1m"); [reflexivity|].
  destruct (String.eqb t "2p"); [reflexivity|]. destruct (String.eqb t "2m"); reflexivity.
Qed.

(** What get_metacal_exps computes once and for each type. *)
Definition one (exp : exposure PSF I) (stats : option pstats) (rot : bool) (w : W) (k : img Q) (t : P) (ty : string) : outcome (exposure PSF I) :=
  get_metacal_exp g exp (if rot then rot90 (e_image exp) else e_image exp) w k (g_dilate g t (102 # 100)%Q)
    (g_drawpsf g (g_dilate g t (102 # 100)%Q) k w) ty rot.
Lemma exps_unfold : forall exp stats types rot d, get_metacal_exps g exp stats types rot = Ok d ->
  exists w k t, g_jac g exp = Ok w /\ g_kernel g exp = Ok k /\
    match stats with
    | None => g_target g k w (qsum (pixels k)) = Ok t
    | Some s => g_gaussian g (ps_T s * g_dilation g (ps_e1 s) (ps_e2 s) (ps_T s) / 2)%Q (qsum (pixels k)) = Ok t
    end /\
    ofold (fun d ty => do e <- one exp stats rot w k t ty; Ok (sput ty e d)) (requested types) [] = Ok d.
Proof.
  intros exp stats types rot d H. unfold get_metacal_exps in H.
  destruct (g_jac g exp) as [w|] eqn:E1; cbn [obind] in H; [|discriminate].
  destruct (g_kernel g exp) as [k|] eqn:E2; cbn [obind] in H; [|discriminate].
  destruct stats as [s|].
  - unfold get_fitgauss_target_psf in H.
    destruct (g_gaussian g (ps_T s * g_dilation g (ps_e1 s) (ps_e2 s) (ps_T s) / 2)%Q (qsum (pixels k))) as [t|] eqn:E3; cbn [obind] in H; [|discriminate].
    exists w, k, t. split; [reflexivity|]. split; [reflexivity|]. split; [exact E3|]. exact H.
  - destruct (g_target g k w (qsum (pixels k))) as [t|] eqn:E3; cbn [obind] in H; [|discriminate].
    exists w, k, t. split; [reflexivity|]. split; [reflexivity|]. split; [exact E3|]. exact H.
Qed.
Lemma one_spec : forall exp stats rot w k t ty e, g_jac g exp = Ok w -> g_kernel g exp = Ok k ->
  match stats with
  | None => g_target g k w (qsum (pixels k)) = Ok t
  | Some s => g_gaussian g (ps_T s * g_dilation g (ps_e1 s) (ps_e2 s) (ps_T s) / 2)%Q (qsum (pixels k)) = Ok t
  end ->
  one exp stats rot w k t ty = Ok e -> exists s, sget ty documented = Some s /\ metacal_exp g exp stats s rot e.
Proof.
  intros exp stats rot w k t ty e E1 E2 E3. unfold one, get_metacal_exp. rewrite shear_documented.
  destruct (sget ty documented) as [s|]; cbn [obind]; [|discriminate].
  set (p := g_dilate g t (102 # 100)%Q). set (im := if rot then rot90 (e_image exp) else e_image exp).
  destruct (g_draw g im w k s p) as [m|] eqn:E4; cbn [obind]; [|discriminate]. intros H. apply Ok_inj in H. subst e.
  exists s. split; [reflexivity|].
  assert (T : is_target g exp stats p) by (exists w, k, t; auto).
  assert (S : sheared g exp stats s im m) by (exists w, k, p; auto).
  split; [|split; [exists p, k, w; auto|repeat split]]. unfold metacal_image. cbn [e_image]. destruct rot; [|exact S]. exists m. auto.
Qed.

Lemma exps_spec : forall exp stats types rot d, get_metacal_exps g exp stats types rot = Ok d ->
  NoDup (skeys d) /\ (forall t, In t (skeys d) <-> In t (requested types)) /\ (NoDup (requested types) -> skeys d = requested types) /\
  forall t, In t (requested types) -> exists s e, sget t documented = Some s /\ sget t d = Some e /\ metacal_exp g exp stats s rot e.
Proof.
  intros exp stats types rot d H. destruct (exps_unfold _ _ _ _ _ H) as [w [k [t [E1 [E2 [E3 F]]]]]].
  destruct (fill_loop _ _ _ _ _ F) as [A [B C]]. split; [apply C; constructor|]. split; [|split].
  - intros ty. rewrite sget_In. split.
    + intros [v Hv]. destruct (in_dec string_dec ty (requested types)) as [X|X]; [exact X|]. rewrite B in Hv by exact X. discriminate.
    + intros X. destruct (A ty X) as [e [_ X2]]. eauto.
  - intros N. exact (fill_loop_keys _ _ _ _ _ N (fun _ _ (X : In _ (skeys [])) => X) F).
  - intros ty X. destruct (A ty X) as [e [F1 F2]]. destruct (one_spec _ _ _ _ _ _ _ _ E1 E2 E3 F1) as [s [S1 S2]]. eauto.
Qed.

Lemma fixed_fix : forall d n : exposure PSF I, fixed d n (fix_exp d n).
Proof. intros d n. unfold fixed, fix_exp. cbn. repeat split; try reflexivity. intros i j. unfold twice, imap; cbn. destruct (px (e_var d) i j); cbn; [ring|exact Logic.I]. Qed.

Lemma requested_some : forall types, requested (Some (requested types)) = requested types.
Proof. reflexivity. Qed.
Lemma dget_ok : forall V k (d : list (string * V)) v, dget k d = Ok v -> sget k d = Some v.
Proof. intros V k d v. unfold dget. destruct (sget k d); [|discriminate]. intros H. apply Ok_inj in H. congruence. Qed.

Lemma exps_fixnoise_spec : forall exp nexp stats types d nd, NoDup (requested types) ->
  get_metacal_exps_fixnoise g exp nexp stats types = Ok (d, nd) ->
  skeys d = requested types /\ skeys nd = requested types /\
  forall t, In t (requested types) -> exists s e n e', sget t documented = Some s /\
    metacal_exp g exp stats s false e /\ metacal_exp g nexp stats s true n /\
    sget t d = Some e' /\ sget t nd = Some n /\ fixed e n e'.
Proof.
  intros exp nexp stats types d nd N H. unfold get_metacal_exps_fixnoise in H. change (match types with None => DEFAULT_TYPES | Some l => l end) with (requested types) in H.
  destruct (get_metacal_exps g exp stats (Some (requested types)) false) as [d0|] eqn:E1; cbn [obind] in H; [|discriminate].
  destruct (get_metacal_exps g nexp stats (Some (requested types)) true) as [n0|] eqn:E2; cbn [obind] in H; [|discriminate].
  destruct (ofold _ (requested types) d0) as [d1|] eqn:E3; cbn [obind] in H; [|discriminate].
  apply Ok_inj in H. apply pair_equal_spec in H. destruct H as [<- <-].
  destruct (exps_spec _ _ _ _ _ E1) as [_ [_ [K1 S1]]]. destruct (exps_spec _ _ _ _ _ E2) as [_ [_ [K2 S2]]].
  destruct (change_loop _ _ (fun t => dget t n0) fix_exp _ _ _ N E3) as [K [A _]].
  split; [rewrite K; apply K1; exact N|]. split; [apply K2; exact N|].
  intros t Ht. destruct (A t Ht) as [e [n [X1 [X2 X3]]]]. destruct (S1 t Ht) as [s [e1 [D1 [G1 M1]]]]. destruct (S2 t Ht) as [s2 [n1 [D2 [G2 M2]]]].
  apply dget_ok in X2. rewrite X1 in G1. apply Some_inj in G1. rewrite X2 in G2. apply Some_inj in G2. rewrite D1 in D2. apply Some_inj in D2. subst.
  exists s2, e1, n1, (fix_exp e1 n1). repeat split; auto; try apply M1; try apply M2. apply fixed_fix.
Qed.

(** ** Several bands *)
Lemma append_loop : forall V (this : list (string * V)) lists d, NoDup (skeys this) ->
  ofold (fun d te => do l <- dget (fst te) d; Ok (sput (fst te) (l ++ [snd te])%list d)) this lists = Ok d ->
  skeys d = skeys lists /\
  forall t, sget t d = match sget t this with Some e => option_map (fun l => l ++ [e])%list (sget t lists) | None => sget t lists end.
Proof.
  intros V. induction this as [|[a e] this IH]; intros lists d N H; cbn [ofold fst snd] in H.
  - apply Ok_inj in H. subst. split; reflexivity.
  - cbn [skeys map fst] in N. inversion N; subst. unfold dget in H at 1. destruct (sget a lists) as [l|] eqn:E; cbn [obind] in H; [|discriminate].
    destruct (IH _ _ H3 H) as [K A]. split; [rewrite K; apply skeys_sput_old; apply sget_In; eauto|].
    intros t. rewrite A, sget_put. cbn [sget]. destruct (String.eqb_spec t a) as [->|Ne]; [|reflexivity].
    assert (X : sget a this = None) by (apply sget_None; exact H2). rewrite X, E. reflexivity.
Qed.
Lemma append_loop_total : forall V (this : list (string * V)) lists, (forall t, In t (skeys this) -> exists l, sget t lists = Some l) ->
  exists d, ofold (fun d te => do l <- dget (fst te) d; Ok (sput (fst te) (l ++ [snd te])%list d)) this lists = Ok d.
Proof.
  intros V. induction this as [|[a e] this IH]; intros lists H; cbn [ofold fst snd]; [eauto|].
  destruct (H a (or_introl eq_refl)) as [l E]. unfold dget at 1. rewrite E. cbn [obind]. apply IH. intros t Ht. rewrite sget_put.
  destruct (String.eqb t a); [eauto|]. apply H. right. exact Ht.
Qed.
Lemma Forall2_snoc_cons : forall A B (R : A -> B -> Prop) l a m b, R a b -> Forall2 R l m -> Forall2 R (a :: l) (b :: m).
Proof. intros. constructor; assumption. Qed.

Lemma band_loop_spec : forall mbexp stats types rot lists d,
  match stats with Some s => List.length s = List.length mbexp | None => True end ->
  (forall t, In t types -> exists l, sget t lists = Some l) ->
  band_loop g mbexp stats types rot lists = Ok d ->
  forall t, In t types -> exists s l0 es, sget t lists = Some l0 /\ sget t d = Some (l0 ++ es)%list /\
    (mbexp <> [] -> sget t documented = Some s) /\
    Forall2 (fun es e' => metacal_exp g (fst es) (snd es) s rot e') (with_stats mbexp stats) es.
Proof.
  induction mbexp as [|exp mb IH]; intros stats types rot lists d HL HK H t Ht; cbn [band_loop] in H.
  - apply Ok_inj in H. subst d. destruct (HK t Ht) as [l E]. exists None, l, []. rewrite app_nil_r. split; [exact E|]. split; [exact E|].
    split; [congruence|]. destruct stats as [s|]; constructor.
  - assert (X : exists st, match stats with None => Ok None | Some [] => Raise IndexError | Some (s :: _) => Ok (Some s) end = Ok st /\
      with_stats (exp :: mb) stats = (exp, st) :: with_stats mb (option_map (@tl pstats) stats) /\
      match option_map (@tl pstats) stats with Some s => List.length s = List.length mb | None => True end).
    { destruct stats as [[|s r]|]; [discriminate| |].
      - exists (Some s). split; [reflexivity|]. split; [reflexivity|]. cbn in *. lia.
      - exists None. split; [reflexivity|]. split; [reflexivity|]. exact Logic.I. }
    destruct X as [st [E0 [WS HL2]]]. rewrite E0 in H. cbn [obind] in H.
    destruct (get_metacal_exps g exp st (Some types) rot) as [this|] eqn:E1; cbn [obind] in H; [|discriminate].
    destruct (ofold _ this lists) as [lists1|] eqn:E2; cbn [obind] in H; [|discriminate].
    destruct (exps_spec _ _ _ _ _ E1) as [N1 [K1 [_ S1]]]. cbn [requested] in K1, S1.
    destruct (append_loop _ _ _ _ N1 E2) as [K2 A2].
    assert (HK2 : forall t, In t types -> exists l, sget t lists1 = Some l).
    { intros t0 H0. rewrite A2. destruct (HK t0 H0) as [l El]. destruct (sget t0 this); rewrite El; cbn; eauto. }
    destruct (IH _ _ _ _ _ HL2 HK2 H t Ht) as [s [l0 [es [G1 [G2 [G3 G4]]]]]].
    destruct (S1 t Ht) as [s1 [e [D1 [T1 M1]]]]. rewrite A2, T1 in G1. destruct (HK t Ht) as [l El]. rewrite El in G1. cbn in G1. apply Some_inj in G1. subst l0.
    rewrite <- app_assoc in G2. exists s1, l, (e :: es). split; [exact El|]. split; [exact G2|]. split; [auto|]. rewrite WS. constructor; [exact M1|].
    destruct mb as [|e2 mb]; [inversion G4; [constructor|]|].
    { destruct (option_map (@tl pstats) stats); cbn in *; discriminate. }
    rewrite G3 in D1 by discriminate. apply Some_inj in D1. subst s1. exact G4.
Qed.

Lemma init_lists : forall V types (d0 : list (string * list V)) t,
  sget t (fold_left (fun d t => sput t [] d) types d0) = if smem t types then Some [] else sget t d0.
Proof.
  intros V. induction types as [|a l IH]; intros d0 t; [reflexivity|]. cbn [fold_left]. rewrite IH, sget_put. unfold smem. cbn [existsb]. fold (smem t l).
  destruct (smem t l); [rewrite orb_true_r; reflexivity|]. rewrite orb_false_r. reflexivity.
Qed.

Lemma mbexps_spec : forall mbexp types rot stats d, get_metacal_mbexps g mbexp types rot stats = Ok d ->
  NoDup (skeys d) /\ (forall t, In t (skeys d) <-> In t (requested types)) /\ (NoDup (requested types) -> skeys d = requested types) /\
  (forall s, stats = Some s -> List.length s = List.length mbexp) /\
  forall t, In t (requested types) -> exists s es, sget t d = Some es /\ (mbexp <> [] -> sget t documented = Some s) /\
    Forall2 (fun es e' => metacal_exp g (fst es) (snd es) s rot e') (with_stats mbexp stats) es.
Proof.
  intros mbexp types rot stats d H. unfold get_metacal_mbexps in H. change (match types with None => DEFAULT_TYPES | Some l => l end) with (requested types) in H.
  destruct (match stats with Some s => negb (zlen s =? zlen mbexp) | None => false end) eqn:E0; [discriminate|].
  assert (HL : match stats with Some s => List.length s = List.length mbexp | None => True end).
  { destruct stats as [s|]; [|exact Logic.I]. apply negb_false_iff in E0. apply Z.eqb_eq in E0. unfold zlen in E0. lia. }
  destruct (band_loop _ _ _ _ _ _) as [lists|] eqn:E1; cbn [obind] in H; [|discriminate].
  assert (HK : forall t, In t (requested types) -> exists l, sget t (fold_left (fun d t => sput t [] d) (requested types) []) = Some (l : list (exposure PSF I))).
  { intros t Ht. rewrite init_lists. apply smem_In in Ht. rewrite Ht. eauto. }
  assert (S := band_loop_spec _ _ _ _ _ _ HL HK E1).
  destruct (fill_loop _ (fun t => dget t lists) _ _ _ H) as [A [B C]]. split; [apply C; constructor|]. split; [|split; [|split]].
  - intros ty. rewrite sget_In. split.
    + intros [v Hv]. destruct (in_dec string_dec ty (requested types)) as [X|X]; [exact X|]. rewrite B in Hv by exact X. discriminate.
    + intros X. destruct (A ty X) as [e [_ X2]]. eauto.
  - intros N. exact (fill_loop_keys _ (fun t => dget t lists) _ _ _ N (fun _ _ (X : In _ (skeys [])) => X) H).
  - intros s ->. exact HL.
  - intros t Ht. destruct (S t Ht) as [s [l0 [es [G1 [G2 [G3 G4]]]]]]. destruct (A t Ht) as [l [D1 D2]]. apply dget_ok in D1.
    rewrite init_lists in G1. assert (Hm := Ht). apply smem_In in Hm. rewrite Hm in G1. apply Some_inj in G1. subst l0. cbn [app] in G2.
    rewrite G2 in D1. apply Some_inj in D1. subst l. exists s, es. auto.
Qed.

Lemma fix_zip_spec : forall l n : list (exposure PSF I), List.length l = List.length n -> Forall2 (fun p e' => fixed (fst p) (snd p) e') (combine l n) (fix_zip l n).
Proof.
  induction l as [|e l IH]; intros [|x n] H; try discriminate; cbn; constructor; [apply fixed_fix|]. apply IH. cbn in H. lia.
Qed.
Lemma fix_zip_length : forall l n : list (exposure PSF I), List.length (fix_zip l n) = List.length l.
Proof. induction l as [|e l IH]; intros [|x n]; cbn; auto. Qed.
Lemma Forall2_length' : forall A B (R : A -> B -> Prop) l m, Forall2 R l m -> List.length l = List.length m.
Proof. induction 1; cbn; auto. Qed.
Lemma with_stats_length : forall (mb : list (exposure PSF I)) stats, match stats with Some s => List.length s = List.length mb | None => True end ->
  List.length (with_stats mb stats) = List.length mb.
Proof. intros mb [s|] H; unfold with_stats; [rewrite combine_length, map_length; lia|apply map_length]. Qed.

Lemma mbexps_fixnoise_spec : forall mbexp nmbexp types stats d nd, List.length nmbexp = List.length mbexp ->
  get_metacal_mbexps_fixnoise g mbexp nmbexp types stats = Ok (d, nd) ->
  (forall t, In t (skeys d) <-> In t (requested types)) /\ (forall t, In t (skeys nd) <-> In t (requested types)) /\
  (NoDup (requested types) -> skeys d = requested types /\ skeys nd = requested types) /\
  forall t, In t (requested types) -> exists s es ns es', (mbexp <> [] -> sget t documented = Some s) /\
    Forall2 (fun es e' => metacal_exp g (fst es) (snd es) s false e') (with_stats mbexp stats) es /\
    Forall2 (fun es e' => metacal_exp g (fst es) (snd es) s true e') (with_stats nmbexp stats) ns /\
    sget t d = Some es' /\ sget t nd = Some ns /\
    List.length es = List.length ns /\
    Forall2 (fun p e' => fixed (fst p) (snd p) e') (combine es ns) es'.
Proof.
  intros mbexp nmbexp types stats d nd HLn H. unfold get_metacal_mbexps_fixnoise in H.
  destruct (get_metacal_mbexps g mbexp types false stats) as [d0|] eqn:E1; cbn [obind] in H; [|discriminate].
  destruct (get_metacal_mbexps g nmbexp types true stats) as [n0|] eqn:E2; cbn [obind] in H; [|discriminate].
  destruct (ofold _ (skeys d0) d0) as [d1|] eqn:E3; cbn [obind] in H; [|discriminate].
  apply Ok_inj in H. apply pair_equal_spec in H. destruct H as [<- <-].
  destruct (mbexps_spec _ _ _ _ _ E1) as [N1 [K1 [O1 [L1 S1]]]]. destruct (mbexps_spec _ _ _ _ _ E2) as [N2 [K2 [O2 [L2 S2]]]].
  destruct (change_loop _ _ (fun t => dget t n0) fix_zip _ _ _ N1 E3) as [K [A _]].
  split; [intros t; rewrite K; apply K1|]. split; [exact K2|]. split; [intros N; rewrite K; auto|].
  intros t Ht. destruct (A t (proj2 (K1 t) Ht)) as [e [n [X1 [X2 X3]]]]. destruct (S1 t Ht) as [s1 [es [G1 [D1 F1]]]]. destruct (S2 t Ht) as [s2 [ns [G2 [D2 F2]]]].
  apply dget_ok in X2. rewrite X1 in G1. apply Some_inj in G1. rewrite X2 in G2. apply Some_inj in G2. subst e n.
  assert (LE : List.length es = List.length ns).
  { rewrite <- (Forall2_length' _ _ _ _ _ F1), <- (Forall2_length' _ _ _ _ _ F2). rewrite !with_stats_length; [auto| |]; destruct stats as [s|]; auto. }
  exists s1, es, ns, (fix_zip es ns). split; [exact D1|]. split; [exact F1|]. split; [|split; [exact X3|split; [exact X2|split; [exact LE|apply fix_zip_spec; exact LE]]]].
  destruct mbexp as [|e mb].
  - destruct nmbexp; [|discriminate]. destruct stats as [st|]; cbn in F2 |- *; inversion F2; constructor.
  - destruct nmbexp as [|n nmb]; [discriminate|]. rewrite D1 in D2 by discriminate. specialize (D2 ltac:(discriminate)). apply Some_inj in D2. subst s2. exact F2.
Qed.

Lemma mbexps_fixnoise_nodup : forall mbexp nmbexp types stats d nd,
  get_metacal_mbexps_fixnoise g mbexp nmbexp types stats = Ok (d, nd) -> NoDup (skeys d).
Proof.
  intros mbexp nmbexp types stats d nd H. unfold get_metacal_mbexps_fixnoise in H.
  destruct (get_metacal_mbexps g mbexp types false stats) as [d0|] eqn:E1; cbn [obind] in H; [|discriminate].
  destruct (get_metacal_mbexps g nmbexp types true stats) as [n0|] eqn:E2; cbn [obind] in H; [|discriminate].
  destruct (ofold _ (skeys d0) d0) as [d1|] eqn:E3; cbn [obind] in H; [|discriminate].
  apply Ok_inj in H. apply pair_equal_spec in H. destruct H as [<- <-].
  destruct (mbexps_spec _ _ _ _ _ E1) as [N1 _]. destruct (change_loop _ _ (fun t => dget t n0) fix_zip _ _ _ N1 E3) as [K _]. now rewrite K.
Qed.

(** ** Success and errors *)
Definition works : Prop :=
  (forall e, exists w, g_jac g e = Ok w) /\ (forall e, exists k, g_kernel g e = Ok k) /\
  (forall s f, exists p, g_gaussian g s f = Ok p) /\ (forall k w f, exists p, g_target g k w f = Ok p) /\
  (forall im w k s p, exists m, g_draw g im w k s p = Ok m).
Lemma exps_known : works -> forall exp stats types rot, (forall t, In t (requested types) -> sget t documented <> None) ->
  exists d, get_metacal_exps g exp stats types rot = Ok d.
Proof.
  intros [W1 [W2 [W3 [W4 W5]]]] exp stats types rot H. unfold get_metacal_exps. destruct (W1 exp) as [w ->]. destruct (W2 exp) as [k ->]. cbn [obind].
  assert (X : exists t, match stats with Some s => get_fitgauss_target_psf g s (qsum (pixels k)) | None => g_target g k w (qsum (pixels k)) end = Ok t)
    by (destruct stats; unfold get_fitgauss_target_psf; auto).
  destruct X as [t ->]. cbn [obind]. apply fill_loop_total. intros ty Hty. unfold get_metacal_exp. rewrite shear_documented.
  specialize (H ty Hty). destruct (sget ty documented) as [s|]; [|congruence]. cbn [obind].
  destruct (W5 (if rot then rot90 (e_image exp) else e_image exp) w k s (g_dilate g t (1 + 2 * STEP)%Q)) as [m ->]. cbn [obind]. eauto.
Qed.
Lemma exps_unknown : works -> forall exp stats types rot t, In t (requested types) -> sget t documented = None ->
  get_metacal_exps g exp stats types rot = Raise ValueError.
Proof.
  intros [W1 [W2 [W3 [W4 W5]]]] exp stats types rot t Ht Hd. unfold get_metacal_exps. destruct (W1 exp) as [w ->]. destruct (W2 exp) as [k ->]. cbn [obind].
  assert (X : exists t, match stats with Some s => get_fitgauss_target_psf g s (qsum (pixels k)) | None => g_target g k w (qsum (pixels k)) end = Ok t)
    by (destruct stats; unfold get_fitgauss_target_psf; auto).
  destruct X as [p ->]. cbn [obind]. change (match types with None => DEFAULT_TYPES | Some l => l end) with (requested types).
  apply (fill_loop_raise _ (fun t0 => get_metacal_exp g exp (if rot then rot90 (e_image exp) else e_image exp) w k (g_dilate g p (1 + 2 * STEP)%Q)
    (g_drawpsf g (g_dilate g p (1 + 2 * STEP)%Q) k w) t0 rot)).
  - exists t. split; [exact Ht|]. unfold get_metacal_exp. rewrite shear_documented, Hd. reflexivity.
  - intros ty _. unfold get_metacal_exp. rewrite shear_documented. destruct (sget ty documented) as [s|]; [|right; reflexivity]. left. cbn [obind].
    destruct (W5 (if rot then rot90 (e_image exp) else e_image exp) w k s (g_dilate g p (1 + 2 * STEP)%Q)) as [m ->]. cbn [obind]. eauto.
Qed.
Lemma band_loop_known : works -> forall mbexp stats types rot lists, (forall t, In t types -> sget t documented <> None) ->
  match stats with Some s => List.length s = List.length mbexp | None => True end ->
  (forall t, In t types -> exists l, sget t lists = Some l) ->
  exists d, band_loop g mbexp stats types rot lists = Ok d.
Proof.
  intros Wk. induction mbexp as [|exp mb IH]; intros stats types rot lists HT HL HK; cbn [band_loop]; [eauto|].
  assert (X : exists st, match stats with None => Ok None | Some [] => Raise IndexError | Some (s :: _) => Ok (Some s) end = Ok st /\
      match option_map (@tl pstats) stats with Some s => List.length s = List.length mb | None => True end).
  { destruct stats as [[|s r]|]; [discriminate| |]; [exists (Some s)|exists None]; (split; [reflexivity|]); cbn in *; lia. }
  destruct X as [st [E0 HL2]]. rewrite E0. cbn [obind]. destruct (exps_known Wk exp st (Some types) rot HT) as [this E1]. rewrite E1. cbn [obind].
  destruct (exps_spec _ _ _ _ _ E1) as [N1 [K1 _]]. cbn [requested] in K1.
  destruct (append_loop_total _ this lists) as [l1 E2]; [intros t Ht; apply HK; apply K1; exact Ht|]. rewrite E2. cbn [obind].
  apply IH; [exact HT|exact HL2|]. intros t Ht. destruct (append_loop _ _ _ _ N1 E2) as [_ A]. rewrite A. destruct (HK t Ht) as [l ->].
  destruct (sget t this); cbn; eauto.
Qed.
Lemma mbexps_known : works -> forall mbexp types rot stats, (forall t, In t (requested types) -> sget t documented <> None) ->
  match stats with Some s => List.length s = List.length mbexp | None => True end ->
  exists d, get_metacal_mbexps g mbexp types rot stats = Ok d.
Proof.
  intros Wk mbexp types rot stats HT HL. unfold get_metacal_mbexps. change (match types with None => DEFAULT_TYPES | Some l => l end) with (requested types).
  assert (E0 : match stats with Some s => negb (zlen s =? zlen mbexp) | None => false end = false).
  { destruct stats as [s|]; [|reflexivity]. apply negb_false_iff. apply Z.eqb_eq. unfold zlen. lia. }
  rewrite E0.
  assert (HK : forall t, In t (requested types) -> exists l, sget t (fold_left (fun d t => sput t [] d) (requested types) []) = Some (l : list (exposure PSF I))).
  { intros t Ht. rewrite init_lists. apply smem_In in Ht. rewrite Ht. eauto. }
  destruct (band_loop_known Wk mbexp stats (requested types) rot _ HT HL HK) as [lists E1]. rewrite E1. cbn [obind].
  apply (fill_loop_total _ (fun t => dget t lists)). intros t Ht.
  destruct (band_loop_spec _ _ _ _ _ _ HL HK E1 t Ht) as [s [l0 [es [_ [G2 _]]]]]. unfold dget. rewrite G2. eauto.
Qed.
Lemma mbexps_fixnoise_known : works -> forall mbexp nmbexp types stats, (forall t, In t (requested types) -> sget t documented <> None) ->
  List.length nmbexp = List.length mbexp ->
  match stats with Some s => List.length s = List.length mbexp | None => True end ->
  exists d nd, get_metacal_mbexps_fixnoise g mbexp nmbexp types stats = Ok (d, nd).
Proof.
  intros Wk mbexp nmbexp types stats HT HL HS. unfold get_metacal_mbexps_fixnoise.
  destruct (mbexps_known Wk mbexp types false stats HT HS) as [d E1]. rewrite E1. cbn [obind].
  destruct (mbexps_known Wk nmbexp types true stats HT) as [n E2]; [destruct stats; auto; congruence|]. rewrite E2. cbn [obind].
  destruct (mbexps_spec _ _ _ _ _ E1) as [N1 [K1 _]]. destruct (mbexps_spec _ _ _ _ _ E2) as [N2 [K2 _]].
  destruct (change_loop_total _ _ (fun t => dget t n) fix_zip (skeys d) d) as [d1 E3].
  - intros t Ht. split; [apply sget_In; exact Ht|]. unfold dget. apply K1, K2 in Ht. apply sget_In in Ht. destruct Ht as [v ->]. eauto.
  - rewrite E3. cbn [obind]. eauto.
Qed.
End M.
