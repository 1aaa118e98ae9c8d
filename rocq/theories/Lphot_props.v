(** C86: run_photometry. *)
From Coq Require Import ZArith QArith List String Bool Lia Permutation.
From Verif Require Import Base Arr Median Dict Lutil_model Lutil_spec Lutil_proofs Lexp_model Lthr_model Lthr_spec Lthr_proofs
  Lmdet_model Lmdet_spec Lmdet_proofs Lmeas_model Lmeas_spec Lmeas_proofs Lphot_model Lphot_spec Lphot_proofs.
From Verif Require Lsky_model Lsky_spec Lscar_proofs.
Import ListNotations.
Local Open Scope string_scope.
Local Open Scope Z_scope.

(** The table: the objects are those that the detection with the requested
    threshold finds on the coadd of the caller's exposures, lowered by the sky if
    that was asked for; one row for each that has no children, with its position,
    its fits on the requested stamp size, shear bands and fwhm, the union of the
    masks at its own pixel, and the mean PSF of the shear bands. Missing: the
    columns bmask (C61) and mfrac (C57) are not those of the object; the last two
    lines say what they are. *)
Theorem C86_table_partial : forall P h user names bands ms ormasks h' bands' rows sz,
  user_heap h (asked user) -> stack_ok (ph_stack P) -> lists_set (ph_order P) ->
  (forall c d cat, ph_detect P c d = Ok (Some cat) -> catalogue cat) ->
  (forall c e, Lsky_spec.no_reestimate (ph_skydetect P c e)) ->
  weight_ok (ph_W P) -> 0 <= ph_rad P ->
  List.length names = List.length bands -> List.length ms = List.length bands -> one_box bands ->
  setting h user "stamp_size" = Some (VAtom (AInt sz)) -> 0 <= sz ->
  run_photometry P h user names bands (Some ms) ormasks = (h', bands', Ok (Some rows)) ->
  exists ss bands1 t c d cat cs want shear fs p fwhm env mf,
    (setting h user "subtract_sky" = Some (VAtom ss) /\ Forall2 sky_lowered bands bands1 /\ (truthy ss = false -> bands1 = bands) /\
     (truthy ss = true -> exists cs, value_at cs ["iterate_detection_and_skysub"; "detect"; "thresholdValue"] = Some (effective t) /\
        Forall2 (sky_iterated (ph_back P) (ph_skydetect P cs)) bands bands1)) /\
    (subsetting h user "detect" "thresh" = Some (VAtom t) /\ value_at c ["detect"; "thresholdValue"] = Some (effective t) /\
     match bands1 with [e] => d = ph_single P e | _ => coadd_exposures bands1 = Ok (Some d) end /\
     ph_detect P c d = Ok (Some cat) /\ Permutation cs (childless cat) /\ cs <> []) /\
    (wanted_bands (setting h user "shear_bands") names want /\ NoDup shear /\
     forall i, In i shear <-> 0 <= i /\ exists b, nth_error names (Z.to_nat i) = Some b /\ In b want) /\
    (map (ph_psffit P) bands1 = map Ok fs /\ (forall f, In f fs -> pf_flags f = 0) /\
     mean_psf (ph_to_g P) shear fs (map e_var bands) p) /\
    (Forall2 (fun e e' => same_frame e e' /\ e_image e' = e_image e) bands1 bands' /\ m_bands env = bands' /\ m_stamp_size env = sz /\
     m_gauss env = ph_gauss P shear /\ subsetting h user "pgauss" "fwhm" = Some (VAtom fwhm) /\ m_pgauss env = ph_pgauss P fwhm /\
     m_cen env = ph_cen P d /\ m_radec env = ph_radec P /\ m_no_attempt env = ph_no_attempt P) /\
    Forall2 (fun s r => object_row env (ph_label P shear) s r /\ ormask_column ormasks r /\ psf_columns p r) cs rows /\
    masks_by_position env cat rows /\
    (mean_map (map e_var bands) ms mf /\ forall r, In r rows -> mfrac_column (ph_W P) (ph_rad P) mf r).
Proof.
  intros P h user names bands ms ormasks h' bands' rows sz W So Ls Cat NR Wk Rk Ln Lm Ob Sz Sz0 H.
  destruct (phot_ok _ _ _ _ _ _ _ _ _ _ H) as (cfg & dims & om & mf & ws & ss & t & bands1 & sba & sb & shear & p & r & G & O & M & S1 & S2 & K & S3 & S4 & Ex & Fi & Me & R).
  clear H. destruct (config_values h user h' cfg W G) as [V1 V2].
  apply conf_option in S1, S3. apply subconf_option in S2.
  rewrite V1 in S1 by (cbn; intuition discriminate). rewrite V1 in S3 by (cbn; intuition discriminate). rewrite V2 in S2 by (cbn; tauto).
  assert (Lo : Forall2 sky_lowered bands bands1).
  { destruct (truthy ss); [exact (subtract_lowered _ _ _ _ _ K)|]. inversion K. apply Forall2_refl', sky_lowered_refl. }
  assert (Same : truthy ss = false -> bands1 = bands) by (intro T; rewrite T in K; congruence).
  destruct (phot_measure_ok _ _ _ _ _ _ _ _ Me) as (c & d & found & C1 & C2 & C3 & C4 & C5 & C6).
  destruct r as [raw|]; [|discriminate]. destruct R as (rows' & Fn & Er). apply Some_inj in Er. subst rows'.
  destruct found as [[|s0 cat0]|]; [discriminate| |discriminate]. set (cat := s0 :: cat0) in *.
  destruct C6 as (fwhm & a & sz' & F1 & F2 & F3 & F4). apply conf_option in F2. apply subconf_option in F1.
  rewrite V1 in F2 by (cbn; intuition discriminate). rewrite V2 in F1 by (cbn; tauto).
  assert (sz' = sz) by (rewrite Sz in F2; injection F2 as <-; cbn in F3; now apply Ok_inj in F3). subst sz'.
  assert (Dt : value_at c ["detect"; "thresholdValue"] = Some (effective t)).
  { destruct (detect_and_deblend_config (ph_stack P) t "sdss" None) as [u0 o0] eqn:Dd. cbn [snd] in C1. subst o0. exact (proj1 (dd_none _ _ _ _ _ So Dd)). }
  assert (Fr : Forall2 (fun e e' => same_frame e e' /\ e_image e' = e_image e) bands1 bands') by (subst bands'; apply after_detection_frames).
  assert (Ob1 : one_box bands1) by (exact (box_Forall2 _ _ _ sky_lowered_box Lo Ob)).
  assert (Ob' : one_box bands').
  { refine (box_Forall2 _ _ _ _ Fr Ob1). intros e e' [A B]. apply same_frame_box; [exact A|now rewrite B|now rewrite B]. }
  set (env := phot_env P c d bands' sz fwhm shear) in *.
  destruct (measure_objects env (ph_label P) (ph_order P) cat raw (Cat _ _ _ C3) Ls Sz0 Ob' F4) as (cs & sbi & Pe & Ne & Es & Fo & Mk).
  cbn in Es. apply Ok_inj in Es. subst sbi.
  assert (Lb : List.length bands1 = List.length bands) by (clear -Lo; induction Lo; cbn; congruence).
  pose proof (sorted_nodup _ (shear_bands_sorted names sb shear Ex)) as Nd.
  pose proof (shear_bands_exact names sb shear Ex) as Exact.
  assert (Rng : forall i, In i shear -> 0 <= i < zlen (map (ph_psffit P) bands1)).
  { intros i I. apply Exact in I. destruct I as (I0 & b & I1 & _). assert (X : nth_error names (Z.to_nat i) <> None) by congruence.
    apply nth_error_Some in X. unfold zlen. rewrite map_length, Lb. lia. }
  destruct (fit_original_means _ _ _ _ _ Nd Rng Fi) as (Lw & fs & Ef & Gf & Tot & Fl & Nv & M1 & M2 & M3 & M4).
  destruct (get_mfrac_spec _ _ _ _ M) as (Mw & Mq & Ms & Mx). { now rewrite map_length. }
  apply finish_ok in Fn.
  exists ss, bands1, t, c, d, cat, cs.
  assert (Want : exists want, wanted_bands (setting h user "shear_bands") names want /\
     forall i, In i shear <-> 0 <= i /\ exists b, nth_error names (Z.to_nat i) = Some b /\ In b want).
  { unfold names_of in S4. destruct sba as [|b|z|q|s|[|n0 l]]; try (destruct (truthy _) eqn:T in S4; [discriminate|]; apply Ok_inj in S4; subst sb;
      exists names; split; [left; split; [reflexivity|eauto]|exact Exact]).
    - destruct (String.eqb_spec s "") as [->|N]; [|discriminate]. apply Ok_inj in S4. subst sb. exists names.
      split; [left; split; [reflexivity|exists (AStr ""); auto]|exact Exact].
    - apply Ok_inj in S4. subst sb. exists names. split; [left; split; [reflexivity|exists (ANames []); auto]|exact Exact].
    - apply Ok_inj in S4. subst sb. exists (n0 :: l). split; [right; split; [discriminate|exact S3]|exact Exact]. }
  destruct Want as (want & Wa & Wx).
  exists want, shear, fs, p, fwhm, env, mf.
  split; [split; [exact S1|]; split; [exact Lo|]; split; [exact Same|]; intro T; rewrite T in K; exact (subtract_iterated _ _ _ _ So NR K)|].
  split; [repeat (split; [assumption|]); assumption|]. split; [repeat (split; [assumption|]); assumption|].
  split.
  { split; [exact Ef|]. split; [exact Gf|]. exists ws. split; [exact Mw|]. cbv zeta. repeat (split; [assumption|]). assumption. }
  split; [split; [exact Fr|]; repeat (split; [reflexivity|]); split; [exact F1|]; repeat split|].
  split.
  2: { split; [exact (finished_masks _ _ _ _ _ _ _ _ Fn Mk)|]. split; [exists ws; auto|].
       intros r Ir. clear -Fn Ir Wk Rk. induction Fn as [|a b l l' A F IH]; [destruct Ir|destruct Ir as [<-|Ir]; [exact (finished_mfrac _ _ _ _ _ _ Wk Rk A)|now apply IH]]. }
  clear -Fn Fo O Fl. revert rows Fn. induction Fo as [|s r cs raw A F IH]; intros rows Fn; inversion Fn; subst; constructor.
  - match goal with K : finished _ _ _ _ _ _ |- _ => rename K into Fz end. split; [|split].
    + apply (object_row_ext _ env _ s r _ (proj1 Fz) A).
    + exact (finished_ormask _ _ _ _ _ _ _ _ O Fz).
    + destruct Fz as (_ & _ & Z1 & Z2 & Z3 & Z4). split; [now rewrite Z1, Fl|]. auto.
  - now apply IH.
Qed.
Print Assumptions C86_table_partial.

(** None is returned exactly when there is no object without children. *)
Theorem C86_none : forall P h user names bands mfracs ormasks h' bands' res,
  user_heap h (asked user) -> stack_ok (ph_stack P) -> lists_set (ph_order P) -> (forall c d cat, ph_detect P c d = Ok (Some cat) -> catalogue cat) ->
  run_photometry P h user names bands mfracs ormasks = (h', bands', Ok res) ->
  exists bands1 t c d found, Forall2 sky_lowered bands bands1 /\
    Forall2 (fun e e' => e_image e' = e_image e) bands1 bands' /\
    subsetting h user "detect" "thresh" = Some (VAtom t) /\ value_at c ["detect"; "thresholdValue"] = Some (effective t) /\
    match bands1 with [e] => d = ph_single P e | _ => coadd_exposures bands1 = Ok (Some d) end /\
    ph_detect P c d = Ok found /\
    (res = None <-> found = None \/ exists cat, found = Some cat /\ childless cat = []).
Proof.
  intros P h user names bands mfracs ormasks h' bands' res W So Ls Cat H.
  destruct (phot_ok _ _ _ _ _ _ _ _ _ _ H) as (cfg & dims & om & mf & ws & ss & t & bands1 & sba & sb & shear & p & r & G & O & M & S1 & S2 & K & S3 & S4 & Ex & Fi & Me & R).
  destruct (phot_measure_ok _ _ _ _ _ _ _ _ Me) as (c & d & found & C1 & C2 & C3 & C4 & C5 & C6).
  exists bands1, t, c, d, found.
  split. { destruct (truthy ss); [exact (subtract_lowered _ _ _ _ _ K)|]. inversion K. apply Forall2_refl', sky_lowered_refl. }
  split. { subst bands'. refine (Lscar_proofs.Forall2_weaken _ _ _ _ _ _ _ (after_detection_frames P c d bands1)). now intros e e' []. }
  split. { apply subconf_option in S2. now rewrite (proj2 (config_values h user h' cfg W G)) in S2 by (cbn; tauto). }
  split. { destruct (detect_and_deblend_config (ph_stack P) t "sdss" None) as [u0 o0] eqn:Dd. cbn [snd] in C1. subst o0. exact (proj1 (dd_none _ _ _ _ _ So Dd)). }
  split; [exact C2|]. split; [exact C3|]. destruct found as [[|s cat]|].
  - subst r. split; [intros _; right; exists []; auto|auto].
  - destruct C6 as (fwhm & a & sz & F1 & F2 & F3 & F4). 
    destruct (measure_ok _ _ _ _ _ (Cat _ _ _ C3) Ls F4) as (cs & sbi & bms & Mi & Pe & _ & X).
    destruct r as [raw|].
    + destruct R as (rows & _ & ->). destruct X as (Ne & Le & _). split; [discriminate|]. intros [E|(cat' & E & N)]; [discriminate|].
      apply Some_inj in E. subst cat'. rewrite N in Pe. apply Permutation_sym, Permutation_nil in Pe. subst cs. destruct raw; [congruence|discriminate].
    + subst res cs. split; [intros _|auto]. right. eexists. split; [reflexivity|]. now apply Permutation_nil in Pe.
  - subst r. split; auto.
Qed.
Print Assumptions C86_none.

(** Whatever the outcome, the caller's dictionaries stay as they were, and the
    exposures lose at most some sky; with two bands or more nothing but the
    requested sky subtraction changes them. *)
Theorem C86_input : forall P h user names bands mfracs ormasks h' bands' o,
  user_heap h (asked user) -> run_photometry P h user names bands mfracs ormasks = (h', bands', o) ->
  firstn (List.length h) h' = h /\ Forall2 sky_lowered bands bands' /\
  (forall ss, setting h user "subtract_sky" = Some (VAtom ss) -> truthy ss = false -> (2 <= List.length bands)%nat -> bands' = bands).
Proof.
  intros P h user names bands mfracs ormasks h' bands' o W H. destruct (phot_input _ _ _ _ _ _ _ _ _ _ H) as (A & B & C).
  split; [rewrite A; now apply config_kept|]. split; [exact B|]. intros ss S T L.
  destruct (get_config h user) as [h1 [cfg|x]] eqn:G; cbn [fst] in A; subst h1.
  - apply (C cfg ss); auto. apply option_conf. rewrite (proj1 (config_values h user h' cfg W G)) by (cbn; intuition discriminate). exact S.
  - unfold run_photometry in H. rewrite G in H. now inversion H.
Qed.
Print Assumptions C86_input.

(** An unknown option raises a ValueError, before anything is changed. *)
Theorem C86_unknown_option : forall P h u names bands mfracs ormasks h' bands' o k,
  user_heap h u -> In k (keys_of h u) -> ~ In k (keys_of h DEFAULT) ->
  (forall k a, In k ["detect"; "metacal"; "pgauss"] -> option_of h u k <> Some (VAtom a)) ->
  run_photometry P h (Some u) names bands mfracs ormasks = (h', bands', o) ->
  o = Raise ValueError /\ bands' = bands /\ firstn (List.length h) h' = h.
Proof.
  intros P h u names bands mfracs ormasks h' bands' o k W I N A H. pose proof (get_config_unknown h u k W I N A) as E.
  pose proof (proj1 (get_config_unchanged h u W)) as F. unfold run_photometry in H.
  destruct (get_config h (Some u)) as [h1 r]. cbn [fst snd] in E, F. subst r. inversion H; subst. auto.
Qed.
Print Assumptions C86_unknown_option.

(** A shear band that is not among the bands raises; a PSF fit that fails raises
    too (the flag of C58 never reaches the caller). *)
Theorem C86_missing_band : forall P h user names bands mfracs ormasks h' bands' o want b,
  user_heap h (asked user) -> setting h user "shear_bands" = Some (VAtom (ANames want)) -> In b want -> ~ In b names ->
  run_photometry P h user names bands mfracs ormasks = (h', bands', o) -> exists x, o = Raise x.
Proof.
  intros P h user names bands mfracs ormasks h' bands' o want b W S I N H. destruct o as [res|x]; [exfalso|eauto].
  destruct (phot_ok _ _ _ _ _ _ _ _ _ _ H) as (cfg & dims & om & mf & ws & ss & t & bands1 & sba & sb & shear & p & r & G & O & M & S1 & S2 & K & S3 & S4 & Ex & Fi & Me & R).
  apply conf_option in S3. rewrite (proj1 (config_values h user h' cfg W G)) in S3 by (cbn; intuition discriminate). rewrite S in S3. injection S3 as <-.
  cbn in S4. apply Ok_inj in S4. subst sb. assert (X : extract_shear_band_indices names (Some want) = Raise RuntimeError).
  { apply shear_bands_error. exists b. split; [|exact N]. unfold Lutil_proofs.asked. destruct want; [destruct I|exact I]. }
  congruence.
Qed.
Print Assumptions C86_missing_band.
Theorem C86_psf_failure_raises : forall P h user names bands mfracs ormasks h' bands' o,
  (exists e, In e bands /\ forall e', same_frame e e' -> psf_failed (ph_psffit P e')) ->
  (forall e x, ph_psffit P e = Raise x -> x = BootPSFFailure \/ x = GMixFatalError) -> run_photometry P h user names bands mfracs ormasks = (h', bands', o) -> exists x, o = Raise x.
Proof.
  intros P h user names bands mfracs ormasks h' bands' o (e0 & I0 & F) Oth H. destruct o as [res|x]; [exfalso|eauto].
  destruct (phot_ok _ _ _ _ _ _ _ _ _ _ H) as (cfg & dims & om & mf & ws & ss & t & bands1 & sba & sb & shear & p & r & G & O & M & S1 & S2 & K & S3 & S4 & Ex & Fi & Me & R).
  destruct (phot_measure_ok _ _ _ _ _ _ _ _ Me) as (c & d & found & _ & _ & _ & _ & Nb & _).
  assert (L : zlen ws = zlen (map (ph_psffit P) bands1)).
  { unfold fit_original_psfs in Fi. destruct (zlen ws =? zlen (map (ph_psffit P) bands1)) eqn:E; [now apply Z.eqb_eq|discriminate]. }
  destruct (fit_original_failure (ph_to_g P) shear (map (ph_psffit P) bands1) ws L) as [X|X].
  - assert (Lo : Forall2 sky_lowered bands bands1).
    { destruct (truthy ss); [exact (subtract_lowered _ _ _ _ _ K)|]. inversion K. apply Forall2_refl', sky_lowered_refl. }
    assert (X : exists e1, In e1 bands1 /\ sky_lowered e0 e1).
    { clear -Lo I0. induction Lo as [|a b l l' A F IH]; [destruct I0|]. destruct I0 as [<-|I0]; [exists b; cbn; auto|]. destruct (IH I0) as (e1 & I1 & S1). exists e1. cbn. auto. }
    destruct X as (e1 & I1 & [Sf _]). exists (ph_psffit P e1). split; [now apply in_map|now apply F].
  - intros x I. apply in_map_iff in I. destruct I as (e & E & _). exact (Oth e x E).
  - congruence.
  - congruence.
Qed.
Print Assumptions C86_psf_failure_raises.

(** Without masked fractions, the default, every call raises. *)
Theorem C86_no_mfrac_raises : forall P h user names bands ormasks h' bands' o,
  run_photometry P h user names bands None ormasks = (h', bands', o) -> exists x, o = Raise x.
Proof.
  intros P h user names bands ormasks h' bands' o H. destruct o as [res|x]; [exfalso|eauto].
  destruct (phot_ok _ _ _ _ _ _ _ _ _ _ H) as (cfg & dims & om & mf & ws & ss & t & bands1 & sba & sb & shear & p & r & G & O & M & _). discriminate.
Qed.
Print Assumptions C86_no_mfrac_raises.

(** ** A concrete run: two bands of 9 x 9 pixels at corner (100, 200) *)
Definition two_back (e : exposure) (x : Lsky_model.exposure) : Lsky_model.failure + img Q := inr (ifill 9 9 (1 # 2)).
Definition quiet_detect (c : cfg) (e : exposure) (x : Lsky_model.exposure) : img Z * (Lsky_model.failure + unit * option (img Q)) :=
  (Lsky_model.x_mask x, inr (tt, None)).
Definition field_stack : cfg := CNode (map (fun ka => (fst ka, CLeaf (snd ka))) detect_settings).
Lemma field_stack_ok : stack_ok field_stack.
Proof. intros k a I. cbn in I. repeat (destruct I as [E|I]; [injection E as <- <-; eexists; reflexivity|]). destruct I. Qed.
Definition exA : exposure :=
  mkExp 100 200 (ifill 9 9 1%Q) (ifill 9 9 (Some 2%Q)) (ifill 9 9 0) (Some (fun _ _ => ifill 3 3 1%Q)) (Some 7).
Definition exB : exposure :=
  mkExp 100 200 (ifill 9 9 3%Q) (ifill 9 9 (Some 4%Q)) (ifill 9 9 0) (Some (fun _ _ => ifill 3 3 1%Q)) (Some 7).
Definition kid : source := mkSrc 2 0 [(106, 205)] ((1061 # 10)%Q, (2052 # 10)%Q).
Definition far : source := mkSrc 3 0 [(108, 205)] ((1081 # 10)%Q, (2052 # 10)%Q).
Definition phot1 : phot :=
  mkPhot field_stack two_back quiet_detect (fun e => Ok (mkPf 0 (1 # 10) 0 (px (e_image e) 0 0))) (fun a b => Some (a, b)) (fun _ _ => 1%Q) 2
    (fun e => mkCo (imap Some (e_image e)) (e_var e) (e_mask e) (ifill 3 3 (Some 1%Q)) (e_wcs e) (e_x0 e) (e_y0 e)) true
    (fun c d => Ok (Some [kid; far])) (fun c d => ifill 9 9 32) (fun d id => Some (inject_Z (104 + id), (2051 # 10))%Q) (fun _ => None)
    (fun _ _ _ => mkMat 1 0 0 1) (fun c => c)
    (fun sh obs => Ok (fun _ => CFit (10 + zlen obs))) (fun fw obs => Ok (fun _ => CFit (20 + zlen obs)))
    (0%Q, 0%Q) 1 32 (fun _ => "0") (fun l => l).
Definition user1 : heap := (default_heap ++ [[("subtract_sky", VAtom (ABool true)); ("stamp_size", VAtom (AInt 3)); ("shear_bands", VAtom (ANames ["r"]))]])%list.
Lemma user1_ok : user_heap user1 4.
Proof.
  split; [reflexivity|]. split; [cbn; lia|]. split.
  - intros d I. cbn in I. repeat (destruct I as [<-|I]; [repeat constructor; cbn; intuition discriminate|]). destruct I.
  - intros k q E. unfold option_of in E. cbn in E. repeat (destruct (String.eqb k _); [discriminate|]). discriminate.
Qed.
Definition om1 : img Z := mkImg 9 9 (fun i j => if (i =? 5) && (j =? 6) then 5 else 0).
Definition mf1 : list (img Q) := [ifill 9 9 0%Q; ifill 9 9 (1 # 4)].
Example C86_example : exists h' bands' a b,
  run_photometry phot1 user1 (Some 4%nat) ["g"; "r"] [exA; exB] (Some mf1) (Some [om1; ifill 9 9 2]) = (h', bands', Ok (Some [a; b])) /\
  sget "stamp_flags" a = Some (CInt 0) /\ sget "stamp_flags" b = Some (CInt (2 ^ 20)) /\ sget "gauss_T" a = Some (CFit 12) /\
  sget "ormask" a = Some (CInt 7) /\ sget "psfrec_navg" a = Some (CInt 1) /\
  (exists T, sget "psfrec_T" a = Some (CNum (Some T)) /\ (T == 2)%Q) /\
  map (fun e => Qred (px (e_image e) 0 0)) bands' = [0%Q; 2%Q] /\
  stack_ok field_stack /\ lists_set (ph_order phot1) /\ catalogue [kid; far] /\ one_box [exA; exB] /\
  (forall c e, Lsky_spec.no_reestimate (ph_skydetect phot1 c e)) /\ weight_ok (ph_W phot1) /\ 0 <= ph_rad phot1.
Proof.
  do 4 eexists. split; [vm_compute; reflexivity|]. do 5 (split; [reflexivity|]). split; [eexists; split; [reflexivity|reflexivity]|].
  split; [reflexivity|]. split; [exact field_stack_ok|]. split; [intros l _; apply Permutation_refl|].
  split; [repeat constructor; cbn; intuition lia|]. split; [intros e e' [<-|[<-|[]]] [<-|[<-|[]]]; reflexivity|].
  split; [intros c e x m r bg E; inversion E; reflexivity|]. split; [split; [intros; discriminate|intros; reflexivity]|discriminate].
Qed.
(** With a single band that is an ExposureF the mask of the caller's exposure is
    changed by the detection although no sky subtraction was asked for. *)
Theorem C86_one_band_refuted : exists P h names e h' e' r,
  run_photometry P h None names [e] (Some [ifill 9 9 0%Q]) None = (h', [e'], Ok r) /\
  setting h None "subtract_sky" = Some (VAtom (ABool false)) /\ e_image e' = e_image e /\ px (e_mask e) 0 0 = 0 /\ px (e_mask e') 0 0 = 32.
Proof. exists phot1, user1, ["g"], exA. do 3 eexists. split; [vm_compute; reflexivity|]. repeat split. Qed.
Print Assumptions C86_one_band_refuted.
(** A failing call can leave the caller's exposures with the sky subtracted. *)
Theorem C86_failed_changes_refuted : exists P h user names bands h' bands' x,
  run_photometry P h user names bands (Some mf1) None = (h', bands', Raise x) /\
  map (fun e => Qred (px (e_image e) 0 0)) bands <> map (fun e => Qred (px (e_image e) 0 0)) bands'.
Proof. exists phot1, user1, (Some 4%nat), ["g"; "i"], [exA; exB]. do 3 eexists. split; [vm_compute; reflexivity|]. discriminate. Qed.
Print Assumptions C86_failed_changes_refuted.
