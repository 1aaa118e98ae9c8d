(** C130: more masking in never gives less masking out. *)
From Coq Require Import ZArith QArith Reals List Bool String Lia Lra.
From Verif Require Import Base Arr Median Mono_spec Mono_proofs.
From Verif Require Dict Detect_model Summ_model Coadd_model Lexp_model Lmdet_model Lmeas_model Masking_model Masking_spec Masking_proofs Masking_props
  Lmask_model Lmask_spec Lmask_props Lmdet_props.
Import ListNotations.
Local Open Scope string_scope.
Local Open Scope Z_scope.

(** C130: the detection image and noise do not depend on the masks, and what was
    excluded from detection still is. *)
Theorem C130_detection : forall r c nodet nodet' bands bands', bits_in nodet nodet' -> Forall2 (more_band r c) bands bands' ->
  both (more_detim r c) (Detect_model.set_detim nodet bands) (Detect_model.set_detim nodet' bands').
Proof. exact detim_more. Qed.
Print Assumptions C130_detection.
Example C130_detection_example :
  let b m := Detect_model.mkBand (ifill 1 2 3%Q) (ifill 1 2 1%Q) (Some (mkImg 1 2 (fun _ j => if j =? 0 then m else 8))) in
  Forall2 (more_band 1 2) [b 0; b 1] [b 2; b 1] /\
  exists x y, Detect_model.set_detim 2 [b 0; b 1] = Some x /\ Detect_model.set_detim 2 [b 2; b 1] = Some y /\ px (snd x) 0 0 = false /\ px (snd y) 0 0 = true.
Proof.
  intros b. split.
  - assert (K : forall m m', bits_in m m' -> more_band 1 2 (b m) (b m')).
    { intros m m' H. split; [reflexivity|]. split; [reflexivity|]. split; [split; reflexivity|]. cbn [both b Detect_model.b_bmask]. split; [split; reflexivity|]. split; [split; reflexivity|].
      intros i j _ _. cbn [px]. destruct (j =? 0); [exact H|now intros k]. }
    constructor; [|constructor; [|constructor]]; apply K; [|now intros k]. intros k. rewrite Z.bits_0. discriminate.
  - eexists. eexists. split; [reflexivity|]. split; [reflexivity|]. split; reflexivity.
Qed.

(** C130: the mask planes of the observations, from which the mask columns are read. *)
Theorem C130_masks : forall r c mb mb', Forall2 (Forall2 (more_sobs r c)) mb mb' ->
  outcomes (fun a b => grows bits_in r c (fst a) (fst b) /\ grows bits_in r c (snd a) (snd b))
    (Summ_model.get_ormask_and_bmask mb) (Summ_model.get_ormask_and_bmask mb').
Proof. exact masks_more. Qed.
Print Assumptions C130_masks.
(** C130: the mask columns, for more masked pixels and for a larger region around the
    objects. *)
Theorem C130_mask_column : forall reg reg' pos m m', reg <= reg' -> 0 < nr m -> 0 < nc m -> grows bits_in (nr m) (nc m) m m' ->
  exists l l', Summ_model.fill_in_mask_col reg pos m = Ok l /\ Summ_model.fill_in_mask_col reg' pos m' = Ok l' /\ Forall2 bits_in l l'.
Proof. exact column_more. Qed.
Print Assumptions C130_mask_column.
(** C130: the masked fraction over the bands. *)
Theorem C130_masked_fraction : forall r c mb mb', Forall2 (Forall2 (more_sobs r c)) mb mb' ->
  outcomes (grows Qle r c) (Summ_model.get_mfrac mb) (Summ_model.get_mfrac mb').
Proof. exact combined_more. Qed.
Print Assumptions C130_masked_fraction.
Definition ex_sobs (b : Z) (f : Q) : Summ_model.sobs :=
  Summ_model.mkSobs (ifill 2 2 4%Q) (Some (ifill 2 2 f)) (ifill 2 2 b) (ifill 2 2 b).
Lemma ex_sobs_more : forall b b' f f', bits_in b b' -> (f <= f')%Q -> more_sobs 2 2 (ex_sobs b f) (ex_sobs b' f').
Proof.
  intros b b' f f' B F. split; [reflexivity|]. split; [split; reflexivity|]. split; [|split]; (split; [split; reflexivity|]; split; [split; reflexivity|]; intros i j _ _; assumption).
Qed.
Example C130_summaries_example :
  Forall2 (Forall2 (more_sobs 2 2)) [[ex_sobs 1 0]; [ex_sobs 4 (1 # 2)]] [[ex_sobs 3 (1 # 4)]; [ex_sobs 4 (1 # 2)]] /\
  exists v v', Summ_model.get_mfrac [[ex_sobs 1 0]; [ex_sobs 4 (1 # 2)]] = Ok v /\ Summ_model.get_mfrac [[ex_sobs 3 (1 # 4)]; [ex_sobs 4 (1 # 2)]] = Ok v' /\
  (px v 0 1 == 1 # 4)%Q /\ (px v' 0 1 == 3 # 8)%Q /\
  Summ_model.fill_in_mask_col 1 [(0, 1)%Q] (ifill 2 2 5) = Ok [5] /\ Summ_model.fill_in_mask_col 3 [(0, 1)%Q] (ifill 2 2 7) = Ok [7].
Proof.
  split.
  - constructor; [constructor; [|constructor]|constructor; [constructor; [|constructor]|constructor]]; apply ex_sobs_more; try discriminate; [|now intros k]. intros k H.
    change 3 with (Z.lor 1 2). rewrite Z.lor_spec, H. reflexivity.
  - eexists. eexists. split; [reflexivity|]. split; [reflexivity|]. split; [vm_compute; reflexivity|]. split; [vm_compute; reflexivity|]. split; vm_compute; reflexivity.
Qed.

(** C130: the masked fraction of the objects; [g] is the weight within the aperture
    [near]. *)
Theorem C130_object_mfrac : forall mf mf' bm objs, 0 <= nr mf -> 0 <= nc mf -> grows Qle (nr mf) (nc mf) mf mf' ->
  (forall y x b g near, In (y, x, b, (g, near)) objs -> forall i j, near i j = true -> (0 <= g i j)%Q) ->
  outcomes (Forall2 mval_le) (Detect_model.measure_mfrac mf bm objs) (Detect_model.measure_mfrac mf' bm objs).
Proof. exact mfrac_objects_more. Qed.
Print Assumptions C130_object_mfrac.
Example C130_object_mfrac_example :
  let o := (1%Q, 1%Q, 3, ((fun _ _ : Z => 1%Q), (fun _ _ : Z => true))) in
  let bm := ifill 3 3 0 in let mf := ifill 3 3 (1 # 2)%Q in let mf' := mkImg 3 3 (fun i _ => if i =? 1 then 1 else 1 # 2)%Q in
  grows Qle 3 3 mf mf' /\
  exists v v', Detect_model.measure_mfrac mf bm [o] = Ok [Detect_model.MNum v] /\ Detect_model.measure_mfrac mf' bm [o] = Ok [Detect_model.MNum v'] /\
  (v < v')%Q.
Proof.
  intros o bm mf mf'. split.
  - split; [split; reflexivity|]. split; [split; reflexivity|]. intros i j _ _. unfold mf, mf'. cbn [px ifill]. destruct (i =? 1); discriminate.
  - eexists. eexists. split; [reflexivity|]. split; [reflexivity|]. vm_compute. reflexivity.
Qed.

(** C130: the coadd of an object's stamps: the mask planes and the masked fraction grow,
    the rest and the flags are the same. *)
Theorem C130_coadd : forall r c mb mb' shear_bands, Forall2 (Forall2 (more_fobs r c)) mb mb' ->
  outcomes (more_coadd r c) (Coadd_model.make_coadd_obs mb shear_bands) (Coadd_model.make_coadd_obs mb' shear_bands).
Proof. exact coadd_more. Qed.
Print Assumptions C130_coadd.
Definition ex_fobs (b : Z) (f : Q) : Coadd_model.fobs :=
  Coadd_model.mkFobs (ifill 1 1 5%Q) (ifill 1 1 1%Q) 0 (Some (Coadd_model.mkPsf (ifill 1 1 1%Q) (ifill 1 1 1%Q) 0)) (Some (ifill 1 1 f)) None (Some (ifill 1 1 b)) None.
Example C130_coadd_example :
  Forall2 (Forall2 (more_fobs 1 1)) [[ex_fobs 0 0]; [ex_fobs 1 0]] [[ex_fobs 2 1]; [ex_fobs 1 0]] /\
  exists o o', Coadd_model.make_coadd_obs [[ex_fobs 0 0]; [ex_fobs 1 0]] [0; 1] = Ok (Some o, 0) /\ Coadd_model.make_coadd_obs [[ex_fobs 2 1]; [ex_fobs 1 0]] [0; 1] = Ok (Some o', 0) /\
    exists b b', Coadd_model.f_bmask o = Some b /\ Coadd_model.f_bmask o' = Some b' /\ px b 0 0 = 1 /\ px b' 0 0 = 3.
Proof.
  assert (K : forall b b' f f', bits_in b b' -> (f <= f')%Q -> more_fobs 1 1 (ex_fobs b f) (ex_fobs b' f')).
  { intros b b' f f' B F. split; [reflexivity|]. split; [split; reflexivity|]. split; [split; [split; reflexivity|]; split; [split; reflexivity|]; reflexivity|]. split; [reflexivity|]. split; [reflexivity|]. split; [reflexivity|].
    split; [|split; [|exact Logic.I]]; (split; [split; reflexivity|]; split; [split; reflexivity|]; intros i j _ _; assumption). }
  split.
  - constructor; [constructor; [|constructor]|constructor; [constructor; [|constructor]|constructor]]; apply K; try discriminate; [|now intros k]. intros k. rewrite Z.bits_0. discriminate.
  - eexists. eexists. split; [reflexivity|]. split; [reflexivity|]. eexists. eexists. split; [reflexivity|]. split; [reflexivity|]. split; reflexivity.
Qed.

(** C130: bright object masks, the mask alone and the whole correction, when objects
    are added to the catalogue. *)
Theorem C130_bright_mask : forall cat cat' r c s bit m m', incl cat cat' -> Masking_spec.radii_ok cat' ->
  Masking_model.make_foreground_bmask cat r c s bit = Ok m -> Masking_model.make_foreground_bmask cat' r c s bit = Ok m' -> grows bits_in r c m m'.
Proof. exact bright_bmask_more. Qed.
Print Assumptions C130_bright_mask.
Theorem C130_bright_apodize : forall W (sv : Masking_model.services W) mbobs cat cat' rad bit ebit ibit s h iso out out' r c,
  (0 < h)%R -> incl cat cat' -> Masking_spec.radii_ok cat' -> Masking_spec.mb_shape r c mbobs -> fractions r c mbobs ->
  Masking_model.apply_foreground_masking_corrections sv mbobs cat "apodize" rad bit ebit ibit s h iso = Ok out ->
  Masking_model.apply_foreground_masking_corrections sv mbobs cat' "apodize" rad bit ebit ibit s h iso = Ok out' ->
  Forall2 (Forall2 (heavier r c 0)) out out'.
Proof. exact bright_apodize_more. Qed.
Print Assumptions C130_bright_apodize.
(** With the interpolating methods this holds for all bits if some pixel is left, and
    for all but the interpolation bit if not. *)
Theorem C130_bright_interp : forall W (sv : Masking_model.services W) mbobs cat cat' (noise : bool) rad bit ebit ibit s h iso out out' r c except,
  incl cat cat' -> Masking_spec.radii_ok cat' -> Masking_spec.mb_shape r c mbobs -> fractions r c mbobs -> bit <> 0 -> Masking_spec.draws_ok sv ->
  except = ibit \/ (except = 0 /\ exists i j, 0 <= i < r /\ 0 <= j < c /\ ~ Masking_spec.masked cat' s r i j) ->
  Masking_model.apply_foreground_masking_corrections sv mbobs cat (if noise then "interp-noise" else "interp") rad bit ebit ibit s h iso = Ok out ->
  Masking_model.apply_foreground_masking_corrections sv mbobs cat' (if noise then "interp-noise" else "interp") rad bit ebit ibit s h iso = Ok out' ->
  Forall2 (Forall2 (heavier r c except)) out out'.
Proof. exact bright_interp_more. Qed.
Print Assumptions C130_bright_interp.

Import Masking_model Masking_spec Masking_proofs.
Definition all_cat : list hole := (Masking_props.ex_cat ++ [mkHole 1 1 10])%list.
Lemma all_cat_ok : radii_ok all_cat.
Proof. intros h Hh. unfold all_cat in Hh. apply in_app_iff in Hh. destruct Hh as [Hh|[<-|[]]]; [now apply Masking_props.ex_cat_ok|cbn; lra]. Qed.
Lemma all_cat_all : forall p, in_image 3 3 p -> masked all_cat false 3 (fst p) (snd p).
Proof.
  intros [i j] [Hi Hj]. cbn [fst snd] in *. exists (mkHole 1 1 10). split; [unfold all_cat; apply in_app_iff; right; now left|]. left. apply covers_iff; cbn [h_x h_y h_r]; [lra|].
  assert (Ii : (0 <= IZR i <= 2)%R) by (split; apply IZR_le; lia). assert (Ij : (0 <= IZR j <= 2)%R) by (split; apply IZR_le; lia). nra.
Qed.
(** C130: an object that covers everything takes the interpolation bit away: pixel (1, 1)
    has it with the small catalogue and not with the larger one. *)
Theorem C130_bright_interp_refuted : exists mbobs cat cat' out out' o o',
  incl cat cat' /\ radii_ok cat' /\ mb_shape 3 3 mbobs /\ fractions 3 3 mbobs /\
  apply_foreground_masking_corrections Masking_props.ex_sv mbobs cat "interp" 0 4 32 16 false (3 / 2) 1 = Ok out /\
  apply_foreground_masking_corrections Masking_props.ex_sv mbobs cat' "interp" 0 4 32 16 false (3 / 2) 1 = Ok out' /\
  nth_error (nth 0 out []) 0 = Some o /\ nth_error (nth 0 out' []) 0 = Some o' /\
  Z.land (px (o_bmask o) 1 1) 16 = 16 /\ Z.land (px (o_bmask o') 1 1) 16 = 0.
Proof.
  set (mb := [[Masking_props.ex_obs]; [Masking_props.ex_obs]]). exists mb, Masking_props.ex_cat, all_cat.
  assert (TOT : forall cat, radii_ok cat -> exists out, apply_foreground_masking_corrections Masking_props.ex_sv mb cat "interp" 0 4 32 16 false (3 / 2) 1 = Ok out).
  { intros cat RO. apply (Masking_props.C19_no_raise unit Masking_props.ex_sv mb cat "interp" 0 4 32 16 false (3 / 2) 1 3 3);
      try lra; try lia; try tauto; try exact RO; try exact Masking_props.ex_shape; try exact Masking_props.ex_valid; try exact Masking_props.ex_draws.
    - exists Masking_props.ex_obs. reflexivity.
    - intros pts Hp. destruct pts; [now elim Hp|]. eexists; reflexivity. }
  destruct (TOT _ Masking_props.ex_cat_ok) as [out E], (TOT _ all_cat_ok) as [out' E']. exists out, out'.
  destruct (Masking_props.C19_interp unit Masking_props.ex_sv _ _ false 0 4 32 16 false (3 / 2) 1 out 3 3 Masking_props.ex_cat_ok Masking_props.ex_shape ltac:(lia) Masking_props.ex_draws E) as [extra [Hx F]].
  destruct (Masking_props.C19_interp unit Masking_props.ex_sv _ _ false 0 4 32 16 false (3 / 2) 1 out' 3 3 all_cat_ok Masking_props.ex_shape ltac:(lia) Masking_props.ex_draws E') as [extra' [Hx' F']].
  inversion F as [|? ? ? ? F1 _]; subst. inversion F1 as [|? o ? ? [_ [K I]] _]; subst.
  inversion F' as [|? ? ? ? F1' _]; subst. inversion F1' as [|? o' ? ? [_ [K' I']] _]; subst.
  exists o, o'. split; [unfold all_cat; apply incl_appl, incl_refl|]. split; [exact all_cat_ok|]. split; [exact Masking_props.ex_shape|].
  split. { intros ol q m i j Hol Hq Hm _ _. assert (q = Masking_props.ex_obs) as -> by (destruct Hol as [<-|[<-|[]]]; destruct Hq as [<-|[]]; reflexivity). apply Some_inj in Hm. subst m. cbn. lra. }
  split; [exact E|]. split; [exact E'|]. split; [reflexivity|]. split; [reflexivity|].
  assert (X : extra 1 1 = 0) by (apply (Hx 1 1 ltac:(lia) ltac:(lia)); intros [Y _]; lra).
  assert (X' : extra' 1 1 = 0) by (apply (Hx' 1 1 ltac:(lia) ltac:(lia)); intros [Y _]; lra).
  destruct I as [[All _]|[_ [_ [_ S]]]]; [exfalso; apply Masking_props.ex_nm; apply (All (0, 0)); split; cbn; lia|].
  destruct (S 1 1 ltac:(lia) ltac:(lia) Masking_props.ex_m) as (_ & B & _).
  destruct I' as [[_ [_ [_ S']]]|[(p & Ip & Np) _]]; [|exfalso; apply Np; now apply all_cat_all].
  destruct (S' 1 1 ltac:(lia) ltac:(lia)) as (_ & B' & _). rewrite B, B', X, X'. split; reflexivity.
Qed.
Print Assumptions C130_bright_interp_refuted.
Example C130_bright_example : incl Masking_props.ex_cat all_cat /\ radii_ok all_cat /\ masked all_cat false 3 0 0 /\ ~ masked Masking_props.ex_cat false 3 0 0.
Proof.
  split; [unfold all_cat; apply incl_appl, incl_refl|]. split; [exact all_cat_ok|]. split; [apply (all_cat_all (0, 0)); split; cbn; lia|exact Masking_props.ex_nm].
Qed.

(** C130, LSST: bright objects. *)
Theorem C130_lsst_bright : forall wcs xy0 info info' bit ebit r c w, incl info info' -> (forall b, In b info' -> (0 <= Lmask_model.br_rad b)%R) -> Lmask_spec.world_ok r c w ->
  (forall d b m i j, Lmask_model.w_mfrac w = Some d -> In (b, m) d -> 0 <= i < r -> 0 <= j < c -> (px m i j <= 1)%R) ->
  exists w1 w2, Lmask_model.apply_bright wcs xy0 info bit ebit w = Ok w1 /\ Lmask_model.apply_bright wcs xy0 info' bit ebit w = Ok w2 /\
    heavier_world r c (Dict.skeys (Lmask_model.w_exp w)) w1 w2.
Proof. exact lsst_bright_more. Qed.
Print Assumptions C130_lsst_bright.
Example C130_lsst_bright_example : forall wcs, exists w1 w2,
  Lmask_model.apply_bright wcs (5, 7) [Lmask_model.mkBright 1 2 3] 16 32 Lmask_props.world20 = Ok w1 /\
  Lmask_model.apply_bright wcs (5, 7) [Lmask_model.mkBright 4 2 6; Lmask_model.mkBright 1 2 3] 16 32 Lmask_props.world20 = Ok w2 /\
  heavier_world 20 25 ["g"; "r"] w1 w2.
Proof.
  intro wcs. apply (C130_lsst_bright wcs (5, 7) _ _ 16 32 20 25 Lmask_props.world20).
  - intros b [<-|[]]. right. now left.
  - intros b [<-|[<-|[]]]; cbn; lra.
  - exact Lmask_props.C66_world20.
  - intros d b m i j E I _ _. apply Some_inj in E. subst d. destruct I as [H|[H|[]]]; inversion H; cbn; lra.
Qed.

(** C130, LSST: the or-mask over the bands and its column. *)
Theorem C130_lsst_ormask : forall r c dims ms ms', Forall2 (grows bits_in r c) ms ms' ->
  outcomes (grows bits_in r c) (Lmdet_model.combine_ormasks dims (Some ms)) (Lmdet_model.combine_ormasks dims (Some ms')).
Proof. exact ormasks_more. Qed.
Print Assumptions C130_lsst_ormask.
(** C130, LSST: the values of the detection mask at the peaks. *)
Theorem C130_lsst_bmask : forall r c env env' cat, Lmeas_model.m_dety0 env' = Lmeas_model.m_dety0 env -> Lmeas_model.m_detx0 env' = Lmeas_model.m_detx0 env ->
  grows bits_in r c (Lmeas_model.m_detmask env) (Lmeas_model.m_detmask env') ->
  outcomes (Forall2 bits_in) (Lmeas_model.get_bmasks env cat) (Lmeas_model.get_bmasks env' cat).
Proof. exact bmasks_more. Qed.
Print Assumptions C130_lsst_bmask.
(** C130, LSST: the coadd used for detection and measurement: only the mask changes. *)
Theorem C130_lsst_coadd : forall r c es es', Forall2 (more_exp r c) es es' ->
  outcomes (both (more_coadded r c)) (Lexp_model.coadd_exposures es) (Lexp_model.coadd_exposures es').
Proof. exact lsst_coadd_more. Qed.
Print Assumptions C130_lsst_coadd.
(** C130, LSST: a whole run with more bits in the or-masks and larger masked fractions:
    the same tables, except for more bits and larger fractions. *)
Theorem C130_lsst_run : forall r c d oms mfs, 0 <= r -> 0 <= c -> Lmdet_model.d_dims d = (r, c) -> (forall u v, (0 <= Lmdet_model.d_W d u v)%Q) ->
  both (Forall2 (grows bits_in r c)) (Lmdet_model.d_ormasks d) oms -> both (Forall2 (grows Qle r c)) (Lmdet_model.d_mfracs d) mfs ->
  (forall ms m i j, Lmdet_model.d_mfracs d = Some ms -> In m ms -> 0 <= i < r -> 0 <= j < c -> (0 <= px m i j)%Q) ->
  outcomes more_tables (Lmdet_model.task_run d) (Lmdet_model.task_run (with_masks d oms mfs)).
Proof. exact run_more. Qed.
Print Assumptions C130_lsst_run.
Example C130_lsst_run_example :
  let d := Lmdet_props.run_ex 0 in let oms := Some [Lmdet_props.om2; Lmdet_props.om2] in let mfs := Some [ifill 4 5 (3 # 4)%Q; ifill 4 5 (1 # 4)%Q] in
  let d0 := with_masks d (Some [ifill 4 5 0; Lmdet_props.om2]) (Lmdet_model.d_mfracs d) in
  Lmdet_model.d_dims d0 = (4, 5) /\ both (Forall2 (grows bits_in 4 5)) (Lmdet_model.d_ormasks d0) oms /\ both (Forall2 (grows Qle 4 5)) (Lmdet_model.d_mfracs d0) mfs /\
  exists x y x' y', Lmdet_model.task_run d0 = Ok x /\ Lmdet_model.task_run (with_masks d0 oms mfs) = Ok y /\
  nth_error (fst x) 0 = Some ("noshear", Some x') /\ nth_error (fst y) 0 = Some ("noshear", Some y') /\
  map Lmdet_model.l_ormask x' = [2; 2] /\ map Lmdet_model.l_ormask y' = [2; 2] /\
  exists v v', map Lmdet_model.l_mfrac x' = [Some v; Some v] /\ map Lmdet_model.l_mfrac y' = [Some v'; Some v'] /\ (v < v')%Q.
Proof.
  intros d oms mfs d0. split; [reflexivity|].
  assert (Z0 : forall b, bits_in 0 b) by (intros b k; rewrite Z.bits_0; discriminate).
  split; [constructor; [|constructor; [|constructor]]; (split; [split; reflexivity|]; split; [split; reflexivity|]); intros i j _ _; [apply Z0|now intros k]|].
  split; [constructor; [|constructor; [|constructor]]; (split; [split; reflexivity|]; split; [split; reflexivity|]); intros i j _ _; discriminate|].
  do 4 eexists. split; [vm_compute; reflexivity|]. split; [vm_compute; reflexivity|]. split; [reflexivity|]. split; [reflexivity|]. split; [reflexivity|]. split; [reflexivity|].
  do 2 eexists. split; [reflexivity|]. split; [reflexivity|]. reflexivity.
Qed.
Example C130_lsst_coadd_example :
  let e b := Lexp_model.mkExp 0 0 (ifill 2 2 3%Q) (ifill 2 2 (Some 1%Q)) (ifill 2 2 b) (Some (fun _ _ => ifill 1 1 1%Q)) (Some 1) in
  Forall2 (more_exp 2 2) [e 0; e 1] [e 2; e 1] /\
  exists x y, Lexp_model.coadd_exposures [e 0; e 1] = Ok (Some x) /\ Lexp_model.coadd_exposures [e 2; e 1] = Ok (Some y) /\ px (Lexp_model.c_mask x) 0 0 = 1 /\ px (Lexp_model.c_mask y) 0 0 = 3.
Proof.
  intros e. split.
  - assert (K : forall b b', bits_in b b' -> more_exp 2 2 (e b) (e b')) by (intros b b' H; do 6 (split; [reflexivity|]); split; [split; reflexivity|]; split; [split; reflexivity|]; intros i j _ _; exact H).
    constructor; [|constructor; [|constructor]]; apply K; [|now intros k]. intros k. rewrite Z.bits_0. discriminate.
  - eexists. eexists. split; [reflexivity|]. split; [reflexivity|]. split; reflexivity.
Qed.
