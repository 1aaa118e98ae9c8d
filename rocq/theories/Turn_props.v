(** C128: rows and columns are treated alike. *)
From Coq Require Import ZArith QArith Reals List String Bool Lia Lra.
From Verif Require Import Base Arr Median Turn_spec Turn_proofs.
From Verif Require Detect_model Detect_props Summ_model Summ_props Coadd_model Coadd_props Lexp_model Lexp_props
  Masking_model Masking_spec Masking_proofs Masking_props Lmask_model Lmask_props Shearpos_model Shearpos_proofs Interp_model Interp_props Lmdet_model.
Import ListNotations.
Local Open Scope string_scope.
Local Open Scope Z_scope.

(** The detection image, its noise level and its mask. *)
Theorem C128_detection : forall nodet bands,
  both turned_detim (Detect_model.set_detim nodet bands) (Detect_model.set_detim nodet (map tr_band bands)).
Proof. exact detim_turned. Qed.
Print Assumptions C128_detection.

(** The catalogue of what sep detects: the same objects, numbers and boxes, with the
    coordinates exchanged, or the same error. *)
Theorem C128_catalogue : forall fwhm mc maxrow maxcol objs,
  match Detect_model.run_sep_catalog fwhm mc maxrow maxcol objs with
  | Ok cat => Detect_model.run_sep_catalog fwhm mc maxcol maxrow (map tr_det objs) = Ok (map tr_entry cat)
  | Raise e => Detect_model.run_sep_catalog fwhm mc maxcol maxrow (map tr_det objs) = Raise e
  end.
Proof.
  intros fwhm mc maxrow maxcol objs. destruct (Detect_model.run_sep_catalog fwhm mc maxrow maxcol objs) as [cat|e] eqn:E.
  - exact (catalogue_turned _ _ _ _ _ _ E).
  - exact (catalogue_error_turned _ _ _ _ _ _ E).
Qed.
Print Assumptions C128_catalogue.
Theorem C128_medsify : forall maxrow maxcol (objs : list (Q * Q * Z)) number,
  Detect_model.catalog_medsify maxcol maxrow (map (fun o => (snd (fst o), fst (fst o), snd o)) objs) number =
  map tr_entry (Detect_model.catalog_medsify maxrow maxcol objs number).
Proof. exact medsify_turned. Qed.
Print Assumptions C128_medsify.

(** The postage stamps, whether they overlap the edge or not. *)
Theorem C128_stamps : forall m k t, outcomes (turned eq) (Detect_model.get_cutout m k t) (Detect_model.get_cutout (tr_meds m) k t).
Proof. exact stamps_turned. Qed.
Print Assumptions C128_stamps.

(** The masked fraction of an object, with a weight function that has its arguments
    exchanged too. *)
Theorem C128_object_mfrac : forall mf bm g g' near near' y x box, (forall i j, g' j i = g i j) -> (forall i j, near' j i = near i j) ->
  outcomes same_mval (Detect_model.measure_mfrac_one mf bm g near y x box) (Detect_model.measure_mfrac_one (tr mf) (tr bm) g' near' x y box).
Proof. exact mfrac_turned. Qed.
Print Assumptions C128_object_mfrac.

(** The mask columns of the catalogue. *)
Theorem C128_mask_columns : forall reg pos mask,
  Summ_model.fill_in_mask_col reg (map swap pos) (tr mask) = Summ_model.fill_in_mask_col reg pos mask.
Proof. exact mask_column_turned. Qed.
Print Assumptions C128_mask_columns.

(** The masked fraction and the ORed masks of all bands. *)
Theorem C128_masked_fraction : forall mb,
  outcomes (turned Qeq) (Summ_model.get_mfrac mb) (Summ_model.get_mfrac (map (map tr_sobs) mb)).
Proof. exact get_mfrac_turned. Qed.
Print Assumptions C128_masked_fraction.
Theorem C128_masks : forall mb, outcomes (fun a b => turned eq (fst a) (fst b) /\ turned eq (snd a) (snd b))
  (Summ_model.get_ormask_and_bmask mb) (Summ_model.get_ormask_and_bmask (map (map tr_sobs) mb)).
Proof. exact masks_turned. Qed.
Print Assumptions C128_masks.

(** The coadd of the shear bands, and the symmetrized weight maps. *)
Theorem C128_shear_bands : forall J, (forall a b, J a = J b -> a = b) -> forall mb sb,
  outcomes (turned_coadd J) (Coadd_model.make_coadd_obs mb sb) (Coadd_model.make_coadd_obs (map (map (tr_fobs J)) mb) sb).
Proof. exact make_coadd_turned. Qed.
Print Assumptions C128_shear_bands.
Theorem C128_weights : forall J o,
  outcomes (turned_fobs J) (Coadd_model.symmetrize_obs_weights o) (Coadd_model.symmetrize_obs_weights (tr_fobs J o)).
Proof. exact sym_turned. Qed.
Print Assumptions C128_weights.

(** The coadd of exposures. *)
Theorem C128_exposures : forall es,
  outcomes (both turned_coadded) (Lexp_model.coadd_exposures es) (Lexp_model.coadd_exposures (map tr_exposure es)).
Proof. exact exposures_turned. Qed.
Print Assumptions C128_exposures.

(** The edge and the bright objects, for planes of one shape. *)
Theorem C128_edge : forall mb h bit r c, (0 < h)%R -> Masking_spec.mb_shape r c mb ->
  outcomes (Forall2 (Forall2 turned_obs)) (Masking_model.apply_apodization_corrections mb h bit)
    (Masking_model.apply_apodization_corrections (map (map tr_obs) mb) h bit).
Proof. exact edge_corrections_turned. Qed.
Print Assumptions C128_edge.
Theorem C128_bright_mask : forall cat r c bit,
  outcomes (turned eq) (Masking_model.make_foreground_bmask cat r c false bit)
    (Masking_model.make_foreground_bmask (map tr_hole cat) c r false bit).
Proof. exact bmask_turned. Qed.
Print Assumptions C128_bright_mask.
Theorem C128_bright : forall W (sv sv' : Masking_model.services W) mb cat rad bit ebit ibit h iso r c, Masking_spec.mb_shape r c mb ->
  outcomes (Forall2 (Forall2 turned_obs))
    (Masking_model.apply_foreground_masking_corrections sv mb cat "apodize" rad bit ebit ibit false h iso)
    (Masking_model.apply_foreground_masking_corrections sv' (map (map tr_obs) mb) (map tr_hole cat) "apodize" rad bit ebit ibit false h iso).
Proof. exact corrections_turned. Qed.
Print Assumptions C128_bright.

(** The same two steps of the lsst code; the sky to pixel map gives (x, y). *)
Theorem C128_lsst_edge : forall edge w r c, world_shape r c w ->
  outcomes turned_world (Lmask_model.apply_edge edge w) (Lmask_model.apply_edge edge (tr_world w)).
Proof. intros edge w r c S. exact (out_turned r c _ _ (edge_RW r c edge w S)). Qed.
Print Assumptions C128_lsst_edge.
Theorem C128_lsst_bright : forall wcs xy0 info bit ebit w r c, world_shape r c w ->
  outcomes turned_world (Lmask_model.apply_bright wcs xy0 info bit ebit w)
    (Lmask_model.apply_bright (fun ra dec => swap (wcs ra dec)) (swap xy0) info bit ebit (tr_world w)).
Proof. intros wcs xy0 info bit ebit w r c S. exact (out_turned r c _ _ (bright_RW r c wcs xy0 info bit ebit w S)). Qed.
Print Assumptions C128_lsst_bright.

(** Positions: what 1p is for the image, 1m is for the turned one; 2p and 2m stay. *)
Theorem C128_unsheared : forall pos s j dims step,
  Shearpos_model.unshear_positions (map swap pos) (turned_type s) (tr_jac j) (swap dims) step =
  match Shearpos_model.unshear_positions pos s j dims step with Ok l => Ok (map swap l) | Raise e => Raise e end.
Proof. exact unshear_turned. Qed.
Print Assumptions C128_unsheared.
Theorem C128_sheared : forall pos s j dims step,
  Shearpos_model.shear_positions (map swap pos) (turned_type s) (tr_jac j) (swap dims) step =
  match Shearpos_model.shear_positions pos s j dims step with Ok l => Ok (map swap l) | Raise e => Raise e end.
Proof. exact shear_turned. Qed.
Print Assumptions C128_sheared.

(** Interpolated images, with an interpolator that treats its coordinates alike; and
    when an image is given up. *)
Theorem C128_interpolated : forall A W build (image : img A) m maxfrac buff (w w' : option W) rng rng' iso_buff res res', even_handed build ->
  0 <= buff -> nr m = nr image -> nc m = nc image ->
  Interp_model.interpolate_image_at_mask build image m maxfrac buff false w rng iso_buff = Ok (Some res) ->
  Interp_model.interpolate_image_at_mask build (tr image) (tr m) maxfrac buff false w' rng' iso_buff = Ok (Some res') -> turned eq res res'.
Proof. exact interp_turned. Qed.
Print Assumptions C128_interpolated.
Theorem C128_not_interpolated : forall A W build build' (image image' : img A) m maxfrac buff fill (w w' : option W) rng rng' iso_buff,
  0 <= buff -> 0 <= nr m -> 0 <= nc m ->
  (Interp_model.interpolate_image_at_mask build image m maxfrac buff fill w rng iso_buff = Ok None <->
   Interp_model.interpolate_image_at_mask build' image' (tr m) maxfrac buff fill w' rng' iso_buff = Ok None).
Proof. exact interp_none_turned. Qed.
Print Assumptions C128_not_interpolated.

(** The tables of the lsst task: ORed masks, averaged masked fractions, and their columns. *)
Theorem C128_lsst_masks : forall dims ms,
  outcomes (turned eq) (Lmdet_model.combine_ormasks dims ms) (Lmdet_model.combine_ormasks (swap dims) (option_map (map tr) ms)).
Proof. exact ormasks_turned. Qed.
Print Assumptions C128_lsst_masks.
Theorem C128_lsst_ormask_column : forall om res, Lmdet_model.add_ormask (tr om) (map tr_lrow res) =
  match Lmdet_model.add_ormask om res with Ok l => Ok (map tr_lrow l) | Raise e => Raise e end.
Proof. exact add_ormask_turned. Qed.
Print Assumptions C128_lsst_ormask_column.
Theorem C128_lsst_mfrac : forall vars ms, outcomes (fun x y => turned Qeq (fst x) (fst y) /\ Forall2 Qeq (snd x) (snd y))
  (Lmdet_model.get_mfrac_mbexp vars ms) (Lmdet_model.get_mfrac_mbexp (map tr vars) (option_map (map tr) ms)).
Proof. exact mfracs_turned. Qed.
Print Assumptions C128_lsst_mfrac.
Theorem C128_lsst_mfrac_column : forall W W' rad mf res, (forall a b, W' b a = W a b) ->
  Forall2 (fun x y => tr_lrow (Lmdet_model.with_mfrac x None) = Lmdet_model.with_mfrac y None /\
                      both Qeq (Lmdet_model.l_mfrac x) (Lmdet_model.l_mfrac y))
    (Lmdet_model.add_mfrac W rad mf res) (Lmdet_model.add_mfrac W' rad (tr mf) (map tr_lrow res)).
Proof. exact add_mfrac_turned. Qed.
Print Assumptions C128_lsst_mfrac_column.

(** A symmetrized bright mask is ORed with one quarter turn of itself only: a bright
    object in a corner also masks the next corner, counter-clockwise, and after rows and
    columns are exchanged that is a different corner. *)
Theorem C128_symmetrized_refuted : ~ (forall cat n bit a b,
  Masking_model.make_foreground_bmask cat n n true bit = Ok a ->
  Masking_model.make_foreground_bmask (map tr_hole cat) n n true bit = Ok b -> turned eq a b).
Proof.
  intro H. set (cat := [Masking_model.mkHole 0 0 (1 / 2)]).
  assert (RAD : Masking_spec.radii_ok cat) by (intros h [<-|[]]; cbn; lra).
  assert (SAME : map tr_hole cat = cat) by reflexivity.
  destruct (Masking_model.make_foreground_bmask cat 2 2 true 8) as [a|] eqn:E.
  - specialize (H cat 2 8 a a E). rewrite SAME in H. specialize (H E). destruct H as (_ & _ & H).
    destruct (Masking_proofs.foreground_bmask_spec cat 2 2 true 8 a RAD E) as (R & C & V). specialize (H 1 0). unfold inside in H. rewrite R, C in H. specialize (H ltac:(lia)).
    rewrite (proj1 (V 1 0 ltac:(lia) ltac:(lia))) in H.
    + rewrite (proj2 (V 0 1 ltac:(lia) ltac:(lia))) in H; [discriminate|]. intros (h & [<-|[]] & [K|[_ K]]); (apply Masking_proofs.covers_iff in K; [cbn in K; lra|cbn; lra]).
    + exists (Masking_model.mkHole 0 0 (1 / 2)). split; [now left|]. right. split; [reflexivity|]. apply Masking_proofs.covers_iff; cbn; lra.
  - unfold Masking_model.make_foreground_bmask, Masking_model.symmetrize_with in E.
    destruct (Masking_proofs.do_mask_shape cat 8 (ifill 2 2 0)) as [A B]. rewrite A, B in E. discriminate.
Qed.
Print Assumptions C128_symmetrized_refuted.

(** ** Examples *)
Definition ex_band (s : Q) : Detect_model.band :=
  Detect_model.mkBand (mkImg 2 3 (fun i j => inject_Z (i + 10 * j) * s)%Q) (mkImg 2 3 (fun i j => inject_Z (i + j)))
    (Some (mkImg 2 3 (fun i j => if (i =? 1) && (j =? 2) then 4 else 0))).
Example C128_detection_ex : exists d w m, Detect_model.set_detim 4 (map tr_band [ex_band 1; ex_band 3]) = Some (d, w, m) /\
  nr d = 3 /\ nc d = 2 /\ (px d 2 1 == 42)%Q /\ (px d 1 0 == 20)%Q /\ px m 2 1 = true /\ px m 1 1 = false.
Proof.
  do 3 eexists. split; [reflexivity|]. split; [reflexivity|]. split; [reflexivity|]. split; [vm_compute; reflexivity|]. split; [vm_compute; reflexivity|]. split; vm_compute; reflexivity.
Qed.
Example C128_catalogue_ex : exists e,
  Detect_model.run_sep_catalog 2 Detect_props.ex_meds 100 80 [Detect_props.ex_det 70 (3 # 2) 9] = Ok [e] /\
  Detect_model.run_sep_catalog 2 Detect_props.ex_meds 80 100 [tr_det (Detect_props.ex_det 70 (3 # 2) 9)] = Ok [tr_entry e] /\
  Detect_model.e_srow e <> Detect_model.e_scol e.
Proof. eexists. split; [vm_compute; reflexivity|]. split; [vm_compute; reflexivity|]. discriminate. Qed.
Example C128_stamps_ex : exists a b, Detect_model.get_cutout Detect_props.ex_m 0 "image" = Ok a /\
  Detect_model.get_cutout (tr_meds Detect_props.ex_m) 0 "image" = Ok b /\ px a 0 1 = px b 1 0 /\ nr a = 4.
Proof. do 2 eexists. split; [reflexivity|]. split; [reflexivity|]. split; vm_compute; reflexivity. Qed.
Example C128_mask_columns_ex : Summ_model.fill_in_mask_col 1 [(3, 7)%Q; (6, 2)%Q] Summ_props.ex_mask = Ok [5; 2] /\
  Summ_model.fill_in_mask_col 1 [(7, 3)%Q; (2, 6)%Q] (tr Summ_props.ex_mask) = Ok [5; 2] /\
  Summ_model.fill_in_mask_col 1 [(7, 3)%Q; (2, 6)%Q] Summ_props.ex_mask = Ok [0; 0].
Proof. split; [vm_compute; reflexivity|]. split; vm_compute; reflexivity. Qed.
Example C128_masked_fraction_ex : exists im om bm, Summ_model.get_mfrac [[tr_sobs Summ_props.ex_o1]; [tr_sobs Summ_props.ex_o3]] = Ok im /\
  Summ_model.get_ormask_and_bmask [[tr_sobs Summ_props.ex_o1]; [tr_sobs Summ_props.ex_o3]] = Ok (om, bm) /\ px om 0 0 = 12.
Proof. do 3 eexists. split; [reflexivity|]. split; [reflexivity|]. vm_compute. reflexivity. Qed.
(** The weight of the second band is 0 at (0, 1) only, of the turned one at (1, 0). *)
Definition ex_b : Coadd_model.fobs :=
  Coadd_model.mkFobs (mkImg 2 2 (fun i j => inject_Z (i - j))) (mkImg 2 2 (fun i j => if (i =? 0) && (j =? 1) then 0 else 3)%Q) 5 (Coadd_props.ex_psf 3) None None None None.
Definition ex_a : Coadd_model.fobs := Coadd_model.mkFobs (ifill 2 2 4%Q) (ifill 2 2 1%Q) 5 (Coadd_props.ex_psf 1) None None None None.
Example C128_shear_bands_ex : exists a b, let T := tr_fobs (fun k => k + 1) in
  Coadd_model.make_coadd_obs [[ex_a]; [ex_b]] [0; 1] = Ok (Some a, 0) /\ Coadd_model.make_coadd_obs [[T ex_a]; [T ex_b]] [0; 1] = Ok (Some b, 0) /\
  (px (Coadd_model.f_image a) 0 1 == 1 # 4)%Q /\ (px (Coadd_model.f_image b) 1 0 == 1 # 4)%Q /\ (px (Coadd_model.f_image b) 0 1 == 7 # 4)%Q /\ Coadd_model.f_jac b = 6 /\
  exists s, Coadd_model.symmetrize_obs_weights (T ex_b) = Ok s.
Proof.
  do 2 eexists. cbv zeta. split; [reflexivity|]. split; [reflexivity|]. split; [vm_compute; reflexivity|]. split; [vm_compute; reflexivity|]. split; [vm_compute; reflexivity|].
  split; [reflexivity|]. eexists. reflexivity.
Qed.
Example C128_exposures_ex : exists a b, Lexp_model.coadd_exposures [Lexp_props.e_good; Lexp_props.e_vary] = Ok (Some a) /\
  Lexp_model.coadd_exposures (map tr_exposure [Lexp_props.e_good; Lexp_props.e_vary]) = Ok (Some b) /\
  Lexp_model.c_x0 a = 10 /\ Lexp_model.c_y0 b = 10 /\ Lexp_model.c_x0 b = 20.
Proof. do 2 eexists. split; [reflexivity|]. split; [reflexivity|]. split; [reflexivity|]. split; reflexivity. Qed.
Example C128_edge_ex : (0 < 1 / 6)%R /\ Masking_spec.mb_shape 3 3 [[Masking_props.ex_obs]; [Masking_props.ex_obs]] /\
  exists out, Masking_model.apply_apodization_corrections [[Masking_props.ex_obs]; [Masking_props.ex_obs]] (1 / 6) 4 = Ok out.
Proof.
  split; [lra|]. split; [exact Masking_props.ex_shape|]. destruct Masking_props.C15_example as (out & E & _). now exists out.
Qed.
Example C128_lsst_ex : world_shape 20 25 Lmask_props.world20 /\
  exists w', Lmask_model.apply_edge 8 Lmask_props.world20 = Ok w'.
Proof.
  assert (S : forall v, lexp_shape 20 25 (Lmask_props.exp20 v)) by (intro v; split; [split; reflexivity|split; split; reflexivity]).
  split; [|destruct Lmask_props.C66_example as (w' & n & E & _); now exists w'].
  split; [constructor; [apply S|constructor; [apply S|constructor]]|]. split; [intros d H; apply Some_inj in H; subst d; constructor; [apply S|constructor; [apply S|constructor]]|].
  split; intros d H; apply Some_inj in H; subst d; (constructor; [split; reflexivity|constructor; [split; reflexivity|constructor]]).
Qed.
(** An object two columns right of the centre of the sky coordinates, in 1p. *)
Example C128_positions_ex : exists l, let j := Shearpos_model.mkJac 10 20 (1 / 4) 0 0 (1 / 4) in
  Shearpos_model.unshear_positions [(10, 22)%R] "1p" j (21, 41)%R (1 / 100) = Ok l /\ turned_type "1p" = "1m" /\
  Shearpos_model.unshear_positions [(22, 10)%R] "1m" (tr_jac j) (41, 21)%R (1 / 100) = Ok (map swap l).
Proof.
  set (j := Shearpos_model.mkJac 10 20 (1 / 4) 0 0 (1 / 4)). pose proof (C128_unsheared [(10, 22)%R] "1p" j (21, 41)%R (1 / 100)) as H. cbv zeta.
  assert (E : exists l, Shearpos_model.unshear_positions [(10, 22)%R] "1p" j (21, 41)%R (1 / 100) = Ok l).
  { eexists. apply Shearpos_proofs.unshear_positions_val; [lra|cbn; tauto]. }
  destruct E as [l E]. exists l. split; [exact E|]. split; [reflexivity|]. rewrite E in H. exact H.
Qed.
(** An interpolator that fills in how many good pixels it was given. *)
Definition ex_build (pts : list ((Z * Z) * Z)) : outcome ((Z * Z) -> Z) := Ok (fun _ => zlen pts).
Lemma ex_even : even_handed ex_build.
Proof.
  assert (L : forall l l' : list (Z * Z * Z), NoDup (map fst l) -> (forall p v, In (p, v) l -> In (swap p, v) l') -> (List.length l <= List.length l')%nat).
  { intros l l' N H. rewrite <- (map_length (fun x => (swap (fst x), snd x)) l). apply NoDup_incl_length.
    - apply FinFun.Injective_map_NoDup; [|exact (NoDup_map_inv _ _ N)]. intros [[a b] u] [[c d] v] E. unfold swap in E. cbn [fst snd] in E. congruence.
    - intros x I. apply in_map_iff in I. destruct I as ([p v] & <- & I). exact (H p v I). }
  intros pts pts' f f' N N' H E E' p. unfold ex_build in E, E'. apply Ok_inj in E, E'. subst f f'. unfold zlen. f_equal. apply Nat.le_antisymm.
  - apply L; [exact N'|]. intros q v I. apply H. rewrite swap_swap. exact I.
  - apply L; [exact N|]. intros q v I. now apply H.
Qed.
Definition ex_m : img bool := mkImg 3 5 (fun i j => (i =? 0) && (j =? 1)).
Definition ex_im : img Z := mkImg 3 5 (fun i j => 100 * i + j).
Example C128_interpolated_ex : even_handed ex_build /\ exists a b,
  Interp_model.interpolate_image_at_mask ex_build ex_im ex_m 1 1 false (None : option unit) None 1 = Ok (Some a) /\
  Interp_model.interpolate_image_at_mask ex_build (tr ex_im) (tr ex_m) 1 1 false (None : option unit) None 1 = Ok (Some b) /\
  px a 0 1 = 5 /\ px b 1 0 = 5 /\ px b 0 1 = 100.
Proof. split; [exact ex_even|]. do 2 eexists. split; [vm_compute; reflexivity|]. split; [vm_compute; reflexivity|]. split; [reflexivity|]. split; reflexivity. Qed.
Example C128_lsst_table_ex : exists x, let om := mkImg 2 3 (fun i j => 10 * i + j) in
  Lmdet_model.add_ormask om [Lmdet_model.mkLrow 1 11 22 10 20 0 None None] = Ok [x] /\ Lmdet_model.l_ormask x = 12 /\
  Lmdet_model.add_ormask (tr om) [Lmdet_model.mkLrow 1 22 11 20 10 0 None None] = Ok [tr_lrow x].
Proof. eexists. cbv zeta. split; [vm_compute; reflexivity|]. split; vm_compute; reflexivity. Qed.
Example C128_lsst_mfrac_ex : exists m ws, Lmdet_model.get_mfrac_mbexp (map tr [ifill 1 2 (Some 2%Q); ifill 1 2 (Some 4%Q)])
    (Some (map tr [ifill 1 2 0%Q; mkImg 1 2 (fun _ j => inject_Z j)])) = Ok (m, ws) /\
  nr m = 2 /\ (px m 0 0 == 0)%Q /\ (px m 1 0 == 1 # 3)%Q.
Proof. do 2 eexists. split; [reflexivity|]. split; [reflexivity|]. split; vm_compute; reflexivity. Qed.
