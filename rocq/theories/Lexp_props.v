(** C54, C55, C69-C72. *)
From Coq Require Import ZArith QArith List String Bool Lia.
From Verif Require Import Base Arr Median Lexp_model Lexp_spec Lexp_proofs.
Import ListNotations.
Local Open Scope string_scope.
Local Open Scope Z_scope.

(** C54. Into an existing exposure of the same size and back, with the same mask
    plane named for both directions and the psf copied. *)
Theorem C54_roundtrip_partial : forall W o e name m, obs_shape o -> exp_shape e ->
  nr (e_image e) = nr (o_image o) -> nc (e_image e) = nc (o_image o) ->
  e_wcs e <> None -> odd_square (op_image (o_psf o)) = true -> mask_plane o name = Some m ->
  exists e' o', obs2exp o (Some e) name true = Ok e' /\ exp2obs W e' name = Ok o' /\
    img_eq (o_image o') (o_image o) /\
    (forall i j, inside (o_image o) i j ->
       (0 < px (o_weight o) i j -> px (o_weight o') i j == px (o_weight o) i j)%Q /\
       (px (o_weight o) i j <= 0 -> px (o_weight o') i j == 0)%Q) /\
    (exists m', mask_plane o' name = Some m' /\ img_eq m' m) /\
    op_image (o_psf o') = op_image (o_psf o).
Proof. exact roundtrip. Qed.
Print Assumptions C54_roundtrip_partial.
(** The other way round: image and mask come back; positive finite variances come
    back, infinite ones stay infinite, the others become infinite. *)
Theorem C54_reverse : forall W e name o cp, exp_shape e -> exp2obs W e name = Ok o ->
  exists e', obs2exp o (Some e) name cp = Ok e' /\ img_eq (e_image e') (e_image e) /\ img_eq (e_mask e') (e_mask e) /\
    forall i j, inside (e_image e) i j ->
      match px (e_var e) i j with
      | Some q => if Qle_bool q 0 then px (e_var e') i j = None else exists q', px (e_var e') i j = Some q' /\ (q' == q)%Q
      | None => px (e_var e') i j = None
      end.
Proof. exact roundtrip_reverse. Qed.
Print Assumptions C54_reverse.

Definition ex_W : wcs_oracle := fun _ _ _ => mkMat (1 # 5) 0 0 (1 # 5).
Definition ex_jac := mkJac 1 1 (1 # 5) 0 0 (- (1 # 5)).
Definition ex_psf := mkOpsf (mkImg 3 3 (fun i j => if (i =? 1) && (j =? 1) then 1%Q else 0%Q)) (ifill 3 3 1%Q) ex_jac.
Definition ex_obs := mkLobs (mkImg 2 2 (fun i j => inject_Z (i + j))) (mkImg 2 2 (fun i j => if i =? j then (4 # 1)%Q else 0%Q))
  (Some (mkImg 2 2 (fun i _ => i))) (Some (ifill 2 2 8)) (Some (ifill 2 2 1%Q)) ex_jac ex_psf.
Definition ex_exp (var im : Z -> Z -> Q) (mask : Z) := mkExp 10 20 (mkImg 2 2 im) (mkImg 2 2 (fun i j => Some (var i j))) (ifill 2 2 mask)
  (Some (fun _ _ => op_image ex_psf)) (Some 1).
(** With the default arguments the masks change plane and the noise is lost; and
    a new exposure cannot be converted back, it has no wcs. *)
Theorem C54_masks_noise_refuted : exists o e e' o',
  obs2exp o (Some e) "bmask" true = Ok e' /\ exp2obs ex_W e' "ormask" = Ok o' /\
  (exists b b', o_bmask o = Some b /\ o_bmask o' = Some b' /\ px b 1 0 <> px b' 1 0) /\
  (exists b b', o_ormask o = Some b /\ o_ormask o' = Some b' /\ px b 0 0 <> px b' 0 0) /\
  (o_noise o <> None /\ o_noise o' = None).
Proof.
  exists ex_obs, (ex_exp (fun _ _ => 1%Q) (fun _ _ => 0%Q) 0). do 2 eexists. split; [reflexivity|]. split; [reflexivity|].
  split; [do 2 eexists; split; [reflexivity|]; split; [reflexivity|]; vm_compute; discriminate|].
  split; [do 2 eexists; split; [reflexivity|]; split; [reflexivity|]; vm_compute; discriminate|].
  split; [discriminate|reflexivity].
Qed.
Print Assumptions C54_masks_noise_refuted.
Theorem C54_new_exposure_raises : forall W o e name cp name', obs2exp o None name cp = Ok e -> exp2obs W e name' = Raise AttributeError.
Proof.
  intros W o e name cp name' H. unfold obs2exp in H. destruct (set_all _ _) as [im|]; cbn [obind] in H; [|discriminate].
  destruct (mask_of _ _) as [m|]; cbn [obind] in H; [|discriminate]. destruct (set_all _ _) as [mm|]; cbn [obind] in H; [|discriminate].
  apply Ok_inj in H. subst e. reflexivity.
Qed.
Print Assumptions C54_new_exposure_raises.
Example C54_example : obs_shape ex_obs /\ exp_shape (ex_exp (fun _ _ => 1%Q) (fun _ _ => 0%Q) 0) /\
  odd_square (op_image (o_psf ex_obs)) = true /\ mask_plane ex_obs "ormask" = Some (ifill 2 2 8) /\
  exists o', (do e' <- obs2exp ex_obs (Some (ex_exp (fun _ _ => 1%Q) (fun _ _ => 0%Q) 0)) "ormask" true; exp2obs ex_W e' "ormask") = Ok o' /\
    pixels (o_weight o') = [4; 0; 0; 4]%Q.
Proof.
  split; [unfold obs_shape; cbn; repeat split; injection H as <-; reflexivity|].
  split; [unfold exp_shape; cbn; lia|]. split; [reflexivity|]. split; [reflexivity|]. eexists. split; vm_compute; reflexivity.
Qed.

(** Where the planes of the observation come from. *)
Theorem C54_planes : forall W e name o, exp2obs W e name = Ok o ->
  let x := inject_Z (fst (get_integer_center e)) in let y := inject_Z (snd (get_integer_center e)) in
  exists draw, e_psf e = Some draw /\ get_jacobian W e x y = Ok (o_jac o) /\ o_image o = e_image e /\
    psf_observation (o_jac o) (draw x y) (o_psf o) /\ nr (draw x y) = nc (draw x y) /\ Z.odd (nr (draw x y)) = true /\
    mask_plane o name = Some (e_mask e) /\
    (exists z, mask_plane o (other_plane name) = Some z /\ forall i j, px z i j = 0) /\ o_noise o = None.
Proof. exact exp2obs_planes. Qed.
Print Assumptions C54_planes.
Example C54_planes_example : exists o, exp2obs ex_W (ex_exp (fun _ _ => 1%Q) (fun _ _ => 0%Q) 5) "bmask" = Ok o /\
  (px (op_weight (o_psf o)) 0 0 == 100000000)%Q.
Proof. eexists. split; [reflexivity|]. vm_compute. reflexivity. Qed.

(** C55. Exposures of the same size with a positive variance each, one of which
    has more finite than infinite ones. A pixel is the sum over the bands that are
    good there, with weights one over the median variance, divided by the weights
    of all bands. *)
Theorem C55_pixel_partial : forall es, es <> [] -> compatible es ->
  usable es ->
  exists co ws, coadd_exposures es = Ok (Some co) /\
    Forall2 inverse_median_variance es ws /\ ((forall w, In w ws -> (0 <= w)%Q) /\ (0 < qsum ws)%Q) /\
    forall i j, exists v, px (c_image co) i j = Some v /\
      (v * qsum ws == qsum (map (fun ew => goodw i j ew * px (e_image (fst ew)) i j) (combine es ws)))%Q.
Proof. exact coadd_pixel. Qed.
Print Assumptions C55_pixel_partial.
(** Where all the bands are good this is their weighted mean, within their range. *)
Theorem C55_all_good : forall es, es <> [] -> compatible es ->
  usable es ->
  exists co ws, coadd_exposures es = Ok (Some co) /\ Forall2 inverse_median_variance es ws /\
    forall i j, (forall e, In e es -> good e i j) ->
      exists v, px (c_image co) i j = Some v /\
        (v == qsum (map (fun ew => snd ew * px (e_image (fst ew)) i j) (combine es ws)) / qsum ws)%Q /\
        forall lo hi, (forall e, In e es -> lo <= px (e_image e) i j <= hi)%Q -> (lo <= v <= hi)%Q.
Proof. exact coadd_all_good. Qed.
Print Assumptions C55_all_good.
(** Masks are OR-ed; the variance is one over the sum of the inverse variances of
    the good bands, infinite without any. *)
Theorem C55_masks_variance : forall es, es <> [] -> compatible es ->
  usable es ->
  exists co, coadd_exposures es = Ok (Some co) /\
    (forall i j b, Z.testbit (px (c_mask co) i j) b = true <-> exists e, In e es /\ Z.testbit (px (e_mask e) i j) b = true) /\
    (forall i j, let ivar := qsum (map (fun e => inverse_variance e i j) es) in
       ((0 < ivar)%Q -> exists v, px (c_var co) i j = Some v /\ (v * ivar == 1)%Q) /\
       ((ivar <= 0)%Q -> px (c_var co) i j = None)).
Proof. exact coadd_masks_var. Qed.
Print Assumptions C55_masks_variance.
(** It is the variance of the weighted mean when every band has one variance. *)
Theorem C55_variance_constant_partial : forall es r c, es <> [] -> compatible es -> 0 < r -> 0 < c ->
  (forall e, In e es -> nr (e_var e) = r /\ nc (e_var e) = c /\ exists v, constant_variance e v) ->
  exists co ws, coadd_exposures es = Ok (Some co) /\ Forall2 inverse_median_variance es ws /\
    forall i j, 0 <= i < r -> 0 <= j < c -> exists v, px (c_var co) i j = Some v /\
      (v * (qsum ws * qsum ws) == qsum (map (fun ew => snd ew * snd ew * match px (e_var (fst ew)) i j with Some q => q | None => 0 end) (combine es ws)))%Q.
Proof. exact coadd_constant. Qed.
Print Assumptions C55_variance_constant_partial.

(** A pixel bad in one band is too faint: two bands with value 10, one bad there. *)
Definition e_good := ex_exp (fun _ _ => 1%Q) (fun _ _ => 10%Q) 1.
Definition e_hole := ex_exp (fun i j => if (i =? 0) && (j =? 0) then 0%Q else 1%Q) (fun _ _ => 10%Q) 2.
Theorem C55_bad_band_refuted : exists es co, coadd_exposures es = Ok (Some co) /\
  (forall e, In e es -> px (e_image e) 0 0 = 10%Q) /\ (exists e, In e es /\ good e 0 0) /\
  exists v, px (c_image co) 0 0 = Some v /\ (v == 5)%Q.
Proof.
  exists [e_good; e_hole]. eexists. split; [reflexivity|]. split; [intros e [<-|[<-|[]]]; reflexivity|].
  split; [exists e_good; split; [now left|reflexivity]|]. eexists. split; [reflexivity|]. vm_compute. reflexivity.
Qed.
Print Assumptions C55_bad_band_refuted.
(** With variances that change over the image the stated variance is not that of
    the weighted mean: the mean has variance (1*1*4 + 1*1*1)/4 at the first pixel,
    the plane says 4/5. *)
Definition e_vary := ex_exp (fun i j => if (i =? 0) && (j =? 0) then 4%Q else 1%Q) (fun _ _ => 10%Q) 2.
Theorem C55_variance_refuted : exists es co ws v, coadd_exposures es = Ok (Some co) /\
  Forall2 inverse_median_variance es ws /\ px (c_var co) 0 0 = Some v /\
  ~ (v * (qsum ws * qsum ws) == qsum (map (fun ew => snd ew * snd ew * match px (e_var (fst ew)) 0 0 with Some q => q | None => 0 end) (combine es ws)))%Q.
Proof.
  exists [e_vary; e_good]. eexists. exists (map bw [e_vary; e_good]). eexists. split; [reflexivity|]. split.
  - apply weights_spec. split.
    + intros e [<-|[<-|[]]]; exists 1, 1; (split; [unfold inside; cbn; lia|reflexivity]).
    + exists e_good. split; [now left + (right; now left)|]. vm_compute. lia.
  - split; [reflexivity|]. vm_compute. discriminate.
Qed.
Print Assumptions C55_variance_refuted.
(** One band without any positive variance makes every pixel not a number. *)
Theorem C55_nan_refuted : exists es co, coadd_exposures es = Ok (Some co) /\
  (exists e, In e es /\ forall i j, inside (e_image e) i j -> good e i j) /\
  forall i j, px (c_image co) i j = None.
Proof.
  exists [e_good; ex_exp (fun _ _ => 0%Q) (fun _ _ => 10%Q) 2]. eexists. split; [reflexivity|].
  split; [exists e_good; split; [now left|reflexivity]|]. reflexivity.
Qed.
Print Assumptions C55_nan_refuted.
(** In general: that happens exactly as soon as one band has no good pixel. *)
Theorem C55_nan : forall es e, compatible es -> In e es -> ~ some_good e ->
  exists co, coadd_exposures es = Ok (Some co) /\ forall i j, px (c_image co) i j = None /\ px (c_psf co) i j = None.
Proof. exact coadd_nan. Qed.
Print Assumptions C55_nan.
(** There is no coadd exactly when all bands have at least as many infinite as
    finite variances. *)
Theorem C55_none_iff : forall es, compatible es ->
  (coadd_exposures es = Ok None <-> es = [] \/ forall e, In e es -> some_good e /\ unusable (pixels (e_var e))).
Proof. exact coadd_none. Qed.
Print Assumptions C55_none_iff.
(** A pixel with infinite variance is not left out: it counts with the weight of
    its band, and only the variance plane knows. *)
Definition e_inf := mkExp 10 20 (ifill 2 2 30%Q) (mkImg 2 2 (fun i j => if (i =? 0) && (j =? 0) then None else Some 1%Q)) (ifill 2 2 0)
  (Some (fun _ _ => op_image ex_psf)) (Some 1).
Theorem C55_infinite_variance_refuted : exists e e' co v, coadd_exposures [e; e'] = Ok (Some co) /\ compatible [e; e'] /\ usable [e; e'] /\
  px (e_var e) 0 0 = Some 1%Q /\ px (e_image e) 0 0 = 10%Q /\ px (e_var e') 0 0 = None /\
  px (c_image co) 0 0 = Some v /\ (v == 20)%Q /\ px (c_var co) 0 0 = Some (1 / (0 + 1))%Q.
Proof.
  exists e_good, e_inf. do 2 eexists. split; [reflexivity|]. split.
  { exists 2, 2, 3. intros e [<-|[<-|[]]]; cbn; (split; [reflexivity|]; split; [reflexivity|]; eexists; split; [reflexivity|]; auto). }
  split. { split; [intros e [<-|[<-|[]]]; exists 1, 1; (split; [unfold inside; cbn; lia|reflexivity])|].
           exists e_good. split; [now left|]. vm_compute. lia. }
  split; [reflexivity|]. split; [reflexivity|]. split; [reflexivity|]. split; [reflexivity|]. split; [vm_compute; reflexivity|]. vm_compute. reflexivity.
Qed.
Print Assumptions C55_infinite_variance_refuted.
(** The psf is drawn at the centre of the array without the corner of the box: here
    the coadd of one exposure whose psf is a unit pixel inside its box has another
    psf. *)
Theorem C55_psf_position_refuted : exists e co draw, coadd_exposures [e] = Ok (Some co) /\ e_psf e = Some draw /\
  (forall x y, inject_Z (e_x0 e) <= x -> inject_Z (e_y0 e) <= y -> pixels (draw x y) = [0; 0; 0; 0; 1; 0; 0; 0; 0]%Q)%Q /\
  (exists v, px (c_psf co) 1 1 = Some v /\ (v == 0)%Q).
Proof.
  set (draw := fun x y : Q => if Qle_bool 10 x && Qle_bool 20 y then op_image ex_psf
                 else mkImg 3 3 (fun i j => if (i =? 0) && (j =? 0) then 1%Q else 0%Q)).
  exists (mkExp 10 20 (ifill 2 2 10%Q) (ifill 2 2 (Some 1%Q)) (ifill 2 2 0) (Some draw) (Some 1)). do 2 eexists.
  split; [reflexivity|]. split; [reflexivity|]. split.
  - intros x y Hx Hy. cbn in Hx, Hy. apply Qle_bool_iff in Hx. apply Qle_bool_iff in Hy. unfold draw.
    change 10%Q with (inject_Z 10). change 20%Q with (inject_Z 20). rewrite Hx, Hy. reflexivity.
  - eexists. split; [reflexivity|]. vm_compute. reflexivity.
Qed.
Print Assumptions C55_psf_position_refuted.
(** The psf: the weighted sum of the psfs, normalised; the wcs and the corner are
    those of the first exposure. *)
Theorem C55_psf : forall es, es <> [] -> compatible es ->
  usable es ->
  exists co psfs ws, coadd_exposures es = Ok (Some co) /\ Forall2 inverse_median_variance es ws /\
    Forall2 (fun e p => exists draw, e_psf e = Some draw /\
       p = draw ((inject_Z (nc (e_image e)) - 1) / 2)%Q ((inject_Z (nr (e_image e)) - 1) / 2)%Q) es psfs /\
    psf_coadd psfs ws (c_psf co) /\ (forall e0, hd_error es = Some e0 -> c_wcs co = e_wcs e0 /\ c_x0 co = e_x0 e0 /\ c_y0 co = e_y0 e0).
Proof. exact coadd_psf_ok. Qed.
Print Assumptions C55_psf.
Lemma ex_compatible : compatible [e_good; e_vary].
Proof.
  exists 2, 2, 3. intros e [<-|[<-|[]]]; cbn; (split; [reflexivity|]; split; [reflexivity|]; eexists; split; [reflexivity|]; auto).
Qed.
Example C55_example : compatible [e_good; e_vary] /\ usable [e_good; e_vary] /\
  exists co, coadd_exposures [e_good; e_vary] = Ok (Some co) /\ px (c_mask co) 0 0 = 3.
Proof.
  split; [exact ex_compatible|]. split.
  - split; [intros e [<-|[<-|[]]]; exists 1, 1; (split; [unfold inside; cbn; lia|reflexivity])|].
    exists e_good. split; [now left|]. vm_compute. lia.
  - eexists. split; reflexivity.
Qed.
Example C55_none_example : compatible [ex_exp (fun _ _ => 0%Q) (fun _ _ => 10%Q) 2] /\ ~ some_good (ex_exp (fun _ _ => 0%Q) (fun _ _ => 10%Q) 2) /\
  (let e := mkExp 10 20 (ifill 2 2 30%Q) (mkImg 2 2 (fun i j => if i =? 0 then None else Some 1%Q)) (ifill 2 2 0)
     (Some (fun _ _ => op_image ex_psf)) (Some 1) in
   coadd_exposures [e] = Ok None).
Proof.
  split; [exists 2, 2, 3; intros e [<-|[]]; cbn; (split; [reflexivity|]; split; [reflexivity|]; eexists; split; [reflexivity|]; auto)|].
  split; [|vm_compute; reflexivity]. intros (i & j & _ & H). unfold good in H. cbn in H. now apply Qlt_irrefl in H.
Qed.

(** C69 *)
Theorem C69_weight_partial : forall W e sky peak cen o, extract_obs W e sky peak cen = Ok o ->
  exists w, inverse_median_variance e w /\ (0 < w)%Q /\ forall i j, px (o_weight o) i j = w.
Proof. exact extract_weight_px. Qed.
Print Assumptions C69_weight_partial.
Theorem C69_refused_iff : forall W e sky peak cen,
  extract_obs W e sky peak cen = Raise (OtherError 1) <-> unusable (pixels (e_var e)).
Proof. exact extract_obs_zero_iff. Qed.
Print Assumptions C69_refused_iff.
(** The pixels are those of the stamp, the jacobian is centred on the source (on
    its peak without a sky position) and the psf is drawn at the centroid. *)
Theorem C69_planes : forall W e sky peak cen o, extract_obs W e sky peak cen = Ok o ->
  exists draw, e_psf e = Some draw /\
    (forall x y, sky = Some (x, y) -> get_jacobian W e x y = Ok (o_jac o)) /\
    (sky = None -> get_jacobian W e (inject_Z (fst peak)) (inject_Z (snd peak)) = Ok (o_jac o)) /\
    o_image o = e_image e /\ o_bmask o = Some (e_mask e) /\
    psf_observation (o_jac o) (draw (fst cen) (snd cen)) (o_psf o) /\
    nr (draw (fst cen) (snd cen)) = nc (draw (fst cen) (snd cen)) /\ Z.odd (nr (draw (fst cen) (snd cen))) = true.
Proof. exact extract_obs_planes. Qed.
Print Assumptions C69_planes.
(** Pixels without data do not get weight zero. *)
Theorem C69_no_data_refuted : exists e o, extract_obs ex_W e None (11, 21) (11%Q, 21%Q) = Ok o /\
  ~ good e 0 0 /\ (0 < px (o_weight o) 0 0)%Q.
Proof. exists e_hole. eexists. split; [reflexivity|]. split; [|reflexivity]. intro H. now apply Qlt_irrefl in H. Qed.
Print Assumptions C69_no_data_refuted.
Example C69_example : ~ unusable (pixels (e_var e_vary)) /\
  exists o, extract_obs ex_W e_vary (Some (11%Q, 21%Q)) (11, 21) (11%Q, 21%Q) = Ok o.
Proof. split; [vm_compute; lia|eexists; reflexivity]. Qed.

(** C70 *)
Theorem C70_area_and_position : forall W e x y j, get_jacobian W e x y = Ok j ->
  exists wcs, e_wcs e = Some wcs /\ let m := W wcs x y in
  (dudx j * dvdy j - dudy j * dvdx j == - (m00 m * m11 m - m01 m * m10 m))%Q /\
  (j_row j == y - inject_Z (e_y0 e))%Q /\ (j_col j == x - inject_Z (e_x0 e))%Q.
Proof. exact jacobian_area. Qed.
Print Assumptions C70_area_and_position.
Theorem C70_integer_center : forall e, 0 < nr (e_image e) -> 0 < nc (e_image e) ->
  let '(x, y) := get_integer_center e in
  x - e_x0 e = nc (e_image e) / 2 /\ y - e_y0 e = nr (e_image e) / 2 /\
  e_x0 e <= x < e_x0 e + nc (e_image e) /\ e_y0 e <= y < e_y0 e + nr (e_image e).
Proof. exact integer_center_in. Qed.
Print Assumptions C70_integer_center.
Example C70_example : get_integer_center e_good = (11, 21) /\
  exists j, get_jacobian ex_W e_good 11%Q 21%Q = Ok j /\ (j_row j == 1)%Q /\ (j_col j == 1)%Q.
Proof. split; [reflexivity|]. eexists. split; [reflexivity|]. split; reflexivity. Qed.

(** C71. [bands]: the addresses of the masks of each band. *)
Theorem C71_masks_kept : forall bands h h' ms, extract_masks h bands = Ok (h', ms) ->
  NoDup (flat_map addresses bands) ->
  Forall2 (fun b m => nth_error h (fst (fst b)) = Some m) bands ms /\
  (forall q, ~ In q (flat_map addresses bands) -> nth_error h' q = nth_error h q) /\
  (forall q m, In q (flat_map addresses bands) -> nth_error h q = Some m ->
     nth_error h' q = Some (imap (fun _ => 0) m)).
Proof. intros bands h h' ms H N. destruct (extract_masks_ok bands h h' ms H) as (A & B & C). auto. Qed.
Print Assumptions C71_masks_kept.
(** An exposure used for two bands gives a zero mask for the second. *)
Theorem C71_shared_refuted : exists h bands h' ms m, extract_masks h bands = Ok (h', ms) /\
  nth_error h (fst (fst (nth 1 bands (0, 0, 0)%nat))) = Some m /\ px m 0 0 = 8 /\ px (nth 1 ms m) 0 0 = 0.
Proof.
  exists [ifill 2 2 8; ifill 2 2 1; ifill 2 2 1], [(0, 1, 2); (0, 1, 2)]%nat. do 3 eexists.
  split; [reflexivity|]. split; [reflexivity|]. split; reflexivity.
Qed.
Print Assumptions C71_shared_refuted.
Example C71_example : exists h' ms, extract_masks [ifill 2 2 8; ifill 2 2 1; ifill 2 2 1; ifill 2 2 4] [(0, 1, 2)]%nat = Ok (h', ms) /\
  map (fun m => px m 0 0) ms = [8] /\ map (fun m => px m 0 0) h' = [0; 0; 0; 4] /\ NoDup (flat_map addresses [(0, 1, 2)]%nat).
Proof.
  do 2 eexists. split; [reflexivity|]. split; [reflexivity|]. split; [reflexivity|].
  repeat (constructor; [cbn; lia|]). constructor.
Qed.

(** C72. Zero weight pixels are not left out. *)
Theorem C72_sum_partial : forall os co, coadd_mbobs os = Ok co -> (forall o, In o os -> some_positive_weight o) ->
  exists ws, Forall2 median_weight os ws /\ (forall w, In w ws -> (0 < w)%Q) /\
  (forall o, In o os -> nr (co_image co) = nr (o_image o) /\ nc (co_image co) = nc (o_image o) /\
     nr (co_weight co) = nr (o_image o) /\ nc (co_weight co) = nc (o_image o)) /\
  forall i j, (exists v, px (co_image co) i j = Some v /\
       (v * qsum ws == qsum (map (fun ow => snd ow * px (o_image (fst ow)) i j) (combine os ws)))%Q) /\
    (px (co_weight co) i j == qsum (map (fun o => px (o_weight o) i j) os))%Q.
Proof.
  intros os co H P. exists (map obs_w os). split; [now apply medians_ok|].
  destruct (coadd_mbobs_px os co H) as [A B]; [intros o I; now apply positive_weight_ok, P|].
  split; [exact A|]. split; [intros o; now apply coadd_mbobs_size|]. intros i j. rewrite (combine_obs_w (fun o => px (o_image o) i j)). apply B.
Qed.
Print Assumptions C72_sum_partial.
(** The psf is the normalised weighted sum, and the jacobian that of the last
    band. *)
Theorem C72_psf : forall os co, coadd_mbobs os = Ok co -> (forall o, In o os -> some_positive_weight o) ->
  (exists ws, Forall2 median_weight os ws /\ psf_coadd (map (fun o => op_image (o_psf o)) os) ws (co_psf co)) /\
  (forall os' o, os = (os' ++ [o])%list -> co_jac co = o_jac o).
Proof.
  intros os co H P. destruct (coadd_mbobs_psf os co H) as [A B]; [intros o I; now apply positive_weight_ok, P|].
  split; [|exact B]. exists (map obs_w os). split; [now apply medians_ok|exact A].
Qed.
Print Assumptions C72_psf.
Definition bad_obs := mkLobs (ifill 2 2 100%Q) (mkImg 2 2 (fun i j => if (i =? 0) && (j =? 0) then 0%Q else 4%Q))
  None None None ex_jac ex_psf.
Definition good_obs := mkLobs (ifill 2 2 10%Q) (ifill 2 2 4%Q) None None None ex_jac ex_psf.
Theorem C72_zero_weight_refuted : exists os co v, coadd_mbobs os = Ok co /\
  (forall o, In o os -> (0 < px (o_weight o) 0 0)%Q -> (px (o_image o) 0 0 == 10)%Q) /\
  px (co_image co) 0 0 = Some v /\ (v == 55)%Q.
Proof.
  exists [good_obs; bad_obs]. do 2 eexists. split; [reflexivity|]. split.
  - intros o [<-|[<-|[]]] H; [reflexivity|]. vm_compute in H. discriminate.
  - split; [reflexivity|]. vm_compute. reflexivity.
Qed.
Print Assumptions C72_zero_weight_refuted.
Example C72_example : (exists co, coadd_mbobs [good_obs; bad_obs] = Ok co) /\ forall o, In o [good_obs; bad_obs] -> some_positive_weight o.
Proof. split; [eexists; reflexivity|]. intros o [<-|[<-|[]]]; exists 1, 1; (split; [unfold inside; cbn; lia|vm_compute; reflexivity]). Qed.
