(** Properties C07-C12 and C48: detection, stamps, masked fractions. *)
From Coq Require Import ZArith QArith List String Bool Lia Lqa.
From Verif Require Import Base Arr Median Detect_model Detect_spec Detect_proofs.
Import ListNotations.
Local Open Scope string_scope.
Local Open Scope Z_scope.

(** C07: each detection gets, in order, the smallest permitted stamp size not
    below the size asked for ([wanted_size]: the detection's footprint or scaled
    sigma, or its isophotal radius and the floor), brought into the configured
    range. *)
Theorem C07_box_size_smallest : forall ff mc cat boxes,
  0 < min_box_size mc <= max_box_size mc ->
  get_box_sizes ff mc cat = Ok boxes ->
  List.length boxes = List.length cat /\
  forall i o b, nth_error cat i = Some o -> nth_error boxes i = Some b ->
    exists want, wanted_size ff mc o want /\
      min_box_size mc <= b <= max_box_size mc /\
      smallest_permitted mc (into_range mc want) b /\
      (want <= max_box_size mc -> want <= b).
Proof. exact get_box_sizes_wanted. Qed.
Print Assumptions C07_box_size_smallest.

(** C07: sizes are assigned for both documented box types, any other type is
    rejected as soon as there is an object. *)
Theorem C07_box_size_total : forall ff mc cat,
  0 < min_box_size mc <= max_box_size mc ->
  (box_type mc = "sigma_size" \/ box_type mc = "iso_radius") ->
  exists boxes, get_box_sizes ff mc cat = Ok boxes.
Proof. exact get_box_sizes_total. Qed.
Print Assumptions C07_box_size_total.

Theorem C07_bad_box_type : forall ff mc o cat,
  box_type mc <> "sigma_size" -> box_type mc <> "iso_radius" ->
  get_box_sizes ff mc (o :: cat) = Raise ValueError.
Proof. exact get_box_sizes_bad_type. Qed.
Print Assumptions C07_bad_box_type.

Definition ex_meds : meds_config := mkMeds "iso_radius" 4 2 2 5 32 250.
Definition ex_det (x y r : Q) : detobj := mkDet x y 0 5 0 7 1 (1 # 2) 3 r.
Example C07_example :
  get_box_sizes (47 # 20) ex_meds [ex_det 1 1 1; ex_det 1 1 15; ex_det 1 1 1000]
  = Ok [32; 64; 250].
Proof. reflexivity. Qed.
Example C07_example_sigma :
  get_box_sizes (47 # 20) (mkMeds "sigma_size" 4 2 2 5 32 256) [ex_det 1 1 1] = Ok [48].
Proof. reflexivity. Qed.

(** C08: stamp pixels are image pixels or the fill value of the plane. *)
Theorem C08_stamp_pixels : forall m iobj t e,
  nth_error (m_cat m) iobj = Some e -> In t image_types ->
  let im := m_plane m t in
  0 <= nr im -> 0 <= nc im -> 0 <= e_box e ->
  - e_box e <= e_srow e <= nr im -> - e_box e <= e_scol e <= nc im ->
  exists s, get_cutout m iobj t = Ok s /\ nr s = e_box e /\ nc s = e_box e /\
    forall i j, 0 <= i < e_box e -> 0 <= j < e_box e ->
      px s i j = stamp_pixel im (plane_fill t) (e_srow e) (e_scol e) i j.
Proof. exact get_cutout_ok. Qed.
Print Assumptions C08_stamp_pixels.

(** C08: the start range in the theorem above is needed: a stamp starting
    beyond the image raises. *)
Theorem C08_start_beyond_image_raises : forall m iobj t e,
  nth_error (m_cat m) iobj = Some e -> In t image_types ->
  let im := m_plane m t in
  0 <= nr im -> 0 < e_box e ->
  nr im < e_srow e < nr im + e_box e ->
  get_cutout m iobj t = Raise ValueError.
Proof. exact get_cutout_far. Qed.
Print Assumptions C08_start_beyond_image_raises.

Definition ex_planes (t : string) : img num :=
  if String.eqb t "bmask" then mkImg 10 12 (fun i j => I (i + j))
  else mkImg 10 12 (fun i j => F (inject_Z (100 * i + j))).
Definition ex_m : meds :=
  mkMedsI ex_planes (ex_planes "psf") (catalog_medsify 10 12 [((17 # 2)%Q, 1%Q, 4); (5%Q, 5%Q, 4)] None).
Example C08_example :
  (do s <- get_cutout ex_m 0 "image"; Ok (px s 0 0, px s 1 2, px s 3 0, nr s, nc s))
    = Ok (F (inject_Z 700), F (inject_Z 802), F 0, 4, 4) /\
  (do s <- get_cutout ex_m 0 "bmask"; Ok (px s 0 0, px s 3 0)) = Ok (I 7, I (2 ^ 30)).
Proof. split; reflexivity. Qed.

(** C09: the entry of an in-image object is anchored to the object. *)
Theorem C09_stamp_anchored : forall nrow ncol objs number i y x b,
  (forall ns, number = Some ns -> List.length ns = List.length objs) ->
  nth_error objs i = Some (y, x, b) -> pos_in nrow ncol y x -> 2 <= b ->
  exists e, nth_error (catalog_medsify nrow ncol objs number) i = Some e /\
    (e_srow e = first_pixel y b /\ e_scol e = first_pixel x b) /\
    (0 <= e_srow e <= qtrunc y /\ qtrunc y < e_erow e <= nrow /\ qtrunc y < e_srow e + b) /\
    (0 <= e_scol e <= qtrunc x /\ qtrunc x < e_ecol e <= ncol /\ qtrunc x < e_scol e + b) /\
    (e_crow e + inject_Z (e_srow e) == y)%Q /\ (e_ccol e + inject_Z (e_scol e) == x)%Q /\
    ((0 <= e_crow e)%Q /\ (e_crow e < inject_Z b)%Q) /\
    ((0 <= e_ccol e)%Q /\ (e_ccol e < inject_Z b)%Q) /\
    e_box e = b /\ e_row e = y /\ e_col e = x /\
    e_erow e - e_srow e <= b /\ e_ecol e - e_scol e <= b.
Proof. exact catalog_anchor. Qed.
Print Assumptions C09_stamp_anchored.

(** C09: end to end, every plane's stamp of every catalogued object has the
    box size, holds the right pixels, and holds the object's own pixel. *)
Theorem C09_catalog_stamp : forall planes psf objs nrow ncol i y x b t,
  nth_error objs i = Some (y, x, b) -> pos_in nrow ncol y x -> 2 <= b ->
  In t image_types -> nr (planes t) = nrow -> nc (planes t) = ncol ->
  let m := mkMedsI planes psf (catalog_medsify nrow ncol objs None) in
  exists s, get_cutout m i t = Ok s /\ nr s = b /\ nc s = b /\
    (forall k l, 0 <= k < b -> 0 <= l < b ->
       px s k l = stamp_pixel (planes t) (plane_fill t) (first_pixel y b) (first_pixel x b) k l) /\
    px s (qtrunc y - first_pixel y b) (qtrunc x - first_pixel x b) = px (planes t) (qtrunc y) (qtrunc x).
Proof. exact catalog_stamp. Qed.
Print Assumptions C09_catalog_stamp.

(** C09: the detection's own catalogue, from the extractor's objects: one entry
    per object, in order and numbered from 1, with the size C07 asks for and a stamp
    around the object's own position. *)
Theorem C09_detected : forall ff mc nrow ncol objs cat,
  2 <= min_box_size mc <= max_box_size mc -> (forall o, In o objs -> pos_in nrow ncol (d_y o) (d_x o)) ->
  run_sep_catalog ff mc nrow ncol objs = Ok cat ->
  List.length cat = List.length objs /\
  forall i o, nth_error objs i = Some o -> exists e, nth_error cat i = Some e /\
    e_id e = Z.of_nat i /\ e_number e = Z.of_nat i + 1 /\ stamp_around nrow ncol (d_y o) (d_x o) (e_box e) e /\
    exists want, wanted_size ff mc o want /\ smallest_permitted mc (into_range mc want) (e_box e).
Proof. exact run_sep_ok. Qed.
Print Assumptions C09_detected.
Example C09_detected_example : exists cat,
  run_sep_catalog (47 # 20) ex_meds 100 120 [ex_det 30 40 1; ex_det 110 5 15] = Ok cat /\
  map (fun e => (e_srow e, e_scol e, e_box e)) cat = [(25, 15, 32); (0, 79, 64)] /\
  Forall (fun o => pos_in 100 120 (d_y o) (d_x o)) [ex_det 30 40 1; ex_det 110 5 15].
Proof.
  eexists. split; [reflexivity|]. split; [reflexivity|].
  repeat constructor; unfold pos_in; cbn; try reflexivity; try discriminate.
Qed.

(** C09: one catalogue entry per object, in order, with the object's own number,
    and the id one less than the number. *)
Theorem C09_catalog_numbers : forall nrow ncol objs number,
  (forall ns, number = Some ns -> List.length ns = List.length objs) ->
  let cat := catalog_medsify nrow ncol objs number in
  List.length cat = List.length objs /\
  forall i y x b, nth_error objs i = Some (y, x, b) ->
    exists e, nth_error cat i = Some e /\ e_row e = y /\ e_col e = x /\ e_box e = b /\
      e_id e = e_number e - 1 /\
      match number with
      | None => e_number e = Z.of_nat i + 1
      | Some ns => nth_error ns i = Some (e_number e)
      end.
Proof. exact catalog_numbers. Qed.
Print Assumptions C09_catalog_numbers.
Example C09_numbers_example :
  map (fun e => (e_id e, e_number e)) (catalog_medsify 10 10 [(1%Q, 2%Q, 4); (3%Q, 4%Q, 6)] (Some [7; 3])) = [(6, 7); (2, 3)].
Proof. reflexivity. Qed.

Example C09_example : pos_in 10 12 (17 # 2) 1 /\
  let e := make_entry 10 12 0 1 (17 # 2) 1 4 in
  (e_srow e, e_erow e, e_scol e, e_ecol e) = (7, 10, 0, 4).
Proof. split; [|reflexivity]. unfold pos_in; simpl. repeat split; reflexivity || discriminate. Qed.

(** C10: the EDGE bit marks exactly the stamp pixels outside the image. *)
Theorem C10_edge_bit : forall planes psf objs nrow ncol i y x b,
  nth_error objs i = Some (y, x, b) -> pos_in nrow ncol y x -> 2 <= b ->
  nr (planes "bmask") = nrow -> nc (planes "bmask") = ncol ->
  (forall k l, inside (planes "bmask") k l ->
     exists z, px (planes "bmask") k l = I z /\ Z.land z (2 ^ 30) = 0) ->
  let m := mkMedsI planes psf (catalog_medsify nrow ncol objs None) in
  exists s, get_cutout m i "bmask" = Ok s /\
    forall k l, 0 <= k < b -> 0 <= l < b ->
      exists z, px s k l = I z /\
      (Z.land z (2 ^ 30) <> 0 <->
       ~ (0 <= first_pixel y b + k < nrow /\ 0 <= first_pixel x b + l < ncol)).
Proof. exact catalog_edge. Qed.
Print Assumptions C10_edge_bit.

Example C10_example : forall k l, inside (ex_planes "bmask") k l ->
  exists z, px (ex_planes "bmask") k l = I z /\ Z.land z (2 ^ 30) = 0.
Proof.
  intros k l H. unfold inside in H. cbn in H. exists (k + l). split; [reflexivity|].
  assert (Hk : 0 <= k + l < 2 ^ 30) by lia.
  apply Z.bits_inj'. intros n Hn. rewrite Z.land_spec, Z.bits_0, Z.pow2_bits_eqb by lia.
  destruct (Z.eqb_spec 30 n) as [<-|]; [|apply andb_false_r]. rewrite andb_true_r.
  destruct (Z.eq_dec (k + l) 0) as [->|]; [apply Z.bits_0|].
  apply Z.bits_above_log2; [lia|]. apply Z.log2_lt_pow2; lia.
Qed.

(** C11, as stated, is false: the object is not centred when it is closer to a
    low edge than half a stamp. *)
Theorem C11_low_edge_centred_refuted :
  exists nrow ncol y x b e, pos_in nrow ncol y x /\ 2 <= b /\ Z.even b = true /\
    b <= nrow /\ b <= ncol /\ catalog_medsify nrow ncol [(y, x, b)] None = [e] /\ ~ centered b e.
Proof.
  exists 100, 100, 2%Q, 50%Q, 32.
  assert (P : pos_in 100 100 2 50) by (unfold pos_in; simpl; repeat split; reflexivity || discriminate).
  destruct (catalog_centered 100 100 [(2%Q, 50%Q, 32)] None 0 2 50 32) as (e & E & C); [discriminate|reflexivity|exact P|lia|].
  exists e. split; [exact P|]. split; [lia|]. split; [reflexivity|]. split; [lia|]. split; [lia|].
  split; [cbn in E; apply Some_inj in E; now subst e|]. rewrite C. intros [L _]. vm_compute in L. now apply L.
Qed.
Print Assumptions C11_low_edge_centred_refuted.

(** C11, what is true: centred exactly when the low edges are far enough,
    whatever the high edges. *)
Theorem C11_centred_partial : forall nrow ncol objs number i y x b,
  (forall ns, number = Some ns -> List.length ns = List.length objs) ->
  nth_error objs i = Some (y, x, b) -> pos_in nrow ncol y x -> 2 <= b ->
  exists e, nth_error (catalog_medsify nrow ncol objs number) i = Some e /\
    (centered b e <-> b / 2 - 1 <= qtrunc y /\ b / 2 - 1 <= qtrunc x).
Proof. exact catalog_centered. Qed.
Print Assumptions C11_centred_partial.

Example C11_example : centered 32 (make_entry 100 100 0 1 99 (50 + (1 # 2)) 32).
Proof. unfold centered, make_entry; simpl; repeat split; reflexivity || discriminate. Qed.

(** C12: the detection image is the mean of the band images weighted by the
    medians of the positive weights; 1/detnoise^2 is the sum of the weights;
    the mask is the OR over bands of the no-detect bits. *)
Theorem C12_detection_image : forall nodet bands, bands <> [] ->
  (forall b, In b bands -> usable b) ->
  exists detim wsum mask ws, set_detim nodet bands = Some (detim, wsum, mask) /\
    median_weights bands ws /\ (forall w, In w ws -> 0 < w)%Q /\
    (wsum == qsum ws)%Q /\
    (forall i j, px detim i j == mean_at bands ws i j)%Q /\
    (forall i j, px mask i j = true <->
       exists b bm, In b bands /\ b_bmask b = Some bm /\ Z.land (px bm i j) nodet <> 0).
Proof. exact set_detim_spec. Qed.
Print Assumptions C12_detection_image.

Theorem C12_convex : forall nodet bands detim w mask lo hi i j,
  bands <> [] -> (forall b, In b bands -> usable b) ->
  set_detim nodet bands = Some (detim, w, mask) ->
  (forall b, In b bands -> lo <= px (b_image b) i j /\ px (b_image b) i j <= hi)%Q ->
  (lo <= px detim i j /\ px detim i j <= hi)%Q.
Proof. exact detim_convex. Qed.
Print Assumptions C12_convex.

Theorem C12_weight_scale_invariant : forall c nodet bands, (0 < c)%Q -> bands <> [] ->
  (forall b, In b bands -> usable b) ->
  exists d w m d' w' m',
    set_detim nodet bands = Some (d, w, m) /\
    set_detim nodet (map (scale_weights c) bands) = Some (d', w', m') /\
    (forall i j, (px d' i j == px d i j)%Q) /\ (w' == c * w)%Q.
Proof. exact detim_scale. Qed.
Print Assumptions C12_weight_scale_invariant.

Theorem C12_shape : forall nodet bands d w m b, same_shape bands -> In b bands ->
  set_detim nodet bands = Some (d, w, m) ->
  nr d = nr (b_image b) /\ nc d = nc (b_image b) /\ nr m = nr (b_image b) /\ nc m = nc (b_image b).
Proof. exact set_detim_shape. Qed.
Print Assumptions C12_shape.

(** C12: one band without positive weights ruins the whole detection image. *)
Theorem C12_unusable_band : forall nodet bands b, In b bands -> ~ usable b ->
  set_detim nodet bands = None.
Proof. exact set_detim_unusable. Qed.
Print Assumptions C12_unusable_band.

Definition ex_band (v w : Q) (m : Z) : band :=
  mkBand (mkImg 3 3 (fun i j => v)) (mkImg 3 3 (fun i j => if i =? 0 then 0%Q else w))
         (Some (mkImg 3 3 (fun i j => if j =? 1 then m else 0))).
Example C12_example :
  match set_detim 4 [ex_band 1 1 4; ex_band 5 3 8] with
  | Some (d, w, m) => Qeq_bool (px d 1 1) 4 && Qeq_bool w 4 && px m 0 1 && negb (px m 0 0)
  | None => false end = true.
Proof. reflexivity. Qed.

(** C48: one value per object, in order: 1 for an object without a stamp; with a
    stamp, the aperture weighted mean over in-image stamp pixels, so it stays
    within the range of the map. *)
Theorem C48_mfrac : forall mf bm objs, nr bm = nr mf -> nc bm = nc mf ->
  (forall y x b a, In (y, x, b, a) objs -> b <= 0 \/ (2 <= b /\ pos_in (nr mf) (nc mf) y x)) ->
  (forall y x b g near, In (y, x, b, (g, near)) objs -> forall i j, near i j = true -> 0 < g i j)%Q ->
  (forall y x b g near, In (y, x, b, (g, near)) objs -> 0 < b -> near (qtrunc y - first_pixel y b) (qtrunc x - first_pixel x b) = true) ->
  (forall k l, inside bm k l -> Z.land (px bm k l) (2 ^ 30) = 0) ->
  exists out, measure_mfrac mf bm objs = Ok out /\
  Forall2 (fun o v => match o with (y, x, b, (g, near)) =>
    (b <= 0 -> v = MNum 1) /\
    (0 < b -> let ap := aperture mf near (first_pixel y b) (first_pixel x b) b in
       exists q, v = MNum q /\
       (0 < qsum (map (fun ij => g (fst ij) (snd ij)) ap))%Q /\
       (q == qsum (map (fun ij => g (fst ij) (snd ij) * px mf (first_pixel y b + fst ij) (first_pixel x b + snd ij)) ap)
             / qsum (map (fun ij => g (fst ij) (snd ij)) ap))%Q /\
       forall lo hi, (forall i j, inside mf i j -> lo <= px mf i j /\ px mf i j <= hi)%Q -> (lo <= q /\ q <= hi)%Q)
    end) objs out.
Proof. exact measure_mfrac_all. Qed.
Print Assumptions C48_mfrac.

(** C48: a stamp without a single unflagged pixel gives the value 1, whatever the
    other objects are. *)
Theorem C48_mfrac_all_flagged : forall mf bm objs out, nr bm = nr mf -> nc bm = nc mf ->
  (forall k l, inside bm k l -> Z.land (px bm k l) (2 ^ 30) <> 0) ->
  measure_mfrac mf bm objs = Ok out ->
  List.length out = List.length objs /\
  forall i y x b g near, nth_error objs i = Some (y, x, b, (g, near)) -> pos_in (nr mf) (nc mf) y x -> 2 <= b ->
    nth_error out i = Some (MNum 1).
Proof.
  intros mf bm objs out E1 E2 Hf H. destruct (measure_mfrac_rows mf bm objs out H) as [L R]. split; [exact L|].
  intros i y x b g near Hi P B. destruct (R i y x b g near Hi) as (v & Ev & E).
  rewrite (measure_mfrac_flagged mf bm g near y x b P B E1 E2 Hf) in E. apply Ok_inj in E. now subst v.
Qed.
Print Assumptions C48_mfrac_all_flagged.

Example C48_example :
  match measure_mfrac (mkImg 6 6 (fun i j => if i =? 0 then 1%Q else 0%Q)) (ifill 6 6 0)
    [((1#2)%Q, 2%Q, 4, (fun _ _ => 1%Q, fun _ _ => true)); (1%Q, 1%Q, -1, (fun _ _ => 1%Q, fun _ _ => true))] with
  | Ok [MNum a; MNum b] => Qeq_bool a (1 # 4) && Qeq_bool b 1
  | _ => false end = true.
Proof. reflexivity. Qed.
