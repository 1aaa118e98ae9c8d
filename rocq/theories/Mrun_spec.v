(** Specification vocabulary for C88 and C89: what do_metadetect measures, in
    terms of the images it is given. *)
From Coq Require Import ZArith QArith Qabs List String Ascii Bool DecimalString.
From Verif Require Import Base Arr Median Flags_model Detect_model Detect_spec Summ_model Summ_spec Coadd_model Wavg_model
  Joint_model Conf_model Mdet_model Mdet_spec Mcol_spec Mrun_model.
Import ListNotations.
Local Open Scope string_scope.
Local Open Scope Z_scope.

(** ** Assumptions on the input *)

(** Every band has one observation, all planes of all bands have r x c pixels. *)
Definition has_shape (m : mbo) (r c : Z) : Prop :=
  0 < r /\ 0 < c /\ forall ol, In ol m -> exists o, ol = [o] /\
    nr (ob_image o) = r /\ nc (ob_image o) = c /\ nr (ob_weight o) = r /\ nc (ob_weight o) = c /\
    nr (ob_bmask o) = r /\ nc (ob_bmask o) = c /\ nr (ob_ormask o) = r /\ nc (ob_ormask o) = c /\
    forall n, ob_noise o = Some n -> nr n = r /\ nc n = c.
Definition one_shape (m : mbo) : Prop := exists r c, has_shape m r c.
(** The same for the main and all coloured observations. *)
Definition all_one_shape (main : mbo) (dep : option colours) : Prop :=
  exists r c, has_shape main r c /\
    forall d k m, dep = Some d -> d k = Some (Other m) -> has_shape m r c.
(** Stamp sizes of at least 2. *)
Definition boxes_ok (mc : meds_config) : Prop := 2 <= min_box_size mc <= max_box_size mc.

(** ** Assumptions on third party code *)

(** metacal returns the requested types, each with images like those given: as
    many bands, one observation per band, the same shape. *)
Definition metacal_ok (x : third) (c : settings) : Prop :=
  forall m d, tp_metacal x m = Ok d ->
    NoDup (map fst d) /\ (forall t, In t (map fst d) <-> In t (st_types c)) /\
    forall t m', In (t, m') d -> zlen m' = zlen m /\ forall r c', has_shape m r c' -> has_shape m' r c'.
(** The source extractor reports positions inside the image, and finds nothing
    in an all nan image. *)
Definition sep_ok (x : third) : Prop :=
  (forall dim w mask objs seg n o, tp_sep x (Some (dim, w, mask)) = Ok (objs, seg) -> In (n, o) objs ->
     pos_in (nr dim) (nc dim) (d_y o) (d_x o)) /\
  (forall objs seg, tp_sep x None = Ok (objs, seg) -> objs = []).
(** The stamp reader passes the cutouts on: an observation it returns has the
    bit mask cutout as its bit mask. *)
Definition reader_ok (x : third) : Prop :=
  forall wt cut e j pc p l o, tp_read x wt cut e j pc p = Ok l -> In o l ->
    exists s, cut "bmask" = Ok s /\ f_bmask o = Some (imap num_z s).
(** For the weight type "weight" the reader looks neither at the segmentation
    map nor at the object's number. *)
Definition same_place (e e' : cat_entry) : Prop :=
  e_box e = e_box e' /\ e_row e = e_row e' /\ e_col e = e_col e' /\ e_srow e = e_srow e' /\ e_scol e = e_scol e' /\
  e_erow e = e_erow e' /\ e_ecol e = e_ecol e' /\ e_crow e = e_crow e' /\ e_ccol e = e_ccol e'.
Definition reader_weight (x : third) : Prop :=
  forall cut cut' e e' j pc p, (forall t, t <> "seg" -> cut t = cut' t) -> same_place e e' ->
    tp_read x "weight" cut e j pc p = tp_read x "weight" cut' e' j pc p.

(** ** The detections *)

(** Band numbers count from the end when negative. *)
Definition bands_at (m : mbo) (bands : list Z) (obs : list obs) : Prop :=
  Forall2 (fun b o => py_index m b = Ok [o]) bands obs.

(** What the detection reads of an observation. *)
Definition det_band (o : obs) : Detect_model.band := mkBand (ob_image o) (ob_weight o) (Some (ob_bmask o)).
(** The numbered objects and segmentation map the source extractor finds in the
    weighted mean image of the detection bands (C12), given its inverse noise
    variance and with the pixels that have a no-detect bit in some band masked.
    A band without positive weights makes the whole image nan. *)
Definition found (x : third) (nodet : Z) (m : mbo) (db : list Z) (objs : list (Z * detobj)) (seg : img Z) : Prop :=
  exists obs, bands_at m db obs /\ obs <> [] /\
    (((exists o, In o obs /\ ~ usable (det_band o)) /\ tp_sep x None = Ok (objs, seg)) \/
     ((forall o, In o obs -> usable (det_band o)) /\
      exists detim w mask ws, tp_sep x (Some (detim, w, mask)) = Ok (objs, seg) /\
        median_weights (map det_band obs) ws /\ (w == qsum ws)%Q /\
        (forall i j, px detim i j == mean_at (map det_band obs) ws i j)%Q /\
        (forall o, In o obs -> nr detim = nr (ob_image o) /\ nc detim = nc (ob_image o)) /\
        (forall i j, px mask i j = true <-> exists o, In o obs /\ Z.land (px (ob_bmask o) i j) nodet <> 0))).
(** The stamp size of an object: the smallest permitted one that covers the size
    asked for (C07). *)
Definition stamp_size (x : third) (mc : meds_config) (o : detobj) (b : Z) : Prop :=
  exists want, wanted_size (tp_fwhm_fac x) mc o want /\
    smallest_permitted mc (into_range mc want) b.

(** ** The stamps *)

(** The plane of an observation. *)
Definition plane_of (o : obs) (seg : img Z) (t : string) (p : img Detect_model.num) : Prop :=
  (t = "image" /\ p = imap F (ob_image o)) \/ (t = "weight" /\ p = imap F (ob_weight o)) \/
  (t = "bmask" /\ p = imap I (ob_bmask o)) \/ (t = "seg" /\ p = imap I seg) \/
  (t = "noise" /\ exists n, ob_noise o = Some n /\ p = imap F n).
(** The stamp of the object at (y, xx) in observation [o]: what the reader makes
    of a square cutout of each plane that holds the pixels of [o] and the fill
    value outside of the image; a plane that [o] does not have raises. [o0] is the observation of the first band: the
    jacobian and the PSF centre are always taken from it. *)
Definition stamp_in (x : third) (c : settings) (seg : img Z) (number : Z) (y xx : Q) (b : Z) (o0 o : obs)
  (st : list fobs) : Prop :=
  exists cut e,
    tp_read x (match st_weight_type c with Some w => w | None => "weight" end) cut e (ob_jac o0)
      (((inject_Z (nr (ob_psf o0)) - 1) / 2)%Q, ((inject_Z (nc (ob_psf o0)) - 1) / 2)%Q) (ob_psf o) = Ok st /\
    e_number e = number /\ e_box e = b /\ e_row e = y /\ e_col e = xx /\
    e_srow e = first_pixel y b /\ e_scol e = first_pixel xx b /\
    e_crow e = (y - inject_Z (first_pixel y b))%Q /\ e_ccol e = (xx - inject_Z (first_pixel xx b))%Q /\
    (forall t p, plane_of o seg t p -> nr p = nr (ob_image o0) -> nc p = nc (ob_image o0) ->
      exists s, cut t = Ok s /\ nr s = b /\ nc s = b /\
        forall i j, 0 <= i < b -> 0 <= j < b ->
          px s i j = stamp_pixel p (plane_fill t) (first_pixel y b) (first_pixel xx b) i j) /\
    (forall t, (forall p, ~ plane_of o seg t p) -> (t = "noise" /\ cut t = Raise AttributeError) \/ (t <> "noise" /\ cut t = Raise ValueError)).
(** The stamps in all bands. *)
Definition stamps_in (x : third) (c : settings) (seg : img Z) (number : Z) (y xx : Q) (b : Z) (m : mbo)
  (st : list (list fobs)) : Prop :=
  exists o0 rest, m = [o0] :: rest /\
    Forall2 (fun ol s => exists o, ol = [o] /\ stamp_in x c seg number y xx b o0 o s) m st.

(** ** The rows *)

(** The result of one configured fitter on the stamps of an object with the shear
    bands: one of the three kinds of measurement (C35-C47) with the options of
    the fitter and the configured forbidden bits. *)
Definition fitted (x : third) (c : settings) (f : fitter) (sb : list Z) (st : list (list fobs)) (r : row) : Prop :=
  let flags := match st_bmask_flags c with Some n => n | None => 0 end in
  (fi_wavg f = true /\
   fit_mbobs_wavg (tp_ng x) (tp_mk x) (tp_toT x) (tp_sqrt x) st
     (Wavg_model.mkFitter (fi_base f) (tp_go x f) (tp_go_psf x f)) flags (Some sb) (fi_reg f) (fi_symm f) = Ok r) \/
  (fi_wavg f = false /\ (fi_base f = "am" \/ fi_base f = "admom") /\
   fit_mbobs_admom (tp_ng x) (tp_am_psf x) (tp_am x) st flags (Some sb) (fi_symm f) = Ok r) \/
  (fi_wavg f = false /\ fi_base f = "gauss" /\
   fit_mbobs_gauss (tp_ng x) (tp_boot x) st flags (Some sb) (fi_coadd f) = Ok r).
(** The measurements of one object: every configured fitter, in order. *)
Definition measured (x : third) (c : settings) (fitters : list fitter) (sb : list Z) (st : list (list fobs))
  (fits : list row) : Prop :=
  Forall2 (fun f r => fitted x c f sb st r) fitters fits.

(** The column prefix of a fitter: its kind, "am" for the adaptive moments, and
    for a configured regularisation "_reg" and its value with two decimals. *)
Definition cents (q : Q) (n : Z) : Prop :=
  (Qabs (100 * Qabs q - inject_Z n) <= 1 # 2)%Q /\
  ((Qabs (100 * Qabs q - inject_Z n) == 1 # 2)%Q -> Z.even n = true).
Definition decimal_digit (z : Z) : string := String (ascii_of_N (Z.to_N (48 + z))) "".
Definition number_text (q : Q) (s : string) : Prop :=
  exists n whole, 0 <= n /\ cents q n /\ whole = NilZero.string_of_int (Z.to_int (n / 100)) /\
    (((0 <= q)%Q /\ s = whole ++ "." ++ decimal_digit (n / 10 mod 10) ++ decimal_digit (n mod 10)) \/
     ((q < 0)%Q /\ s = "-" ++ whole ++ "." ++ decimal_digit (n / 10 mod 10) ++ decimal_digit (n mod 10))).
Definition prefix (f : fitter) (s : string) : Prop :=
  (fi_base f = "admom" /\ s = "am") \/
  (fi_base f <> "admom" /\ fi_suffix f = None /\ s = fi_base f) \/
  (fi_base f <> "admom" /\ exists q text, fi_suffix f = Some q /\ number_text q text /\ s = fi_base f ++ "_reg" ++ text).
(** Fitters at different places have different prefixes. *)
Definition distinct_prefixes (fs : list fitter) : Prop :=
  forall i j f g p q, nth_error fs i = Some f -> nth_error fs j = Some g -> prefix f p -> prefix g q -> i <> j -> p <> q.

Section Rows.
Variables (x : third) (c : settings) (md : mdet) (main : mbo)
  (color : option (keyfun * colours)).

(** The observations for a colour key: the main ones without a key, otherwise
    those stored for the key. *)
Definition data_for (key : option Z) (m : mbo) : Prop :=
  match key with
  | None => m = main
  | Some k => exists keyf dep, color = Some (keyf, dep) /\
      ((dep k = Some SameObject /\ m = main) \/ dep k = Some (Other m))
  end.
(** The planes read by the summaries of C24-C26. *)
Definition planes (o : obs) : sobs := mkSobs (ob_weight o) (ob_mfrac o) (ob_bmask o) (ob_ormask o).
(** Half sizes of the windows of the mask columns: a configured region counts
    when it is above 1; the "or" mask falls back on the one of the bit mask. *)
Definition window_bm (w : Z) : Prop :=
  (exists r, st_mask_region c = Some r /\ 1 < r /\ w = r) \/
  ((st_mask_region c = None \/ exists r, st_mask_region c = Some r /\ r <= 1) /\ w = 1).
Definition window_or (w : Z) : Prop :=
  (exists r, st_ormask_region c = Some r /\ 1 < r /\ w = r) \/
  ((st_ormask_region c = None \/ exists r, st_ormask_region c = Some r /\ r <= 1) /\ window_bm w).
(** The masked fraction at a position: 0 when no pixel of the image [mf] is
    positive, otherwise measured on it with the bit mask of the first main
    observation. *)
Definition mfrac_at_pos (mf : img Q) (row col : Q) (box : Z) (v : mval) : Prop :=
  ((forall i j, inside mf i j -> (px mf i j <= 0)%Q) -> mval_eqv v (MNum 0)) /\
  ((exists i j, inside mf i j /\ (0 < px mf i j)%Q) ->
     exists o0 more rest u, main = (o0 :: more) :: rest /\
       measure_mfrac_one mf (ob_bmask o0) (fst (tp_aper x row col box)) (snd (tp_aper x row col box)) row col box = Ok u /\
       mval_eqv v u).
(** The PSF columns: means of the PSF fits of the observations, weighted by their
    largest weight; without values when the PSF fit of any band failed. *)
Definition largest (im : img Q) (w : Q) : Prop :=
  (exists i j, inside im i j /\ px im i j = w) /\ forall i j, inside im i j -> (px im i j <= w)%Q.
Definition psf_failed : psf_stats := mkStats (flag_value PSF_FAILURE) None None None.
Definition psf_means (m : mbo) (os : list obs) (s : psf_stats) : Prop :=
  ((exists o, In [o] m /\ pr_flags (tp_psf x o) <> 0) /\ s = psf_failed) \/
  ((forall o, In [o] m -> pr_flags (tp_psf x o) = 0) /\
   exists ws vals, Forall2 (fun o w => largest (ob_weight o) w) os ws /\
     Forall2 (fun o v => exists T g, pr_T (tp_psf x o) = Some T /\
       (pr_e (tp_psf x o) = Some g \/ (pr_e (tp_psf x o) = None /\ pr_g (tp_psf x o) = Some g)) /\ v = (fst g, snd g, T)) os vals /\
     ((0 < qsum ws)%Q -> exists g1 g2 T, s = mkStats 0 (Some g1) (Some g2) (Some T) /\
        (g1 == wmean ws (map (fun v => fst (fst v)) vals) /\ g2 == wmean ws (map (fun v => snd (fst v)) vals) /\
         T == wmean ws (map snd vals))%Q) /\
     ((qsum ws <= 0)%Q -> s = psf_failed)).
(** All added columns of an object at (y, xx) with a stamp of size [b]. *)
Definition object_columns (key : option Z) (sb db : list Z) (t : string) (y xx : Q) (b : Z) (e : extra) : Prop :=
  exists m os mf wo wb o0 more rest,
    data_for key m /\ bands_at m sb os /\ os <> [] /\
    get_mfrac (map (fun o => [planes o]) os) = Ok mf /\ window_or wo /\ window_bm wb /\
    x_row e = y /\ x_col e = xx /\
    main = (o0 :: more) :: rest /\ tp_unshear x o0 t y xx = Ok (x_row_ns e, x_col_ns e) /\
    mask_column planes so_ormask os wo y xx (x_ormask e) /\
    mask_column planes so_ormask os wo (x_row_ns e) (x_col_ns e) (x_ormask_ns e) /\
    mask_column planes so_bmask os wb y xx (x_bmask e) /\
    mask_column planes so_bmask os wb (x_row_ns e) (x_col_ns e) (x_bmask_ns e) /\
    mfrac_at_pos mf y xx b (x_mfrac e) /\ mfrac_at_pos mf (x_row_ns e) (x_col_ns e) b (x_mfrac_ns e) /\
    (x_mfrac_img e == qsum (pixels mf) / inject_Z (zlen (pixels mf)))%Q /\
    psf_means m os (x_psf e) /\ x_det_bands e = band_label db.

(** The row of object [no] measured on the images [m]: the fits, and the
    position, mask and PSF columns of the colour key. *)
Definition object_row (key : option Z) (sb db : list Z) (t : string) (m : mbo) (seg : img Z) (number : Z)
  (no : Z * detobj) (r : drow row) : Prop :=
  exists b st, stamp_size x (st_meds c) (snd no) b /\
    stamps_in x c seg number (d_y (snd no)) (d_x (snd no)) b m st /\
    measured x c (md_fitters md) sb st (r_fits r) /\
    object_columns key sb db t (d_y (snd no)) (d_x (snd no)) b (r_extra r) /\
    distinct_prefixes (md_fitters md).

(** One block: the objects found in the detection bands of the sheared images
    [m], in order, each with its stamps in all bands of [m]. *)
Definition block (t : string) (m : mbo) (sd : list Z * list Z) (rows : list (drow row)) : Prop :=
  exists objs seg, found x (md_nodet md) m (snd sd) objs seg /\
    Forall2 (fun no r => object_row None (fst sd) (snd sd) t m seg (fst no) no r) objs rows.

(** With colours: the colour key of an object comes from the band fluxes of the
    first fitter, with default options, on its stamps in [m]. *)
Definition key_of (keyf : keyfun) (sb : list Z) (m : mbo) (seg : img Z) (no : Z * detobj) (key : option Z) : Prop :=
  exists b st f0 rest r, stamp_size x (st_meds c) (snd no) b /\
    stamps_in x c seg (fst no) (d_y (snd no)) (d_x (snd no)) b m st /\
    md_fitters md = f0 :: rest /\
    fit_mbobs_wavg (tp_ng x) (tp_mk x) (tp_toT x) (tp_sqrt x) st
      (Wavg_model.mkFitter (fi_base f0) (tp_go x f0) (tp_go_psf x f0))
      (match st_bmask_flags c with Some f => f | None => 0 end) (Some sb) 0 true = Ok r /\
    keyf (o_band_flux r) = Ok key.
(** The object is measured on the sheared images of its colour, with an empty
    segmentation map and number 1; it is dropped if their metacal failed. *)
Definition colour_part (sb db : list Z) (t : string) (no : Z * detobj) (key : option Z) (part : list (drow row)) : Prop :=
  exists data, data_for key data /\
    ((tp_metacal x data = Raise BootPSFFailure /\ part = []) \/
     (exists dict m o0 rest r, tp_metacal x data = Ok dict /\ In (t, m) dict /\ m = [o0] :: rest /\
        object_row key sb db t m (ifill (nr (ob_image o0)) (nc (ob_image o0)) 0) 1 no r /\ part = [r])).
Definition colour_block (keyf : keyfun) (t : string) (m : mbo) (sd : list Z * list Z) (rows : list (drow row)) : Prop :=
  exists objs seg keys parts, found x (md_nodet md) m (snd sd) objs seg /\
    Forall2 (key_of keyf (fst sd) m seg) objs keys /\
    Forall2 (fun nk part => colour_part (fst sd) (snd sd) t (fst nk) (snd nk) part) (combine objs keys) parts /\
    rows = List.concat parts.
End Rows.

(** ** C89 *)

(** No image pixel of the stamp of size [b] of an object at (y, xx) has a
    forbidden bit in band [o]. *)
Definition stamp_clean (flags : Z) (y xx : Q) (b : Z) (o : obs) : Prop :=
  forall i j, inside (ob_bmask o) i j ->
    first_pixel y b <= i < first_pixel y b + b -> first_pixel xx b <= j < first_pixel xx b + b ->
    Z.land (px (ob_bmask o) i j) flags = 0.
(** The whole stamp lies in the image. *)
Definition stamp_inside (y xx : Q) (b : Z) (o : obs) : Prop :=
  first_pixel y b + b <= nr (ob_image o) /\ first_pixel xx b + b <= nc (ob_image o).
