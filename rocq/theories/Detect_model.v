(** Model of metadetect/detect.py, metadetect/defaults.py and
    metadetect/mfrac.py. Exact rationals replace float32/float64 values. *)
From Coq Require Import ZArith QArith Qround List String Bool.
From Verif Require Import Base Arr Median.
Import ListNotations.
Local Open Scope string_scope.
Local Open Scope Z_scope.

(** defaults.py:1. *)
Definition BMASK_EDGE : Z := 2 ^ 30.

(** defaults.py:10-15. *)
Definition ALLOWED_BOX_SIZES : list Z :=
  [2; 3; 4; 6; 8; 12; 16; 24; 32; 48;
   64; 96; 128; 192; 256;
   384; 512; 768; 1024; 1536;
   2048; 3072; 4096; 6144].

(** A pixel of a float plane or of an integer plane. *)
Inductive num : Type := F (q : Q) | I (z : Z).

(** defaults.py:2-8. *)
Definition DEFAULT_IMAGE_VALUES (type : string) : option num :=
  if String.eqb type "image" then Some (F 0)
  else if String.eqb type "weight" then Some (F 0)
  else if String.eqb type "seg" then Some (I 0)
  else if String.eqb type "bmask" then Some (I BMASK_EDGE)
  else if String.eqb type "noise" then Some (F 0)
  else None.

(** numpy astype('i4') of a float: truncation toward zero. *)
Definition qtrunc (q : Q) : Z := Z.quot (Qnum q) (Zpos (Qden q)).

(** numpy clip(min=lo, max=hi) = minimum(maximum(x, lo), hi). *)
Definition zclip (lo hi x : Z) : Z := Z.min (Z.max x lo) hi.

(** ** Box sizes *)

(** The source extractor columns used (detect.py:344-345, 355, 393-394). *)
Record detobj := mkDet {
  d_x : Q; d_y : Q;
  d_xmin : Z; d_xmax : Z; d_ymin : Z; d_ymax : Z;
  d_a : Q; d_b : Q; d_flux_radius : Q; d_iso_radius : Q
}.

(** The meds configuration entries used (detect.py:341-376, 395). *)
Record meds_config := mkMeds {
  box_type : string;
  rad_min : Q; rad_fac : Q; box_padding : Q;
  sigma_fac : Q;
  min_box_size : Z; max_box_size : Z
}.

(** detect.py:387-400. [fwhm_fac] stands for FWHM_FAC = 2 sqrt(2 ln 2)
    (detect.py:22), an arbitrary rational here. *)
Definition get_sigma_size (fwhm_fac : Q) (mc : meds_config) (o : detobj) : Z :=
  let ellipticity := (1 - d_b o / d_a o)%Q in
  let sigma := (d_flux_radius o * 2 / fwhm_fac)%Q in
  let drad := (sigma * sigma_fac mc)%Q in
  let drad := (drad * (1 + ellipticity))%Q in
  2 * Qceiling drad.

(** detect.py:342-361: the requested size before clipping. *)
Definition requested_size (fwhm_fac : Q) (mc : meds_config) (o : detobj) : outcome Z :=
  if String.eqb (box_type mc) "sigma_size" then
    let row_size := d_ymax o - d_ymin o + 1 in
    let col_size := d_xmax o - d_xmin o + 1 in
    Ok (Z.max (Z.max col_size row_size) (get_sigma_size fwhm_fac mc o))
  else if String.eqb (box_type mc) "iso_radius" then
    let rad := if Qle_bool (d_iso_radius o) (rad_min mc) then rad_min mc else d_iso_radius o in
    let box_rad := (rad_fac mc * rad)%Q in
    Ok (qtrunc (2 * box_rad + box_padding mc)%Q)
  else Raise ValueError.

(** detect.py:370-376. *)
Definition box_bins (mc : meds_config) : list Z :=
  let bins := 0 :: filter (fun s => (min_box_size mc <=? s) && (s <=? max_box_size mc))
                          ALLOWED_BOX_SIZES in
  if last bins 0 =? max_box_size mc then bins else (bins ++ [max_box_size mc])%list.

(** numpy.digitize(x, bins, right=True) for increasing bins: the index i with
    bins[i-1] < x <= bins[i]. *)
Fixpoint digitize_right (x : Z) (bins : list Z) : nat :=
  match bins with
  | [] => O
  | b :: r => if b <? x then S (digitize_right x r) else O
  end.

(** detect.py:363-381 for one object. *)
Definition assign_box_size (mc : meds_config) (size : Z) : outcome Z :=
  let s := zclip (min_box_size mc) (max_box_size mc) size in
  let bins := box_bins mc in
  match nth_error bins (digitize_right s bins) with
  | Some b => Ok b
  | None => Raise IndexError
  end.

(** detect.py:335-385. *)
Definition get_box_sizes (fwhm_fac : Q) (mc : meds_config) (cat : list detobj)
  : outcome (list Z) :=
  match cat with
  | [] => Ok []
  | _ => omap (fun o => do s <- requested_size fwhm_fac mc o; assign_box_size mc s) cat
  end.

(** ** Catalogue entries *)
Record cat_entry := mkEntry {
  e_id : Z; e_number : Z; e_box : Z;
  e_row : Q; e_col : Q;
  e_srow : Z; e_scol : Z; e_erow : Z; e_ecol : Z;
  e_crow : Q; e_ccol : Q
}.

(** detect.py:296-326 and 493-523 for one object (the two code blocks are the
    same). *)
Definition make_entry (maxrow maxcol : Z) (id number : Z) (y x : Q) (box : Z) : cat_entry :=
  let half := box / 2 in
  let orow := qtrunc y in
  let ocol := qtrunc x in
  let srow := Z.max (orow - half + 1) 0 in
  let scol := Z.max (ocol - half + 1) 0 in
  let erow := Z.min (orow + half + 1) maxrow in
  let ecol := Z.min (ocol + half + 1) maxcol in
  mkEntry id number box y x srow scol erow ecol
          (y - inject_Z srow)%Q (x - inject_Z scol)%Q.

(** detect.py:455-533: positions, box sizes and optional numbers, one entry per
    object in input order. Simplification: the three input arrays have equal
    length (one list of triples). *)
Fixpoint number_from (k : Z) {A} (l : list A) : list (Z * A) :=
  match l with
  | [] => []
  | a :: r => (k, a) :: number_from (k + 1) r
  end.

Definition catalog_medsify (maxrow maxcol : Z) (objs : list (Q * Q * Z))
    (number : option (list Z)) : list cat_entry :=
  match number with
  | None =>
      map (fun io => match io with
           | (i, (y, x, b)) => make_entry maxrow maxcol i (i + 1) y x b end)
          (number_from 0 objs)
  | Some ns =>
      map (fun no => match no with
           | (n, (y, x, b)) => make_entry maxrow maxcol (n - 1) n y x b end)
          (combine ns objs)
  end.

(** detect.py:256-333 (_run_sep after the extractor call). The extractor is
    third party: [objs] is whatever it returned. *)
Definition run_sep_catalog (fwhm_fac : Q) (mc : meds_config) (maxrow maxcol : Z)
    (objs : list detobj) : outcome (list cat_entry) :=
  do boxes <- get_box_sizes fwhm_fac mc objs;
  Ok (map (fun iob => match iob with
           | (i, (o, b)) => make_entry maxrow maxcol i (i + 1) (d_y o) (d_x o) b end)
          (number_from 0 (combine objs boxes))).

(** ** Stamps *)
Record meds := mkMedsI { m_plane : string -> img num; m_psf : img num; m_cat : list cat_entry }.

(** detect.py:109-151. *)
Definition get_clipped_boxes (dim start bsize : Z) : (Z * Z) * (Z * Z) :=
  let o0 := start in
  let o1 := start + bsize in
  let b0 := 0 in
  let b1 := bsize in
  let '(o0, b0) := if o0 <? 0 then (0, 0 - start) else (o0, b0) in
  let diff := dim - o1 in
  let '(o1, b1) := if diff <? 0 then (dim, b1 + diff) else (o1, b1) in
  ((o0, o1), (b0, b1)).

Definition image_types : list string := ["image"; "weight"; "seg"; "bmask"; "noise"].

(** detect.py:46-90 and 92-107. The index check of the MEDS base class
    (third party) is a ValueError for an object index out of range. *)
Definition get_cutout (m : meds) (iobj : nat) (type : string) : outcome (img num) :=
  match nth_error (m_cat m) iobj with
  | None => Raise ValueError
  | Some e =>
    if String.eqb type "psf" then Ok (m_psf m)
    else if existsb (String.eqb type) image_types then
      let im := m_plane m type in
      let bsize := e_box e in
      let '((or0, or1), (r0, r1)) := get_clipped_boxes (nr im) (e_srow e) bsize in
      let '((oc0, oc1), (c0, c1)) := get_clipped_boxes (nc im) (e_scol e) bsize in
      let read_im := slice im or0 or1 oc0 oc1 in
      if bsize <? 0 then Raise ValueError
      else
        match DEFAULT_IMAGE_VALUES type with
        | None => Raise KeyError
        | Some fill => assign_slice (ifill bsize bsize fill) r0 r1 c0 c1 read_im
        end
    else Raise ValueError
  end.

(** ** Detection image *)

(** One band as used by the detection: image, weight map, optional bmask. *)
Record band := mkBand { b_image : img Q; b_weight : img Q; b_bmask : option (img Z) }.

(** detect.py:212-220: median of the positive weights, as a variance. *)
Definition positive_weights (b : band) : list Q :=
  filter (fun w => negb (Qle_bool w 0)) (pixels (b_weight b)).
Definition image_var (b : band) : option Q :=
  match qmedian (positive_weights b) with
  | Some m => Some (1 / m)%Q
  | None => None   (* numpy: median of an empty array is nan *)
  end.

Fixpoint oall {A} (l : list (option A)) : option (list A) :=
  match l with
  | [] => Some []
  | None :: _ => None
  | Some a :: r => match oall r with Some s => Some (a :: s) | None => None end
  end.

(** detect.py:222-244. Returns the detection image, 1/detnoise^2 (the square
    root of detect.py:230 is not taken) and the mask. None stands for the
    all-nan result when a band has no positive weight. *)
Definition set_detim (nodet_flags : Z) (bands : list band)
  : option (img Q * Q * img bool) :=
  match bands with
  | [] => None
  | b0 :: _ =>
    match oall (map image_var bands) with
    | None => None
    | Some vars =>
      let weights := map (fun v => (1 / v)%Q) vars in
      let wsum := qsum weights in
      let nweights := map (fun w => (w / wsum)%Q) weights in
      let shape_r := nr (b_image b0) in
      let shape_c := nc (b_image b0) in
      let detim := mkImg shape_r shape_c
        (fun i j => fold_left (fun acc bw => (acc + px (b_image (fst bw)) i j * snd bw)%Q)
                              (combine bands nweights) 0%Q) in
      let mask := mkImg shape_r shape_c
        (fun i j => fold_left
           (fun acc b => match b_bmask b with
              | Some bm => acc || negb (Z.land (px bm i j) nodet_flags =? 0)
              | None => acc end) bands false) in
      Some (detim, wsum, mask)
    end
  end.

(** ** Masked fraction of objects (mfrac.py) *)

(** ngmix GMix.get_weighted_sums (third party, mfrac.py:74-80) on a stamp whose
    weights are 0 or 1: [g] is the Gaussian weight at each stamp pixel, [near]
    the aperture cut. Sum of g*value and sum of g over pixels with weight 1 in
    the aperture; GMixFatalError when all weights are zero. *)
Definition weighted_sums (g : Z -> Z -> Q) (near : Z -> Z -> bool)
    (stamp : img Q) (good : Z -> Z -> bool) : outcome (Q * Q) :=
  let goodpix := filter (fun ij => good (fst ij) (snd ij)) (coords (nr stamp) (nc stamp)) in
  match goodpix with
  | [] => Raise GMixFatalError
  | _ =>
    let used := filter (fun ij => near (fst ij) (snd ij)) goodpix in
    Ok (qsum (map (fun ij => g (fst ij) (snd ij) * px stamp (fst ij) (snd ij))%Q used),
        qsum (map (fun ij => g (fst ij) (snd ij)) used))
  end.

(** The value of one mfrac entry: a number, or nan (0/0). *)
Inductive mval : Type := MNum (q : Q) | MNan.

Definition num_q (n : num) : Q := match n with F q => q | I z => inject_Z z end.
Definition num_z (n : num) : Z := match n with F q => qtrunc q | I z => z end.

(** mfrac.py:64-84 for one object. [mf] is the masked fraction map, [bm] the
    bmask of the observation; [g]/[near] are the Gaussian aperture for this
    object. *)
Definition measure_mfrac_one (mf : img Q) (bm : img Z)
    (g : Z -> Z -> Q) (near : Z -> Z -> bool) (y x : Q) (box : Z) : outcome mval :=
  if 0 <? box then
    let m := mkMedsI
      (fun t => if String.eqb t "bmask" then imap I bm else imap F mf)
      (imap F mf) (catalog_medsify (nr mf) (nc mf) [(y, x, box)] None) in
    do im <- get_cutout m 0 "image";
    do bk <- get_cutout m 0 "bmask";
    match weighted_sums g near (imap num_q im)
            (fun i j => Z.land (num_z (px bk i j)) BMASK_EDGE =? 0) with
    | Ok (s, w) => if Qeq_bool w 0 then Ok MNan else Ok (MNum (s / w)%Q)
    | Raise GMixFatalError => Ok (MNum 1%Q)
    | Raise e => Raise e
    end
  else Ok (MNum 1%Q).

(** mfrac.py:8-86. The apertures of the objects are given as a list, one per
    object. *)
Definition measure_mfrac (mf : img Q) (bm : img Z)
    (objs : list (Q * Q * Z * ((Z -> Z -> Q) * (Z -> Z -> bool)))) : outcome (list mval) :=
  omap (fun o => match o with
        | (y, x, b, (g, near)) => measure_mfrac_one mf bm g near y x b end) objs.
