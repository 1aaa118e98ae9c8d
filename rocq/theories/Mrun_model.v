(** Model of do_metadetect (metadetect/metadetect.py:25-74) end to end: the
    construction of Conf_model, the driver of Mdet_model and, in place of the
    driver's abstract steps, the detection, stamps and fits of Detect_model,
    Wavg_model and Joint_model on actual images. *)
From Coq Require Import ZArith QArith Qminmax List String Bool.
From Verif Require Import Base Arr Median Flags_model Detect_model Summ_model Coadd_model Wavg_model Joint_model
  Conf_model Mdet_model.
Import ListNotations.
Local Open Scope string_scope.
Local Open Scope Z_scope.

(** One full image observation (ngmix.Observation): the planes read by the
    package. Jacobians are identified by a number. *)
Record obs := mkObs {
  ob_image : img Q; ob_weight : img Q; ob_bmask : img Z; ob_ormask : img Z;
  ob_mfrac : option (img Q); ob_noise : option (img Q); ob_jac : Z; ob_psf : img Q
}.
Definition mbo := list (list obs).

(** What the summary helpers and the detection read of an observation. *)
Definition sob (o : obs) : sobs := mkSobs (ob_weight o) (ob_mfrac o) (ob_bmask o) (ob_ormask o).
Definition band_of (o : obs) : Detect_model.band := mkBand (ob_image o) (ob_weight o) (Some (ob_bmask o)).

(** detect.py:92-107, _get_type_image; a missing noise plane is None, which has
    no shape. *)
Definition plane (o : obs) (seg : img Z) (type : string) : outcome (img Detect_model.num) :=
  if String.eqb type "image" then Ok (imap F (ob_image o))
  else if String.eqb type "weight" then Ok (imap F (ob_weight o))
  else if String.eqb type "bmask" then Ok (imap I (ob_bmask o))
  else if String.eqb type "noise" then
    match ob_noise o with Some n => Ok (imap F n) | None => Raise AttributeError end
  else if String.eqb type "seg" then Ok (imap I seg)
  else Raise ValueError.

(** Third party code, as deterministic functions. *)
Record third := mkThird {
  (** sxdes.run_sep on the detection image, 1/noise^2 and mask (None: the all nan
      image of Detect_model.set_detim): numbered objects and segmentation map.
      The threshold and settings are part of the function. *)
  tp_sep : option (img Q * Q * img bool) -> outcome (list (Z * detobj) * img Z);
  (** ngmix NGMixMEDS.get_obslist for one object: the weight type, get_cutout of
      the object by type, its catalogue entry, the jacobian and the PSF centre
      stored there, the PSF image. *)
  tp_read : string -> (string -> outcome (img Detect_model.num)) -> cat_entry -> Z -> Q * Q -> img Q -> outcome (list fobs);
  tp_metacal : mbo -> outcome (list (string * mbo));
  (** The PSF runner of fit_all_psfs. *)
  tp_psf : obs -> Summ_model.psfres;
  (** The moments fitters GaussMom, KSigmaMom and PGaussMom. *)
  tp_go : fitter -> fobs -> outcome fitres;
  tp_go_psf : fitter -> psfobs -> outcome fitres;
  tp_ng : ngcodes; tp_mk : vec -> mat -> momresult; tp_toT : Q -> Q; tp_sqrt : Q -> Q;
  (** The runners of the joint fitters. *)
  tp_boot : list (list fobs) -> bootout;
  tp_am_psf : psfobs -> outcome amres; tp_am : fobs -> outcome amres;
  (** shearpos.unshear_positions_obs (Shearpos_model) for one object. *)
  tp_unshear : obs -> string -> Q -> Q -> outcome (Q * Q);
  (** The Gaussian aperture of measure_mfrac. *)
  tp_aper : Q -> Q -> Z -> (Z -> Z -> Q) * (Z -> Z -> bool);
  (** detect.py:22, FWHM_FAC. *)
  tp_fwhm_fac : Q
}.

(** The configuration: the part read at construction, metacal types, "meds"
    entries and its "weight_type", "bmask_flags", mask regions. *)
Record settings := mkSettings {
  st_conf : config; st_types : list string; st_meds : meds_config; st_weight_type : option string;
  st_bmask_flags : option Z; st_ormask_region : option Z; st_mask_region : option Z
}.

Section Run.
Variables (x : third) (c : settings).

(** metadetect.py:776: default "weight". *)
Definition weight_type : string := default "weight" (st_weight_type c).
(** metadetect.py:576, 586: default 0. *)
Definition bmask_flags : Z := default 0 (st_bmask_flags c).

(** metadetect.py:753-768 and detect.py:174-187, 222-333: detection on the given
    bands. Simplification: the images of all bands have one shape. *)
Definition detect (nodet : Z) (m : mbo) : outcome (list det * img Z) :=
  match m with
  | [] => Raise IndexError
  | ol :: _ =>
    if negb (Nat.eqb (List.length ol) 1) then Raise AssertionError
    else
      do bands <- omap (fun ol => do o <- py_index ol 0; Ok (band_of o)) m;
      do r <- tp_sep x (set_detim nodet bands);
      do boxes <- get_box_sizes (tp_fwhm_fac x) (st_meds c) (map snd (fst r));
      Ok (map (fun nob => mkDetc (d_x (snd (fst nob))) (d_y (snd (fst nob))) (snd nob) (fst (fst nob)))
              (combine (fst r) boxes),
          snd r)
  end.

(** detect.py:442-533 and 189-210, metadetect.py:770-778, 475-482: the stamps of
    one object in all bands. The entries of a catalogue do not depend on each
    other (detect.py:478-523 work elementwise), so the catalogue here is that of
    the single object. With a segmentation map the object keeps its number;
    without one the map is zero and the object has number 1. *)
Definition stamp (m : mbo) (seg : option (img Z)) (d : det) : outcome (list (list fobs)) :=
  match m with
  | [] => Raise IndexError
  | ol0 :: _ =>
    if negb (Nat.eqb (List.length ol0) 1) then Raise AssertionError
    else
      do o0 <- py_index ol0 0;
      let nrow := nr (ob_image o0) in
      let ncol := nc (ob_image o0) in
      let cat := catalog_medsify nrow ncol [(dc_y d, dc_x d, dc_box d)]
                   (match seg with Some _ => Some [dc_number d] | None => None end) in
      let sg := match seg with Some s => s | None => ifill nrow ncol 0 end in
      let pcen := ((inject_Z (nr (ob_psf o0)) - 1) / 2, (inject_Z (nc (ob_psf o0)) - 1) / 2)%Q in
      omap (fun ol =>
        do o <- py_index ol 0;
        match nth_error cat 0 with
        | None => Raise IndexError
        | Some e =>
          tp_read x weight_type
            (fun type => do p <- plane o sg type;
                         get_cutout (mkMedsI (fun _ => p) (imap F (ob_psf o)) cat) 0 type)
            e (ob_jac o0) pcen (ob_psf o)
        end) m
  end.

(** metadetect.py:565-594: one fitter on one object. *)
Definition kernel (f : fitter) : Wavg_model.fitter :=
  Wavg_model.mkFitter (fi_base f) (tp_go x f) (tp_go_psf x f).
Definition fit (f : fitter) (sb : list Z) (st : list (list fobs)) : outcome row :=
  if fi_wavg f then
    fit_mbobs_wavg (tp_ng x) (tp_mk x) (tp_toT x) (tp_sqrt x) st (kernel f) bmask_flags (Some sb) (fi_reg f) (fi_symm f)
  else if String.eqb (fi_base f) "am" || String.eqb (fi_base f) "admom" then
    fit_mbobs_admom (tp_ng x) (tp_am_psf x) (tp_am x) st bmask_flags (Some sb) (fi_symm f)
  else if String.eqb (fi_base f) "gauss" then
    fit_mbobs_gauss (tp_ng x) (tp_boot x) st bmask_flags (Some sb) (fi_coadd f)
  else Raise RuntimeError.
(** metadetect.py:449-457: the fluxes for the colour, with the default
    regularisation 0 and symmetrization (fitting.py:703-706). *)
Definition fluxes (f : fitter) (sb : list Z) (st : list (list fobs)) : outcome (list Wavg_model.num) :=
  do r <- fit_mbobs_wavg (tp_ng x) (tp_mk x) (tp_toT x) (tp_sqrt x) st (kernel f) bmask_flags (Some sb) 0 true;
  Ok (o_band_flux r).

(** fitting.py:669-700 on the main or the coloured observations. *)
Definition qmax_of (l : list Q) : Q := match l with [] => 0%Q | a :: r => fold_left Qmax r a end.
Definition pobs_of (o : obs) : pobs := mkPobs (qmax_of (pixels (ob_weight o))) None.
Definition psf_fit (m : mbo) : list (list pobs) * outcome unit :=
  fit_all_psfs (fun k => match nth_error m k with
                         | Some (o :: _) => tp_psf x o
                         | _ => Summ_model.mkPsfres 0 None None None   (* not reached *)
                         end) (map (map pobs_of) m).

(** metadetect.py:655-663: positions are transported with the first main
    observation. *)
Definition unshear (main : mbo) (t : string) (row col : Q) : outcome (Q * Q) :=
  do ol <- py_index main 0;
  do o <- py_index ol 0;
  tp_unshear x o t row col.

(** The prefix of the columns of a fitter: "am" for both names of the adaptive
    moments (fitting.py:423), otherwise the kind; metadetect.py:286 adds
    "_reg%0.2f" to it. The text is that of the rational rounded to two decimals,
    ties to even, with the sign of the unrounded number. *)
Definition two_decimals (q : Q) : string :=
  let n := qrint (q * 100) in
  (if Qle_bool 0 q then "" else "-") ++ int_str (Z.abs n / 100) ++ "." ++
  int_str (Z.abs n / 10 mod 10) ++ int_str (Z.abs n mod 10).
Definition colname (f : fitter) : string :=
  if String.eqb (fi_base f) "admom" then "am"
  else match fi_suffix f with
       | None => fi_base f
       | Some q => fi_base f ++ "_reg" ++ two_decimals q
       end.

(** metadetect.py:131-173 and 25-74. *)
Definition environment (md : mdet) (main : mbo)
  (color : option ((list Wavg_model.num -> outcome (option Z)) * (Z -> option (cobs obs))))
  : env obs (img Z) (list (list fobs)) (list Wavg_model.num) row :=
  mkEnv main color psf_fit (tp_metacal x) (st_types c) (md_nodet md) (md_fitters md) (md_shear md) (md_det md)
    (detect (md_nodet md)) stamp fit colname fluxes (unshear main) (st_ormask_region c) (st_mask_region c) (tp_aper x).

(** The arguments color_key_func and color_dep_mbobs. *)
Definition keyfun := list Wavg_model.num -> outcome (option Z).
Definition colours := Z -> option (cobs obs).
Definition color_arg (keyf : option keyfun) (dep : option colours) : option (keyfun * colours) :=
  match keyf, dep with Some k, Some d => Some (k, d) | _, _ => None end.

Definition do_metadetect (main : mbo) (shear_band_combs : option (list (list Z)))
  (keyf : option keyfun) (dep : option colours) (det_band_combs : det_arg)
  : outcome (option (results row)) :=
  do md <- construct (st_conf c) (zlen main) (has keyf) (has dep) shear_band_combs det_band_combs;
  match go sob (environment md main (color_arg keyf dep)) init_state with
  | (Ok _, s) => result_property s
  | (Raise e, _) => Raise e
  end.
End Run.
