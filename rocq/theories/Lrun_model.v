(** Model of metadetect/lsst/metadetect.py: run_metadetect and MetadetectTask.run
    from end to end, put together from the models of the functions they call. *)
From Coq Require Import ZArith QArith Qcanon List String Bool.
From Verif Require Import Base Arr Median Dict Flags_model Lutil_model Lexp_model Lthr_model Lmdet_model Lmeas_model Lsub_model Lscar_model
  Lphot_model.
From Verif Require Lmcal_model.
Import ListNotations.
Local Open Scope string_scope.
Local Open Scope Z_scope.
Local Open Scope list_scope.

(** What the scarlet deblender gives besides the catalogue: the bands, the boxes
    of the footprints, and the models of the blends. The pixels are exact
    numbers in canonical form. *)
Record scarlet := mkScar { sc_bands : list string; sc_fbox : Z -> box; sc_blends : list (list (list (blend_source Qc))) }.

(** What is third party: the part shared with run_photometry, galsim's
    operations on profiles, and detection with the scarlet deblender on a
    detection exposure (None: the detection returns nothing). *)
Record mrun (Prof : Type) := mkRun {
  r_phot : phot;
  r_dilation : Q -> Q -> Q -> Q;
  r_gaussian : Q -> Q -> outcome Prof;
  r_target : img Q -> jacob -> Q -> outcome Prof;
  r_dilate : Prof -> Q -> Prof;
  r_drawpsf : Prof -> img Q -> jacob -> img Q;
  r_draw : img Q -> jacob -> img Q -> option (Q * Q) -> Prof -> outcome (img Q);
  r_scarlet : cfg -> list exposure -> coadded -> outcome (option (list source * scarlet))
}.
Arguments mkRun {Prof}. Arguments r_phot {Prof}. Arguments r_dilation {Prof}. Arguments r_gaussian {Prof}. Arguments r_target {Prof}.
Arguments r_dilate {Prof}. Arguments r_drawpsf {Prof}. Arguments r_draw {Prof}. Arguments r_scarlet {Prof}.

(** ** The exposures as Lmcal_model has them *)
Definition psf := option (Q -> Q -> img Q).
Definition info := (Z * Z * option Z)%type.
Definition mexp := Lmcal_model.exposure psf info.
Definition to_mcal (ne : string * exposure) : mexp :=
  let e := snd ne in Lmcal_model.mkE (e_image e) (e_var e) (e_mask e) (e_psf e) (fst ne) (e_x0 e, e_y0 e, e_wcs e).
Definition of_mcal (m : mexp) : exposure :=
  let '(x0, y0, wcs) := Lmcal_model.e_info m in
  mkExp x0 y0 (Lmcal_model.e_image m) (Lmcal_model.e_var m) (Lmcal_model.e_mask m) (Lmcal_model.e_psf m) wcs.

Section Run.
Context {Prof : Type} (R : mrun Prof).
Let P := r_phot R.

(** metacal_exposures.py:181-183, 287-324 and util.py:536-553: the jacobian and
    the kernel image at the integer centre; a KernelPsf draws the same image
    everywhere. *)
Definition mcal_jac (m : mexp) : outcome jacob :=
  let e := of_mcal m in
  get_jacobian (ph_wcs P) e (inject_Z (fst (get_integer_center e))) (inject_Z (snd (get_integer_center e))).
Definition mcal_kernel (m : mexp) : outcome (img Q) :=
  let e := of_mcal m in
  do draw <- some_or_attr (e_psf e);
  Ok (draw (inject_Z (fst (get_integer_center e))) (inject_Z (snd (get_integer_center e)))).
Definition mcal_galsim : Lmcal_model.galsim psf info jacob Prof :=
  Lmcal_model.mkG mcal_jac mcal_kernel (r_dilation R) (r_gaussian R) (r_target R) (r_dilate R) (r_drawpsf R) (r_draw R)
    (fun im => Some (fun _ _ => im)).

(** ** metadetect.py:82-94, the configuration *)

(** The values that are read later. *)
Record settings := mkSet {
  s_sky : atom; s_thresh : atom; s_deblender : string; s_types : list string; s_reconv : string;
  s_stamp : Z; s_fwhm : atom; s_shear : option (list string)
}.
(** metadetect.py:124-133; FieldValidationError is a ValueError. The validation
    of the other fields by the stack is not modelled. *)
Definition allowed_types : list string := ["noshear"; "1p"; "1m"; "2p"; "2m"].
Definition validate (types : list string) : outcome unit :=
  if forallb (fun t => existsb (String.eqb t) allowed_types) types then Ok tt else Raise ValueError.
Definition read_config (user : option items) : outcome settings :=
  do c <- run_of (override (mdet_defaults (ph_stack P)) (ODict (unalias (match user with Some d => d | None => [] end))));
  do mc <- node_at c "metacal";
  do types <- leaf_at mc "types";
  do types <- match types with ANames l => Ok l | _ => Raise ValueError end;
  do _ <- validate types;
  do reconv <- leaf_at mc "reconv_type";
  do det <- node_at c "detect";
  do thresh <- leaf_at det "thresholdValue";
  do ss <- leaf_at c "subtract_sky";
  do deb <- leaf_at c "deblender";
  do pg <- node_at c "pgauss";
  do fwhm <- leaf_at pg "fwhm";
  do sz <- leaf_at c "stamp_size"; do sz <- int_of sz;
  do sb <- leaf_at c "shear_bands"; do sb <- names_of sb;
  Ok (mkSet ss thresh (str_of deb) types (str_of reconv) sz fwhm sb).

(** ** metadetect.py:271-311, detect_deblend_and_measure. The metacal exposures
    are of type D, so the detection exposure is always a copy. [shear]: the
    indices of the shear bands, which the measurement looks up again with the
    same result. *)
Definition type_env (c : cfg) (s : settings) (shear : list Z) (bands : list exposure) (d : coadded) : menv :=
  phot_env P c d bands (s_stamp s) (s_fwhm s) shear.
(** The pixel of the image of a band, by its position. *)
Definition pixels_of (names : list string) (bands : list exposure) : images Qc :=
  fun name x y => match find (fun ne => String.eqb name (fst ne)) (combine names bands) with
                  | Some (_, e) => Q2Qc (px (e_image e) (y - e_y0 e) (x - e_x0 e))
                  | None => Q2Qc 0
                  end.
Definition measure_type (s : settings) (shear : list Z) (names : list string) (bands : list exposure) : outcome (option (list row)) :=
  do c <- snd (detect_and_deblend_config (ph_stack P) (s_thresh s) (s_deblender s) None);
  if String.eqb (s_deblender s) "scarlet" then
    do det <- match bands with
              | [] => Raise IndexError
              | [e] => Ok (Some (ph_single P e))
              | _ => coadd_exposures bands
              end;
    match det with
    | None => Raise ValueError
    | Some d =>
      do r <- r_scarlet R c bands d;
      match r with
      | None => Ok None
      | Some (cat, sc) =>
        snd (measure_scarlet Qc Qcplus Qcminus this (type_env c s shear bands d) names (sc_bands sc) (sc_fbox sc) (sc_blends sc)
               (pixels_of names bands) (ph_label P) cat)
      end
    end
  else detect_deblend_and_measure (ph_single P) (ph_detect P c) (type_env c s shear bands) (ph_label P) (ph_order P) bands.

(** ** metadetect.py:245-268, the results *)
Inductive entry := Table (t : option (list row)) | PsfStats (p : psfstats).
Definition type_entry (s : settings) (shear : list Z) (names : list string) (ormask : img Z) (mfrac : img Q) (p : psfstats)
    (res : list (string * entry)) (tm : string * list mexp) : outcome (list (string * entry)) :=
  do r <- measure_type s shear names (map of_mcal (snd tm));
  do t <- match r with
          | None => Ok None
          | Some rows => do rows <- finish P ormask mfrac p rows; Ok (Some rows)
          end;
  Ok (sput (fst tm) (Table t) res).
(** metadetect.py:601-607: the fits of the bands; they are complete when the fit
    of the original psfs returns. *)
Definition perband (fits : list (outcome psffit)) : list Lmcal_model.pstats :=
  flat_map (fun f => match f with Ok f => [Lmcal_model.mkPs (pf_e1 f) (pf_e2 f) (pf_T f)] | Raise _ => [] end) fits.

(** ** metadetect.py:33-103, run_metadetect, with MetadetectTask.run, 194-268. The
    first result is the state of the caller's exposures afterwards. *)
Definition run_metadetect (user : option items) (names : list string) (bands noise : list exposure)
    (mfracs : option (list (img Q))) (ormasks : option (list (img Z))) (get_psf_stats : bool)
  : list exposure * outcome (list (string * entry)) :=
  match (do s <- read_config user;
         do ormask <- match ormasks, bands with
                      | None, [] => Raise IndexError
                      | None, e :: _ => combine_ormasks (nr (e_image e), nc (e_image e)) None
                      | Some l, _ => combine_ormasks (0, 0) (Some l)
                      end;
         do mw <- get_mfrac_mbexp (map e_var bands) mfracs;
         Ok (s, ormask, mw)) with
  | Raise x => (bands, Raise x)
  | Ok (s, ormask, mw) =>
    match (if truthy (s_sky s) then subtract_sky_mbexp P (s_thresh s) bands else (bands, Ok tt)) with
    | (bands, Raise x) => (bands, Raise x)
    | (bands, Ok _) =>
      (bands,
       do shear <- extract_shear_band_indices names (s_shear s);
       do p <- fit_original_psfs (ph_to_g P) shear (map (ph_psffit P) bands) (snd mw);
       let stats := if String.eqb (s_reconv s) "fitgauss" then Some (perband (map (ph_psffit P) bands)) else None in
       do m <- Lmcal_model.get_metacal_mbexps_fixnoise mcal_galsim (map to_mcal (combine names bands)) (map to_mcal (combine names noise))
                 (Some (s_types s)) stats;
       do res <- ofold (type_entry s shear names ormask (fst mw) p) (fst m) [];
       Ok (if get_psf_stats then sput "psf_stats" (PsfStats p) res else res))
    end
  end.
End Run.
