(** Model of metadetect/lsst/photometry.py: run_photometry, put together from the
    models of the functions it calls. *)
From Coq Require Import ZArith QArith List String Bool.
From Verif Require Import Base Arr Median Dict Lutil_model Lexp_model Lthr_model Lmdet_model Lmeas_model.
From Verif Require Lsky_model.
Import ListNotations.
Local Open Scope string_scope.
Local Open Scope Z_scope.

(** What is third party, and the constants: the detection configuration of the
    stack; the background and the detection of the sky subtraction for an
    exposure (planes that never change) in a given state; the fit of the PSF of
    an exposure at its centre; the conversion of distortions; the weight and
    box of the masked fractions; the exposure of one band seen as a detection
    exposure, whether it already is an ExposureF (then no copy is made);
    detection and deblending with a configuration, the mask of the detection
    exposure afterwards, and the stack's measurements on it; wcs; the two fits,
    by shear bands and by fwhm; names for the shear bands; the order of a set.
    The random number generator is not modelled. *)
Record phot := mkPhot {
  ph_stack : cfg;
  ph_back : exposure -> Lsky_model.exposure -> Lsky_model.failure + img Q;
  ph_skydetect : cfg -> exposure -> Lsky_model.exposure -> img Z * (Lsky_model.failure + unit * option (img Q));
  ph_psffit : exposure -> outcome psffit;
  ph_to_g : Q -> Q -> option (Q * Q);
  ph_W : Q -> Q -> Q; ph_rad : Z;
  ph_single : exposure -> coadded; ph_isfloat : bool;
  ph_detect : cfg -> coadded -> outcome (option (list source));
  ph_detmask : cfg -> coadded -> img Z;
  ph_cen : coadded -> Z -> option (Q * Q); ph_skypix : Z -> option (Q * Q);
  ph_wcs : wcs_oracle; ph_radec : Q * Q -> Q * Q;
  ph_gauss : list Z -> list lobs -> outcome (string -> cell);
  ph_pgauss : atom -> list lobs -> outcome (string -> cell);
  ph_nanpos : Q * Q; ph_no_attempt : Z; ph_detected : Z;
  ph_label : list Z -> string; ph_order : list Z -> list Z
}.

(** ** The configuration: config['k'] and config['k']['s'] for values. A
    dictionary where a value belongs is a TypeError here (Python would take a
    dictionary as the truth value of subtract_sky). *)
Definition conf (h : heap) (p : nat) (k : string) : outcome atom :=
  do d <- hget h p;
  match sget k d with Some (VAtom a) => Ok a | Some (VRef _) => Raise TypeError | None => Raise KeyError end.
Definition subconf (h : heap) (p : nat) (k s : string) : outcome atom :=
  do d <- hget h p;
  match sget k d with Some (VRef q) => conf h q s | Some (VAtom _) => Raise TypeError | None => Raise KeyError end.
(** util.py:1320, config["shear_bands"] as a list of names (a string, over whose
    characters Python would run, is a TypeError here). *)
Definition names_of (a : atom) : outcome (option (list string)) :=
  match a with
  | ANames l => Ok (Some l)
  | AStr s => if String.eqb s "" then Ok None else Raise TypeError
  | a => if truthy a then Raise TypeError else Ok None
  end.
(** A stamp size that is not an integer is a TypeError here. *)
Definition int_of (a : atom) : outcome Z := match a with AInt z => Ok z | _ => Raise TypeError end.

(** ** photometry.py:59-60, subtract_sky_mbexp on the caller's exposures (Lsky_model,
    Lthr_model); 'BGMEAN' before is not modelled. *)
Definition with_x (e : exposure) (x : Lsky_model.exposure) : exposure :=
  mkExp (e_x0 e) (e_y0 e) (Lsky_model.x_image x) (e_var e) (Lsky_model.x_mask x) (e_psf e) (e_wcs e).
Definition sky_band (P : phot) (c : cfg) (niter : Z) (e : exposure) : exposure * outcome (option unit) :=
  let (x, o) := Lsky_model.run unit (ph_back P e) (ph_skydetect P c e) niter
                  (Lsky_model.mkX (e_image e) (e_mask e) None) in (with_x e x, o).
Fixpoint sky_bands (P : phot) (c : cfg) (niter : Z) (l : list exposure) : list exposure * outcome unit :=
  match l with
  | [] => ([], Ok tt)
  | e :: l => match sky_band P c niter e with
              | (e, Raise x) => (e :: l, Raise x)
              | (e, Ok _) => let (l, o) := sky_bands P c niter l in (e :: l, o)
              end
  end.
(** skysub.py:66, self.config.niter *)
Definition niter_of (c : cfg) : outcome Z :=
  do i <- node_at c "iterate_detection_and_skysub"; do a <- leaf_at i "niter"; int_of a.
Definition subtract_sky_mbexp (P : phot) (thresh : atom) (bands : list exposure) : list exposure * outcome unit :=
  match snd (sky_config (ph_stack P) thresh None) with
  | Raise x => (bands, Raise x)
  | Ok c => match niter_of c with Raise x => (bands, Raise x) | Ok n => sky_bands P c n bands end
  end.

(** ** photometry.py:69-76, the detection; one band that is an ExposureF is
    detected on itself (measure.py:180-184), so that its mask changes. *)
Definition with_mask (e : exposure) (m : img Z) : exposure :=
  mkExp (e_x0 e) (e_y0 e) (e_image e) (e_var e) m (e_psf e) (e_wcs e).
Definition after_detection (P : phot) (c : cfg) (d : coadded) (bands : list exposure) : list exposure :=
  match bands with
  | [e] => if ph_isfloat P then [with_mask e (ph_detmask P c d)] else [e]
  | _ => bands
  end.
Definition phot_env (P : phot) (c : cfg) (d : coadded) (bands : list exposure) (stamp_size : Z) (fwhm : atom) (shear : list Z) : menv :=
  mkMenv bands (c_x0 d) (c_y0 d) (ph_detmask P c d) (ph_cen P d) (ph_skypix P) (ph_wcs P) (ph_radec P)
    (ph_gauss P shear) (ph_pgauss P fwhm) (ph_nanpos P) (ph_no_attempt P) (ph_detected P) stamp_size (Ok shear).

(** ** photometry.py:88-94: the columns that are read and set (the functions are
    in Lmdet_model). *)
Definition lrow_of (r : row) : outcome lrow :=
  match sget "row" r, sget "col" r, sget "row0" r, sget "col0" r with
  | Some (CNum (Some y)), Some (CNum (Some x)), Some (CInt r0), Some (CInt c0) => Ok (mkLrow 0 y x r0 c0 0 None None)
  | _, _, _, _ => Raise KeyError
  end.
Definition set_mfrac (r : row) (x : lrow) : row := sput "mfrac" (CNum (l_mfrac x)) r.
Definition set_ormask (r : row) (x : lrow) : row := sput "ormask" (CInt (l_ormask x)) r.
Definition set_psfrec (r : row) (p : psfstats) : row :=
  sput "psfrec_T" (CNum (Some (st_T p))) (sput "psfrec_g" (CPair (st_g1 p) (st_g2 p))
    (sput "psfrec_navg" (CInt (st_navg p)) (sput "psfrec_flags" (CInt (st_flags p)) r))).
Definition zip_with {A B C} (f : A -> B -> C) (a : list A) (b : list B) : list C := map (fun x => f (fst x) (snd x)) (combine a b).
Definition finish (P : phot) (ormask : img Z) (mfrac : img Q) (p : psfstats) (res : list row) : outcome (list row) :=
  do xs <- omap lrow_of res;
  let res := zip_with set_mfrac res (add_mfrac (ph_W P) (ph_rad P) mfrac xs) in
  do ys <- add_ormask ormask xs;
  let res := zip_with set_ormask res ys in
  Ok (map (fun r => set_psfrec r p) res).

(** ** photometry.py:17-96, run_photometry. [user]: the caller's dictionary or
    None. Returns the dictionaries, the caller's exposures and the result. *)
Definition phot_measure (P : phot) (h : heap) (cfg : nat) (bands : list exposure) (thresh : atom) (shear : list Z)
  : list exposure * outcome (option (list row)) :=
  match snd (detect_and_deblend_config (ph_stack P) thresh "sdss" None) with
  | Raise x => (bands, Raise x)
  | Ok c =>
    match dd_run (ph_single P) (ph_detect P c) bands with
    | Raise x => (bands, Raise x)
    | Ok (Two _) => (bands, Raise ValueError)
    | Ok (Three sources d) =>
      let bands := after_detection P c d bands in
      (bands,
       match sources with
       | [] => Ok None
       | _ =>
         do fwhm <- subconf h cfg "pgauss" "fwhm";
         do sz <- conf h cfg "stamp_size"; do sz <- int_of sz;
         measure (phot_env P c d bands sz fwhm shear) (ph_label P) (ph_order P) sources
       end)
    end
  end.
Definition run_photometry (P : phot) (h : heap) (user : option nat) (names : list string) (bands : list exposure)
    (mfracs : option (list (img Q))) (ormasks : option (list (img Z)))
  : heap * list exposure * outcome (option (list row)) :=
  match get_config h user with
  | (h, Raise x) => (h, bands, Raise x)
  | (h, Ok cfg) =>
    match (do ormask <- match ormasks, bands with
                        | None, [] => Raise IndexError
                        | None, e :: _ => combine_ormasks (nr (e_image e), nc (e_image e)) None
                        | Some l, _ => combine_ormasks (0, 0) (Some l)
                        end;
           do mw <- get_mfrac_mbexp (map e_var bands) mfracs;
           do ss <- conf h cfg "subtract_sky";
           do thresh <- subconf h cfg "detect" "thresh";
           Ok (ormask, mw, ss, thresh)) with
    | Raise x => (h, bands, Raise x)
    | Ok (ormask, mw, ss, thresh) =>
      match (if truthy ss then subtract_sky_mbexp P thresh bands else (bands, Ok tt)) with
      | (bands, Raise x) => (h, bands, Raise x)
      | (bands, Ok _) =>
        match (do sb <- conf h cfg "shear_bands"; do sb <- names_of sb;
               do shear <- extract_shear_band_indices names sb;
               do p <- fit_original_psfs (ph_to_g P) shear (map (ph_psffit P) bands) (snd mw);
               Ok (shear, p)) with
        | Raise x => (h, bands, Raise x)
        | Ok (shear, p) =>
          let '(bands, r) := phot_measure P h cfg bands thresh shear in
          (h, bands, do r <- r;
                     match r with
                     | None => Ok None
                     | Some res => do res <- finish P ormask (fst mw) p res; Ok (Some res)
                     end)
        end
      end
    end
  end.
