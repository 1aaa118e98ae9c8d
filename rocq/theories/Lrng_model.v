(** The random number generator in metadetect/lsst: run_metadetect
    (metadetect/lsst/metadetect.py) and run_photometry
    (metadetect/lsst/photometry.py) once more, with one generator drawn from by
    the fits of the original PSFs and by the Gaussian fits of the objects
    (measure.py:419-437). Nothing else draws: detection gets the generator and
    does not use it (measure.py:206-219, 312-313), the pgauss fitter gets none.
    Lrun_model and Lphot_model leave the generator out. *)
From Coq Require Import ZArith QArith Qcanon List String Bool.
From Verif Require Import Base Arr Median Dict Flags_model Lutil_model Lexp_model Lthr_model Lmdet_model Lmeas_model Lsub_model Lscar_model
  Lphot_model Lrun_model.
From Verif Require Lmcal_model.
Import ListNotations.
Local Open Scope string_scope.
Local Open Scope Z_scope.
Local Open Scope list_scope.

(** The two kinds of fits that draw: of the PSF of an exposure at its centre,
    and of the stamps of an object, for some shear bands. They give a result and
    the state of the generator afterwards (third party). *)
Record draws (G : Type) := mkDraws {
  g_psf : exposure -> G -> outcome psffit * G;
  g_gauss : list Z -> list lobs -> G -> outcome (string -> cell) * G
}.
Arguments mkDraws {G}. Arguments g_psf {G}. Arguments g_gauss {G}.

Section Rng.
Context {G : Type} (L : draws G).

(** metadetect.py:583-607, the fits of the bands one after the other. The code
    stops at a fit that fails; the run then raises, so that later draws do not
    matter. *)
Fixpoint draw_psfs (bands : list exposure) (g : G) : list (outcome psffit) * G :=
  match bands with
  | [] => ([], g)
  | e :: r => let '(f, g1) := g_psf L e g in let '(fs, g2) := draw_psfs r g1 in (f :: fs, g2)
  end.

(** measure.py:369-456, one turn of the loop in a state of the generator. A
    stamp that could not be made is not fit. *)
Definition gauss_at (env : menv) (shear : list Z) (g : G) : menv :=
  mkMenv (m_bands env) (m_detx0 env) (m_dety0 env) (m_detmask env) (m_cen env) (m_skypix env) (m_W env) (m_radec env)
    (fun obs => fst (g_gauss L shear obs g)) (m_pgauss env) (m_nanpos env) (m_no_attempt env) (m_detected env) (m_stamp_size env) (m_shear_bands env).
Definition after_fit (shear : list Z) (st : outcome (list lobs)) (g : G) : G :=
  match st with Ok obs => snd (g_gauss L shear obs g) | Raise _ => g end.
Definition rmeasure_one (env : menv) (shear : list Z) (label : string) (stamp : Z -> outcome (list lobs)) (bmasks : list Z) (i : nat)
    (s : source) (g : G) : outcome (row * G) :=
  do r <- measure_one (gauss_at env shear g) label stamp bmasks i s;
  Ok (r, after_fit shear (stamp (s_id s)) g).
(** measure.py:378-456, the loop. *)
Fixpoint rmeasure_loop (env : menv) (shear : list Z) (label : string) (stamp : Z -> outcome (list lobs)) (bmasks : list Z) (i : nat)
    (children : list (option source)) (g : G) : outcome (list row * G) :=
  match children with
  | [] => Ok ([], g)
  | c :: r =>
    do s <- some_or_attr c;
    do x <- rmeasure_one env shear label stamp bmasks i s g;
    do l <- rmeasure_loop env shear label stamp bmasks (S i) r (snd x);
    Ok (fst x :: fst l, snd l)
  end.
Definition some_rows (rows : list row) : option (list row) := match rows with [] => None | _ => Some rows end.
(** measure.py:317-467 without model data. *)
Definition rmeasure (env : menv) (shear : list Z) (label : list Z -> string) (order : list Z -> list Z) (cat : list source) (g : G)
  : outcome (option (list row) * G) :=
  match cat with
  | [] => Ok (None, g)
  | _ =>
    do sb <- m_shear_bands env;
    do bmasks <- get_bmasks env cat;
    do rows <- rmeasure_loop env shear (label sb) (get_mbobs env order cat) bmasks 0 (map (find_source cat) (Lmeas_model.child_ids order cat)) g;
    Ok (some_rows (fst rows), snd rows)
  end.

(** measure.py:317-467 with model data; see Lscar_model. *)
Fixpoint rscar_loop (env : menv) (shear : list Z) (names : list string) (bands : list exposure) (cat : list source) (label : string)
    (bmasks : list Z) (i : nat) (s : subtractor Qc) (ids : list Z) (g : G) : outcome (list row * G) :=
  match ids with
  | [] => Ok ([], g)
  | id :: r =>
    do src <- some_or_attr (find_source cat id);
    let '(s1, st) := with_source Qc Qcplus Qcminus s id (fun s' => sub_mbobs Qc this env names bands cat false s' id) in
    do x <- rmeasure_one env shear label (fun _ => st) bmasks i src g;
    do l <- rscar_loop env shear names bands cat label bmasks (S i) s1 r (snd x);
    Ok (fst x :: fst l, snd l)
  end.
Definition rmeasure_scarlet (env : menv) (shear : list Z) (names mbands : list string) (fbox : Z -> box)
    (blends : list (list (list (blend_source Qc)))) (orig : images Qc) (label : list Z -> string) (cat : list source) (g : G)
  : outcome (option (list row) * G) :=
  match cat with
  | [] => Ok (None, g)
  | _ =>
    do sb <- m_shear_bands env;
    do bmasks <- get_bmasks env cat;
    do bands <- copy_mbexp false (m_bands env);
    do s <- make_subtractor Qc Qcminus mbands names (mbexp_box env) (foot_of cat fbox) (model_sources Qc blends) orig;
    do rows <- rscar_loop env shear names bands cat (label sb) bmasks 0 s (Lsub_model.child_ids Qc s) g;
    Ok (some_rows (fst rows), snd rows)
  end.

Section Run.
Context {Prof : Type} (R : mrun Prof).
Let P := r_phot R.

(** metadetect.py:271-311, detect_deblend_and_measure. *)
Definition rmeasure_type (s : settings) (shear : list Z) (names : list string) (bands : list exposure) (g : G)
  : outcome (option (list row) * G) :=
  do c <- snd (detect_and_deblend_config (ph_stack P) (s_thresh s) (s_deblender s) None);
  if String.eqb (s_deblender s) "scarlet" then
    do det <- match bands with
              | [] => Raise IndexError
              | [e] => Ok (Some (ph_single P e))
              | _ => coadd_exposures bands
              end;
    match det with
    | None => Raise ValueError
    | Some d =>
      do r <- r_scarlet R c bands d;
      match r with
      | None => Ok (None, g)
      | Some (cat, sc) =>
        rmeasure_scarlet (type_env R c s shear bands d) shear names (sc_bands sc) (sc_fbox sc) (sc_blends sc)
          (pixels_of names bands) (ph_label P) cat g
      end
    end
  else
    do r <- dd_run (ph_single P) (ph_detect P c) bands;
    match r with
    | Two _ => Raise ValueError
    | Three sources d => rmeasure (type_env R c s shear bands d) shear (ph_label P) (ph_order P) sources g
    end.
(** metadetect.py:245-266, one type: the results so far and the generator. *)
Definition rtype_entry (s : settings) (shear : list Z) (names : list string) (ormask : img Z) (mfrac : img Q) (p : psfstats)
    (st : list (string * entry) * G) (tm : string * list mexp) : outcome (list (string * entry) * G) :=
  do r <- rmeasure_type s shear names (map of_mcal (snd tm)) (snd st);
  do t <- match fst r with
          | None => Ok None
          | Some rows => do rows <- finish P ormask mfrac p rows; Ok (Some rows)
          end;
  Ok (sput (fst tm) (Table t) (fst st), snd r).

(** metadetect.py:33-103 and 194-268, run_metadetect, with the generator in the
    state [g]. The result comes with the state afterwards. *)
Definition rrun_metadetect (user : option items) (names : list string) (bands noise : list exposure)
    (mfracs : option (list (img Q))) (ormasks : option (list (img Z))) (get_psf_stats : bool) (g : G)
  : list exposure * outcome (list (string * entry) * G) :=
  match (do s <- read_config R user;
         do ormask <- match ormasks, bands with
                      | None, [] => Raise IndexError
                      | None, e :: _ => combine_ormasks (nr (e_image e), nc (e_image e)) None
                      | Some l, _ => combine_ormasks (0, 0) (Some l)
                      end;
         do mw <- get_mfrac_mbexp (map e_var bands) mfracs;
         Ok (s, ormask, mw)) with
  | Raise x => (bands, Raise x)
  | Ok (s, ormask, mw) =>
    match (if truthy (s_sky s) then subtract_sky_mbexp P (s_thresh s) bands else (bands, Ok tt)) with
    | (bands, Raise x) => (bands, Raise x)
    | (bands, Ok _) =>
      (bands,
       do shear <- extract_shear_band_indices names (s_shear s);
       let '(fits, g) := draw_psfs bands g in
       do p <- fit_original_psfs (ph_to_g P) shear fits (snd mw);
       let stats := if String.eqb (s_reconv s) "fitgauss" then Some (perband fits) else None in
       do m <- Lmcal_model.get_metacal_mbexps_fixnoise (mcal_galsim R) (map to_mcal (combine names bands)) (map to_mcal (combine names noise))
                 (Some (s_types s)) stats;
       do res <- ofold (rtype_entry s shear names ormask (fst mw) p) (fst m) ([], g);
       Ok (if get_psf_stats then sput "psf_stats" (PsfStats p) (fst res) else fst res, snd res))
    end
  end.
End Run.

(** ** photometry.py:17-96, run_photometry *)
Definition rphot_measure (P : phot) (h : heap) (cfg : nat) (bands : list exposure) (thresh : atom) (shear : list Z) (g : G)
  : list exposure * outcome (option (list row) * G) :=
  match snd (detect_and_deblend_config (ph_stack P) thresh "sdss" None) with
  | Raise x => (bands, Raise x)
  | Ok c =>
    match dd_run (ph_single P) (ph_detect P c) bands with
    | Raise x => (bands, Raise x)
    | Ok (Two _) => (bands, Raise ValueError)
    | Ok (Three sources d) =>
      let bands := after_detection P c d bands in
      (bands,
       match sources with
       | [] => Ok (None, g)
       | _ =>
         do fwhm <- subconf h cfg "pgauss" "fwhm";
         do sz <- conf h cfg "stamp_size"; do sz <- int_of sz;
         rmeasure (phot_env P c d bands sz fwhm shear) shear (ph_label P) (ph_order P) sources g
       end)
    end
  end.
Definition rrun_photometry (P : phot) (h : heap) (user : option nat) (names : list string) (bands : list exposure)
    (mfracs : option (list (img Q))) (ormasks : option (list (img Z))) (g : G)
  : heap * list exposure * outcome (option (list row) * G) :=
  match get_config h user with
  | (h, Raise x) => (h, bands, Raise x)
  | (h, Ok cfg) =>
    match (do ormask <- match ormasks, bands with
                        | None, [] => Raise IndexError
                        | None, e :: _ => combine_ormasks (nr (e_image e), nc (e_image e)) None
                        | Some l, _ => combine_ormasks (0, 0) (Some l)
                        end;
           do mw <- get_mfrac_mbexp (map e_var bands) mfracs;
           do ss <- conf h cfg "subtract_sky";
           do thresh <- subconf h cfg "detect" "thresh";
           Ok (ormask, mw, ss, thresh)) with
    | Raise x => (h, bands, Raise x)
    | Ok (ormask, mw, ss, thresh) =>
      match (if truthy ss then subtract_sky_mbexp P thresh bands else (bands, Ok tt)) with
      | (bands, Raise x) => (h, bands, Raise x)
      | (bands, Ok _) =>
        match (do sb <- conf h cfg "shear_bands"; do sb <- names_of sb;
               do shear <- extract_shear_band_indices names sb;
               let '(fits, g) := draw_psfs bands g in
               do p <- fit_original_psfs (ph_to_g P) shear fits (snd mw);
               Ok (shear, p, g)) with
        | Raise x => (h, bands, Raise x)
        | Ok (shear, p, g) =>
          let '(bands, r) := rphot_measure P h cfg bands thresh shear g in
          (h, bands, do r <- r;
                     match fst r with
                     | None => Ok (None, snd r)
                     | Some res => do res <- finish P ormask (fst mw) p res; Ok (Some res, snd r)
                     end)
        end
      end
    end
  end.
End Rng.
