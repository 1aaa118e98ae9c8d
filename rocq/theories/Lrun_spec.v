(** Specification vocabulary for run_metadetect from end to end. *)
From Coq Require Import ZArith QArith Qcanon List String Bool Permutation.
From Verif Require Import Base Arr Median Dict Lutil_model Lutil_spec Lexp_model Lthr_model Lthr_spec Lmdet_model Lmdet_spec Lmeas_model Lmeas_spec
  Lsub_model Lsub_spec Lscar_model Lscar_spec Lphot_model Lphot_spec Lrun_model.
From Verif Require Lmcal_model Lmcal_spec.
Import ListNotations.
Local Open Scope string_scope.
Local Open Scope Z_scope.

(** The value of an option: what the caller's dictionary gives, else the default. *)
Definition given_items (user : option items) : items := match user with Some d => d | None => [] end.
Definition option_value (user : option items) (p : path) (default a : atom) : Prop :=
  (forall b, given (ODict (given_items user)) p = Some b -> a = b) /\ (untouched (ODict (given_items user)) p -> a = default).
(** The threshold has two names; its default is that of the stack. *)
Definition threshold_value (stack : cfg) (user : option items) (a : atom) : Prop :=
  (forall b, user_threshold (given_items user) = Some b -> a = b) /\
  (untouched (ODict (given_items user)) ["detect"; "thresh"] -> untouched (ODict (given_items user)) ["detect"; "thresholdValue"] ->
   Lutil_spec.value_at stack ["thresholdValue"] = Some a).
(** The settings of the run. A stamp size is accepted and ignored. *)
Definition settings_of (stack : cfg) (user : option items) (s : settings) : Prop :=
  option_value user ["subtract_sky"] (ABool false) (s_sky s) /\
  threshold_value stack user (s_thresh s) /\
  (exists a, option_value user ["deblender"] (AStr "sdss") a /\ s_deblender s = str_of a) /\
  option_value user ["metacal"; "types"] (ANames ["noshear"; "1p"; "1m"]) (ANames (s_types s)) /\
  incl (s_types s) ["noshear"; "1p"; "1m"; "2p"; "2m"] /\
  (exists a, option_value user ["metacal"; "reconv_type"] (AStr "fitgauss") a /\ s_reconv s = str_of a) /\
  option_value user ["pgauss"; "fwhm"] (AFloat 2) (s_fwhm s) /\
  s_stamp s = 49.
(** The names of the shear bands: all bands when none are asked for. *)
Definition shear_wanted (user : option items) (names want : list string) : Prop :=
  exists a, option_value user ["shear_bands"] ANone a /\ ((truthy a = false /\ want = names) \/ (want <> [] /\ a = ANames want)).

Section S.
Context {Prof : Type} (R : mrun Prof).
Let P := r_phot R.

(** galsim as it is used here. The jacobian of an exposure is that of its wcs at the
    middle pixel (the upper one of two), with the origin there; the kernel is the
    PSF drawn at this pixel. *)
Definition at_middle {A} (m : mexp) (f : Z -> Z -> A) : A :=
  let '(x0, y0, _) := Lmcal_model.e_info m in
  f (x0 + nc (Lmcal_model.e_image m) / 2) (y0 + nr (Lmcal_model.e_image m) / 2).
Definition middle_galsim : Lmcal_model.galsim psf info jacob Prof :=
  Lmcal_model.mkG
    (fun m => let '(x0, y0, wcs) := Lmcal_model.e_info m in
       match wcs with
       | None => Raise AttributeError
       | Some w => at_middle m (fun x y => let l := ph_wcs P w (inject_Z x) (inject_Z y) in
           Ok (mkJac (inject_Z y - inject_Z y0) (inject_Z x - inject_Z x0) (m11 l) (- m10 l) (m01 l) (- m00 l)))
       end)
    (fun m => match Lmcal_model.e_psf m with
       | None => Raise AttributeError
       | Some draw => at_middle m (fun x y => Ok (draw (inject_Z x) (inject_Z y)))
       end)
    (r_dilation R) (r_gaussian R) (r_target R) (r_dilate R) (r_drawpsf R) (r_draw R) (fun im => Some (fun _ _ => im)).

(** The exposures [out] of the bands are those of the bands with the shear [s],
    deconvolved, sheared and reconvolved, plus the noise treated so after a
    quarter turn (see C63). *)
Definition sheared_bands (names : list string) (bands noise : list exposure) (stats : option (list Lmcal_model.pstats))
    (s : option (Q * Q)) (out : list mexp) : Prop :=
  exists es ns,
    Forall2 (fun e e' => Lmcal_spec.metacal_exp middle_galsim (fst e) (snd e) s false e')
      (Lmcal_spec.with_stats (map to_mcal (combine names bands)) stats) es /\
    Forall2 (fun e e' => Lmcal_spec.metacal_exp middle_galsim (fst e) (snd e) s true e')
      (Lmcal_spec.with_stats (map to_mcal (combine names noise)) stats) ns /\
    List.length es = List.length ns /\
    Forall2 (fun p e' => Lmcal_spec.fixed (fst p) (snd p) e') (combine es ns) out.

(** The detection exposure. *)
Definition detection_on (mc : list exposure) (d : coadded) : Prop :=
  match mc with [e] => d = ph_single P e | _ => coadd_exposures mc = Ok (Some d) end.
(** [orig] has the pixels of the images, by position. *)
Definition pixels_shown (names : list string) (mc : list exposure) (orig : images Qc) : Prop :=
  Forall2 (fun name e => forall x y, orig name x y = Q2Qc (px (e_image e) (y - e_y0 e) (x - e_x0 e))) names mc.
(** The table [t] of the exposures [mc]; [mf]: the mean masked fraction. *)
Definition table_of (s : settings) (shear : list Z) (names : list string) (ormasks : option (list (img Z))) (mf : img Q) (p : psfstats)
    (mc : list exposure) (t : option (list row)) : Prop :=
  exists c d, Lutil_spec.value_at c ["detect"; "thresholdValue"] = Some (effective (s_thresh s)) /\ detection_on mc d /\
  let env := phot_env P c d mc (s_stamp s) (s_fwhm s) shear in
  let label := ph_label P shear in
  (s_deblender s <> "scarlet" -> exists found, ph_detect P c d = Ok found /\
     (t = None <-> found = None \/ exists cat, found = Some cat /\ childless cat = []) /\
     forall rows, t = Some rows -> exists cat cs, found = Some cat /\ Permutation cs (childless cat) /\
       Forall2 (fun o r => object_row env label o r /\ ormask_column ormasks r /\ psf_columns p r) cs rows /\
       masks_by_position env cat rows /\ forall r, In r rows -> mfrac_column (ph_W P) (ph_rad P) mf r) /\
  (s_deblender s = "scarlet" -> exists found, r_scarlet R c mc d = Ok found /\
     (t = None <-> found = None \/ exists cat sc, found = Some (cat, sc) /\ (cat = [] \/ model_sources Qc (sc_blends sc) = [])) /\
     forall rows, t = Some rows -> exists cat sc orig, found = Some (cat, sc) /\ pixels_shown names mc orig /\
       Forall2 (fun b r => exists o, find_source cat (b_id Qc b) = Some o /\
           object_row_on (isolated Qc Qcminus this env names (foot_of cat (sc_fbox sc)) orig (model_sources Qc (sc_blends sc)) o)
             env label o r /\ ormask_column ormasks r /\ psf_columns p r)
         (model_sources Qc (sc_blends sc)) rows /\
       masks_by_position env cat rows /\ forall r, In r rows -> mfrac_column (ph_W P) (ph_rad P) mf r).

(** What the scarlet deblender gives is usable: models in the bands of the
    exposures, one for each source. *)
Definition scarlet_ok (names : list string) : Prop :=
  forall c mc d cat sc, r_scarlet R c mc d = Ok (Some (cat, sc)) ->
    NoDup (sc_bands sc) /\ incl names (sc_bands sc) /\ NoDup (map (b_id Qc) (model_sources Qc (sc_blends sc))).
End S.
