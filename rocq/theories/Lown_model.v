(** Model of the LSST functions run_photometry and run_metadetect with the fitters
    of metadetect/fitting.py, where Lphot_model and Lrun_model leave the two
    fits open. *)
From Coq Require Import ZArith QArith List String Bool.
From Verif Require Import Base Arr Median Flags_model Dict Coadd_model Wavg_model Joint_model Lutil_model Lfit_model.
From Verif Require Lexp_model Lphot_model Lrun_model.
Import ListNotations.
Local Open Scope string_scope.
Local Open Scope Z_scope.

(** The third party parts of the two fits: ngmix's flag codes, the bootstrap of
    the joint fit, the moment routines, and ngmix's PGaussMom for a value of
    fwhm; a number for each jacobian. *)
Record fits := mkFits {
  f_ng : ngcodes; f_boot : list (list fobs) -> bootout; f_mk : vec -> mat -> momresult; f_toT : Q -> Q; f_sqrt : Q -> Q;
  f_pgauss : atom -> fitter; f_jid : Lexp_model.jacob -> Z
}.
(** measure.py:353, 431-443 and 485-498: the joint fit of the shear bands and the
    pgauss fit with config['pgauss']['fwhm']; measure.py:405-415: the results of
    an object without a stamp have ngmix's NO_ATTEMPT; fitting.py:1355-1378: the
    label of the shear bands. The rest is as it is. *)
Definition own_phot (F : fits) (P : Lphot_model.phot) : Lphot_model.phot :=
  Lphot_model.mkPhot (Lphot_model.ph_stack P) (Lphot_model.ph_back P) (Lphot_model.ph_skydetect P) (Lphot_model.ph_psffit P)
    (Lphot_model.ph_to_g P) (Lphot_model.ph_W P) (Lphot_model.ph_rad P) (Lphot_model.ph_single P) (Lphot_model.ph_isfloat P)
    (Lphot_model.ph_detect P) (Lphot_model.ph_detmask P) (Lphot_model.ph_cen P) (Lphot_model.ph_skypix P) (Lphot_model.ph_wcs P)
    (Lphot_model.ph_radec P)
    (lsst_gauss (f_ng F) (f_boot F) (f_jid F))
    (fun fwhm => lsst_pgauss (f_ng F) (f_mk F) (f_toT F) (f_sqrt F) (f_pgauss F fwhm) (f_jid F))
    (Lphot_model.ph_nanpos P) (NO_ATTEMPT (f_ng F)) (Lphot_model.ph_detected P) band_label (Lphot_model.ph_order P).
(** metadetect.py:33-103 and 271-311: the same measurement for each shear type. *)
Definition own_run {Prof} (F : fits) (R : Lrun_model.mrun Prof) : Lrun_model.mrun Prof :=
  Lrun_model.mkRun (own_phot F (Lrun_model.r_phot R)) (Lrun_model.r_dilation R) (Lrun_model.r_gaussian R) (Lrun_model.r_target R)
    (Lrun_model.r_dilate R) (Lrun_model.r_drawpsf R) (Lrun_model.r_draw R) (Lrun_model.r_scarlet R).
