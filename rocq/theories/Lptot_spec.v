(** Specification of C142: what run_photometry needs in order to return. The
    words are those of Lrtot_spec. *)
From Coq Require Import ZArith QArith List String Bool.
From Verif Require Import Base Arr Median Dict Wavg_model Joint_model Lutil_model Lutil_spec Lexp_model Lexp_spec Lthr_model Lmdet_model Lmeas_model
  Lmeas_spec Lphot_model Lfit_model Lrun_model Lown_model Lrtot_spec.
Import ListNotations.
Local Open Scope string_scope.
Local Open Scope Z_scope.

(** Everything that run_photometry needs, except for the places of the objects.
    [h1] and [cfg]: the dictionaries after the configuration was made, and its
    address; the other values are read from it. *)
Definition phot_ready (P : phot) (F : fits) (h : heap) (user : option nat) (names : list string) (bands bands1 : list exposure) (ms : list (img Q))
    (ormasks : option (list (img Z))) (h1 : heap) (x0 y0 r c n : Z) : Prop :=
  (exists cfg ss thresh sba sb fwhm a sz,
     get_config h user = (h1, Ok cfg) /\ conf h1 cfg "subtract_sky" = Ok ss /\ subconf h1 cfg "detect" "thresh" = Ok thresh /\
     conf h1 cfg "shear_bands" = Ok sba /\ names_of sba = Ok sb /\ (forall l b, sb = Some l -> In b l -> In b names) /\
     subconf h1 cfg "pgauss" "fwhm" = Ok fwhm /\ conf h1 cfg "stamp_size" = Ok a /\ int_of a = Ok sz /\
     (exists c, snd (detect_and_deblend_config (ph_stack P) thresh "sdss" None) = Ok c) /\
     (truthy ss = true -> subtract_sky_mbexp P thresh bands = (bands1, Ok tt)) /\ (truthy ss = false -> bands1 = bands)) /\
  NoDup names /\ List.length names = List.length bands /\ List.length ms = List.length bands /\
  1 <= zlen bands <= 6 /\ 0 < r /\ 0 < c /\ n mod 2 = 1 /\
  (forall e, In e bands -> plain x0 y0 r c n e) /\ variances_fine bands /\ (forall m, In m ms -> of_size r c m) /\ masks_fine r c ormasks /\
  psfs_fit P bands1 /\ fitters_return F /\ single_keeps P /\ detection_returns P x0 y0 r c /\ lists_set (ph_order P).
