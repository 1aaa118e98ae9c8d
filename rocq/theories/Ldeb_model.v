(** Model of the detection with the scarlet deblender: _run_with_scarlet in
    metadetect/lsst/measure.py and make_deconvolved_mbexp in
    metadetect/lsst/util.py. It takes the place of the oracle [r_scarlet] of
    Lrun_model. *)
From Coq Require Import ZArith QArith Qcanon List String Bool.
From Verif Require Import Base Arr Dict Lutil_model Lexp_model Lthr_model Lmeas_model Lsub_model Lscar_model Lphot_model Lrun_model.
Import ListNotations.
Local Open Scope string_scope.
Local Open Scope Z_scope.

(** What is third party: the detection task (None: it returns nothing), the
    deconvolution of one exposure, given the sources and the label of its band
    (the result with the label of its filter), the scarlet deblender (the
    catalogue and the models), and updateCatalogFootprints, which attaches to
    the sources the footprints of their models in one band. *)
Record deblender (Dec : Type) := mkDeb {
  db_detect : coadded -> outcome (option (list source));
  db_deconvolve : exposure -> list source -> string -> outcome (string * Dec);
  db_deblend : list (string * exposure) -> list (string * Dec) -> list source -> outcome (list source * scarlet);
  db_attach : scarlet -> list source -> string -> outcome (list source)
}.
Arguments mkDeb {Dec}. Arguments db_detect {Dec}. Arguments db_deconvolve {Dec}. Arguments db_deblend {Dec}. Arguments db_attach {Dec}.

Section Deb.
Context {Dec : Type} (D : deblender Dec).

(** util.py:1068-1082, make_deconvolved_mbexp. An exposure of several bands is
    the list of its exposures with the labels of their filters, which get_mbexp
    (util.py:390-412) reads again from the deconvolved exposures. *)
Definition make_deconvolved_mbexp (mbexp : list (string * exposure)) (sources : list source) : outcome (list (string * Dec)) :=
  omap (fun ne => db_deconvolve D (snd ne) sources (fst ne)) mbexp.

(** measure.py:228-264, _run_with_scarlet: the sources and the model data. *)
Definition footprint_band : string := "i".
Definition run_with_scarlet (mbexp : list (string * exposure)) (detexp : coadded) : outcome (list source * option scarlet) :=
  do result <- db_detect D detexp;
  match result with
  | Some orig_sources =>
    do deconvolved <- make_deconvolved_mbexp mbexp orig_sources;
    do r <- db_deblend D mbexp deconvolved orig_sources;
    do sources <- db_attach D (snd r) (fst r) footprint_band;
    Ok (sources, Some (snd r))
  | None => Ok ([], None)
  end.

(** measure.py:174-195, run, and measure.py:470-482, _get_extractor: without
    model data there are no sources here, and nothing is measured. *)
Definition scarlet_found (mbexp : list (string * exposure)) (detexp : coadded) : outcome (option (list source * scarlet)) :=
  do r <- run_with_scarlet mbexp detexp;
  Ok (match snd r with Some sc => Some (fst r, sc) | None => None end).
End Deb.

(** metadetect.py:33-103 with this detection. The bands of a run are [names]. *)
Definition with_deblender {Prof Dec} (R : mrun Prof) (D : cfg -> deblender Dec) (names : list string) : mrun Prof :=
  mkRun (r_phot R) (r_dilation R) (r_gaussian R) (r_target R) (r_dilate R) (r_drawpsf R) (r_draw R)
    (fun c bands d => scarlet_found (D c) (combine names bands) d).
Definition scarlet_metadetect {Prof Dec} (R : mrun Prof) (D : cfg -> deblender Dec) (user : option items) (names : list string)
    (bands noise : list exposure) (mfracs : option (list (img Q))) (ormasks : option (list (img Z))) (get_psf_stats : bool) :=
  run_metadetect (with_deblender R D names) user names bands noise mfracs ormasks get_psf_stats.
