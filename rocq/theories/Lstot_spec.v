(** Specification of C143: what the measurement on scarlet models needs in order
    to return. *)
From Coq Require Import ZArith QArith List String Bool.
From Verif Require Import Base Arr Dict Lutil_model Lexp_model Lmeas_model Lmeas_spec Lsub_model Lsub_spec Lscar_model Lscar_spec Ltot_spec Lthr_model Lphot_model Lfit_model Lrun_model Lown_model Lrtot_spec.
Import ListNotations.
Local Open Scope string_scope.
Local Open Scope Z_scope.

(** The two fits return on the stamps of sources, whatever the pixels of the
    images in them are (the models of the neighbours are subtracted). *)
Definition fits_return_images (env : menv) : Prop :=
  forall s obs0 obs, source_mbobs env s = Ok obs0 -> Forall2 same_but_image obs obs0 ->
    (exists g, m_gauss env obs = Ok g) /\ exists p, m_pgauss env obs = Ok p.
(** The models: at least two bands, which are those of the exposures, and
    sources with different ids, each in the catalogue, with a footprint within
    the exposures. *)
Definition models_fit {P} (env : menv) (names mbands : list string) (fbox : Z -> box) (models : list (blend_source P)) (cat : list source) : Prop :=
  NoDup names /\ List.length names = List.length (m_bands env) /\ (2 <= List.length mbands)%nat /\ NoDup mbands /\
  (forall b, In b mbands <-> In b names) /\ NoDup (map (b_id P) models) /\
  forall b, In b models -> (exists s, In s cat /\ s_id s = b_id P b) /\
    exists c, fbox (b_id P b) = Some c /\ bx0 c <= bx1 c /\ by0 c <= by1 c /\ covered (m_bands env) (bx0 c) (by0 c) /\ covered (m_bands env) (bx1 c) (by1 c).
Definition can_measure_models {P} (env : menv) (names mbands : list string) (fbox : Z -> box) (models : list (blend_source P)) (cat : list source) : Prop :=
  catalogue cat /\ has_pixels (m_bands env) /\ (forall e, In e (m_bands env) -> has_wcs_psf e) /\ peaks_on_mask env cat /\ fits_return_images env /\
  (exists sb, m_shear_bands env = Ok sb) /\ models_fit env names mbands fbox models cat.

(** ** A run with the scarlet deblender *)

(** Detection with the scarlet deblender returns on every detection exposure of
    this corner and size: nothing, or a catalogue of sources with peaks on its
    mask and models that fit to it. *)
Definition scarlet_detects {Prof} (R : mrun Prof) (names : list string) (x0 y0 r c : Z) : Prop :=
  forall cfg mc d, c_x0 d = x0 -> c_y0 d = y0 -> of_size r c (c_image d) ->
    exists out, r_scarlet R cfg mc d = Ok out /\ forall cat sc, out = Some (cat, sc) -> catalogue cat /\
      (forall s, In s cat -> exists x y, hd_error (s_peaks s) = Some (x, y) /\ inside (ph_detmask (r_phot R) cfg d) (y - y0) (x - x0)) /\
      NoDup (sc_bands sc) /\ (forall b, In b (sc_bands sc) <-> In b names) /\ NoDup (map (b_id Qcanon.Qc) (model_sources Qcanon.Qc (sc_blends sc))) /\
      forall b, In b (model_sources Qcanon.Qc (sc_blends sc)) -> (exists s, In s cat /\ s_id s = b_id Qcanon.Qc b) /\
        exists k, sc_fbox sc (b_id Qcanon.Qc b) = Some k /\ x0 <= bx0 k <= bx1 k /\ bx1 k < x0 + c /\ y0 <= by0 k <= by1 k /\ by1 k < y0 + r.
(** ... and the objects are placed within the pixels of the exposure. *)
Definition scarlet_placed {Prof} (R : mrun Prof) (x0 y0 r c : Z) : Prop :=
  forall cfg mc d cat sc s, r_scarlet R cfg mc d = Ok (Some (cat, sc)) -> In s cat ->
    within x0 c (fst (place (r_phot R) d s)) /\ within y0 r (snd (place (r_phot R) d s)).
(** Everything that a run with the scarlet deblender needs, except for the places
    of the objects. *)
Definition scarlet_ready {Prof} (R : mrun Prof) (F : fits) (user : option items) (names : list string) (bands bands1 noise : list exposure) (ms : list (img Q))
    (ormasks : option (list (img Z))) (s : settings) (x0 y0 r c n : Z) : Prop :=
  run_basics R F user names bands bands1 noise ms ormasks s x0 y0 r c n /\
  s_deblender s = "scarlet" /\ (2 <= List.length names)%nat /\ scarlet_detects R names x0 y0 r c.
