(** C134, C135: the fits in the tables of the LSST functions run_metadetect and
    run_photometry. *)
From Coq Require Import ZArith QArith Qcanon List String Bool Lia Permutation.
From Verif Require Import Base Arr Median Dict Flags_model Coadd_model Wavg_model Joint_model Lutil_model Lutil_spec Lexp_model Lthr_model Lthr_spec
  Lmdet_model Lmdet_spec Lmeas_model Lmeas_spec Lsub_model Lscar_model Lscar_spec Lphot_model Lphot_spec Lrun_model Lrun_spec
  Clean_spec Lfit_model Lfit_spec Lown_model Lown_spec Lown_proofs.
From Verif Require Lrun_proofs Lscar_proofs Mrun_props Clean_props Lphot_props Lrun_props Lsky_spec Lmcal_model Lmcal_spec.
Import ListNotations.
Local Open Scope string_scope.
Local Open Scope Z_scope.

(** ** C134: values without flags are numbers *)
(** In every row of the table of every shear type, for both deblenders: a value
    whose flag is 0 is a number. *)
Theorem C134_tables : forall Prof F (R : mrun Prof) user names bands noise ms ormasks get_psf_stats bands1 res t rows r,
  let P := r_phot R in
  honest_fits F ->
  stack_ok (ph_stack P) -> lists_set (ph_order P) ->
  (forall c d cat, ph_detect P c d = Ok (Some cat) -> catalogue cat) -> scarlet_ok R names ->
  (forall c e, Lsky_spec.no_reestimate (ph_skydetect P c e)) -> Lmcal_spec.draw_shape (middle_galsim R) ->
  weight_ok (ph_W P) -> 0 <= ph_rad P ->
  distinct_keys (ODict (given_items user)) -> one_name (given_items user) ->
  NoDup names -> List.length names = List.length bands -> List.length noise = List.length bands -> List.length ms = List.length bands ->
  one_box bands ->
  run_metadetect (own_run F R) user names bands noise (Some ms) ormasks get_psf_stats = (bands1, Ok res) ->
  sget t res = Some (Table (Some rows)) -> In r rows -> row_numbers r /\ row_summary r.
Proof.
  intros Prof F R user names bands noise ms ormasks gp bands1 res t rows r P HF So Ls Cat Sc NR Ds Wk Rk Dk On Nn Ln Lno Lm Ob H Ht Ir.
  destruct (Lrun_props.C87_tables_partial Prof (own_run F R) user names bands noise ms ormasks gp bands1 res So Ls Cat Sc NR Ds Wk Rk Dk On Nn Ln Lno Lm Ob H)
    as (s & want & shear & fs & p & mf & _ & _ & _ & _ & _ & K & KP & T).
  assert (It : In t (s_types s)).
  { assert (X : In t (skeys res)) by (apply sget_In; eauto). apply K in X. destruct X as [X|[-> ->]]; [exact X|]. rewrite (KP eq_refl) in Ht. discriminate. }
  destruct (T t It) as (sh & out & tab & _ & _ & Et & c & d & _ & _ & A & B). rewrite Ht in Et. injection Et as <-.
  destruct (String.eqb_spec (s_deblender s) "scarlet") as [E|E].
  - destruct (B E) as (found & _ & _ & C). destruct (C rows eq_refl) as (cat & sc & orig & _ & _ & Fo & _).
    destruct (Lrun_proofs.Forall2_In_r _ _ _ _ _ _ Fo Ir) as (b & _ & o & _ & Ro & _). refine (object_numbers F HF _ _ (s_fwhm s) shear _ _ _ _ _ _ Ro); reflexivity.
  - destruct (A E) as (found & _ & _ & C). destruct (C rows eq_refl) as (cat & cs & _ & _ & Fo & _).
    destruct (Lrun_proofs.Forall2_In_r _ _ _ _ _ _ Fo Ir) as (o & _ & Ro & _). refine (object_numbers F HF _ _ (s_fwhm s) shear _ _ _ _ _ _ Ro); reflexivity.
Qed.
Print Assumptions C134_tables.

(** The same for run_photometry. *)
Theorem C134_photometry : forall F P h user names bands ms ormasks h' bands' rows sz r,
  honest_fits F ->
  user_heap h (asked user) -> stack_ok (ph_stack P) -> lists_set (ph_order P) ->
  (forall c d cat, ph_detect P c d = Ok (Some cat) -> catalogue cat) ->
  (forall c e, Lsky_spec.no_reestimate (ph_skydetect P c e)) ->
  weight_ok (ph_W P) -> 0 <= ph_rad P ->
  List.length names = List.length bands -> List.length ms = List.length bands -> one_box bands ->
  setting h user "stamp_size" = Some (VAtom (AInt sz)) -> 0 <= sz ->
  run_photometry (own_phot F P) h user names bands (Some ms) ormasks = (h', bands', Ok (Some rows)) ->
  In r rows -> row_numbers r /\ row_summary r.
Proof.
  intros F P h user names bands ms ormasks h' bands' rows sz r HF W So Ls Cat NR Wk Rk Ln Lm Ob Sz Sz0 H Ir.
  destruct (Lphot_props.C86_table_partial (own_phot F P) h user names bands ms ormasks h' bands' rows sz W So Ls Cat NR Wk Rk Ln Lm Ob Sz Sz0 H)
    as (ss & bands1 & t & c & d & cat & cs & want & shear & fs & p & fwhm & env & mf & _ & _ & _ & _ & (_ & _ & _ & Eg & _ & Ep & _ & _ & En) & Fo & _).
  destruct (Lrun_proofs.Forall2_In_r _ _ _ _ _ _ Fo Ir) as (o & _ & Ro & _).
  exact (object_numbers F HF env _ fwhm shear _ _ _ Eg Ep En Ro).
Qed.
Print Assumptions C134_photometry.

(** ** C135: where the flags come from *)
(** In the table of every shear type: the row of an object either says that
    nothing was fit, or its flags are exactly those of the joint fit of the
    stamps of the requested shear bands and of the averaged fit, with the
    requested fwhm, of the stamps of all bands. The stamps are cut out of the
    images of that shear type; with the scarlet deblender the models of all
    other sources are subtracted. *)
Theorem C135_tables : forall Prof F (R : mrun Prof) user names bands noise ms ormasks get_psf_stats bands1 res,
  let P := r_phot R in
  stack_ok (ph_stack P) -> lists_set (ph_order P) ->
  (forall c d cat, ph_detect P c d = Ok (Some cat) -> catalogue cat) -> scarlet_ok R names ->
  (forall c e, Lsky_spec.no_reestimate (ph_skydetect P c e)) -> Lmcal_spec.draw_shape (middle_galsim R) ->
  weight_ok (ph_W P) -> 0 <= ph_rad P ->
  distinct_keys (ODict (given_items user)) -> one_name (given_items user) ->
  NoDup names -> List.length names = List.length bands -> List.length noise = List.length bands -> List.length ms = List.length bands ->
  one_box bands ->
  run_metadetect (own_run F R) user names bands noise (Some ms) ormasks get_psf_stats = (bands1, Ok res) ->
  exists s want shear fs,
    settings_of (ph_stack P) user s /\ map (ph_psffit P) bands1 = map Ok fs /\
    (shear_wanted user names want /\ NoDup shear /\
     forall i, In i shear <-> 0 <= i /\ exists b, nth_error names (Z.to_nat i) = Some b /\ In b want) /\
    forall t, In t (s_types s) -> exists sh out tab c d,
      sget t Lmcal_spec.documented = Some sh /\
      sheared_bands R names bands1 noise
        (if String.eqb (s_reconv s) "fitgauss" then Some (map (fun f => Lmcal_model.mkPs (pf_e1 f) (pf_e2 f) (pf_T f)) fs) else None) sh out /\
      sget t res = Some (Table tab) /\
      let mc := map of_mcal out in
      let env := phot_env (own_phot F P) c d mc (s_stamp s) (s_fwhm s) shear in
      forall rows, tab = Some rows ->
        (s_deblender s <> "scarlet" -> exists cat cs, ph_detect P c d = Ok (Some cat) /\ Permutation cs (childless cat) /\
           Forall2 (fun o r => at_position env o r /\ flags_of_fits F (s_fwhm s) shear (fun obs => source_mbobs env o = Ok obs) r) cs rows) /\
        (s_deblender s = "scarlet" -> exists cat sc orig, r_scarlet R c mc d = Ok (Some (cat, sc)) /\ pixels_shown names mc orig /\
           Forall2 (fun b r => exists o, find_source cat (b_id Qc b) = Some o /\ at_position env o r /\
               flags_of_fits F (s_fwhm s) shear
                 (isolated Qc Qcminus this env names (foot_of cat (sc_fbox sc)) orig (model_sources Qc (sc_blends sc)) o) r)
             (model_sources Qc (sc_blends sc)) rows).
Proof.
  intros Prof F R user names bands noise ms ormasks gp bands1 res P So Ls Cat Sc NR Ds Wk Rk Dk On Nn Ln Lno Lm Ob H.
  destruct (Lrun_props.C87_tables_partial Prof (own_run F R) user names bands noise ms ormasks gp bands1 res So Ls Cat Sc NR Ds Wk Rk Dk On Nn Ln Lno Lm Ob H)
    as (s & want & shear & fs & p & mf & Se & (Lo & _) & (W1 & W2 & W3) & (Ef & _) & _ & K & KP & T).
  exists s, want, shear, fs. split; [exact Se|]. split; [exact Ef|]. split; [auto|].
  intros t It. destruct (T t It) as (sh & out & tab & D1 & D2 & Et & c & d & _ & _ & A & B).
  exists sh, out, tab, c, d. split; [exact D1|]. split; [exact D2|]. split; [exact Et|]. cbv zeta.
  assert (Lb : List.length bands1 = List.length bands) by (clear -Lo; induction Lo; cbn; congruence).
  assert (Lf : List.length fs = List.length bands1). { apply (f_equal (@List.length _)) in Ef. rewrite !map_length in Ef. auto. }
  assert (Lout : List.length out = List.length bands1).
  { refine (Lrun_proofs.sheared_length (own_run F R) names bands1 noise _ sh out _ ltac:(lia) D2). destruct (String.eqb _ _); [|exact Logic.I]. now rewrite map_length. }
  assert (Sz : 0 <= s_stamp s). { destruct Se as (_ & _ & _ & _ & _ & _ & _ & ->). lia. }
  set (env := phot_env (own_phot F P) c d (map of_mcal out) (s_stamp s) (s_fwhm s) shear).
  assert (Rg : forall b, In b shear -> 0 <= b < zlen (m_bands env)).
  { intros i Ii. apply W3 in Ii. destruct Ii as (I0 & b & I1 & _). assert (X : nth_error names (Z.to_nat i) <> None) by congruence.
    apply nth_error_Some in X. cbn [env m_bands phot_env]. unfold zlen. rewrite map_length. unfold mexp in *. lia. }
  intros rows ->. split; intros E.
  - destruct (A E) as (found & F1 & _ & C). destruct (C rows eq_refl) as (cat & cs & -> & Pe & Fo & _). exists cat, cs. split; [exact F1|]. split; [exact Pe|].
    eapply Lscar_proofs.Forall2_weaken; [|exact Fo]. intros o r (Ro & _). split; [exact (proj1 Ro)|].
    refine (object_flags F env _ (s_fwhm s) shear _ _ _ eq_refl eq_refl eq_refl _ Ro). intros obs. exact (stamps_usable env shear o obs Sz Rg).
  - destruct (B E) as (found & F1 & _ & C). destruct (C rows eq_refl) as (cat & sc & orig & -> & Px & Fo & _). exists cat, sc, orig.
    split; [exact F1|]. split; [exact Px|]. eapply Lscar_proofs.Forall2_weaken; [|exact Fo]. intros b r (o & Eo & Ro & _). exists o. split; [exact Eo|].
    split; [exact (proj1 Ro)|]. refine (object_flags F env _ (s_fwhm s) shear _ _ _ eq_refl eq_refl eq_refl _ Ro).
    intros obs. exact (isolated_usable _ _ _ env _ _ _ _ shear o obs Sz Rg).
Qed.
Print Assumptions C135_tables.

(** ** Concrete cases: the field of Lrun_props, with honest fitting code. The
    pgauss fit measures the pixel in the middle of the stamp, and for the PSF the
    number [psf]. *)
Definition fits7 (psf : Q) : fits :=
  mkFits (mkNg 1 2 4) Clean_props.boot7 Clean_props.mk7 (fun q => q) (fun q => q)
    (fun _ => mkFitter "pgauss" (fun o => Ok (Mrun_props.mom6 (px (f_image o) 24 24))) (fun p => Ok (Mrun_props.mom6 psf))) (fun _ => 0).
Lemma fits7_honest : forall psf, honest_fits (fits7 psf).
Proof.
  intros psf. destruct Clean_props.honest7 as [[A1 A2 A3 A4 A5 A6 A7] A8]. constructor.
  - exact A1.
  - exact A2.
  - exact A3.
  - exact A8.
  - intros fwhm o r H fl fe A B _. apply Ok_inj in H. subst r. cbn [Mrun_props.mom6 r_flux r_flux_err] in A, B. apply Some_inj in A, B. subst fl fe.
    split; eexists; reflexivity.
  - exact A5.
Qed.
Definition cells_of (r : row) (l : list string) := map (fun c => sget c r) l.
Definition run7 (psf : Q) (deb : string) :=
  run_metadetect (own_run (fits7 psf) Lrun_props.run2) (Some (Lrun_props.user2 deb)) ["g"; "r"] [Lrun_props.plane 1 2; Lrun_props.plane 3 4]
    [Lrun_props.plane 5 2; Lrun_props.plane 6 4] (Some Lrun_props.mf2) (Some [Lrun_props.om2; ifill 51 51 2]) false.
(** For both deblenders: the object in the middle has no flags and the other one
    hits the edge. *)
Example C134_example :
  (forall psf, honest_fits (fits7 psf)) /\
  (exists bands' a b c d, run7 1 "sdss" = (bands', Ok [("noshear", Table (Some [a; b])); ("1p", Table (Some [c; d]))]) /\
     cells_of a ["stamp_flags"; "gauss_flags"; "pgauss_flags"] = [Some (CInt 0); Some (CInt 0); Some (CInt 0)] /\
     sget "gauss_g" a = Some (CNums [Some (1 # 10)%Q; Some 0%Q]) /\
     (exists u v, sget "pgauss_band_flux" c = Some (CNums [Some u; Some v]) /\ (u == 505 # 100)%Q /\ (v == 808 # 100)%Q) /\
     cells_of d ["stamp_flags"; "gauss_flags"; "pgauss_flags"; "pgauss_T_ratio"] = [Some (CInt (2 ^ 20)); Some (CInt 1); Some (CInt 1); Some (CNum None)]) /\
  (exists bands' a b c d, run7 1 "scarlet" = (bands', Ok [("noshear", Table (Some [a; b])); ("1p", Table (Some [c; d]))]) /\
     cells_of a ["stamp_flags"; "gauss_flags"; "pgauss_flags"] = [Some (CInt (2 ^ 20)); Some (CInt 1); Some (CInt 1)] /\
     cells_of d ["stamp_flags"; "gauss_flags"; "pgauss_flags"] = [Some (CInt 0); Some (CInt 0); Some (CInt 0)]).
Proof.
  split; [exact fits7_honest|]. split.
  - do 5 eexists. split; [vm_compute; reflexivity|]. split; [reflexivity|]. split; [reflexivity|].
    split; [do 2 eexists; split; [reflexivity|split; reflexivity]|reflexivity].
  - do 5 eexists. split; [vm_compute; reflexivity|]. split; reflexivity.
Qed.
(** The PSF flags of the pgauss fit are not in the table: where that fit of the
    PSF fails, the size ratio is not a number although the flags of the size are
    0. Only the flags of the object show it. *)
Theorem C134_ratio_refuted : exists psf bands' a b c d,
  honest_fits (fits7 psf) /\ run7 psf "sdss" = (bands', Ok [("noshear", Table (Some [a; b])); ("1p", Table (Some [c; d]))]) /\
  sget "pgauss_T_flags" a = Some (CInt 0) /\ sget "pgauss_T_ratio" a = Some (CNum None) /\ sget "pgauss_psf_flags" a = None /\
  sget "pgauss_obj_flags" a = Some (CInt (flag_value PSF_FAILURE)).
Proof. exists 0%Q. do 5 eexists. split; [apply fits7_honest|]. split; [vm_compute; reflexivity|]. repeat split. Qed.
Print Assumptions C134_ratio_refuted.
(** Without gauss_flags the fluxes of the bands not used for the shear are not
    numbers: they were not fit. *)
Theorem C134_fluxes_refuted : exists psf bands' a b c d,
  honest_fits (fits7 psf) /\ run7 psf "sdss" = (bands', Ok [("noshear", Table (Some [a; b])); ("1p", Table (Some [c; d]))]) /\
  sget "gauss_flags" a = Some (CInt 0) /\ sget "gauss_band_flux" a = Some (CNums [None; Some 6%Q]) /\
  sget "gauss_band_flux_flags" a = Some (CInts [1; 0]).
Proof. exists 1%Q. do 5 eexists. split; [apply fits7_honest|]. split; [vm_compute; reflexivity|]. repeat split. Qed.
Print Assumptions C134_fluxes_refuted.
(** The hypotheses on the surroundings are met: run2_ok and user2_ok of
    Lrun_props. The flags of C135 in the same field, where the fit of the PSF
    fails: those of the object come from it. *)
Example C135_example :
  stack_ok (ph_stack (r_phot Lrun_props.run2)) /\ scarlet_ok Lrun_props.run2 ["g"; "r"] /\
  (exists bands' a b c d, run7 0 "scarlet" = (bands', Ok [("noshear", Table (Some [a; b])); ("1p", Table (Some [c; d]))]) /\
     cells_of c ["stamp_flags"; "pgauss_flags"; "pgauss_obj_flags"; "pgauss_band_flux_flags"] = [Some (CInt (2 ^ 20)); Some (CInt 1); Some (CInt 1); Some (CInt 1)] /\
     cells_of d ["stamp_flags"; "gauss_flags"; "gauss_psf_flags"; "pgauss_flags"; "pgauss_obj_flags"; "pgauss_band_flux_flags"] =
       [Some (CInt 0); Some (CInt 0); Some (CInt 0); Some (CInt (flag_value PSF_FAILURE)); Some (CInt (flag_value PSF_FAILURE)); Some (CInts [0; 0])]).
Proof.
  destruct Lrun_props.run2_ok as (A1 & _ & _ & A2 & _). split; [exact A1|]. split; [exact A2|].
  do 5 eexists. split; [vm_compute; reflexivity|]. split; reflexivity.
Qed.
