(** C115, C116: the fits in the table of the LSST measurement. *)
From Coq Require Import ZArith QArith List String Bool Lia Permutation.
From Verif Require Import Base Arr Median Flags_model Dict Coadd_model Wavg_model Wavg_spec Joint_model Wflag_spec.
From Verif Require Wavg_props Joint_props Lmeas_props Wflag_props.
From Verif Require Lexp_model Lmeas_model Lmeas_spec.
From Verif Require Import Lfit_model Lfit_spec Lfit_proofs.
Import ListNotations.
Local Open Scope string_scope.
Local Open Scope Z_scope.

(** ** C115: where the flags of the table come from *)
(** In the row of a source either there was no stamp (the stamp flags say so, and
    nothing was attempted), or the flags are exactly those of the fits: those of
    the joint fit come from the bootstrap of the stamps of the shear bands, those
    of the averaged one from the fits of all bands, weighted with the constant
    weights of their stamps. No flag comes from the mask, the weights or the
    number of the stamps. *)
Theorem C115_flags : forall ng boot mk to_T qsqrt ft jid env order cat rows sb,
  Lmeas_spec.catalogue cat -> Lmeas_spec.lists_set order ->
  0 <= Lmeas_model.m_stamp_size env -> Lmeas_model.m_shear_bands env = Ok sb ->
  (forall b, In b sb -> 0 <= b < zlen (Lmeas_model.m_bands env)) ->
  measure_fits ng boot mk to_T qsqrt ft jid env order cat = Ok (Some rows) ->
  exists cs, Permutation cs (Lmeas_spec.childless cat) /\
    Forall2 (fun s r => Lmeas_spec.at_position env s r /\ exists flags, sget "stamp_flags" r = Some (Lmeas_model.CInt flags) /\
      (flags <> 0 <-> forall obs, Lmeas_model.source_mbobs env s <> Ok obs) /\
      (flags <> 0 -> nothing_fit ng r) /\
      (flags = 0 -> exists obs mb, Lmeas_model.source_mbobs env s = Ok obs /\ shear_stamps jid obs sb mb /\
         gauss_flags_of_fit ng (List.length obs) sb mb (boot mb) r /\ pgauss_flags_of_fit ng mk to_T ft jid obs r)) cs rows.
Proof. exact table_flags. Qed.
Print Assumptions C115_flags.

(** Two bands, fully masked; the object with a negative flux fails in both fits,
    the others do not and have no flag. *)
Definition exN : Lexp_model.exposure :=
  Lexp_model.mkExp 100 200 (mkImg 9 9 (fun i j => if j <? 5 then 3 else -(3))%Q) (ifill 9 9 (Some 4%Q)) (ifill 9 9 1)
    (Some (fun _ _ => ifill 3 3 1%Q)) (Some 7).
Definition env_of (bands : list Lexp_model.exposure) : Lmeas_model.menv :=
  Lmeas_model.mkMenv bands 100 200 Lmeas_props.det_mask
    (fun id => Some (inject_Z (100 + id), (2041 # 10))%Q) (fun id => None)
    (fun _ _ _ => Lexp_model.mkMat 1 0 0 1) (fun c => (fst c + 10, snd c - 100)%Q)
    (Lmeas_props.fake_fit 10) (Lmeas_props.fake_fit 20) (0%Q, 0%Q) 1 32 3 (Ok [0]).
Definition low : Lmeas_model.source := Lmeas_model.mkSrc 5 0 [(104, 205)] ((1041 # 10)%Q, (2052 # 10)%Q).
Definition ex_jid (_ : Lexp_model.jacob) : Z := 0.
Local Notation ex_measure bands :=
  (measure_fits Wavg_props.ex_ng Joint_props.ex_boot Wavg_props.ex_mk Wavg_props.ex_toT Wavg_props.ex_sqrt Wavg_props.ex_ft ex_jid
    (env_of bands) Lmeas_props.in_order).
Definition ex_cat := [Lmeas_props.parent; Lmeas_props.kid; low; Lmeas_props.kid3].
Definition cells (cols : list string) (r : Lmeas_model.row) := map (fun c => sget c r) cols.
Definition ints (l : list Z) := map (fun z => Some (Lmeas_model.CInt z)) l.
Example C115_example :
  (exists a b c, ex_measure [exN; exN] ex_cat = Ok (Some [a; b; c]) /\
     cells ["stamp_flags"; "gauss_flags"; "gauss_psf_flags"; "pgauss_flags"; "pgauss_obj_flags"] a = ints [0; 4; 0; Z.lor 10 (flag_value PSF_FAILURE); Z.lor 10 (flag_value PSF_FAILURE)] /\
     cells ["stamp_flags"; "gauss_flags"; "gauss_psf_flags"; "pgauss_flags"; "pgauss_obj_flags"] b = ints [0; 0; 0; 0; 0] /\
     sget "gauss_band_flux_flags" b = Some (Lmeas_model.CInts [0; 1]) /\
     cells ["stamp_flags"; "gauss_flags"; "gauss_psf_flags"; "pgauss_flags"; "pgauss_obj_flags"] c = ints [flag_value EDGE_HIT; 1; 1; 1; 1]) /\
  Lmeas_spec.catalogue ex_cat /\ Lmeas_spec.lists_set Lmeas_props.in_order /\ flags_of_values Wavg_props.ex_mk.
Proof.
  split. { do 3 eexists. split; [vm_compute; reflexivity|]. repeat split. }
  split; [repeat constructor; cbn; intuition lia|]. split; [exact Lmeas_props.in_order_ok|exact Wflag_props.ex_flags_of_values].
Qed.

(** A band without usable variance. *)
Definition dead : Lexp_model.exposure :=
  Lexp_model.mkExp 100 200 (ifill 9 9 3%Q) (ifill 9 9 None) (ifill 9 9 1) (Some (fun _ _ => ifill 3 3 1%Q)) (Some 7).

(** ** C116: the bands not used for the shear *)
(** The claim wanted: the columns of the joint fit of an object depend only on
    the images in the shear bands (and on where the object was found). False: an
    object without usable variance in any other band is not measured at all. *)
Theorem C116_refuted : ~ (forall ng boot mk to_T qsqrt ft jid sb env env' order cat rows rows',
  Lmeas_spec.catalogue cat -> Lmeas_spec.lists_set order -> (forall b, In b sb -> 0 <= b) -> same_shear_bands sb env env' ->
  measure_fits ng boot mk to_T qsqrt ft jid env order cat = Ok (Some rows) ->
  measure_fits ng boot mk to_T qsqrt ft jid env' order cat = Ok (Some rows') ->
  forall n r r', nth_error rows n = Some r -> nth_error rows' n = Some r' ->
    forall c, In c Lmeas_spec.gauss_columns -> sget c r = sget c r').
Proof.
  intro H.
  assert (A : exists a b c, ex_measure [exN; exN] ex_cat = Ok (Some [a; b; c]) /\ sget "gauss_flags" b = Some (Lmeas_model.CInt 0)).
  { do 3 eexists. split; [vm_compute; reflexivity|]. reflexivity. }
  assert (B : exists a b c, ex_measure [exN; dead] ex_cat = Ok (Some [a; b; c]) /\ sget "gauss_flags" b = Some (Lmeas_model.CInt 1)).
  { do 3 eexists. split; [vm_compute; reflexivity|]. reflexivity. }
  destruct A as (a & b & c & A & A'). destruct B as (a2 & b2 & c2 & B & B').
  assert (Ca : Lmeas_spec.catalogue ex_cat) by (repeat constructor; cbn; intuition lia).
  assert (Po : forall b, In b [0] -> 0 <= b) by (cbn; intuition lia).
  assert (Sa : same_shear_bands [0] (env_of [exN; exN]) (env_of [exN; dead])).
  { split; [reflexivity|]. split; [intros x [<-|[]]; reflexivity|]. repeat split. }
  assert (Ic : In "gauss_flags" Lmeas_spec.gauss_columns) by (cbn; tauto).
  specialize (H Wavg_props.ex_ng Joint_props.ex_boot Wavg_props.ex_mk Wavg_props.ex_toT Wavg_props.ex_sqrt Wavg_props.ex_ft ex_jid [0]
    (env_of [exN; exN]) (env_of [exN; dead]) Lmeas_props.in_order ex_cat [a; b; c] [a2; b2; c2] Ca Lmeas_props.in_order_ok Po Sa A B 1%nat b b2 eq_refl eq_refl "gauss_flags" Ic).
  rewrite A', B' in H. discriminate H.
Qed.
Print Assumptions C116_refuted.
(** Missing: the objects without a stamp. Objects that have a stamp in both
    cases have the same columns of the joint fit, whatever the other bands
    contain. *)
Theorem C116_shear_bands_only_partial : forall ng boot mk to_T qsqrt ft jid sb env env' order cat rows rows',
  Lmeas_spec.catalogue cat -> Lmeas_spec.lists_set order -> (forall b, In b sb -> 0 <= b) -> same_shear_bands sb env env' ->
  measure_fits ng boot mk to_T qsqrt ft jid env order cat = Ok (Some rows) ->
  measure_fits ng boot mk to_T qsqrt ft jid env' order cat = Ok (Some rows') ->
  List.length rows = List.length rows' /\
  forall n r r', nth_error rows n = Some r -> nth_error rows' n = Some r' ->
    sget "stamp_flags" r = Some (Lmeas_model.CInt 0) -> sget "stamp_flags" r' = Some (Lmeas_model.CInt 0) ->
    forall c, In c Lmeas_spec.gauss_columns -> sget c r = sget c r'.
Proof. exact table_shear_only. Qed.
Print Assumptions C116_shear_bands_only_partial.
(** Two different second bands: the averaged fluxes differ, the joint fit does
    not. *)
Example C116_example : exists a b c a' b' c',
  ex_measure [exN; exN] ex_cat = Ok (Some [a; b; c]) /\ ex_measure [exN; Lmeas_props.exB] ex_cat = Ok (Some [a'; b'; c']) /\
  same_shear_bands [0] (env_of [exN; exN]) (env_of [exN; Lmeas_props.exB]) /\
  sget "stamp_flags" a = Some (Lmeas_model.CInt 0) /\ sget "stamp_flags" a' = Some (Lmeas_model.CInt 0) /\
  sget "pgauss_band_flux" a <> sget "pgauss_band_flux" a' /\ sget "gauss_g" a = sget "gauss_g" a'.
Proof.
  do 6 eexists. split; [vm_compute; reflexivity|]. split; [vm_compute; reflexivity|].
  split. { split; [reflexivity|]. split; [intros x [<-|[]]; reflexivity|]. repeat split. }
  split; [reflexivity|]. split; [reflexivity|]. split; [|reflexivity]. vm_compute. intro H. inversion H.
Qed.
