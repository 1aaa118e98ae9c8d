(** Specification vocabulary for C94-C98. *)
From Coq Require Import ZArith QArith List String Bool.
From Verif Require Import Base Arr Median Flags_model Summ_model Wavg_model Conf_model Mdet_model Mdet_spec Mrng_model.
Import ListNotations.
Local Open Scope Z_scope.

Section Spec.
Variables O SEG ST FL FR G : Type.
Variable sob : O -> sobs.
Notation env := (env O SEG ST FL FR).
Notation renv := (renv O SEG ST FL FR G).

(** The same configuration and observations with the given functions for the PSF
    fits, metacal and the fitters. *)
Definition with_oracles (b : env) (pf : mb O -> list (list pobs) * outcome unit) (mc : mb O -> outcome (list (string * mb O)))
  (ft : fitter -> list Z -> ST -> outcome FR) : env :=
  mkEnv (e_main b) (e_color b) pf mc (e_types b) (e_nodet b) (e_fitters b) (e_shear b) (e_det b)
    (e_detect b) (e_stamp b) ft (e_colname b) (e_flux b) (e_unshear b) (e_ormask_region b) (e_mask_region b) (e_aper b).
(** With other fitters or band combinations. *)
Definition with_fitters (b : env) (fs : list fitter) : env :=
  mkEnv (e_main b) (e_color b) (e_psf_fit b) (e_metacal b) (e_types b) (e_nodet b) fs (e_shear b) (e_det b)
    (e_detect b) (e_stamp b) (e_fit b) (e_colname b) (e_flux b) (e_unshear b) (e_ormask_region b) (e_mask_region b) (e_aper b).
Definition with_bands (b : env) (sh dt : list (list Z)) : env :=
  mkEnv (e_main b) (e_color b) (e_psf_fit b) (e_metacal b) (e_types b) (e_nodet b) (e_fitters b) sh dt
    (e_detect b) (e_stamp b) (e_fit b) (e_colname b) (e_flux b) (e_unshear b) (e_ormask_region b) (e_mask_region b) (e_aper b).
Definition change_base (r : renv) (b : env) : renv := mkRenv b (r_oid r) (r_psf r) (r_mcal r) (r_joint r).

Definition moments_only (r : renv) : Prop := forall f, In f (e_fitters (r_base r)) -> fi_wavg f = true.
Definition no_colours (r : renv) : Prop := e_color (r_base r) = None.

(** The generator's state has no influence on any value. *)
Definition stateless (r : renv) : Prop :=
  (forall m g, fst (r_psf r m g) = e_psf_fit (r_base r) m) /\
  (forall m g, fst (r_mcal r m g) = e_metacal (r_base r) m) /\
  (forall f sb st g, fst (r_joint r f sb st g) = e_fit (r_base r) f sb st).
(** Observations with the same identity are the same. *)
Definition identities (r : renv) : Prop :=
  forall keyf dep k k' m m', e_color (r_base r) = Some (keyf, dep) -> dep k = Some (Other m) -> dep k' = Some (Other m') ->
    r_oid r k = r_oid r k' -> m = m'.

(** The two values drawn for the main observations from the state g: the PSF fits
    first, metacal after them. *)
Definition drawn_psf (r : renv) (g : G) := fst (r_psf r (e_main (r_base r)) g).
Definition drawn_mcal (r : renv) (g : G) := fst (r_mcal r (e_main (r_base r)) (snd (r_psf r (e_main (r_base r)) g))).

(** Rows of two configurations of fitters: the added columns are the same, and so
    is what a moments fitter common to both gives. *)
Definition same_but_joint (fs fs' : list fitter) (a b : drow FR) : Prop :=
  r_extra a = r_extra b /\ List.length (r_fits a) = List.length fs /\ List.length (r_fits b) = List.length fs' /\
  forall i j f, nth_error fs i = Some f -> nth_error fs' j = Some f -> fi_wavg f = true ->
    nth_error (r_fits a) i = nth_error (r_fits b) j.

(** The table [b] starts with the rows of [a]. *)
Definition extends (a b : option (option (list (drow FR)))) : Prop :=
  match a with
  | Some (Some l) => exists l', b = Some (Some (l ++ l'))
  | Some None => b <> None
  | None => True
  end.

End Spec.
Arguments with_oracles {O SEG ST FL FR}. Arguments with_fitters {O SEG ST FL FR}. Arguments with_bands {O SEG ST FL FR}.
Arguments change_base {O SEG ST FL FR G}. Arguments moments_only {O SEG ST FL FR G}. Arguments no_colours {O SEG ST FL FR G}.
Arguments stateless {O SEG ST FL FR G}. Arguments identities {O SEG ST FL FR G}. Arguments drawn_psf {O SEG ST FL FR G}.
Arguments drawn_mcal {O SEG ST FL FR G}. Arguments same_but_joint {FR}. Arguments extends {FR}.
