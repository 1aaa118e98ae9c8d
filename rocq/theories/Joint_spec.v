(** Specification vocabulary for C39, C44, C46 and C47. *)
From Coq Require Import ZArith QArith List String Bool.
From Verif Require Import Base Arr Median Flags_model Coadd_model Coadd_spec Wavg_model Wavg_spec Joint_model.
Import ListNotations.
Local Open Scope string_scope.
Local Open Scope Z_scope.

(** The stamps [mb] a joint fit of the shear bands [sb] works on: one list per
    shear band or, with coadding, the coadded stamp alone. *)
Definition fitted_stamps (mbobs : list (list fobs)) (sb : list Z) (coadd : bool) (mb : list (list fobs)) : Prop :=
  if coadd then exists o, make_coadd_obs mbobs sb = Ok (Some o, 0) /\ mb = [[o]]
  else Forall2 (fun b ol => py_index mbobs b = Ok ol) sb mb.

(** The bootstrap of these stamps fails for the object, or for a PSF. *)
Definition object_fit_failed (b : bootout) : Prop :=
  match b with BootOk g _ => g_flags g <> 0 | _ => True end.
Definition psf_fit_failed (nfit : nat) (b : bootout) : Prop :=
  match b with BootOk _ p => exists k, (k < nfit)%nat /\ q_flags (p k) <> 0 | _ => True end.

(** All object columns, all PSF columns are nan. *)
Definition object_nan (r : row) : Prop :=
  o_s2n r = None /\ o_g r = nan2 /\ (forall i j, o_g_cov r i j = None) /\ o_T r = None /\ o_T_err r = None /\
  o_T_ratio r = None /\ Forall (eq None) (o_band_flux r) /\ Forall (eq None) (o_band_flux_err r).
Definition psf_nan (r : row) : Prop :=
  o_psf_T r = None /\ o_psf_g r = nan2 /\ o_T_ratio r = None.

(** Tables. *)
Definition wf_table {A} (t : table A) : Prop :=
  NoDup (map fst (t_cols t)) /\ forall c v, In (c, v) (t_cols t) -> List.length v = t_n t.
Definition column {A} (t : table A) (c : string) (v : list A) : Prop := In (c, v) (t_cols t).
Definition has_column {A} (t : table A) (c : string) : Prop := In c (map fst (t_cols t)).
(** The number of rows of a result; a missing result has none. *)
Definition rows_of {A} (r : option (table A)) : nat := match r with Some t => t_n t | None => O end.

(** The value given to the i-th of the assigned bands: a single value is used
    for all of them. *)
Definition value_for {A} (vals : list A) (i : nat) : option A :=
  match vals with [v] => Some v | _ => nth_error vals i end.

(** The data of an object can be fit: one stamp per band, each with a positive
    weight and no pixel with one of the bad bits. *)
Definition good_data (bm : Z) (mbobs : list (list fobs)) : Prop :=
  forall ol, In ol mbobs -> exists o m, ol = [o] /\ has_positive (f_weight o) /\ f_bmask o = Some m /\
    forall i j, inside m i j -> Z.land (px m i j) bm = 0.

(** Weighted mean of a PSF quantity over the fitted bands, in order. *)
Definition band_mean (v : nat -> num) (ws : list Q) : num :=
  ndiv (nsum (map (fun kw => nmul (Some (snd kw)) (v (fst kw))) (combine (seq 0 (List.length ws)) ws)))
       (Some (qsum ws)).
(** The same with the sizes as further weights. *)
Definition size_weighted_mean (v t : nat -> num) (ws : list Q) : num :=
  ndiv (nsum (map (fun kw => nmul (nmul (Some (snd kw)) (t (fst kw))) (v (fst kw))) (combine (seq 0 (List.length ws)) ws)))
       (nsum (map (fun kw => nmul (Some (snd kw)) (t (fst kw))) (combine (seq 0 (List.length ws)) ws))).
