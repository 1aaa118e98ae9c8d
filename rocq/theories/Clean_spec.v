(** Specification vocabulary for C133: the values of a measured row that are
    numbers, and what is assumed of the third party fitting code. *)
From Coq Require Import ZArith QArith List String Bool.
From Verif Require Import Base Arr Median Flags_model Detect_model Summ_model Coadd_model Wavg_model
  Joint_model Conf_model Mdet_model Mrun_model Mtab_model.
Import ListNotations.
Local Open Scope string_scope.
Local Open Scope Z_scope.

(** A number, not nan; two numbers; a two by two matrix of numbers. *)
Definition is_num (v : Wavg_model.num) : Prop := exists q, v = Some q.
Definition is_pair (v : Wavg_model.num * Wavg_model.num) : Prop := is_num (fst v) /\ is_num (snd v).
Definition is_mat (m : mat) : Prop := forall i j, (i < 2)%nat -> (j < 2)%nat -> is_num (m i j).
(** A number other than zero. *)
Definition nonzero (v : Wavg_model.num) : Prop := exists q, v = Some q /\ ~ (q == 0)%Q.

(** Every value whose flag column is 0 is a number: the PSF values, the shape
    values, the size values, the size ratio, and the flux of each band. *)
Definition unflagged_numbers (r : row) : Prop :=
  (o_psf_flags r = 0 -> is_pair (o_psf_g r) /\ is_num (o_psf_T r)) /\
  (o_obj_flags r = 0 -> is_num (o_s2n r) /\ is_pair (o_g r) /\ is_mat (o_g_cov r)) /\
  (o_T_flags r = 0 -> is_num (o_T r) /\ is_num (o_T_err r)) /\
  (o_psf_flags r = 0 -> o_T_flags r = 0 -> is_num (o_T_ratio r)) /\
  (forall k, nth_error (o_band_flux_flags r) k = Some 0 ->
     (exists v, nth_error (o_band_flux r) k = Some v /\ is_num v) /\
     (exists v, nth_error (o_band_flux_err r) k = Some v /\ is_num v)).
(** The summary flag of a row being 0 says that the flags of the PSF and of the
    object are. *)
Definition summary_covers (r : row) : Prop := o_flags r = 0 -> o_psf_flags r = 0 /\ o_obj_flags r = 0.
(** Every value of the row is a number. *)
Definition all_numbers (r : row) : Prop :=
  is_pair (o_psf_g r) /\ is_num (o_psf_T r) /\ is_num (o_s2n r) /\ is_pair (o_g r) /\ is_mat (o_g_cov r) /\
  is_num (o_T r) /\ is_num (o_T_err r) /\ is_num (o_T_ratio r) /\
  Forall is_num (o_band_flux r) /\ Forall is_num (o_band_flux_err r).

(** What is assumed of ngmix: its own results hold numbers where its own flags
    are 0. Moments: an unflagged result has numbers, a size other than zero and
    was given a flux that is a number. *)
Definition honest_moments (mk : vec -> mat -> momresult) : Prop :=
  forall m c,
    (mo_flags (mk m c) = 0 ->
       is_num (mo_e1 (mk m c)) /\ is_num (mo_e2 (mk m c)) /\ is_mat (mo_ecov (mk m c)) /\
       nonzero (mo_T (mk m c)) /\ is_num (m 5%nat)) /\
    (mo_T_flags (mk m c) = 0 -> is_num (mo_T (mk m c)) /\ is_num (mo_T_err (mk m c))).
(** A result without flags has no size flags. *)
Definition sized (mk : vec -> mat -> momresult) : Prop := forall m c, mo_flags (mk m c) = 0 -> mo_T_flags (mk m c) = 0.
(** The fit of one band: an unflagged flux and its error are numbers. *)
Definition honest_flux (r : fitres) : Prop :=
  forall fl fe, r_flux r = Some fl -> r_flux_err r = Some fe -> r_flux_flags r = Some 0 -> is_num fl /\ is_num fe.
(** The joint fit: it is given at least one stamp; unflagged results are numbers,
    an unflagged PSF has a positive size. *)
Definition honest_boot (boot : list (list fobs) -> bootout) : Prop :=
  forall mb g p, boot mb = BootOk g p ->
    mb <> [] /\
    (g_flags g = 0 -> is_num (g_s2n g) /\ is_pair (g_g g) /\ is_mat (g_gcov g) /\ is_num (g_T g) /\ is_num (g_T_err g) /\
       Forall is_num (g_flux g) /\ Forall is_num (g_flux_err g)) /\
    (forall k, q_flags (p k) = 0 -> is_pair (q_g (p k)) /\ exists q, q_T (p k) = Some q /\ (0 < q)%Q).
(** Adaptive moments: unflagged results are numbers, an unflagged PSF has a size
    other than zero. *)
Definition honest_am (r : amres) : Prop :=
  (a_flags r = 0 -> is_num (a_s2n r) /\ is_pair (a_e r) /\ is_mat (a_e_cov r)) /\
  (a_T_flags r = 0 -> is_num (a_T r) /\ is_num (a_T_err r)).
Definition honest_am_psf (r : amres) : Prop := a_flags r = 0 -> is_pair (a_e r) /\ nonzero (a_T r).
Record honest (x : third) : Prop := mkHonest {
  h_codes : NO_ATTEMPT (tp_ng x) <> 0 /\ NONPOS_VAR (tp_ng x) <> 0;
  h_sqrt : forall v, (0 < v)%Q -> ~ (tp_sqrt x v == 0)%Q;
  h_moments : honest_moments (tp_mk x);
  h_flux : forall f o r, tp_go x f o = Ok r -> honest_flux r;
  h_boot : honest_boot (tp_boot x);
  h_am_psf : forall o r, tp_am_psf x o = Ok r -> honest_am_psf r;
  h_am : forall o r, tp_am x o = Ok r -> honest_am r
}.

(** The same of the cells of a table. *)
Definition numbers (v : cell) : Prop :=
  match v with
  | CNum a => is_num a
  | CPair a => is_pair a
  | CMat m => is_mat m
  | _ => False
  end.
Definition flux_number (v : cell) (k : nat) : Prop :=
  match v with
  | CNums l => exists a, nth_error l k = Some a /\ is_num a
  | _ => False
  end.
