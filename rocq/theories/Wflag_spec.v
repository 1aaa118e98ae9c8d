(** Specification vocabulary for C111 and C112: what may set a bit of the flag
    columns of an averaged object, and the average of the PSFs. *)
From Coq Require Import ZArith QArith List String Bool.
From Verif Require Import Base Arr Median Flags_model Coadd_model Coadd_spec Wavg_model Wavg_spec.
Import ListNotations.
Local Open Scope Z_scope.

(** The bits of a flag value are exactly those of the flags for which there is a
    cause. *)
Definition bits_from (v : Z) (cause : Z -> Prop) : Prop :=
  forall k, Z.testbit v k = true <-> exists f, cause f /\ Z.testbit f k = true.

(** ** Causes in one shear band, for the object ... *)
Inductive band_cause (j : band) : Z -> Prop :=
| data_flag : band_cause j (j_flags j)
| not_fit : j_res j = None -> band_cause j (flag_value MISSING_BAND)
| no_moments : forall r, j_res j = Some r -> ~ has_moments r -> band_cause j (flag_value NOMOMENTS_FAILURE)
| not_weighted : (j_w j <= 0)%Q -> band_cause j (flag_value ZERO_WEIGHTS).
(** ... and for the PSF, which is weighted with the fluxes of the object. *)
Inductive psf_cause (j : band) : Z -> Prop :=
| psf_data_flag : psf_cause j (j_flags j)
| psf_not_fit : j_res j = None \/ j_psf j = None -> psf_cause j (flag_value MISSING_BAND)
| psf_no_moments : forall r p, j_res j = Some r -> j_psf j = Some p -> ~ (has_moments r /\ has_moments p) ->
    psf_cause j (flag_value NOMOMENTS_FAILURE)
| psf_no_flux : forall r p mr mp q, j_res j = Some r -> j_psf j = Some p -> r_mom r = Some mr -> r_mom p = Some mp ->
    mp 5%nat = Some q -> (q == 0)%Q -> psf_cause j (flag_value ZERO_WEIGHTS)
| psf_no_norm : forall r p mr mp nr np, j_res j = Some r -> j_psf j = Some p -> r_mom r = Some mr -> r_mom p = Some mp ->
    r_norm r = Some (Some nr) -> r_norm p = Some (Some np) -> (nr == 0)%Q -> psf_cause j (flag_value ZERO_WEIGHTS)
| psf_not_weighted : (j_w j <= 0)%Q -> psf_cause j (flag_value ZERO_WEIGHTS).

(** A flag caused by one of the shear bands. *)
Definition by_a_band (cause : band -> Z -> Prop) (js : list band) (f : Z) : Prop :=
  exists j, In j js /\ j_is j = true /\ cause j f.

(** ** Causes in the averaged moments [m] with covariance [c]: what the moment
    routine reports for them, also when regularized, and a flux or a flux
    variance that is not positive. *)
Definition regularised (t : Q) (m : vec) : vec :=
  fun i => if Nat.eqb i 4 then nadd (m 4%nat) (nmul (Some t) (m 5%nat)) else m i.
Definition regularised_cov (t : Q) (c : mat) : mat := fun i j =>
  let right k := if Nat.eqb j 4 then nadd (c k 4%nat) (nmul (Some t) (c k 5%nat)) else c k j in
  if Nat.eqb i 4 then nadd (right 4%nat) (nmul (Some t) (right 5%nat)) else right i.
Inductive moment_cause (ng : ngcodes) (mk : vec -> mat -> momresult) (to_T : Q -> Q) (fw : Q)
  (m : vec) (c : mat) (flux var : num) : Z -> Prop :=
| from_moments : moment_cause ng mk to_T fw m c flux var (mo_flags (mk m c))
| from_regularised : (0 < fw)%Q ->
    moment_cause ng mk to_T fw m c flux var (mo_flags (mk (regularised (to_T fw) m) (regularised_cov (to_T fw) c)))
| flux_not_positive : forall q, flux = Some q -> (q <= 0)%Q -> moment_cause ng mk to_T fw m c flux var (NONPOS_FLUX ng)
| var_not_positive : (forall q, var = Some q -> (q <= 0)%Q) -> moment_cause ng mk to_T fw m c flux var (NONPOS_VAR ng).
(** The flags of the moment routine depend on the six moments and their
    covariances only. *)
Definition flags_of_values (mk : vec -> mat -> momresult) : Prop :=
  forall m m' c c', (forall i, (i <= 5)%nat -> neqv (m i) (m' i)) ->
    (forall i j, (i <= 5)%nat -> (j <= 5)%nat -> neqv (c i j) (c' i j)) -> mo_flags (mk m c) = mo_flags (mk m' c').
Definition finite_moments (m : vec) (c : mat) : Prop :=
  (forall i, (2 <= i <= 5)%nat -> m i <> None) /\ (forall i j, (i <= 5)%nat -> (j <= 5)%nat -> c i j <> None).

(** ** The average of the PSFs *)
(** Object and PSF of a band were measured alike: both with a (non zero) norm or
    both without. *)
Definition alike (j : band) : Prop :=
  forall r p, j_res j = Some r -> j_psf j = Some p ->
    (exists nr np, r_norm r = Some (Some nr) /\ r_norm p = Some (Some np) /\ ~ (np == 0)%Q) \/
    ((r_norm r = None \/ r_norm r = Some None) /\ (r_norm p = None \/ r_norm p = Some None)).
(** The weight, object fit and PSF fit of the shear bands. *)
Definition shear_triples (js : list band) : list (Q * fitres * fitres) :=
  flat_map (fun j => match j_res j, j_psf j with Some r, Some p => if j_is j then [(j_w j, r, p)] else [] | _, _ => [] end) js.
Definition shear_psfs (js : list band) : list (Q * fitres) := map (fun t => (fst (fst t), snd t)) (shear_triples js).
(** Moment [i] of a PSF of unit flux. *)
Definition unit_psf (p : fitres) (i : nat) : num :=
  match r_mom p with Some m => ndiv (m i) (m 5%nat) | None => None end.
Definition unit_psf_cov (p : fitres) (i j : nat) : num :=
  match r_mom p, r_cov p with Some m, Some c => ndiv (c i j) (nmul (m 5%nat) (m 5%nat)) | _, _ => None end.
(** Mean over the bands of the PSFs scaled to the flux of the object. *)
Definition psf_mean (js : list band) (i : nat) : num :=
  ndiv (nsum (map (fun t => nmul (nmul (Some (fst (fst t))) (normalised (snd (fst t)) 5)) (unit_psf (snd t) i)) (shear_triples js)))
       (Some (qsum (map (fun t => fst (fst t)) (shear_triples js)))).
Definition psf_mean_cov (js : list band) (i k : nat) : num :=
  ndiv (nsum (map (fun t => let s := nmul (Some (fst (fst t))) (normalised (snd (fst t)) 5) in
                            nmul (nmul s s) (unit_psf_cov (snd t) i k)) (shear_triples js)))
       (Some (qsum (map (fun t => fst (fst t)) (shear_triples js)) * qsum (map (fun t => fst (fst t)) (shear_triples js)))%Q).

(** Size and shape moments of one PSF. *)
Definition psf_size (p : fitres) : num := unit_psf p 4.
(** Sum and mean of a quantity of the PSFs, weighted with the weight of the band
    times the flux of the object in it. *)
Definition flux_sum (js : list band) (v : fitres -> num) : num :=
  nsum (map (fun t => nmul (nmul (Some (fst (fst t))) (normalised (snd (fst t)) 5)) (v (snd t))) (shear_triples js)).
Definition flux_weighted (js : list band) (v : fitres -> num) : num := ndiv (flux_sum js v) (flux_sum js (fun _ => Some 1%Q)).

(** ** From the observations to the results of a band *)
(** What is known about band [k] of the data [ol]. *)
Definition band_result (ft : fitter) (bm : Z) (sym : bool) (sb : list Z) (k : nat) (ol : list fobs) (j : band) : Prop :=
  (j_is j = true <-> In (Z.of_nat k) sb) /\
  bits_from (j_flags j) (band_problem bm sym ol) /\
  ((exists fl, band_problem bm sym ol fl) -> j_res j = None /\ j_psf j = None /\ (j_w j == 0)%Q) /\
  ((forall fl, ~ band_problem bm sym ol fl) ->
     exists o rest o' fr p pr, ol = o :: rest /\ fitted_obs sym o o' /\ k_go ft o' = Ok fr /\ f_psf o' = Some p /\
       k_go_psf ft p = Ok pr /\ j_res j = Some fr /\ j_psf j = Some pr /\
       positive_median (f_weight o') (j_w j) /\ (0 < j_w j)%Q).
