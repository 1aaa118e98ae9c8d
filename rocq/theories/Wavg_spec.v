(** Specification vocabulary for C35-C41. *)
From Coq Require Import ZArith QArith List String Bool Permutation.
From Verif Require Import Base Arr Median Flags_model Coadd_model Coadd_spec Wavg_model.
Import ListNotations.
Local Open Scope Z_scope.

(** Equality of float values: both nan, or the same number. *)
Definition neqv (a b : num) : Prop :=
  match a, b with Some x, Some y => (x == y)%Q | None, None => True | _, _ => False end.
Definition veqv (m m' : vec) : Prop := forall i, neqv (m i) (m' i).
Definition ceqv (c c' : mat) : Prop := forall i j, neqv (c i j) (c' i j).

(** A flag value contains a flag. *)
Definition has_flag (v : Z) (f : Z) : Prop := forall k, Z.testbit f k = true -> Z.testbit v k = true.

(** What the third party routine make_mom_result is assumed to satisfy: it is a
    function of the values ... *)
Definition mk_ext (mk : vec -> mat -> momresult) : Prop :=
  forall m m' c c', veqv m m' -> ceqv c c' ->
    neqv (mo_e1 (mk m c)) (mo_e1 (mk m' c')) /\ neqv (mo_e2 (mk m c)) (mo_e2 (mk m' c')) /\
    ceqv (mo_ecov (mk m c)) (mo_ecov (mk m' c')) /\ neqv (mo_T (mk m c)) (mo_T (mk m' c')) /\
    neqv (mo_T_err (mk m c)) (mo_T_err (mk m' c')) /\ mo_T_flags (mk m c) = mo_T_flags (mk m' c') /\
    mo_flags (mk m c) = mo_flags (mk m' c') /\ mo_flux_flags (mk m c) = mo_flux_flags (mk m' c').
(** ... and, when it sets no flag, the size is the ratio of the moments 4 and 5
    and the shape the ratios of 2, 3 to 4. *)
Definition mk_size (mk : vec -> mat -> momresult) : Prop :=
  forall m c, mo_flags (mk m c) = 0 -> neqv (mo_T (mk m c)) (ndiv (m 4%nat) (m 5%nat)).
Definition mk_shape (mk : vec -> mat -> momresult) : Prop :=
  forall m c, mo_flags (mk m c) = 0 ->
    neqv (mo_e1 (mk m c)) (ndiv (m 2%nat) (m 4%nat)) /\ neqv (mo_e2 (mk m c)) (ndiv (m 3%nat) (m 4%nat)).
Definition ng_ok (ng : ngcodes) : Prop := NONPOS_FLUX ng <> 0 /\ NONPOS_VAR ng <> 0.
Definition sqrt_ext (qsqrt : Q -> Q) : Prop := forall x y, (x == y)%Q -> (qsqrt x == qsqrt y)%Q.

(** One band of one object: its averaging weight, object fit, PSF fit, whether
    it is a shear band, and its flags. *)
Record band := mkBand {
  j_w : Q; j_res : option fitres; j_psf : option fitres; j_is : bool; j_flags : Z
}.
(** The combination routine applied to a list of bands. *)
Definition combine_bands ng mk to_T qsqrt (js : list band) (sb : list Z) (fwhm_reg : Q) : outcome row :=
  combine_fit_results_wavg ng mk to_T qsqrt (map j_res js) (map j_psf js) (map j_is js) (map j_w js)
    (map j_flags js) sb fwhm_reg.

(** The normalised moments of a fit: divided by the norm when there is one. *)
Definition norm_of (r : fitres) : Q := match r_norm r with Some (Some q) => q | _ => 1%Q end.
Definition normalised (r : fitres) (i : nat) : num :=
  match r_mom r with Some m => ndiv (m i) (Some (norm_of r)) | None => None end.
Definition normalised_cov (r : fitres) (i j : nat) : num :=
  match r_cov r with Some c => ndiv (c i j) (Some (norm_of r * norm_of r)%Q) | None => None end.
Definition flux_of (r : fitres) : num := match r_mom r with Some m => m 5%nat | None => None end.
Definition flux_var_of (r : fitres) : num := match r_cov r with Some c => c 5%nat 5%nat | None => None end.

(** The shear bands' weights and object fits. *)
Definition shear_fits (js : list band) : list (Q * fitres) :=
  flat_map (fun j => match j_res j with Some r => if j_is j then [(j_w j, r)] else [] | None => [] end) js.
(** Weighted mean of a quantity of the fits, and its propagated variance when
    [v] is the (co)variance of that quantity. *)
Definition wmean (l : list (Q * fitres)) (v : fitres -> num) : num :=
  ndiv (nsum (map (fun wr => nmul (Some (fst wr)) (v (snd wr))) l)) (Some (qsum (map fst l))).
Definition wmean_var (l : list (Q * fitres)) (v : fitres -> num) : num :=
  ndiv (nsum (map (fun wr => nmul (Some (fst wr * fst wr)%Q) (v (snd wr))) l))
       (Some (qsum (map fst l) * qsum (map fst l))%Q).

(** Two rows agree in all columns of the object and its PSF, that is in all
    columns except the ones listing values per band and the overall flag. *)
Definition row_equiv (a b : row) : Prop :=
  o_psf_flags a = o_psf_flags b /\ o_obj_flags a = o_obj_flags b /\
  neqv (fst (o_psf_g a)) (fst (o_psf_g b)) /\ neqv (snd (o_psf_g a)) (snd (o_psf_g b)) /\
  neqv (o_psf_T a) (o_psf_T b) /\ neqv (o_s2n a) (o_s2n b) /\
  neqv (fst (o_g a)) (fst (o_g b)) /\ neqv (snd (o_g a)) (snd (o_g b)) /\
  ceqv (o_g_cov a) (o_g_cov b) /\ neqv (o_T a) (o_T b) /\ o_T_flags a = o_T_flags b /\
  neqv (o_T_err a) (o_T_err b) /\ neqv (o_T_ratio a) (o_T_ratio b) /\ o_shear_bands a = o_shear_bands b.

(** All averaging weights multiplied by a constant. *)
Definition scale_weight (c : Q) (j : band) : band :=
  mkBand (c * j_w j)%Q (j_res j) (j_psf j) (j_is j) (j_flags j).

(** A band took part in the average: fits of object and PSF with moments and
    covariances, a positive weight, no flags. *)
Definition has_moments (r : fitres) : Prop := r_mom r <> None /\ r_cov r <> None.
Definition contributed (j : band) : Prop :=
  (0 < j_w j)%Q /\ j_flags j = 0 /\
  (exists r, j_res j = Some r /\ has_moments r) /\ (exists p, j_psf j = Some p /\ has_moments p).

(** The shear bands asked for: all bands when none are named. *)
Definition the_shear_bands (mbobs : list (list fobs)) (sb : option (list Z)) : list Z :=
  match sb with Some l => l | None => zrange (zlen mbobs) end.

(** The observation that is fit, after the optional symmetrization. *)
Definition fitted_obs (symmetrize : bool) (o o' : fobs) : Prop :=
  if symmetrize then symmetrize_obs_weights o = Ok o' else o' = o.
(** Band data as given to the fitter are usable: a first observation with a
    positive weight somewhere, none of the forbidden mask bits, and fits with
    moments for object and PSF; [w] is the median positive weight. *)
Definition usable_band (ft : fitter) (bmask_flags : Z) (symmetrize : bool) (ol : list fobs) : Prop :=
  exists o rest o' bm p r pr w,
    ol = o :: rest /\ fitted_obs symmetrize o o' /\ has_positive (f_weight o') /\
    positive_median (f_weight o') w /\ (0 < w)%Q /\
    f_bmask o' = Some bm /\ (forall i j, inside bm i j -> Z.land (px bm i j) bmask_flags = 0) /\
    k_go ft o' = Ok r /\ has_moments r /\ f_psf o' = Some p /\ k_go_psf ft p = Ok pr /\ has_moments pr.

(** The data of a band passed the checks before the fit. *)
Definition checked_band (bmask_flags : Z) (symmetrize : bool) (ol : list fobs) : Prop :=
  exists o rest o' bm, ol = o :: rest /\ fitted_obs symmetrize o o' /\ has_positive (f_weight o') /\
    f_bmask o' = Some bm /\ forall i j, inside bm i j -> Z.land (px bm i j) bmask_flags = 0.

(** C38: in this band the object is a point source of flux ratio [a] to the PSF
    image: its moments are a multiple of the PSF's, measured with or without a
    normalisation alike. *)
Definition star_band (j : band) : Prop :=
  exists r p m mp a,
    j_res j = Some r /\ j_psf j = Some p /\ r_mom r = Some m /\ r_mom p = Some mp /\
    (a > 0)%Q /\ (forall i, exists q, mp i = Some q /\ neqv (m i) (Some (a * q)%Q)) /\
    (exists q, mp 5%nat = Some q /\ ~ (q == 0)%Q) /\
    ((r_norm r = None /\ r_norm p = None) \/
     (exists nr np, r_norm r = Some (Some nr) /\ r_norm p = Some (Some np) /\ (0 < nr)%Q /\ (0 < np)%Q)).

(** C83: what makes a band unusable before any fit, and the flag it must get. *)
Inductive band_problem (bmask_flags : Z) (symmetrize : bool) : list fobs -> Z -> Prop :=
| no_observation : band_problem bmask_flags symmetrize [] (flag_value MISSING_BAND)
| no_weight : forall o rest o', fitted_obs symmetrize o o' -> ~ has_positive (f_weight o') ->
    band_problem bmask_flags symmetrize (o :: rest) (flag_value ZERO_WEIGHTS)
| masked_pixel : forall o rest o' bm i j, fitted_obs symmetrize o o' -> f_bmask o' = Some bm ->
    inside bm i j -> Z.land (px bm i j) bmask_flags <> 0 ->
    band_problem bmask_flags symmetrize (o :: rest) (flag_value EDGE_HIT).
(** All measured columns of the object are nan. *)
Definition no_measurement (r : row) : Prop :=
  o_s2n r = None /\ o_g r = (None, None) /\ (forall i j, o_g_cov r i j = None) /\ o_T r = None /\
  o_T_err r = None /\ o_T_ratio r = None.
(** The row has these values for band [k]. *)
Definition band_cols (r : row) (k : nat) (flux err : num) (flags : Z) : Prop :=
  nth_error (o_band_flux r) k = Some flux /\ nth_error (o_band_flux_err r) k = Some err /\
  nth_error (o_band_flux_flags r) k = Some flags.

(** Two rows that agree in every column but the label of the shear bands. *)
Definition row_but_label (r r' : row) : Prop :=
  o_flags r = o_flags r' /\ o_psf_flags r = o_psf_flags r' /\ o_psf_g r = o_psf_g r' /\ o_psf_T r = o_psf_T r' /\
  o_obj_flags r = o_obj_flags r' /\ o_s2n r = o_s2n r' /\ o_g r = o_g r' /\ o_g_cov r = o_g_cov r' /\ o_T r = o_T r' /\
  o_T_flags r = o_T_flags r' /\ o_T_err r = o_T_err r' /\ o_T_ratio r = o_T_ratio r' /\
  o_band_flux_flags r = o_band_flux_flags r' /\ o_band_flux r = o_band_flux r' /\ o_band_flux_err r = o_band_flux_err r'.
