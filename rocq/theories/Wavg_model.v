(** Model of the weighted average fitters of metadetect/fitting.py
    (lines 703-1440). Floats are rationals or [None], which stands for nan; a
    division by zero gives nan (infinities are not distinguished). *)
From Coq Require Import ZArith QArith List String Bool DecimalString.
From Verif Require Import Base Arr Median Flags_model Coadd_model.
Import ListNotations.
Local Open Scope string_scope.
Local Open Scope Z_scope.

Definition num := option Q.
Definition nadd (a b : num) : num :=
  match a, b with Some x, Some y => Some (x + y)%Q | _, _ => None end.
Definition nmul (a b : num) : num :=
  match a, b with Some x, Some y => Some (x * y)%Q | _, _ => None end.
Definition ndiv (a b : num) : num :=
  match a, b with
  | Some x, Some y => if Qeq_bool y 0 then None else Some (x / y)%Q
  | _, _ => None
  end.
(** [x <= 0], [x > 0], [x != 0]; comparisons with nan are false,
    except for [!=]. *)
Definition nle0 (a : num) : bool := match a with Some x => Qle_bool x 0 | None => false end.
Definition ngt0 (a : num) : bool := match a with Some x => negb (Qle_bool x 0) | None => false end.
Definition nne0 (a : num) : bool := match a with Some x => negb (Qeq_bool x 0) | None => true end.
Definition finite (a : num) : bool := match a with Some _ => true | None => false end.

(** Moment vectors and covariances, indices 0..5. *)
Definition vec := nat -> num.
Definition mat := nat -> nat -> num.

(** The ngmix flag values used (third party, their values are not fixed). *)
Record ngcodes := mkNg { NO_ATTEMPT : Z; NONPOS_FLUX : Z; NONPOS_VAR : Z }.

(** The result dictionary of one fit of one band: the keys read here. "sums",
    "sums_cov", "sums_norm" (MOMNAME) and the flux keys may be missing. *)
Record fitres := mkFit {
  r_flags : Z; r_mom : option vec; r_cov : option mat; r_norm : option num;
  r_flux : option num; r_flux_err : option num; r_flux_flags : option Z
}.

(** ** fitting.py:913-1112, _sum_bands_wavg *)

(** One band as zipped at fitting.py:997-1004: weight, result, shear band?,
    flags, and the entry of all_wgt_res. *)
Record sband := mkSband {
  b_wgt : Q; b_res : option fitres; b_issb : bool; b_flags : Z; b_wres : option fitres
}.
Record sums := mkSums {
  s_mom : vec; s_cov : mat; s_wgt : Q; s_flags : Z; s_used : list bool; s_flux : num; s_flux_var : num
}.
Definition sums0 : sums := mkSums (fun _ => Some 0%Q) (fun _ _ => Some 0%Q) 0 0 [] (Some 0%Q) (Some 0%Q).

Definition has {A} (x : option A) : bool := match x with Some _ => true | None => false end.
Definition has_moms (r : fitres) : bool := has (r_mom r) && has (r_cov r).
Definition finite_norm (r : fitres) : option Q :=
  match r_norm r with Some (Some q) => Some q | _ => None end.

(** fitting.py:1010-1021: flags for missing data or moments. [weighted] is
    [all_wgt_res is not None]. *)
Definition missing_flags (weighted : bool) (b : sband) : Z :=
  match b_res b, b_wres b with
  | None, _ => flag_value MISSING_BAND
  | Some r, wr =>
    if weighted && negb (has wr) then flag_value MISSING_BAND
    else if negb (has_moms r) || (weighted && match wr with Some w => negb (has_moms w) | None => false end)
         then flag_value NOMOMENTS_FAILURE else 0
  end.

(** fitting.py:1023-1030. *)
Definition mom_norm (b : sband) : Q :=
  match b_res b with
  | Some r => match finite_norm r with Some q => q | None => 1%Q end
  | None => 1%Q
  end.

(** fitting.py:1032-1064: the flux ratio and the flag it may raise. *)
Definition flux_mom_ratio (weighted : bool) (b : sband) : num * Z :=
  match weighted, b_wres b, b_res b with
  | true, Some w, Some r =>
    match r_mom r, r_mom w with
    | Some m, Some wm =>
      if nne0 (m 5%nat) then
        match finite_norm r, finite_norm w with
        | Some nr, Some nw =>
          if Qeq_bool nw 0 then (Some 1%Q, flag_value ZERO_WEIGHTS)
          else (nmul (ndiv (ndiv (wm 5%nat) (Some nw)) (m 5%nat)) (Some nr), 0)
        | _, _ => (ndiv (wm 5%nat) (m 5%nat), 0)
        end
      else (Some 1%Q, flag_value ZERO_WEIGHTS)
    | _, _ => (Some 1%Q, 0)
    end
  | _, _, _ => (Some 1%Q, 0)
  end.

(** fitting.py:997-1098, one pass of the loop. *)
Definition sum_step (weighted : bool) (s : sums) (b : sband) : sums :=
  if b_issb b then
    let '(ratio, rflag) := flux_mom_ratio weighted b in
    let fl := Z.lor (Z.lor (Z.lor (Z.lor (s_flags s) (b_flags b)) (missing_flags weighted b)) rflag)
                    (if Qle_bool (b_wgt b) 0 then flag_value ZERO_WEIGHTS else 0) in
    match b_res b with
    | Some (mkFit _ (Some m) (Some c) _ _ _ _) =>
      let f := ndiv (nmul (Some (b_wgt b)) ratio) (Some (mom_norm b)) in
      mkSums (fun i => nadd (s_mom s i) (nmul f (m i)))
             (fun i j => nadd (s_cov s i j) (nmul (nmul f f) (c i j)))
             (s_wgt s + b_wgt b) fl (s_used s ++ [true])
             (nadd (s_flux s) (nmul (Some (b_wgt b)) (m 5%nat)))
             (nadd (s_flux_var s) (nmul (Some (b_wgt b * b_wgt b)%Q) (c 5%nat 5%nat)))
    | _ => mkSums (s_mom s) (s_cov s) (s_wgt s) fl (s_used s ++ [false]) (s_flux s) (s_flux_var s)
    end
  else mkSums (s_mom s) (s_cov s) (s_wgt s) (s_flags s) (s_used s ++ [false]) (s_flux s) (s_flux_var s).

(** fitting.py:986-1112. *)
Definition sum_bands_wavg (weighted : bool) (bands : list sband) : sums :=
  let s := fold_left (sum_step weighted) bands sums0 in
  let fl := if existsb (fun u => u) (s_used s) && Qle_bool (s_wgt s) 0
            then Z.lor (s_flags s) (flag_value ZERO_WEIGHTS) else s_flags s in
  mkSums (s_mom s) (s_cov s) (s_wgt s) fl (s_used s) (s_flux s) (s_flux_var s).

(** ** fitting.py:1115-1165, _make_mom_res *)

(** The part of ngmix.moments.make_mom_result used (third party). *)
Record momresult := mkMom {
  mo_e1 : num; mo_e2 : num; mo_ecov : mat; mo_T : num; mo_T_err : num;
  mo_T_flags : Z; mo_flags : Z; mo_flux_flags : Z
}.
(** The dictionary returned by _make_mom_res. *)
Record momres := mkMomres {
  m_e1 : num; m_e2 : num; m_ecov : mat; m_T : num; m_T_err : num; m_T_flags : Z;
  m_flags : Z; m_flux_flags : Z; m_flux : num; m_flux_err : num; m_s2n : num
}.

(** numpy.dot of 6x6 matrices and vectors. *)
Definition ix6 : list nat := [0; 1; 2; 3; 4; 5]%nat.
Definition nsum (l : list num) : num := fold_right nadd (Some 0%Q) l.
Definition dot_mv (a : mat) (v : vec) : vec := fun i => nsum (map (fun j => nmul (a i j) (v j)) ix6).
Definition dot_mm (a b : mat) : mat := fun i j => nsum (map (fun k => nmul (a i k) (b k j)) ix6).
Definition transpose (a : mat) : mat := fun i j => a j i.
(** fitting.py:1123-1124. *)
Definition reg_matrix (T_reg : Q) : mat := fun i j =>
  if Nat.eqb i j then Some 1%Q
  else if Nat.eqb i 4 && Nat.eqb j 5 then Some T_reg else Some 0%Q.
(** fitting.py:1126-1137. *)
Definition reg_moments (T_reg : Q) (raw : vec) : vec :=
  let zeroed := fun i => if Nat.leb i 1 && negb (finite (raw i)) then Some 0%Q else raw i in
  let reg := dot_mv (reg_matrix T_reg) zeroed in
  fun i => if Nat.leb i 1 && negb (finite (raw i)) then None else reg i.
(** fitting.py:1139. *)
Definition reg_cov (T_reg : Q) (cov : mat) : mat :=
  dot_mm (reg_matrix T_reg) (dot_mm cov (transpose (reg_matrix T_reg))).

(** [mk] is ngmix's make_mom_result, [to_T] its fwhm_to_T, [qsqrt] the square
    root. *)
Definition make_mom_res (ng : ngcodes) (mk : vec -> mat -> momresult) (to_T : Q -> Q) (qsqrt : Q -> Q)
  (raw : vec) (cov : mat) (flux flux_var : num) (fwhm_reg : Q) : momres :=
  let base :=
    if negb (Qle_bool fwhm_reg 0) then
      let t := mk raw cov in
      let T_reg := to_T fwhm_reg in
      let r := mk (reg_moments T_reg raw) (reg_cov T_reg cov) in
      mkMom (mo_e1 r) (mo_e2 r) (mo_ecov r) (mo_T t) (mo_T_err t) (mo_T_flags t)
            (Z.lor (mo_flags r) (mo_flags t)) (mo_flux_flags r)
    else mk raw cov in
  let flags1 := if nle0 flux then Z.lor (mo_flags base) (NONPOS_FLUX ng) else mo_flags base in
  match flux_var with
  | Some v =>
    if negb (Qle_bool v 0) then
      mkMomres (mo_e1 base) (mo_e2 base) (mo_ecov base) (mo_T base) (mo_T_err base) (mo_T_flags base)
        flags1 (mo_flux_flags base) flux (Some (qsqrt v)) (ndiv flux (Some (qsqrt v)))
    else
      mkMomres (mo_e1 base) (mo_e2 base) (mo_ecov base) (mo_T base) (mo_T_err base) (mo_T_flags base)
        (Z.lor flags1 (NONPOS_VAR ng)) (Z.lor (mo_flux_flags base) (NONPOS_VAR ng)) flux None None
  | None =>
    mkMomres (mo_e1 base) (mo_e2 base) (mo_ecov base) (mo_T base) (mo_T_err base) (mo_T_flags base)
      (Z.lor flags1 (NONPOS_VAR ng)) (Z.lor (mo_flux_flags base) (NONPOS_VAR ng)) flux None None
  end.

(** ** fitting.py:1335-1413, the output row *)

(** Python str(int). *)
Definition int_str (z : Z) : string := NilZero.string_of_int (Z.to_int z).
Fixpoint zinsert (x : Z) (l : list Z) : list Z :=
  match l with
  | [] => [x]
  | y :: r => if x <=? y then x :: l else y :: zinsert x r
  end.
Definition zsort (l : list Z) : list Z := fold_right zinsert [] l.
Definition MAX_NUM_SHEAR_BANDS : Z := 6.
(** fitting.py:1376: the joined indices, cut to the 6 characters of the field. *)
Definition band_label (bands : list Z) : string :=
  substring 0 6 (String.concat "" (map int_str (zsort bands))).

(** A row; [None] is nan. For one band or none the band columns are scalars,
    here lists of length one. *)
Record row := mkRow {
  o_flags : Z; o_psf_flags : Z; o_psf_g : num * num; o_psf_T : num; o_obj_flags : Z;
  o_s2n : num; o_g : num * num; o_g_cov : mat; o_T : num; o_T_flags : Z; o_T_err : num; o_T_ratio : num;
  o_band_flux_flags : list Z; o_band_flux : list num; o_band_flux_err : list num; o_shear_bands : string
}.
Definition nan2 : num * num := (None, None).
(** fitting.py:1355-1378. *)
Definition get_wavg_output_struct (ng : ngcodes) (nband : nat) (shear_bands : list Z) : outcome row :=
  if zlen shear_bands <=? MAX_NUM_SHEAR_BANDS then
    let n := Nat.max nband 1 in
    Ok (mkRow (NO_ATTEMPT ng) (NO_ATTEMPT ng) nan2 None (NO_ATTEMPT ng) None nan2 (fun _ _ => None) None
          (NO_ATTEMPT ng) None None (repeat (NO_ATTEMPT ng) n) (repeat None n) (repeat None n)
          (band_label shear_bands))
  else Raise AssertionError.

(** ** fitting.py:1168-1332, _combine_fit_results_wavg *)

Definition zor (l : list Z) : Z := fold_left Z.lor l 0.

(** fitting.py:1238-1261: flux, error and flags of one band. *)
Definition band_flux_cols (r : option fitres) (flags : Z) : num * num * Z :=
  match r with
  | None => (None, None, Z.lor flags (flag_value MISSING_BAND))
  | Some (mkFit _ _ _ _ (Some fl) (Some fe) (Some ff)) => (fl, fe, Z.lor flags ff)
  | Some _ => (None, None, Z.lor flags (flag_value NOMOMENTS_FAILURE))
  end.

Fixpoint zip_bands (wgts : list Q) (res : list (option fitres)) (issb : list bool) (fl : list Z)
  (wres : list (option fitres)) : list sband :=
  match wgts, res, issb, fl, wres with
  | w :: ws, r :: rs, i :: is, f :: fs, x :: xs => mkSband w r i f x :: zip_bands ws rs is fs xs
  | _, _, _, _, _ => []
  end.
Definition vdiv (m : vec) (w : Q) : vec := fun i => ndiv (m i) (Some w).
Definition mdiv (m : mat) (w : Q) : mat := fun i j => ndiv (m i j) (Some w).

Section Combine.
Variables (ng : ngcodes) (mk : vec -> mat -> momresult) (to_T qsqrt : Q -> Q).

(** fitting.py:1263-1332: the averages and the final flags. [sd], [pd] are the
    sums over the objects and the PSFs. *)
Definition finish_row (d0 : row) (tot_nband : nat) (mdet_flags psf_flags : Z) (sd pd : sums) (fwhm_reg : Q)
  (band_flux band_flux_err : list num) (flux_flags : list Z) : row :=
  let psf_res :=
    if psf_flags =? 0 then
      Some (make_mom_res ng mk to_T qsqrt (vdiv (s_mom pd) (s_wgt pd)) (mdiv (s_cov pd) (s_wgt pd * s_wgt pd))
              (ndiv (s_flux pd) (Some (s_wgt pd))) (ndiv (s_flux_var pd) (Some (s_wgt pd * s_wgt pd)%Q)) 0)
    else None in
  let psf_flags := match psf_res with Some r => Z.lor psf_flags (m_flags r) | None => psf_flags end in
  let psf_g := match psf_res with Some r => (m_e1 r, m_e2 r) | None => o_psf_g d0 end in
  let psf_T := match psf_res with Some r => m_T r | None => o_psf_T d0 end in
  let obj_res :=
    if mdet_flags =? 0 then
      Some (make_mom_res ng mk to_T qsqrt (vdiv (s_mom sd) (s_wgt sd)) (mdiv (s_cov sd) (s_wgt sd * s_wgt sd))
              (ndiv (s_flux sd) (Some (s_wgt sd))) (ndiv (s_flux_var sd) (Some (s_wgt sd * s_wgt sd)%Q)) fwhm_reg)
    else None in
  let mdet_flags := match obj_res with Some r => Z.lor mdet_flags (m_flags r) | None => mdet_flags end in
  let T_ratio := match obj_res with
                 | Some r => if psf_flags =? 0 then ndiv (m_T r) psf_T else o_T_ratio d0
                 | None => o_T_ratio d0
                 end in
  let mdet_flags := if negb (psf_flags =? 0) then Z.lor mdet_flags (flag_value PSF_FAILURE) else mdet_flags in
  let pick {A} (f : momres -> A) (d : A) := match obj_res with Some r => f r | None => d end in
  mkRow (Z.lor mdet_flags (zor flux_flags)) psf_flags psf_g psf_T mdet_flags
    (pick m_s2n (o_s2n d0)) (pick (fun r => (m_e1 r, m_e2 r)) (o_g d0)) (pick m_ecov (o_g_cov d0))
    (pick m_T (o_T d0)) (pick m_T_flags (o_T_flags d0)) (pick m_T_err (o_T_err d0)) T_ratio
    (match tot_nband with O => [flag_value MISSING_BAND] | _ => flux_flags end)
    (match tot_nband with O => o_band_flux d0 | _ => band_flux end)
    (match tot_nband with O => o_band_flux_err d0 | _ => band_flux_err end)
    (o_shear_bands d0).

Definition combine_fit_results_wavg (all_res all_psf_res : list (option fitres)) (all_is_shear_band : list bool)
  (all_wgts : list Q) (all_flags : list Z) (shear_bands : list Z) (fwhm_reg : Q) : outcome row :=
  let tot_nband := List.length all_res in
  let nband := List.length (filter (fun b => b) all_is_shear_band) in
  let nonshear := List.length (filter negb all_is_shear_band) in
  do d0 <- get_wavg_output_struct ng tot_nband shear_bands;
  if Nat.eqb tot_nband 0 || Nat.eqb nband 0 || negb (Nat.eqb tot_nband (nband + nonshear))
     || negb (Nat.eqb (List.length all_psf_res) tot_nband && Nat.eqb (List.length all_is_shear_band) tot_nband
              && Nat.eqb (List.length all_wgts) tot_nband && Nat.eqb (List.length all_flags) tot_nband)
  then
    let f := if Nat.eqb nband 0 || Nat.eqb tot_nband 0 then flag_value MISSING_BAND
             else flag_value INCONSISTENT_BANDS in
    Ok (finish_row d0 tot_nband f f sums0 sums0 fwhm_reg
          (repeat None tot_nband) (repeat None tot_nband) (repeat f tot_nband))
  else
    let sd := sum_bands_wavg false
                (zip_bands all_wgts all_res all_is_shear_band all_flags all_res) in
    let pd := sum_bands_wavg true
                (zip_bands all_wgts all_psf_res all_is_shear_band all_flags all_res) in
    let differ := (s_flags sd =? 0) && (s_flags pd =? 0)
                  && negb (if list_eq_dec Bool.bool_dec (s_used sd) (s_used pd) then true else false) in
    let psf_flags := if differ then Z.lor (s_flags pd) (flag_value INCONSISTENT_BANDS) else s_flags pd in
    let mdet_flags := if differ then Z.lor (s_flags sd) (flag_value INCONSISTENT_BANDS) else s_flags sd in
    let cols := map (fun rf => band_flux_cols (fst rf) (snd rf)) (combine all_res all_flags) in
    Ok (finish_row d0 tot_nband mdet_flags psf_flags sd pd fwhm_reg
          (map (fun c => fst (fst c)) cols) (map (fun c => snd (fst c)) cols) (map snd cols)).

(** ** fitting.py:758-910, fitting one object *)

(** A fitter: its kind and its two entry points, for an object and for a PSF
    observation (fitter.go(obs), fitter.go(obs.psf, ...)); third party. *)
Record fitter := mkFitter {
  k_kind : string; k_go : fobs -> outcome fitres; k_go_psf : psfobs -> outcome fitres
}.
(** The dictionary returned by _fit_obs. *)
Record bandfit := mkBandfit { bf_flags : Z; bf_wgt : Q; bf_obj : option fitres; bf_psf : option fitres }.

(** fitting.py:862-910. *)
Definition fit_obs (o : fobs) (ft : fitter) (bmask_flags : Z) (symmetrize : bool) : outcome bandfit :=
  do o <- (if symmetrize then symmetrize_obs_weights o else Ok o);
  let f1 := if negb (any_pixel qpos (f_weight o)) then flag_value ZERO_WEIGHTS else 0 in
  match f_bmask o with
  | None => Raise AttributeError
  | Some bm =>
    let f2 := if any_pixel (fun v => negb (Z.land v bmask_flags =? 0)) bm
              then Z.lor f1 (flag_value EDGE_HIT) else f1 in
    if negb (f2 =? 0) then Ok (mkBandfit f2 0 None None)
    else
      do r <- k_go ft o;
      match f_psf o with
      | None => Raise AttributeError
      | Some p =>
        do pr <- k_go_psf ft p;
        Ok (mkBandfit 0 (match qmedian (positive_of (f_weight o)) with Some m => m | None => 0%Q end)
              (Some r) (Some pr))
      end
  end.

(** fitting.py:837-859. *)
Definition fit_obslist (ol : list fobs) (ft : fitter) (bmask_flags : Z) (symmetrize : bool) : outcome bandfit :=
  match ol with
  | [] => Ok (mkBandfit (flag_value MISSING_BAND) 0 None None)
  | o :: _ => fit_obs o ft bmask_flags symmetrize
  end.

(** fitting.py:758-834. *)
Definition fit_mbobs_wavg (mbobs : list (list fobs)) (ft : fitter) (bmask_flags : Z)
  (shear_bands : option (list Z)) (fwhm_reg : Q) (symmetrize : bool) : outcome row :=
  let nband := List.length mbobs in
  let sb := match shear_bands with Some l => l | None => zrange (zlen mbobs) end in
  if String.eqb (k_kind ft) "am" && negb (Nat.eqb nband 1) then Raise AssertionError
  else
    do fits <- omap (fun ol => fit_obslist ol ft bmask_flags symmetrize) mbobs;
    combine_fit_results_wavg (map bf_obj fits) (map bf_psf fits)
      (map (fun b => existsb (Z.eqb b) sb) (zrange (zlen mbobs)))
      (map bf_wgt fits) (map bf_flags fits) sb fwhm_reg.

(** fitting.py:703-755: None for an empty list, otherwise the stacked rows. *)
Definition fit_mbobs_list_wavg (mbobs_list : list (list (list fobs))) (ft : fitter) (bmask_flags : Z)
  (shear_bands : option (list Z)) (fwhm_reg : Q) (symmetrize : bool) : outcome (option (list row)) :=
  do rows <- omap (fun m => fit_mbobs_wavg m ft bmask_flags shear_bands fwhm_reg symmetrize) mbobs_list;
  match rows with [] => Ok None | _ => Ok (Some rows) end.

End Combine.
