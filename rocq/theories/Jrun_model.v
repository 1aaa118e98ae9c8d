(** Model of the runners of the Gaussian fit in metadetect/fitting.py (lines
    213-300), of their choice in fit_mbobs_gauss (105-119) and of the list
    fitter that makes them once for all objects (334-368). The random number
    generator the runners share is in Mrng_model. *)
From Coq Require Import ZArith QArith List String Bool.
From Verif Require Import Base Arr Median Flags_model Coadd_model Wavg_model Joint_model.
Import ListNotations.
Local Open Scope string_scope.
Local Open Scope Z_scope.

(** ngmix.priors.TwoSidedErf(minval, width_at_min, maxval, width_at_max) *)
Record erf := mkErf { e_min : Q; e_width_min : Q; e_max : Q; e_width_max : Q }.
(** ngmix.joint_prior.PriorSimpleSep: the centre and its widths, the width of
    GPriorBA, the prior of the size, one prior of the flux for each band. *)
Record prior := mkPrior { pr_cen : Q * Q; pr_sigma : Q * Q; pr_g : Q; pr_T : erf; pr_F : list erf }.
(** A runner of the object: the prior, the limits of the fitter, the guess of the
    size and the number of tries. *)
Record runner := mkRunner { ru_prior : prior; ru_maxfev : Z; ru_xtol : Q; ru_ftol : Q; ru_T : Q; ru_ntry : Z }.
(** A runner of the psf. *)
Record psf_runner := mkPsfRunner { pu_from_moms : bool; pu_maxfev : Z; pu_xtol : Q; pu_ftol : Q; pu_ntry : Z }.

(** fitting.py:261-300, _make_ml_prior *)
Definition make_ml_prior (scale : Q) (nband : nat) : prior :=
  mkPrior (0, 0)%Q (scale, scale) (3 # 10)
    (mkErf (-10 # 1) (3 # 100) (1000000 # 1) (100000 # 1))
    (repeat (mkErf (-10000 # 1) (1 # 1) (1000000000 # 1) (25000000 # 1)) nband).
(** fitting.py:234-258, get_gauss_obj_runner *)
Definition get_gauss_obj_runner (nband : nat) (scale : Q) : runner :=
  mkRunner (make_ml_prior scale nband) 2000 (5 # 100000) (5 # 100000) (25 # 100) 2.
(** fitting.py:213-231, get_gauss_psf_runner *)
Definition get_gauss_psf_runner : psf_runner := mkPsfRunner true 2000 (1 # 100000) (1 # 100000) 2.

Section Fit.
(** [scale_of]: jacobian.get_scale() of a jacobian; [go]: ngmix's bootstrap with the
    two runners. *)
Variables (ng : ngcodes) (scale_of : Z -> Q) (go : runner -> psf_runner -> list (list fobs) -> bootout).

(** fitting.py:105-127: the call inside the try. The default object runner reads
    shear_mbobs[0][0]; without such a stamp that is an IndexError, which the last
    except clause takes. *)
Definition bootstrap (obj : option runner) (psf : option psf_runner) (mb : list (list fobs)) : bootout :=
  let p := match psf with Some p => p | None => get_gauss_psf_runner end in
  match obj with
  | Some r => go r p mb
  | None => match mb with
            | (o :: _) :: _ => go (get_gauss_obj_runner (List.length mb) (scale_of (f_jac o))) p mb
            | _ => BootOther
            end
  end.
(** fitting.py:31-196 *)
Definition fit_gauss (mbobs : list (list fobs)) (bmask_flags : Z) (shear_bands : option (list Z))
    (obj : option runner) (psf : option psf_runner) (coadd : bool) : outcome row :=
  fit_mbobs_gauss ng (bootstrap obj psf) mbobs bmask_flags shear_bands coadd.

(** fitting.py:338-350: the keyword arguments for all objects, from the first
    stamp of the first band of the first object. *)
Definition list_runners (mbobs_list : list (list (list fobs))) (shear_bands : option (list Z)) (coadd : bool)
  : option runner * option psf_runner :=
  match mbobs_list with
  | (((o :: _) :: _) as first) :: _ =>
    let nband := if coadd then 1%nat
                 else match shear_bands with None => List.length first | Some l => List.length l end in
    (Some (get_gauss_obj_runner nband (scale_of (f_jac o))), Some get_gauss_psf_runner)
  | _ => (None, None)
  end.
(** fitting.py:302-369 for fitter_name "gauss". *)
Definition fit_list_gauss (mbobs_list : list (list (list fobs))) (bmask_flags : Z) (shear_bands : option (list Z))
    (coadd : bool) : outcome (option (list row)) :=
  let '(obj, psf) := list_runners mbobs_list shear_bands coadd in
  do rows <- omap (fun m => fit_gauss m bmask_flags shear_bands obj psf coadd) mbobs_list;
  match rows with [] => Ok None | _ => Ok (Some rows) end.
End Fit.
