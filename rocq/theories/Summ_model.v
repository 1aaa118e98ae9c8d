(** Model of the summary helpers of metadetect/metadetect.py (masked fraction
    image, combined masks, mask columns, PSF columns) and of fit_all_psfs in
    metadetect/fitting.py. Exact rationals replace float values. *)
From Coq Require Import ZArith QArith Qround List String Bool.
From Verif Require Import Base Arr Median Flags_model.
Import ListNotations.
Local Open Scope Z_scope.

(** What these helpers read of one observation. The masked fraction plane is
    optional (hasattr test). *)
Record sobs := mkSobs {
  so_weight : img Q; so_mfrac : option (img Q); so_bmask : img Z; so_ormask : img Z
}.

Definition positive_pixels (w : img Q) : list Q :=
  filter (fun v => negb (Qle_bool v 0)) (pixels w).

(** metadetect.py:218-223: the weight of a band. *)
Definition band_weight (o : sobs) : Q :=
  match qmedian (positive_pixels (so_weight o)) with
  | Some m => m
  | None => 0%Q      (* not np.any(msk) *)
  end.

(** The only epoch of a band (metadetect.py:214-217, 194-197). *)
Definition single_epoch {A} (obslist : list A) : outcome A :=
  match obslist with
  | [o] => Ok o
  | _ => Raise AssertionError
  end.

(** metadetect.py:207-232. Simplification: all planes have the shape of the
    first image, taken here from the first weight map. *)
Definition get_mfrac (mbobs : list (list sobs)) : outcome (img Q) :=
  match mbobs with
  | (o0 :: _) :: _ =>
    do obs <- omap single_epoch mbobs;
    let shape_r := nr (so_weight o0) in
    let shape_c := nc (so_weight o0) in
    let wgts := map band_weight obs in
    let mfrac := fold_left (fun acc o =>
        match so_mfrac o with
        | Some mf => imap2 (fun a m => (a + m * band_weight o)%Q) acc mf
        | None => acc
        end) obs (ifill shape_r shape_c 0%Q) in
    if negb (Qle_bool (qsum wgts) 0) then Ok (imap (fun v => (v / qsum wgts)%Q) mfrac)
    else Ok (imap (fun _ => 1%Q) mfrac)
  | _ => Raise IndexError
  end.

(** metadetect.py:187-205. *)
Definition get_ormask_and_bmask (mbobs : list (list sobs)) : outcome (img Z * img Z) :=
  do obs <- omap single_epoch mbobs;
  match obs with
  | [] => Raise UnboundLocalError
  | o0 :: rest =>
    Ok (fold_left (fun acc o => (imap2 Z.lor (fst acc) (so_ormask o), imap2 Z.lor (snd acc) (so_bmask o)))
                  rest (so_ormask o0, so_bmask o0))
  end.

(** numpy.rint: nearest integer, ties to even. *)
Definition qrint (q : Q) : Z :=
  let f := Qfloor q in
  let d := (q - inject_Z f)%Q in
  if Qle_bool (1 # 2) d then
    if Qle_bool d (1 # 2) then (if Z.even f then f else f + 1) else f + 1
  else f.

(** metadetect.py:880-890. nan positions are not modelled. *)
Definition clip_and_round (x : Q) (dim : Z) : Z := Z.min (Z.max (qrint x) 0) (dim - 1).

(** metadetect.py:893-922, one object; mask_region is an integer. Overflow
    of int32 is not modelled; it cannot occur (C114). *)
Definition fill_in_mask (mask_region : Z) (row col : Q) (mask : img Z) : outcome Z :=
  let rclip := clip_and_round row (nr mask) in
  let cclip := clip_and_round col (nc mask) in
  if 1 <? mask_region then
    let lr := Z.min (nr mask - 1) (Z.max 0 (rclip - mask_region)) in
    let ur := Z.min (nr mask - 1) (Z.max 0 (rclip + mask_region)) in
    let lc := Z.min (nc mask - 1) (Z.max 0 (cclip - mask_region)) in
    let uc := Z.min (nc mask - 1) (Z.max 0 (cclip + mask_region)) in
    Ok (fold_left Z.lor (pixels (slice mask lr (ur + 1) lc (uc + 1))) 0)
  else
    if (0 <=? rclip) && (rclip <? nr mask) && ((0 <=? cclip) && (cclip <? nc mask))
    then Ok (px mask rclip cclip) else Raise IndexError.
Definition fill_in_mask_col (mask_region : Z) (pos : list (Q * Q)) (mask : img Z) : outcome (list Z) :=
  omap (fun rc => fill_in_mask mask_region (fst rc) (snd rc) mask) pos.

(** ** PSF columns *)

(** A PSF measurement result: the keys read at metadetect.py:842-847. *)
Record psfres := mkPsfres {
  pr_flags : Z; pr_T : option Q; pr_e : option (Q * Q); pr_g : option (Q * Q)
}.

(** One observation: largest weight and the stored PSF result (meta['result'],
    absent before a fit). *)
Record pobs := mkPobs { po_maxw : Q; po_result : option psfres }.

(** fitting.py:669-700. The runner is third party: [fit] gives its result for
    the k-th band. The results are stored in the observations; the exception
    stops at the first failure. *)
Fixpoint fit_all_psfs_from (fit : nat -> psfres) (k : nat) (mbobs : list (list pobs))
  : list (list pobs) * outcome unit :=
  match mbobs with
  | [] => ([], Ok tt)
  | [o] :: rest =>
    let res := fit k in
    let ol := [mkPobs (po_maxw o) (Some res)] in
    if negb (pr_flags res =? 0) then (ol :: rest, Raise BootPSFFailure)
    else let '(r, e) := fit_all_psfs_from fit (S k) rest in (ol :: r, e)
  | _ => (mbobs, Raise AssertionError)
  end.
Definition fit_all_psfs (fit : nat -> psfres) (mbobs : list (list pobs)) :=
  fit_all_psfs_from fit O mbobs.

(** metadetect.py:840-851: sums over the observations. *)
Definition add_psf (s : Q * Q * Q * Q) (o : pobs) : outcome (Q * Q * Q * Q) :=
  let '(g1s, g2s, ts, ws) := s in
  let wt := po_maxw o in
  match po_result o with
  | None => Raise KeyError
  | Some r =>
    match pr_T r with
    | None => Raise KeyError
    | Some T =>
      match (match pr_e r with Some e => Some e | None => pr_g r end) with
      | None => Raise KeyError
      | Some (g1, g2) => Ok (g1s + g1 * wt, g2s + g2 * wt, ts + T * wt, ws + wt)%Q
      end
    end
  end.

(** The PSF columns; None is nan. *)
Record psf_stats := mkStats { ps_flags : Z; ps_g1 : option Q; ps_g2 : option Q; ps_T : option Q }.

(** metadetect.py:828-877. *)
Definition get_psf_stats (mbobs : list (list pobs)) (global_flags : Z) : outcome psf_stats :=
  if negb (global_flags =? 0) then
    Ok (mkStats (Z.lor (flag_value PSF_FAILURE) global_flags) None None None)
  else
    do s <- ofold add_psf (List.concat mbobs) (0, 0, 0, 0)%Q;
    let '(g1s, g2s, ts, ws) := s in
    if Qle_bool ws 0 then Ok (mkStats (flag_value PSF_FAILURE) None None None)
    else Ok (mkStats 0 (Some (g1s / ws)) (Some (g2s / ws)) (Some (ts / ws)))%Q.

(** metadetect.py:519-524, 541-545: the PSFs are fitted, a failure becomes the
    global flag, then the columns are computed for the shear bands. *)
Definition psf_columns (fit : nat -> psfres) (mbobs : list (list pobs)) (shear_bands : list Z)
  : outcome psf_stats :=
  let '(mbobs, r) := fit_all_psfs fit mbobs in
  do fl <- match r with
           | Ok _ => Ok 0
           | Raise BootPSFFailure => Ok (flag_value PSF_FAILURE)
           | Raise e => Raise e
           end;
  do sel <- omap (py_index mbobs) shear_bands;
  get_psf_stats sel fl.
