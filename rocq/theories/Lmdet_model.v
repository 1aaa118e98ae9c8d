(** Model of metadetect/lsst/metadetect.py: the masks, masked fractions and
    original PSF columns that MetadetectTask.run adds to the tables of the
    sheared images. Exact rationals replace floats (the stored float32
    rounding of row and col is not modelled). *)
From Coq Require Import ZArith QArith Qround List String Bool.
From Verif Require Import Base Arr Median Flags_model.
Import ListNotations.
Local Open Scope string_scope.
Local Open Scope Z_scope.

(** One row of the table of measure.measure: the columns that are read or set
    here; [l_id] stands for all the others. psfrec_* are the original PSF. *)
Record psfrec := mkPr { pr_flags : Z; pr_navg : Z; pr_g1 : Q; pr_g2 : Q; pr_T : Q }.
Record lrow := mkLrow {
  l_id : Z; l_row : Q; l_col : Q; l_row0 : Z; l_col0 : Z;
  l_ormask : Z; l_mfrac : option Q; l_psfrec : option psfrec
}.
Definition with_ormask (x : lrow) (v : Z) : lrow :=
  mkLrow (l_id x) (l_row x) (l_col x) (l_row0 x) (l_col0 x) v (l_mfrac x) (l_psfrec x).
Definition with_mfrac (x : lrow) (v : option Q) : lrow :=
  mkLrow (l_id x) (l_row x) (l_col x) (l_row0 x) (l_col0 x) (l_ormask x) v (l_psfrec x).
Definition with_psfrec (x : lrow) (v : psfrec) : lrow :=
  mkLrow (l_id x) (l_row x) (l_col x) (l_row0 x) (l_col0 x) (l_ormask x) (l_mfrac x) (Some v).

(** ** metadetect.py:457-473, combine_ormasks *)

(** ormask |= other: arrays of different shapes are a ValueError (numpy would
    also repeat axes of length one of [other]; not modelled). *)
Definition or_into (acc m : img Z) : outcome (img Z) :=
  if (nr acc =? nr m) && (nc acc =? nc m) then Ok (imap2 Z.lor acc m) else Raise ValueError.
(** [dims]: the shape of the first band. An empty list leaves the local variable
    unset. *)
Definition combine_ormasks (dims : Z * Z) (ormasks : option (list (img Z))) : outcome (img Z) :=
  match ormasks with
  | None => Ok (ifill (fst dims) (snd dims) 0)
  | Some [] => Raise UnboundLocalError
  | Some (m :: r) => ofold or_into r m
  end.

(** ** metadetect.py:433-444, add_ormask *)

(** int(np.floor(x + 0.5)) *)
Definition nearest (x : Q) : Z := Qfloor (x + (1 # 2)).
(** a[i, j] with integers: negative indices count from the end. *)
Definition np_get {A} (im : img A) (i j : Z) : outcome A :=
  let i := if i <? 0 then i + nr im else i in
  let j := if j <? 0 then j + nc im else j in
  if insideb im i j then Ok (px im i j) else Raise IndexError.
Definition local_row (x : lrow) : Q := (l_row x - inject_Z (l_row0 x))%Q.
Definition local_col (x : lrow) : Q := (l_col x - inject_Z (l_col0 x))%Q.
Definition add_ormask (ormask : img Z) (res : list lrow) : outcome (list lrow) :=
  omap (fun x => do v <- np_get ormask (nearest (local_row x)) (nearest (local_col x)); Ok (with_ormask x v)) res.

(** ** metadetect.py:446-454, add_original_psf *)
Definition add_original_psf (p : psfrec) (res : list lrow) : list lrow := map (fun x => with_psfrec x p) res.

(** ** metadetect.py:476-513, get_mfrac_mbexp *)

(** A variance is a number or +infinity (None). *)
Definition good_vars (v : img (option Q)) : list Q :=
  flat_map (fun v => match v with Some q => if Qle_bool q 0 then [] else [q] | None => [] end) (pixels v).
(** 1/median of the finite positive variances. *)
Definition band_wgt (v : img (option Q)) : outcome Q :=
  match qmedian (good_vars v) with Some m => Ok (1 / m)%Q | None => Raise ValueError end.
Definition scale (w : Q) (m : img Q) : img Q := imap (fun v => (w * v)%Q) m.
Definition add_img (a b : img Q) : outcome (img Q) :=
  if (nr a =? nr b) && (nc a =? nc b) then Ok (imap2 Qplus a b) else Raise ValueError.
(** The pairs (variance, mfrac image) of the bands; zip stops at the shorter
    list. Returns the sum so far and the weights. *)
Fixpoint sum_mfracs (l : list (img (option Q) * img Q)) (acc : option (img Q)) : outcome (option (img Q) * list Q) :=
  match l with
  | [] => Ok (acc, [])
  | (v, m) :: r =>
    do w <- band_wgt v;
    do a <- match acc with None => Ok (scale w m) | Some a => add_img a (scale w m) end;
    do s <- sum_mfracs r (Some a);
    Ok (fst s, w :: snd s)
  end.
(** Iterating over None is a TypeError. Without bands the sum of the weights is the
    number 0.0, and 1.0 / 0.0 is a ZeroDivisionError. *)
Definition get_mfrac_mbexp (vars : list (img (option Q))) (mfracs : option (list (img Q))) : outcome (img Q * list Q) :=
  match mfracs with
  | None => Raise TypeError
  | Some ms =>
    do s <- sum_mfracs (combine vars ms) None;
    match fst s with
    | None => Raise ZeroDivisionError
    | Some a => Ok (imap (fun v => (v * (1 / qsum (snd s)))%Q) a, snd s)
    end
  end.

(** ** metadetect.py:340-430, measure_weighted_mfrac *)

(** ngmix's get_weighted_sums: [W dr dc] is the weight of a pixel at offset
    (dr, dc) in rows and columns from the centre, 0 beyond maxrad; the weighted
    mean sums[5]/wsum, None when the weights sum to 0 (not a number). *)
Definition weighted_mean (W : Q -> Q -> Q) (im : img Q) (crow ccol : Q) : option Q :=
  let w ij := W (inject_Z (fst ij) - crow)%Q (inject_Z (snd ij) - ccol)%Q in
  let cs := coords (nr im) (nc im) in
  let wsum := qsum (map w cs) in
  if Qeq_bool wsum 0 then None
  else Some (qsum (map (fun ij => w ij * px im (fst ij) (snd ij))%Q cs) / wsum)%Q.
(** One object; [rad] is box_rad, int(round(5 sigma)). The first slice has the
    bounds of x. *)
Definition weighted_mfrac (W : Q -> Q -> Q) (rad : Z) (mfrac : img Q) (x y : Q) : option Q :=
  let ix := nearest x in
  let iy := nearest y in
  let xstart := Z.max 0 (ix - rad) in
  let ystart := Z.max 0 (iy - rad) in
  let xend := Z.min (nc mfrac) (ix + rad + 1) in
  let yend := Z.min (nr mfrac) (iy + rad + 1) in
  let sub := slice mfrac xstart xend ystart yend in
  if (nr sub * nc sub =? 0) then Some 1%Q
  else weighted_mean W sub (y - inject_Z ystart)%Q (x - inject_Z xstart)%Q.

(** ** metadetect.py:314-337, add_mfrac *)
Definition add_mfrac (W : Q -> Q -> Q) (rad : Z) (mfrac : img Q) (res : list lrow) : list lrow :=
  if existsb (fun v => negb (Qle_bool v 0)) (pixels mfrac)
  then map (fun x => with_mfrac x (weighted_mfrac W rad mfrac (local_col x) (local_row x))) res
  else map (fun x => with_mfrac x (Some 0%Q)) res.

(** ** metadetect.py:516-655, fit_original_psfs_mbexp *)

(** What fitting the PSF of one band does: a result with its flags, or an
    exception (GMixFatalError stands for GMixRangeError). Drawing the PSF image
    and the jacobian are part of this. *)
Record psffit := mkPf { pf_flags : Z; pf_e1 : Q; pf_e2 : Q; pf_T : Q }.
Record psums := mkPs { ps_navg : Z; ps_w : Q; ps_e1 : Q; ps_e2 : Q; ps_T : Q }.
Definition psums0 : psums := mkPs 0 0 0 0 0.
Definition psf_add (s : psums) (w : Q) (f : psffit) : psums :=
  mkPs (ps_navg s + 1) (ps_w s + w) (ps_e1 s + pf_e1 f * w) (ps_e2 s + pf_e2 f * w) (ps_T s + pf_T f * w).
(** The loop: the sums when it ended and how it ended. *)
Fixpoint psf_loop (shear : list Z) (l : list (Z * outcome psffit * Q)) (s : psums) : psums * outcome unit :=
  match l with
  | [] => (s, Ok tt)
  | (iband, fit, w) :: r =>
    match fit with
    | Raise e => (s, Raise e)
    | Ok f =>
      if negb (pf_flags f =? 0) then (s, Raise BootPSFFailure)
      else psf_loop shear r (if existsb (Z.eqb iband) shear then psf_add s w f else s)
    end
  end.
Record psfstats := mkPst {
  st_flags : Z; st_navg : Z; st_e1 : Q; st_e2 : Q; st_g1 : Q; st_g2 : Q; st_T : Q; st_perband : bool
}.
(** [to_g]: ngmix.shape.e1e2_to_g1g2, None when it raises GMixRangeError. The
    bodies of try and except, the local variables g1, g2 and the assertion: *)
Definition fit_original_psfs (to_g : Q -> Q -> option (Q * Q)) (shear : list Z) (fits : list (outcome psffit)) (wgts : list Q)
  : outcome psfstats :=
  if negb (zlen wgts =? zlen fits) then Raise AssertionError
  else
    let '(s, r) := psf_loop shear (combine (combine (zrange (zlen fits)) fits) wgts) psums0 in
    (* the value of (flags, e1, e2, T, g, perband) after the try statement; g is
       None when g1 and g2 have no value *)
    do v <- match r with
            | Ok _ =>
              if Qle_bool (ps_w s) 0 then Raise ValueError
              else
                let e1 := (ps_e1 s / ps_w s)%Q in let e2 := (ps_e2 s / ps_w s)%Q in let T := (ps_T s / ps_w s)%Q in
                match to_g e1 e2 with
                | Some g => Ok (0, e1, e2, T, Some g, true)
                | None => Ok (flag_value PSF_FAILURE, -9999 # 1, -9999 # 1, -9999 # 1, None, false)%Q
                end
            | Raise BootPSFFailure | Raise GMixFatalError =>
              Ok (flag_value PSF_FAILURE, -9999 # 1, -9999 # 1, -9999 # 1, None, false)%Q
            | Raise e => Raise e
            end;
    let '(flags, e1, e2, T, g, pb) := v in
    if negb (ps_navg s =? zlen shear) then Raise AssertionError
    else match g with
         | None => Raise UnboundLocalError
         | Some (g1, g2) => Ok (mkPst flags (ps_navg s) e1 e2 g1 g2 T pb)
         end.

(** ** metadetect.py:203-268, MetadetectTask.run *)

(** The parts that are modelled elsewhere, or third party. The metacal images
    are numbered in the order of the dictionary returned; [d_measure] is
    detect_deblend_and_measure on one of them. [d_sky]: subtracting the sky, when
    asked for. get_mfrac_mbexp reads the variances before the sky is
    subtracted; the sky subtraction does not change them. *)
Record drun := mkDrun {
  d_dims : Z * Z; d_ormasks : option (list (img Z));
  d_vars : list (img (option Q)); d_mfracs : option (list (img Q));
  d_sky : outcome unit;
  d_shear : list Z; d_psffits : list (outcome psffit); d_to_g : Q -> Q -> option (Q * Q);
  d_metacal : outcome (list (string * nat));
  d_measure : nat -> outcome (option (list lrow));
  d_W : Q -> Q -> Q; d_rad : Z
}.
Definition psfrec_of (p : psfstats) : psfrec := mkPr (st_flags p) (st_navg p) (st_g1 p) (st_g2 p) (st_T p).
Definition annotate (d : drun) (ormask : img Z) (mfrac : img Q) (p : psfstats) (res : list lrow) : outcome (list lrow) :=
  do r <- add_ormask ormask (add_mfrac (d_W d) (d_rad d) mfrac res);
  Ok (add_original_psf (psfrec_of p) r).
Definition task_run (d : drun) : outcome (list (string * option (list lrow)) * psfstats) :=
  do ormask <- combine_ormasks (d_dims d) (d_ormasks d);
  do mw <- get_mfrac_mbexp (d_vars d) (d_mfracs d);
  do _ <- d_sky d;
  do p <- fit_original_psfs (d_to_g d) (d_shear d) (d_psffits d) (snd mw);
  do mcal <- d_metacal d;
  do tabs <- omap (fun sm =>
      do res <- d_measure d (snd sm);
      match res with
      | None => Ok (fst sm, None)
      | Some rows => do rows' <- annotate d ormask (fst mw) p rows; Ok (fst sm, Some rows')
      end) mcal;
  Ok (tabs, p).
