(** Model of metadetect/fitting.py: weight symmetrization and the coadd of the
    bands of one object. Exact rationals replace floats. *)
From Coq Require Import ZArith QArith List String Bool.
From Verif Require Import Base Arr Median Flags_model.
Import ListNotations.
Local Open Scope Z_scope.

(** An ngmix observation of a PSF and of an object stamp: the planes read by
    fitting.py. Optional planes are the ones tested with has_*. Jacobians are
    identified by their repr, here a number. The meta dictionaries are not
    modelled. *)
Record psfobs := mkPsf { p_image : img Q; p_weight : img Q; p_jac : Z }.
Record fobs := mkFobs {
  f_image : img Q; f_weight : img Q; f_jac : Z; f_psf : option psfobs;
  f_mfrac : option (img Q); f_noise : option (img Q);
  f_bmask : option (img Z); f_ormask : option (img Z)
}.
Definition with_weight (o : fobs) (w : img Q) : fobs :=
  mkFobs (f_image o) w (f_jac o) (f_psf o) (f_mfrac o) (f_noise o) (f_bmask o) (f_ormask o).

Definition qpos (q : Q) : bool := negb (Qle_bool q 0).
Definition any_pixel {A} (p : A -> bool) (im : img A) : bool := existsb p (pixels im).
Definition all_pixels {A} (p : A -> bool) (im : img A) : bool := forallb p (pixels im).

(** fitting.py:1415-1440. A weight map that is not square and has a
    non-positive weight makes the boolean index fail (IndexError). *)
Definition zero_where (w m : img Q) : img Q :=
  imap2 (fun a b => if Qle_bool b 0 then 0%Q else a) w m.
Definition symmetrize_obs_weights (o : fobs) : outcome fobs :=
  let w := f_weight o in
  if any_pixel (fun v => Qle_bool v 0) w then
    if nr w =? nc w then
      Ok (with_weight o (zero_where (zero_where (zero_where w (rot90 w)) (rot180 w)) (rot270 w)))
    else Raise IndexError
  else Ok o.

(** The median of the positive weights of a stamp (fitting.py:567-573). *)
Definition positive_of (w : img Q) : list Q := filter qpos (pixels w).

(** The first observation of a band, [mbobs[b][0]]. *)
Definition band_obs (mbobs : list (list fobs)) (b : Z) : outcome fobs :=
  do l <- py_index mbobs b; py_index l 0.

(** fitting.py:545-561: the same jacobian, image shape, PSF jacobian and PSF
    image shape; both have a PSF. *)
Definition same_dims {A B} (a : img A) (b : img B) : bool := (nr a =? nr b) && (nc a =? nc b).
Definition consistent (fo o : fobs) : bool :=
  (f_jac fo =? f_jac o) && same_dims (f_image fo) (f_image o) &&
  match f_psf fo, f_psf o with
  | Some p, Some q => (p_jac p =? p_jac q) && same_dims (p_image p) (p_image q)
  | _, _ => false
  end.

(** fitting.py:563-575: the averaging weights, None when a band has no positive
    weight. *)
Fixpoint coadd_weights (obs : list fobs) : option (list Q) :=
  match obs with
  | [] => Some []
  | o :: r =>
    match qmedian (positive_of (f_weight o)) with
    | None => None
    | Some m => match coadd_weights r with Some l => Some (m :: l) | None => None end
    end
  end.
Definition normalized (ws : list Q) : list Q := map (fun w => (w / qsum ws)%Q) ws.

(** fitting.py:577-606: a weighted sum of one plane, starting from zeros with
    the shape of the first observation. [get] is None when the plane is absent,
    which adds nothing. *)
Definition wsum_plane (shape : img Q) (get : fobs -> option (img Q)) (ow : list (fobs * Q)) : img Q :=
  fold_left (fun acc x =>
      match get (fst x) with
      | Some p => imap2 (fun a v => (a + snd x * v)%Q) acc p
      | None => acc
      end) ow (ifill (nr shape) (nc shape) 0%Q).
Definition or_plane (shape : img Q) (get : fobs -> option (img Z)) (obs : list fobs) : img Z :=
  fold_left (fun acc o =>
      match get o with Some p => imap2 Z.lor acc p | None => acc end)
    obs (ifill (nr shape) (nc shape) 0).
Definition count_plane {A} (get : fobs -> option A) (obs : list fobs) : Z :=
  zlen (filter (fun o => match get o with Some _ => true | None => false end) obs).

(** fitting.py:600, 618-622: variances are accumulated with wgt**2 / weight, an
    input weight 0 gives infinity (None); the inverse of infinity is 0 and the
    inverse of 0, which is infinite, is replaced by 0. *)
Definition add_var (acc : option Q) (x : Q * Q) : option Q :=
  match acc with
  | None => None
  | Some v => if Qeq_bool (fst x) 0 then None else Some (v + snd x * snd x / fst x)%Q
  end.
Definition inv_var (v : option Q) : Q :=
  match v with
  | None => 0%Q
  | Some v => if Qeq_bool v 0 then 0%Q else (1 / v)%Q
  end.
Definition coadd_weight (shape : img Q) (ow : list (fobs * Q)) : img Q :=
  mkImg (nr shape) (nc shape)
    (fun i j => inv_var (fold_left add_var (map (fun x => (px (f_weight (fst x)) i j, snd x)) ow) (Some 0%Q))).

(** The result of make_coadd_obs: maybe an observation, and the flags. *)
Definition coadd_result := (option fobs * Z)%type.

(** fitting.py:524-661. psf_weight: 1/psf_nse**2 with psf_nse =
    sqrt(sum(psf**2))/1000, so 10^6 / sum(psf**2) everywhere; an all zero PSF is
    not treated specially. *)
Definition psf_image_of (o : fobs) : option (img Q) :=
  match f_psf o with Some p => Some (p_image p) | None => None end.
Definition in0n (n : Z) (l : Z) : bool := (n =? 0) || (n =? l).
Definition coadd_many (obs : list fobs) (fo : fobs) (fp : psfobs) : coadd_result :=
  match coadd_weights obs with
  | None => (None, flag_value ZERO_WEIGHTS)
  | Some ws =>
    let ow := combine obs (normalized ws) in
    let shape := f_image fo in
    let n := zlen obs in
    let weight := coadd_weight (f_weight fo) ow in
    let psf_image := wsum_plane (p_image fp) psf_image_of ow in
    if all_pixels (fun w => Qeq_bool w 0) weight then (None, flag_value ZERO_WEIGHTS)
    else if negb (in0n (count_plane f_mfrac obs) n && in0n (count_plane f_noise obs) n
                  && in0n (count_plane f_bmask obs) n && in0n (count_plane f_ormask obs) n)
    then (None, flag_value INCONSISTENT_BANDS)
    else
      let psf := mkPsf psf_image
                   (imap (fun _ => (1000000 / qsum (map (fun v => v * v)%Q (pixels psf_image)))%Q) psf_image)
                   (p_jac fp) in
      (Some (mkFobs
         (wsum_plane shape (fun o => Some (f_image o)) ow) weight (f_jac fo) (Some psf)
         (if 0 <? count_plane f_mfrac obs then Some (wsum_plane shape f_mfrac ow) else None)
         (if 0 <? count_plane f_noise obs then Some (wsum_plane shape f_noise ow) else None)
         (if 0 <? count_plane f_bmask obs then Some (or_plane shape f_bmask obs) else None)
         (if 0 <? count_plane f_ormask obs then Some (or_plane shape f_ormask obs) else None)), 0)
  end.
(** fitting.py:548-561: compare the other shear bands with the first, in order,
    stopping at the first inconsistent one. *)
Fixpoint all_consistent (mbobs : list (list fobs)) (fo : fobs) (rest : list Z) : outcome bool :=
  match rest with
  | [] => Ok true
  | b :: r => do o <- band_obs mbobs b;
              if consistent fo o then all_consistent mbobs fo r else Ok false
  end.
Definition make_coadd_obs (mbobs : list (list fobs)) (shear_bands : list Z) : outcome coadd_result :=
  let nbands := zlen mbobs in
  if nbands =? 1 then
    do s0 <- py_index shear_bands 0;
    if s0 =? 0 then (do o <- band_obs mbobs 0; Ok (Some o, 0))
    else Ok (None, flag_value INCONSISTENT_BANDS)
  else match shear_bands with
  | [s] =>
    if s <? nbands then (do o <- band_obs mbobs s; Ok (Some o, 0))
    else Ok (None, flag_value INCONSISTENT_BANDS)
  | _ =>
    if existsb (fun s => nbands <=? s) shear_bands then Ok (None, flag_value INCONSISTENT_BANDS)
    else
      do s0 <- py_index shear_bands 0;
      do fo <- band_obs mbobs s0;
      do ok <- all_consistent mbobs fo (tl shear_bands);
      if negb ok then Ok (None, flag_value INCONSISTENT_BANDS)
      else
        do obs <- omap (band_obs mbobs) shear_bands;
        match f_psf fo with
        | None => Raise AttributeError
        | Some fp => Ok (coadd_many obs fo fp)
        end
  end.
