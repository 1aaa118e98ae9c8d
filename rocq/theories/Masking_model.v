(** Model of metadetect/masking.py. Pixel values are real numbers (the code
    takes a square root on line 481); float64 rounding is not modelled. *)
From Coq Require Import ZArith QArith Reals List String Bool.
From Verif Require Import Base Arr Interp_model.
Import ListNotations.
Local Open Scope string_scope.
Local Open Scope Z_scope.

Definition Rltb (x y : R) : bool := if Rlt_dec x y then true else false.
Definition Reqb (x y : R) : bool := if Req_EM_T x y then true else false.

(** Python int() of a float: truncation toward zero. *)
Definition Rtrunc (x : R) : Z :=
  if Rltb x 0 then (- Int_part (- x))%Z else Int_part x.

(** masking.py:6-22. *)
Definition get_ap_range (ap_rad : R) : Z := Rtrunc (6 * ap_rad + 1 / 2)%R.

(** masking.py:427-443. *)
Definition ap_kern_kern (x m h : R) : R :=
  let y := ((x - m) / h + 3)%R in
  if Rltb y (-3) then 0%R
  else if Rltb 3 y then 1%R
  else (- 5 * y ^ 7 / 69984 + 7 * y ^ 5 / 2592 - 35 * y ^ 3 / 864 + 35 * y / 96 + 1 / 2)%R.

(** a[i, j] *= v *)
Definition mul_at (im : img R) (i j : Z) (v : R) : img R :=
  mkImg (nr im) (nc im)
        (fun a b => if (a =? i) && (b =? j) then (px im a b * v)%R else px im a b).

(** masking.py:60-73. *)
Definition build_square_apodization_mask (ap_rad : R) (ap_mask : img R) : img R :=
  let ap_range := get_ap_range ap_rad in
  let ny := nr ap_mask in
  let nx := nc ap_mask in
  let kern := fun k : Z => ap_kern_kern (IZR k) (IZR ap_range) ap_rad in
  let ap_mask := fold_left (fun m yx =>
      mul_at (mul_at m (fst yx) (snd yx) (kern (fst yx)))
             (ny - 1 - fst yx) (snd yx) (kern (fst yx)))
    (coords (Z.min (ap_range + 1) ny) nx) ap_mask in
  fold_left (fun m yx =>
      mul_at (mul_at m (fst yx) (snd yx) (kern (snd yx)))
             (fst yx) (nx - 1 - snd yx) (kern (snd yx)))
    (coords ny (Z.min (ap_range + 1) nx)) ap_mask.

(** An observation: the planes the masking code reads and writes. The noise and
    bmask planes are required by this code; mfrac is optional (hasattr test). *)
Record obs := mkObs {
  o_image : img R; o_noise : img R; o_weight : img R; o_bmask : img Z;
  o_mfrac : option (img R); o_ignore_zero_weight : bool
}.

(** A plane where the pixels selected by [msk] are replaced. *)
Definition upd_where {A} (msk : img bool) (f : Z -> Z -> A -> A) (im : img A) : img A :=
  mkImg (nr im) (nc im) (fun i j => if px msk i j then f i j (px im i j) else px im i j).

Definition img_all {A} (p : A -> bool) (im : img A) : bool :=
  forallb (fun ij => p (px im (fst ij) (snd ij))) (coords (nr im) (nc im)).
Definition img_any {A} (p : A -> bool) (im : img A) : bool :=
  existsb (fun ij => p (px im (fst ij) (snd ij))) (coords (nr im) (nc im)).

(** Leaving [with obs.writeable()] (ngmix, third party): the pixel list is
    rebuilt, which raises when zero weights are to be ignored and no weight is
    positive. *)
Definition exit_writeable (o : obs) : outcome obs :=
  if o_ignore_zero_weight o && negb (img_any (Rltb 0) (o_weight o))
  then Raise GMixFatalError else Ok o.

(** masking.py:55-57, 288-290, 214-216: weight[msk] = 0 and the flag. [all] is
    whether every pixel is masked. *)
Definition zero_weights (msk : img bool) (o : obs) : obs :=
  let izw := if img_all (fun b => b) msk then false else o_ignore_zero_weight o in
  let w := upd_where msk (fun _ _ _ => 0%R) (o_weight o) in
  let izw := if img_all (Reqb 0) w then false else izw in
  mkObs (o_image o) (o_noise o) w (o_bmask o) (o_mfrac o) izw.

(** masking.py:46-57, one observation. *)
Definition apodize_edge_obs (ap_mask : img R) (msk : img bool) (bit : Z) (o : obs)
  : outcome obs :=
  let mul := upd_where msk (fun i j v => (v * px ap_mask i j)%R) in
  let o := mkObs (mul (o_image o)) (mul (o_noise o)) (o_weight o)
                 (upd_where msk (fun _ _ v => Z.lor v bit) (o_bmask o))
                 (option_map (upd_where msk (fun _ _ _ => 1%R)) (o_mfrac o))
                 (o_ignore_zero_weight o) in
  exit_writeable (zero_weights msk o).

(** mbobs[0][0] *)
Definition first_obs (mbobs : list (list obs)) : outcome obs :=
  match mbobs with
  | (o :: _) :: _ => Ok o
  | _ => Raise IndexError
  end.

(** masking.py:25-57. Simplification: all images have the shape of the first. *)
Definition apply_apodization_corrections (mbobs : list (list obs)) (ap_rad : R) (bit : Z)
  : outcome (list (list obs)) :=
  do o0 <- first_obs mbobs;
  let ap_mask := build_square_apodization_mask ap_rad
                   (ifill (nr (o_image o0)) (nc (o_image o0)) 1%R) in
  let msk := imap (fun v => Rltb v 1) ap_mask in
  if img_any (fun b => b) msk
  then omap (omap (apodize_edge_obs ap_mask msk bit)) mbobs
  else Ok mbobs.

(** ** Foreground masks *)

(** One entry of the foreground catalogue: x (column), y (row), radius. *)
Record hole := mkHole { h_x : R; h_y : R; h_r : R }.

(** masking.py:393-424. *)
Definition intersects (row col rad : R) (nrows ncols : Z) : bool :=
  let low_row := (- rad)%R in
  let high_row := (IZR nrows + rad - 1)%R in
  let low_col := (- rad)%R in
  let high_col := (IZR ncols + rad - 1)%R in
  Rltb low_row row && Rltb row high_row && (Rltb low_col col && Rltb col high_col).

(** masking.py:487-527. The double loop over the pixels visits each pixel once
    and is written as one pixelwise update. *)
Definition do_mask_foreground (cat : list hole) (flag : Z) (bmask : img Z) : img Z :=
  fold_left (fun bm h =>
    let rad2 := (h_r h * h_r h)%R in
    if negb (intersects (h_y h) (h_x h) (h_r h) (nr bm) (nc bm)) then bm
    else mkImg (nr bm) (nc bm) (fun irow icol =>
           let rowdiff2 := ((h_y h - IZR irow) ^ 2)%R in
           let r2 := (rowdiff2 + (h_x h - IZR icol) ^ 2)%R in
           if Rltb r2 rad2 then Z.lor (px bm irow icol) flag else px bm irow icol))
    cat bmask.

(** masking.py:446-484 (same simplification). *)
Definition do_apodization_mask (cat : list hole) (ap_rad : R) (ap_mask : img R) : img R :=
  fold_left (fun am h =>
    let rad2 := (h_r h ^ 2)%R in
    if negb (intersects (h_y h) (h_x h) (h_r h) (nr am) (nc am)) then am
    else mkImg (nr am) (nc am) (fun iy ix =>
           let dy2 := ((IZR iy - h_y h) ^ 2)%R in
           let dr2 := ((IZR ix - h_x h) ^ 2 + dy2)%R in
           if Rltb dr2 rad2 then (px am iy ix * ap_kern_kern (sqrt dr2) (h_r h) ap_rad)%R
           else px am iy ix))
    cat ap_mask.

(** a op= numpy.rot90(a): needs a square array (masking.py:338, 388). numpy
    buffers the overlapping operand, so the rotation is that of the old array. *)
Definition symmetrize_with {A} (f : A -> A -> A) (im : img A) : outcome (img A) :=
  if nr im =? nc im then Ok (imap2 f im (rot90 im)) else Raise ValueError.

(** masking.py:293-340. *)
Definition make_foreground_bmask (cat : list hole) (nrows ncols : Z) (symmetrize : bool)
    (bit : Z) : outcome (img Z) :=
  let bmask := do_mask_foreground cat bit (ifill nrows ncols 0) in
  if symmetrize then symmetrize_with Z.lor bmask else Ok bmask.

(** masking.py:343-390. *)
Definition make_foreground_apodization_mask (cat : list hole) (nrows ncols : Z)
    (symmetrize : bool) (ap_rad : R) : outcome (img R) :=
  let ap_mask := do_apodization_mask cat ap_rad (ifill nrows ncols 1%R) in
  if symmetrize then symmetrize_with Rmult ap_mask else Ok ap_mask.

(** masking.py:279-290, one observation. *)
Definition apodize_obs (ap_mask : img R) (msk : img bool) (bit : Z) (o : obs) : outcome obs :=
  let o := mkObs (imap2 Rmult (o_image o) ap_mask) (imap2 Rmult (o_noise o) ap_mask)
                 (o_weight o)
                 (upd_where msk (fun _ _ v => Z.lor v bit) (o_bmask o))
                 (option_map (upd_where msk (fun _ _ _ => 1%R)) (o_mfrac o))
                 (o_ignore_zero_weight o) in
  exit_writeable (zero_weights msk o).

(** masking.py:255-290. *)
Definition apply_mask_apodize (mbobs : list (list obs)) (cat : list hole) (symmetrize : bool)
    (ap_rad : R) (bit : Z) : outcome (list (list obs)) :=
  do o0 <- first_obs mbobs;
  do ap_mask <- make_foreground_apodization_mask cat (nr (o_image o0)) (nc (o_image o0))
                  symmetrize ap_rad;
  let msk := imap (fun v => Rltb v 1) ap_mask in
  if img_any (fun b => b) msk then omap (omap (apodize_obs ap_mask msk bit)) mbobs
  else Ok mbobs.

(** The services used by the interpolating methods: scipy's interpolator, the
    median of the positive weights (only used to set the noise scale; nan is a
    value of W), and the random generator. The n-th call of rng.normal is
    [normal n]; None is a missing generator. *)
Record services (W : Type) := mkServices {
  sv_build : list ((Z * Z) * R) -> outcome ((Z * Z) -> R);
  sv_median : img R -> W;
  sv_rng : option (nat -> nat -> W -> list R)
}.
Arguments sv_build {W}. Arguments sv_median {W}. Arguments sv_rng {W}.

(** A loop over observations that threads the number of generator calls. *)
Fixpoint omap_st {S A B} (f : S -> A -> outcome (S * B)) (s : S) (l : list A)
  : outcome (S * list B) :=
  match l with
  | [] => Ok (s, [])
  | a :: r => do sb <- f s a; do sr <- omap_st f (fst sb) r; Ok (fst sr, snd sb :: snd sr)
  end.

(** masking.py:206-252, one observation. interpolate_image_at_mask is called
    with maxfrac = 1.0 and the default buff = 4. *)
Definition interp_obs {W} (sv : services W) (fill : bool) (iso_buff : Z)
    (fg_bmask : img Z) (bit interp_bit : Z) (ncalls : nat) (o : obs) : outcome (nat * obs) :=
  let bad := imap (fun z => negb (z =? 0)) fg_bmask in
  let o := mkObs (o_image o) (o_noise o) (o_weight o)
                 (imap2 Z.lor (o_bmask o) fg_bmask)
                 (option_map (upd_where bad (fun _ _ _ => 1%R)) (o_mfrac o))
                 (o_ignore_zero_weight o) in
  let o := zero_weights bad o in
  let rng k := match sv_rng sv with Some n => Some (n k) | None => None end in
  do interp <-
    (if negb (img_all (fun b => b) bad) then
       let wgt := sv_median sv (o_weight o) in
       do im <- interpolate_image_at_mask (sv_build sv) (o_image o) bad 1%Q 4 fill (Some wgt)
                  (rng ncalls) iso_buff;
       do no <- interpolate_image_at_mask (sv_build sv) (o_noise o) bad 1%Q 4 fill (Some wgt)
                  (rng (S ncalls)) iso_buff;
       Ok (im, no)
     else Ok (None, None));
  do o' <-
    match interp with
    | (Some im, Some no) =>
        exit_writeable (mkObs im no (o_weight o)
          (upd_where bad (fun _ _ v => Z.lor v interp_bit) (o_bmask o))
          (o_mfrac o) (o_ignore_zero_weight o))
    | _ =>
        exit_writeable (mkObs (o_image o) (o_noise o)
          (imap (fun _ => 0%R) (o_weight o))
          (imap (fun v => Z.lor v bit) (o_bmask o))
          (option_map (imap (fun _ => 1%R)) (o_mfrac o)) false)
    end;
  Ok (S (S ncalls), o').

(** masking.py:174-252. *)
Definition apply_mask_interp {W} (sv : services W) (mbobs : list (list obs)) (cat : list hole)
    (symmetrize : bool) (bit interp_bit : Z) (fill : bool) (iso_buff : Z)
  : outcome (list (list obs)) :=
  do o0 <- first_obs mbobs;
  do fg <- make_foreground_bmask cat (nr (o_image o0)) (nc (o_image o0)) symmetrize bit;
  if img_any (fun z => negb (z =? 0)) fg then
    do r <- omap_st (omap_st (interp_obs sv fill iso_buff fg bit interp_bit)) O mbobs;
    Ok (snd r)
  else Ok mbobs.

(** masking.py:76-171. *)
Definition apply_foreground_masking_corrections {W} (sv : services W)
    (mbobs : list (list obs)) (cat : list hole) (method : string) (mask_expand_rad : R)
    (mask_bit expand_bit interp_bit : Z) (symmetrize : bool) (ap_rad : R) (iso_buff : Z)
  : outcome (list (list obs)) :=
  do mbobs <-
    (if String.eqb method "interp" then
       apply_mask_interp sv mbobs cat symmetrize mask_bit interp_bit false iso_buff
     else if String.eqb method "interp-noise" then
       apply_mask_interp sv mbobs cat symmetrize mask_bit interp_bit true iso_buff
     else if String.eqb method "apodize" then
       apply_mask_apodize mbobs cat symmetrize ap_rad mask_bit
     else Raise RuntimeError);
  if Rltb 0 mask_expand_rad then
    do o0 <- first_obs mbobs;
    do ex <- make_foreground_bmask
               (map (fun h => mkHole (h_x h) (h_y h) (h_r h + mask_expand_rad)%R) cat)
               (nr (o_image o0)) (nc (o_image o0)) symmetrize expand_bit;
    omap (omap (fun o => exit_writeable
      (mkObs (o_image o) (o_noise o) (o_weight o) (imap2 Z.lor (o_bmask o) ex)
             (o_mfrac o) (o_ignore_zero_weight o)))) mbobs
  else Ok mbobs.
