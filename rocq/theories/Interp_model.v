(** Model of metadetect/interpolate.py. Pixel values are of an arbitrary type:
    the code never computes with them, only the interpolator does. *)
From Coq Require Import ZArith QArith List String Bool.
From Verif Require Import Base Arr.
Import ListNotations.
Local Open Scope Z_scope.

(** interpolate.py:59-71 (and 84-96): first and last index of the window of
    half size [buff] around [k], clipped to an axis of length [n]. *)
Definition window (n k buff : Z) : Z * Z :=
  let start := k - buff in
  let stop := k + buff in
  let start := if start <? 0 then 0 else start in
  let stop := if stop >? n - 1 then n - 1 else stop in
  (start, stop).

(** The loops of interpolate.py:74-75 and 98-99 over a window. *)
Definition window_pixels (nrows ncols row col buff : Z) : list (Z * Z) :=
  let '(r0, r1) := window nrows row buff in
  let '(c0, c1) := window ncols col buff in
  flat_map (fun rc => map (fun cc => (rc, cc)) (zrange2 c0 (c1 + 1))) (zrange2 r0 (r1 + 1)).

(** The three output arrays filled so far (bad_ind, bad_iso, good_ind). *)
Record scan_state := mkScan { s_bad : list Z; s_iso : list bool; s_good : list Z }.

(** interpolate.py:98-108: append the good pixels of one window. *)
Definition add_good (bad_msk : img bool) (ngood : Z) (st : scan_state) (rc : Z * Z)
  : outcome scan_state :=
  if px bad_msk (fst rc) (snd rc) then Ok st
  else if zlen (s_good st) =? ngood then Raise RuntimeError
  else Ok (mkScan (s_bad st) (s_iso st)
             (s_good st ++ [fst rc * nc bad_msk + snd rc])%list).

(** interpolate.py:54-110: one pixel. The bad_ind/bad_iso arrays have ngood
    entries; numba does not check the bound on line 57, the model raises
    IndexError there so that the theorem rules it out. *)
Definition scan_pixel (bad_msk : img bool) (ngood buff iso_buff : Z)
    (st : scan_state) (rc : Z * Z) : outcome scan_state :=
  let row := fst rc in
  let col := snd rc in
  if px bad_msk row col then
    if zlen (s_bad st) >=? ngood then Raise IndexError
    else
      let isowin := window_pixels (nr bad_msk) (nc bad_msk) row col iso_buff in
      let no_good := fold_left (fun ng p => if negb (px bad_msk (fst p) (snd p)) then false else ng)
                               isowin true in
      let st := mkScan (s_bad st ++ [row * nc bad_msk + col])%list
                       (s_iso st ++ [no_good])%list (s_good st) in
      let win := if negb (buff =? iso_buff)
                 then window_pixels (nr bad_msk) (nc bad_msk) row col buff else isowin in
      ofold (add_good bad_msk ngood) win st
  else Ok st.

(** interpolate.py:13-116. *)
Definition get_nearby_good_pixels (bad_msk : img bool) (nbad buff iso_buff : Z)
  : outcome scan_state :=
  let ngood := nbad * (2 * buff + 1) ^ 2 in
  ofold (scan_pixel bad_msk ngood buff iso_buff) (coords (nr bad_msk) (nc bad_msk))
        (mkScan [] [] []).

(** bad_msk.sum() (interpolate.py:157, 193). *)
Definition count_bad (bad_msk : img bool) : Z :=
  zlen (filter (fun ij => px bad_msk (fst ij) (snd ij)) (coords (nr bad_msk) (nc bad_msk))).

(** numpy.unique on integers: sorted, without repetition. *)
Fixpoint zins (x : Z) (l : list Z) : list Z :=
  match l with
  | [] => [x]
  | y :: r => if x <? y then x :: l else if x =? y then l else y :: zins x r
  end.
Definition zunique (l : list Z) : list Z := fold_right zins [] l.

(** numpy.unravel_index for one index. *)
Definition unravel (ncols ind : Z) : Z * Z := (ind / ncols, ind mod ncols).

Definition coord_eqb (a b : Z * Z) : bool := (fst a =? fst b) && (snd a =? snd b).

(** im[ys, xs] = vals: sequential element assignment. *)
Definition assign_at {A} (im : img A) (cs : list (Z * Z)) (vals : list A) : img A :=
  fold_left (fun m cv =>
      mkImg (nr m) (nc m) (fun i j => if coord_eqb (fst cv) (i, j) then snd cv else px m i j))
    (combine cs vals) im.

(** im[mask] = vals: the true pixels in row-major order; ValueError when the
    numbers differ (length one broadcasting does not occur with equal lengths
    and is not modelled). *)
Definition assign_mask {A} (im : img A) (mask : img bool) (vals : list A) : outcome (img A) :=
  let cs := filter (fun ij => px mask (fst ij) (snd ij)) (coords (nr mask) (nc mask)) in
  if Nat.eqb (List.length cs) (List.length vals) then Ok (assign_at im cs vals)
  else Raise ValueError.

(** selection a[msk] of interpolate.py:186-189. *)
Fixpoint select {A} (l : list A) (msk : list bool) : list A :=
  match l, msk with
  | a :: l, b :: msk => if b then a :: select l msk else select l msk
  | _, _ => []
  end.

(** interpolate.py:119-219. [build] is scipy's CloughTocher2DInterpolator: given
    the points and values it raises or gives a function of position. [rng] is
    the random generator's normal(size, scale), [weight] the weight setting the
    scale; both optional. maxfrac is a rational. *)
Definition interpolate_image_at_mask {A W}
    (build : list ((Z * Z) * A) -> outcome ((Z * Z) -> A))
    (image : img A) (bad_msk : img bool) (maxfrac : Q) (buff : Z)
    (fill_isolated_with_noise : bool) (weight : option W)
    (rng : option (nat -> W -> list A)) (iso_buff : Z) : outcome (option (img A)) :=
  let npix := nr bad_msk * nc bad_msk in
  let nbad := count_bad bad_msk in
  if Qle_bool (inject_Z nbad / inject_Z npix) maxfrac && (nbad <? npix) then
    do st <- get_nearby_good_pixels bad_msk nbad buff iso_buff;
    let good_yx := map (unravel (nc bad_msk)) (zunique (s_good st)) in
    let bad_yx := map (unravel (nc bad_msk)) (s_bad st) in
    do res <-
      (if fill_isolated_with_noise then
         match rng with
         | None => Raise RuntimeError
         | Some normal =>
           match weight with
           | None => Raise RuntimeError
           | Some w =>
             if existsb (fun b => b) (s_iso st) then
               let fill_yx := select bad_yx (s_iso st) in
               let bad_msk2 := assign_at bad_msk fill_yx (map (fun _ => false) fill_yx) in
               do st2 <- get_nearby_good_pixels bad_msk2 (count_bad bad_msk2) buff iso_buff;
               let image2 := assign_at image fill_yx (normal (List.length fill_yx) w) in
               Ok (image2, bad_msk2,
                   map (unravel (nc bad_msk)) (zunique (s_good st2)),
                   map (unravel (nc bad_msk)) (s_bad st2))
             else Ok (image, bad_msk, good_yx, bad_yx)
           end
         end
       else Ok (image, bad_msk, good_yx, bad_yx));
    let '(im, bmsk, gyx, byx) := res in
    do f <- build (map (fun p => (p, px im (fst p) (snd p))) gyx);
    do out <- assign_mask im bmsk (map f byx);
    Ok (Some out)
  else Ok None.
