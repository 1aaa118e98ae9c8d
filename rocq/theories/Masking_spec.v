(** Specification vocabulary for C13-C20. *)
From Coq Require Import ZArith Reals List Bool.
From Verif Require Import Base Arr Interp_spec Masking_model.
Import ListNotations.
Local Open Scope Z_scope.

(** ** Edge frame *)

(** Number of whole pixels between pixel (i, j) and the nearest image edge. *)
Definition edge_distance (nrows ncols i j : Z) : Z :=
  Z.min (Z.min i (nrows - 1 - i)) (Z.min j (ncols - 1 - j)).

(** ** Discs *)

(** Distance of a pixel (row i, column j) from the centre of a mask hole, and
    whether the hole covers the pixel. *)
Definition dist (h : hole) (i j : Z) : R :=
  sqrt ((h_x h - IZR j) ^ 2 + (h_y h - IZR i) ^ 2).
Definition covers (h : hole) (i j : Z) : Prop := (dist h i j < h_r h)%R.

(** The pixel that a 90 degree counter-clockwise turn of an n x n image brings
    to (i, j) is (j, n - 1 - i). *)
Definition masked (cat : list hole) (symmetrize : bool) (n i j : Z) : Prop :=
  exists h, In h cat /\ (covers h i j \/ (symmetrize = true /\ covers h j (n - 1 - i))).

Definition radii_ok (cat : list hole) : Prop := forall h, In h cat -> (0 <= h_r h)%R.

(** ** Planes *)
Definition has_shape {A} (r c : Z) (im : img A) : Prop := nr im = r /\ nc im = c.

Definition obs_shape (r c : Z) (o : obs) : Prop :=
  has_shape r c (o_image o) /\ has_shape r c (o_noise o) /\ has_shape r c (o_weight o) /\
  has_shape r c (o_bmask o) /\ (forall mf, o_mfrac o = Some mf -> has_shape r c mf).
Definition mb_shape (r c : Z) (mbobs : list (list obs)) : Prop :=
  forall ol o, In ol mbobs -> In o ol -> obs_shape r c o.
Definition mb_weights_nonneg (mbobs : list (list obs)) : Prop :=
  forall ol o i j, In ol mbobs -> In o ol -> inside (o_weight o) i j -> (0 <= px (o_weight o) i j)%R.

(** The mfrac planes are both absent, or both present with [P] at the pixel. *)
Definition mfrac_rel (P : R -> R -> Prop) (i j : Z) (m m' : option (img R)) : Prop :=
  match m, m' with
  | Some a, Some b => P (px a i j) (px b i j)
  | None, None => True
  | _, _ => False
  end.

(** The pixel was not masked: nothing changed in the weight and mfrac planes, and
    at most the [extra] bits were added to the mask plane. *)
Definition masks_kept (extra : Z) (o o' : obs) (i j : Z) : Prop :=
  px (o_weight o') i j = px (o_weight o) i j /\
  px (o_bmask o') i j = Z.lor (px (o_bmask o) i j) extra /\
  mfrac_rel (fun a b => b = a) i j (o_mfrac o) (o_mfrac o').

(** The pixel was masked: no weight, mask bits added, fully masked fraction. *)
Definition masks_set (bits : Z) (o o' : obs) (i j : Z) : Prop :=
  px (o_weight o') i j = 0%R /\
  px (o_bmask o') i j = Z.lor (px (o_bmask o) i j) bits /\
  mfrac_rel (fun _ b => b = 1%R) i j (o_mfrac o) (o_mfrac o').

(** Apodization of one observation by the factor [a i j]; pixels with a factor
    below one are masked with [bits]; [extra i j] bits are added to every pixel. *)
Definition apodized (r c : Z) (a : Z -> Z -> R) (bits : Z) (extra : Z -> Z -> Z) (o o' : obs) : Prop :=
  obs_shape r c o' /\
  forall i j, 0 <= i < r -> 0 <= j < c ->
    px (o_image o') i j = (px (o_image o) i j * a i j)%R /\
    px (o_noise o') i j = (px (o_noise o) i j * a i j)%R /\
    ((a i j < 1)%R -> masks_set (Z.lor bits (extra i j)) o o' i j) /\
    (a i j = 1%R -> masks_kept (extra i j) o o' i j).

(** The apodization factor of the edge frame. *)
Definition edge_kernel (h : R) (d : Z) : R := ap_kern_kern (IZR d) (IZR (get_ap_range h)) h.
Definition edge_factor (h : R) (nrows ncols i j : Z) : R :=
  (edge_kernel h i * edge_kernel h (nrows - 1 - i) * edge_kernel h j * edge_kernel h (ncols - 1 - j))%R.

(** The apodization factor of a catalogue: the product over the objects of the
    kernel at the distance from the object. *)
Definition rprod (l : list R) : R := fold_right Rmult 1%R l.
Definition hole_factor (h0 : R) (h : hole) (i j : Z) : R := ap_kern_kern (dist h i j) (h_r h) h0.
Definition cat_factor (h0 : R) (cat : list hole) (i j : Z) : R :=
  rprod (map (fun h => hole_factor h0 h i j) cat).
Definition apod_factor (h0 : R) (cat : list hole) (symmetrize : bool) (n i j : Z) : R :=
  (cat_factor h0 cat i j * (if symmetrize then cat_factor h0 cat j (n - 1 - i) else 1))%R.

(** Bits added for the expanded mask: [bit] where the expanded discs cover. *)
Definition grow (rad : R) (cat : list hole) : list hole :=
  map (fun h => mkHole (h_x h) (h_y h) (h_r h + rad)%R) cat.
Definition expand_bits (cat : list hole) (rad : R) (symmetrize : bool) (n bit : Z)
    (r c : Z) (extra : Z -> Z -> Z) : Prop :=
  forall i j, 0 <= i < r -> 0 <= j < c ->
    ((0 < rad)%R /\ masked (grow rad cat) symmetrize n i j -> extra i j = bit) /\
    (~ ((0 < rad)%R /\ masked (grow rad cat) symmetrize n i j) -> extra i j = 0).

(** ** Interpolated planes. [M] says which pixels are masked. *)
Definition in_image (r c : Z) (p : Z * Z) : Prop := 0 <= fst p < r /\ 0 <= snd p < c.
Definition near (b : Z) (p q : Z * Z) : Prop :=
  Z.abs (fst p - fst q) <= b /\ Z.abs (snd p - snd q) <= b.

(** Every masked pixel is the interpolation of the unmasked pixels within 4
    pixels of a masked one; the others are kept. *)
Definition filled_plain (r c : Z) (M : Z * Z -> Prop)
    (build : list ((Z * Z) * R) -> outcome ((Z * Z) -> R)) (im im' : img R) : Prop :=
  exists pts f, build pts = Ok f /\
    (forall p v, In (p, v) pts <->
       (in_image r c p /\ ~ M p /\ exists q, in_image r c q /\ M q /\ near 4 p q) /\
       v = px im (fst p) (snd p)) /\
    (forall p, in_image r c p -> ~ M p -> px im' (fst p) (snd p) = px im (fst p) (snd p)) /\
    (forall p, in_image r c p -> M p -> px im' (fst p) (snd p) = f p).

(** The same when the masked pixels without an unmasked pixel within [b] pixels
    are first replaced by random draws. *)
Definition lonely (r c : Z) (M : Z * Z -> Prop) (b : Z) (p : Z * Z) : Prop :=
  in_image r c p /\ M p /\ forall q, in_image r c q -> ~ M q -> ~ near b q p.
Definition filled_noise (r c : Z) (M : Z * Z -> Prop) (b : Z) (draws : nat -> list R)
    (build : list ((Z * Z) * R) -> outcome ((Z * Z) -> R)) (im im' : img R) : Prop :=
  exists isos pts f, row_major_listing (lonely r c M b) isos /\ build pts = Ok f /\
    (forall p v, In (p, v) pts <->
       (in_image r c p /\ (~ M p \/ lonely r c M b p) /\
        exists q, in_image r c q /\ M q /\ ~ lonely r c M b q /\ near 4 p q) /\
       v = px im' (fst p) (snd p)) /\
    (forall p, in_image r c p -> ~ M p -> px im' (fst p) (snd p) = px im (fst p) (snd p)) /\
    (forall p, in_image r c p -> M p -> ~ lonely r c M b p -> px im' (fst p) (snd p) = f p) /\
    (forall k p, nth_error isos k = Some p ->
       nth_error (draws (List.length isos)) k = Some (px im' (fst p) (snd p))).

Definition filled {W} (r c : Z) (M : Z * Z -> Prop) (sv : services W) (noise : bool) (b : Z)
    (im im' : img R) : Prop :=
  if noise then exists normal k w, sv_rng sv = Some normal /\
                  filled_noise r c M b (fun n => normal k n w) (sv_build sv) im im'
  else filled_plain r c M (sv_build sv) im im'.

(** One observation handled by the interpolating methods. If every pixel is
    masked the image and noise planes are left alone. *)
Definition interpolated (r c : Z) (M : Z * Z -> Prop) (F : img R -> img R -> Prop)
    (bit ibit : Z) (extra : Z -> Z -> Z) (o o' : obs) : Prop :=
  obs_shape r c o' /\
  (forall i j, 0 <= i < r -> 0 <= j < c -> ~ M (i, j) -> masks_kept (extra i j) o o' i j) /\
  (((forall p, in_image r c p -> M p) /\
    o_image o' = o_image o /\ o_noise o' = o_noise o /\
    forall i j, 0 <= i < r -> 0 <= j < c -> masks_set (Z.lor bit (extra i j)) o o' i j) \/
   ((exists p, in_image r c p /\ ~ M p) /\
    ((exists p, in_image r c p /\ M p) ->
      F (o_image o) (o_image o') /\ F (o_noise o) (o_noise o')) /\
    ((forall p, in_image r c p -> ~ M p) -> o_image o' = o_image o /\ o_noise o' = o_noise o) /\
    forall i j, 0 <= i < r -> 0 <= j < c -> M (i, j) ->
      masks_set (Z.lor (Z.lor bit ibit) (extra i j)) o o' i j)).

(** What the library guarantees of every observation it builds: weights are not
    negative, and zero weights are only ignored when some weight is positive. *)
Definition mb_valid (mbobs : list (list obs)) : Prop :=
  forall ol o, In ol mbobs -> In o ol ->
    (forall i j, inside (o_weight o) i j -> (0 <= px (o_weight o) i j)%R) /\
    (o_ignore_zero_weight o = true -> exists i j, inside (o_weight o) i j /\ (0 < px (o_weight o) i j)%R).

(** The generator returns as many draws as asked for. *)
Definition draws_ok {W} (sv : services W) : Prop :=
  forall normal k n w, sv_rng sv = Some normal -> List.length (normal k n w) = n.
