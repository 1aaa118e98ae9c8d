(** Specification vocabulary for C07-C12 and C48. *)
From Coq Require Import ZArith QArith List String Bool.
From Verif Require Import Base Arr Median Detect_model.
Import ListNotations.
Local Open Scope Z_scope.

(** The sizes that transform quickly: a power of two or three times one, from 2
    to 6144. *)
Definition fast_size (s : Z) : Prop :=
  2 <= s <= 6144 /\ exists k, 0 <= k /\ (s = 2 ^ k \/ s = 3 * 2 ^ k).
(** The stamp sizes a configuration permits: fast sizes in range, and the
    configured maximum itself. *)
Definition permitted (mc : meds_config) (s : Z) : Prop :=
  (fast_size s /\ min_box_size mc <= s <= max_box_size mc)
  \/ s = max_box_size mc.

(** [b] is the smallest permitted size that is at least [want]. *)
Definition smallest_permitted (mc : meds_config) (want b : Z) : Prop :=
  permitted mc b /\ want <= b /\ forall s, permitted mc s -> want <= s -> b <= s.

(** The size asked for: for "sigma_size" the largest of the two sides of the
    detection's footprint and the smallest even number that covers twice the
    half-light radius converted to a sigma, times the configured factor, stretched
    by the ellipticity; for "iso_radius" the integer part of twice the scaled
    isophotal radius (at least the configured minimum) plus the padding. *)
Definition sigma_extent (ff : Q) (mc : meds_config) (o : detobj) : Q :=
  (2 * (d_flux_radius o * 2 / ff * sigma_fac mc * (1 + (1 - d_b o / d_a o))))%Q.
Definition wanted_sigma (ff : Q) (mc : meds_config) (o : detobj) (want : Z) : Prop :=
  exists e, Z.even e = true /\ (sigma_extent ff mc o <= inject_Z e)%Q /\ (inject_Z e < sigma_extent ff mc o + 2)%Q /\
    want = Z.max (Z.max (d_ymax o - d_ymin o + 1) (d_xmax o - d_xmin o + 1)) e.
Definition iso_extent (mc : meds_config) (rad : Q) : Q := (2 * (rad_fac mc * rad) + box_padding mc)%Q.
Definition at_least (rmin rad r : Q) : Prop := (rmin <= r)%Q /\ (rad <= r)%Q /\ (r == rmin \/ r == rad)%Q.
Definition integer_part (q : Q) (n : Z) : Prop :=
  ((0 <= q)%Q -> (inject_Z n <= q)%Q /\ (q < inject_Z n + 1)%Q) /\
  ((q <= 0)%Q -> (inject_Z n - 1 < q)%Q /\ (q <= inject_Z n)%Q).
Definition wanted_iso (mc : meds_config) (o : detobj) (want : Z) : Prop :=
  exists r, at_least (rad_min mc) (d_iso_radius o) r /\ integer_part (iso_extent mc r) want.
Definition wanted_size (ff : Q) (mc : meds_config) (o : detobj) (want : Z) : Prop :=
  (box_type mc = "sigma_size"%string /\ wanted_sigma ff mc o want) \/
  (box_type mc = "iso_radius"%string /\ wanted_iso mc o want).
(** Brought into the configured range. *)
Definition into_range (mc : meds_config) (want : Z) : Z := Z.min (Z.max want (min_box_size mc)) (max_box_size mc).

(** What a stamp pixel must be: the image pixel under it or the fill value. *)
Definition stamp_pixel (im : img num) (fill : num) (srow scol i j : Z) : num :=
  if insideb im (srow + i) (scol + j) then px im (srow + i) (scol + j) else fill.

(** The documented fill value of each plane. *)
Definition plane_fill (type : string) : num :=
  if String.eqb type "bmask" then I (2 ^ 30)
  else if String.eqb type "seg" then I 0 else F 0.

(** A position inside an image of the given shape (pixel centres at integers,
    pixel index obtained by dropping the fraction). *)
Definition pos_in (nrow ncol : Z) (y x : Q) : Prop :=
  (0 <= y)%Q /\ (y < inject_Z nrow)%Q /\ (0 <= x)%Q /\ (x < inject_Z ncol)%Q.

(** First pixel of a stamp of size [box] around coordinate [p]. *)
Definition first_pixel (p : Q) (box : Z) : Z := Z.max (qtrunc p - box / 2 + 1) 0.

(** The entry [e] describes a stamp of size [b] around position (y, x): where it
    starts, that it holds the object's pixel, and where the object is in it. *)
Definition stamp_around (nrow ncol : Z) (y x : Q) (b : Z) (e : cat_entry) : Prop :=
  e_box e = b /\ e_row e = y /\ e_col e = x /\
  e_srow e = first_pixel y b /\ e_scol e = first_pixel x b /\
  (0 <= e_srow e <= qtrunc y /\ qtrunc y < e_erow e <= nrow /\ qtrunc y < e_srow e + b) /\
  (0 <= e_scol e <= qtrunc x /\ qtrunc x < e_ecol e <= ncol /\ qtrunc x < e_scol e + b) /\
  (e_crow e + inject_Z (e_srow e) == y)%Q /\ (e_ccol e + inject_Z (e_scol e) == x)%Q.

(** The object sits in the middle of its stamp of (even) size [box]. *)
Definition centered (box : Z) (e : cat_entry) : Prop :=
  (inject_Z (box / 2) - 1 <= e_crow e)%Q /\ (e_crow e < inject_Z (box / 2))%Q /\
  (inject_Z (box / 2) - 1 <= e_ccol e)%Q /\ (e_ccol e < inject_Z (box / 2))%Q.

(** All bands have images of one shape. *)
Definition same_shape (bands : list band) : Prop :=
  forall b b', In b bands -> In b' bands ->
    nr (b_image b) = nr (b_image b') /\ nc (b_image b) = nc (b_image b').

(** Every weight map scaled by the same constant. *)
Definition scale_weights (c : Q) (b : band) : band :=
  mkBand (b_image b) (imap (Qmult c) (b_weight b)) (b_bmask b).

(** A usable band: it has a positive weight somewhere. *)
Definition usable (b : band) : Prop :=
  exists i j, inside (b_weight b) i j /\ (0 < px (b_weight b) i j)%Q.

(** Decidable syntactic equality of rationals, for counting. *)
Definition Qdec : forall a b : Q, {a = b} + {a <> b}.
Proof.
  intros [n d] [n' d']. destruct (Z.eq_dec n n'); [destruct (Pos.eq_dec d d')|].
  - left. now subst.
  - right. congruence.
  - right. congruence.
Defined.

(** [ws] lists, band by band, the median of the positive pixels of the weight
    map. *)
Definition median_weights (bands : list band) (ws : list Q) : Prop :=
  Forall2 (fun b w => exists pos, is_median w pos /\
             (forall v, In v pos <-> (0 < v)%Q /\ In v (pixels (b_weight b))) /\
             (forall v, In v pos -> count_occ Qdec pos v = count_occ Qdec (pixels (b_weight b)) v))
          bands ws.

(** Weighted mean of the band images at a pixel. *)
Definition mean_at (bands : list band) (ws : list Q) (i j : Z) : Q :=
  (qsum (map (fun bw => snd bw * px (b_image (fst bw)) i j)%Q (combine bands ws)) / qsum ws)%Q.

(** The in-image pixels of a stamp of size [box] whose first pixel is image
    pixel (srow, scol), restricted to the aperture [near]. *)
Definition aperture {A} (im : img A) (near : Z -> Z -> bool) (srow scol box : Z) : list (Z * Z) :=
  filter (fun ij => near (fst ij) (snd ij) && insideb im (srow + fst ij) (scol + snd ij))
         (coords box box).
