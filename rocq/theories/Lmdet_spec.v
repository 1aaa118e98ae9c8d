(** Specification vocabulary for the columns added by the LSST metadetect task. *)
From Coq Require Import ZArith QArith List Bool Permutation.
From Verif Require Import Base Arr Median Lmdet_model.
Import ListNotations.
Local Open Scope Z_scope.

(** The integer whose pixel contains a coordinate: pixel i covers
    [i - 1/2, i + 1/2). *)
Definition pixel_of (q : Q) (i : Z) : Prop :=
  (inject_Z i - (1 # 2) <= q)%Q /\ (q < inject_Z i + (1 # 2))%Q.
(** The object's own pixel (row i, column j) in arrays of the image. *)
Definition own_pixel (x : lrow) (i j : Z) : Prop :=
  pixel_of (l_row x - inject_Z (l_row0 x)) i /\ pixel_of (l_col x - inject_Z (l_col0 x)) j.

(** Two rows agree in every column that is not named. *)
Definition same_object (x y : lrow) : Prop :=
  l_id y = l_id x /\ l_row y = l_row x /\ l_col y = l_col x /\ l_row0 y = l_row0 x /\ l_col0 y = l_col0 x.

(** The pixels of the image in the square of half width [rad] around (ci, cj). *)
Definition box_pixels (r c ci cj rad : Z) : list (Z * Z) :=
  filter (fun ij => (Z.abs (fst ij - ci) <=? rad) && (Z.abs (snd ij - cj) <=? rad)) (coords r c).
(** [v] is the mean of the map over these pixels around (row, col), with weight
    [W] of the offset in rows and columns. *)
Definition is_mean_around (W : Q -> Q -> Q) (m : img Q) (rad : Z) (row col : Q) (v : Q) : Prop :=
  forall ci cj, pixel_of row ci -> pixel_of col cj ->
  let ps := box_pixels (nr m) (nc m) ci cj rad in
  let w ij := W (inject_Z (fst ij) - row)%Q (inject_Z (snd ij) - col)%Q in
  (0 < qsum (map w ps))%Q /\
  (v * qsum (map w ps) == qsum (map (fun ij => w ij * px m (fst ij) (snd ij)) ps))%Q.

(** The weight of a band: one over the median of its finite (None is +infinity)
    and positive variances. *)
Definition median_weight (v : img (option Q)) (w : Q) : Prop :=
  exists vals rest med, Permutation (pixels v) (map Some vals ++ rest) /\
    (forall q, In q vals -> 0 < q)%Q /\ (forall x, In x rest -> x = None \/ exists q, x = Some q /\ (q <= 0)%Q) /\
    is_median med vals /\ (0 < med)%Q /\ (w == 1 / med)%Q.

(** A weight function of numbers. *)
Definition weight_ok (W : Q -> Q -> Q) : Prop :=
  (forall a b, (0 <= W a b)%Q) /\ (forall a a' b b', (a == a')%Q -> (b == b')%Q -> (W a b == W a' b')%Q).

(** A PSF fit that failed, the way the code foresees it. *)
Definition psf_failed (f : outcome psffit) : Prop :=
  match f with
  | Ok f => pf_flags f <> 0
  | Raise e => e = BootPSFFailure \/ e = GMixFatalError
  end.
Definition psf_good (f : outcome psffit) : Prop := exists p, f = Ok p /\ pf_flags p = 0.
(** Weighted mean of a quantity of the fits over the bands with the listed
    indices. *)
Definition sum_over (shear : list Z) (q : psffit -> Q) (fits : list psffit) (wgts : list Q) : Q :=
  qsum (map (fun x => if existsb (Z.eqb (fst (fst x))) shear then q (snd (fst x)) * snd x else 0)%Q
            (combine (combine (zrange (zlen fits)) fits) wgts)).
(** The same call with other masks. *)
Definition with_ormasks (d : drun) (o : option (list (img Z))) : drun :=
  mkDrun (d_dims d) o (d_vars d) (d_mfracs d) (d_sky d) (d_shear d) (d_psffits d) (d_to_g d) (d_metacal d) (d_measure d) (d_W d) (d_rad d).
