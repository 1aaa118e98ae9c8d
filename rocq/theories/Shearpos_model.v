(** Model of metadetect/shearpos.py, over the real numbers. *)
From Coq Require Import Reals List String Bool.
From Verif Require Import Base.
Import ListNotations.
Local Open Scope string_scope.
Local Open Scope R_scope.

(** ngmix.Jacobian (third party): the origin and the four derivatives. *)
Record jacobian := mkJac {
  row0 : R; col0 : R;
  dvdrow : R; dvdcol : R; dudrow : R; dudcol : R
}.

Definition jdet (j : jacobian) : R := dvdrow j * dudcol j - dvdcol j * dudrow j.

(** ngmix.Jacobian.get_vu (called at shearpos.py:83, 86, 176, 179). *)
Definition get_vu (j : jacobian) (row col : R) : R * R :=
  (dvdrow j * (row - row0 j) + dvdcol j * (col - col0 j),
   dudrow j * (row - row0 j) + dudcol j * (col - col0 j)).

(** ngmix.Jacobian.get_rowcol (called at shearpos.py:100, 194). *)
Definition get_rowcol (j : jacobian) (v u : R) : R * R :=
  ((dudcol j * v - dvdcol j * u) / jdet j + row0 j,
   (dvdrow j * u - dudrow j * v) / jdet j + col0 j).

(** shearpos.py:6. *)
Definition SKIP_SHEARS : list string :=
  ["noshear"; "1p_psf"; "1m_psf"; "2p_psf"; "2m_psf"].

Definition in_skip (s : string) : bool := existsb (String.eqb s) SKIP_SHEARS.

(** 2x2 matrices ((a,b),(c,d)). *)
Record mat := mkMat { m00 : R; m01 : R; m10 : R; m11 : R }.

(** galsim.Shear(g1, g2) and its getMatrix (third party, shearpos.py:205-211,
    75, 168): [|g| > 1] raises GalSimRangeError, a ValueError. *)
Definition galsim_shear (g1 g2 : R) : outcome (R * R) :=
  if Rlt_dec 1 (g1 * g1 + g2 * g2) then Raise ValueError else Ok (g1, g2).

Definition get_matrix (g : R * R) : mat :=
  let (g1, g2) := g in
  let f := / sqrt (1 - (g1 * g1 + g2 * g2)) in
  mkMat ((1 + g1) * f) (g2 * f) (g2 * f) ((1 - g1) * f).

(** numpy.linalg.inv on a 2x2 matrix (shearpos.py:168). *)
Definition mat_det (a : mat) : R := m00 a * m11 a - m01 a * m10 a.
Definition mat_inv (a : mat) : outcome mat :=
  if Req_EM_T (mat_det a) 0 then Raise LinAlgError
  else Ok (mkMat (m11 a / mat_det a) (- m01 a / mat_det a)
                 (- m10 a / mat_det a) (m00 a / mat_det a)).

(** shearpos.py:199-215. *)
Definition get_galsim_shear (shear_str : string) (step : R) : outcome (R * R) :=
  if String.eqb shear_str "1p" then galsim_shear step 0
  else if String.eqb shear_str "1m" then galsim_shear (- step) 0
  else if String.eqb shear_str "2p" then galsim_shear 0 step
  else if String.eqb shear_str "2m" then galsim_shear 0 (- step)
  else Raise ValueError.

(** The common body, shearpos.py:80-100 and 173-194, for one position: go to
    (v, u), apply the matrix about the image centre, come back. *)
Definition transform_pos (a : mat) (j : jacobian) (dims : R * R) (p : R * R) : R * R :=
  let row_cen := (fst dims - 1) / 2 in
  let col_cen := (snd dims - 1) / 2 in
  let (v_cen, u_cen) := get_vu j row_cen col_cen in
  let (v0, u0) := get_vu j (fst p) (snd p) in
  let u := u0 - u_cen in
  let v := v0 - v_cen in
  let u' := m00 a * u + m01 a * v + u_cen in
  let v' := m10 a * u + m11 a * v + v_cen in
  get_rowcol j v' u'.

(** shearpos.py:42-102. Simplification: rows and cols are one list of pairs
    (equal length arrays). [dims] is a pair of reals so that the model does not
    depend on integrality. *)
Definition shear_positions (pos : list (R * R)) (shear_str : string)
    (j : jacobian) (dims : R * R) (step : R) : outcome (list (R * R)) :=
  if in_skip shear_str then Ok pos
  else
    do g <- get_galsim_shear shear_str step;
    Ok (map (transform_pos (get_matrix g) j dims) pos).

(** shearpos.py:137-196. *)
Definition unshear_positions (pos : list (R * R)) (shear_str : string)
    (j : jacobian) (dims : R * R) (step : R) : outcome (list (R * R)) :=
  if in_skip shear_str then Ok pos
  else
    do g <- get_galsim_shear shear_str step;
    do ainv <- mat_inv (get_matrix g);
    Ok (map (transform_pos ainv j dims) pos).

(** shearpos.py:9-39 and 105-134: the [_obs] variants take jacobian and shape
    from the observation and call the functions above. *)
Record obs_geom := mkObsGeom { og_jac : jacobian; og_shape : R * R }.
Definition shear_positions_obs pos s (o : obs_geom) step :=
  shear_positions pos s (og_jac o) (og_shape o) step.
Definition unshear_positions_obs pos s (o : obs_geom) step :=
  unshear_positions pos s (og_jac o) (og_shape o) step.
