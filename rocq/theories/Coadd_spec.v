(** Specification vocabulary for C42, C43 and C45. *)
From Coq Require Import ZArith QArith List Bool.
From Verif Require Import Base Arr Median Detect_spec Coadd_model.
Import ListNotations.
Local Open Scope Z_scope.

(** [w] is the median of the positive pixels of [im]. *)
Definition positive_median (im : img Q) (w : Q) : Prop :=
  exists pos, is_median w pos /\
    (forall v, In v pos <-> (0 < v)%Q /\ In v (pixels im)) /\
    (forall v, In v pos -> count_occ Qdec pos v = count_occ Qdec (pixels im) v).

Definition has_positive (im : img Q) : Prop :=
  exists i j, inside im i j /\ (0 < px im i j)%Q.

(** Weighted mean over bands of a quantity. *)
Definition wavg {A} (val : A -> Q) (xs : list A) (ws : list Q) : Q :=
  (qsum (map (fun xw => snd xw * val (fst xw))%Q (combine xs ws)) / qsum ws)%Q.

(** The variance of that mean at a pixel when band b has variance 1/weight. *)
Definition mean_variance (obs : list fobs) (ws : list Q) (i j : Z) : Q :=
  (qsum (map (fun ow => snd ow * snd ow / px (f_weight (fst ow)) i j)%Q (combine obs ws))
   / (qsum ws * qsum ws))%Q.

(** The observations can be averaged: same geometry, each with a PSF. *)
Definition compatible (a b : fobs) : Prop :=
  f_jac a = f_jac b /\ nr (f_image a) = nr (f_image b) /\ nc (f_image a) = nc (f_image b) /\
  exists p q, f_psf a = Some p /\ f_psf b = Some q /\ p_jac p = p_jac q /\
    nr (p_image p) = nr (p_image q) /\ nc (p_image p) = nc (p_image q).

(** A plane is carried by all observations or by none. *)
Definition all_or_none {A} (get : fobs -> option A) (obs : list fobs) : Prop :=
  (forall o, In o obs -> get o <> None) \/ (forall o, In o obs -> get o = None).

(** The four pixels a quarter turn carries (i, j) through, in an n x n map. *)
Definition orbit (n i j : Z) (k l : Z) : Prop :=
  (k, l) = (i, j) \/ (k, l) = (j, n - 1 - i) \/ (k, l) = (n - 1 - i, n - 1 - j) \/
  (k, l) = (n - 1 - j, i).

(** The shear bands [sb] exist and have data; [obs] are their observations. *)
Definition sb_valid (mb : list (list fobs)) (sb : list Z) (obs : list fobs) : Prop :=
  Forall2 (fun b o => 0 <= b < zlen mb /\ exists l, nth_error mb (Z.to_nat b) = Some l /\ hd_error l = Some o) sb obs.

(** A plane of the coadd: absent when no observation has it; the weighted mean
    (or the OR) when every observation has it. *)
Definition mean_of_plane (get : fobs -> option (img Q)) (obs : list fobs) (ws : list Q) (p : option (img Q)) : Prop :=
  ((forall o, In o obs -> get o = None) -> p = None) /\
  ((forall o, In o obs -> get o <> None) ->
     exists im, p = Some im /\
     forall i j, (px im i j == wavg (fun o => match get o with Some q => px q i j | None => 0 end) obs ws)%Q).
Definition or_of_plane (get : fobs -> option (img Z)) (obs : list fobs) (p : option (img Z)) : Prop :=
  ((forall o, In o obs -> get o = None) -> p = None) /\
  ((forall o, In o obs -> get o <> None) ->
     exists im, p = Some im /\
     forall i j n, Z.testbit (px im i j) n = true <->
       exists o q, In o obs /\ get o = Some q /\ Z.testbit (px q i j) n = true).

