(** Specification vocabulary for C24-C26. *)
From Coq Require Import ZArith QArith Qabs List Bool.
From Verif Require Import Base Arr Median Detect_spec Summ_model.
Import ListNotations.
Local Open Scope Z_scope.

(** The weight of a band: the median of its positive weights, 0 without any. *)
Definition weight_of (o : sobs) (w : Q) : Prop :=
  (exists pos, is_median w pos /\
     (forall v, In v pos <-> (0 < v)%Q /\ In v (pixels (so_weight o))) /\
     (forall v, In v pos -> count_occ Qdec pos v = count_occ Qdec (pixels (so_weight o)) v)) \/
  (w = 0%Q /\ forall v, In v (pixels (so_weight o)) -> (v <= 0)%Q).

(** The masked fraction of a band at a pixel; a missing plane is not masked. *)
Definition mfrac_at (o : sobs) (i j : Z) : Q :=
  match so_mfrac o with Some mf => px mf i j | None => 0%Q end.

Definition mean_mfrac (obs : list sobs) (ws : list Q) (i j : Z) : Q :=
  (qsum (map (fun ow => snd ow * mfrac_at (fst ow) i j)%Q (combine obs ws)) / qsum ws)%Q.

(** A band whose weights are scaled. *)
Definition scale_obs (c : Q) (o : sobs) : sobs :=
  mkSobs (imap (Qmult c) (so_weight o)) (so_mfrac o) (so_bmask o) (so_ormask o).

(** [k] is the pixel index in [0, n) nearest to [x]. *)
Definition nearest_pixel (n : Z) (x : Q) (k : Z) : Prop :=
  0 <= k < n /\ forall i, 0 <= i < n -> (Qabs (x - inject_Z k) <= Qabs (x - inject_Z i))%Q.

(** A bit is set in the window of half size [reg] around pixel (r, c). *)
Definition window_bit (mask : img Z) (reg r c n : Z) : Prop :=
  exists i j, inside mask i j /\ Z.abs (i - r) <= reg /\ Z.abs (j - c) <= reg /\
              Z.testbit (px mask i j) n = true.

(** Weighted sums over observations with their PSF values (g1, g2, T). *)
Definition psf_values (o : pobs) (v : Q * Q * Q) : Prop :=
  exists r T g, po_result o = Some r /\ pr_T r = Some T /\
    (pr_e r = Some g \/ (pr_e r = None /\ pr_g r = Some g)) /\ v = (fst g, snd g, T).
Definition wmean (ws xs : list Q) : Q :=
  (qsum (map (fun wx => fst wx * snd wx)%Q (combine ws xs)) / qsum ws)%Q.
