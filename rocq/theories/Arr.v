(** Two dimensional numpy arrays: shape and pixel function, with the numpy /
    Python operations used by the code (slicing with negative bounds, slice
    assignment with broadcasting, rot90). The pixel function is only meaningful
    inside the shape. *)
From Coq Require Import ZArith List Bool Lia.
From Verif Require Import Base.
Import ListNotations.
Local Open Scope Z_scope.

Record img (A : Type) := mkImg { nr : Z; nc : Z; px : Z -> Z -> A }.
Arguments mkImg {A}. Arguments nr {A}. Arguments nc {A}. Arguments px {A}.

Definition inside {A} (im : img A) (i j : Z) : Prop := 0 <= i < nr im /\ 0 <= j < nc im.
Definition insideb {A} (im : img A) (i j : Z) : bool :=
  (0 <=? i) && (i <? nr im) && (0 <=? j) && (j <? nc im).

Lemma insideb_spec : forall A (im : img A) i j, insideb im i j = true <-> inside im i j.
Proof. intros. unfold insideb, inside. rewrite !andb_true_iff, !Z.leb_le, !Z.ltb_lt. lia. Qed.

(** Row major list of pixel coordinates. *)
Definition coords (r c : Z) : list (Z * Z) :=
  flat_map (fun i => map (fun j => (i, j)) (zrange c)) (zrange r).

Lemma in_coords : forall r c i j, In (i, j) (coords r c) <-> 0 <= i < r /\ 0 <= j < c.
Proof.
  intros. unfold coords. rewrite in_flat_map. split.
  - intros [x [Hx H]]. apply in_map_iff in H. destruct H as [y [E Hy]].
    inversion E; subst. apply in_zrange in Hx. apply in_zrange in Hy. lia.
  - intros [Hi Hj]. exists i. split; [now apply in_zrange|].
    apply in_map_iff. exists j. split; [reflexivity|now apply in_zrange].
Qed.

Definition pixels {A} (im : img A) : list A :=
  map (fun ij => px im (fst ij) (snd ij)) (coords (nr im) (nc im)).

(** Elementwise maps. *)
Definition imap {A B} (f : A -> B) (im : img A) : img B :=
  mkImg (nr im) (nc im) (fun i j => f (px im i j)).
Definition imap2 {A B C} (f : A -> B -> C) (a : img A) (b : img B) : img C :=
  mkImg (nr a) (nc a) (fun i j => f (px a i j) (px b i j)).
Definition ifill {A} (r c : Z) (a : A) : img A := mkImg r c (fun _ _ => a).

(** Python slice bound normalisation for an axis of length n: [lo:hi]. *)
Definition norm_bound (n x : Z) : Z :=
  if x <? 0 then Z.max 0 (x + n) else Z.min x n.
Definition slice_lo (n lo : Z) := norm_bound n lo.
Definition slice_len (n lo hi : Z) := Z.max 0 (norm_bound n hi - norm_bound n lo).

(** [im[r0:r1, c0:c1]]. *)
Definition slice {A} (im : img A) (r0 r1 c0 c1 : Z) : img A :=
  mkImg (slice_len (nr im) r0 r1) (slice_len (nc im) c0 c1)
        (fun i j => px im (i + slice_lo (nr im) r0) (j + slice_lo (nc im) c0)).

(** [dest[r0:r1, c0:c1] = src]: numpy broadcasting, an axis of length one is
    repeated, any other length mismatch is a ValueError. *)
Definition bcast_ok (src dst : Z) : bool := (src =? dst) || (src =? 1).
Definition assign_slice {A} (dest : img A) (r0 r1 c0 c1 : Z) (src : img A)
  : outcome (img A) :=
  let dr := slice_len (nr dest) r0 r1 in
  let dc := slice_len (nc dest) c0 c1 in
  let rlo := slice_lo (nr dest) r0 in
  let clo := slice_lo (nc dest) c0 in
  if bcast_ok (nr src) dr && bcast_ok (nc src) dc then
    Ok (mkImg (nr dest) (nc dest)
          (fun i j =>
             if (rlo <=? i) && (i <? rlo + dr) && (clo <=? j) && (j <? clo + dc) then
               px src (if nr src =? dr then i - rlo else 0)
                      (if nc src =? dc then j - clo else 0)
             else px dest i j))
  else Raise ValueError.

(** numpy.rot90(m, k) for k = 1, 2, 3 (counter-clockwise quarter turns). *)
Definition rot90 {A} (im : img A) : img A :=
  mkImg (nc im) (nr im) (fun i j => px im j (nc im - 1 - i)).
Definition rot180 {A} (im : img A) : img A :=
  mkImg (nr im) (nc im) (fun i j => px im (nr im - 1 - i) (nc im - 1 - j)).
Definition rot270 {A} (im : img A) : img A :=
  mkImg (nc im) (nr im) (fun i j => px im (nr im - 1 - j) i).

(** Two arrays are equal as numpy arrays: same shape, same values inside. *)
Definition img_eq {A} (a b : img A) : Prop :=
  nr a = nr b /\ nc a = nc b /\ forall i j, inside a i j -> px a i j = px b i j.
