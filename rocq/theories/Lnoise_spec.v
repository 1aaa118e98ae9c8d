(** What C60 and C82 say, in terms of the footprints of the catalogue, the pixels
    the exposures had before and the noise image of each band. *)
From Coq Require Import ZArith QArith List Bool.
From Verif Require Import Base Arr Median Lsub_model Lnoise_model.
Import ListNotations.
Local Open Scope Z_scope.

Section Spec.
Variable P : Type.
(** The pixel is in the footprint of source id; in some footprint. *)
Definition in_source (cat : catalogue) (id x y : Z) : Prop := exists parent f, In (id, (parent, f)) cat /\ f x y = true.
Definition in_some (cat : catalogue) (x y : Z) : Prop := exists id, in_source cat id x y.
(** Every source lies in the footprints of the sources without parent. *)
Definition parents_cover (cat : catalogue) : Prop := forall x y, in_some cat x y -> exists id f, In (id, (0, f)) cat /\ f x y = true.
(** No band fails while the replacers are made. *)
Definition no_failure (bands : list (band P)) : Prop := forall b, In b bands -> n_fail P b = None.

(** The images, band by band: as before; all detected pixels noise and the
    others as before; the same with the pixels of one source as before. *)
Definition as_before (bands : list (band P)) (ims : list (image P)) : Prop :=
  Forall2 (fun b im => forall x y, im x y = n_orig P b x y) bands ims.
Definition all_noise (cat : catalogue) (bands : list (band P)) (ims : list (image P)) : Prop :=
  Forall2 (fun b im => forall x y, (in_some cat x y -> im x y = n_noise P b x y) /\ (~ in_some cat x y -> im x y = n_orig P b x y)) bands ims.
Definition only_source (cat : catalogue) (id : Z) (bands : list (band P)) (ims : list (image P)) : Prop :=
  Forall2 (fun b im => forall x y, (in_source cat id x y -> im x y = n_orig P b x y) /\
    (~ in_source cat id x y -> in_some cat x y -> im x y = n_noise P b x y) /\
    (~ in_some cat x y -> im x y = n_orig P b x y)) bands ims.
End Spec.

(** Programs that insert sources only with sourceInserted; those that insert
    nothing; those that never nest the blocks. *)
Fixpoint scoped (p : nprog) : Prop :=
  match p with
  | NDone | NLook | NFail _ => True
  | NSeq p q => scoped p /\ scoped q
  | NCatch p => scoped p
  | NInsert _ | NRemove _ => False
  | NInserted _ p => scoped p
  end.
Fixpoint quiet (p : nprog) : Prop :=
  match p with
  | NDone | NLook | NFail _ => True
  | NSeq p q => quiet p /\ quiet q
  | NCatch p => quiet p
  | NInsert _ | NRemove _ | NInserted _ _ => False
  end.
Fixpoint flat (p : nprog) : Prop :=
  match p with
  | NDone | NLook | NFail _ => True
  | NSeq p q => flat p /\ flat q
  | NCatch p => flat p
  | NInsert _ | NRemove _ => False
  | NInserted _ p => quiet p
  end.

(** The pixels with finite image and variance. *)
Definition finite_pixel (signal variance : img (option Q)) (i j : Z) (s v : Q) : Prop :=
  inside signal i j /\ px signal i j = Some s /\ px variance i j = Some v.
