(** What C90 says. *)
From Coq Require Import ZArith Reals List String Bool.
From Verif Require Import Base Arr Dict Masking_model Lmask_model Lplane_model.
Import ListNotations.
Local Open Scope string_scope.
Local Open Scope Z_scope.

(** A table of planes: no name and no bit twice, bits 0 to 31. *)
Definition table (reg : registry) : Prop :=
  NoDup (map fst reg) /\ NoDup (map snd reg) /\ forall n i, In (n, i) reg -> 0 <= i < 32.
(** The planes every mask of the stack has. *)
Definition has_standard (reg : registry) : Prop :=
  forall n, In n ["BAD"; "EDGE"; "DETECTED"; "DETECTED_NEGATIVE"; "NO_DATA"] -> exists i, In (n, i) reg.
Definition full (reg : registry) : Prop := forall i, 0 <= i < 32 -> exists n, In (n, i) reg.
(** Mask value [v] has the plane [n]. *)
Definition has_plane (reg : registry) (n : string) (v : Z) : Prop := exists i, In (n, i) reg /\ Z.testbit v i = true.
(** A pixel with this mask value is left out by a task told to skip these planes. *)
Definition left_out (reg : registry) (names : list string) (v : Z) : Prop := exists n, In n names /\ has_plane reg n v.

Definition skipped_by_statistics : list string := ["BAD"; "EDGE"; "DETECTED"; "DETECTED_NEGATIVE"; "NO_DATA"; "BRIGHT"].
Definition skipped_by_detection : list string := ["EDGE"; "NO_DATA"; "BRIGHT"].

(** Inside the circle of one of the bright objects, in pixels of the exposure. *)
Definition in_circle (wcs : R -> R -> R * R) (xy0 : Z * Z) (info : list bright) (i j : Z) : Prop :=
  exists b, In b info /\
    (sqrt ((fst (wcs (br_ra b) (br_dec b)) - IZR (fst xy0) - IZR j) ^ 2 +
           (snd (wcs (br_ra b) (br_dec b)) - IZR (snd xy0) - IZR i) ^ 2) < br_rad b)%R.
(** The exposure [e], of the data or of the noise, is [e'] after the call. *)
Definition became (w w' : world) (e e' : exposure) : Prop :=
  exists band, In band (map fst (w_exp w)) /\
    ((sget band (w_exp w) = Some e /\ sget band (w_exp w') = Some e') \/
     (exists d d', w_noise w = Some d /\ w_noise w' = Some d' /\ sget band d = Some e /\ sget band d' = Some e')).
