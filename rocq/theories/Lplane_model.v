(** Model of the named mask planes in metadetect/lsst: util.py get_stats_mask and
    get_detection_mask, and the planes of masking.py. *)
From Coq Require Import ZArith Reals List String Bool.
From Verif Require Import Base Arr Dict Masking_model Lmask_model.
Import ListNotations.
Local Open Scope string_scope.
Local Open Scope Z_scope.

(** The dictionary of mask planes of lsst.afw.image.Mask, global to the process:
    name and bit number. Masks made before a plane was added know it as well. *)
Definition registry := list (string * Z).

(** Mask.addMaskPlane(name): nothing for a name that is there, otherwise the first
    unused of the 32 bits; an error when there is none. *)
Definition unused (reg : registry) : option Z :=
  find (fun i => negb (existsb (Z.eqb i) (map snd reg))) (zrange 32).
Definition add_plane (reg : registry) (name : string) : outcome registry :=
  if smem name (skeys reg) then Ok reg
  else match unused reg with Some i => Ok (reg ++ [(name, i)])%list | None => Raise LSSTRuntimeError end.
(** Mask.getPlaneBitMask(names); OtherError 2 is the InvalidParameterError for a
    name that is not there. Bits are those of an unbounded integer. *)
Fixpoint bit_mask (reg : registry) (names : list string) : outcome Z :=
  match names with
  | [] => Ok 0
  | n :: r => match sget n reg with
              | Some i => do m <- bit_mask reg r; Ok (Z.lor (Z.shiftl 1 i) m)
              | None => Raise (OtherError 2)
              end
  end.

(** The registry after a call, and how the call ended. *)
Definition call (A : Type) := (registry * outcome A)%type.
Definition adding {A} (reg : registry) (name : string) (k : registry -> call A) : call A :=
  match add_plane reg name with Ok reg' => k reg' | Raise e => (reg, Raise e) end.

(** util.py:894-920. *)
Definition get_stats_mask (reg : registry) : call (list string) :=
  adding reg "BRIGHT" (fun reg => (reg, Ok ["BAD"; "EDGE"; "DETECTED"; "DETECTED_NEGATIVE"; "NO_DATA"; "BRIGHT"])).
(** util.py:923-943. *)
Definition get_detection_mask (reg : registry) : call (list string) :=
  adding reg "BRIGHT" (fun reg => (reg, Ok ["EDGE"; "NO_DATA"; "BRIGHT"])).

(** lsst/masking.py:31-32 and the rest of apply_apodized_edge_masks_mbexp. *)
Definition edge_masks (w : world) (reg : registry) : call world :=
  adding reg "APODIZED_EDGE" (fun reg =>
    (reg, do edge <- bit_mask reg ["APODIZED_EDGE"]; apply_edge edge w)).
(** lsst/masking.py:87-90 and the rest of apply_apodized_bright_masks_mbexp. *)
Definition bright_masks (wcs : R -> R -> R * R) (xy0 : Z * Z) (info : list bright) (w : world) (reg : registry) : call world :=
  adding reg "BRIGHT" (fun reg =>
  adding reg "BRIGHT_EXPANDED" (fun reg =>
    (reg, do b <- bit_mask reg ["BRIGHT"]; do x <- bit_mask reg ["BRIGHT_EXPANDED"]; apply_bright wcs xy0 info b x w))).

(** What can happen to the planes while a process runs: this code's calls, and
    planes added by other code. Planes are not removed. *)
Inductive op := Add (name : string) | Stats | DetMask | Edge (w : world)
  | Bright (wcs : R -> R -> R * R) (xy0 : Z * Z) (info : list bright) (w : world).
Definition step (reg : registry) (o : op) : registry :=
  match o with
  | Add n => fst (adding reg n (fun reg => (reg, Ok tt)))
  | Stats => fst (get_stats_mask reg)
  | DetMask => fst (get_detection_mask reg)
  | Edge w => fst (edge_masks w reg)
  | Bright wcs xy0 info w => fst (bright_masks wcs xy0 info w reg)
  end.
Definition history (reg : registry) (l : list op) : registry := fold_left step l reg.
