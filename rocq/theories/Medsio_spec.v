(** Vocabulary for the settings of the detection and for stamps as objects. *)
From Coq Require Import ZArith List String Bool.
From Verif Require Import Base Arr Dict Detect_model Medsio_model.
Import ListNotations.
Local Open Scope string_scope.

(** [s] is what the user's settings [d] ask for: the kernel as the array [a], no
    threshold (it is given separately), all other entries as they are. *)
Definition asked {V} (d : list (string * V)) (a : V) (s : list (string * V)) : Prop :=
  sget "filter_kernel" s = Some a /\ sget "detect_thresh" s = None /\
  forall k, k <> "filter_kernel" -> k <> "detect_thresh" -> sget k s = sget k d.

(** Everything that was in memory before is there, with the same contents. *)
Definition kept {A} (before after : list A) : Prop :=
  forall p, (p < List.length before)%nat -> nth_error after p = nth_error before p.

(** The interface seen at one moment: its arrays with their contents. *)
Definition view (h : list (img num)) (m : hmeds) : meds :=
  mkMedsI (fun type => array_at h (hm_plane m type)) (array_at h (hm_psf m)) (hm_cat m).

(** The observation's arrays exist. *)
Definition in_memory (h : list (img num)) (m : hmeds) : Prop :=
  (forall type, (hm_plane m type < List.length h)%nat) /\ (hm_psf m < List.length h)%nat.
