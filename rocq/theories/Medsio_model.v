(** Model of the parts of metadetect/detect.py where it matters which object is which:
    the settings given to the detection (402-418), and the arrays given out as stamps
    (26-107). *)
From Coq Require Import ZArith QArith List String Bool.
From Verif Require Import Base Arr Dict Detect_model.
Import ListNotations.
Local Open Scope string_scope.
Local Open Scope Z_scope.

(** Objects in memory: the address is the position. *)
Fixpoint hwrite {A} (h : list A) (p : nat) (x : A) : list A :=
  match h, p with [], _ => [] | _ :: r, O => x :: r | y :: r, S n => y :: hwrite r n x end.

Section Settings.
(** [V]: Python values. [I]: the images of one shear type. [J]: what the detection is run
    on. [R]: what it returns. *)
Context {V I J R : Type}.
(** np.array of a value *)
Variable asarray : V -> outcome V.
(** detect.py:209-242, _set_detim: the image, noise and mask for the detection. *)
Variable set_detim : I -> outcome J.
(** sxdes.run_sep (third party): given the settings and the threshold, the objects found,
    and the settings as it leaves them. *)
Variable run_sep : list (string * V) -> V -> J -> outcome R * list (string * V).
(** sxdes.SX_CONFIG, a dictionary in memory, and sxdes.DETECT_THRESH *)
Variables (SX_CONFIG : nat) (DETECT_THRESH : V).

(** dict.pop: the dictionary without the key *)
Fixpoint sdel (k : string) (d : list (string * V)) : list (string * V) :=
  match d with [] => [] | (k', v) :: r => if String.eqb k k' then r else (k', v) :: sdel k r end.
Definition settings_at (h : list (list (string * V))) (p : nat) : list (string * V) := nth p h [].

(** detect.py:402-415, _set_sx_config: the memory afterwards, the address of the settings
    and the threshold. A user's settings are copied one level deep. *)
Definition set_sx_config (h : list (list (string * V))) (sx_config_in : option nat)
  : list (list (string * V)) * outcome (nat * V) :=
  match sx_config_in with
  | Some p =>
    let new := List.length h in
    let h := (h ++ [[]])%list in
    let h := hwrite h new (supdate (settings_at h new) (settings_at h p)) in
    match sget "filter_kernel" (settings_at h new) with
    | None => (h, Raise KeyError)
    | Some k =>
      match asarray k with
      | Raise e => (h, Raise e)
      | Ok a =>
        let h := hwrite h new (sput "filter_kernel" a (settings_at h new)) in
        match sget "detect_thresh" (settings_at h new) with
        | None => (h, Raise KeyError)
        | Some t => (hwrite h new (sdel "detect_thresh" (settings_at h new)), Ok (new, t))
        end
      end
    end
  | None => (h, Ok (SX_CONFIG, DETECT_THRESH))
  end.

(** detect.py:175-187 and 245-254: one MEDSifier is made. *)
Definition detect (h : list (list (string * V))) (sx : option nat) (im : I) : list (list (string * V)) * outcome R :=
  match set_sx_config h sx with
  | (h, Raise e) => (h, Raise e)
  | (h, Ok (p, t)) =>
    match set_detim im with
    | Raise e => (h, Raise e)
    | Ok j => let '(r, d) := run_sep (settings_at h p) t j in (hwrite h p d, r)
    end
  end.

(** metadetect.py:751-763 for one shear type after another, all with the user's
    entry "sx" (or None); the first exception ends the run. *)
Fixpoint detect_all (h : list (list (string * V))) (sx : option nat) (ims : list I)
  : list (list (string * V)) * outcome (list R) :=
  match ims with
  | [] => (h, Ok [])
  | im :: rest =>
    match detect h sx im with
    | (h, Raise e) => (h, Raise e)
    | (h, Ok r) => let '(h, rs) := detect_all h sx rest in (h, do rs <- rs; Ok (r :: rs))
    end
  end.
End Settings.

(** ** Stamps as arrays in memory *)

(** The observation's planes, the segmentation map and the PSF image are arrays in
    memory: their addresses. *)
Record hmeds := mkHMeds { hm_plane : string -> nat; hm_psf : nat; hm_cat : list cat_entry }.
Definition array_at (h : list (img num)) (p : nat) : img num := nth p h (ifill 0 0 (F (QArith_base.Qmake 0 1))).

(** detect.py:41-107: get_cutout and get_psf. The memory afterwards, and the address of
    the array returned: the copy of the PSF image, or the new array of zeros
    (np.zeros; filled in place). *)
Definition hget_cutout (h : list (img num)) (m : hmeds) (iobj : nat) (type : string) : list (img num) * outcome nat :=
  match nth_error (hm_cat m) iobj with
  | None => (h, Raise ValueError)
  | Some e =>
    if String.eqb type "psf" then ((h ++ [array_at h (hm_psf m)])%list, Ok (List.length h))
    else if existsb (String.eqb type) image_types then
      let im := array_at h (hm_plane m type) in
      let bsize := e_box e in
      let '((or0, or1), (r0, r1)) := get_clipped_boxes (nr im) (e_srow e) bsize in
      let '((oc0, oc1), (c0, c1)) := get_clipped_boxes (nc im) (e_scol e) bsize in
      if bsize <? 0 then (h, Raise ValueError)
      else
        match DEFAULT_IMAGE_VALUES type with
        | None => (h, Raise KeyError)
        | Some fill =>
          let subim := List.length h in
          let h := (h ++ [ifill bsize bsize fill])%list in
          match assign_slice (array_at h subim) r0 r1 c0 c1 (slice (array_at h (hm_plane m type)) or0 or1 oc0 oc1) with
          | Raise e => (h, Raise e)
          | Ok im => (hwrite h subim im, Ok subim)
          end
        end
    else (h, Raise ValueError)
  end.

(** What a user may do with the interface: ask for a stamp, or overwrite (a part of) an
    array they were given, the [n]th one. *)
Inductive act := Ask (iobj : nat) (type : string) | Overwrite (n : nat) (im : img num).
Definition step (m : hmeds) (s : list (img num) * list nat) (a : act) : list (img num) * list nat :=
  match a with
  | Ask iobj type =>
    match hget_cutout (fst s) m iobj type with
    | (h, Ok p) => (h, snd s ++ [p])%list
    | (h, Raise _) => (h, snd s)
    end
  | Overwrite n im => match nth_error (snd s) n with Some p => (hwrite (fst s) p im, snd s) | None => s end
  end.
Definition steps (m : hmeds) (s : list (img num) * list nat) (l : list act) : list (img num) * list nat := fold_left (step m) l s.
