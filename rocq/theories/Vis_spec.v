(** Specification vocabulary for C129: what a figure shows. *)
From Coq Require Import ZArith QArith Qminmax List String Bool.
From Verif Require Import Base Arr Median Vis_model.
Import ListNotations.
Local Open Scope Z_scope.

(** The panel [ax] shows [c] and nothing else. *)
Definition shows (ev : list event) (ax : axis) (c : content) : Prop :=
  In (Imshow ax c) ev /\ forall c', In (Imshow ax c') ev -> c' = c.
Definition titled (ev : list event) (ax : axis) (s : string) : Prop :=
  In (SetTitle ax s) ev /\ forall s', In (SetTitle ax s') ev -> s' = s.
(** A mark at column x and row y of the image in a panel. *)
Definition marked (ev : list event) (ax : axis) (x y : Q) : Prop :=
  exists xy colour, In (Scatter ax xy colour) ev /\ In (x, y) xy.
(** The panel an event is about. *)
Definition about (e : event) : option axis :=
  match e with Imshow a _ | Scatter a _ _ | SetTitle a _ | AxisOff a => Some a | SupTitle _ | Show => None end.

(** [c] is the picture of a multi-band exposure: of three or more bands the first three,
    with negative pixels set to 0; of one or two bands the logarithm of their sum, not
    below a tenth of the noise. *)
Definition pictures (flog fsqrt : Q -> Q) (stretch q : Q) (mb : vmb) (c : content) : Prop :=
  match c with
  | Rgb s q' planes => s = stretch /\ q' = q /\ (3 <= List.length (vm_bands mb))%nat /\
      Forall2 (fun e p => nr p = nr (v_image e) /\ nc p = nc (v_image e) /\
                 forall i j, (px p i j == Qmax 0 (px (v_image e) i j))%Q) (firstn 3 (vm_bands mb)) planes
  | Gray im => (List.length (vm_bands mb) < 3)%nat /\
      (forall e, nth_error (vm_bands mb) 0 = Some e -> nr im = nr (v_image e) /\ nc im = nc (v_image e)) /\
      forall m i j, qmedian (flat_map (fun e => pixels (v_var e)) (vm_bands mb)) = Some m ->
        exists w, px im i j = flog w /\
          (w == Qmax (qsum (map (fun e => px (v_image e) i j) (vm_bands mb))) ((1 # 10) * fsqrt m))%Q
  | Bits _ => False
  end.
(** The logarithm of one image. *)
Definition log_picture (flog fsqrt : Q -> Q) (e : vexp) (c : content) : Prop :=
  exists im, c = Gray im /\ nr im = nr (v_image e) /\ nc im = nc (v_image e) /\
    forall m i j, qmedian (pixels (v_var e)) = Some m ->
      exists w, px im i j = flog w /\ (w == Qmax (px (v_image e) i j) ((1 # 10) * fsqrt m))%Q.

(** Where a source is, as column and row of the image. *)
Definition at_pixel (mb : vmb) (s : sources) (x y : Q) : Prop :=
  match s with
  | Table rows => exists row col row0 col0, In (row, col, (row0, col0)) rows /\ x = (col - inject_Z col0)%Q /\ y = (row - inject_Z row0)%Q
  | Records peaks => exists px py others, In ((px, py) :: others) peaks /\ x = (px - inject_Z (vm_x0 mb))%Q /\ y = (py - inject_Z (vm_y0 mb))%Q
  end.
Definition all_have_peaks (s : sources) : Prop := match s with Table _ => True | Records peaks => ~ In [] peaks end.

(** The references are arrays of the heap. *)
Definition valid (h : heap) (refs : list nat) : Prop := Forall (fun a => (a < List.length h)%nat) refs.
(** Two images with the same shape and the same pixels. *)
Definition equal_images (a b : img Q) : Prop := nr a = nr b /\ nc a = nc b /\ forall i j, px a i j = px b i j.
(** [r] is the difference of [d] and [m]. *)
Definition residual (r : img Q) (dm : img Q * img Q) : Prop :=
  nr r = nr (fst dm) /\ nc r = nc (fst dm) /\ forall i j, px r i j = (px (fst dm) i j - px (snd dm) i j)%Q.
Definition one_shape (a b : img Q) : Prop := nr a = nr b /\ nc a = nc b.
(** The exposure with other images, and their difference. *)
Definition with_images (mb : vmb) (ims : list (img Q)) : vmb :=
  mkVmb (map (fun ei => mkV (snd ei) (v_var (fst ei)) (v_mask (fst ei))) (combine (vm_bands mb) ims)) (vm_x0 mb) (vm_y0 mb).
(** The arrays of a model. *)
Definition refs_of (M : model_arg) : list nat := match M with Exposure r | Images r => r end.
