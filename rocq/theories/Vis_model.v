(** Model of metadetect/lsst/vis.py: what is drawn in which panel of a figure.
    matplotlib, the colour mapping and the grid of espy are third party: a call of
    them is an event with its arguments. Pixels are rational numbers; np.log and
    np.sqrt are arbitrary functions [flog] and [fsqrt]. The ds9 branch of show_exp
    (lines 60-68) and figure sizes and styles are not modelled. *)
From Coq Require Import ZArith QArith List String Bool.
From Verif Require Import Base Arr Median.
Import ListNotations.
Local Open Scope string_scope.
Local Open Scope Z_scope.

(** A panel of a figure: row and column. *)
Definition axis : Type := Z * Z.
(** What imshow gets: numbers, mask bits, or img_to_rgb of three planes. *)
Inductive content := Gray (im : img Q) | Bits (im : img Z) | Rgb (stretch q : Q) (planes : list (img Q)).
Inductive event :=
| Imshow (ax : axis) (c : content)
| Scatter (ax : axis) (xy : list (Q * Q)) (colour : string)
| SetTitle (ax : axis) (s : string)
| AxisOff (ax : axis)
| SupTitle (s : string)
| Show.

(** One band: image, variance and mask; the exposures of all bands have one shape
    and one corner (the stack enforces this). *)
Record vexp := mkV { v_image : img Q; v_var : img Q; v_mask : img Z }.
Record vmb := mkVmb { vm_bands : list vexp; vm_x0 : Z; vm_y0 : Z }.

(** a.clip(min=m) *)
Definition clip_min (m : Q) (im : img Q) : img Q := imap (fun v => if Qle_bool v m then m else v) im.
(** np.sqrt(np.median(...)); the median of nothing is nan, but then there is no pixel
    either, and any number will do. *)
Definition noise_of (fsqrt : Q -> Q) (vars : list Q) : Q := match qmedian vars with Some m => fsqrt m | None => 0%Q end.
(** np.log(im.clip(min=0.1 * noise)) *)
Definition log_image (flog fsqrt : Q -> Q) (im : img Q) (vars : list Q) : img Q :=
  imap flog (clip_min ((1 # 10) * noise_of fsqrt vars) im).
(** image.sum(axis=0) *)
Definition band_sum (ims : list (img Q)) : img Q :=
  match ims with [] => ifill 0 0 0%Q | im :: r => fold_left (imap2 Qplus) r im end.

(** ** vis.py:259-276, _extract_xy *)
(** A numpy table (row, col, row0, col0), or source records, of which the centroids
    (x, y) of the peaks of their footprints are used; the first one, without any it is
    an IndexError of the stack. *)
Inductive sources :=
| Table (rows : list (Q * Q * (Z * Z)))
| Records (peaks : list (list (Q * Q))).
Definition extract_xy (mb : vmb) (s : sources) : outcome (list (Q * Q)) :=
  match s with
  | Table rows => Ok (map (fun r => let '(row, col, (row0, col0)) := r in ((col - inject_Z col0)%Q, (row - inject_Z row0)%Q)) rows)
  | Records peaks => omap (fun p => match p with
      | [] => Raise IndexError
      | (x, y) :: _ => Ok ((x - inject_Z (vm_x0 mb))%Q, (y - inject_Z (vm_y0 mb))%Q) end) peaks
  end.

Definition opt_events {A} (f : A -> event) (o : option A) : list event := match o with Some a => [f a] | None => [] end.
Definition show_if (b : bool) : list event := if b then [Show] else [].

Section Draw.
Variables flog fsqrt : Q -> Q.

(** vis.py:106-128 and 201-226: the content of the panel of a multi-band exposure. *)
Definition mb_content (stretch q : Q) (mb : vmb) : content :=
  let ims := map v_image (vm_bands mb) in
  if (3 <=? List.length ims)%nat then Rgb stretch q (map (clip_min 0) (firstn 3 ims))
  else
    let timage := match ims with [im] => im | _ => band_sum ims end in
    Gray (log_image flog fsqrt timage (flat_map (fun e => pixels (v_var e)) (vm_bands mb))).

(** vis.py:70-148, show_mbexp. [ax]: the axis given, or the one of the new figure. *)
Definition show_mbexp (stretch q : Q) (mess : option string) (ax : axis) (srcs : option sources) (show : bool) (mb : vmb)
  : outcome (list event) :=
  do marks <- match srcs with None => Ok [] | Some s => do xy <- extract_xy mb s; Ok [Scatter ax xy "red"] end;
  Ok (Imshow ax (mb_content stretch q mb) :: marks ++ opt_events (SetTitle ax) mess ++ show_if show)%list.

(** vis.py:12-58, show_exp with use_mpl. [src]: the columns base_SdssCentroid_x, _y. *)
Definition show_exp (mess : option string) (x0 y0 : Z) (src : option (list (Q * Q))) (e : vexp) : list event :=
  ([Imshow (0, 0) (Gray (log_image flog fsqrt (v_image e) (pixels (v_var e))));
    Imshow (0, 1) (Gray (v_var e)); SetTitle (0, 1) "variance";
    Imshow (0, 2) (Bits (v_mask e)); SetTitle (0, 2) "mask"] ++
   opt_events (fun l => Scatter (0, 0) (map (fun p => ((fst p - inject_Z x0)%Q, (snd p - inject_Z y0)%Q)) l) "red") src ++
   opt_events SupTitle mess ++ [Show])%list.

(** What mplt.subplots returns for a number of rows and columns: one axis, an array of
    axes, or a two dimensional array. *)
Inductive axes := OneAxis | Axes1 (n : Z) (row : bool) | Axes2 (nrow ncol : Z).
Definition subplots (nrow ncol : Z) : outcome axes :=
  if (nrow <? 1) || (ncol <? 1) then Raise ValueError
  else if (nrow =? 1) && (ncol =? 1) then Ok OneAxis
  else if nrow =? 1 then Ok (Axes1 ncol true)
  else if ncol =? 1 then Ok (Axes1 nrow false)
  else Ok (Axes2 nrow ncol).
(** axs[i, j] with non-negative i and j *)
Definition ax_get (a : axes) (i j : Z) : outcome axis :=
  match a with
  | OneAxis => Raise TypeError
  | Axes1 _ _ => Raise IndexError
  | Axes2 nrow ncol => if (i <? nrow) && (j <? ncol) then Ok (i, j) else Raise IndexError
  end.
(** axs.ravel()[i]: an axis has no ravel. *)
Definition ax_ravel (a : axes) (i : Z) : outcome axis :=
  match a with
  | OneAxis => Raise AttributeError
  | Axes1 n row => if i <? n then Ok (if row then (0, i) else (i, 0)) else Raise IndexError
  | Axes2 nrow ncol => if i <? nrow * ncol then Ok (i / ncol, i mod ncol) else Raise IndexError
  end.
Definition ax_size (a : axes) : Z := match a with OneAxis => 1 | Axes1 n _ => n | Axes2 nrow ncol => nrow * ncol end.

(** vis.py:151-256, show_mbexp_mosaic. [grid n]: rows and columns of espy's Grid;
    [name i] is the default label im{i}. *)
Definition show_mbexp_mosaic (grid : Z -> Z * Z) (name : Z -> string) (stretch q : Q) (labels : option (list string))
    (title : option string) (show : bool) (l : list vmb) : outcome (list event) :=
  let nim := zlen l in
  let labels := match labels with Some ls => ls | None => map name (zrange nim) end in
  do axs <- subplots (fst (grid nim)) (snd (grid nim));
  do panels <- omap (fun i_mb : Z * vmb =>
      let '(i, mb) := i_mb in
      do ax <- match ax_ravel axs i with Raise AttributeError => Ok (0, 0) | r => r end;
      match nth_error labels (Z.to_nat i) with
      | None => Raise IndexError
      | Some t => Ok [SetTitle ax t; Imshow ax (mb_content stretch q mb)]
      end) (combine (zrange nim) l);
  let nax := ax_size axs in
  do off <- omap (fun i => do ax <- ax_ravel axs i; Ok (AxisOff ax)) (zrange2 nim nax);
  Ok (List.concat panels ++ off ++ opt_events SupTitle title ++ show_if show)%list.

(** vis.py:279-324, compare_mbexp. The images are arrays in a heap: [data] are the
    references of the bands of the exposure, and copy_mbexp makes new arrays. [M]: the
    model, an exposure or a list of images. The three panels are drawn when all the
    arrays have been filled. *)
Inductive model_arg := Exposure (refs : list nat) | Images (refs : list nat).
Definition heap : Type := list (img Q).
Definition load (h : heap) (a : nat) : img Q := nth a h (ifill 0 0 0%Q).
Fixpoint store (h : heap) (a : nat) (im : img Q) : heap :=
  match h, a with [], _ => [] | _ :: r, O => im :: r | x :: r, S n => x :: store r n im end.
Definition same_shape {A B} (a : img A) (b : img B) : bool := (nr a =? nr b) && (nc a =? nc b).
(** new arrays with the contents of [refs] *)
Definition copy_arrays (h : heap) (refs : list nat) : heap * list nat :=
  ((h ++ map (load h) refs)%list, seq (List.length h) (List.length refs)).
(** dst[:, :] = f dst src for each band; arrays of other shapes are a ValueError (numpy
    would repeat axes of length one; not modelled). *)
Definition update (f : Q -> Q -> Q) (h : heap) (ds : nat * nat) : outcome heap :=
  if same_shape (load h (fst ds)) (load h (snd ds)) then Ok (store h (fst ds) (imap2 f (load h (fst ds)) (load h (snd ds))))
  else Raise ValueError.
Definition read_mb (mb : vmb) (h : heap) (refs : list nat) : vmb :=
  mkVmb (map (fun ev : vexp * nat => mkV (load h (snd ev)) (v_var (fst ev)) (v_mask (fst ev))) (combine (vm_bands mb) refs)) (vm_x0 mb) (vm_y0 mb).
(** The list is indexed with the number of the band: too short a list is an IndexError. *)
Definition compare_mbexp (stretch q : Q) (srcs : option sources) (mb : vmb) (h : heap) (data : list nat) (M : model_arg)
  : outcome (heap * list event) :=
  do hm <- match M with
    | Exposure refs => Ok (h, refs)
    | Images refs =>
      let '(h1, new) := copy_arrays h data in
      if (List.length refs <? List.length data)%nat then Raise IndexError
      else do h2 <- ofold (update (fun _ v => v)) (combine new refs) h1; Ok (h2, new)
    end;
  let '(h, model) := hm in
  do p1 <- show_mbexp stretch q (Some "data") (0, 0) srcs false (read_mb mb h data);
  do p2 <- show_mbexp stretch q (Some "model") (0, 1) srcs false (read_mb mb h model);
  let '(h3, c) := copy_arrays h data in
  if negb (List.length model =? List.length data)%nat then Raise ValueError
  else
    do h4 <- ofold (update Qminus) (combine c model) h3;
    do p3 <- show_mbexp stretch q (Some "data - model") (1, 0) srcs false (read_mb mb h4 c);
    Ok (h4, (p1 ++ p2 ++ [AxisOff (1, 1)] ++ p3 ++ [Show])%list).

(** vis.py:327-375, show_three_mbexp. *)
Definition show_three_mbexp (stretch q : Q) (labels : option (list string)) (l : list vmb) : outcome (list event) :=
  let labels := match labels with Some ls => ls | None => ["image 1"; "image 2"; "image 3"] end in
  match l with
  | [a; b; c] =>
    match labels with
    | [la; lb; lc] =>
      do p1 <- show_mbexp stretch q (Some la) (0, 0) None false a;
      do p2 <- show_mbexp stretch q (Some lb) (0, 1) None false b;
      do p3 <- show_mbexp stretch q (Some lc) (1, 0) None false c;
      Ok (p1 ++ p2 ++ p3 ++ [AxisOff (1, 1); Show])%list
    | _ => Raise AssertionError
    end
  | _ => Raise AssertionError
  end.

(** vis.py:378-413, show_mbexp_demo: the loop is over Qvals, a name that is not defined
    (the list is called qvals): OtherError 100 is Python's NameError. *)
Definition show_mbexp_demo (mb : vmb) : outcome (list event) :=
  if (3 <=? List.length (vm_bands mb))%nat then Raise (OtherError 100) else Raise AssertionError.

(** vis.py:416-444, show_multi_mbobs: one observation of each band. The subplots are
    types by bands, the index is band by type. *)
Record vobs := mkVo { vo_image : img Q; vo_weight : img Q; vo_bmask : img Z }.
Definition show_multi_mbobs (title : Z -> string -> string) (mbobs : list (list vobs)) : outcome (list event) :=
  let nband := zlen mbobs in
  do axs <- subplots 3 nband;
  do panels <- omap (fun b_ol : Z * list vobs =>
      let '(iband, ol) := b_ol in
      match ol with
      | [] => Raise IndexError
      | o :: _ =>
        do l <- omap (fun t : Z * string * content =>
            let '(itype, name, c) := t in
            do ax <- ax_get axs iband itype;
            Ok [Imshow ax c; SetTitle ax (title iband name)])
          [(0, "image", Gray (vo_image o)); (1, "weight", Gray (vo_weight o)); (2, "bmask", Bits (vo_bmask o))];
        Ok (List.concat l)
      end) (combine (zrange nband) mbobs);
  Ok (List.concat panels ++ [Show])%list.

(** vis.py:447-487, show_mbexp_each_band; squeeze=False. *)
Definition show_mbexp_each_band (title : Z -> string -> string) (srcs : option sources) (mb : vmb) : outcome (list event) :=
  let nband := zlen (vm_bands mb) in
  if nband <? 1 then Raise ValueError
  else
    do xy <- match srcs with None => Ok None | Some s => do xy <- extract_xy mb s; Ok (Some xy) end;
    Ok (flat_map (fun b_e : Z * vexp =>
          let '(iband, e) := b_e in
          ([Imshow (iband, 0) (Gray (log_image flog fsqrt (v_image e) (pixels (v_var e)))); SetTitle (iband, 0) (title iband "image");
            Imshow (iband, 1) (Gray (v_var e)); SetTitle (iband, 1) (title iband "var");
            Imshow (iband, 2) (Bits (v_mask e)); SetTitle (iband, 2) (title iband "mask")] ++
           match xy with None => [] | Some l => map (fun col => Scatter (iband, col) l "red") [0; 1; 2] end)%list)
        (combine (zrange nband) (vm_bands mb)) ++ [Show])%list.

(** vis.py:490-514, show_image_and_mask: [band] is a Python index. *)
Definition show_image_and_mask (mb : vmb) (band : Z) : outcome (list event) :=
  let n := zlen (vm_bands mb) in
  let k := if band <? 0 then band + n else band in
  match (if k <? 0 then None else nth_error (vm_bands mb) (Z.to_nat k)) with
  | None => Raise IndexError
  | Some e => Ok [AxisOff (0, 0); AxisOff (0, 1);
                  Imshow (0, 0) (Gray (log_image flog fsqrt (v_image e) (pixels (v_var e)))); Imshow (0, 1) (Bits (v_mask e)); Show]
  end.
End Draw.

(** vis.py:517-531, show_image: [cat] is a table of (row, col, gauss_flags). *)
Definition show_image (im : img Q) (cat : option (list (Q * Q * Z))) : list event :=
  (Imshow (0, 0) (Gray im) ::
   match cat with
   | None => []
   | Some l =>
     let xy := map (fun r : Q * Q * Z => (snd (fst r), fst (fst r))) in
     [Scatter (0, 0) (xy l) "yellow"; Scatter (0, 0) (xy (filter (fun r : Q * Q * Z => negb (snd r =? 0)) l)) "red"]
   end ++ [Show])%list.
