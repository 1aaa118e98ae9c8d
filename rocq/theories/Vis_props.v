(** C129: what the viewers show. *)
From Coq Require Import ZArith QArith Qminmax List String Bool Lia.
From Verif Require Import Base Arr Median Vis_model Vis_spec Vis_proofs.
Import ListNotations.
Local Open Scope string_scope.
Local Open Scope Z_scope.

(** One exposure: its picture, its title and a mark at every source, all in the panel
    that was given. It fails only for sources without a peak. *)
Theorem C129_mbexp : forall flog fsqrt stretch q mess ax srcs show mb, vm_bands mb <> [] -> (forall s, srcs = Some s -> all_have_peaks s) ->
  exists ev, show_mbexp flog fsqrt stretch q mess ax srcs show mb = Ok ev /\
  (exists c, shows ev ax c /\ pictures flog fsqrt stretch q mb c) /\
  (forall t, mess = Some t -> titled ev ax t) /\
  (forall x y, marked ev ax x y <-> exists s, srcs = Some s /\ at_pixel mb s x y) /\
  (forall e a, In e ev -> about e = Some a -> a = ax) /\
  (In Show ev <-> show = true).
Proof.
  intros flog fsqrt stretch q mess ax srcs show mb N PK. destruct (show_mbexp_ok flog fsqrt stretch q mess ax srcs show mb PK) as [ev E].
  exists ev. split; [exact E|]. destruct (mbexp _ _ _ _ _ _ _ _ _ _ N E) as (A & B & C & D). split; [exact A|]. split; [exact B|]. split; [exact C|]. split; [exact D|].
  pose proof (show_mbexp_events _ _ _ _ _ _ _ _ _ _ E Show) as EV. rewrite EV. split.
  - intros [X|[(s & xy & _ & _ & X)|[(t & _ & X)|(X & _)]]]; [discriminate X|discriminate X|discriminate X|exact X].
  - intro X. right. right. right. auto.
Qed.
Print Assumptions C129_mbexp.
Theorem C129_no_peaks : forall flog fsqrt stretch q mess ax s show mb, ~ all_have_peaks s ->
  show_mbexp flog fsqrt stretch q mess ax (Some s) show mb = Raise IndexError.
Proof. exact show_mbexp_raise. Qed.
Print Assumptions C129_no_peaks.

(** Several exposures: number i is in row i / columns and column i mod columns of the
    grid under its own label, and the panels left over are empty. *)
Theorem C129_mosaic : forall flog fsqrt grid name stretch q labels title show l,
  let n := zlen l in let rows := fst (grid n) in let cols := snd (grid n) in
  l <> [] -> 0 < rows -> 0 < cols -> n <= rows * cols ->
  let lab := match labels with Some ls => ls | None => map name (zrange n) end in
  (n <= zlen lab -> exists ev, show_mbexp_mosaic flog fsqrt grid name stretch q labels title show l = Ok ev /\
     (forall i mb t, 0 <= i -> nth_error l (Z.to_nat i) = Some mb -> nth_error lab (Z.to_nat i) = Some t -> vm_bands mb <> [] ->
        (exists c, shows ev (i / cols, i mod cols) c /\ pictures flog fsqrt stretch q mb c) /\ titled ev (i / cols, i mod cols) t) /\
     (forall a, In (AxisOff a) ev <-> exists i, n <= i < rows * cols /\ a = (i / cols, i mod cols)) /\
     (forall t, In (SupTitle t) ev <-> title = Some t)) /\
  (zlen lab < n -> show_mbexp_mosaic flog fsqrt grid name stretch q labels title show l = Raise IndexError).
Proof. exact mosaic. Qed.
Print Assumptions C129_mosaic.

(** Comparison: the data, the model and their difference, and no array of the caller is
    changed, also if the model is (in part) the data itself. *)
Theorem C129_compare : forall flog fsqrt stretch q srcs mb h data M,
  vm_bands mb <> [] -> data <> [] -> valid h data -> valid h (refs_of M) -> (forall s, srcs = Some s -> all_have_peaks s) ->
  (List.length data <= List.length (refs_of M))%nat -> (forall r, M = Exposure r -> List.length r = List.length data) ->
  (forall k d m, nth_error data k = Some d -> nth_error (refs_of M) k = Some m -> one_shape (load h d) (load h m)) ->
  exists h' ev ims res, compare_mbexp flog fsqrt stretch q srcs mb h data M = Ok (h', ev) /\
    (forall a, (a < List.length h)%nat -> load h' a = load h a) /\
    Forall2 equal_images ims (map (load h) (firstn (List.length data) (refs_of M))) /\
    Forall2 residual res (combine (map (load h) data) (map (load h) (refs_of M))) /\
    forall ax e t, In (ax, e, t) [((0, 0), with_images mb (map (load h) data), "data"); ((0, 1), with_images mb ims, "model");
                                  ((1, 0), with_images mb res, "data - model")] ->
    (exists c, shows ev ax c /\ pictures flog fsqrt stretch q e c) /\ titled ev ax t /\
    (forall x y, marked ev ax x y <-> exists s, srcs = Some s /\ at_pixel e s x y).
Proof. exact compare. Qed.
Print Assumptions C129_compare.
Theorem C129_compare_short : forall flog fsqrt stretch q srcs mb h data refs, (List.length refs < List.length data)%nat ->
  compare_mbexp flog fsqrt stretch q srcs mb h data (Images refs) = Raise IndexError.
Proof. exact compare_short. Qed.
Print Assumptions C129_compare_short.

(** Three exposures. *)
Theorem C129_three : forall flog fsqrt stretch q labels la lb lc a b c, vm_bands a <> [] -> vm_bands b <> [] -> vm_bands c <> [] ->
  (labels = Some [la; lb; lc] \/ labels = None /\ [la; lb; lc] = ["image 1"; "image 2"; "image 3"]) ->
  exists ev, show_three_mbexp flog fsqrt stretch q labels [a; b; c] = Ok ev /\ In (AxisOff (1, 1)) ev /\
  forall ax mb t, In (ax, mb, t) [((0, 0), a, la); ((0, 1), b, lb); ((1, 0), c, lc)] ->
    (exists k, shows ev ax k /\ pictures flog fsqrt stretch q mb k) /\ titled ev ax t /\ (forall x y, ~ marked ev ax x y).
Proof.
  intros flog fsqrt stretch q labels la lb lc a b c NA NB NC [->|[-> E]].
  - exact (three flog fsqrt stretch q la lb lc a b c NA NB NC).
  - injection E as -> -> ->. exact (three flog fsqrt stretch q "image 1" "image 2" "image 3" a b c NA NB NC).
Qed.
Print Assumptions C129_three.
Theorem C129_not_three : forall flog fsqrt stretch q labels l, (List.length l <> 3%nat \/ exists ls, labels = Some ls /\ List.length ls <> 3%nat) ->
  show_three_mbexp flog fsqrt stretch q labels l = Raise AssertionError.
Proof. exact three_refuses. Qed.
Print Assumptions C129_not_three.

(** Each band: image, variance and mask in a row, with the sources in all three. *)
Theorem C129_each_band : forall flog fsqrt title srcs mb, vm_bands mb <> [] -> (forall s, srcs = Some s -> all_have_peaks s) ->
  exists ev, show_mbexp_each_band flog fsqrt title srcs mb = Ok ev /\
  forall k e, 0 <= k -> nth_error (vm_bands mb) (Z.to_nat k) = Some e ->
  ((exists c, shows ev (k, 0) c /\ log_picture flog fsqrt e c) /\ shows ev (k, 1) (Gray (v_var e)) /\ shows ev (k, 2) (Bits (v_mask e))) /\
  (titled ev (k, 0) (title k "image") /\ titled ev (k, 1) (title k "var") /\ titled ev (k, 2) (title k "mask")) /\
  (forall j x y, In j [0; 1; 2] -> (marked ev (k, j) x y <-> exists s, srcs = Some s /\ at_pixel mb s x y)).
Proof.
  intros flog fsqrt title srcs mb N PK. destruct (each_band_ok flog fsqrt title srcs mb N PK) as [ev E]. exists ev. split; [exact E|]. exact (each_band flog fsqrt title srcs mb ev E).
Qed.
Print Assumptions C129_each_band.

(** The image and the mask of one band; the band is counted as Python counts. *)
Theorem C129_image_and_mask : forall flog fsqrt mb band,
  (forall k e, 0 <= k < zlen (vm_bands mb) -> (band = k \/ band = k - zlen (vm_bands mb)) -> nth_error (vm_bands mb) (Z.to_nat k) = Some e ->
     exists ev c, show_image_and_mask flog fsqrt mb band = Ok ev /\ shows ev (0, 0) c /\ log_picture flog fsqrt e c /\ shows ev (0, 1) (Bits (v_mask e))) /\
  (band < - zlen (vm_bands mb) \/ zlen (vm_bands mb) <= band -> show_image_and_mask flog fsqrt mb band = Raise IndexError).
Proof. exact image_and_mask. Qed.
Print Assumptions C129_image_and_mask.

(** One exposure with its variance and mask; the centroids are marked on the image. *)
Theorem C129_exp : forall flog fsqrt mess x0 y0 src e, let ev := show_exp flog fsqrt mess x0 y0 src e in
  (exists c, shows ev (0, 0) c /\ log_picture flog fsqrt e c) /\ shows ev (0, 1) (Gray (v_var e)) /\ shows ev (0, 2) (Bits (v_mask e)) /\
  (forall j x y, marked ev (0, j) x y <-> j = 0 /\ exists l cx cy, src = Some l /\ In (cx, cy) l /\ x = (cx - inject_Z x0)%Q /\ y = (cy - inject_Z y0)%Q).
Proof.
  intros flog fsqrt mess x0 y0 src e ev. unfold ev, show_exp.
  assert (SH : forall j c, In (Imshow (0, j) c) [Imshow (0, 0) (Gray (log_image flog fsqrt (v_image e) (pixels (v_var e)))); Imshow (0, 1) (Gray (v_var e)); Imshow (0, 2) (Bits (v_mask e))] -> shows ev (0, j) c).
  { intros j c I. unfold ev, show_exp. split.
    - rewrite in_app_iff. left. cbn [In] in *. tauto.
    - intros c' I'. rewrite !in_app_iff, !in_opt in I'. cbn [In] in I, I'. destruct I' as [I'|[(l & _ & E)|[(t & _ & E)|[E|[]]]]]; try discriminate E.
      destruct I as [I|[I|[I|[]]]]; injection I as <- <-; destruct I' as [E|[E|[E|[E|[E|[]]]]]]; try discriminate E; now injection E. }
  split; [exists (Gray (log_image flog fsqrt (v_image e) (pixels (v_var e)))); split; [apply SH; cbn; tauto|apply log_pictures]|].
  split; [apply SH; cbn; tauto|]. split; [apply SH; cbn; tauto|]. intros j x y. split.
  - intros (xy & colour & I & P). rewrite !in_app_iff, !in_opt in I. cbn [In] in I. destruct I as [I|[(l & L & E)|[(t & _ & E)|[E|[]]]]]; try discriminate E.
    + destruct I as [E|[E|[E|[E|[E|[]]]]]]; discriminate E.
    + injection E as -> -> ->. split; [reflexivity|]. apply in_map_iff in P. destruct P as ([cx cy] & E & P). injection E as <- <-. exists l, cx, cy. auto.
  - intros (-> & l & cx & cy & -> & I & -> & ->). eexists. exists "red". split; [rewrite !in_app_iff, !in_opt; right; left; exists l; split; [reflexivity|reflexivity]|].
    apply in_map_iff. exists (cx, cy). auto.
Qed.
Print Assumptions C129_exp.

(** An image with its catalogue: a mark at every object, red ones at those with flags. *)
Theorem C129_image : forall im cat, let ev := show_image im (Some cat) in
  shows ev (0, 0) (Gray im) /\
  (forall x y, marked ev (0, 0) x y <-> exists flags, In (y, x, flags) cat) /\
  (exists xy, In (Scatter (0, 0) xy "red") ev) /\
  (forall xy, In (Scatter (0, 0) xy "red") ev -> forall x y, In (x, y) xy <-> exists flags, In (y, x, flags) cat /\ flags <> 0).
Proof.
  intros im cat ev. destruct (image im cat) as (A & B & C). split; [exact A|]. split; [exact B|]. split; [|exact C].
  eexists. unfold ev, show_image. cbn [app In]. right. right. left. reflexivity.
Qed.
Print Assumptions C129_image.

(** Observations of three bands are shown, a band in each row. *)
Theorem C129_mbobs : forall title a b c ra rb rc,
  exists ev, show_multi_mbobs title [a :: ra; b :: rb; c :: rc] = Ok ev /\
  forall k o, In (k, o) [(0, a); (1, b); (2, c)] ->
    shows ev (k, 0) (Gray (vo_image o)) /\ shows ev (k, 1) (Gray (vo_weight o)) /\ shows ev (k, 2) (Bits (vo_bmask o)) /\
    titled ev (k, 0) (title k "image") /\ titled ev (k, 1) (title k "weight") /\ titled ev (k, 2) (title k "bmask").
Proof. exact mbobs_three. Qed.
Print Assumptions C129_mbobs.
(** Refuted: for every other number of bands the observations cannot be shown. *)
Theorem C129_mbobs_refuted : forall title mbobs, Forall (fun ol => ol <> []) mbobs -> List.length mbobs <> 3%nat ->
  show_multi_mbobs title mbobs = Raise (if (List.length mbobs =? 0)%nat then ValueError else IndexError).
Proof. exact mbobs_only_three. Qed.
Print Assumptions C129_mbobs_refuted.
(** Refuted: the demonstration of stretches fails for every exposure. *)
Theorem C129_demo_refuted : forall mb, exists e, show_mbexp_demo mb = Raise e.
Proof. intro mb. unfold show_mbexp_demo. destruct (3 <=? _)%nat; eexists; reflexivity. Qed.
Print Assumptions C129_demo_refuted.

(** ** Cases *)
Definition ex_im (v : Q) : img Q := mkImg 2 2 (fun i j => (v + inject_Z (i - j))%Q).
Definition ex_exp (v : Q) : vexp := mkV (ex_im v) (ifill 2 2 1%Q) (ifill 2 2 5).
Definition ex_mb : vmb := mkVmb [ex_exp 3; ex_exp 4] 10 20.
Definition ex_srcs : sources := Records [[(11, 21); (50, 50)]; [(10, 21)]]%Q.
Example C129_mbexp_ex : vm_bands ex_mb <> [] /\ all_have_peaks ex_srcs /\ at_pixel ex_mb ex_srcs (0 # 1) (1 # 1) /\ ~ all_have_peaks (Records [[]]) /\
  exists c, mb_content (fun x => x) (fun x => x) 1 1 ex_mb = Gray c /\ (px c 0 1 == 5)%Q.
Proof.
  split; [discriminate|]. split; [intros [E|[E|[]]]; discriminate|]. split; [exists 10%Q, 21%Q, []; split; [cbn; tauto|split; reflexivity]|].
  split; [intro H; apply H; now left|]. eexists. split; [reflexivity|]. vm_compute. reflexivity.
Qed.
Example C129_mosaic_ex : zlen [ex_mb; ex_mb; ex_mb] <= 2 * 2 /\ zlen ["a"; "b"] < 3 /\
  exists ev, show_mbexp_mosaic (fun x => x) (fun x => x) (fun _ => (2, 2)) (fun _ => "im") 1 1 None None true [ex_mb; ex_mb; ex_mb] = Ok ev /\ In (AxisOff (1, 1)) ev.
Proof. split; [cbn; lia|]. split; [cbn; lia|]. eexists. split; [reflexivity|]. cbn. tauto. Qed.
(** The model is the list of the data in the other order. *)
Example C129_compare_ex : let h := [ex_im 3; ex_im 4] in
  valid h [0%nat; 1%nat] /\ valid h (refs_of (Images [1%nat; 0%nat])) /\
  (forall k d m, nth_error [0%nat; 1%nat] k = Some d -> nth_error [1%nat; 0%nat] k = Some m -> one_shape (load h d) (load h m)) /\
  exists h' ev, compare_mbexp (fun x => x) (fun x => x) 1 1 None ex_mb h [0%nat; 1%nat] (Images [1%nat; 0%nat]) = Ok (h', ev) /\ zlen h' = 6 /\ (px (load h' 4) 0 0 == -1)%Q.
Proof.
  cbv zeta. split; [repeat constructor|]. split; [repeat constructor|]. split.
  - intros [|[|[|k]]] d m D M; try discriminate; apply Some_inj in D, M; subst; split; reflexivity.
  - eexists. eexists. split; [vm_compute; reflexivity|]. split; [reflexivity|]. vm_compute. reflexivity.
Qed.
Example C129_compare_short_ex : (List.length [1%nat] < List.length [0%nat; 1%nat])%nat.
Proof. cbn. lia. Qed.
Example C129_three_ex : List.length [ex_mb; ex_mb] <> 3%nat /\ vm_bands ex_mb <> [].
Proof. split; discriminate. Qed.
Example C129_each_band_ex : exists ev, show_mbexp_each_band (fun x => x) (fun x => x) (fun _ s => s) (Some ex_srcs) ex_mb = Ok ev /\ zlen ev = 19.
Proof. eexists. split; reflexivity. Qed.
Example C129_image_and_mask_ex : (0 <= 1 < zlen (vm_bands ex_mb)) /\ (-1 = 1 - zlen (vm_bands ex_mb)) /\ nth_error (vm_bands ex_mb) (Z.to_nat 1) = Some (ex_exp 4) /\ (-3 < - zlen (vm_bands ex_mb)).
Proof. cbn. split; [lia|]. split; [reflexivity|]. split; [reflexivity|lia]. Qed.
Example C129_mbobs_ex : Forall (fun ol : list vobs => ol <> []) [[mkVo (ex_im 1) (ex_im 1) (ifill 2 2 0)]; [mkVo (ex_im 2) (ex_im 1) (ifill 2 2 0)]].
Proof. repeat constructor; discriminate. Qed.
Example C129_pixels_ex : exists m, qmedian (flat_map (fun e => pixels (v_var e)) (vm_bands ex_mb)) = Some m /\ (m == 1)%Q.
Proof. eexists. split; vm_compute; reflexivity. Qed.
