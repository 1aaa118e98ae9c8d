(** Properties C21-C23: interpolation over masked pixels. *)
From Coq Require Import ZArith QArith List String Bool Lia Lqa Sorted.
From Verif Require Import Base Arr Interp_model Interp_spec Interp_proofs.
Import ListNotations.
Local Open Scope Z_scope.

(** C21: given the number of bad pixels, the search never raises and returns
    exactly the bad pixels in row-major order, their isolation flags, and exactly
    the good pixels near some bad pixel (possibly repeated). *)
Theorem C21_search_exact : forall m nbad buff iso_buff, 0 <= buff -> number_bad m nbad ->
  exists st bads, get_nearby_good_pixels m nbad buff iso_buff = Ok st /\
    row_major_listing (bad_at m) bads /\
    s_bad st = map (flat_index m) bads /\
    Forall2 (fun p b => b = true <-> isolated m iso_buff p) bads (s_iso st) /\
    (forall z, In z (s_good st) <-> exists q, good_near m buff q /\ z = flat_index m q).
Proof.
  intros m nbad buff iso_buff B N. rewrite (number_bad_count m nbad N).
  destruct (search_spec m buff iso_buff B) as (st & bads & E & L & S & F & _ & G).
  exists st, bads. split; [exact E|]. split; [exact L|]. split; [exact S|]. split; [exact F|].
  intro z. rewrite <- in_zunique. apply G.
Qed.
Print Assumptions C21_search_exact.

(** C21: after removing the repetitions the points handed to the interpolator are
    exactly those pixels, each once, in row-major order. *)
Theorem C21_points : forall m nbad buff iso_buff, 0 <= buff -> number_bad m nbad ->
  exists st, get_nearby_good_pixels m nbad buff iso_buff = Ok st /\
    row_major_listing (good_near m buff) (map (unravel (nc m)) (zunique (s_good st))).
Proof.
  intros m nbad buff iso_buff B N. rewrite (number_bad_count m nbad N).
  exists (scan_result m buff iso_buff (badpix m)). split; [now apply scan_ok|apply points_listing].
Qed.
Print Assumptions C21_points.

(** C21: indices are converted back to the pixel they came from. *)
Theorem C21_index_roundtrip : forall m p, inside m (fst p) (snd p) ->
  unravel (nc m) (flat_index m p) = p.
Proof. exact unravel_flat. Qed.
Print Assumptions C21_index_roundtrip.

Definition ex_bad : img bool :=
  mkImg 5 6 (fun i j => ((1 <=? i) && (i <=? 3) && (1 <=? j) && (j <=? 3))).
Example C21_example :
  number_bad ex_bad 9 /\
  match get_nearby_good_pixels ex_bad 9 1 1 with
  | Ok st => s_bad st = [7; 8; 9; 13; 14; 15; 19; 20; 21] /\
             s_iso st = [false; false; false; false; true; false; false; false; false] /\
             zunique (s_good st) = [0; 1; 2; 3; 4; 6; 10; 12; 16; 18; 22; 24; 25; 26; 27; 28]
  | Raise _ => False end.
Proof. split; [apply (number_bad_exists ex_bad)|vm_compute; repeat split]. Qed.

(** C22: without noise filling, good pixels are kept and each bad pixel gets the
    interpolated value at its own position, from exactly the nearby good pixels
    with their own values. *)
Theorem C22_interpolation : forall A W build (image : img A) m maxfrac buff (weight : option W) rng iso_buff res,
  0 <= buff ->
  interpolate_image_at_mask build image m maxfrac buff false weight rng iso_buff = Ok (Some res) ->
  exists pts f, build pts = Ok f /\ nr res = nr image /\ nc res = nc image /\
    NoDup (map fst pts) /\
    (forall p v, In (p, v) pts <-> good_near m buff p /\ v = px image (fst p) (snd p)) /\
    (forall p, good_at m p -> px res (fst p) (snd p) = px image (fst p) (snd p)) /\
    (forall p, bad_at m p -> px res (fst p) (snd p) = f p).
Proof. exact interpolate_plain. Qed.
Print Assumptions C22_interpolation.

(** C22: nothing is returned exactly when the bad fraction is above the limit or
    every pixel is bad. *)
Theorem C22_none_iff : forall A W build (image : img A) m maxfrac buff fill (weight : option W) rng iso_buff nbad,
  0 <= buff -> 0 <= nr m -> 0 <= nc m -> number_bad m nbad ->
  (interpolate_image_at_mask build image m maxfrac buff fill weight rng iso_buff = Ok None <->
   (maxfrac < inject_Z nbad / inject_Z (nr m * nc m))%Q \/
   (forall p, inside m (fst p) (snd p) -> bad_at m p)).
Proof. intros until nbad. intros B R C N. rewrite (number_bad_count m nbad N). now apply interpolate_none. Qed.
Print Assumptions C22_none_iff.

(** C22: noise filling without a generator or without a weight raises. *)
Theorem C22_noise_needs_rng_and_weight :
  forall A W build (image : img A) m maxfrac buff (weight : option W) rng iso_buff,
  0 <= buff -> (rng = None \/ weight = None) ->
  interpolate_image_at_mask build image m maxfrac buff true weight rng iso_buff = Ok None \/
  interpolate_image_at_mask build image m maxfrac buff true weight rng iso_buff = Raise RuntimeError.
Proof. exact interpolate_needs_rng. Qed.
Print Assumptions C22_noise_needs_rng_and_weight.

(** A toy interpolator: the sum of the values of the points. *)
Definition ex_build (pts : list ((Z * Z) * Z)) : outcome ((Z * Z) -> Z) :=
  match pts with
  | [] => Raise ValueError
  | _ => Ok (fun p => 1000 * fst p + 100 * snd p + fold_right Z.add 0 (map snd pts))
  end.
Definition ex_image : img Z := mkImg 5 6 (fun i j => if (i =? 2) && (j =? 2) then 7 else 1).
Example C22_example :
  match interpolate_image_at_mask ex_build ex_image ex_bad 1 1 false (@None unit) None 1 with
  | Ok (Some r) => px r 0 0 = 1 /\ px r 2 2 = 2216 /\ px r 1 3 = 1316 /\ px r 1 5 = 1
  | _ => False end.
Proof. vm_compute. repeat split. Qed.

(** C23: with noise filling the isolated pixels get the draws, in row-major
    order; the other bad pixels are interpolated from good pixels and filled
    isolated pixels; good pixels keep their values. *)
Theorem C23_isolated_filled : forall A W build (image : img A) m maxfrac buff (w : W) normal iso_buff res,
  0 <= buff ->
  (forall n, List.length (normal n w) = n) ->
  interpolate_image_at_mask build image m maxfrac buff true (Some w) (Some normal) iso_buff = Ok (Some res) ->
  exists isos pts f, row_major_listing (isolated m iso_buff) isos /\
    build pts = Ok f /\ nr res = nr image /\ nc res = nc image /\
    NoDup (map fst pts) /\
    (forall p v, In (p, v) pts <->
        ((good_at m p \/ isolated m iso_buff p) /\
         (exists q, bad_at m q /\ ~ isolated m iso_buff q /\ within buff p q)) /\
        v = px res (fst p) (snd p)) /\
    (forall p, good_at m p -> px res (fst p) (snd p) = px image (fst p) (snd p)) /\
    (forall p, bad_at m p -> ~ isolated m iso_buff p -> px res (fst p) (snd p) = f p) /\
    (forall k p, nth_error isos k = Some p ->
       nth_error (normal (List.length isos) w) k = Some (px res (fst p) (snd p))).
Proof. exact interpolate_fill. Qed.
Print Assumptions C23_isolated_filled.

(** C23: if the image has a bad and a good pixel, the interpolator always gets at
    least one point, so interpolation succeeds whenever the interpolator accepts
    non-empty sets of points. *)
Theorem C23_never_starved : forall A W build (image : img A) m maxfrac buff fill (w : W) normal iso_buff p q nbad,
  1 <= buff -> 1 <= iso_buff ->
  (forall pts, pts <> [] -> exists f, build pts = Ok f) ->
  bad_at m p -> good_at m q -> number_bad m nbad ->
  (inject_Z nbad / inject_Z (nr m * nc m) <= maxfrac)%Q ->
  exists res, interpolate_image_at_mask build image m maxfrac buff fill (Some w) (Some normal) iso_buff
              = Ok (Some res).
Proof.
  intros until nbad. intros B I F P G N L. rewrite (number_bad_count m nbad N) in L.
  exact (interpolate_total A W build image m maxfrac buff fill w normal iso_buff p q B I F P G L).
Qed.
Print Assumptions C23_never_starved.

(** C23: an isolation window of zero pixels does starve it: every bad pixel is
    isolated, nothing is left to interpolate and the interpolator gets no
    points. The same happens when the mask has no bad pixel at all. *)
Theorem C23_zero_window_starves : exists (image : img Z) (m : img bool),
  bad_at m (0, 0) /\ good_at m (0, 1) /\
  interpolate_image_at_mask ex_build image m 1 4 true (Some tt) (Some (fun n _ => repeat 0 n)) 0
    = Raise ValueError.
Proof.
  exists (ifill 2 2 5), (mkImg 2 2 (fun i j => (i =? 0) && (j =? 0))).
  split; [|split].
  - split; [split; simpl; lia|reflexivity].
  - split; [split; simpl; lia|reflexivity].
  - vm_compute. reflexivity.
Qed.
Print Assumptions C23_zero_window_starves.

Theorem C22_no_bad_pixels_starves : exists (image : img Z) (m : img bool),
  (forall p, ~ bad_at m p) /\
  interpolate_image_at_mask ex_build image m 1 4 false (@None unit) None 1 = Raise ValueError.
Proof.
  exists (ifill 2 2 5), (ifill 2 2 false). split; [|vm_compute; reflexivity].
  intros p [_ H]. discriminate.
Qed.
Print Assumptions C22_no_bad_pixels_starves.

Example C23_example :
  match interpolate_image_at_mask ex_build ex_image ex_bad 1 1 true (Some tt) (Some (fun n _ => repeat 55 n)) 1 with
  | Ok (Some r) => px r 0 0 = 1 /\ px r 2 2 = 55 /\ px r 1 3 = 1300 + 16 + 55
  | _ => False end.
Proof. vm_compute. repeat split. Qed.
