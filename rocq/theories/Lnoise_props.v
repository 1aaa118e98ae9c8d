(** C60, C82. *)
From Coq Require Import ZArith QArith List Bool Lia.
From Verif Require Import Base Arr Median Lsub_model Lnoise_model Lnoise_spec Lnoise_proofs.
Import ListNotations.
Local Open Scope Z_scope.

(** C60. After the noise replacer context every band is as it was before,
    whatever was done inside: sources inserted and removed in any order, blocks
    nested, exceptions. Two conditions: the construction did not raise, and
    every source lies in footprints of sources without parent. *)
Theorem C60_restored_partial : forall P (cat : catalogue), NoDup (map fst cat) ->
  forall bands p ims t r, no_failure P bands -> parents_cover cat -> session P cat bands p = (ims, t, r) -> as_before P bands ims.
Proof. exact session_restores. Qed.
Print Assumptions C60_restored_partial.

(** After a sourceInserted block the pixels of its source are noise in all bands,
    whatever the block did and however it was left. *)
Theorem C60_noise_again : forall P (cat : catalogue), NoDup (map fst cat) ->
  forall bands id p opened s s' t r, In id (map fst cat) -> List.length s = List.length bands ->
  nexec P cat bands (NInserted id p) opened s = (s', t, r) ->
  Forall2 (fun b im => forall x y, in_source cat id x y -> im x y = n_noise P b x y) bands s'.
Proof. exact noise_again. Qed.
Print Assumptions C60_noise_again.
(** If sources are inserted only with such blocks, all detected pixels are noise
    and the others untouched after each of them; an unknown id raises KeyError
    and changes nothing. *)
Theorem C60_blocks : forall P (cat : catalogue), NoDup (map fst cat) ->
  forall bands p opened s s' t r, scoped p -> all_noise P cat bands s ->
  nexec P cat bands p opened s = (s', t, r) -> all_noise P cat bands s'.
Proof. exact scoped_all_noise. Qed.
Print Assumptions C60_blocks.
Theorem C60_start : forall P (cat : catalogue), NoDup (map fst cat) ->
  forall bands, no_failure P bands -> exists ims, set_replacers P cat bands = (ims, Ok tt) /\ all_noise P cat bands ims.
Proof. intros P cat N bands F. exists (map (replaced P cat) bands). split; [apply set_ok; exact F|apply replaced_all_noise; exact N]. Qed.
Print Assumptions C60_start.
Theorem C60_unknown_id : forall P (cat : catalogue), NoDup (map fst cat) ->
  forall bands id p opened s, bands <> [] -> List.length s = List.length bands -> ~ In id (map fst cat) ->
  nexec P cat bands (NInserted id p) opened s = (s, [], Raise KeyError).
Proof. exact unknown_raises. Qed.
Print Assumptions C60_unknown_id.
(** What is seen in a block that contains no other block: the original data in
    the footprint of its source and outside all footprints, noise elsewhere. *)
Theorem C60_shown : forall P (cat : catalogue), NoDup (map fst cat) ->
  forall bands p s s' t r, bands <> [] -> flat p -> all_noise P cat bands s -> nexec P cat bands p [] s = (s', t, r) ->
  forall opened ims, In (opened, ims) t ->
    (opened = [] /\ all_noise P cat bands ims) \/ exists id, In id (map fst cat) /\ opened = [id] /\ only_source P cat id bands ims.
Proof. exact flat_sights. Qed.
Print Assumptions C60_shown.

(** Example: source 1 with its two overlapping children 2 and 3, two bands. *)
Definition sq (x0 x1 y0 y1 : Z) : pixset := fun x y => (x0 <=? x) && (x <=? x1) && (y0 <=? y) && (y <=? y1).
Definition ex_cat : catalogue := [(1, (0, sq 0 5 0 5)); (2, (1, sq 0 3 0 3)); (3, (1, sq 2 5 2 5)); (4, (0, sq 8 9 8 9))].
Definition ex_band (k : Z) : band Z := mkBand Z (fun x y => 100 * x + y + k) (fun x y => - (1 + x + y + k)) None.
Definition ex_bands : list (band Z) := [ex_band 0; ex_band 1000].
Definition ex_prog : nprog :=
  NSeq NLook (NSeq (NCatch (NInserted 2 (NSeq NLook (NFail ValueError)))) (NSeq (NInserted 3 NLook) (NSeq NLook (NInserted 9 NLook)))).
Example C60_example : NoDup (map fst ex_cat) /\ no_failure Z ex_bands /\ parents_cover ex_cat /\ flat ex_prog /\
  exists ims t, session Z ex_cat ex_bands ex_prog = (ims, t, Raise KeyError) /\ map fst t = [[]; [2]; [3]; []] /\
    (* the images of the second band at (3, 2), (0, 0), (7, 7) *)
    map (fun g => map (fun im => (im 3 2, im 0 0, im 7 7)) (skipn 1 (snd g))) t =
      [[(-1006, -1001, 1707)]; [(1302, 1000, 1707)]; [(1302, -1001, 1707)]; [(-1006, -1001, 1707)]] /\
    map (fun im => (im 3 2, im 0 0, im 7 7)) ims = [(302, 0, 707); (1302, 1000, 1707)].
Proof.
  split; [repeat constructor; cbn; intuition discriminate|]. split; [intros b [<-|[<-|[]]]; reflexivity|]. split; [|split; [cbn; tauto|]].
  - intros x y [id [parent [f [Hi Hf]]]]. destruct Hi as [H|[H|[H|[H|[]]]]]; rewrite !pair_equal_spec in H; destruct H as [<- [<- <-]];
      [exists 1, (sq 0 5 0 5)|exists 1, (sq 0 5 0 5)|exists 1, (sq 0 5 0 5)|exists 4, (sq 8 9 8 9)]; cbn [ex_cat In];
      (split; [tauto|]); unfold sq in *; rewrite !andb_true_iff, !Z.leb_le in *; lia.
  - do 2 eexists. split; [reflexivity|]. split; [reflexivity|]. split; reflexivity.
Qed.

(** The two conditions are needed. If making the replacer of a later band fails,
    the earlier bands stay replaced by noise: there is no object on which the
    exit could be run. *)
Theorem C60_constructor_refuted : exists bands p ims t e,
  session Z ex_cat bands p = (ims, t, Raise e) /\ parents_cover ex_cat /\ ~ as_before Z bands ims.
Proof.
  exists [ex_band 0; mkBand Z (fun x y => x) (fun x y => y) (Some LengthError)], NDone. do 3 eexists. split; [reflexivity|].
  split; [exact (proj1 (proj2 (proj2 C60_example)))|]. intros H. inversion H; subst. specialize (H3 0 0). vm_compute in H3. discriminate.
Qed.
Print Assumptions C60_constructor_refuted.
(** If only children are in the catalogue nothing is restored at the end. *)
Theorem C60_children_refuted : exists cat ims t,
  NoDup (map fst cat) /\ no_failure Z ex_bands /\ session Z cat ex_bands (NInserted 2 NLook) = (ims, t, Ok tt) /\ ~ as_before Z ex_bands ims.
Proof.
  exists [(2, (1, sq 0 3 0 3)); (3, (1, sq 2 5 2 5))]. do 2 eexists. split; [repeat constructor; cbn; intuition discriminate|].
  split; [intros b [<-|[<-|[]]]; reflexivity|]. split; [reflexivity|]. intros H. inversion H; subst. specialize (H3 0 0). vm_compute in H3. discriminate.
Qed.
Print Assumptions C60_children_refuted.
(** In a block around another block an overlapping source is noise once the inner
    block was left: C60_shown does not hold for nested blocks. *)
Theorem C60_nested_refuted : exists ims0 s t r ims,
  set_replacers Z ex_cat ex_bands = (ims0, Ok tt) /\
  nexec Z ex_cat ex_bands (NInserted 2 (NSeq (NInserted 3 NDone) NLook)) [] ims0 = (s, t, r) /\
  In ([2], ims) t /\ ~ only_source Z ex_cat 2 ex_bands ims.
Proof.
  do 5 eexists. split; [reflexivity|]. split; [reflexivity|]. split; [left; reflexivity|]. intros H. inversion H; subst.
  specialize (H3 3 2). destruct H3 as [H3 _].
  assert (in_source ex_cat 2 3 2) by (exists 1, (sq 0 3 0 3); split; [cbn; tauto|reflexivity]). apply H3 in H0. vm_compute in H0. discriminate.
Qed.
Print Assumptions C60_nested_refuted.

(** C82. The noise image is drawn, pixel by pixel, with the median variance of
    the pixels whose image and variance are finite, and its variance plane is
    that median everywhere; nan when there is no such pixel. *)
Theorem C82_median : forall signal variance normal im vr,
  get_noise_image signal variance None normal = (im, vr) ->
  nr im = nr signal /\ nc im = nc signal /\ nr vr = nr signal /\ nc vr = nc signal /\
  ((exists i j s v, finite_pixel signal variance i j s v) ->
     exists m l, is_median m l /\
       (forall v, In v l <-> exists i j s, finite_pixel signal variance i j s v) /\
       forall i j, px vr i j = Some m /\ px im i j = normal (Some m) i j) /\
  (~ (exists i j s v, finite_pixel signal variance i j s v) -> forall i j, px vr i j = None /\ px im i j = normal None i j).
Proof.
  intros signal variance normal im vr H. unfold get_noise_image in H. rewrite pair_equal_spec in H. destruct H as [<- <-].
  split; [reflexivity|]. split; [reflexivity|]. split; [reflexivity|]. split; [reflexivity|]. cbn [option_map].
  assert (U : forall v, In v (usable signal variance None) <-> exists i j s, finite_pixel signal variance i j s v).
  { intros v. rewrite usable_in. unfold finite_pixel. split.
    - intros [i [j [s [w [A [B [C ->]]]]]]]. exists i, j, s. auto.
    - intros [i [j [s [A [B C]]]]]. exists i, j, s, v. auto. }
  split.
  - intros [i [j [s [v Hp]]]]. destruct (qmedian (usable signal variance None)) as [m|] eqn:E.
    + exists m, (usable signal variance None). split; [apply qmedian_is_median; exact E|]. split; [exact U|]. intros. split; reflexivity.
    + apply qmedian_none in E. assert (In v []) by (rewrite <- E; apply U; eauto). destruct H.
  - intros Hn. assert (E : usable signal variance None = []).
    { destruct (usable signal variance None) as [|v l] eqn:E; [reflexivity|]. destruct Hn.
      destruct (proj1 (U v)) as [i [j [s Hp]]]; [rewrite ?E; left; reflexivity|]. eauto. }
    rewrite E. intros. split; reflexivity.
Qed.
Print Assumptions C82_median.
(** With remove_poisson the data number divided by the mean gain is taken off each
    variance first. *)
Theorem C82_poisson : forall signal variance gains normal im vr,
  get_noise_image signal variance (Some gains) normal = (im, vr) ->
  forall i j s v, finite_pixel signal variance i j s v ->
  exists m l, is_median m l /\
    (forall w, In w l <-> exists i j s v, finite_pixel signal variance i j s v /\
       w = (v - s / (qsum gains / inject_Z (Z.of_nat (List.length gains))))%Q) /\
    forall i j, px vr i j = Some m /\ px im i j = normal (Some m) i j.
Proof.
  intros signal variance gains normal im vr H i j s v Hp. unfold get_noise_image in H. rewrite pair_equal_spec in H. destruct H as [<- <-].
  cbn [option_map]. fold (mean_gain gains). set (g := mean_gain gains).
  assert (U : forall w, In w (usable signal variance (Some g)) <-> exists i j s v, finite_pixel signal variance i j s v /\ w = (v - s / g)%Q).
  { intros w. rewrite usable_in. unfold finite_pixel. split.
    - intros [a [b [c [d [A [B [C ->]]]]]]]. exists a, b, c, d. auto.
    - intros [a [b [c [d [[A [B C]] ->]]]]]. exists a, b, c, d. auto. }
  destruct (qmedian (usable signal variance (Some g))) as [m|] eqn:E.
  - exists m, (usable signal variance (Some g)). split; [apply qmedian_is_median; exact E|]. split; [exact U|]. intros. split; reflexivity.
  - apply qmedian_none in E. assert (F : In (v - s / g)%Q []) by (rewrite <- E; apply U; exists i, j, s, v; auto). destruct F.
Qed.
Print Assumptions C82_poisson.
Definition ex_signal : img (option Q) := mkImg 2 2 (fun i j => if i =? 1 then Some (inject_Z j) else if j =? 0 then None else Some 3%Q).
Definition ex_variance : img (option Q) := mkImg 2 2 (fun i j => if (i =? 1) && (j =? 1) then None else Some (inject_Z (i + 2 * j + 1))).
Example C82_example :
  (exists i j s v, finite_pixel ex_signal ex_variance i j s v) /\
  match px (snd (get_noise_image ex_signal ex_variance None (fun v _ _ => v))) 0 1 with Some q => (q == 5 # 2)%Q | None => False end.
Proof. split; [exists 1, 0, 0%Q, (inject_Z 2); vm_compute; intuition congruence|]. vm_compute. reflexivity. Qed.
