(** C49-C53. *)
From Coq Require Import ZArith QArith List String Bool Lia Sorting.Sorted.
From Verif Require Import Base Arr Dict Lutil_model Lutil_spec Lutil_proofs.
Import ListNotations.
Local Open Scope string_scope.
Local Open Scope Z_scope.

(** C49. The user's value where one is given, the default elsewhere, and the same
    key by key inside the detect, metacal and pgauss sections. *)
Theorem C49_user_or_default : forall h u h' r, user_heap h u -> get_config h (Some u) = (h', Ok r) ->
  (forall k, In k (keys_of h' r) <-> In k (keys_of h DEFAULT)) /\
  (forall k, ~ In k ["detect"; "metacal"; "pgauss"] ->
     option_of h' r k = match option_of h u k with Some v => Some v | None => option_of h DEFAULT k end) /\
  (forall k s, In k ["detect"; "metacal"; "pgauss"] ->
     suboption_of h' r k s = match suboption_of h u k s with Some v => Some v | None => suboption_of h DEFAULT k s end).
Proof. intros h u h' r W G. destruct (get_config_values h u h' r W G) as (_ & A & B & C & _). auto. Qed.
Print Assumptions C49_user_or_default.

(** Which dictionaries are accepted; an unknown option is a ValueError. *)
Theorem C49_accepted : forall h u, user_heap h u ->
  ((exists r, snd (get_config h (Some u)) = Ok r) <->
   (forall k, In k (keys_of h u) -> In k (keys_of h DEFAULT)) /\
   (forall k a, In k ["detect"; "metacal"; "pgauss"] -> option_of h u k <> Some (VAtom a)) /\
   (forall s v, suboption_of h u "detect" s = Some v -> s = "thresh") /\
   (forall s v, suboption_of h u "pgauss" s = Some v -> s = "fwhm")).
Proof. exact get_config_ok_iff. Qed.
Print Assumptions C49_accepted.
Theorem C49_unknown_raises : forall h u k, user_heap h u -> In k (keys_of h u) -> ~ In k (keys_of h DEFAULT) ->
  (forall k a, In k ["detect"; "metacal"; "pgauss"] -> option_of h u k <> Some (VAtom a)) ->
  snd (get_config h (Some u)) = Raise ValueError.
Proof. exact get_config_unknown. Qed.
Print Assumptions C49_unknown_raises.

(** No dictionary that existed before the call is changed, whether it returns or
    raises; the result and its sections are new objects. *)
Theorem C49_unmodified : forall h u, user_heap h u ->
  firstn (List.length h) (fst (get_config h (Some u))) = h /\
  firstn (List.length h) (fst (get_config h None)) = h.
Proof. exact get_config_unchanged. Qed.
Print Assumptions C49_unmodified.
Theorem C49_fresh : forall h u h' r, user_heap h u -> get_config h (Some u) = (h', Ok r) ->
  (List.length h <= r)%nat /\
  forall k q, In k ["detect"; "metacal"; "pgauss"] -> option_of h' r k = Some (VRef q) -> (List.length h <= q)%nat.
Proof. intros h u h' r W G. destruct (get_config_values h u h' r W G) as (-> & _ & _ & _ & F). split; [lia|exact F]. Qed.
Print Assumptions C49_fresh.

Definition ex_heap : heap :=
  (default_heap ++ [[("thresh", VAtom (AFloat 10))]; [("detect", VRef 4); ("stamp_size", VAtom (AInt 65))];
                    [("fwhm", VAtom (AFloat 1)); ("sigma", VAtom (AFloat 1))]; [("pgauss", VRef 6)];
                    [("stampsize", VAtom (AInt 65))]])%list.
Lemma ex_heap_ok : user_heap ex_heap 5 /\ user_heap ex_heap 7 /\ user_heap ex_heap 8.
Proof.
  assert (ND : forall d, In d ex_heap -> NoDup (skeys d)).
  { intros d H. cbn in H. repeat destruct H as [<-|H]; try contradiction; cbn;
      repeat (constructor; [cbn; intuition discriminate|]); constructor. }
  repeat split; auto; try (cbn; lia).
  - intros k q. cbn. destruct (String.eqb_spec k "detect"); [intros [= <-]; lia|]. destruct (String.eqb_spec k "stamp_size"); discriminate.
  - intros k q. cbn. destruct (String.eqb_spec k "pgauss"); [intros [= <-]; lia|]. discriminate.
  - intros k q. cbn. destruct (String.eqb_spec k "stampsize"); discriminate.
Qed.
Example C49_example :
  (exists r, snd (get_config ex_heap (Some 5%nat)) = Ok r /\
     suboption_of (fst (get_config ex_heap (Some 5%nat))) r "detect" "thresh" = Some (VAtom (AFloat 10)) /\
     option_of (fst (get_config ex_heap (Some 5%nat))) r "stamp_size" = Some (VAtom (AInt 65)) /\
     suboption_of (fst (get_config ex_heap (Some 5%nat))) r "pgauss" "fwhm" = Some (VAtom (AFloat 2))) /\
  snd (get_config ex_heap (Some 7%nat)) = Raise ValueError /\
  snd (get_config ex_heap (Some 8%nat)) = Raise ValueError.
Proof. split; [eexists; vm_compute; repeat split|split; reflexivity]. Qed.

(** C50. When no value is given for a key called "stamp_size": the overrides are
    accepted exactly when every key is a field, and then every given value is in
    force and nothing else has changed. *)
Theorem C50_effect_partial : forall o c c', distinct_keys o -> no_stamp_size o -> override c o = (c', Ok tt) ->
  (forall p a, given o p = Some a -> value_at c' p = Some a) /\
  (forall p, untouched o p -> field c' p = field c p).
Proof. exact override_effect. Qed.
Print Assumptions C50_effect_partial.
Theorem C50_accepted_partial : forall items c, let o := ODict items in distinct_keys o -> no_stamp_size o ->
  (snd (override c o) = Ok tt <-> known_keys c o) /\
  (~ known_keys c o -> snd (override c o) = Raise AttributeError).
Proof.
  intros items c o D N. pose proof (override_known o c (ex_intro _ items eq_refl) D N) as K. split; [exact K|].
  intros NK. destruct (override c o) as [c' r] eqn:E. cbn [snd] in *.
  destruct (override_raises_only o c c' r E) as [-> | ->]; [|reflexivity]. destruct NK. now apply K.
Qed.
Print Assumptions C50_accepted_partial.
(** A value given for "stamp_size" is accepted and dropped, whether the field
    exists or not. *)
Theorem C50_stamp_size_refuted :
  (exists c o c' a b, override c o = (c', Ok tt) /\ given o ["stamp_size"] = Some a /\
     value_at c' ["stamp_size"] = Some b /\ a <> b) /\
  (exists c o c', override c o = (c', Ok tt) /\ ~ known_keys c o).
Proof.
  split.
  - exists (CNode [("stamp_size", CLeaf (AInt 49))]), (ODict [("stamp_size", OLeaf (AInt 65))]). do 3 eexists.
    split; [reflexivity|]. split; [reflexivity|]. split; [reflexivity|]. discriminate.
  - exists (CNode [("x", CLeaf (AInt 49))]), (ODict [("stamp_size", OLeaf (AInt 65))]). eexists. split; [reflexivity|].
    intros K. inversion K as [|c0 it KK]; subst. destruct (KK _ _ (or_introl eq_refl)) as (s & S & _). discriminate.
Qed.
Print Assumptions C50_stamp_size_refuted.
(** What happens instead: a value for "stamp_size" in the overrides of a
    configuration is skipped. The call does what it does without it. *)
Theorem C50_stamp_size_ignored : forall fields items,
  override (CNode fields) (ODict items) =
  override (CNode fields) (ODict (filter (fun kv => match snd kv with OLeaf _ => negb (String.eqb (fst kv) "stamp_size") | ODict _ => true end) items)).
Proof. exact (fun fields items => override_skips items fields). Qed.
Print Assumptions C50_stamp_size_ignored.
Definition ex_cfg := CNode [("thresholdValue", CLeaf (AFloat 5)); ("sub", CNode [("bin", CLeaf (AInt 4)); ("edge", CLeaf (ABool true))])].
Definition ex_ov := ODict [("sub", ODict [("bin", OLeaf (AInt 8))])].
Example C50_example : distinct_keys ex_ov /\ no_stamp_size ex_ov /\ known_keys ex_cfg ex_ov /\
  override ex_cfg ex_ov = (CNode [("thresholdValue", CLeaf (AFloat 5)); ("sub", CNode [("bin", CLeaf (AInt 8)); ("edge", CLeaf (ABool true))])], Ok tt) /\
  snd (override ex_cfg (ODict [("sub", ODict [("bins", OLeaf (AInt 8))])])) = Raise AttributeError.
Proof.
  repeat split.
  - constructor; [repeat (constructor; [cbn; tauto|]); constructor|]. intros k o [[= <- <-]|[]].
    constructor; [repeat (constructor; [cbn; tauto|]); constructor|]. intros k o [[= <- <-]|[]]. constructor.
  - constructor. intros k o [[= <- <-]|[]]. split; [|discriminate]. constructor. intros k o [[= <- <-]|[]]. split; [constructor|].
    intros. discriminate.
  - constructor. intros k o [[= <- <-]|[]]. eexists. split; [reflexivity|]. constructor. intros k o [[= <- <-]|[]].
    eexists. split; [reflexivity|]. constructor.
Qed.

(** C51. Without a request all bands; otherwise exactly the indices of the
    requested bands, each once; a missing band is a RuntimeError. *)
Definition requested_bands (bands : list string) (requested : option (list string)) : list string :=
  match requested with None => bands | Some [] => bands | Some l => l end.
Lemma requested_asked : forall bands r, requested_bands bands r = asked bands r.
Proof. intros bands [[|x l]|]; reflexivity. Qed.
Theorem C51_exact_partial : forall bands requested r, extract_shear_band_indices bands requested = Ok r ->
  NoDup r /\
  forall i, In i r <-> 0 <= i /\ exists b, nth_error bands (Z.to_nat i) = Some b /\ In b (requested_bands bands requested).
Proof.
  intros bands requested r H. split; [|rewrite requested_asked; exact (shear_bands_exact bands requested r H)].
  apply sorted_nodup. exact (shear_bands_sorted bands requested r H).
Qed.
Print Assumptions C51_exact_partial.
Theorem C51_missing_raises : forall bands requested,
  (exists b, In b (requested_bands bands requested) /\ ~ In b bands) <->
  extract_shear_band_indices bands requested = Raise RuntimeError.
Proof. intros. rewrite requested_asked. apply shear_bands_error. Qed.
Print Assumptions C51_missing_raises.
Theorem C51_none_all : forall bands r, extract_shear_band_indices bands None = Ok r -> r = zrange (zlen bands).
Proof.
  intros bands r H. unfold extract_shear_band_indices in H. destruct (forallb _ _); [|discriminate]. apply Ok_inj in H. subst r.
  assert (F : filter (fun ib : Z * string => smem (snd ib) bands) (combine (zrange (zlen bands)) bands) = combine (zrange (zlen bands)) bands).
  { assert (G : forall l, (forall x, In x l -> smem (snd x) bands = true) -> filter (fun ib : Z * string => smem (snd ib) bands) l = l).
    { induction l as [|x l IH]; intros G; [reflexivity|]. cbn. rewrite G by now left. rewrite IH; auto. intros; apply G; now right. }
    apply G. intros [i b] I. apply smem_In. apply in_combine_r in I. exact I. }
  rewrite F. clear F. rewrite zrange_len. generalize 0%nat as s. induction bands as [|b l IH]; intros s; cbn; [reflexivity|]. now rewrite IH.
Qed.
Print Assumptions C51_none_all.
(** The order is that of the data, not that of the request. *)
Theorem C51_order_refuted : exists bands requested r,
  extract_shear_band_indices bands (Some requested) = Ok r /\
  map (fun i => nth_error bands (Z.to_nat i)) r <> map Some requested.
Proof. exists ["g"; "r"; "i"], ["i"; "g"]. eexists. split; [reflexivity|]. discriminate. Qed.
Print Assumptions C51_order_refuted.
(** What holds: the order is that of the data. *)
Theorem C51_data_order : forall bands requested r, extract_shear_band_indices bands requested = Ok r -> StronglySorted Z.lt r.
Proof. exact indices_sorted. Qed.
Print Assumptions C51_data_order.
Example C51_example : extract_shear_band_indices ["g"; "r"; "i"; "z"] (Some ["i"; "r"]) = Ok [1; 2] /\
  extract_shear_band_indices ["g"; "r"] (Some ["u"]) = Raise RuntimeError /\
  extract_shear_band_indices ["g"; "r"] None = Ok [0; 1].
Proof. repeat split. Qed.

(** C52. [e] is the box of the image, (x, y) the first peak of the object. *)
Theorem C52_unclipped : forall e x y ps s, 0 <= s ->
  let k := s / 2 in
  let inside_image := forall x' y', x - k <= x' <= x + k -> y - k <= y' <= y + k -> in_box e x' y' in
  (inside_image -> get_bbox e ((x, y) :: ps) s false = Ok (Some (mkBox (x - k) (y - k) (x + k) (y + k)))) /\
  (~ inside_image -> get_bbox e ((x, y) :: ps) s false = Raise LengthError).
Proof. exact get_bbox_noclip. Qed.
Print Assumptions C52_unclipped.
Theorem C52_clipped : forall e x y ps s, 0 <= s ->
  exists b, get_bbox e ((x, y) :: ps) s true = Ok b /\
    forall x' y', in_box b x' y' <-> in_box e x' y' /\ x - s / 2 <= x' <= x + s / 2 /\ y - s / 2 <= y' <= y + s / 2.
Proof. exact get_bbox_clip. Qed.
Print Assumptions C52_clipped.
Example C52_example :
  get_bbox (Some (mkBox 100 200 199 299)) [(150, 250)] 49 false = Ok (Some (mkBox 126 226 174 274)) /\
  get_bbox (Some (mkBox 100 200 199 299)) [(110, 250)] 49 false = Raise LengthError /\
  get_bbox (Some (mkBox 100 200 199 299)) [(110, 250)] 48 true = Ok (Some (mkBox 100 226 134 274)).
Proof. repeat split. Qed.

(** C53. An image with odd dimensions gives the largest square with the same
    centre; an odd square one is returned as it is. *)
Theorem C53_odd_partial : forall A (im : img A), 1 <= nr im -> 1 <= nc im -> nr im mod 2 = 1 -> nc im mod 2 = 1 ->
  exists r, trim_odd_image im = Ok r /\ nr r = Z.min (nr im) (nc im) /\ nc r = nr r /\ nr r mod 2 = 1 /\
    (forall i j, px r i j = px im (i + (nr im - nr r) / 2) (j + (nc im - nc r) / 2)) /\
    px r ((nr r - 1) / 2) ((nc r - 1) / 2) = px im ((nr im - 1) / 2) ((nc im - 1) / 2) /\
    (nr im = nc im -> r = im).
Proof.
  intros A im Hr Hc Or Oc. destruct (Z.eq_dec (nr im) (nc im)) as [E|N].
  - exists im. rewrite (trim_square A im E). rewrite !Z.sub_diag. cbn. repeat split; auto; try lia.
    intros i j. now rewrite !Z.add_0_r.
  - destruct (trim_nonsquare A im Hr Hc N Or Oc) as (r & E & R & C & P). exists r. split; [exact E|]. split; [exact R|].
    split; [congruence|]. split; [destruct (Z.min_spec (nr im) (nc im)) as [[_ M]|[_ M]]; congruence|]. split; [exact P|]. split; [|contradiction].
    rewrite P. f_equal; Z.div_mod_to_equations; lia.
Qed.
Print Assumptions C53_odd_partial.
(** Even dimensions are refused when the image is not square, but an even square
    image is returned as it is. *)
Theorem C53_even_raises : forall A (im : img A), nr im <> nc im -> nr im mod 2 = 0 \/ nc im mod 2 = 0 ->
  trim_odd_image im = Raise AssertionError.
Proof.
  intros A im N O. unfold trim_odd_image. apply Z.eqb_neq in N. rewrite N.
  destruct O as [O|O]; rewrite O; rewrite ?orb_true_r; reflexivity.
Qed.
Print Assumptions C53_even_raises.
Theorem C53_even_square_refuted : exists im r : img Z, trim_odd_image im = Ok r /\ nr r mod 2 = 0 /\ 1 <= nr r.
Proof. exists (ifill 4 4 0), (ifill 4 4 0). repeat split. cbn. lia. Qed.
Print Assumptions C53_even_square_refuted.
(** What happens instead: every square image is returned as it is, odd or even. *)
Theorem C53_square_unchanged : forall A (im : img A), nr im = nc im -> trim_odd_image im = Ok im.
Proof. intros A im H. unfold trim_odd_image. rewrite H, Z.eqb_refl. reflexivity. Qed.
Print Assumptions C53_square_unchanged.
Example C53_example : exists r, trim_odd_image (mkImg 5 3 (fun i j => 10 * i + j)) = Ok r /\ pixels r = [10; 11; 12; 20; 21; 22; 30; 31; 32].
Proof. eexists. split; reflexivity. Qed.
