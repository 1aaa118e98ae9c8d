(** C59, C80, C81. *)
From Coq Require Import ZArith List String Bool Lia SpecFloat.
From Verif Require Import Base Dict Lutil_model Lsub_model Lsub_spec Lsub_proofs.
Import ListNotations.
Local Open Scope string_scope.
Local Open Scope Z_scope.

(** C59. [l]: the deblended sources with their models, [foot] the boxes of their
    footprints, [orig] the exposures. Every program that adds sources (nested,
    repeated, with exceptions anywhere, swallowed or not) leaves the subtractor
    as it found it. Pixel arithmetic is exact here: see C59_float_refuted. *)
Theorem C59_restored_partial : forall P add sub (zero : P), exact_arith add sub zero ->
  forall mbands bands ebox foot l orig s, NoDup mbands -> NoDup bands -> incl bands mbands -> NoDup (map (b_id P) l) ->
  make_subtractor P sub mbands bands ebox foot l orig = Ok s ->
  forall p s' t r, exec P add sub p [] s = (s', t, r) -> same_state P s s'.
Proof.
  intros P add sub zero E mbands bands ebox foot l orig s Nm Nb Hi Ni Hs p s' t r H.
  exact (proj1 (exec_made P add sub zero E mbands bands ebox foot l orig s Nm Nb Hi Ni Hs p s' t r H)).
Qed.
Print Assumptions C59_restored_partial.

(** While exactly one source is added, the images are the original ones minus
    the models of the other sources; while none is, minus all models. *)
Theorem C59_one_source_partial : forall P add sub (zero : P), exact_arith add sub zero ->
  forall mbands bands ebox foot l orig s, NoDup mbands -> NoDup bands -> incl bands mbands -> NoDup (map (b_id P) l) ->
  make_subtractor P sub mbands bands ebox foot l orig = Ok s ->
  forall p s' t r id im, exec P add sub p [] s = (s', t, r) -> In ([id], im) t ->
  forall band x y, In band bands -> exists others,
    values_at P foot band x y (filter (fun b => negb (b_id P b =? id)) l) others /\
    im band x y = minus_all P sub (orig band x y) others.
Proof.
  intros P add sub zero E mbands bands ebox foot l orig s Nm Nb Hi Ni Hs p s' t r id im H Hg.
  exact (one_open P add sub zero E mbands bands ebox foot l orig s Nm Nb Hi Ni Hs p s' t r id im H Hg).
Qed.
Print Assumptions C59_one_source_partial.
Theorem C59_no_source_partial : forall P add sub (zero : P), exact_arith add sub zero ->
  forall mbands bands ebox foot l orig s, NoDup mbands -> NoDup bands -> incl bands mbands -> NoDup (map (b_id P) l) ->
  make_subtractor P sub mbands bands ebox foot l orig = Ok s ->
  forall p s' t r im, exec P add sub p [] s = (s', t, r) -> In ([], im) t ->
  forall band x y, In band bands -> exists all,
    values_at P foot band x y l all /\ im band x y = minus_all P sub (orig band x y) all.
Proof.
  intros P add sub zero E mbands bands ebox foot l orig s Nm Nb Hi Ni Hs p s' t r im H Hg.
  exact (none_open P add sub zero E mbands bands ebox foot l orig s Nm Nb Hi Ni Hs p s' t r im H Hg).
Qed.
Print Assumptions C59_no_source_partial.
(** In general the models of the open sources are added. *)
Theorem C59_nested_partial : forall P add sub (zero : P), exact_arith add sub zero ->
  forall mbands bands ebox foot l orig s, NoDup mbands -> NoDup bands -> incl bands mbands -> NoDup (map (b_id P) l) ->
  make_subtractor P sub mbands bands ebox foot l orig = Ok s ->
  forall p s' t r opened im, exec P add sub p [] s = (s', t, r) -> In (opened, im) t ->
  exists bs, incl bs l /\ map (b_id P) bs = opened /\
  forall band x y, In band bands -> exists all vs,
    values_at P foot band x y l all /\ values_at P foot band x y bs vs /\
    im band x y = plus_all P add (minus_all P sub (orig band x y) all) vs.
Proof.
  intros P add sub zero E mbands bands ebox foot l orig s Nm Nb Hi Ni Hs p s' t r opened im H Hg.
  exact (sights P add sub zero E mbands bands ebox foot l orig s Nm Nb Hi Ni Hs p s' t r opened im H Hg).
Qed.
Print Assumptions C59_nested_partial.
(** The full model is the sum of the models, and with the subtracted images it
    adds up to the original ones. *)
Theorem C59_full_model_partial : forall P add sub (zero : P), exact_arith add sub zero ->
  forall mbands bands ebox foot l orig s, NoDup mbands -> NoDup bands -> incl bands mbands -> NoDup (map (b_id P) l) ->
  make_subtractor P sub mbands bands ebox foot l orig = Ok s ->
  exists im, get_full_model P add zero s = Ok im /\
  forall band x y, In band bands ->
    add (s_cur P s band x y) (im band x y) = orig band x y /\
    exists all, values_at P foot band x y l all /\ im band x y = plus_all P add zero all.
Proof.
  intros P add sub zero E mbands bands ebox foot l orig s Nm Nb Hi Ni Hs.
  exact (full_model_made P add sub zero E mbands bands ebox foot l orig s Nm Nb Hi Ni Hs).
Qed.
Print Assumptions C59_full_model_partial.

(** With the 32 bit floating point numbers of the exposures neither half of the
    property is true: where two sources overlap the image that is shown is not
    the original minus the other model, and the image that is left behind is not
    the one that was found. *)
Definition f32add := SFadd 24 128.
Definition f32sub := SFsub 24 128.
Definition f32 (z : Z) : spec_float := binary_normalize 24 128 z 0 false.
Definition fl_foot (id : Z) : option (box * list (Z * Z)) := Some (Some (mkBox 0 0 3 3), [(1, 1)]).
Definition fl_src (id v : Z) : blend_source spec_float :=
  mkBlend spec_float id (fun _ x y => if (x =? 1) && (y =? 1) then Some (f32 v) else None).
Definition fl_orig : images spec_float := fun _ _ _ => f32 16779928.
Theorem C59_float_refuted : exists s s' t r im im0,
  make_subtractor spec_float f32sub ["r"; "i"] ["r"; "i"] (Some (mkBox 0 0 3 3)) fl_foot [fl_src 1 9; fl_src 2 2362] fl_orig = Ok s /\
  exec spec_float f32add f32sub (Add 1 Look) [] s = (s', t, r) /\ In ([1], im) t /\
  (* shown: not 16779928 - 2362 *)
  im0 = f32sub (f32 16779928) (f32 2362) /\ im "r" 1 1 <> im0 /\
  (* left behind *)
  s_cur spec_float s' "r" 1 1 <> s_cur spec_float s "r" 1 1.
Proof.
  do 6 eexists. split; [reflexivity|]. split; [reflexivity|]. split; [left; reflexivity|]. split; [reflexivity|].
  split; vm_compute; discriminate.
Qed.
Print Assumptions C59_float_refuted.

(** A band for which the model data has no model: the error is raised before the
    try statement, with the bands before it already changed. *)
Definition z_foot (id : Z) : option (box * list (Z * Z)) :=
  if id =? 5 then Some (Some (mkBox 0 0 2 2), [(1, 1)]) else if id =? 7 then Some (Some (mkBox 1 1 3 3), [(2, 2)]) else None.
Definition z_src5 : blend_source Z := mkBlend Z 5 (fun band x y => if band =? "r" then Some 10 else Some 20)%string.
Definition z_src7 : blend_source Z := mkBlend Z 7 (fun band x y => Some (x + y)).
Definition z_orig : images Z := fun band x y => 100 * x + y.
Definition z_box : box := Some (mkBox 0 0 9 9).
Theorem C59_band_mismatch_refuted : exists s s' t,
  make_subtractor Z Z.sub ["g"; "r"] ["r"; "g"; "i"] z_box z_foot [z_src5; z_src7] z_orig = Ok s /\
  exec Z Z.add Z.sub (Add 5 Done) [] s = (s', t, Raise KeyError) /\
  s_cur Z s' "r" 0 0 <> s_cur Z s "r" 0 0.
Proof. do 3 eexists. split; [reflexivity|]. split; [reflexivity|]. vm_compute. discriminate. Qed.
Print Assumptions C59_band_mismatch_refuted.

(** The hypotheses of the theorems above. *)
Lemma z_exact : exact_arith Z.add Z.sub 0.
Proof. constructor; intros; lia. Qed.
Definition z_prog : prog :=
  Seq Look (Seq (Catch (Add 5 (Seq Look (Add 7 (Seq Look (Fail ValueError)))))) (Seq (Add 7 Look) (Add 6 Look))).
Example C59_example : exists s s' t, NoDup ["g"; "r"] /\ NoDup (map (b_id Z) [z_src5; z_src7]) /\
  make_subtractor Z Z.sub ["g"; "r"] ["g"; "r"] z_box z_foot [z_src5; z_src7] z_orig = Ok s /\
  exec Z Z.add Z.sub z_prog [] s = (s', t, Raise ValueError) /\
  map fst t = [[]; [5]; [7; 5]; [7]] /\
  map (fun g => snd g "r" 1 2) t = [102 - 10 - 3; 102 - 3; 102; 102 - 10].
Proof.
  do 3 eexists. split; [repeat constructor; cbn; intuition discriminate|]. split; [repeat constructor; cbn; intuition discriminate|].
  split; [reflexivity|]. split; [reflexivity|]. split; reflexivity.
Qed.

(** C80. Stamps of the original data do not depend on what is subtracted or
    added; deblended stamps are the current images. The stamp is the square of
    half width stamp_size // 2 around the first peak of the source. *)
Theorem C80_stamp : forall P s id n clip type t, type <> "model" -> 0 <= n ->
  get_stamp P s id (Some n) clip type = Ok t ->
  exists e x y r c,
    In (id, e) (s_entries P s) /\ en_peaks P e = (x, y) :: r /\ t_box P t = Some (Some c) /\
    (forall i j, in_box (Some c) i j -> in_box (s_box P s) i j) /\
    (clip = false -> c = mkBox (x - n / 2) (y - n / 2) (x + n / 2) (y + n / 2)) /\
    (clip = true -> forall i j, in_box (Some c) i j <->
       in_box (s_box P s) i j /\ x - n / 2 <= i <= x + n / 2 /\ y - n / 2 <= j <= y + n / 2) /\
    (type = "original" -> forall band i j, In band (s_bands P s) -> in_box (Some c) i j ->
       t_pix P t band i j = Some (s_orig P s band i j)) /\
    (type = "deblended" -> forall band i j, In band (s_bands P s) -> in_box (Some c) i j ->
       t_pix P t band i j = Some (s_cur P s band i j)).
Proof.
  intros P s id n clip type t Nm Hn. unfold get_stamp.
  destruct (smem type ["deblended"; "original"; "model"]); cbn [negb]; [|discriminate].
  destruct (String.eqb_spec type "model") as [->|_]; [congruence|].
  unfold sub_bbox, check_source_id. destruct (zget id (s_entries P s)) as [e|] eqn:Ee; cbn [obind]; [|discriminate].
  unfold get_bbox. destruct (en_peaks P e) as [|[x y] r] eqn:Ep; cbn [obind]; [discriminate|].
  assert (Hk : 0 <= n / 2) by (apply Z.div_pos; lia). set (k := n / 2) in *.
  assert (Eg : grow k (Some (mkBox x y x y)) = Some (mkBox (x - k) (y - k) (x + k) (y + k))).
  { unfold grow, norm_box. cbn. replace (x + k <? x - k) with false by (symmetry; apply Z.ltb_ge; lia).
    replace (y + k <? y - k) with false by (symmetry; apply Z.ltb_ge; lia). reflexivity. }
  cbv zeta. rewrite Eg.
  assert (G : forall c, t = mkStamp P (Some (Some c)) (fun band i j =>
      if smem band (s_bands P s) && in_boxb (Some c) i j
      then Some ((if String.eqb type "original" then s_orig P s else s_cur P s) band i j) else None) ->
    (type = "original" -> forall band i j, In band (s_bands P s) -> in_box (Some c) i j ->
       t_pix P t band i j = Some (s_orig P s band i j)) /\
    (type = "deblended" -> forall band i j, In band (s_bands P s) -> in_box (Some c) i j ->
       t_pix P t band i j = Some (s_cur P s band i j))).
  { intros c ->. split; intros -> band i j Hb Hi; apply smem_In in Hb; apply in_boxb_spec in Hi; cbn [t_pix]; rewrite Hb, Hi; reflexivity. }
  destruct clip.
  - cbn [obind]. destruct (clip_box (Some (mkBox (x - k) (y - k) (x + k) (y + k))) (s_box P s)) as [c|] eqn:Ec; [|discriminate].
    intros H. apply Ok_inj in H. symmetry in H. destruct (G c H) as [G1 G2]. exists e, x, y, r, c.
    assert (Hc : forall i j, in_box (Some c) i j <-> in_box (s_box P s) i j /\ x - k <= i <= x + k /\ y - k <= j <= y + k).
    { unfold clip_box in Ec. destruct (s_box P s) as [eb|]; [|discriminate]. unfold norm_box in Ec. cbn in Ec.
      match type of Ec with (if ?q then _ else _) = _ => destruct q; [discriminate|] end. apply Some_inj in Ec. subst c.
      intros i j. cbn. lia. }
    split; [apply zget_In; exact Ee|]. split; [exact Ep|]. split; [subst t; reflexivity|].
    split; [intros i j Hij; apply Hc; exact Hij|]. split; [discriminate|]. split; [intros _; exact Hc|]. auto.
  - destruct (contains_box (s_box P s) (Some (mkBox (x - k) (y - k) (x + k) (y + k)))) eqn:Ec; [|discriminate].
    cbn [obind]. intros H. apply Ok_inj in H. symmetry in H. destruct (G _ H) as [G1 G2].
    exists e, x, y, r, (mkBox (x - k) (y - k) (x + k) (y + k)).
    split; [apply zget_In; exact Ee|]. split; [exact Ep|]. split; [subst t; reflexivity|]. split.
    + unfold contains_box in Ec. destruct (s_box P s) as [eb|]; [|discriminate]. cbn in Ec. rewrite !andb_true_iff, !Z.leb_le in Ec.
      intros i j. cbn. lia.
    + split; [reflexivity|]. split; [discriminate|]. auto.
Qed.
Print Assumptions C80_stamp.
(** What cannot be had. *)
Theorem C80_errors : forall P s id n clip type,
  (~ In type ["deblended"; "original"; "model"] -> get_stamp P s id n clip type = Raise AssertionError) /\
  (In type ["deblended"; "original"; "model"] -> ~ In id (child_ids P s) -> get_stamp P s id n clip type = Raise ValueError).
Proof.
  intros P s id n clip type. unfold get_stamp. split.
  - intros H. apply smem_false in H. rewrite H. reflexivity.
  - intros H Hid. apply smem_In in H. rewrite H. cbn [negb]. unfold get_model, check_source_id.
    apply zget_not_in in Hid. rewrite Hid. cbn [obind]. destruct (String.eqb type "model"); reflexivity.
Qed.
Print Assumptions C80_errors.
(** The documented default, the box of the footprint when no stamp size is given,
    always fails, and the model stamp has the same size whatever stamp size is
    asked for. *)
Theorem C80_no_size_refuted : forall P s id clip type, In type ["deblended"; "original"] -> In id (child_ids P s) ->
  get_stamp P s id None clip type = Raise TypeError.
Proof.
  intros P s id clip type Ht Hid. unfold get_stamp, sub_bbox, check_source_id. unfold child_ids in Hid.
  destruct (zget id (s_entries P s)) as [e|] eqn:E; [|apply zget_not_in in E; tauto].
  destruct Ht as [<-|[<-|[]]]; reflexivity.
Qed.
Print Assumptions C80_no_size_refuted.
Theorem C80_model_size_refuted : forall P s id n n' clip clip', get_model P s id n clip = get_model P s id n' clip'.
Proof. reflexivity. Qed.
Print Assumptions C80_model_size_refuted.
Example C80_example : exists s t t' m,
  make_subtractor Z Z.sub ["g"; "r"] ["g"; "r"] z_box z_foot [z_src5; z_src7] z_orig = Ok s /\
  get_stamp Z s 7 (Some 3) false "original" = Ok t /\ t_box Z t = Some (Some (mkBox 1 1 3 3)) /\ t_pix Z t "r" 1 2 = Some 102 /\
  get_stamp Z s 7 (Some 9) true "deblended" = Ok t' /\ t_box Z t' = Some (Some (mkBox 0 0 6 6)) /\ t_pix Z t' "r" 1 2 = Some 89 /\
  get_stamp Z s 7 (Some 9) false "deblended" = Raise LengthError /\
  get_stamp Z s 5 (Some 1) false "model" = Ok m /\ t_pix Z m "r" 0 0 = Some 10.
Proof. do 4 eexists. repeat (split; [reflexivity|]). reflexivity. Qed.

(** C81. With one band and at least one deblended source the constructor fails:
    a subtractor for single band data cannot be made. *)
Theorem C81_single_band_refuted : forall P sub band bands ebox foot b l orig, foot (b_id P b) <> None ->
  make_subtractor P sub [band] bands ebox foot (b :: l) orig = Raise TypeError.
Proof.
  intros P sub band bands ebox foot b l orig H. unfold make_subtractor. cbn [build].
  destruct (foot (b_id P b)) as [[bx pks]|]; [|congruence]. reflexivity.
Qed.
Print Assumptions C81_single_band_refuted.
(** With several bands, all of them bands of the exposures, it succeeds when
    every source is in the catalogue with a footprint inside the exposure, and
    then the children are the sources, in the order of the model data. *)
Theorem C81_children : forall P sub mbands bands ebox foot l orig,
  (2 <= List.length mbands)%nat -> incl mbands bands -> NoDup mbands -> NoDup (map (b_id P) l) ->
  (forall b, In b l -> exists bx pks, foot (b_id P b) = Some (bx, pks) /\ forall x y, in_box bx x y -> in_box ebox x y) ->
  (forall b bx pks, In b l -> foot (b_id P b) = Some (bx, pks) -> forall c, bx = Some c -> bx0 c <= bx1 c /\ by0 c <= by1 c) ->
  exists s, make_subtractor P sub mbands bands ebox foot l orig = Ok s /\ child_ids P s = map (b_id P) l.
Proof.
  intros P sub mbands bands ebox foot l orig H2 Hi Nm Nd Hf Hne.
  assert (T : forall b, In b l -> foot (b_id P b) <> None /\ touch_ok P bands ebox (entry_of P mbands foot b) mbands).
  { intros b Hb. destruct (Hf b Hb) as [bx [pks [Ef Hin]]]. split; [congruence|]. specialize (Hne b bx pks Hb Ef).
    unfold touch_ok, entry_of. rewrite Ef. cbn [en_heavy en_box]. apply Forall_forall. intros band Hband.
    split; [|split; [auto|]].
    - unfold to_heavy. destruct mbands as [|m1 [|m2 r]]; cbn in H2; try lia. cbn [band_of].
      rewrite sget_map_band. apply smem_In in Hband. rewrite Hband. eauto.
    - unfold contains_box. destruct bx as [c|]; [|reflexivity]. specialize (Hne c eq_refl). cbn in Hin.
      assert (A := Hin (bx0 c) (by0 c)). assert (B := Hin (bx1 c) (by1 c)).
      destruct ebox as [eb|]; cbn in A, B; [|exfalso; apply A; lia].
      rewrite !andb_true_iff, !Z.leb_le. lia. }
  assert (G : forall l', incl l' l -> forall im d, exists r, build P sub mbands bands ebox foot l' im d = Ok r).
  { induction l' as [|b l' IH]; intros I im d; cbn [build]; [eauto|].
    destruct (T b) as [Hb Ho]; [apply I; left; reflexivity|].
    assert (Ee : forall bx pks, foot (b_id P b) = Some (bx, pks) -> mkEntry P bx pks (to_heavy P mbands b) = entry_of P mbands foot b).
    { intros bx pks E. unfold entry_of. rewrite E. reflexivity. }
    destruct (foot (b_id P b)) as [[bx pks]|]; [|congruence]. rewrite (Ee bx pks eq_refl).
    destruct (touch_all_ok P sub bands ebox (entry_of P mbands foot b) mbands im Ho) as [im1 E1]. rewrite E1. cbn [obind].
    apply IH. intros c Hc. apply I. right. exact Hc. }
  destruct (G l (incl_refl l) orig []) as [[im d] E]. unfold make_subtractor. rewrite E. cbn [obind fst snd]. eexists. split; [reflexivity|].
  apply build_value in E; [|exact Nm]. destruct E as [_ [-> _]]. unfold child_ids. cbn [s_entries].
  rewrite fold_put_fresh by auto. cbn [List.app]. rewrite map_map. reflexivity.
Qed.
Print Assumptions C81_children.
Example C81_example : exists s, make_subtractor Z Z.sub ["g"; "r"] ["g"; "r"; "i"] z_box z_foot [z_src7; z_src5] z_orig = Ok s /\ child_ids Z s = [7; 5] /\
  make_subtractor Z Z.sub ["r"] ["r"] z_box z_foot [z_src7; z_src5] z_orig = Raise TypeError /\
  make_subtractor Z Z.sub ["g"; "r"] ["g"; "r"] z_box z_foot [mkBlend Z 9 (b_pix Z z_src5)] z_orig = Raise AttributeError.
Proof. eexists. repeat (split; [reflexivity|]). reflexivity. Qed.
