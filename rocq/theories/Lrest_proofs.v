(** Proofs for C91-C93. *)
From Coq Require Import ZArith QArith List String Bool Lia.
From Verif Require Import Base Arr Median Dict Lutil_model Lutil_spec Lutil_proofs Lexp_model Lexp_spec Lexp_proofs Lmeas_model
  Lmeas_spec Lmeas_proofs Lrest_model Lrest_spec.
Import ListNotations.
Local Open Scope string_scope.
Local Open Scope Z_scope.

Lemma sub_exp_part : forall e c sub, sub_exp e (Some c) = Ok sub ->
  part_of e (bx0 c) (by0 c) (by1 c - by0 c + 1) (bx1 c - bx0 c + 1) sub /\ contains_box (exp_box e) (Some c) = true.
Proof.
  intros e c sub H. unfold sub_exp in H. destruct (contains_box (exp_box e) (Some c)) eqn:E; [|discriminate].
  apply Ok_inj in H. subst sub. split; [|reflexivity]. unfold part_of, cut. cbn.
  repeat (split; [reflexivity|]). intros i j. repeat split; f_equal; lia.
Qed.

Lemma band_observed : forall env s c e o x y pks, s_peaks s = (x, y) :: pks -> band_obs env s (Some c) e = Ok o ->
  part_observed (m_W env)
    (match m_skypix env (s_id s) with Some p => p | None => (inject_Z x, inject_Z y) end)
    (match m_cen env (s_id s) with Some p => p | None => m_nanpos env end)
    e (bx0 c) (by0 c) (by1 c - by0 c + 1) (bx1 c - bx0 c + 1) o.
Proof.
  intros env s c e o x y pks Hp H. unfold band_obs in H.
  destruct (sub_exp e (Some c)) as [sub|] eqn:Es; cbn [obind] in H; [|discriminate].
  unfold first_peak in H. rewrite Hp in H. cbn [obind] in H.
  destruct (sub_exp_part _ _ _ Es) as [P _].
  set (sky := m_skypix env (s_id s)) in *. clearbody sky.
  set (cen := match m_cen env (s_id s) with Some p => p | None => m_nanpos env end) in *. clearbody cen.
  pose proof H as H0.
  unfold extract_obs in H. destruct (forallb _ _); [discriminate|]. cbn [fst snd] in H.
  set (at_ := match sky with Some p => p | None => (inject_Z x, inject_Z y) end) in *.
  destruct (get_jacobian (m_W env) sub (fst at_) (snd at_)) as [jac|] eqn:Ej; cbn [obind] in H; [|discriminate].
  destruct (e_psf sub) as [draw|] eqn:Ed; cbn [some_or_attr obind] in H; [|discriminate].
  destruct (negb _); [discriminate|]. apply Ok_inj in H.
  unfold get_jacobian in Ej. destruct (e_wcs sub) as [wcs|] eqn:Ew; cbn [some_or_attr obind] in Ej; [|discriminate].
  apply Ok_inj in Ej.
  exists sub, draw, wcs. split; [exact P|].
  destruct P as (P1 & P2 & P3 & P4 & P5 & P6 & P7 & P8 & P9 & P10 & P11).
  rewrite <- H. cbn [o_image o_bmask o_weight o_jac o_psf op_image].
  split; [exact P5|]. split; [exact P6|]. split; [intros i j; apply P11|].
  split. { exists (e_mask sub). split; [reflexivity|]. split; [exact P9|]. split; [exact P10|]. intros i j. apply P11. }
  split. { destruct (extract_weight_px _ _ _ _ _ _ H0) as (w & M & Pos & X). rewrite <- H in X. cbn [o_weight] in X. exists w. auto. }
  split; [rewrite <- P4; exact Ew|].
  split; [rewrite <- Ej, P1, P2; reflexivity|].
  split; [rewrite <- P3; exact Ed|reflexivity].
Qed.

Lemma exp_box_in : forall e X Y, in_box (exp_box e) X Y <-> in_exposure e X Y.
Proof.
  intros e X Y. unfold exp_box, norm_box, in_exposure. cbn [bx0 by0 bx1 by1].
  destruct (_ || _) eqn:E; cbn [in_box bx0 by0 bx1 by1].
  - split; [intros []|]. intros [H1 H2]. apply orb_true_iff in E. destruct E as [E|E]; apply Z.ltb_lt in E; lia.
  - lia.
Qed.

(** The box found by get_bbox. *)
Lemma box_found : forall env x y pks size clip b, aligned (m_bands env) -> m_bands env <> [] -> 0 <= size ->
  get_bbox (mbexp_box env) ((x, y) :: pks) size clip = Ok (Some b) ->
  stamp_box (m_bands env) x y (size / 2) clip (bx0 b) (by0 b) (by1 b - by0 b + 1) (bx1 b - bx0 b + 1) /\
  (clip = false -> forall X Y, x - size / 2 <= X <= x + size / 2 -> y - size / 2 <= Y <= y + size / 2 ->
     forall e, In e (m_bands env) -> in_exposure e X Y).
Proof.
  intros env x y pks size clip b Hal Hne Hs H. set (k := size / 2).
  assert (Hk : 0 <= k) by (apply Z.div_pos; lia).
  assert (Hbox : forall X Y, in_box (mbexp_box env) X Y <-> forall e, In e (m_bands env) -> in_exposure e X Y).
  { intros X Y. unfold mbexp_box. destruct (m_bands env) as [|e0 r] eqn:Em; [congruence|]. rewrite exp_box_in. split.
    - intros H1 e He. destruct (Hal e0 e (or_introl eq_refl) He) as (A1 & A2 & A3 & A4).
      unfold in_exposure in *. rewrite <- A1, <- A2, <- A3, <- A4. exact H1.
    - intros H1. apply H1. left. reflexivity. }
  destruct clip.
  - destruct (get_bbox_clip (mbexp_box env) x y pks size Hs) as (b' & Eb & Hb). fold k in Hb. rewrite H in Eb.
    apply Ok_inj in Eb. subst b'. cbn [in_box] in Hb.
    assert (N : bx0 b <= bx1 b /\ by0 b <= by1 b).
    { unfold get_bbox, clip_box in H. destruct (grow _ _) as [g|]; [|discriminate]. destruct (mbexp_box env) as [e|]; [|discriminate].
      apply Ok_inj in H. unfold norm_box in H. destruct (_ || _) eqn:E; [discriminate|]. apply Some_inj in H. subst b.
      apply orb_false_iff in E. destruct E as [E1 E2]. apply Z.ltb_ge in E1. apply Z.ltb_ge in E2. lia. }
    split; [|discriminate]. split; [lia|]. split; [lia|]. intros X Y. specialize (Hb X Y). rewrite Hbox in Hb. split.
    + intros H1. assert (H2 : bx0 b <= X <= bx1 b /\ by0 b <= Y <= by1 b) by lia. apply Hb in H2. tauto.
    + intros (H1 & H2 & H3). assert (H4 : bx0 b <= X <= bx1 b /\ by0 b <= Y <= by1 b) by (apply Hb; auto). lia.
  - pose proof (get_bbox_noclip (mbexp_box env) x y pks size Hs) as G. fold k in G. cbv zeta in G. destruct G as [G1 G2].
    assert (C : forall X Y, x - k <= X <= x + k -> y - k <= Y <= y + k -> in_box (mbexp_box env) X Y).
    { unfold get_bbox in H. fold k in H.
      destruct (contains_box (mbexp_box env) (grow k (Some (mkBox x y x y)))) eqn:E; [|discriminate]. apply Ok_inj in H.
      rewrite H in E. unfold grow, norm_box in H. cbn [bx0 by0 bx1 by1] in H. destruct (_ || _); [discriminate|]. apply Some_inj in H. subst b.
      destruct (mbexp_box env) as [e|]; [|discriminate]. cbn [contains_box bx0 by0 bx1 by1] in E. rewrite !andb_true_iff, !Z.leb_le in E.
      intros X Y HX HY. cbn [in_box]. lia. }
    assert (Eb : b = mkBox (x - k) (y - k) (x + k) (y + k)) by (rewrite (G1 C) in H; apply Ok_inj, Some_inj in H; symmetry; exact H).
    subst b. cbn [bx0 by0 bx1 by1]. split.
    + split; [lia|]. split; [lia|]. intros X Y. split; [intros [H1 H2]; repeat split; try lia; discriminate|]. lia.
    + intros _ X Y HX HY. apply Hbox. exact (C X Y HX HY).
Qed.

Lemma F2_map_nth : forall A B (P : A -> B -> Prop) l l', Forall2 P l l' -> List.length l = List.length l'.
Proof. intros A B P l l' F. induction F; cbn [List.length]; congruence. Qed.

Lemma stamp_ok : forall env s size clip l x y pks, aligned (m_bands env) -> 0 <= size -> s_peaks s = (x, y) :: pks ->
  get_stamp_mbobs env s size clip = Ok l -> m_bands env <> [] ->
  map fst l = seq 0 (List.length (m_bands env)) /\
  exists x0 y0 h w, stamp_box (m_bands env) x y (size / 2) clip x0 y0 h w /\
    (clip = false -> forall X Y, x - size / 2 <= X <= x + size / 2 -> y - size / 2 <= Y <= y + size / 2 ->
       forall e, In e (m_bands env) -> in_exposure e X Y) /\
    Forall2 (fun e o => part_observed (m_W env)
      (match m_skypix env (s_id s) with Some p => p | None => (inject_Z x, inject_Z y) end)
      (match m_cen env (s_id s) with Some p => p | None => m_nanpos env end) e x0 y0 h w o) (m_bands env) (map snd l).
Proof.
  intros env s size clip l x y pks Hal Hs Hp H Hne. unfold get_stamp_mbobs in H. rewrite Hp in H.
  destruct (get_bbox _ _ _ _) as [[b|]|] eqn:Eb; cbn [obind] in H; [| |discriminate].
  - destruct (omap (band_obs env s (Some b)) (m_bands env)) as [os|] eqn:Eo; cbn [obind] in H; [|discriminate].
    apply Ok_inj in H. subst l. apply omap_ok_Forall2 in Eo. pose proof (F2_map_nth _ _ _ _ _ Eo) as L.
    assert (M1 : forall (a : list nat) (c : list lobs), List.length a = List.length c -> map fst (combine a c) = a /\ map snd (combine a c) = c).
    { clear. induction a as [|a0 a IH]; destruct c as [|c0 c]; cbn [List.length combine map fst snd]; intros E; try discriminate; [auto|].
      destruct (IH c) as [E1 E2]; [congruence|]. rewrite E1, E2. auto. }
    destruct (M1 (seq 0 (List.length (m_bands env))) os) as [E1 E2]; [rewrite seq_length; exact L|]. rewrite E1, E2. split; [reflexivity|].
    exists (bx0 b), (by0 b), (by1 b - by0 b + 1), (bx1 b - bx0 b + 1).
    destruct (box_found _ _ _ _ _ _ _ Hal Hne Hs Eb) as [B1 B2]. split; [exact B1|]. split; [exact B2|].
    clear - Eo Hp. induction Eo as [|e o es os H F IH]; constructor; [|exact IH].
    exact (band_observed env s b e o x y pks Hp H).
  - destruct (m_bands env) as [|e r] eqn:Em; [congruence|]. cbn [omap] in H. unfold band_obs at 1 in H. cbn [sub_exp obind] in H. discriminate.
Qed.

(** With clip=True a stamp is refused only if the peak is far outside. *)
Lemma clip_never_edge : forall env s size x y pks, aligned (m_bands env) -> 0 <= size -> s_peaks s = (x, y) :: pks ->
  (forall e, In e (m_bands env) -> in_exposure e x y) -> get_stamp_mbobs env s size true <> Raise LengthError.
Proof.
  intros env s size x y pks Hal Hs Hp Hin H. unfold get_stamp_mbobs in H. rewrite Hp in H.
  destruct (get_bbox_clip (mbexp_box env) x y pks size Hs) as (b & Eb & Hb). rewrite Eb in H. cbn [obind] in H.
  destruct (m_bands env) as [|e0 r] eqn:Em; [discriminate|]. 
  assert (Hk : 0 <= size / 2) by (apply Z.div_pos; lia).
  assert (Hbx : mbexp_box env = exp_box e0) by (unfold mbexp_box; rewrite Em; reflexivity).
  assert (I0 : in_box b x y).
  { apply Hb. rewrite Hbx. split; [apply exp_box_in, Hin; left; reflexivity|lia]. }
  destruct b as [c|]; [|destruct I0].
  assert (S : forall e, In e (e0 :: r) -> contains_box (exp_box e) (Some c) = true).
  { intros e He. destruct (Hal e0 e (or_introl eq_refl) He) as (A1 & A2 & A3 & A4).
    assert (Ee : exp_box e = exp_box e0) by (unfold exp_box; rewrite A1, A2, A3, A4; reflexivity). rewrite Ee.
    assert (C1 := Hb (bx0 c) (by0 c)). assert (C2 := Hb (bx1 c) (by1 c)). cbn [in_box] in C1, C2, I0. rewrite Hbx in C1, C2.
    destruct (exp_box e0) as [g|]; [|exfalso; cbn [in_box] in C1; tauto || lia].
    cbn [in_box] in C1, C2. cbn [contains_box]. rewrite !andb_true_iff, !Z.leb_le. lia. }
  assert (G : forall es, (forall e, In e es -> contains_box (exp_box e) (Some c) = true) -> omap (band_obs env s (Some c)) es <> Raise LengthError).
  { clear - Hp. induction es as [|e es IH]; intros Hc; [discriminate|]. cbn [omap].
    destruct (band_obs env s (Some c) e) as [o|ex] eqn:Ebo; cbn [obind].
    - destruct (omap (band_obs env s (Some c)) es) as [os|ex] eqn:Eo; cbn [obind]; [discriminate|].
      intros E. injection E as ->. apply IH; [|reflexivity]. intros e' He'. apply Hc. right. exact He'.
    - intros E. injection E as ->. unfold band_obs in Ebo. unfold sub_exp in Ebo. rewrite (Hc e (or_introl eq_refl)) in Ebo. cbn [obind] in Ebo.
      unfold first_peak in Ebo. rewrite Hp in Ebo. cbn [obind] in Ebo.
      unfold extract_obs in Ebo. destruct (forallb _ _); [discriminate|].
      unfold get_jacobian in Ebo. cbn [e_wcs] in Ebo. destruct (e_wcs e); cbn [some_or_attr obind] in Ebo; [|discriminate].
      cbn [e_psf] in Ebo. destruct (e_psf e); cbn [some_or_attr obind] in Ebo; [|discriminate].
      destruct (negb _); discriminate. }
  destruct (omap (band_obs env s (Some c)) (e0 :: r)) as [os|ex] eqn:Eo; cbn [obind] in H; [discriminate|].
  injection H as ->. exact (G _ S Eo).
Qed.

(** ** Settings of the source extractor *)
Lemma nth_sset : forall h p d q, nth_error (sset h p d) q = if Nat.eqb q p then match nth_error h p with Some _ => Some d | None => None end else nth_error h q.
Proof.
  induction h as [|a h IH]; intros p d q; cbn [sset].
  - destruct (Nat.eqb q p); destruct p, q; reflexivity.
  - destruct p as [|p], q as [|q]; cbn [nth_error Nat.eqb]; try reflexivity. apply IH.
Qed.
Lemma sset_length : forall h p d, List.length (sset h p d) = List.length h.
Proof. induction h as [|a h IH]; intros [|p] d; cbn [sset List.length]; auto. Qed.
Lemma sget_del : forall k k' d, sget k (sdel k' d) = if String.eqb k k' then None else sget k d.
Proof.
  intros k k' d. induction d as [|[a v] d IH]; cbn [sdel filter sget fst]; [destruct (String.eqb k k'); reflexivity|].
  destruct (String.eqb_spec k' a) as [<-|N]; cbn [negb].
  - fold (sdel k' d). rewrite IH. destruct (String.eqb_spec k k'); reflexivity.
  - cbn [sget]. fold (sdel k' d). rewrite IH. destruct (String.eqb_spec k a) as [->|]; [|reflexivity].
    destruct (String.eqb_spec a k'); [congruence|reflexivity].
Qed.

(** One construction: addresses in use keep their content. *)
Lemma sx_keeps : forall g t h a h' o, set_sx_config g t h a = (h', o) ->
  (List.length h <= List.length h')%nat /\ forall p d, nth_error h p = Some d -> nth_error h' p = Some d.
Proof.
  intros g t h a h' o H. unfold set_sx_config in H. destruct a as [a|]; [|injection H as <- _; auto].
  destruct (nth_error h a) as [d|]; [|injection H as <- _; auto].
  rewrite nth_error_app2, Nat.sub_diag in H by apply Nat.le_refl. cbn [nth_error] in H.
  assert (K : forall d0 d1, (List.length h <= List.length (sset (h ++ [d1])%list (List.length h) d0))%nat /\
     forall p d, nth_error h p = Some d -> nth_error (sset (h ++ [d1])%list (List.length h) d0) p = Some d).
  { intros d0 d1. split; [rewrite sset_length, app_length; lia|]. intros p d' Hp.
    assert (L : (p < List.length h)%nat) by (apply nth_error_Some; congruence).
    rewrite nth_sset, (proj2 (Nat.eqb_neq p _)) by lia. rewrite nth_error_app1 by exact L. exact Hp. }
  assert (K0 : forall d1, (List.length h <= List.length (h ++ [d1])%list)%nat /\
     forall p d, nth_error h p = Some d -> nth_error (h ++ [d1])%list p = Some d).
  { intros d1. split; [rewrite app_length; lia|]. intros p d' Hp.
    assert (L : (p < List.length h)%nat) by (apply nth_error_Some; congruence). rewrite nth_error_app1 by exact L. exact Hp. }
  destruct (sget "filter_kernel" (supdate [] d)) as [kk|]; [|injection H as <- _; apply K0].
  destruct (sget "detect_thresh" _); injection H as <- _; apply K.
Qed.
Lemma sx_one : forall g t h a d h' o, nth_error h a = Some d -> NoDup (skeys d) -> set_sx_config g t h (Some a) = (h', o) ->
  (sget "filter_kernel" d = None \/ sget "detect_thresh" d = None -> o = Raise KeyError) /\
  (forall kk thr, sget "filter_kernel" d = Some kk -> sget "detect_thresh" d = Some thr ->
     exists p d', o = Ok (thr, p) /\ nth_error h p = None /\ nth_error h' p = Some d' /\ settings_of d d').
Proof.
  intros g t h a d h' o Ha N H. unfold set_sx_config in H. rewrite Ha in H.
  rewrite nth_error_app2, Nat.sub_diag in H by apply Nat.le_refl. cbn [nth_error] in H.
  assert (G : forall k, sget k (supdate [] d) = sget k d).
  { intros k. rewrite sget_update by exact N. destruct (sget k d); reflexivity. }
  set (d1 := supdate [] d) in *. clearbody d1. rewrite G in H.
  destruct (sget "filter_kernel" d) as [kk|] eqn:Ek.
  - rewrite sget_put in H. cbn [String.eqb Ascii.eqb Bool.eqb] in H. rewrite G in H.
    destruct (sget "detect_thresh" d) as [thr|] eqn:Et; injection H as <- <-.
    + split; [intros [E|E]; discriminate|]. intros kk0 thr0 E1 E2. apply Some_inj in E1. apply Some_inj in E2. subst kk0 thr0.
      eexists _, _. split; [reflexivity|]. split; [apply nth_error_None; lia|].
      split. { rewrite nth_sset, Nat.eqb_refl, nth_error_app2, Nat.sub_diag by apply Nat.le_refl. reflexivity. }
      intros k. rewrite sget_del, sget_put, G. destruct (String.eqb_spec k "detect_thresh") as [->|]; [reflexivity|].
      destruct (String.eqb_spec k "filter_kernel") as [->|]; [|reflexivity]. rewrite Ek. destruct kk; reflexivity.
    + split; [reflexivity|]. intros kk0 thr0 _ E. discriminate.
  - injection H as <- <-. split; [reflexivity|]. intros kk thr E. discriminate.
Qed.
Lemma sx_all : forall g t args h h' os, sx_history g t h args = (h', os) ->
  (forall p d, nth_error h p = Some d -> nth_error h' p = Some d) /\
  forall i a o d, nth_error args i = Some (Some a) -> nth_error os i = Some o -> nth_error h a = Some d -> NoDup (skeys d) ->
    (sget "filter_kernel" d = None \/ sget "detect_thresh" d = None -> o = Raise KeyError) /\
    (forall kk thr, sget "filter_kernel" d = Some kk -> sget "detect_thresh" d = Some thr ->
       exists p d', o = Ok (thr, p) /\ nth_error h p = None /\ nth_error h' p = Some d' /\ settings_of d d').
Proof.
  intros g t args. induction args as [|arg args IH]; intros h h' os H; cbn [sx_history] in H.
  - injection H as <- <-. split; [auto|]. intros i a o d Hi. destruct i; discriminate.
  - destruct (set_sx_config g t h arg) as [h1 o1] eqn:E1. destruct (sx_history g t h1 args) as [h2 os2] eqn:E2.
    injection H as <- <-. destruct (sx_keeps _ _ _ _ _ _ E1) as [L1 K1]. destruct (IH _ _ _ E2) as [K2 R]. split; [auto|].
    intros i a o d Hi Ho Ha N. destruct i as [|i]; cbn [nth_error] in Hi, Ho.
    + apply Some_inj in Hi. apply Some_inj in Ho. subst arg o1. destruct (sx_one _ _ _ _ _ _ _ Ha N E1) as [A B]. split; [exact A|].
      intros kk thr E3 E4. destruct (B kk thr E3 E4) as (p & d' & P1 & P2 & P3 & P4). exists p, d'. auto.
    + destruct (R i a o d Hi Ho (K1 _ _ Ha) N) as [A B]. split; [exact A|]. intros kk thr E3 E4.
      destruct (B kk thr E3 E4) as (p & d' & P1 & P2 & P3 & P4). exists p, d'. split; [exact P1|]. split; [|auto].
      apply nth_error_None. apply nth_error_None in P2. lia.
Qed.
Lemma sx_length : forall g t args h h' os, sx_history g t h args = (h', os) -> List.length os = List.length args.
Proof.
  intros g t args. induction args as [|a args IH]; intros h h' os H; cbn [sx_history] in H; [injection H as _ <-; reflexivity|].
  destruct (set_sx_config g t h a) as [h1 o1]. destruct (sx_history g t h1 args) as [h2 os2] eqn:E. injection H as _ <-.
  cbn [List.length]. f_equal. exact (IH _ _ _ E).
Qed.

(** Without clip a window that leaves the exposures is refused. *)
Lemma noclip_refused : forall env s size x y pks X Y, 0 <= size -> s_peaks s = (x, y) :: pks ->
  x - size / 2 <= X <= x + size / 2 -> y - size / 2 <= Y <= y + size / 2 ->
  (forall e, In e (m_bands env) -> ~ in_exposure e X Y) -> get_stamp_mbobs env s size false = Raise LengthError.
Proof.
  intros env s size x y pks X Y Hs Hp HX HY Hout. unfold get_stamp_mbobs. rewrite Hp.
  destruct (get_bbox_noclip (mbexp_box env) x y pks size Hs) as [_ G]. cbv zeta in G. rewrite G; [reflexivity|].
  intro C. assert (I := C X Y). unfold mbexp_box in *. destruct (m_bands env) as [|e r].
  - apply I; lia.
  - apply (Hout e (or_introl eq_refl)). apply exp_box_in, I; lia.
Qed.

Lemma source_stamp : forall env s obs, source_mbobs env s = Ok obs ->
  get_stamp_mbobs env s (m_stamp_size env) false = Ok (combine (seq 0 (List.length (m_bands env))) obs).
Proof.
  intros env s obs H. unfold source_mbobs in H. unfold get_stamp_mbobs.
  destruct (get_bbox _ _ _ _) as [b|]; cbn [obind] in *; [|discriminate]. rewrite H. reflexivity.
Qed.

Lemma mbobs_child : forall env order cat id size clip l, lists_set order -> get_mbobs_clip env order cat id size clip = Ok l ->
  exists s, In s (childless cat) /\ s_id s = id /\ exists s', find_source cat id = Some s' /\ get_stamp_mbobs env s' size clip = Ok l.
Proof.
  intros env order cat id size clip l O H. unfold get_mbobs_clip, check_source_id in H.
  destruct (existsb (Z.eqb id) (child_ids order cat)) eqn:E; cbn [obind] in H; [|discriminate].
  apply existsb_exists in E. destruct E as (i & I & E). apply Z.eqb_eq in E. subst i.
  apply (child_ids_In order cat id O) in I. destruct I as (s & I & Es). exists s. split; [exact I|]. split; [exact Es|].
  destruct (find_source cat id) as [s'|]; cbn [some_or_attr obind] in H; [|discriminate]. exists s'. auto.
Qed.
Lemma not_child : forall order cat id, lists_set order -> (forall s, In s (childless cat) -> s_id s <> id) ->
  check_source_id order cat id = Raise ValueError.
Proof.
  intros order cat id O H. unfold check_source_id. destruct (existsb (Z.eqb id) (child_ids order cat)) eqn:E; [|reflexivity].
  apply existsb_exists in E. destruct E as (i & I & E). apply Z.eqb_eq in E. subst i.
  apply (child_ids_In order cat id O) in I. destruct I as (s & I & Es). exfalso. exact (H s I Es).
Qed.
Lemma sx_default : forall g t args h h' os, sx_history g t h args = (h', os) ->
  forall i o, nth_error args i = Some None -> nth_error os i = Some o -> o = Ok (t, g).
Proof.
  intros g t args. induction args as [|a args IH]; intros h h' os H i o Hi Ho; [destruct i; discriminate|]. cbn [sx_history] in H.
  destruct (set_sx_config g t h a) as [h1 o1] eqn:E1. destruct (sx_history g t h1 args) as [h2 os2] eqn:E2. injection H as _ <-.
  destruct i as [|i]; cbn [nth_error] in Hi, Ho.
  - apply Some_inj in Hi. apply Some_inj in Ho. subst a o1. cbn [set_sx_config] in E1. congruence.
  - exact (IH _ _ _ E2 i o Hi Ho).
Qed.
Lemma children_all : forall order cat, catalogue cat -> lists_set order ->
  exists cs, children order cat = map Some cs /\ Permutation.Permutation cs (childless cat).
Proof.
  intros order cat C O.
  assert (H : forall ids, (forall i, In i ids -> exists s, In s (childless cat) /\ s_id s = i) ->
     exists cs, map (find_source cat) ids = map Some cs /\ map s_id cs = ids /\ forall s, In s cs -> In s (childless cat)).
  { induction ids as [|i ids IH]; intros H; [exists []; repeat split; intros s []|].
    destruct (H i (or_introl eq_refl)) as (s & I & E). destruct IH as (cs & E1 & E2 & E3); [intros j J; apply H; right; exact J|].
    exists (s :: cs). cbn [map]. rewrite E1, E2, E. split; [|split; [reflexivity|intros s' [<-|I']; auto]].
    f_equal. rewrite <- E. apply find_source_In; [exact C|]. unfold childless in I. apply filter_In in I. tauto. }
  destruct (H (child_ids order cat)) as (cs & E1 & E2 & E3); [intros i I; apply (child_ids_In order cat i O), I|].
  exists cs. split; [exact E1|]. apply Permutation.NoDup_Permutation.
  - apply (NoDup_map_inv s_id). rewrite E2. apply child_ids_nodup, O.
  - apply NoDup_filter. exact (NoDup_map_inv _ _ C).
  - intros s. split; [apply E3|]. intros I. assert (J : In (s_id s) (map s_id cs)) by (rewrite E2; apply (child_ids_In order cat _ O); eauto).
    apply in_map_iff in J. destruct J as (s' & Es & J). pose proof (E3 _ J) as K. unfold childless in I, K. apply filter_In in I. apply filter_In in K.
    assert (A := find_source_In cat s C (proj1 I)). assert (B := find_source_In cat s' C (proj1 K)). rewrite Es in B. congruence.
Qed.
