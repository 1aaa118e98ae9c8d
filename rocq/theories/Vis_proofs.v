(** Proofs for C129. *)
From Coq Require Import ZArith QArith Qminmax List String Bool Lia.
From Verif Require Import Base Arr Median Vis_model Vis_spec.
Import ListNotations.
Local Open Scope Z_scope.

Lemma clip_val : forall m im i j, (px (clip_min m im) i j == Qmax (px im i j) m)%Q.
Proof.
  intros m im i j. unfold clip_min. cbn [imap px]. destruct (Qle_bool (px im i j) m) eqn:E.
  - apply Qle_bool_iff in E. symmetry. now apply Q.max_r.
  - symmetry. apply Q.max_l. destruct (Qlt_le_dec m (px im i j)) as [L|L]; [now apply Qlt_le_weak|]. apply Qle_bool_iff in L. congruence.
Qed.
Lemma fold_sum_val : forall r a i j, (px (fold_left (imap2 Qplus) r a) i j == px a i j + qsum (map (fun im => px im i j) r))%Q /\
  nr (fold_left (imap2 Qplus) r a) = nr a /\ nc (fold_left (imap2 Qplus) r a) = nc a.
Proof.
  induction r as [|b r IH]; intros a i j; cbn [fold_left map]; [split; [unfold qsum; cbn; ring|split; reflexivity]|].
  destruct (IH (imap2 Qplus a b) i j) as (V & R & C). split; [|split; [exact R|exact C]]. rewrite V. cbn [imap2 px]. unfold qsum. cbn [fold_right]. ring.
Qed.
Lemma log_val : forall flog fsqrt im vars m i j, qmedian vars = Some m ->
  exists w, px (log_image flog fsqrt im vars) i j = flog w /\ (w == Qmax (px im i j) ((1 # 10) * fsqrt m))%Q.
Proof.
  intros flog fsqrt im vars m i j E. exists (px (clip_min ((1 # 10) * noise_of fsqrt vars) im) i j). split; [reflexivity|].
  rewrite clip_val. unfold noise_of. now rewrite E.
Qed.
Lemma firstn_F2 : forall (R : vexp -> img Q -> Prop) (f : vexp -> img Q) n l, (forall e, R e (f e)) -> Forall2 R (firstn n l) (firstn n (map f l)).
Proof. intros R f. induction n as [|n IH]; intros [|e l] H; cbn; constructor; auto. Qed.
Lemma content_pictures : forall flog fsqrt stretch q mb, vm_bands mb <> [] -> pictures flog fsqrt stretch q mb (mb_content flog fsqrt stretch q mb).
Proof.
  intros flog fsqrt stretch q mb N. unfold mb_content. rewrite map_length. destruct (3 <=? List.length (vm_bands mb))%nat eqn:E.
  - apply Nat.leb_le in E. cbn [pictures]. split; [reflexivity|]. split; [reflexivity|]. split; [exact E|].
    rewrite <- firstn_map, map_map. apply firstn_F2. intro e. split; [reflexivity|]. split; [reflexivity|]. intros i j. rewrite clip_val. apply Q.max_comm.
  - apply Nat.leb_gt in E. cbn [pictures]. split; [exact E|].
    destruct (vm_bands mb) as [|e [|e' [|e'' r]]]; [contradiction| | |cbn in E; lia].
    + cbn [map]. split; [intros x H; cbn in H; apply Some_inj in H; subst x; split; reflexivity|]. intros m i j M.
      destruct (log_val flog fsqrt (v_image e) _ m i j M) as (w & P & W). exists w. split; [exact P|]. rewrite W. unfold qsum. cbn [fold_right map]. apply Q.max_compat; [ring|reflexivity].
    + cbn [map band_sum fold_left]. split; [intros x H; cbn in H; apply Some_inj in H; subst x; split; reflexivity|]. intros m i j M.
      destruct (log_val flog fsqrt (imap2 Qplus (v_image e) (v_image e')) _ m i j M) as (w & P & W). exists w. split; [exact P|]. rewrite W. unfold qsum. cbn [fold_right map imap2 px]. apply Q.max_compat; [ring|reflexivity].
Qed.
Lemma log_pictures : forall flog fsqrt e, log_picture flog fsqrt e (Gray (log_image flog fsqrt (v_image e) (pixels (v_var e)))).
Proof. intros. eexists. split; [reflexivity|]. split; [reflexivity|]. split; [reflexivity|]. intros m i j M. now apply log_val. Qed.

(** ** Sources *)
Lemma xy_table : forall mb s xy, extract_xy mb s = Ok xy -> forall x y, In (x, y) xy <-> at_pixel mb s x y.
Proof.
  intros mb [rows|peaks] xy H x y; cbn [extract_xy at_pixel] in *.
  - apply Ok_inj in H. subst xy. rewrite in_map_iff. split.
    + intros ([[row col] [row0 col0]] & E & I). injection E as <- <-. exists row, col, row0, col0. auto.
    + intros (row & col & row0 & col0 & I & -> & ->). exists (row, col, (row0, col0)). auto.
  - revert xy H. induction peaks as [|p peaks IH]; intros xy H; cbn [omap] in H.
    + apply Ok_inj in H. subst xy. split; [intros []|intros (a & b & o & [] & _)].
    + destruct p as [|[a b] o]; cbn [obind] in H; [discriminate|]. destruct (omap _ peaks) as [l|]; cbn [obind] in H; [|discriminate]. apply Ok_inj in H. subst xy.
      specialize (IH l eq_refl). split.
      * intros [E|I]; [injection E as <- <-; exists a, b, o; split; [now left|auto]|]. apply IH in I. destruct I as (a' & b' & o' & I & X). exists a', b', o'. split; [now right|exact X].
      * intros (a' & b' & o' & [E|I] & -> & ->); [injection E as -> -> ->; now left|]. right. apply IH. exists a', b', o'. auto.
Qed.
Lemma xy_total : forall mb s, (all_have_peaks s -> exists xy, extract_xy mb s = Ok xy) /\ (~ all_have_peaks s -> extract_xy mb s = Raise IndexError).
Proof.
  intros mb [rows|peaks]; cbn [extract_xy all_have_peaks]; [split; [intros _; eexists; reflexivity|tauto]|].
  induction peaks as [|p peaks [IH1 IH2]]; cbn [omap]; [split; [intros _; eexists; reflexivity|intro H; exfalso; apply H; intros []]|].
  destruct p as [|[a b] o]; cbn [obind].
  - split; [intro H; exfalso; apply H; now left|reflexivity].
  - split.
    + intro H. destruct IH1 as [xy E]; [intro I; apply H; now right|]. rewrite E. eexists. reflexivity.
    + intro H. rewrite IH2; [reflexivity|]. intro N. apply H. intros [X|X]; [discriminate|contradiction].
Qed.

(** ** One exposure *)
Section Draw.
Variables flog fsqrt : Q -> Q.
Notation content := (mb_content flog fsqrt).

Lemma or_iff_compat_b_ : forall A A' B B' C : Prop, (A <-> A') -> (B <-> B') -> (A \/ B \/ C <-> A' \/ B' \/ C).
Proof. tauto. Qed.
Lemma in_opt : forall A (f : A -> event) o e, In e (opt_events f o) <-> exists a, o = Some a /\ e = f a.
Proof.
  intros A f [a|] e; cbn; split.
  - intros [<-|[]]. now exists a.
  - intros (x & E & ->). apply Some_inj in E. subst x. now left.
  - intros [].
  - intros (x & E & _). discriminate.
Qed.
Lemma in_show : forall b e, In e (show_if b) <-> b = true /\ e = Show.
Proof. intros [|] e; cbn; split; [intros [<-|[]]; auto|intros [_ ->]; now left|intros []|intros [E _]; discriminate]. Qed.

(** what show_mbexp does, event by event *)
Lemma show_mbexp_events : forall stretch q mess ax srcs show mb ev, show_mbexp flog fsqrt stretch q mess ax srcs show mb = Ok ev ->
  (forall e, In e ev <-> e = Imshow ax (content stretch q mb) \/ (exists s xy, srcs = Some s /\ extract_xy mb s = Ok xy /\ e = Scatter ax xy "red") \/
                         (exists t, mess = Some t /\ e = SetTitle ax t) \/ (show = true /\ e = Show)).
Proof.
  intros stretch q mess ax srcs show mb ev H e. unfold show_mbexp in H.
  assert (M : exists marks, match srcs with None => Ok [] | Some s => do xy <- extract_xy mb s; Ok [Scatter ax xy "red"%string] end = Ok marks /\
    forall e, In e marks <-> exists s xy, srcs = Some s /\ extract_xy mb s = Ok xy /\ e = Scatter ax xy "red").
  { destruct srcs as [s|]; [|eexists; split; [reflexivity|]; intro x; split; [intros []|intros (s & xy & E & _); discriminate]].
    destruct (extract_xy mb s) as [xy|] eqn:E; cbn [obind] in H; [|discriminate]. eexists. split; [reflexivity|]. intro x. split.
    - intros [<-|[]]. exists s, xy. auto.
    - intros (s' & xy' & E1 & E2 & ->). apply Some_inj in E1. subst s'. rewrite E in E2. apply Ok_inj in E2. subst. now left. }
  destruct M as (marks & E & M). rewrite E in H. cbn [obind] in H. apply Ok_inj in H. subst ev. cbn [In]. rewrite !in_app_iff, M, in_opt, in_show.
  split; [intros [<-|X]; [now left|right; tauto]|intros [->|X]; [now left|right; tauto]].
Qed.
Lemma show_mbexp_ok : forall stretch q mess ax srcs show mb, (forall s, srcs = Some s -> all_have_peaks s) ->
  exists ev, show_mbexp flog fsqrt stretch q mess ax srcs show mb = Ok ev.
Proof.
  intros stretch q mess ax [s|] show mb H; unfold show_mbexp; [|eexists; reflexivity].
  destruct (proj1 (xy_total mb s) (H s eq_refl)) as [xy E]. rewrite E. eexists. reflexivity.
Qed.
Lemma show_mbexp_raise : forall stretch q mess ax s show mb, ~ all_have_peaks s ->
  show_mbexp flog fsqrt stretch q mess ax (Some s) show mb = Raise IndexError.
Proof. intros stretch q mess ax s show mb H. unfold show_mbexp. rewrite (proj2 (xy_total mb s) H). reflexivity. Qed.

Lemma mbexp : forall stretch q mess ax srcs show mb ev, vm_bands mb <> [] ->
  show_mbexp flog fsqrt stretch q mess ax srcs show mb = Ok ev ->
  (exists c, shows ev ax c /\ pictures flog fsqrt stretch q mb c) /\
  (forall t, mess = Some t -> titled ev ax t) /\
  (forall x y, marked ev ax x y <-> exists s, srcs = Some s /\ at_pixel mb s x y) /\
  (forall e a, In e ev -> about e = Some a -> a = ax).
Proof.
  intros stretch q mess ax srcs show mb ev N H. pose proof (show_mbexp_events _ _ _ _ _ _ _ _ H) as EV. split; [|split; [|split]].
  - exists (content stretch q mb). split; [|now apply content_pictures]. split; [apply EV; now left|]. intros c' I. apply EV in I.
    destruct I as [E|[(s & xy & _ & _ & E)|[(t & _ & E)|(_ & E)]]]; congruence.
  - intros t E. split; [apply EV; right; right; left; now exists t|]. intros s' I. apply EV in I. destruct I as [E'|[(s & xy & _ & _ & E')|[(t' & E1 & E')|(_ & E')]]]; congruence.
  - intros x y. split.
    + intros (xy & colour & I & P). apply EV in I. destruct I as [E'|[(s & xy' & E1 & E2 & E')|[(t' & E1 & E')|(_ & E')]]]; try congruence. injection E' as -> ->.
      exists s. split; [exact E1|]. exact (proj1 (xy_table mb s xy' E2 x y) P).
    + intros (s & -> & A). destruct (extract_xy mb s) as [xy|] eqn:E.
      * exists xy, "red"%string. split; [apply EV; right; left; exists s, xy; auto|]. exact (proj2 (xy_table mb s xy E x y) A).
      * unfold show_mbexp in H. rewrite E in H. discriminate.
  - intros e a I A. apply EV in I. destruct I as [->|[(s & xy & _ & _ & ->)|[(t & _ & ->)|(_ & ->)]]]; cbn in A; congruence.
Qed.

(** ** Mosaic *)
Lemma ravel_at : forall nrow ncol axs i, subplots nrow ncol = Ok axs -> 0 <= i < nrow * ncol ->
  (match ax_ravel axs i with Raise AttributeError => Ok (0, 0) | r => r end) = Ok (i / ncol, i mod ncol) /\
  ax_size axs = nrow * ncol /\ (nrow * ncol <> 1 -> ax_ravel axs i = Ok (i / ncol, i mod ncol)).
Proof.
  intros nrow ncol axs i H I. unfold subplots in H. destruct ((nrow <? 1) || (ncol <? 1)) eqn:E; [discriminate|]. apply orb_false_iff in E. destruct E as [E1 E2]. apply Z.ltb_ge in E1, E2.
  destruct ((nrow =? 1) && (ncol =? 1)) eqn:E; [|destruct (nrow =? 1) eqn:N1; [|destruct (ncol =? 1) eqn:N2]]; apply Ok_inj in H; subst axs; cbn [ax_ravel ax_size].
  - apply andb_true_iff in E. destruct E as [A B]. apply Z.eqb_eq in A, B. subst. assert (i = 0) as -> by lia. split; [reflexivity|]. split; [reflexivity|lia].
  - apply Z.eqb_eq in N1. subst nrow. assert (i <? ncol = true) as -> by (apply Z.ltb_lt; lia). rewrite Z.div_small, Z.mod_small by lia. split; [reflexivity|]. split; [lia|reflexivity].
  - apply Z.eqb_eq in N2. subst ncol. assert (i <? nrow = true) as -> by (apply Z.ltb_lt; lia). rewrite Z.div_1_r, Z.mod_1_r. split; [reflexivity|]. split; [lia|reflexivity].
  - assert (i <? nrow * ncol = true) as -> by (apply Z.ltb_lt; lia). split; [reflexivity|]. split; [reflexivity|]. reflexivity.
Qed.
Lemma omap_ok : forall A B (f : A -> outcome B) (g : A -> B) l, (forall a, In a l -> f a = Ok (g a)) -> omap f l = Ok (map g l).
Proof.
  intros A B f g. induction l as [|a l IH]; intro H; [reflexivity|]. cbn [omap map]. rewrite (H a) by now left. cbn [obind]. rewrite IH; [reflexivity|]. intros; apply H; now right.
Qed.
Lemma zrange_combine : forall A (l : list A) k i x, In (i, x) (combine (zrange2 k (k + zlen l)) l) <-> k <= i /\ nth_error l (Z.to_nat (i - k)) = Some x.
Proof.
  intros A. induction l as [|a l IH]; intros k i x.
  - split; [|intros [_ H]; destruct (Z.to_nat (i - k)); discriminate]. intro H. exfalso. unfold zlen in H. cbn [List.length] in H. destruct (zrange2 k (k + Z.of_nat 0)); exact H.
  - assert (E : zrange2 k (k + zlen (a :: l)) = k :: zrange2 (k + 1) (k + 1 + zlen l)).
    { unfold zrange2, zlen. cbn [List.length]. replace (Z.to_nat (k + Z.of_nat (S (List.length l)) - k)) with (S (List.length l)) by lia. replace (Z.to_nat (k + 1 + Z.of_nat (List.length l) - (k + 1))) with (List.length l) by lia.
      cbn [seq map]. f_equal; [lia|]. rewrite <- seq_shift, map_map. apply map_ext. intro n. lia. }
    rewrite E. cbn [combine In]. rewrite IH. split.
    + intros [X|[L X]]; [injection X as <- <-; rewrite Z.sub_diag; split; [lia|reflexivity]|]. split; [lia|]. replace (Z.to_nat (i - k)) with (S (Z.to_nat (i - (k + 1)))) by lia. exact X.
    + intros [L X]. destruct (Z.eq_dec i k) as [->|NE].
      * left. rewrite Z.sub_diag in X. cbn in X. congruence.
      * right. split; [lia|]. replace (Z.to_nat (i - k)) with (S (Z.to_nat (i - (k + 1)))) in X by lia. exact X.
Qed.
Lemma zr : forall A (l : list A) i x, In (i, x) (combine (zrange (zlen l)) l) <-> 0 <= i /\ nth_error l (Z.to_nat i) = Some x.
Proof. intros A l i x. pose proof (zrange_combine A l 0 i x) as H. rewrite Z.sub_0_r in H. exact H. Qed.
Lemma div_mod_inj : forall n i k, 0 < n -> (i / n, i mod n) = (k / n, k mod n) -> i = k.
Proof. intros n i k P E. apply pair_equal_spec in E. destruct E as [A B]. rewrite (Z.div_mod i n), (Z.div_mod k n) by lia. now rewrite A, B. Qed.


Lemma omap_raise_at : forall A B (f : A -> outcome B) e l a, In a l -> f a = Raise e -> (forall b, In b l -> (exists v, f b = Ok v) \/ f b = Raise e) -> omap f l = Raise e.
Proof.
  intros A B f e. induction l as [|b l IH]; intros a I R H; [destruct I|]. cbn [omap]. destruct (H b (or_introl eq_refl)) as [[v E]|E]; rewrite E; cbn [obind]; [|reflexivity].
  destruct I as [<-|I]; [congruence|]. rewrite (IH a I R); [reflexivity|]. intros; apply H; now right.
Qed.
Lemma in_zrange2 : forall a b i, In i (zrange2 a b) <-> a <= i < b.
Proof.
  intros a b i. unfold zrange2. rewrite in_map_iff. split.
  - intros (k & <- & K). apply in_seq in K. lia.
  - intro H. exists (Z.to_nat (i - a)). split; [lia|]. apply in_seq. lia.
Qed.
Lemma subplots_ok : forall rows cols, 0 < rows -> 0 < cols -> exists axs, subplots rows cols = Ok axs.
Proof.
  intros rows cols PR PC. unfold subplots. assert ((rows <? 1) || (cols <? 1) = false) as -> by (apply orb_false_iff; split; apply Z.ltb_ge; lia).
  destruct (_ && _); [eexists; reflexivity|]. destruct (rows =? 1); [eexists; reflexivity|]. destruct (cols =? 1); eexists; reflexivity.
Qed.

Lemma mosaic : forall grid name stretch q labels title show l, let n := zlen l in let rows := fst (grid n) in let cols := snd (grid n) in
  l <> [] -> 0 < rows -> 0 < cols -> n <= rows * cols ->
  let lab := match labels with Some ls => ls | None => map name (zrange n) end in
  (n <= zlen lab -> exists ev, show_mbexp_mosaic flog fsqrt grid name stretch q labels title show l = Ok ev /\
     (forall i mb t, 0 <= i -> nth_error l (Z.to_nat i) = Some mb -> nth_error lab (Z.to_nat i) = Some t -> vm_bands mb <> [] ->
        (exists c, shows ev (i / cols, i mod cols) c /\ pictures flog fsqrt stretch q mb c) /\ titled ev (i / cols, i mod cols) t) /\
     (forall a, In (AxisOff a) ev <-> exists i, n <= i < rows * cols /\ a = (i / cols, i mod cols)) /\
     (forall t, In (SupTitle t) ev <-> title = Some t)) /\
  (zlen lab < n -> show_mbexp_mosaic flog fsqrt grid name stretch q labels title show l = Raise IndexError).
Proof.
  intros grid name stretch q labels title show l n rows cols NE PR PC LE lab. unfold show_mbexp_mosaic. fold n. fold rows. fold cols. fold lab.
  assert (NP : 0 < n) by (unfold n, zlen; destruct l; [contradiction|cbn [List.length]; lia]).
  destruct (subplots_ok rows cols PR PC) as [axs S]. rewrite S. cbn [obind].
  assert (F : forall i mb, In (i, mb) (combine (zrange n) l) -> 0 <= i < n /\ nth_error l (Z.to_nat i) = Some mb).
  { intros i mb I. unfold n in I. apply zr in I. destruct I as [P I]. assert (B : (Z.to_nat i < List.length l)%nat) by (apply nth_error_Some; congruence). split; [unfold n, zlen; lia|exact I]. }
  split.
  - intro LL. set (f := fun i_mb : Z * vmb => let '(i, mb) := i_mb in _).
    set (g := fun i_mb : Z * vmb => let '(i, mb) := i_mb in [SetTitle (i / cols, i mod cols) (nth (Z.to_nat i) lab ""%string); Imshow (i / cols, i mod cols) (content stretch q mb)]).
    assert (G : omap f (combine (zrange n) l) = Ok (map g (combine (zrange n) l))).
    { apply omap_ok. intros [i mb] I. apply F in I. destruct I as [P I].
      unfold f, g. assert (R : 0 <= i < rows * cols) by lia. rewrite (proj1 (ravel_at rows cols axs i S R)). cbn [obind].
      destruct (nth_error lab (Z.to_nat i)) as [t|] eqn:E; [now rewrite (nth_error_nth _ _ _ E)|]. apply nth_error_None in E. unfold zlen in LL. lia. }
    rewrite G. cbn [obind]. cbv zeta.
    assert (SZ : ax_size axs = rows * cols).
    { assert (R : 0 <= 0 < rows * cols) by nia. exact (proj1 (proj2 (ravel_at rows cols axs 0 S R))). }
    rewrite SZ.
    assert (O : omap (fun i => do ax <- ax_ravel axs i; Ok (AxisOff ax)) (zrange2 n (rows * cols)) = Ok (map (fun i => AxisOff (i / cols, i mod cols)) (zrange2 n (rows * cols)))).
    { apply omap_ok. intros i I. apply in_zrange2 in I. assert (R : 0 <= i < rows * cols) by lia. assert (E1 : rows * cols <> 1) by lia.
      rewrite (proj2 (proj2 (ravel_at rows cols axs _ S R)) E1). reflexivity. }
    rewrite O. cbn [obind]. eexists. split; [reflexivity|].
    set (ev := (_ ++ _ ++ _ ++ _)%list).
    assert (EV : forall e, In e ev <-> (exists i mb, 0 <= i /\ nth_error l (Z.to_nat i) = Some mb /\ (e = SetTitle (i / cols, i mod cols) (nth (Z.to_nat i) lab ""%string) \/ e = Imshow (i / cols, i mod cols) (content stretch q mb))) \/
        (exists i, n <= i < rows * cols /\ e = AxisOff (i / cols, i mod cols)) \/ (exists t, title = Some t /\ e = SupTitle t) \/ (show = true /\ e = Show)).
    { intro e. unfold ev. rewrite !in_app_iff, in_opt, in_show, in_concat, in_map_iff. apply or_iff_compat_b_; [split|].
      - intros (pl & P & I). apply in_map_iff in P. destruct P as ([i mb] & <- & P). unfold n in P. apply zr in P. exists i, mb. destruct I as [<-|[<-|[]]]; tauto.
      - intros (i & mb & P & Q & I). exists (g (i, mb)). split; [apply in_map; unfold n; now apply zr|]. unfold g. cbn [In]. destruct I as [->| ->]; tauto.
      - split; [intros (i & <- & I); exists i; split; [now apply in_zrange2 in I|reflexivity]|intros (i & I & ->); exists i; split; [reflexivity|now apply in_zrange2]]. }
    clearbody ev. split; [|split].
    + intros i mb t P I T NB.
      split.
      * exists (content stretch q mb). split; [|now apply content_pictures]. split.
        -- apply EV. left. exists i, mb. tauto.
        -- intros c' K. apply EV in K. destruct K as [(k & mb' & Pk & Ik & [E|E])|[(k & _ & E)|[(x & _ & E)|(_ & E)]]]; try discriminate E.
           injection E as E1 E2 E3. assert (i = k) as <- by (apply (div_mod_inj cols); [exact PC|congruence]). congruence.
      * split.
        -- apply EV. left. exists i, mb. rewrite (nth_error_nth _ _ ""%string T). tauto.
        -- intros c' K. apply EV in K. destruct K as [(k & mb' & Pk & Ik & [E|E])|[(k & _ & E)|[(x & _ & E)|(_ & E)]]]; try discriminate E.
           injection E as E1 E2 E3. assert (i = k) as <- by (apply (div_mod_inj cols); [exact PC|congruence]). rewrite (nth_error_nth _ _ ""%string T) in E3. exact E3.
    + intro a. rewrite EV. split.
      * intros [(k & mb' & Pk & Ik & [E|E])|[(k & K & E)|[(x & _ & E)|(_ & E)]]]; try discriminate E. exists k. injection E as ->. tauto.
      * intros (i & I & ->). right. left. exists i. tauto.
    + intro t. rewrite EV. split.
      * intros [(k & mb' & Pk & Ik & [E|E])|[(k & K & E)|[(x & E' & E)|(_ & E)]]]; try discriminate E. congruence.
      * intros ->. right. right. left. exists t. tauto.
  - intro LT. rewrite (omap_raise_at _ _ _ IndexError (combine (zrange n) l) (n - 1, nth (Z.to_nat (n - 1)) l (mkVmb [] 0 0))); [reflexivity| | |].
    + unfold n. apply zr. split; [fold n; lia|]. apply nth_error_nth'. fold n. unfold n, zlen. unfold n, zlen in NP. lia.
    + assert (R : 0 <= n - 1 < rows * cols) by lia. rewrite (proj1 (ravel_at rows cols axs _ S R)). cbn [obind].
      assert (nth_error lab (Z.to_nat (n - 1)) = None) as -> by (apply nth_error_None; unfold zlen in LT; lia). reflexivity.
    + intros [i mb] I. apply F in I. destruct I as [P I]. assert (R : 0 <= i < rows * cols) by lia. rewrite (proj1 (ravel_at rows cols axs i S R)). cbn [obind].
      destruct (nth_error lab (Z.to_nat i)); [left; eexists; reflexivity|now right].
Qed.

(** ** Comparison *)
Lemma store_len : forall h a im, List.length (store h a im) = List.length h.
Proof. induction h as [|x h IH]; intros [|a] im; cbn; auto. Qed.
Lemma load_store : forall h a b im, (a < List.length h)%nat -> load (store h a im) b = if Nat.eq_dec a b then im else load h b.
Proof.
  induction h as [|x h IH]; intros a b im L; cbn [List.length] in L; [lia|]. destruct a as [|a]; cbn [store].
  - destruct b as [|b]; destruct (Nat.eq_dec 0 _) as [E|E]; try reflexivity; [congruence|discriminate E].
  - destruct b as [|b]; [destruct (Nat.eq_dec (S a) 0); [discriminate|reflexivity]|]. unfold load in *. cbn [nth]. rewrite IH by lia. destruct (Nat.eq_dec a b), (Nat.eq_dec (S a) (S b)); congruence.
Qed.
Lemma upd_all : forall f pairs h, NoDup (map fst pairs) ->
  (forall d s, In (d, s) pairs -> (d < List.length h)%nat /\ ~ In s (map fst pairs) /\ one_shape (load h d) (load h s)) ->
  exists h', ofold (update f) pairs h = Ok h' /\ List.length h' = List.length h /\
    (forall a, ~ In a (map fst pairs) -> load h' a = load h a) /\
    (forall d s, In (d, s) pairs -> load h' d = imap2 f (load h d) (load h s)).
Proof.
  intros f. induction pairs as [|[d s] pairs IH]; intros h ND H; cbn [ofold].
  - exists h. split; [reflexivity|]. split; [reflexivity|]. split; [reflexivity|]. intros d s [].
  - cbn [map fst] in ND. inversion ND as [|x y NI ND']; subst x y. destruct (H d s (or_introl eq_refl)) as (L & NS & SH).
    unfold update at 1. cbn [fst snd]. assert (same_shape (load h d) (load h s) = true) as ->.
    { unfold same_shape. destruct SH as [A B]. rewrite A, B, !Z.eqb_refl. reflexivity. }
    cbn [obind]. destruct (IH (store h d (imap2 f (load h d) (load h s))) ND') as (h' & E & LE & U & V).
    { intros d' s' I. destruct (H d' s' (or_intror I)) as (L' & NS' & SH'). rewrite store_len. split; [exact L'|]. cbn [map fst In] in NS'. split; [tauto|].
      assert (d <> d') by (intros ->; apply NI; apply (in_map fst) in I; exact I). assert (d <> s') by (intros ->; tauto).
      unfold one_shape. rewrite !load_store by exact L. destruct (Nat.eq_dec d d'), (Nat.eq_dec d s'); try contradiction. exact SH'. }
    exists h'. split; [exact E|]. split; [now rewrite LE, store_len|]. split.
    + intros a N. cbn [map fst In] in N. rewrite U by tauto. rewrite load_store by exact L. destruct (Nat.eq_dec d a); [exfalso; tauto|reflexivity].
    + intros d' s' [X|I].
      * injection X as <- <-. rewrite U by exact NI. rewrite load_store by exact L. destruct (Nat.eq_dec d d); [reflexivity|contradiction].
      * rewrite (V _ _ I). destruct (H d' s' (or_intror I)) as (L' & NS' & SH'). cbn [map fst In] in NS'.
        assert (d <> d') by (intros ->; apply NI; apply (in_map fst) in I; exact I). assert (d <> s') by (intros ->; tauto).
        rewrite !load_store by exact L. destruct (Nat.eq_dec d d'), (Nat.eq_dec d s'); try contradiction. reflexivity.
Qed.
Lemma load_app1 : forall h x a, (a < List.length h)%nat -> load (h ++ x)%list a = load h a.
Proof. intros h x a L. unfold load. now apply app_nth1. Qed.
Lemma combine_fst : forall A B (l : list A) (r : list B), (List.length l <= List.length r)%nat -> map fst (combine l r) = l.
Proof. intros A B. induction l as [|a l IH]; intros [|b r] L; cbn in *; try reflexivity; [lia|]. rewrite IH by lia. reflexivity. Qed.
Lemma combine_nth_error : forall A B (l : list A) (r : list B) a b, In (a, b) (combine l r) <-> exists k, nth_error l k = Some a /\ nth_error r k = Some b.
Proof.
  intros A B. induction l as [|x l IH]; intros r a b; [split; [intros []|intros ([|k] & E & _); discriminate]|]. destruct r as [|y r]; [split; [intros []|intros ([|k] & _ & E); discriminate]|]. cbn [combine In]. rewrite IH. split.
  - intros [E|(k & E1 & E2)]; [injection E as <- <-; exists O; split; reflexivity|exists (S k); split; assumption].
  - intros ([|k] & E1 & E2); [left; cbn in *; congruence|right; exists k; split; assumption].
Qed.
Lemma nth_error_seq : forall n k i, (i < n)%nat -> nth_error (seq k n) i = Some (k + i)%nat.
Proof. induction n as [|n IH]; intros k [|i] L; cbn; try lia; [f_equal; lia|]. rewrite IH by lia. f_equal. lia. Qed.
(** copies of [data], each combined with an array of [refs] *)
Lemma copy_update : forall f h data refs, valid h data -> valid h refs -> (List.length data <= List.length refs)%nat ->
  (forall k d m, nth_error data k = Some d -> nth_error refs k = Some m -> one_shape (load h d) (load h m)) ->
  exists h', ofold (update f) (combine (seq (List.length h) (List.length data)) refs) (h ++ map (load h) data)%list = Ok h' /\
    List.length h' = (List.length h + List.length data)%nat /\ (forall a, (a < List.length h)%nat -> load h' a = load h a) /\
    map (load h') (seq (List.length h) (List.length data)) = map (fun dm => imap2 f (load h (fst dm)) (load h (snd dm))) (combine data refs).
Proof.
  intros f h data refs VD VR LE SH. unfold valid in *. rewrite Forall_forall in VD, VR.
  assert (LC : forall k d, nth_error data k = Some d -> load (h ++ map (load h) data)%list (List.length h + k) = load h d).
  { intros k d E. unfold load at 1. rewrite app_nth2 by lia. replace (List.length h + k - List.length h)%nat with k by lia. apply nth_error_nth. now apply map_nth_error. }
  assert (MF : map fst (combine (seq (List.length h) (List.length data)) refs) = seq (List.length h) (List.length data)) by (apply combine_fst; rewrite seq_length; exact LE).
  destruct (upd_all f (combine (seq (List.length h) (List.length data)) refs) (h ++ map (load h) data)%list) as (h' & E & L & U & V).
  - rewrite MF. apply seq_NoDup.
  - intros d s I. apply combine_nth_error in I. destruct I as (k & E1 & E2). assert (K : (k < List.length data)%nat).
    { rewrite <- (seq_length (List.length data) (List.length h)). apply nth_error_Some. congruence. }
    rewrite nth_error_seq in E1 by exact K. apply Some_inj in E1. subst d. rewrite MF, app_length, map_length. split; [lia|].
    assert (S : (s < List.length h)%nat) by (apply VR; now apply nth_error_In in E2). split; [rewrite in_seq; lia|].
    destruct (nth_error data k) as [d|] eqn:D; [|apply nth_error_None in D; lia]. rewrite (LC k d D), load_app1 by exact S. now apply (SH k).
  - exists h'. split; [exact E|]. split; [rewrite L, app_length, map_length; reflexivity|]. split.
    + intros a A. rewrite U; [now apply load_app1|]. rewrite MF, in_seq. lia.
    + apply nth_ext with (d := ifill 0 0 0%Q) (d' := ifill 0 0 0%Q); [rewrite !map_length, seq_length, combine_length; lia|]. intros k K. rewrite map_length, seq_length in K.
      destruct (nth_error data k) as [d|] eqn:D; [|apply nth_error_None in D; lia]. destruct (nth_error refs k) as [m|] eqn:M; [|apply nth_error_None in M; lia].
      assert (N : nth_error (combine data refs) k = Some (d, m)).
      { clear - D M. revert refs k D M. induction data as [|x data IH]; intros [|y refs] [|k] D M; cbn in *; try discriminate; [congruence|now apply IH]. }
      erewrite nth_error_nth; [|apply map_nth_error; apply nth_error_seq; exact K]. erewrite nth_error_nth; [|apply map_nth_error; exact N]. cbn [fst snd].
      rewrite (V (List.length h + k)%nat m).
      * rewrite (LC k d D), load_app1; [reflexivity|]. apply VR. now apply nth_error_In in M.
      * apply combine_nth_error. exists k. split; [now apply nth_error_seq|exact M].
Qed.
Lemma read_with : forall mb h refs, read_mb mb h refs = with_images mb (map (load h) refs).
Proof.
  intros mb h refs. unfold read_mb, with_images. f_equal. generalize (vm_bands mb). intro l. revert refs. induction l as [|e l IH]; intros [|r refs]; cbn; try reflexivity. now rewrite IH.
Qed.
Lemma with_bands : forall mb ims, vm_bands mb <> [] -> ims <> [] -> vm_bands (with_images mb ims) <> [].
Proof. intros mb ims A B. unfold with_images. cbn [vm_bands]. destruct (vm_bands mb), ims; try contradiction. discriminate. Qed.

Lemma panels3 : forall stretch q srcs a b c p1 p2 p3 t1 t2 t3 rest, vm_bands a <> [] -> vm_bands b <> [] -> vm_bands c <> [] ->
  show_mbexp flog fsqrt stretch q (Some t1) (0, 0) srcs false a = Ok p1 ->
  show_mbexp flog fsqrt stretch q (Some t2) (0, 1) srcs false b = Ok p2 ->
  show_mbexp flog fsqrt stretch q (Some t3) (1, 0) srcs false c = Ok p3 ->
  forall ev, (forall e, In e ev <-> In e p1 \/ In e p2 \/ In e p3 \/ In e rest) -> (forall e, In e rest -> e = AxisOff (1, 1) \/ e = Show) ->
  forall ax mb t, In (ax, mb, t) [((0, 0), a, t1); ((0, 1), b, t2); ((1, 0), c, t3)] ->
  (exists k, shows ev ax k /\ pictures flog fsqrt stretch q mb k) /\ titled ev ax t /\
  (forall x y, marked ev ax x y <-> exists s, srcs = Some s /\ at_pixel mb s x y).
Proof.
  intros stretch q srcs a b c p1 p2 p3 t1 t2 t3 rest NA NB NC H1 H2 H3 ev EV RE ax mb t I.
  pose proof (mbexp _ _ _ _ _ _ _ _ NA H1) as (C1 & T1 & M1 & A1). pose proof (mbexp _ _ _ _ _ _ _ _ NB H2) as (C2 & T2 & M2 & A2). pose proof (mbexp _ _ _ _ _ _ _ _ NC H3) as (C3 & T3 & M3 & A3).
  assert (G : forall p, (forall e, about e = Some ax -> (In e ev <-> In e p)) ->
     (exists k, shows p ax k /\ pictures flog fsqrt stretch q mb k) /\ titled p ax t /\ (forall x y, marked p ax x y <-> exists s, srcs = Some s /\ at_pixel mb s x y) ->
     (exists k, shows ev ax k /\ pictures flog fsqrt stretch q mb k) /\ titled ev ax t /\ (forall x y, marked ev ax x y <-> exists s, srcs = Some s /\ at_pixel mb s x y)).
  { intros p P ((k & [S1 S2] & PI) & [T T'] & M). split; [|split].
    - exists k. split; [|exact PI]. split; [apply P; [reflexivity|exact S1]|]. intros c' J. apply S2. apply P; [reflexivity|exact J].
    - split; [apply P; [reflexivity|exact T]|]. intros c' J. apply T'. apply P; [reflexivity|exact J].
    - intros x y. rewrite <- M. split; intros (xy & colour & J & K); exists xy, colour; (split; [apply P; [reflexivity|exact J]|exact K]). }
  assert (R : forall e a', In e rest -> about e = Some a' -> a' = (1, 1)) by (intros e a' J K; destruct (RE e J) as [->| ->]; cbn in K; congruence).
  destruct I as [E|[E|[E|[]]]]; injection E as <- <- <-.
  - apply (G p1); [|split; [exact C1|split; [now apply T1|exact M1]]]. intros e AB. rewrite EV. split; [|tauto].
    intros [X|[X|[X|X]]]; [exact X|apply (A2 e _ X) in AB; discriminate|apply (A3 e _ X) in AB; discriminate|apply (R e _ X) in AB; discriminate].
  - apply (G p2); [|split; [exact C2|split; [now apply T2|exact M2]]]. intros e AB. rewrite EV. split; [|tauto].
    intros [X|[X|[X|X]]]; [apply (A1 e _ X) in AB; discriminate|exact X|apply (A3 e _ X) in AB; discriminate|apply (R e _ X) in AB; discriminate].
  - apply (G p3); [|split; [exact C3|split; [now apply T3|exact M3]]]. intros e AB. rewrite EV. split; [|tauto].
    intros [X|[X|[X|X]]]; [apply (A1 e _ X) in AB; discriminate|apply (A2 e _ X) in AB; discriminate|exact X|apply (R e _ X) in AB; discriminate].
Qed.
Lemma eq_self : forall l, Forall2 equal_images l l.
Proof. induction l; constructor; [split; [reflexivity|split; reflexivity]|assumption]. Qed.

Lemma compare : forall stretch q srcs mb h data M, vm_bands mb <> [] -> data <> [] -> valid h data -> valid h (refs_of M) -> (forall s, srcs = Some s -> all_have_peaks s) ->
  (List.length data <= List.length (refs_of M))%nat -> (forall r, M = Exposure r -> List.length r = List.length data) ->
  (forall k d m, nth_error data k = Some d -> nth_error (refs_of M) k = Some m -> one_shape (load h d) (load h m)) ->
  exists h' ev ims res, compare_mbexp flog fsqrt stretch q srcs mb h data M = Ok (h', ev) /\
    (forall a, (a < List.length h)%nat -> load h' a = load h a) /\
    Forall2 equal_images ims (map (load h) (firstn (List.length data) (refs_of M))) /\
    Forall2 residual res (combine (map (load h) data) (map (load h) (refs_of M))) /\
    forall ax e t, In (ax, e, t) [((0, 0), with_images mb (map (load h) data), "data"%string); ((0, 1), with_images mb ims, "model"%string); ((1, 0), with_images mb res, "data - model"%string)] ->
    (exists c, shows ev ax c /\ pictures flog fsqrt stretch q e c) /\ titled ev ax t /\
    (forall x y, marked ev ax x y <-> exists s, srcs = Some s /\ at_pixel e s x y).
Proof.
  intros stretch q srcs mb h data M NB ND VD VR PK LE LX SH. unfold compare_mbexp.
  assert (ST : exists h1 model, (match M with
    | Exposure refs => Ok (h, refs)
    | Images refs =>
      let '(h1, new) := copy_arrays h data in
      if (List.length refs <? List.length data)%nat then Raise IndexError
      else do h2 <- ofold (update (fun _ v => v)) (combine new refs) h1; Ok (h2, new)
    end) = Ok (h1, model) /\ (List.length h <= List.length h1)%nat /\ (forall a, (a < List.length h)%nat -> load h1 a = load h a) /\ valid h1 model /\ List.length model = List.length data /\
    Forall2 equal_images (map (load h1) model) (map (load h) (firstn (List.length data) (refs_of M)))).
  { destruct M as [refs|refs]; cbn [refs_of] in *.
    - exists h, refs. split; [reflexivity|]. split; [lia|]. split; [reflexivity|]. split; [exact VR|]. split; [now apply LX|]. rewrite <- (LX refs eq_refl), firstn_all. apply eq_self.
    - unfold copy_arrays. destruct (copy_update (fun _ v => v) h data refs VD VR LE SH) as (h' & E & L & U & V).
      assert ((List.length refs <? List.length data)%nat = false) as -> by (apply Nat.ltb_ge; exact LE). rewrite E. cbn [obind].
      exists h', (seq (List.length h) (List.length data)). split; [reflexivity|]. split; [lia|]. split; [exact U|]. split; [apply Forall_forall; intros x I; apply in_seq in I; lia|]. split; [apply seq_length|].
      rewrite V. clear - SH LE. revert refs SH LE. induction data as [|d data IH]; intros [|m refs] SH LE; cbn [combine map firstn List.length] in *; try constructor; try lia.
      + destruct (SH O d m eq_refl eq_refl) as [A B]. split; [exact A|]. split; [exact B|]. reflexivity.
      + apply IH; [|lia]. intros k. exact (SH (S k)). }
  destruct ST as (h1 & model & E & L1 & U1 & VM & LM & EQ). rewrite E. cbn [obind]. clear E.
  assert (D1 : map (load h1) data = map (load h) data).
  { apply map_ext_in. intros a I. apply U1. unfold valid in VD. rewrite Forall_forall in VD. now apply VD. }
  destruct (show_mbexp_ok stretch q (Some "data"%string) (0, 0) srcs false (read_mb mb h1 data) PK) as [p1 P1]. rewrite P1. cbn [obind].
  destruct (show_mbexp_ok stretch q (Some "model"%string) (0, 1) srcs false (read_mb mb h1 model) PK) as [p2 P2]. rewrite P2. cbn [obind].
  unfold copy_arrays. rewrite LM, Nat.eqb_refl. cbn [negb].
  assert (VD1 : valid h1 data) by (unfold valid in *; eapply Forall_impl; [|exact VD]; cbv beta; lia).
  destruct (copy_update Qminus h1 data model VD1 VM) as (h4 & E & L4 & U4 & V4); [lia| |].
  { intros k d m D K. assert (XD : load h1 d = load h d) by (apply U1; unfold valid in VD; rewrite Forall_forall in VD; apply VD; now apply nth_error_In in D). rewrite XD.
    assert (K' : nth_error (map (load h1) model) k = Some (load h1 m)) by now apply map_nth_error.
    assert (N : (k < List.length data)%nat) by (apply nth_error_Some; congruence).
    destruct (nth_error (refs_of M) k) as [m'|] eqn:R; [|apply nth_error_None in R; lia].
    pose proof (SH k d m' D R) as [A B]. assert (R' : nth_error (map (load h) (firstn (List.length data) (refs_of M))) k = Some (load h m')).
    { apply map_nth_error. rewrite <- R. rewrite <- (firstn_skipn (List.length data) (refs_of M)) at 2. rewrite nth_error_app1; [reflexivity|]. rewrite firstn_length. lia. }
    clear - EQ K' R' A B. revert k K' R'. induction EQ as [|x y l l' X _ IH]; intros [|k] K R; cbn in K, R; try discriminate; [|now apply (IH k)].
    apply Some_inj in K, R. subst x y. destruct X as (X1 & X2 & _). split; congruence. }
  rewrite E. cbn [obind].
  destruct (show_mbexp_ok stretch q (Some "data - model"%string) (1, 0) srcs false (read_mb mb h4 (seq (List.length h1) (List.length data))) PK) as [p3 P3]. rewrite P3. cbn [obind].
  rewrite read_with in P1, P2, P3. rewrite D1 in P1.
  exists h4, (p1 ++ p2 ++ [AxisOff (1, 1)] ++ p3 ++ [Show])%list, (map (load h1) model), (map (load h4) (seq (List.length h1) (List.length data))).
  split; [reflexivity|]. split; [intros a A; rewrite U4 by lia; now apply U1|]. split; [exact EQ|]. split.
  - rewrite V4. rewrite <- D1. clear - EQ LM LE. revert model EQ LM. generalize dependent (refs_of M). induction data as [|d data IH]; intros [|r refs] LE [|m model] EQ LM; cbn [combine map firstn List.length] in *; try constructor; try lia; inversion EQ as [|x1 x2 x3 x4 X1 X2]; subst.
    + destruct X1 as (_ & _ & X). split; [reflexivity|]. split; [reflexivity|]. intros i j. cbn [imap2 px fst snd]. now rewrite X.
    + apply IH; [lia|exact X2|lia].
  - apply (panels3 stretch q srcs _ _ _ p1 p2 p3 "data" "model" "data - model" [AxisOff (1, 1); Show]); try assumption.
    + apply with_bands; [exact NB|]. destruct data; [contradiction|discriminate].
    + apply with_bands; [exact NB|]. destruct model; [destruct data; [contradiction|discriminate LM]|discriminate].
    + apply with_bands; [exact NB|]. destruct data; [contradiction|discriminate].
    + intro e. rewrite !in_app_iff. cbn [In]. tauto.
    + intros e [<-|[<-|[]]]; tauto.
Qed.
Lemma compare_short : forall stretch q srcs mb h data refs, (List.length refs < List.length data)%nat ->
  compare_mbexp flog fsqrt stretch q srcs mb h data (Images refs) = Raise IndexError.
Proof. intros stretch q srcs mb h data refs L. unfold compare_mbexp, copy_arrays. apply Nat.ltb_lt in L. rewrite L. reflexivity. Qed.

(** ** Three exposures *)
Lemma three : forall stretch q la lb lc a b c, vm_bands a <> [] -> vm_bands b <> [] -> vm_bands c <> [] ->
  exists ev, show_three_mbexp flog fsqrt stretch q (Some [la; lb; lc]) [a; b; c] = Ok ev /\ In (AxisOff (1, 1)) ev /\
  forall ax mb t, In (ax, mb, t) [((0, 0), a, la); ((0, 1), b, lb); ((1, 0), c, lc)] ->
    (exists k, shows ev ax k /\ pictures flog fsqrt stretch q mb k) /\ titled ev ax t /\ (forall x y, ~ marked ev ax x y).
Proof.
  intros stretch q la lb lc a b c NA NB NC. eexists. split; [reflexivity|]. split; [cbn; tauto|]. intros ax mb t I.
  match goal with |- context [shows ?v] => set (ev := v) end.
  destruct (panels3 stretch q None a b c _ _ _ la lb lc [AxisOff (1, 1); Show] NA NB NC eq_refl eq_refl eq_refl ev) with (ax := ax) (mb := mb) (t := t) as (A & B & C); [| |exact I|].
  - intro e. unfold ev. cbn [In app opt_events show_if]. tauto.
  - intros e [<-|[<-|[]]]; tauto.
  - split; [exact A|]. split; [exact B|]. intros x y X. apply C in X. destruct X as (s & E & _). discriminate.
Qed.
Lemma three_refuses : forall stretch q labels l, (List.length l <> 3%nat \/ exists ls, labels = Some ls /\ List.length ls <> 3%nat) ->
  show_three_mbexp flog fsqrt stretch q labels l = Raise AssertionError.
Proof.
  intros stretch q labels l H. unfold show_three_mbexp. destruct l as [|a [|b [|c [|d l]]]]; try reflexivity.
  destruct H as [H|(ls & -> & H)]; [contradiction|]. destruct ls as [|x [|y [|z [|w ls]]]]; try reflexivity. contradiction.
Qed.

(** ** Each band *)
Lemma each_band : forall title srcs mb ev, show_mbexp_each_band flog fsqrt title srcs mb = Ok ev ->
  forall k e, 0 <= k -> nth_error (vm_bands mb) (Z.to_nat k) = Some e ->
  ((exists c, shows ev (k, 0) c /\ log_picture flog fsqrt e c) /\ shows ev (k, 1) (Gray (v_var e)) /\ shows ev (k, 2) (Bits (v_mask e))) /\
  (titled ev (k, 0) (title k "image"%string) /\ titled ev (k, 1) (title k "var"%string) /\ titled ev (k, 2) (title k "mask"%string)) /\
  (forall j x y, In j [0; 1; 2] -> (marked ev (k, j) x y <-> exists s, srcs = Some s /\ at_pixel mb s x y)).
Proof.
  intros title srcs mb ev H k e P K. unfold show_mbexp_each_band in H. destruct (zlen (vm_bands mb) <? 1); [discriminate|].
  destruct (match srcs with None => Ok None | Some s => _ end) as [xy|] eqn:X; cbn [obind] in H; [|discriminate]. apply Ok_inj in H.
  set (one := fun (b_e : Z * vexp) => let '(iband, e) := b_e in _) in H.
  assert (EV : forall v, In v ev <-> (exists k e, 0 <= k /\ nth_error (vm_bands mb) (Z.to_nat k) = Some e /\ In v (one (k, e))) \/ v = Show).
  { intro v. rewrite <- H, in_app_iff, in_flat_map. cbn [In]. split.
    - intros [([k' e'] & I & V)|[<-|[]]]; [left; exists k', e'; apply zr in I; tauto|now right].
    - intros [(k' & e' & P' & K' & V)| ->]; [left; exists (k', e'); split; [now apply zr|exact V]|now right; left]. }
  assert (SELF : forall v a, about v = Some a -> fst a = k -> (In v ev <-> In v (one (k, e)))).
  { intros v a AB F. rewrite EV. split; [|intro I; left; exists k, e; tauto]. intros [(k' & e' & P' & K' & V)| ->]; [|discriminate AB].
    assert (k' = k) as ->; [|assert (e' = e) as -> by congruence; exact V].
    unfold one in V. rewrite in_app_iff in V. destruct V as [V|V].
    - cbn [In] in V. destruct V as [<-|[<-|[<-|[<-|[<-|[<-|[]]]]]]]; cbn in AB; apply Some_inj in AB; subst a; exact F.
    - destruct xy as [l|]; [|destruct V]. cbn [map In] in V. destruct V as [<-|[<-|[<-|[]]]]; cbn in AB; apply Some_inj in AB; subst a; exact F. }
  assert (SC : forall v, In v (match xy with None => [] | Some l => map (fun col => Scatter (k, col) l "red"%string) [0; 1; 2] end) -> exists j l, v = Scatter (k, j) l "red"%string).
  { intros v V. destruct xy as [l|]; [|destruct V]. cbn [map In] in V. destruct V as [<-|[<-|[<-|[]]]]; eexists; eexists; reflexivity. }
  assert (ONE : forall v, In v (one (k, e)) -> (forall j l, v <> Scatter (k, j) l "red"%string) ->
     In v [Imshow (k, 0) (Gray (log_image flog fsqrt (v_image e) (pixels (v_var e)))); SetTitle (k, 0) (title k "image"%string);
            Imshow (k, 1) (Gray (v_var e)); SetTitle (k, 1) (title k "var"%string);
            Imshow (k, 2) (Bits (v_mask e)); SetTitle (k, 2) (title k "mask"%string)]).
  { intros v V N. unfold one in V. rewrite in_app_iff in V. destruct V as [V|V]; [exact V|]. destruct (SC v V) as (j & l & E). exfalso. exact (N j l E). }
  assert (SH : forall j c, In (Imshow (k, j) c) [Imshow (k, 0) (Gray (log_image flog fsqrt (v_image e) (pixels (v_var e)))); Imshow (k, 1) (Gray (v_var e)); Imshow (k, 2) (Bits (v_mask e))] -> shows ev (k, j) c).
  { intros j c I. split.
    - apply (SELF _ (k, j)); [reflexivity|reflexivity|]. unfold one. rewrite in_app_iff. left. cbn [In] in *. tauto.
    - intros c' I'. apply (SELF _ (k, j)) in I'; [|reflexivity|reflexivity]. apply ONE in I'; [|intros; discriminate].
      cbn [In] in I, I'. destruct I as [I|[I|[I|[]]]]; injection I as <- <-; destruct I' as [E|[E|[E|[E|[E|[E|[]]]]]]]; try discriminate E; now injection E. }
  assert (TI : forall j t, In (SetTitle (k, j) t) [SetTitle (k, 0) (title k "image"%string); SetTitle (k, 1) (title k "var"%string); SetTitle (k, 2) (title k "mask"%string)] -> titled ev (k, j) t).
  { intros j t I. split.
    - apply (SELF _ (k, j)); [reflexivity|reflexivity|]. unfold one. rewrite in_app_iff. left. cbn [In] in *. tauto.
    - intros c' I'. apply (SELF _ (k, j)) in I'; [|reflexivity|reflexivity]. apply ONE in I'; [|intros; discriminate].
      cbn [In] in I, I'. destruct I as [I|[I|[I|[]]]]; injection I as <- <-; destruct I' as [E|[E|[E|[E|[E|[E|[]]]]]]]; try discriminate E; now injection E. }
  split; [|split].
  - split; [exists (Gray (log_image flog fsqrt (v_image e) (pixels (v_var e)))); split; [apply SH; cbn; tauto|apply log_pictures]|]. split; apply SH; cbn; tauto.
  - split; [|split]; apply TI; cbn; tauto.
  - intros j x y J. unfold marked. split.
    + intros (l & colour & I & IN). apply (SELF _ (k, j)) in I; [|reflexivity|reflexivity]. unfold one in I. rewrite in_app_iff in I. destruct I as [I|I].
      * cbn [In] in I. destruct I as [E|[E|[E|[E|[E|[E|[]]]]]]]; discriminate E.
      * destruct srcs as [s|]; [|apply Ok_inj in X; subst xy; destruct I]. destruct (extract_xy mb s) as [l'|] eqn:XE; cbn [obind] in X; [|discriminate]. apply Ok_inj in X. subst xy.
        assert (l = l') by (cbn [map In] in I; destruct I as [E|[E|[E|[]]]]; congruence). subst l'. exists s. split; [reflexivity|]. exact (proj1 (xy_table mb s l XE x y) IN).
    + intros (s & -> & A). destruct (extract_xy mb s) as [l'|] eqn:XE; cbn [obind] in X; [|discriminate]. apply Ok_inj in X. subst xy.
      exists l', "red"%string. split; [|exact (proj2 (xy_table mb s l' XE x y) A)]. apply (SELF _ (k, j)); [reflexivity|reflexivity|]. unfold one. rewrite in_app_iff. right. apply (in_map (fun col => Scatter (k, col) l' "red"%string)) in J. exact J.
Qed.
Lemma each_band_ok : forall title srcs mb, vm_bands mb <> [] -> (forall s, srcs = Some s -> all_have_peaks s) -> exists ev, show_mbexp_each_band flog fsqrt title srcs mb = Ok ev.
Proof.
  intros title srcs mb N PK. unfold show_mbexp_each_band. assert (zlen (vm_bands mb) <? 1 = false) as -> by (apply Z.ltb_ge; unfold zlen; destruct (vm_bands mb); [contradiction|cbn [List.length]; lia]).
  destruct srcs as [s|]; [|eexists; reflexivity]. destruct (proj1 (xy_total mb s) (PK s eq_refl)) as [xy E]. rewrite E. eexists. reflexivity.
Qed.

(** ** Image and mask of a band *)
Lemma image_and_mask : forall mb band, 
  (forall k e, 0 <= k < zlen (vm_bands mb) -> (band = k \/ band = k - zlen (vm_bands mb)) -> nth_error (vm_bands mb) (Z.to_nat k) = Some e ->
     exists ev c, show_image_and_mask flog fsqrt mb band = Ok ev /\ shows ev (0, 0) c /\ log_picture flog fsqrt e c /\ shows ev (0, 1) (Bits (v_mask e))) /\
  (band < - zlen (vm_bands mb) \/ zlen (vm_bands mb) <= band -> show_image_and_mask flog fsqrt mb band = Raise IndexError).
Proof.
  intros mb band. unfold show_image_and_mask. set (n := zlen (vm_bands mb)). split.
  - intros k e K B E. assert ((if band <? 0 then band + n else band) = k) as ->. { destruct (band <? 0) eqn:X; [apply Z.ltb_lt in X|apply Z.ltb_ge in X]; lia. }
    assert (k <? 0 = false) as -> by (apply Z.ltb_ge; lia). rewrite E. eexists. eexists. split; [reflexivity|]. split; [|split; [apply log_pictures|]].
    + split; [cbn; tauto|]. intros c' [I|[I|[I|[I|[I|[]]]]]]; try discriminate I; now injection I.
    + split; [cbn; tauto|]. intros c' [I|[I|[I|[I|[I|[]]]]]]; try discriminate I; now injection I.
  - intros B. destruct (band <? 0) eqn:X; [apply Z.ltb_lt in X|apply Z.ltb_ge in X].
    + assert (band + n <? 0 = true) as -> by (apply Z.ltb_lt; unfold n, zlen in *; lia). reflexivity.
    + assert (band <? 0 = false) as -> by (apply Z.ltb_ge; lia). assert (nth_error (vm_bands mb) (Z.to_nat band) = None) as -> by (apply nth_error_None; unfold n, zlen in *; lia). reflexivity.
Qed.
End Draw.

(** ** Observations *)
Lemma mbobs_only_three : forall title mbobs, Forall (fun ol => ol <> []) mbobs -> List.length mbobs <> 3%nat ->
  show_multi_mbobs title mbobs = Raise (if (List.length mbobs =? 0)%nat then ValueError else IndexError).
Proof.
  intros title mbobs F N. destruct mbobs as [|a [|b [|c [|d r]]]]; try reflexivity; try contradiction.
  - cbn [List.length Nat.eqb]. inversion F as [|x y A _]; subst. destruct a as [|o a]; [contradiction|]. reflexivity.
  - cbn [List.length Nat.eqb]. inversion F as [|x y A _]; subst. destruct a as [|o a]; [contradiction|]. reflexivity.
  - cbn [List.length Nat.eqb]. unfold show_multi_mbobs.
    assert (S : subplots 3 (zlen (a :: b :: c :: d :: r)) = Ok (Axes2 3 (zlen (a :: b :: c :: d :: r)))).
    { unfold subplots. set (n := zlen _). assert (4 <= n) by (unfold n, zlen; cbn [List.length]; lia). assert ((3 <? 1) || (n <? 1) = false) as -> by (apply orb_false_iff; split; apply Z.ltb_ge; lia).
      assert ((3 =? 1) && (n =? 1) = false) as -> by reflexivity. assert (3 =? 1 = false) as -> by reflexivity. assert (n =? 1 = false) as -> by (apply Z.eqb_neq; lia). reflexivity. }
    rewrite S. cbn [obind]. rewrite Forall_forall in F. assert (P4 : 4 <= zlen (a :: b :: c :: d :: r)) by (unfold zlen; cbn [List.length]; lia).
    rewrite (omap_raise_at _ _ _ IndexError _ (3, d)); [reflexivity|apply zr; split; [lia|reflexivity]| |].
    + assert (ND : d <> []) by (apply F; cbn; tauto). destruct d as [|o d]; [contradiction|]. reflexivity.
    + intros [i ol] I. apply zr in I. destruct I as [P I]. destruct ol as [|o ol]; [right; reflexivity|]. cbn [omap].
      unfold ax_get. destruct (i <? 3) eqn:X; [|right; reflexivity]. left.
      assert (0 <? zlen (a :: b :: c :: d :: r) = true) as -> by (apply Z.ltb_lt; lia). assert (1 <? zlen (a :: b :: c :: d :: r) = true) as -> by (apply Z.ltb_lt; lia). assert (2 <? zlen (a :: b :: c :: d :: r) = true) as -> by (apply Z.ltb_lt; lia).
      cbn [andb obind]. eexists. reflexivity.
Qed.
Lemma mbobs_three : forall title a b c ra rb rc,
  exists ev, show_multi_mbobs title [a :: ra; b :: rb; c :: rc] = Ok ev /\
  forall k o, In (k, o) [(0, a); (1, b); (2, c)] ->
    shows ev (k, 0) (Gray (vo_image o)) /\ shows ev (k, 1) (Gray (vo_weight o)) /\ shows ev (k, 2) (Bits (vo_bmask o)) /\
    titled ev (k, 0) (title k "image"%string) /\ titled ev (k, 1) (title k "weight"%string) /\ titled ev (k, 2) (title k "bmask"%string).
Proof.
  intros title a b c ra rb rc. eexists. split; [reflexivity|]. intros k o I.
  assert (G : forall A, A -> True) by trivial.
  destruct I as [E|[E|[E|[]]]]; injection E as <- <-; (split; [|split; [|split; [|split; [|split]]]]);
    (split; [cbn; tauto|]; intros c' I; cbn [List.concat app In] in I;
     repeat (destruct I as [I|I]; [first [discriminate I|injection I; intros; congruence]|]); destruct I).
Qed.

(** ** A single image *)
Lemma image : forall im cat, let ev := show_image im (Some cat) in
  shows ev (0, 0) (Gray im) /\
  (forall x y, marked ev (0, 0) x y <-> exists flags, In (y, x, flags) cat) /\
  (forall xy, In (Scatter (0, 0) xy "red"%string) ev -> forall x y, In (x, y) xy <-> exists flags, In (y, x, flags) cat /\ flags <> 0).
Proof.
  intros im cat ev. unfold ev, show_image. cbv zeta. split; [|split].
  - split; [cbn; tauto|]. intros c' I. cbn [app In] in I. destruct I as [I|[I|[I|[I|[]]]]]; congruence.
  - intros x y. split.
    + intros (xy & colour & I & P). cbn [app In] in I. destruct I as [I|[I|[I|[I|[]]]]]; try discriminate I; injection I as <- <-; apply in_map_iff in P; destruct P as ([[r c] f] & E & P); cbn [fst snd] in E; injection E as <- <-.
      * now exists f.
      * apply filter_In in P. exists f. tauto.
    + intros (f & I). eexists. eexists. split; [cbn [app In]; right; left; reflexivity|]. apply in_map_iff. exists (y, x, f). split; [reflexivity|exact I].
  - intros xy I x y. cbn [app In] in I. destruct I as [I|[I|[I|[I|[]]]]]; try discriminate I. injection I as <-. rewrite in_map_iff. split.
    + intros ([[r c] f] & E & P). cbn [fst snd] in E. injection E as <- <-. apply filter_In in P. cbn [snd] in P. destruct P as [P F]. exists f. split; [exact P|]. intros ->. discriminate F.
    + intros (f & I & F). exists (y, x, f). split; [reflexivity|]. apply filter_In. split; [exact I|]. cbn [snd]. now apply negb_true_iff, Z.eqb_neq.
Qed.
