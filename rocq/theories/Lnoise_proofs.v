From Coq Require Import ZArith QArith List Bool Lia.
From Verif Require Import Base Arr Median Lsub_model Lsub_proofs Lnoise_model Lnoise_spec.
Import ListNotations.
Local Open Scope Z_scope.

Lemma footprints_same : forall cat, NoDup (map fst cat) -> footprints cat = cat.
Proof.
  intros cat. unfold footprints.
  assert (G : forall c d, NoDup (map fst c) -> (forall s : Z * (Z * pixset), In s c -> ~ In (fst s) (map fst d)) ->
    fold_left (fun d s => zput (fst s) (snd s) d) c d = (d ++ c)%list).
  { induction c as [|s c IH]; intros d N F; cbn; [now rewrite app_nil_r|]. cbn in N. inversion N; subst.
    rewrite zput_fresh by (apply F; left; reflexivity). rewrite IH; auto.
    - rewrite <- app_assoc. destruct s. reflexivity.
    - intros t Ht. rewrite map_app, in_app_iff. cbn. intros [H|[H|[]]]; [apply (F t); [right|]; auto|].
      apply H1. rewrite H. apply in_map. exact Ht. }
  intros N. apply (G cat []); auto.
Qed.

Section Noise.
Variable P : Type.
Notation image := (image P).
Notation band := (band P).
Variable cat : catalogue.
Hypothesis N : NoDup (map fst cat).

Lemma zget_source : forall id r, zget id cat = Some r <-> In (id, r) cat.
Proof.
  clear P. intros id r. split; [apply zget_In|]. revert N. induction cat as [|[a w] c IH]; cbn; [tauto|]. intros N0 [H|H].
  - rewrite pair_equal_spec in H. destruct H as [<- <-]. rewrite Z.eqb_refl. reflexivity.
  - inversion N0; subst. destruct (Z.eqb_spec id a) as [->|Ne]; [|auto]. destruct H2. change a with (fst (a, r)). apply in_map. exact H.
Qed.
Lemma in_source_get : forall id parent f x y, zget id cat = Some (parent, f) -> in_source cat id x y <-> f x y = true.
Proof.
  intros id parent f x y H. split.
  - intros [p' [f' [Hi Hf]]]. apply zget_source in Hi. congruence.
  - intros Hf. exists parent, f. apply zget_source in H. auto.
Qed.

(** Writing the noise into the footprints of a list. *)
Lemma put_fold : forall (v : image) (c : catalogue) im x y,
  (forall s : Z * (Z * pixset), In s c -> snd (snd s) x y = false) -> fold_left (fun im (s : Z * (Z * pixset)) => put P im (snd (snd s)) v) c im x y = im x y.
Proof.
  intros v c. induction c as [|s c IH]; intros im x y H; cbn; [reflexivity|]. rewrite IH by (intros; apply H; right; auto).
  unfold put. rewrite H by (left; reflexivity). reflexivity.
Qed.
Lemma put_fold_in : forall (v : image) (c : catalogue) im x y (s : Z * (Z * pixset)), In s c -> snd (snd s) x y = true ->
  fold_left (fun im (s : Z * (Z * pixset)) => put P im (snd (snd s)) v) c im x y = v x y.
Proof.
  intros v c. induction c as [|t c IH]; intros im x y s Hi Hs; cbn; [destruct Hi|].
  destruct (existsb (fun s : Z * (Z * pixset) => snd (snd s) x y) c) eqn:E.
  - apply existsb_exists in E. destruct E as [s' [H1 H2]]. eapply IH; eauto.
  - rewrite put_fold.
    + destruct Hi as [Et|Hi]; [subst t; unfold put; cbv beta; rewrite Hs; reflexivity|].
      exfalso. assert (existsb (fun s : Z * (Z * pixset) => snd (snd s) x y) c = true) by (apply existsb_exists; eauto). congruence.
    + intros s' Hs'. destruct (snd (snd s') x y) eqn:E2; [|reflexivity].
      assert (existsb (fun s : Z * (Z * pixset) => snd (snd s) x y) c = true) by (apply existsb_exists; eauto). congruence.
Qed.
Lemma replaced_value : forall (b : band) x y,
  (in_some cat x y -> replaced P cat b x y = n_noise P b x y) /\ (~ in_some cat x y -> replaced P cat b x y = n_orig P b x y).
Proof.
  intros b x y. unfold replaced. rewrite footprints_same by exact N. split.
  - intros [id [parent [f [Hi Hf]]]]. eapply put_fold_in; eauto.
  - intros H. apply put_fold. intros [id [parent f]] Hs. cbn. destruct (f x y) eqn:E; [|reflexivity]. destruct H. exists id, parent, f. auto.
Qed.
Lemma end1_top : forall (b : band) im x y id f, In (id, (0, f)) cat -> f x y = true -> end1 P cat b im x y = n_orig P b x y.
Proof.
  intros b im x y id f Hi Hf. unfold end1. rewrite footprints_same by exact N. revert im.
  assert (G : forall c im, (im x y = n_orig P b x y \/ In (id, (0, f)) c) ->
    fold_left (fun im (s : Z * (Z * pixset)) => if fst (snd s) =? 0 then put P im (snd (snd s)) (n_orig P b) else im) c im x y = n_orig P b x y).
  { induction c as [|[a [p g]] c IH]; intros im H; cbn [fold_left fst snd]; [destruct H as [H|[]]; exact H|].
    apply IH. destruct (p =? 0) eqn:Ep.
    - destruct H as [H|[H|H]]; [|rewrite !pair_equal_spec in H; destruct H as [_ [_ ->]]|auto].
      + left. unfold put. destruct (g x y); auto.
      + left. unfold put. rewrite Hf. reflexivity.
    - destruct H as [H|[H|H]]; auto. rewrite !pair_equal_spec in H. destruct H as [_ [-> _]]. discriminate. }
  intros im. apply G. auto.
Qed.
Lemma end1_orig : forall (b : band) im x y, im x y = n_orig P b x y -> end1 P cat b im x y = n_orig P b x y.
Proof.
  intros b im x y H. unfold end1. rewrite footprints_same by exact N. revert im H.
  induction cat as [|[a [p g]] c IH]; intros im H; cbn [fold_left fst snd]; [exact H|].
  cbn in N. apply IH; [inversion N; auto|]. destruct (p =? 0); [|exact H]. unfold put. destruct (g x y); auto.
Qed.

(** The loops over the bands. *)
Lemma over_bands_all : forall (f : band -> image -> outcome image) (g : band -> image -> image) bands ims,
  (forall b im, f b im = Ok (g b im)) -> List.length ims = List.length bands ->
  exists ims', over_bands P f bands ims = (ims', Ok tt) /\ List.length ims' = List.length bands /\
  forall (R : band -> image -> image -> Prop), (forall b im, R b im (g b im)) ->
    forall (S : band -> image -> Prop), Forall2 S bands ims -> Forall2 (fun b im' => exists im, S b im /\ R b im im') bands ims'.
Proof.
  intros f g bands. induction bands as [|b bs IH]; intros [|im ims] Hf Hl; try discriminate; cbn [over_bands].
  - exists []. split; [reflexivity|split; [reflexivity|]]. intros. constructor.
  - rewrite Hf. destruct (IH ims Hf) as [r [E [L W]]]; [cbn in Hl; lia|]. rewrite E. eexists. split; [reflexivity|]. split; [cbn; lia|].
    intros R HR S HS. inversion HS; subst. constructor; [eauto|]. apply W; auto.
Qed.
Lemma over_bands_raise : forall (f : band -> image -> outcome image) e bands ims, (forall b im, f b im = Raise e) ->
  over_bands P f bands ims = (ims, Ok tt) \/ over_bands P f bands ims = (ims, Raise e).
Proof. intros f e [|b bs] [|im ims] H; cbn; auto. rewrite H. auto. Qed.
Lemma over_bands_raise2 : forall (f : band -> image -> outcome image) e bands ims, (forall b im, f b im = Raise e) ->
  List.length ims = List.length bands -> bands <> [] -> over_bands P f bands ims = (ims, Raise e).
Proof. intros f e [|b bs] [|im ims] H L Nb; cbn; try discriminate; [congruence|]. rewrite H. auto. Qed.

Lemma Forall2_imp : forall A B (R S : A -> B -> Prop) l m, (forall a b, R a b -> S a b) -> Forall2 R l m -> Forall2 S l m.
Proof. intros A B R S l m H F. induction F; constructor; auto. Qed.
Lemma Forall2_len : forall A B (R : A -> B -> Prop) l m, Forall2 R l m -> List.length m = List.length l.
Proof. intros A B R l m F. induction F; cbn; auto. Qed.

(** insertSource and removeSource. *)
Lemma insert_known : forall bands id parent f ims, zget id cat = Some (parent, f) -> List.length ims = List.length bands ->
  exists ims', insert_source P cat bands id ims = (ims', Ok tt) /\ List.length ims' = List.length bands /\
  forall S : band -> image -> Prop, Forall2 S bands ims ->
    Forall2 (fun b im' => exists im, S b im /\ forall x y, im' x y = if f x y then n_orig P b x y else im x y) bands ims'.
Proof.
  intros bands id parent f ims H L. unfold insert_source.
  destruct (over_bands_all (fun b => insert1 P cat b id) (fun b im => put P im f (n_orig P b)) bands ims) as [r [E [Hl W]]]; auto.
  { intros b im. unfold insert1. rewrite footprints_same, H by exact N. reflexivity. }
  exists r. split; [exact E|split; [exact Hl|]]. intros S HS.
  apply (W (fun b im im' => forall x y, im' x y = if f x y then n_orig P b x y else im x y)); auto.
Qed.
Lemma remove_known : forall bands id parent f ims, zget id cat = Some (parent, f) -> List.length ims = List.length bands ->
  exists ims', remove_source P cat bands id ims = (ims', Ok tt) /\ List.length ims' = List.length bands /\
  forall S : band -> image -> Prop, Forall2 S bands ims ->
    Forall2 (fun b im' => exists im, S b im /\ forall x y, im' x y = if f x y then n_noise P b x y else im x y) bands ims'.
Proof.
  intros bands id parent f ims H L. unfold remove_source.
  destruct (over_bands_all (fun b => remove1 P cat b id) (fun b im => put P im f (n_noise P b)) bands ims) as [r [E [Hl W]]]; auto.
  { intros b im. unfold remove1. rewrite footprints_same, H by exact N. reflexivity. }
  exists r. split; [exact E|split; [exact Hl|]]. intros S HS.
  apply (W (fun b im im' => forall x y, im' x y = if f x y then n_noise P b x y else im x y)); auto.
Qed.
Lemma insert_unknown : forall bands id ims, zget id cat = None ->
  insert_source P cat bands id ims = (ims, Ok tt) \/ insert_source P cat bands id ims = (ims, Raise KeyError).
Proof.
  intros bands id ims H. apply over_bands_raise. intros b im. unfold insert1. rewrite footprints_same, H by exact N. reflexivity.
Qed.
Lemma remove_unknown : forall bands id ims, zget id cat = None ->
  remove_source P cat bands id ims = (ims, Ok tt) \/ remove_source P cat bands id ims = (ims, Raise KeyError).
Proof.
  intros bands id ims H. apply over_bands_raise. intros b im. unfold remove1. rewrite footprints_same, H by exact N. reflexivity.
Qed.

(** A relation between a state and later ones that every insertion and removal
    keeps is kept by every program. *)
Section Keep.
Variable bands : list band.
Variable S : band -> image -> Prop.
Hypothesis keep : forall id parent f, zget id cat = Some (parent, f) -> forall b im im', S b im ->
  (forall x y, im' x y = if f x y then n_orig P b x y else im x y) -> S b im'.
Hypothesis keep' : forall id parent f, zget id cat = Some (parent, f) -> forall b im im', S b im ->
  (forall x y, im' x y = if f x y then n_noise P b x y else im x y) -> S b im'.
Lemma insert_keep : forall id ims ims' o, Forall2 S bands ims -> insert_source P cat bands id ims = (ims', o) -> Forall2 S bands ims'.
Proof.
  intros id ims ims' o HS H. destruct (zget id cat) as [[parent f]|] eqn:E.
  - destruct (insert_known bands id parent f ims E (Forall2_len _ _ _ _ _ HS)) as [r [E1 [_ W]]]. rewrite E1 in H.
    rewrite pair_equal_spec in H. destruct H as [<- _]. eapply Forall2_imp; [|apply W; exact HS].
    intros b im' [im [H1 H2]]. eapply keep; eauto.
  - destruct (insert_unknown bands id ims E) as [E1|E1]; rewrite E1 in H; rewrite pair_equal_spec in H; destruct H as [<- _]; exact HS.
Qed.
Lemma remove_keep : forall id ims ims' o, Forall2 S bands ims -> remove_source P cat bands id ims = (ims', o) -> Forall2 S bands ims'.
Proof.
  intros id ims ims' o HS H. destruct (zget id cat) as [[parent f]|] eqn:E.
  - destruct (remove_known bands id parent f ims E (Forall2_len _ _ _ _ _ HS)) as [r [E1 [_ W]]]. rewrite E1 in H.
    rewrite pair_equal_spec in H. destruct H as [<- _]. eapply Forall2_imp; [|apply W; exact HS].
    intros b im' [im [H1 H2]]. eapply keep'; eauto.
  - destruct (remove_unknown bands id ims E) as [E1|E1]; rewrite E1 in H; rewrite pair_equal_spec in H; destruct H as [<- _]; exact HS.
Qed.
Lemma nexec_keep : forall p opened s s' t r, Forall2 S bands s -> nexec P cat bands p opened s = (s', t, r) -> Forall2 S bands s'.
Proof.
  intros p. induction p as [| |e|p IHp q IHq|p IHp|id|id|id p IHp]; intros opened s s' t r HS H; cbn [nexec] in H.
  1-3: rewrite !pair_equal_spec in H; destruct H as [[<- _] _]; exact HS.
  - destruct (nexec P cat bands p opened s) as [[s1 t1] r1] eqn:E1. destruct r1 as [[]|ex].
    + destruct (nexec P cat bands q opened s1) as [[s2 t2] r2] eqn:E2. rewrite !pair_equal_spec in H. destruct H as [[<- _] _]. eauto.
    + rewrite !pair_equal_spec in H. destruct H as [[<- _] _]. eauto.
  - destruct (nexec P cat bands p opened s) as [[s1 t1] r1] eqn:E1. rewrite !pair_equal_spec in H. destruct H as [[<- _] _]. eauto.
  - destruct (insert_source P cat bands id s) as [s1 r1] eqn:E1. rewrite !pair_equal_spec in H. destruct H as [[<- _] _]. eapply insert_keep; eauto.
  - destruct (remove_source P cat bands id s) as [s1 r1] eqn:E1. rewrite !pair_equal_spec in H. destruct H as [[<- _] _]. eapply remove_keep; eauto.
  - destruct (insert_source P cat bands id s) as [s1 r1] eqn:E1. assert (S1 := insert_keep _ _ _ _ HS E1). destruct r1 as [[]|ex].
    + destruct (nexec P cat bands p (id :: opened) s1) as [[s2 t2] r2] eqn:E2.
      destruct (remove_source P cat bands id s2) as [s3 r3] eqn:E3. rewrite !pair_equal_spec in H. destruct H as [[<- _] _].
      eapply remove_keep; [eapply IHp; [exact S1|exact E2]|exact E3].
    + rewrite !pair_equal_spec in H. destruct H as [[<- _] _]. exact S1.
Qed.
End Keep.

Lemma set_ok : forall bands, no_failure P bands -> set_replacers P cat bands = (map (replaced P cat) bands, Ok tt).
Proof.
  induction bands as [|b bs IH]; intros H; cbn [set_replacers map]; [reflexivity|]. rewrite (H b) by (left; reflexivity).
  rewrite IH by (intros c Hc; apply H; right; exact Hc). reflexivity.
Qed.
Lemma replaced_all_noise : forall bands, all_noise P cat bands (map (replaced P cat) bands).
Proof. induction bands as [|b bs IH]; constructor; [apply replaced_value|exact IH]. Qed.
Lemma end_all_value : forall (S : band -> image -> Prop) (T : band -> image -> Prop) bands ims, Forall2 S bands ims ->
  (forall b im, S b im -> T b (end1 P cat b im)) -> Forall2 T bands (end_all P cat bands ims).
Proof. intros S T bands ims F H. induction F; cbn; constructor; auto. Qed.

(** After any program the pixels are the original or, in a footprint, noise. *)
Definition orig_or_noise (b : band) (im : image) : Prop :=
  forall x y, im x y = n_orig P b x y \/ (in_some cat x y /\ im x y = n_noise P b x y).
Lemma in_some_get : forall id parent f x y, zget id cat = Some (parent, f) -> f x y = true -> in_some cat x y.
Proof. intros id parent f x y H Hf. exists id, parent, f. apply zget_source in H. auto. Qed.
Lemma session_restores : forall bands p ims t r, no_failure P bands -> parents_cover cat ->
  session P cat bands p = (ims, t, r) -> as_before P bands ims.
Proof.
  intros bands p ims t r F C H. unfold session in H. rewrite set_ok in H by exact F.
  destruct (nexec P cat bands p [] (map (replaced P cat) bands)) as [[s t1] r1] eqn:E.
  rewrite !pair_equal_spec in H. destruct H as [[<- _] _].
  assert (G : Forall2 orig_or_noise bands s).
  { eapply nexec_keep; [| | |exact E].
    - intros id parent f Hg b im im' Hs Hi x y. rewrite Hi. destruct (f x y); [auto|apply Hs].
    - intros id parent f Hg b im im' Hs Hi x y. rewrite Hi. destruct (f x y) eqn:Ef; [|apply Hs]. right. split; [eapply in_some_get; eauto|reflexivity].
    - clear E. induction bands as [|b bs IH]; cbn; constructor; [|apply IH; intros c Hc; apply F; right; exact Hc].
      intros x y. destruct (replaced_value b x y) as [R1 R2].
      destruct (existsb (fun s : Z * (Z * pixset) => snd (snd s) x y) cat) eqn:Ex.
      + apply existsb_exists in Ex. destruct Ex as [[id [parent f]] [H1 H2]]. cbn in H2.
        assert (in_some cat x y) by (exists id, parent, f; auto). auto.
      + left. apply R2. intros [id [parent [f [H1 H2]]]].
        assert (existsb (fun s : Z * (Z * pixset) => snd (snd s) x y) cat = true) by (apply existsb_exists; exists (id, (parent, f)); auto). congruence. }
  unfold as_before. eapply end_all_value; [exact G|]. intros b im Hs x y.
  destruct (Hs x y) as [Hx|[Hx _]]; [apply end1_orig; exact Hx|].
  destruct (C x y Hx) as [id [f [H1 H2]]]. eapply end1_top; eauto.
Qed.

(** After a block its source is noise. *)
Lemma noise_again : forall bands id p opened s s' t r, In id (map fst cat) -> List.length s = List.length bands ->
  nexec P cat bands (NInserted id p) opened s = (s', t, r) ->
  Forall2 (fun b im => forall x y, in_source cat id x y -> im x y = n_noise P b x y) bands s'.
Proof.
  intros bands id p opened s s' t r Hid L H. cbn [nexec] in H.
  destruct (zget id cat) as [[parent f]|] eqn:E; [|apply zget_not_in in E; tauto].
  destruct (insert_known bands id parent f s E L) as [s1 [E1 [L1 _]]]. rewrite E1 in H.
  destruct (nexec P cat bands p (id :: opened) s1) as [[s2 t2] r2] eqn:E2.
  assert (L2 : Forall2 (fun (_ : band) (_ : image) => True) bands s2).
  { eapply (nexec_keep bands (fun _ _ => True)); [auto|auto| |exact E2].
    clear - L1. revert s1 L1. induction bands as [|b bs IH]; intros [|im r] L1; try discriminate; constructor; auto. }
  destruct (remove_known bands id parent f s2 E (Forall2_len _ _ _ _ _ L2)) as [s3 [E3 [_ W]]]. rewrite E3 in H.
  rewrite !pair_equal_spec in H. destruct H as [[<- _] _]. eapply Forall2_imp; [|apply W; exact L2].
  intros b im [im0 [_ Hi]] x y Hx. rewrite Hi. rewrite (in_source_get _ _ _ _ _ E) in Hx. rewrite Hx. reflexivity.
Qed.
Lemma unknown_raises : forall bands id p opened s, bands <> [] -> List.length s = List.length bands -> ~ In id (map fst cat) ->
  nexec P cat bands (NInserted id p) opened s = (s, [], Raise KeyError).
Proof.
  intros bands id p opened s Nb L Hid. cbn [nexec]. apply zget_not_in in Hid.
  assert (E : insert_source P cat bands id s = (s, Raise KeyError)).
  { apply over_bands_raise2; auto. intros b im. unfold insert1. rewrite footprints_same, Hid by exact N. reflexivity. }
  rewrite E. reflexivity.
Qed.

(** Programs that only use blocks leave every pixel unchanged or noise. *)
Definition later (b : band) (im im' : image) : Prop := forall x y, im' x y = im x y \/ (in_some cat x y /\ im' x y = n_noise P b x y).
Lemma later_trans : forall b a c d, later b a c -> later b c d -> later b a d.
Proof. intros b a c d H1 H2 x y. destruct (H2 x y) as [E|E]; [rewrite E; apply H1|auto]. Qed.
Lemma scoped_keep : forall bands (T : band -> image -> Prop), (forall b im im', T b im -> later b im im' -> T b im') ->
  forall p opened s s' t r, scoped p -> Forall2 T bands s -> nexec P cat bands p opened s = (s', t, r) -> Forall2 T bands s'.
Proof.
  intros bands T HT p. revert T HT. induction p as [| |e|p IHp q IHq|p IHp|id|id|id p IHp]; intros T HT opened s s' t r Hp HS H; cbn [nexec] in H; cbn in Hp.
  1-3: rewrite !pair_equal_spec in H; destruct H as [[<- _] _]; exact HS.
  - destruct Hp as [Hp Hq]. destruct (nexec P cat bands p opened s) as [[s1 t1] r1] eqn:E1. destruct r1 as [[]|ex].
    + destruct (nexec P cat bands q opened s1) as [[s2 t2] r2] eqn:E2. rewrite !pair_equal_spec in H. destruct H as [[<- _] _]. eauto.
    + rewrite !pair_equal_spec in H. destruct H as [[<- _] _]. eauto.
  - destruct (nexec P cat bands p opened s) as [[s1 t1] r1] eqn:E1. rewrite !pair_equal_spec in H. destruct H as [[<- _] _]. eauto.
  - destruct Hp.
  - destruct Hp.
  - destruct (zget id cat) as [[parent f]|] eqn:E.
    + destruct (insert_known bands id parent f s E (Forall2_len _ _ _ _ _ HS)) as [s1 [E1 [L1 W1]]]. rewrite E1 in H.
      destruct (nexec P cat bands p (id :: opened) s1) as [[s2 t2] r2] eqn:E2.
      assert (S2 : Forall2 (fun b im2 => exists im im1, T b im /\ (forall x y, im1 x y = if f x y then n_orig P b x y else im x y) /\ later b im1 im2) bands s2).
      { eapply (IHp (fun b im2 => exists im im1, T b im /\ (forall x y, im1 x y = if f x y then n_orig P b x y else im x y) /\ later b im1 im2)); [|exact Hp| |exact E2].
        - intros b im im' [i [i1 [A [B C]]]] Hl. exists i, i1. split; [exact A|split; [exact B|]]. eapply later_trans; eauto.
        - eapply Forall2_imp; [|apply W1; exact HS]. intros b im1 [im [A B]]. exists im, im1. split; [exact A|split; [exact B|]]. intros x y. auto. }
      destruct (remove_known bands id parent f s2 E (Forall2_len _ _ _ _ _ S2)) as [s3 [E3 [_ W3]]]. rewrite E3 in H.
      rewrite !pair_equal_spec in H. destruct H as [[<- _] _]. eapply Forall2_imp; [|apply W3; exact S2].
      intros b im3 [im2 [[im [im1 [A [B C]]]] D]]. apply (HT b im); [exact A|]. intros x y. rewrite D. destruct (f x y) eqn:Ef.
      * right. split; [eapply in_some_get; eauto|reflexivity].
      * destruct (C x y) as [C1|C1]; [left|right; exact C1]. rewrite C1, B, Ef. reflexivity.
    + destruct (insert_unknown bands id s E) as [E1|E1]; rewrite E1 in H.
      * destruct (nexec P cat bands p (id :: opened) s) as [[s2 t2] r2] eqn:E2. assert (S2 := IHp T HT _ _ _ _ _ Hp HS E2).
        destruct (remove_unknown bands id s2 E) as [E3|E3]; rewrite E3 in H; rewrite !pair_equal_spec in H; destruct H as [[<- _] _]; exact S2.
      * rewrite !pair_equal_spec in H. destruct H as [[<- _] _]. exact HS.
Qed.
Lemma noise_later : forall b im im', (forall x y, (in_some cat x y -> im x y = n_noise P b x y) /\ (~ in_some cat x y -> im x y = n_orig P b x y)) ->
  later b im im' -> forall x y, (in_some cat x y -> im' x y = n_noise P b x y) /\ (~ in_some cat x y -> im' x y = n_orig P b x y).
Proof.
  intros b im im' H Hl x y. destruct (H x y) as [H1 H2]. destruct (Hl x y) as [E|[E1 E2]]; [rewrite E; auto|].
  split; [auto|]. intros Hn. tauto.
Qed.
Lemma scoped_all_noise : forall bands p opened s s' t r, scoped p -> all_noise P cat bands s ->
  nexec P cat bands p opened s = (s', t, r) -> all_noise P cat bands s'.
Proof.
  intros bands p opened s s' t r Hp HS H. unfold all_noise. eapply scoped_keep; eauto. intros b im im' H1 H2. apply (noise_later b im im' H1 H2).
Qed.

(** What flat programs see. *)
Lemma flat_scoped : forall p, flat p -> scoped p.
Proof.
  assert (Q : forall p, quiet p -> scoped p) by (induction p; cbn; tauto).
  induction p; cbn; try tauto. apply Q.
Qed.
Lemma quiet_same : forall bands p opened s s' t r, quiet p -> nexec P cat bands p opened s = (s', t, r) ->
  s' = s /\ Forall (fun g => g = (opened, s)) t.
Proof.
  intros bands p. induction p as [| |e|p IHp q IHq|p IHp|id|id|id p IHp]; intros opened s s' t r Hp H; cbn [nexec] in H; cbn in Hp; try tauto.
  1-3: rewrite !pair_equal_spec in H; destruct H as [[<- <-] _]; auto.
  - destruct Hp as [Hp Hq]. destruct (nexec P cat bands p opened s) as [[s1 t1] r1] eqn:E1. destruct (IHp _ _ _ _ _ Hp E1) as [-> T1].
    destruct r1 as [[]|ex].
    + destruct (nexec P cat bands q opened s) as [[s2 t2] r2] eqn:E2. destruct (IHq _ _ _ _ _ Hq E2) as [-> T2].
      rewrite !pair_equal_spec in H. destruct H as [[<- <-] _]. split; [reflexivity|]. apply Forall_app. auto.
    + rewrite !pair_equal_spec in H. destruct H as [[<- <-] _]. auto.
  - destruct (nexec P cat bands p opened s) as [[s1 t1] r1] eqn:E1. rewrite !pair_equal_spec in H. destruct H as [[<- <-] _]. eauto.
Qed.
Lemma flat_sights : forall bands p s s' t r, bands <> [] -> flat p -> all_noise P cat bands s -> nexec P cat bands p [] s = (s', t, r) ->
  forall opened ims, In (opened, ims) t ->
    (opened = [] /\ all_noise P cat bands ims) \/ exists id, In id (map fst cat) /\ opened = [id] /\ only_source P cat id bands ims.
Proof.
  intros bands p. induction p as [| |e|p IHp q IHq|p IHp|id|id|id p IHp]; intros s s' t r Nb Hp HS H opened ims Hg; cbn in Hp; try tauto.
  - cbn [nexec] in H. rewrite !pair_equal_spec in H; destruct H as [[_ <-] _]. destruct Hg.
  - cbn [nexec] in H. rewrite !pair_equal_spec in H; destruct H as [[_ <-] _]. destruct Hg as [Hg|[]]. left. rewrite pair_equal_spec in Hg.
    destruct Hg as [<- <-]. auto.
  - cbn [nexec] in H. rewrite !pair_equal_spec in H; destruct H as [[_ <-] _]. destruct Hg.
  - cbn [nexec] in H. destruct Hp as [Hp Hq]. destruct (nexec P cat bands p [] s) as [[s1 t1] r1] eqn:E1.
    assert (S1 := scoped_all_noise _ _ _ _ _ _ _ (flat_scoped _ Hp) HS E1). destruct r1 as [[]|ex].
    + destruct (nexec P cat bands q [] s1) as [[s2 t2] r2] eqn:E2. rewrite !pair_equal_spec in H. destruct H as [[_ <-] _].
      apply in_app_iff in Hg. destruct Hg as [Hg|Hg]; eauto.
    + rewrite !pair_equal_spec in H. destruct H as [[_ <-] _]. eauto.
  - cbn [nexec] in H. destruct (nexec P cat bands p [] s) as [[s1 t1] r1] eqn:E1. rewrite !pair_equal_spec in H. destruct H as [[_ <-] _]. eauto.
  - destruct (in_dec Z.eq_dec id (map fst cat)) as [Hid|Hid].
    2:{ rewrite unknown_raises in H; auto; [|eapply Forall2_len; exact HS]. rewrite !pair_equal_spec in H. destruct H as [[_ <-] _]. destruct Hg. }
    cbn [nexec] in H. destruct (zget id cat) as [[parent f]|] eqn:E; [|apply zget_not_in in E; tauto].
    destruct (insert_known bands id parent f s E (Forall2_len _ _ _ _ _ HS)) as [s1 [E1 [L1 W1]]]. rewrite E1 in H.
    destruct (nexec P cat bands p [id] s1) as [[s2 t2] r2] eqn:E2. destruct (quiet_same _ _ _ _ _ _ _ Hp E2) as [-> T].
    destruct (remove_source P cat bands id s1) as [s3 r3]. rewrite !pair_equal_spec in H. destruct H as [[_ <-] _].
    rewrite Forall_forall in T. apply T in Hg. rewrite pair_equal_spec in Hg. destruct Hg as [-> ->]. right. exists id. split; [exact Hid|split; [reflexivity|]].
    unfold only_source. eapply Forall2_imp; [|apply W1; exact HS].
    intros b im' [im [A B]] x y. destruct (A x y) as [A1 A2]. rewrite B. rewrite (in_source_get _ _ _ _ _ E).
    destruct (f x y) eqn:Ef; split; try congruence; try tauto.
Qed.
End Noise.

(** ** The noise image *)
Lemma usable_in : forall signal variance gain v, In v (usable signal variance gain) <->
  exists i j s w, inside signal i j /\ px signal i j = Some s /\ px variance i j = Some w /\
    v = match gain with None => w | Some g => (w - s / g)%Q end.
Proof.
  intros signal variance gain v. unfold usable. rewrite in_flat_map. split.
  - intros [sv [H1 H2]]. unfold pixels in H1. apply in_map_iff in H1. destruct H1 as [[i j] [E Hc]]. apply in_coords in Hc.
    cbn in E, Hc. subst sv. cbn [px imap2] in H2. exists i, j.
    destruct (px signal i j) as [s|]; [|destruct H2]. destruct (px variance i j) as [w|]; [|destruct H2].
    exists s, w. split; [exact Hc|]. split; [reflexivity|]. split; [reflexivity|]. destruct gain; destruct H2 as [<-|[]]; reflexivity.
  - intros [i [j [s [w [Hin [E1 [E2 ->]]]]]]]. exists (Some s, Some w). split.
    + unfold pixels. apply in_map_iff. exists (i, j). split; [cbn; rewrite E1, E2; reflexivity|]. apply in_coords. exact Hin.
    + cbn. destruct gain; left; reflexivity.
Qed.
