From Coq Require Import ZArith QArith List Bool Lia Lqa.
From Verif Require Import Base Arr Median Lsky_model Lsky_spec.
Import ListNotations.
Local Open Scope Z_scope.

(** ** Sums and means *)
Lemma qsum_app : forall a b, (qsum (a ++ b) == qsum a + qsum b)%Q.
Proof. induction a as [|x a IH]; intros b; unfold qsum in *; cbn [app fold_right]; [ring|]. rewrite IH. ring. Qed.
Lemma qsum_ext : forall A (f g : A -> Q) l, (forall x, In x l -> (f x == g x)%Q) -> (qsum (map f l) == qsum (map g l))%Q.
Proof. unfold qsum in *. induction l as [|x l IH]; intros H; cbn [map fold_right]; [reflexivity|]. rewrite (H x) by (left; reflexivity). rewrite IH by (intros; apply H; right; assumption). reflexivity. Qed.
Lemma qsum_minus : forall A (f g : A -> Q) l, (qsum (map (fun x => f x - g x) l) == qsum (map f l) - qsum (map g l))%Q.
Proof. unfold qsum in *. induction l as [|x l IH]; cbn [map fold_right]; [ring|]. rewrite IH. ring. Qed.
Lemma qsum_plus : forall A (f g : A -> Q) l, (qsum (map (fun x => f x + g x) l) == qsum (map f l) + qsum (map g l))%Q.
Proof. unfold qsum in *. induction l as [|x l IH]; cbn [map fold_right]; [ring|]. rewrite IH. ring. Qed.
Lemma qsum_zero : forall A (l : list A), (qsum (map (fun _ => 0) l) == 0)%Q.
Proof. unfold qsum in *. induction l as [|x l IH]; cbn [map fold_right]; [reflexivity|]. rewrite IH. ring. Qed.
Lemma qsum_swap : forall A B (F : B -> A -> Q) (bs : list B) (l : list A),
  (qsum (map (fun p => qsum (map (fun b => F b p) bs)) l) == qsum (map (fun b => qsum (map (F b) l)) bs))%Q.
Proof.
  induction bs as [|b bs IH]; intros l; cbn [map qsum fold_right].
  - apply qsum_zero.
  - fold (qsum (map (fun b0 => qsum (map (F b0) l)) bs)). rewrite <- IH.
    exact (qsum_plus A (F b) (fun p => qsum (map (fun b0 => F b0 p) bs)) l).
Qed.
Definition pixel_sum (r c : Z) (im : img Q) : Q := qsum (map (fun ij => px im (fst ij) (snd ij)) (coords r c)).
Definition npix (r c : Z) : Q := inject_Z (zlen (coords r c)).
Lemma mean_shape : forall r c im, nr im = r -> nc im = c -> mean im = (pixel_sum r c im / npix r c)%Q.
Proof. intros r c im <- <-. unfold mean, pixel_sum, npix, pixels, zlen. rewrite map_length. reflexivity. Qed.
Lemma mean_lowered : forall im bgs im', (forall b, In b bgs -> nr b = nr im /\ nc b = nc im) -> lowered_by im bgs im' ->
  (mean im - mean im' == qsum (map mean bgs))%Q.
Proof.
  intros im bgs im' Hb [Er [Ec P]].
  rewrite (mean_shape (nr im) (nc im) im eq_refl eq_refl), (mean_shape (nr im) (nc im) im' Er Ec).
  assert (M : (qsum (map mean bgs) == qsum (map (fun b => pixel_sum (nr im) (nc im) b / npix (nr im) (nc im)) bgs))%Q).
  { apply qsum_ext. intros b H. destruct (Hb b H) as [A B]. rewrite (mean_shape (nr im) (nc im) b A B). reflexivity. }
  assert (S : (pixel_sum (nr im) (nc im) im' == pixel_sum (nr im) (nc im) im - qsum (map (pixel_sum (nr im) (nc im)) bgs))%Q).
  { assert (W := qsum_swap (Z * Z) (img Q) (fun b ij => px b (fst ij) (snd ij)) bgs (coords (nr im) (nc im))). cbv beta in W.
    change (qsum (map (pixel_sum (nr im) (nc im)) bgs)) with
      (qsum (map (fun b => qsum (map (fun ij => px b (fst ij) (snd ij)) (coords (nr im) (nc im)))) bgs)). rewrite <- W.
    unfold pixel_sum. rewrite <- qsum_minus. apply qsum_ext. intros ij _. apply P. }
  rewrite M, S. set (n := npix (nr im) (nc im)). clearbody n.
  assert (D : (qsum (map (fun b => pixel_sum (nr im) (nc im) b / n) bgs) == qsum (map (pixel_sum (nr im) (nc im)) bgs) / n)%Q).
  { clear. induction bgs as [|b bgs IH]; cbn [map qsum fold_right]; [unfold Qdiv; ring|].
    fold (qsum (map (fun b => pixel_sum (nr im) (nc im) b / n)%Q bgs)). rewrite IH. unfold Qdiv. fold (qsum (map (pixel_sum (nr im) (nc im)) bgs)). ring. }
  rewrite D. unfold Qdiv. ring.
Qed.

(** ** The iterations *)
Section It.
Variable Res : Type.
Variables (back : exposure -> failure + img Q) (detect : exposure -> img Z * (failure + Res * option (img Q))).
Definition means (l : list (img Q * Res)) : Q := qsum (map (fun p => mean (fst p)) l).
Definition last_res (l : list (img Q * Res)) : option Res := match rev l with [] => None | p :: _ => Some (snd p) end.
Definition after_back (e : exposure) (bg : img Q) : exposure := mkX (lowered (x_image e) bg) (x_mask e) (Some (mean bg)).
Lemma last_res_snoc : forall l bg r, last_res (l ++ [(bg, r)])%list = Some r.
Proof. intros. unfold last_res. rewrite rev_app_distr. reflexivity. Qed.
Lemma means_snoc : forall l bg r, (means (l ++ [(bg, r)])%list == means l + mean bg)%Q.
Proof. intros. unfold means. rewrite map_app, qsum_app. cbn. lra. Qed.

Definition stopped (e1 : exposure) (f : failure) (e' : exposure) : Prop :=
  (back e1 = inl f /\ e' = e1) \/
  (exists bg m, back e1 = inr bg /\ detect (after_back e1 bg) = (m, inl f) /\ e' = mkX (lowered (x_image e1) bg) m (Some (mean bg))).

Lemma iterate_spec : no_reestimate detect -> forall n sky res e e0 l0,
  iterations back detect e0 l0 e -> (sky == means l0)%Q -> res = last_res l0 ->
  match iterate Res back detect n sky res e with
  | (e', inr (s, r)) => exists l, iterations back detect e0 (l0 ++ l) e' /\ List.length l = n /\ (s == means (l0 ++ l))%Q /\ r = last_res (l0 ++ l)
  | (e', inl f) => exists l e1, iterations back detect e0 (l0 ++ l) e1 /\ (List.length l < n)%nat /\ stopped e1 f e'
  end.
Proof.
  intros NR. induction n as [|n IH]; intros sky res e e0 l0 It Hs Hr; cbn [iterate].
  - exists []. rewrite app_nil_r. auto.
  - unfold run_back. destruct (back e) as [f|bg] eqn:Eb.
    + exists [], e. rewrite app_nil_r. split; [exact It|]. split; [cbn; lia|]. left. auto.
    + unfold run_detect. fold (after_back e bg). destruct (detect (after_back e bg)) as [m [f|[r b]]] eqn:Ed.
      * exists [], e. rewrite app_nil_r. split; [exact It|]. split; [cbn; lia|]. right. exists bg, m. auto.
      * assert (Nb := NR _ _ _ _ Ed). subst b. cbn [x_image x_bgmean after_back].
        set (e2 := mkX (lowered (x_image e) bg) m (Some (mean bg))).
        assert (It2 : iterations back detect e0 (l0 ++ [(bg, r)])%list e2).
        { apply it_more with e; [exact It|]. split; [exact Eb|]. exists m. split; [exact Ed|reflexivity]. }
        specialize (IH (sky + mean bg)%Q (Some r) e2 e0 (l0 ++ [(bg, r)])%list It2).
        assert (H1 : (sky + mean bg == means (l0 ++ [(bg, r)])%list)%Q) by (rewrite means_snoc, Hs; lra).
        specialize (IH H1 (eq_sym (last_res_snoc _ _ _))).
        destruct (iterate Res back detect n (sky + mean bg) (Some r) e2) as [e' [f|[s r']]].
        -- destruct IH as [l [e1 [A [B C]]]]. exists ((bg, r) :: l), e1. rewrite <- app_assoc in A. split; [exact A|]. split; [cbn; lia|exact C].
        -- destruct IH as [l [A [B [C D]]]]. exists ((bg, r) :: l). rewrite <- app_assoc in A, C, D. split; [exact A|]. split; [cbn; lia|]. auto.
Qed.

Lemma iterations_image : forall e l e', iterations back detect e l e' -> lowered_by (x_image e) (map fst l) (x_image e').
Proof.
  intros e l e' H. induction H as [e|e l e1 bg r e2 H IH [Hb [m [Hd ->]]]].
  - split; [reflexivity|]. split; [reflexivity|]. intros i j. cbn. lra.
  - destruct IH as [A [B C]]. cbn [x_image]. split; [exact A|]. split; [exact B|]. intros i j. cbn [lowered imap2 px].
    rewrite map_app, map_app, qsum_app, C. cbn. lra.
Qed.
Lemma iterations_shape : back_shape back -> forall e l e', iterations back detect e l e' ->
  forall b, In b (map fst l) -> nr b = nr (x_image e) /\ nc b = nc (x_image e).
Proof.
  intros HB e l e' H. induction H as [e|e l e1 bg r e2 H IH [Hb [m [Hd ->]]]]; intros b Hin; [destruct Hin|].
  rewrite map_app in Hin. apply in_app_or in Hin. destruct Hin as [Hin|[<-|[]]]; [auto|]. cbn [fst].
  destruct (HB e1 bg Hb) as [A B]. destruct (iterations_image _ _ _ H) as [C [D _]]. split; congruence.
Qed.
Lemma iterations_bgmean : forall e l e', iterations back detect e l e' ->
  x_bgmean e' = match rev l with [] => x_bgmean e | p :: _ => Some (mean (fst p)) end.
Proof.
  intros e l e' H. induction H as [e|e l e1 bg r e2 H IH [Hb [m [Hd ->]]]]; [reflexivity|].
  rewrite rev_app_distr. reflexivity.
Qed.

Lemma run_success : no_reestimate detect -> forall niter e e' r, run Res back detect niter e = (e', Ok (Some r)) ->
  1 <= niter /\ exists l e1 sky, iterations back detect e l e1 /\ Z.of_nat (List.length l) = niter /\
    e' = mkX (x_image e1) (x_mask e1) (Some sky) /\ (sky == means l)%Q /\ last_res l = Some r.
Proof.
  intros NR niter e e' r. unfold run. destruct (Z.ltb_spec niter 1) as [L|L]; [intros H; inversion H|].
  assert (S := iterate_spec NR (Z.to_nat niter) 0 None e e [] (it_none _ _ e) ltac:(cbn; reflexivity) eq_refl).
  destruct (iterate Res back detect (Z.to_nat niter) 0 None e) as [e1 [f|[sky r1]]].
  - destruct f; intros H; inversion H.
  - intros H. inversion H; subst. split; [exact L|]. destruct S as [l [A [B [C D]]]]. exists l, e1, sky. cbn [app] in *.
    split; [exact A|]. split; [lia|]. split; [reflexivity|]. auto.
Qed.
Lemma run_none : no_reestimate detect -> forall niter e e', run Res back detect niter e = (e', Ok None) ->
  exists l e1 f, iterations back detect e l e1 /\ Z.of_nat (List.length l) < niter /\ (f = StackError \/ f = TaskFailure) /\ stopped e1 f e'.
Proof.
  intros NR niter e e'. unfold run. destruct (Z.ltb_spec niter 1) as [L|L]; [intros H; inversion H|].
  assert (S := iterate_spec NR (Z.to_nat niter) 0 None e e [] (it_none _ _ e) ltac:(cbn; reflexivity) eq_refl).
  destruct (iterate Res back detect (Z.to_nat niter) 0 None e) as [e1 [f|[sky r1]]].
  - destruct S as [l [e2 [A [B C]]]]. cbn [app] in A. intros H. exists l, e2, f.
    assert (E : e1 = e' /\ (f = StackError \/ f = TaskFailure)) by (destruct f; inversion H; auto). destruct E as [<- E].
    split; [exact A|]. split; [lia|]. auto.
  - destruct S as [l [A [B [C D]]]]. cbn [app] in *. intros H. assert (Er : r1 = None) by (inversion H; reflexivity). rewrite Er in D. clear H. exfalso.
    unfold last_res in D. destruct (rev l) as [|p q] eqn:R; [|discriminate].
    assert (List.length (rev l) = 0)%nat by (rewrite R; reflexivity). rewrite rev_length in H. lia.
Qed.
Lemma run_raise : no_reestimate detect -> forall niter e e' x, run Res back detect niter e = (e', Raise x) ->
  (niter < 1 /\ x = ValueError /\ e' = e) \/
  exists l e1, iterations back detect e l e1 /\ Z.of_nat (List.length l) < niter /\ stopped e1 (OtherFailure x) e'.
Proof.
  intros NR niter e e' x. unfold run. destruct (Z.ltb_spec niter 1) as [L|L]; [intros H; inversion H; auto|].
  assert (S := iterate_spec NR (Z.to_nat niter) 0 None e e [] (it_none _ _ e) ltac:(cbn; reflexivity) eq_refl).
  destruct (iterate Res back detect (Z.to_nat niter) 0 None e) as [e1 [f|[sky r1]]]; [|intros H; inversion H].
  destruct S as [l [e2 [A [B C]]]]. cbn [app] in A. destruct f; intros H; inversion H; subst. right. exists l, e2. split; [exact A|]. split; [lia|exact C].
Qed.
(** Iterations are determined by their number, so the run is known from them. *)
Lemma iterations_det : forall e l e', iterations back detect e l e' -> forall l' e'', iterations back detect e l' e'' ->
  List.length l = List.length l' -> l = l' /\ e' = e''.
Proof.
  intros e l e' H. induction H as [e|e l e1 bg r e2 H IH [Hb [m [Hd ->]]]]; intros l' e'' H' Len.
  - inversion H'; subst; [auto|]. rewrite app_length in Len. cbn in Len. lia.
  - inversion H' as [x|x l1 e3 bg1 r1 e4 H1 [Hb1 [m1 [Hd1 E1]]]]; subst; [rewrite app_length in Len; cbn in Len; lia|].
    rewrite !app_length in Len. cbn in Len. destruct (IH l1 e3 H1) as [-> ->]; [lia|]. rewrite Hb in Hb1. inversion Hb1; subst.
    cbn in Hd, Hd1. rewrite Hd in Hd1. inversion Hd1; subst. auto.
Qed.
Lemma iterations_split : forall e a b e', iterations back detect e (a ++ b) e' -> exists e1, iterations back detect e a e1 /\ iterations back detect e1 b e'.
Proof.
  intros e a b. induction b as [|p b IH] using rev_ind; intros e' H.
  - rewrite app_nil_r in H. exists e'. split; [exact H|constructor].
  - rewrite app_assoc in H. inversion H as [x EX1 E2 EX3|x l1 e3 bg1 r1 e4 H1 O1 EX1 E2 EX3]; [destruct (a ++ b); discriminate|].
    apply app_inj_tail in E2. destruct E2 as [E2 <-]. subst. destruct (IH _ H1) as [e5 [A B]]. exists e5. split; [exact A|].
    apply it_more with e3; assumption.
Qed.
Lemma iterate_total : no_reestimate detect -> forall n e l e1, iterations back detect e l e1 -> List.length l = n ->
  forall sky res, exists s r, iterate Res back detect n sky res e = (e1, inr (s, r)).
Proof.
  intros NR n. induction n as [|n IH]; intros e l e1 H Len sky res.
  - destruct l; [|discriminate]. inversion H as [x EX1 E2 EX3|x l0 e3 bg r e4 H1 O1 EX1 E2 EX3]; subst; [cbn; eauto|]. destruct l0; discriminate.
  - destruct l as [|p l]; [discriminate|]. destruct (iterations_split e [p] l e1 H) as [e2 [A B]].
    inversion A as [|x l0 e3 bg r e4 H1 O1 EX1 E2 EX3]; subst. destruct l0 as [|q [|q' l0]]; try discriminate. cbn in E2. inversion E2; subst.
    inversion H1 as [y EY1 EY2 EY3|y l0 e5 bg0 r0 e6 H2 O2 EY1 E3 EY3]; subst; [|destruct l0; discriminate]. destruct O1 as [Hb [m [Hd ->]]].
    cbn [iterate]. unfold run_back. rewrite Hb. unfold run_detect. rewrite Hd. cbn [x_bgmean]. cbn in Len. apply (IH _ _ _ B). lia.
Qed.
Lemma run_total : no_reestimate detect -> forall niter e l e1, 1 <= niter -> iterations back detect e l e1 -> Z.of_nat (List.length l) = niter ->
  exists e' r, run Res back detect niter e = (e', Ok (Some r)).
Proof.
  intros NR niter e l e1 L H Len. destruct (iterate_total NR (Z.to_nat niter) e l e1 H ltac:(lia) 0%Q None) as [s [r E]].
  assert (S := iterate_spec NR (Z.to_nat niter) 0 None e e [] (it_none _ _ e) ltac:(cbn; reflexivity) eq_refl).
  rewrite E in S. destruct S as [l' [A [B [C D]]]]. cbn [app] in *.
  unfold run. assert (X : niter <? 1 = false) by (apply Z.ltb_ge; lia). rewrite X, E.
  assert (exists r0, r = Some r0) as [r0 ->].
  { unfold last_res in D. destruct (rev l') as [|p q] eqn:R; [|eauto]. assert (List.length (rev l') = 0)%nat by (rewrite R; reflexivity). rewrite rev_length in H0. lia. }
  eauto.
Qed.
Lemma run_bands_ok : forall niter l l', run_bands Res back detect niter l = (l', Ok tt) ->
  l' = map (fun e => fst (run Res back detect niter e)) l /\ forall e, In e l -> exists r, snd (run Res back detect niter e) = Ok r.
Proof.
  intros niter. induction l as [|e l IH]; intros l' H; cbn [run_bands] in H.
  - inversion H. split; [reflexivity|]. intros e [].
  - destruct (run Res back detect niter e) as [e1 [r|x]] eqn:E; [|inversion H].
    destruct (run_bands Res back detect niter l) as [l1 o] eqn:E1. inversion H; subst. destruct (IH l1 eq_refl) as [-> A].
    cbn [map]. rewrite E. split; [reflexivity|]. intros e0 [<-|H0]; [rewrite E; cbn; eauto|auto].
Qed.
Lemma run_bands_raise : forall niter l l' x, run_bands Res back detect niter l = (l', Raise x) ->
  exists a e b, l = (a ++ e :: b)%list /\ snd (run Res back detect niter e) = Raise x /\
    l' = (map (fun e => fst (run Res back detect niter e)) (a ++ [e]) ++ b)%list /\
    forall e, In e a -> exists r, snd (run Res back detect niter e) = Ok r.
Proof.
  intros niter. induction l as [|e l IH]; intros l' x H; cbn [run_bands] in H; [inversion H|].
  destruct (run Res back detect niter e) as [e1 [r|y]] eqn:E.
  - destruct (run_bands Res back detect niter l) as [l1 o] eqn:E1. inversion H; subst. destruct (IH l1 x eq_refl) as [a [e0 [b [-> [A [-> B]]]]]].
    exists (e :: a), e0, b. split; [reflexivity|]. split; [exact A|]. cbn [map app]. rewrite E. split; [reflexivity|].
    intros e2 [<-|H2]; [rewrite E; cbn; eauto|auto].
  - inversion H; subst. exists [], e, l. split; [reflexivity|]. rewrite E. cbn [map app fst snd]. rewrite E. split; [reflexivity|]. split; [reflexivity|]. intros e2 [].
Qed.
End It.
