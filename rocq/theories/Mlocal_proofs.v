(** Proofs for C121. *)
From Coq Require Import ZArith QArith List String Bool Lia.
From Verif Require Import Base Arr Median Flags_model Detect_model Detect_spec Detect_proofs Coadd_model Wavg_model Joint_model
  Conf_model Mdet_model Mdet_spec Mrun_model Mrun_spec Mrun_proofs Mlocal_spec.
Import ListNotations.
Local Open Scope string_scope.
Local Open Scope Z_scope.

Lemma F2_both : forall A B (P : A -> B -> Prop) l l', Forall2 P l l' ->
  forall k a b, nth_error l k = Some a -> nth_error l' k = Some b -> P a b.
Proof.
  intros A B P l l' H. induction H as [|a b l l' E H IH]; intros k a' b' K K'; [destruct k; discriminate K|].
  destruct k as [|k]; cbn [nth_error] in K, K'; [|exact (IH k a' b' K K')]. apply Some_inj in K, K'. subst. exact E.
Qed.

Lemma F2_len : forall A B (P : A -> B -> Prop) l l', Forall2 P l l' -> List.length l' = List.length l.
Proof. intros A B P l l' H. induction H; cbn [List.length]; congruence. Qed.

Lemma stamp_pixel_same : forall (p p' : img Detect_model.num) fill y xx b i j, same_under y xx b p p' ->
  0 <= i < b -> 0 <= j < b ->
  stamp_pixel p fill (first_pixel y b) (first_pixel xx b) i j = stamp_pixel p' fill (first_pixel y b) (first_pixel xx b) i j.
Proof.
  intros p p' fill y xx b i j (N & M & P) Hi Hj. unfold stamp_pixel.
  assert (E : insideb p (first_pixel y b + i) (first_pixel xx b + j) = insideb p' (first_pixel y b + i) (first_pixel xx b + j)).
  { unfold insideb. rewrite N, M. reflexivity. }
  rewrite <- E. destruct (insideb p (first_pixel y b + i) (first_pixel xx b + j)) eqn:I; [|reflexivity].
  apply P; [apply insideb_spec; exact I|]. unfold under_stamp. lia.
Qed.

Lemma same_under_map : forall A B (f : A -> B) y xx b im im', same_under y xx b im im' -> same_under y xx b (imap f im) (imap f im').
Proof.
  intros A B f y xx b im im' (N & M & P). split; [exact N|]. split; [exact M|]. intros i j Hi Hu. cbn [px imap]. f_equal. apply P; assumption.
Qed.

(** The planes of corresponding observations correspond. *)
Lemma planes_same : forall y xx b o o' seg seg', same_obs_under y xx b o o' -> same_under y xx b seg seg' ->
  forall t, (exists p p', plane_of o seg t p /\ plane_of o' seg' t p' /\ same_under y xx b p p') \/
            ((forall p, ~ plane_of o seg t p) /\ (forall p, ~ plane_of o' seg' t p)).
Proof.
  intros y xx b o o' seg seg' (Hi & Hw & Hb & Hn & _) Hs t.
  destruct (string_dec t "image") as [->|N1].
  { left. do 2 eexists. split; [left; split; reflexivity|]. split; [left; split; reflexivity|]. apply same_under_map; assumption. }
  destruct (string_dec t "weight") as [->|N2].
  { left. do 2 eexists. split; [right; left; split; reflexivity|]. split; [right; left; split; reflexivity|]. apply same_under_map; assumption. }
  destruct (string_dec t "bmask") as [->|N3].
  { left. do 2 eexists. split; [right; right; left; split; reflexivity|]. split; [right; right; left; split; reflexivity|]. apply same_under_map; assumption. }
  destruct (string_dec t "seg") as [->|N4].
  { left. do 2 eexists. split; [right; right; right; left; split; reflexivity|]. split; [right; right; right; left; split; reflexivity|].
    apply same_under_map; assumption. }
  destruct (string_dec t "noise") as [->|N5].
  - destruct Hn as [[E E']|(n & n' & E & E' & U)].
    + right. split; intros p [[X _]|[[X _]|[[X _]|[[X _]|[_ (n & Y & _)]]]]]; try discriminate X; congruence.
    + left. exists (imap F n), (imap F n'). split; [right; right; right; right; split; [reflexivity|]; exists n; split; [exact E|reflexivity]|].
      split; [right; right; right; right; split; [reflexivity|]; exists n'; split; [exact E'|reflexivity]|]. apply same_under_map; assumption.
  - right. split; intros p [[X _]|[[X _]|[[X _]|[[X _]|[X _]]]]]; contradiction.
Qed.

Lemma stamp_same : forall x c seg seg' n y xx b o0 o0' o o' st st' R C, reader_local x ->
  nr (ob_image o0) = R -> nc (ob_image o0) = C -> nr (ob_image o0') = R -> nc (ob_image o0') = C ->
  ob_jac o0 = ob_jac o0' -> same_pixels (ob_psf o0) (ob_psf o0') ->
  (forall t p, plane_of o seg t p -> nr p = R /\ nc p = C) ->
  same_obs_under y xx b o o' -> same_under y xx b seg seg' ->
  stamp_in x c seg n y xx b o0 o st -> stamp_in x c seg' n y xx b o0' o' st' -> st = st'.
Proof.
  intros x c seg seg' n y xx b o0 o0' o o' st st' R C Hr N0 C0 N0' C0' J (P1 & P2 & _) Hp Ho Hs
    (cut & e & E & A1 & A2 & A3 & A4 & A5 & A6 & A7 & A8 & Hc & Hm)
    (cut' & e' & E' & B1 & B2 & B3 & B4 & B5 & B6 & B7 & B8 & Hc' & Hm').
  rewrite <- J, <- P1, <- P2 in E'.
  rewrite (Hr _ cut cut' e e' _ _ (ob_psf o) (ob_psf o')) in E.
  - congruence.
  - intro t. destruct (planes_same y xx b o o' seg seg' Ho Hs t) as [(p & p' & Q & Q' & U)|[Q Q']].
    + left. destruct (Hp t p Q) as [D1 D2]. pose proof U as (U1 & U2 & _).
      destruct (Hc t p Q) as (s & S1 & S2 & S3 & S4); [congruence|congruence|].
      destruct (Hc' t p' Q') as (s' & S1' & S2' & S3' & S4'); [congruence|congruence|].
      exists s, s'. split; [exact S1|]. split; [exact S1'|]. split; [congruence|]. split; [congruence|].
      intros i j [Hi Hj]. rewrite S4, S4' by lia. apply stamp_pixel_same; [exact U|lia|lia].
    + right. destruct (Hm t Q) as [[T ->]|[T ->]], (Hm' t Q') as [[T' ->]|[T' ->]]; try contradiction; eexists; split; reflexivity.
  - unfold same_entry. split; [congruence|]. split; [congruence|]. split; [congruence|]. split; [congruence|].
    split; [congruence|]. split; [congruence|]. split; congruence.
  - destruct Ho as (_ & _ & _ & _ & _ & P). exact P.
Qed.

Lemma stamps_same : forall x c seg seg' n y xx b m m' st st' R C, reader_local x -> has_shape m R C ->
  same_stamps y xx b seg seg' m m' ->
  stamps_in x c seg n y xx b m st -> stamps_in x c seg' n y xx b m' st' -> st = st'.
Proof.
  intros x c seg seg' n y xx b m m' st st' R C Hr (_ & _ & Hm) [Hs Hg] (o0 & rest & E & F) (o0' & rest' & E' & F').
  assert (H0 : nr (ob_image o0) = R /\ nc (ob_image o0) = C).
  { destruct (Hm [o0]) as (o & X & Y1 & Y2 & _); [rewrite E; left; reflexivity|]. injection X as <-. split; assumption. }
  destruct H0 as [N0 C0].
  assert (H0' : nr (ob_image o0') = R /\ nc (ob_image o0') = C /\ ob_jac o0 = ob_jac o0' /\ same_pixels (ob_psf o0) (ob_psf o0')).
  { rewrite E, E' in Hs. inversion Hs as [|? ? ? ? X _]; subst. destruct X as (o & o' & X & X' & (U & _ & _ & _ & J & P) & _).
    injection X as <-. injection X' as <-. destruct U as (U1 & U2 & _). split; [congruence|]. split; [congruence|]. split; assumption. }
  destruct H0' as (N0' & C0' & J & P). clear E E'. revert st st' F F'.
  induction Hs as [|ol ol' l l' X Hs IH]; intros st st' F F'; inversion F as [|? s ? st1 S1 F1]; inversion F' as [|? s' ? st1' S1' F1']; subst; [reflexivity|].
  destruct X as (o & o' & -> & -> & U & G1 & G2).
  destruct S1 as (q & Q & S1). injection Q as <-. destruct S1' as (q' & Q' & S1'). injection Q' as <-.
  destruct (Hm [o] (or_introl eq_refl)) as (q & Q & D1 & D2 & D3 & D4 & D5 & D6 & _ & _ & D7). injection Q as <-.
  f_equal.
  - refine (stamp_same x c seg seg' n y xx b o0 o0' o o' s s' _ _ Hr eq_refl eq_refl N0' C0' J P _ U Hg S1 S1').
    intros t p [[_ ->]|[[_ ->]|[[_ ->]|[[_ ->]|[_ (k & Ek & ->)]]]]]; cbn [nr nc imap]; try (split; congruence).
    destruct (D7 k Ek) as [X Y]. split; congruence.
  - apply IH; [|exact F1|exact F1']. intros ol Hol. apply Hm. right. exact Hol.
Qed.

Lemma size_unique : forall x mc o b b', stamp_size x mc o b -> stamp_size x mc o b' -> b = b'.
Proof.
  intros x mc o b b' (w & W & S) (w' & W' & S'). rewrite (wanted_unique _ _ _ _ _ W' W) in S'. exact (smallest_unique _ _ _ _ S S').
Qed.

Lemma measured_fun : forall x c fs sb st a a', measured x c fs sb st a -> measured x c fs sb st a' -> a = a'.
Proof.
  intros x c fs sb st a a' H H'. apply fits_measured in H, H'. revert a' H'.
  induction H as [|f r fs rs E H IH]; intros a' H'; inversion H' as [|? r' ? rs' E' H2]; subst; [reflexivity|].
  rewrite E in E'. apply Ok_inj in E'. subst r'. f_equal. apply IH. exact H2.
Qed.

Lemma row_local : forall x c md main main' color color' key key' sb db db' t t' m m' seg seg' n no r r' b R C,
  reader_local x -> has_shape m R C -> stamp_size x (st_meds c) (snd no) b ->
  same_stamps (d_y (snd no)) (d_x (snd no)) b seg seg' m m' ->
  object_row x c md main color key sb db t m seg n no r ->
  object_row x c md main' color' key' sb db' t' m' seg' n no r' -> r_fits r = r_fits r'.
Proof.
  intros x c md main main' color color' key key' sb db db' t t' m m' seg seg' n no r r' b R C Hr Hm Hb Hs
    (b1 & st & B1 & S1 & M1 & _) (b2 & st' & B2 & S2 & M2 & _).
  rewrite (size_unique _ _ _ _ _ B1 Hb) in S1. rewrite (size_unique _ _ _ _ _ B2 Hb) in S2.
  rewrite (stamps_same _ _ _ _ _ _ _ _ _ _ _ _ R C Hr Hm Hs S1 S2) in M1. exact (measured_fun _ _ _ _ _ _ _ M1 M2).
Qed.

Lemma runs_local : forall x c main main' sbc dbc r r',
  reader_local x -> metacal_ok x c -> boxes_ok (st_meds c) -> sep_ok x ->
  all_one_shape main None -> all_one_shape main' None -> zlen main = zlen main' ->
  do_metadetect x c main sbc None None dbc = Ok (Some r) -> do_metadetect x c main' sbc None None dbc = Ok (Some r') ->
  exists md mcal mcal', construct (st_conf c) (zlen main) false false sbc dbc = Ok md /\
    tp_metacal x main = Ok mcal /\ tp_metacal x main' = Ok mcal' /\
    forall t m m', In (t, m) mcal -> In (t, m') mcal' -> exists blocks blocks',
      table r t = Some (match List.concat blocks with [] => None | l => Some l end) /\
      table r' t = Some (match List.concat blocks' with [] => None | l => Some l end) /\
      List.length blocks = List.length (combine (md_shear md) (md_det md)) /\
      List.length blocks' = List.length (combine (md_shear md) (md_det md)) /\
      forall k sd rows rows', nth_error (combine (md_shear md) (md_det md)) k = Some sd ->
        nth_error blocks k = Some rows -> nth_error blocks' k = Some rows' ->
        exists objs seg objs' seg', found x (md_nodet md) m (snd sd) objs seg /\ found x (md_nodet md) m' (snd sd) objs' seg' /\
          List.length rows = List.length objs /\ List.length rows' = List.length objs' /\
          forall i i' no dr dr' b, nth_error objs i = Some no -> nth_error objs' i' = Some no ->
            nth_error rows i = Some dr -> nth_error rows' i' = Some dr' ->
            stamp_size x (st_meds c) (snd no) b -> same_stamps (d_y (snd no)) (d_x (snd no)) b seg seg' m m' ->
            r_fits dr = r_fits dr'.
Proof.
  intros x c main main' sbc dbc r r' Hr Hmc Hb Hs Hm Hm' Hz H H'.
  destruct (run_rows _ _ _ _ _ _ Hm Hmc Hb Hs H) as (md & mcal & E1 & E2 & _ & _ & _ & T).
  destruct (run_rows _ _ _ _ _ _ Hm' Hmc Hb Hs H') as (md' & mcal' & E1' & E2' & _ & _ & _ & T').
  rewrite <- Hz, E1 in E1'. apply Ok_inj in E1'. subst md'.
  exists md, mcal, mcal'. split; [exact E1|]. split; [exact E2|]. split; [exact E2'|].
  intros t m m' Hi Hi'. destruct (T t m Hi) as (bl & F & Q). destruct (T' t m' Hi') as (bl' & F' & Q').
  exists bl, bl'. split; [exact Q|]. split; [exact Q'|]. split; [exact (F2_len _ _ _ _ _ F)|]. split; [exact (F2_len _ _ _ _ _ F')|].
  intros k sd rows rows' K K1 K2. pose proof (F2_both _ _ _ _ _ F k sd rows K K1) as B.
  pose proof (F2_both _ _ _ _ _ F' k sd rows' K K2) as B'.
  destruct B as (objs & seg & Fo & Fr). destruct B' as (objs' & seg' & Fo' & Fr').
  exists objs, seg, objs', seg'. split; [exact Fo|]. split; [exact Fo'|]. split; [exact (F2_len _ _ _ _ _ Fr)|].
  split; [exact (F2_len _ _ _ _ _ Fr')|].
  intros i i' no dr dr' b I1 I1' I2 I2' Sb Ss.
  pose proof (F2_both _ _ _ _ _ Fr i no dr I1 I2) as O. pose proof (F2_both _ _ _ _ _ Fr' i' no dr' I1' I2') as O'.
  destruct Hm as (R & C & Hm & _). pose proof (proj2 (proj2 (proj2 (Hmc main mcal E2)) t m Hi) R C Hm) as Hms.
  exact (row_local _ _ _ _ _ _ _ _ _ _ _ _ _ _ _ _ _ _ _ _ _ _ b R C Hr Hms Sb Ss O O').
Qed.
