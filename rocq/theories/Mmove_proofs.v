(** Proofs for C138. *)
From Coq Require Import ZArith QArith Qround List String Bool Lia.
From Verif Require Import Base Arr Median Flags_model Detect_model Detect_spec Detect_proofs Coadd_model Wavg_model Joint_model
  Conf_model Mdet_model Mdet_spec Mrun_model Mrun_spec Mrun_proofs Mlocal_spec Mlocal_proofs Mmove_spec.
Import ListNotations.
Local Open Scope string_scope.
Local Open Scope Z_scope.

Lemma floor_moved : forall d p p', moved_by d p p' -> Qfloor p' = Qfloor p + d.
Proof.
  intros d p p' M. unfold moved_by in M. rewrite (Qfloor_comp _ _ M). destruct p as [n k]. unfold Qfloor, Qplus, inject_Z. cbn [Qnum Qden].
  rewrite Pos.mul_1_r, Z.mul_1_r. rewrite Z.div_add by lia. reflexivity.
Qed.
Lemma first_moved : forall n n' d p p' b, moved_by d p p' -> fits_in n p b -> fits_in n' p' b ->
  first_pixel p' b = first_pixel p b + d /\ (p' - inject_Z (first_pixel p' b) == p - inject_Z (first_pixel p b))%Q.
Proof.
  intros n n' d p p' b M (P0 & P1 & P2) (P0' & P1' & P2').
  assert (T : qtrunc p' = qtrunc p + d) by (rewrite !qtrunc_nonneg by assumption; now apply floor_moved).
  assert (E : first_pixel p' b = first_pixel p b + d) by (unfold first_pixel; lia).
  split; [exact E|]. rewrite E, inject_Z_plus. unfold moved_by in M. rewrite M. ring.
Qed.

Lemma size_moved : forall x mc dr dc o o' b, moved_object dr dc o o' -> stamp_size x mc o b -> stamp_size x mc o' b.
Proof.
  intros x mc dr dc o o' b (_ & _ & M1 & M2 & M3 & M4 & A & B & FR & I) (w & W & S). exists w. split; [|exact S].
  destruct W as [[T W]|[T W]]; [left|right]; (split; [exact T|]).
  - unfold wanted_sigma, sigma_extent in *. rewrite ?A, ?B, ?FR, ?M1, ?M2, ?M3, ?M4 in *.
    repeat match goal with |- context [?u + ?d - (?v + ?d)] => replace (u + d - (v + d)) with (u - v) by lia end. exact W.
  - unfold wanted_iso in *. rewrite I. exact W.
Qed.

Lemma moved_map : forall A B (f : A -> B) dr dc y xx b im im', moved_under dr dc y xx b im im' -> moved_under dr dc y xx b (imap f im) (imap f im').
Proof. intros A B f dr dc y xx b im im' M i j U. cbn [px imap]. f_equal. apply M; exact U. Qed.

Lemma planes_moved : forall dr dc y xx b o o' seg seg', moved_obs dr dc y xx b o o' -> moved_under dr dc y xx b seg seg' ->
  forall t, (exists p p', plane_of o seg t p /\ plane_of o' seg' t p' /\ moved_under dr dc y xx b p p') \/
            ((forall p, ~ plane_of o seg t p) /\ (forall p, ~ plane_of o' seg' t p)).
Proof.
  intros dr dc y xx b o o' seg seg' (Hi & Hw & Hb & Hn & _) Hs t.
  destruct (string_dec t "image") as [->|N1].
  { left. do 2 eexists. split; [left; split; reflexivity|]. split; [left; split; reflexivity|]. apply moved_map; assumption. }
  destruct (string_dec t "weight") as [->|N2].
  { left. do 2 eexists. split; [right; left; split; reflexivity|]. split; [right; left; split; reflexivity|]. apply moved_map; assumption. }
  destruct (string_dec t "bmask") as [->|N3].
  { left. do 2 eexists. split; [right; right; left; split; reflexivity|]. split; [right; right; left; split; reflexivity|]. apply moved_map; assumption. }
  destruct (string_dec t "seg") as [->|N4].
  { left. do 2 eexists. split; [right; right; right; left; split; reflexivity|]. split; [right; right; right; left; split; reflexivity|].
    apply moved_map; assumption. }
  destruct (string_dec t "noise") as [->|N5].
  - destruct Hn as [[E E']|(n & n' & E & E' & U)].
    + right. split; intros p [[X _]|[[X _]|[[X _]|[[X _]|[_ (n & Y & _)]]]]]; try discriminate X; congruence.
    + left. exists (imap F n), (imap F n'). split; [right; right; right; right; split; [reflexivity|]; exists n; split; [exact E|reflexivity]|].
      split; [right; right; right; right; split; [reflexivity|]; exists n'; split; [exact E'|reflexivity]|]. apply moved_map; assumption.
  - right. split; intros p [[X _]|[[X _]|[[X _]|[[X _]|[X _]]]]]; contradiction.
Qed.

Lemma fits_first : forall n p b, fits_in n p b -> 0 <= first_pixel p b /\ first_pixel p b + b <= n.
Proof. intros n p b (_ & A & B). unfold first_pixel. lia. Qed.

Section Stamp.
Variables (dr dc : Z) (y xx y' xx' : Q) (b R C R' C' : Z).
Hypothesis My : moved_by dr y y'.
Hypothesis Mx : moved_by dc xx xx'.
Hypothesis Fy : fits_in R y b.
Hypothesis Fx : fits_in C xx b.
Hypothesis Fy' : fits_in R' y' b.
Hypothesis Fx' : fits_in C' xx' b.

Lemma pixel_moved : forall (p p' : img Detect_model.num) fill i j, moved_under dr dc y xx b p p' ->
  nr p = R -> nc p = C -> nr p' = R' -> nc p' = C' -> 0 <= i < b -> 0 <= j < b ->
  stamp_pixel p fill (first_pixel y b) (first_pixel xx b) i j = stamp_pixel p' fill (first_pixel y' b) (first_pixel xx' b) i j.
Proof.
  intros p p' fill i j M N1 N2 N3 N4 Hi Hj. unfold stamp_pixel.
  destruct (first_moved _ _ _ _ _ _ My Fy Fy') as [Ey _]. destruct (first_moved _ _ _ _ _ _ Mx Fx Fx') as [Ex _].
  pose proof (fits_first _ _ _ Fy). pose proof (fits_first _ _ _ Fx). pose proof (fits_first _ _ _ Fy'). pose proof (fits_first _ _ _ Fx').
  assert (I1 : insideb p (first_pixel y b + i) (first_pixel xx b + j) = true) by (apply insideb_spec; unfold inside; lia).
  assert (I2 : insideb p' (first_pixel y' b + i) (first_pixel xx' b + j) = true) by (apply insideb_spec; unfold inside; lia).
  rewrite I1, I2. rewrite <- (M (first_pixel y b + i) (first_pixel xx b + j)) by (unfold under_stamp; lia). f_equal; lia.
Qed.

Lemma stamp_moved : forall x c seg seg' n o0 o0' o o' st st', reader_moves x ->
  nr (ob_image o0) = R -> nc (ob_image o0) = C -> nr (ob_image o0') = R' -> nc (ob_image o0') = C' ->
  ob_jac o0 = ob_jac o0' -> same_pixels (ob_psf o0) (ob_psf o0') ->
  (forall t p, plane_of o seg t p -> nr p = R /\ nc p = C) -> (forall t p, plane_of o' seg' t p -> nr p = R' /\ nc p = C') ->
  moved_obs dr dc y xx b o o' -> moved_under dr dc y xx b seg seg' ->
  stamp_in x c seg n y xx b o0 o st -> stamp_in x c seg' n y' xx' b o0' o' st' -> st = st'.
Proof.
  intros x c seg seg' n o0 o0' o o' st st' Hr N0 C0 N0' C0' J (P1 & P2 & _) Hp Hp' Ho Hs
    (cut & e & E & A1 & A2 & A3 & A4 & A5 & A6 & A7 & A8 & Hc & Hm)
    (cut' & e' & E' & B1 & B2 & B3 & B4 & B5 & B6 & B7 & B8 & Hc' & Hm').
  rewrite <- J, <- P1, <- P2 in E'.
  rewrite (Hr _ cut cut' e e' _ _ (ob_psf o) (ob_psf o')) in E.
  - congruence.
  - intro t. destruct (planes_moved dr dc y xx b o o' seg seg' Ho Hs t) as [(p & p' & Q & Q' & U)|[Q Q']].
    + left. destruct (Hp t p Q) as [D1 D2]. destruct (Hp' t p' Q') as [D1' D2'].
      destruct (Hc t p Q) as (s & S1 & S2 & S3 & S4); [congruence|congruence|].
      destruct (Hc' t p' Q') as (s' & S1' & S2' & S3' & S4'); [congruence|congruence|].
      exists s, s'. split; [exact S1|]. split; [exact S1'|]. split; [congruence|]. split; [congruence|].
      intros i j [Hi Hj]. rewrite S4, S4' by lia. apply pixel_moved; try assumption; lia.
    + right. destruct (Hm t Q) as [[T ->]|[T ->]], (Hm' t Q') as [[T' ->]|[T' ->]]; try contradiction; eexists; split; reflexivity.
  - congruence.
  - congruence.
  - rewrite A7, B7. symmetry. exact (proj2 (first_moved _ _ _ _ _ _ My Fy Fy')).
  - rewrite A8, B8. symmetry. exact (proj2 (first_moved _ _ _ _ _ _ Mx Fx Fx')).
  - destruct Ho as (_ & _ & _ & _ & _ & P). exact P.
Qed.

Lemma stamps_moved : forall x c seg seg' n m m' st st', reader_moves x -> has_shape m R C -> has_shape m' R' C' ->
  moved_stamps dr dc y xx b seg seg' m m' ->
  stamps_in x c seg n y xx b m st -> stamps_in x c seg' n y' xx' b m' st' -> st = st'.
Proof.
  intros x c seg seg' n m m' st st' Hr (_ & _ & Hm) (_ & _ & Hm') [Hs Hg] (o0 & rest & E & F0) (o0' & rest' & E' & F0').
  assert (H0 : nr (ob_image o0) = R /\ nc (ob_image o0) = C).
  { destruct (Hm [o0]) as (o & X & Y1 & Y2 & _); [rewrite E; left; reflexivity|]. injection X as <-. split; assumption. }
  destruct H0 as [N0 C0].
  assert (H0' : nr (ob_image o0') = R' /\ nc (ob_image o0') = C').
  { destruct (Hm' [o0']) as (o & X & Y1 & Y2 & _); [rewrite E'; left; reflexivity|]. injection X as <-. split; assumption. }
  destruct H0' as [N0' C0'].
  assert (JP : ob_jac o0 = ob_jac o0' /\ same_pixels (ob_psf o0) (ob_psf o0')).
  { rewrite E, E' in Hs. inversion Hs as [|? ? ? ? X _]; subst. destruct X as (o & o' & X & X' & (_ & _ & _ & _ & J & P) & _).
    injection X as <-. injection X' as <-. split; assumption. }
  destruct JP as [J P]. clear E E'. revert st st' F0 F0'.
  induction Hs as [|ol ol' l l' X Hs IH]; intros st st' F0 F0'; inversion F0 as [|? s ? st1 S1 F1]; inversion F0' as [|? s' ? st1' S1' F1']; subst st st'; [reflexivity|].
  destruct X as (o & o' & -> & -> & U & G1 & G2 & G3 & G4).
  destruct S1 as (q & Q & S1). injection Q as <-. destruct S1' as (q' & Q' & S1'). injection Q' as <-.
  destruct (Hm [o] (or_introl eq_refl)) as (q & Q & D1 & D2 & D3 & D4 & D5 & D6 & _ & _ & D7). injection Q as <-.
  destruct (Hm' [o'] (or_introl eq_refl)) as (q & Q & D1' & D2' & D3' & D4' & D5' & D6' & _ & _ & D7'). injection Q as <-.
  f_equal.
  - refine (stamp_moved x c seg seg' n o0 o0' o o' s s' Hr N0 C0 N0' C0' J P _ _ U Hg S1 S1').
    + intros t p [[_ ->]|[[_ ->]|[[_ ->]|[[_ ->]|[_ (k & Ek & ->)]]]]]; cbn [nr nc imap]; try (split; congruence).
      destruct (D7 k Ek) as [X Y]. split; congruence.
    + intros t p [[_ ->]|[[_ ->]|[[_ ->]|[[_ ->]|[_ (k & Ek & ->)]]]]]; cbn [nr nc imap]; try (split; congruence).
      destruct (D7' k Ek) as [X Y]. split; congruence.
  - apply IH; [| |exact F1|exact F1']; intros ol Hol; [apply Hm|apply Hm']; right; exact Hol.
Qed.
End Stamp.

Lemma row_move : forall dr dc x c md main main' color color' key key' sb db db' t t' m m' seg seg' n no no' r r' b R C R' C',
  reader_moves x -> has_shape m R C -> has_shape m' R' C' -> moved_object dr dc (snd no) (snd no') ->
  stamp_size x (st_meds c) (snd no) b ->
  fits_in R (d_y (snd no)) b -> fits_in C (d_x (snd no)) b -> fits_in R' (d_y (snd no')) b -> fits_in C' (d_x (snd no')) b ->
  moved_stamps dr dc (d_y (snd no)) (d_x (snd no)) b seg seg' m m' ->
  object_row x c md main color key sb db t m seg n no r ->
  object_row x c md main' color' key' sb db' t' m' seg' n no' r' -> row_moved dr dc r r'.
Proof.
  intros dr dc x c md main main' color color' key key' sb db db' t t' m m' seg seg' n no no' r r' b R C R' C' Hr Hm Hm' Mo Hb F1 F2 F3 F4 Hs
    (b1 & st & B1 & S1 & M1 & X1 & _) (b2 & st' & B2 & S2 & M2 & X2 & _).
  rewrite (size_unique _ _ _ _ _ B1 Hb) in S1. rewrite (size_unique _ _ _ _ _ B2 (size_moved _ _ _ _ _ _ _ Mo Hb)) in S2.
  destruct X1 as (? & ? & ? & ? & ? & ? & ? & ? & _ & _ & _ & _ & _ & _ & Y1 & Z1 & _).
  destruct X2 as (? & ? & ? & ? & ? & ? & ? & ? & _ & _ & _ & _ & _ & _ & Y2 & Z2 & _).
  pose proof Mo as (My & Mx & _).
  rewrite (stamps_moved dr dc _ _ _ _ b R C R' C' My Mx F1 F2 F3 F4 _ _ _ _ _ _ _ _ _ Hr Hm Hm' Hs S1 S2) in M1.
  split; [exact (measured_fun _ _ _ _ _ _ _ M2 M1)|]. rewrite Y1, Y2, Z1, Z2. split; assumption.
Qed.

Lemma runs_move : forall dr dc x c main main' sbc dbc r r',
  reader_moves x -> metacal_ok x c -> boxes_ok (st_meds c) -> sep_ok x ->
  all_one_shape main None -> all_one_shape main' None -> zlen main = zlen main' ->
  do_metadetect x c main sbc None None dbc = Ok (Some r) -> do_metadetect x c main' sbc None None dbc = Ok (Some r') ->
  exists md mcal mcal', construct (st_conf c) (zlen main) false false sbc dbc = Ok md /\
    tp_metacal x main = Ok mcal /\ tp_metacal x main' = Ok mcal' /\
    forall t m m', In (t, m) mcal -> In (t, m') mcal' -> exists blocks blocks',
      table r t = Some (match List.concat blocks with [] => None | l => Some l end) /\
      table r' t = Some (match List.concat blocks' with [] => None | l => Some l end) /\
      List.length blocks = List.length (combine (md_shear md) (md_det md)) /\
      List.length blocks' = List.length (combine (md_shear md) (md_det md)) /\
      forall k sd rows rows', nth_error (combine (md_shear md) (md_det md)) k = Some sd ->
        nth_error blocks k = Some rows -> nth_error blocks' k = Some rows' ->
        exists objs seg objs' seg', found x (md_nodet md) m (snd sd) objs seg /\ found x (md_nodet md) m' (snd sd) objs' seg' /\
          List.length rows = List.length objs /\ List.length rows' = List.length objs' /\
          forall i i' no no' o o' w w' b, nth_error objs i = Some no -> nth_error objs' i' = Some no' ->
            nth_error rows i = Some w -> nth_error rows' i' = Some w' ->
            fst no' = fst no -> moved_object dr dc (snd no) (snd no') -> stamp_size x (st_meds c) (snd no) b ->
            In [o] m -> In [o'] m' ->
            fits_in (nr (ob_image o)) (d_y (snd no)) b -> fits_in (nc (ob_image o)) (d_x (snd no)) b ->
            fits_in (nr (ob_image o')) (d_y (snd no')) b -> fits_in (nc (ob_image o')) (d_x (snd no')) b ->
            moved_stamps dr dc (d_y (snd no)) (d_x (snd no)) b seg seg' m m' ->
            row_moved dr dc w w'.
Proof.
  intros dr dc x c main main' sbc dbc r r' Hr Hmc Hb Hs Hm Hm' Hz H H'.
  destruct (run_rows _ _ _ _ _ _ Hm Hmc Hb Hs H) as (md & mcal & E1 & E2 & _ & _ & _ & T).
  destruct (run_rows _ _ _ _ _ _ Hm' Hmc Hb Hs H') as (md' & mcal' & E1' & E2' & _ & _ & _ & T').
  rewrite <- Hz, E1 in E1'. apply Ok_inj in E1'. subst md'.
  exists md, mcal, mcal'. split; [exact E1|]. split; [exact E2|]. split; [exact E2'|].
  intros t m m' Hi Hi'. destruct (T t m Hi) as (bl & F0 & Q). destruct (T' t m' Hi') as (bl' & F0' & Q').
  exists bl, bl'. split; [exact Q|]. split; [exact Q'|]. split; [exact (F2_len _ _ _ _ _ F0)|]. split; [exact (F2_len _ _ _ _ _ F0')|].
  intros k sd rows rows' K K1 K2. pose proof (F2_both _ _ _ _ _ F0 k sd rows K K1) as B.
  pose proof (F2_both _ _ _ _ _ F0' k sd rows' K K2) as B'.
  destruct B as (objs & seg & Fo & Fr). destruct B' as (objs' & seg' & Fo' & Fr').
  exists objs, seg, objs', seg'. split; [exact Fo|]. split; [exact Fo'|]. split; [exact (F2_len _ _ _ _ _ Fr)|].
  split; [exact (F2_len _ _ _ _ _ Fr')|].
  intros i i' no no' o o' w w' b I1 I1' I2 I2' Nu Mo Sb Io Io' F1 F2 F3 F4 Ss.
  pose proof (F2_both _ _ _ _ _ Fr i no w I1 I2) as O. pose proof (F2_both _ _ _ _ _ Fr' i' no' w' I1' I2') as O'. cbv beta in O'. rewrite Nu in O'.
  destruct Hm as (R & C & Hm & _). pose proof (proj2 (proj2 (proj2 (Hmc main mcal E2)) t m Hi) R C Hm) as Hms.
  destruct Hm' as (R' & C' & Hm' & _). pose proof (proj2 (proj2 (proj2 (Hmc main' mcal' E2')) t m' Hi') R' C' Hm') as Hms'.
  pose proof Hms as (_ & _ & D). destruct (D [o] Io) as (q & X & D1 & D2 & _). injection X as <-.
  pose proof Hms' as (_ & _ & D'). destruct (D' [o'] Io') as (q & X & D1' & D2' & _). injection X as <-.
  rewrite D1 in F1. rewrite D2 in F2. rewrite D1' in F3. rewrite D2' in F4.
  exact (row_move dr dc _ _ _ _ _ _ _ _ _ _ _ _ _ _ _ _ _ _ _ _ _ _ _ b R C R' C' Hr Hms Hms' Mo Sb F1 F2 F3 F4 Ss O O').
Qed.
