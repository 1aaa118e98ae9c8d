From Coq Require Import ZArith QArith List String Bool Lia Permutation.
From Verif Require Import Base Arr Median Flags_model Dict Lutil_model Lutil_spec Lutil_proofs Lexp_model Lexp_spec Lexp_proofs
  Lmeas_model Lmeas_spec Lmeas_proofs Lmove_spec.
From Verif Require Import Lmdet_model.
Import ListNotations.
Local Open Scope string_scope.
Local Open Scope Z_scope.

(** ** Outcomes *)
Lemma alike_bind : forall A B C D (R : A -> B -> Prop) (S : C -> D -> Prop) x y f g,
  alike R x y -> (forall a b, R a b -> alike S (f a) (g b)) -> alike S (obind x f) (obind y g).
Proof. intros A B C D R S [a|e] [b|e'] f g H K; cbn in *; try contradiction; auto. Qed.
Lemma alike_omap : forall A B C D (R : A -> B -> Prop) (S : C -> D -> Prop) f g l l',
  Forall2 R l l' -> (forall a b, R a b -> alike S (f a) (g b)) -> alike (Forall2 S) (omap f l) (omap g l').
Proof.
  intros A B C D R S f g l l' F K. induction F as [|a b l l' H F IH]; cbn [omap]; [constructor|].
  apply (alike_bind _ _ _ _ S); [auto|]. intros c d X. apply (alike_bind _ _ _ _ (Forall2 S)); [exact IH|].
  intros cs ds Y. constructor; assumption.
Qed.

(** ** Boxes *)
Section Move.
Variables (dx dy : Z).
Definition mvc (c : corners) : corners := mkBox (bx0 c + dx) (by0 c + dy) (bx1 c + dx) (by1 c + dy).
Definition mvb (b : box) : box := option_map mvc b.
Definition mvp (p : Z * Z) : Z * Z := (fst p + dx, snd p + dy).

Lemma norm_mv : forall c, norm_box (mvc c) = mvb (norm_box c).
Proof.
  intros [a b c d]. unfold norm_box, mvc. cbn [bx0 by0 bx1 by1].
  destruct (Z.ltb_spec (c + dx) (a + dx)), (Z.ltb_spec c a); try lia; cbn [orb]; [reflexivity|].
  destruct (Z.ltb_spec (d + dy) (b + dy)), (Z.ltb_spec d b); try lia; reflexivity.
Qed.
Lemma grow_mv : forall k b, grow k (mvb b) = mvb (grow k b).
Proof.
  intros k [c|]; [|reflexivity]. cbn [grow mvb option_map]. rewrite <- norm_mv. f_equal. unfold mvc. cbn [bx0 by0 bx1 by1]. f_equal; lia.
Qed.
Lemma leb_mv : forall a b d, (a + d <=? b + d) = (a <=? b).
Proof. intros a b d. destruct (Z.leb_spec (a + d) (b + d)), (Z.leb_spec a b); try lia; reflexivity. Qed.
Lemma contains_mv : forall e b, contains_box (mvb e) (mvb b) = contains_box e b.
Proof. intros [e|] [b|]; cbn [mvb option_map contains_box]; try reflexivity. unfold mvc; cbn [bx0 by0 bx1 by1]. now rewrite !leb_mv. Qed.
Lemma get_bbox_mv : forall e pks n, get_bbox (mvb e) (map mvp pks) n false = (do b <- get_bbox e pks n false; Ok (mvb b)).
Proof.
  intros e [|[x y] pks] n; [reflexivity|]. cbn [map mvp fst snd get_bbox].
  change (Some (mkBox (x + dx) (y + dy) (x + dx) (y + dy))) with (mvb (Some (mkBox x y x y))).
  rewrite grow_mv, contains_mv. destruct (contains_box e _); reflexivity.
Qed.
(** The box that get_bbox returns is the square around the first peak. *)
Lemma get_bbox_square : forall e pks n c, get_bbox e pks n false = Ok (Some c) ->
  exists x y, hd_error pks = Some (x, y) /\ c = mkBox (x - n / 2) (y - n / 2) (x + n / 2) (y + n / 2).
Proof.
  intros e [|[x y] pks] n c H; cbn [get_bbox] in H; [discriminate|]. destruct (contains_box _ _); [|discriminate].
  apply Ok_inj in H. exists x, y. split; [reflexivity|]. cbn [grow bx0 by0 bx1 by1] in H. unfold norm_box in H.
  destruct (_ || _); [discriminate|]. now apply Some_inj in H.
Qed.

Variables (env env' : menv).
Hypothesis setting : moved_setting dx dy env env'.

Lemma frame_box : forall e e', moved_frame dx dy env env' e e' -> exp_box e' = mvb (exp_box e).
Proof.
  intros e e' (X & Y & R & C & _). unfold exp_box. rewrite <- norm_mv, X, Y, R, C. f_equal. unfold mvc; cbn [bx0 by0 bx1 by1]. f_equal; lia.
Qed.
Lemma mbexp_mv : mbexp_box env' = mvb (mbexp_box env).
Proof. destruct setting as (B & _). unfold mbexp_box. destruct B; [reflexivity|]. now apply frame_box. Qed.

(** ** The part of an exposure in the stamp *)
Lemma inside_cut : forall A (e : exposure) c (im : img A) i j, inside (cut e c im) i j ->
  0 <= i <= by1 c - by0 c /\ 0 <= j <= bx1 c - bx0 c.
Proof. intros A e c im i j [H1 H2]. unfold cut in *. cbn [nr nc] in *. lia. Qed.

Definition same_sub (k x y : Z) (c : corners) (e e' : exposure) (u u' : exposure) : Prop :=
  e_x0 u = bx0 c /\ e_y0 u = by0 c /\ e_x0 u' = bx0 c + dx /\ e_y0 u' = by0 c + dy /\
  same_img (e_image u) (e_image u') /\ same_img (e_var u) (e_var u') /\ same_img (e_mask u) (e_mask u') /\
  e_psf u = e_psf e /\ e_psf u' = e_psf e' /\ e_wcs u = e_wcs e /\ e_wcs u' = e_wcs e'.

Lemma sub_exp_mv : forall k x y e e', moved_frame dx dy env env' e e' -> same_under k x y e e' ->
  let c := mkBox (x - k) (y - k) (x + k) (y + k) in
  alike (same_sub k x y c e e') (sub_exp e (Some c)) (sub_exp e' (Some (mvc c))).
Proof.
  intros k x y e e' M U c. unfold sub_exp. rewrite (frame_box _ _ M). change (Some (mvc c)) with (mvb (Some c)). rewrite contains_mv.
  destruct (contains_box (exp_box e) (Some c)) eqn:C; [|reflexivity]. cbn [alike].
  destruct M as (X & Y & R & Cc & P & W).
  assert (In : forall i j, 0 <= i <= by1 c - by0 c -> 0 <= j <= bx1 c - bx0 c -> under k x y e (i + (by0 c - e_y0 e)) (j + (bx0 c - e_x0 e))).
  { intros i j Hi Hj. unfold exp_box, norm_box in C. cbn [bx0 by0 bx1 by1] in C.
    destruct (_ || _); [discriminate|]. cbn [contains_box bx0 by0 bx1 by1] in C. rewrite !andb_true_iff, !Z.leb_le in C.
    subst c. cbn [bx0 by0 bx1 by1] in *. unfold under, inside. lia. }
  assert (Sh : forall i j, i + (by0 (mvc c) - e_y0 e') = i + (by0 c - e_y0 e) /\ j + (bx0 (mvc c) - e_x0 e') = j + (bx0 c - e_x0 e)).
  { intros i j. rewrite X, Y. unfold mvc. cbn [bx0 by0]. lia. }
  unfold same_sub. cbn [e_x0 e_y0 e_image e_var e_mask e_psf e_wcs]. do 4 (split; [reflexivity|]).
  assert (D : by1 (mvc c) - by0 (mvc c) + 1 = by1 c - by0 c + 1 /\ bx1 (mvc c) - bx0 (mvc c) + 1 = bx1 c - bx0 c + 1).
  { unfold mvc. cbn [bx0 by0 bx1 by1]. lia. }
  assert (G : forall A (im im' : img A),
     (forall i j, under k x y e i j -> px im' i j = px im i j) -> same_img (cut e c im) (cut e' (mvc c) im')).
  { intros A im im' H. unfold same_img. split; [apply D|]. split; [apply D|]. intros i j I. apply inside_cut in I. cbn [cut px].
    destruct (Sh i j) as [-> ->]. apply H, In; apply I. }
  split; [apply G; intros; now apply U|]. split; [apply G; intros; now apply U|]. split; [apply G; intros; now apply U|]. auto.
Qed.

Lemma same_pixels_list : forall A (a b : img A), same_img a b -> pixels b = pixels a.
Proof.
  intros A a b (R & C & P). unfold pixels. rewrite R, C. apply map_ext_in. intros [i j] I. apply in_coords in I. cbn [fst snd]. apply P. unfold inside. tauto.
Qed.
Lemma same_imap : forall A B (f : A -> B) a b, same_img a b -> same_img (imap f a) (imap f b).
Proof.
  intros A B f a b (R & C & P). unfold same_img, imap. cbn [nr nc px]. split; [exact R|]. split; [exact C|]. intros i j I. f_equal. now apply P.
Qed.
Lemma same_refl : forall A (a : img A), same_img a a.
Proof. intros A a. unfold same_img. auto. Qed.

Lemma extract_obs_mv : forall k x y c e e' u u' sky sky' pk cen cen', moved_frame dx dy env env' e e' -> same_sub k x y c e e' u u' ->
  both (moved_pos dx dy) sky sky' -> both (moved_pos dx dy) cen cen' ->
  alike same_obs
    (extract_obs (m_W env) u sky pk (match cen with Some p => p | None => m_nanpos env end))
    (extract_obs (m_W env') u' sky' (mvp pk) (match cen' with Some p => p | None => m_nanpos env' end)).
Proof.
  intros k x y c e e' u u' sky sky' pk cen cen' M (X & Y & X' & Y' & SI & SV & SM & P & P' & W & W') HS HC.
  unfold extract_obs.
  assert (SW : same_img (extract_weight u) (extract_weight u')).
  { unfold extract_weight. rewrite (same_pixels_list _ _ _ SV). now apply same_imap. }
  rewrite (same_pixels_list _ _ _ SW). destruct (forallb _ _); [reflexivity|].
  set (at_ := match sky with Some p => p | None => _ end). set (at' := match sky' with Some p => p | None => _ end).
  assert (A : moved_pos dx dy at_ at').
  { subst at_ at'. destruct sky as [p|], sky' as [p'|]; try contradiction; [exact HS|].
    unfold mvp, moved_pos, moved_q. cbn [fst snd]. rewrite !inject_Z_plus. split; reflexivity. }
  destruct M as (_ & _ & _ & _ & MP & MW).
  apply (alike_bind _ _ _ _ same_jac).
  - unfold get_jacobian. rewrite W, W'. destruct (e_wcs e) as [w|], (e_wcs e') as [w'|]; try contradiction; [|reflexivity].
    cbn [some_or_attr obind alike]. rewrite <- (MW _ _ A). unfold same_jac. cbn [j_row j_col dudx dudy dvdx dvdy].
    destruct A as [A1 A2]. unfold moved_q in A1, A2. rewrite X, Y, X', Y', A1, A2, !inject_Z_plus.
    split; [ring|]. split; [ring|]. auto.
  - intros jac jac' J. rewrite P, P'. destruct (e_psf e) as [d|], (e_psf e') as [d'|]; try contradiction; [|reflexivity].
    cbn [some_or_attr obind]. destruct MP as [MP MN].
    set (q := match cen with Some p => p | None => _ end). set (q' := match cen' with Some p => p | None => _ end).
    assert (SP : same_img (d (fst q) (snd q)) (d' (fst q') (snd q'))).
    { subst q q'. destruct cen as [p|], cen' as [p'|]; try contradiction; auto. }
    assert (OS : odd_square (d' (fst q') (snd q')) = odd_square (d (fst q) (snd q))).
    { unfold odd_square. destruct SP as (-> & -> & _). reflexivity. }
    rewrite OS. destruct (negb _); [reflexivity|]. cbn [alike]. unfold same_obs.
    cbn [o_image o_weight o_bmask o_ormask o_noise o_jac o_psf op_image op_weight op_jac both].
    split; [exact SI|]. split; [exact SW|]. split; [exact SM|]. split; [exact Logic.I|]. split; [exact Logic.I|]. split; [exact J|].
    split; [exact SP|]. split.
    + unfold psf_weight. rewrite (same_pixels_list _ _ _ SP). now apply same_imap.
    + destruct SP as (R & C & _). unfold canonical_center, same_jac. cbn [j_row j_col dudx dudy dvdx dvdy]. rewrite R, C.
      split; [reflexivity|]. split; [reflexivity|]. apply J.
Qed.

Variables (s s' : source).
Hypothesis moved : moved_source dx dy s s'.
Hypothesis object : same_object dx dy env env' s.

Lemma peaks_mv : s_peaks s' = map mvp (s_peaks s).
Proof. apply moved. Qed.
Lemma first_peak_mv : alike (fun p p' => p' = mvp p) (first_peak s) (first_peak s').
Proof. unfold first_peak. rewrite peaks_mv. destruct (s_peaks s); reflexivity. Qed.

Lemma source_mv : alike (Forall2 same_obs) (source_mbobs env s) (source_mbobs env' s').
Proof.
  unfold source_mbobs. rewrite mbexp_mv, peaks_mv.
  destruct setting as (B & _ & _ & _ & _ & _ & SS & _). rewrite SS, get_bbox_mv.
  destruct (get_bbox (mbexp_box env) (s_peaks s) (m_stamp_size env) false) as [[c|]|ex] eqn:G; cbn [obind]; [| |reflexivity].
  - apply get_bbox_square in G. destruct G as (x & y & Hp & ->). set (k := m_stamp_size env / 2) in *.
    destruct object as (OC & OS & OU). specialize (OU x y Hp). fold k in OU.
    apply (alike_omap _ _ _ _ (fun e e' => moved_frame dx dy env env' e e' /\ same_under k x y e e')).
    + clear -B OU. induction B; inversion OU; subst; constructor; auto.
    + intros e e' [M U]. unfold band_obs. cbn [mvb option_map].
      apply (alike_bind _ _ _ _ _ _ _ _ _ _ (sub_exp_mv k x y e e' M U)). intros u u' SU.
      apply (alike_bind _ _ _ _ _ _ _ _ _ _ first_peak_mv). intros pk pk' ->.
      destruct moved as (Id & _). rewrite Id. exact (extract_obs_mv _ _ _ _ _ _ _ _ _ _ pk _ _ M SU OS OC).
  - clear -B. apply (alike_omap _ _ _ _ (moved_frame dx dy env env')); [exact B|]. intros e e' _. reflexivity.
Qed.

(** ** The row *)
Lemma default_mv : forall label c, default_cell env' label c = default_cell env label c.
Proof. intros label c. destruct setting as (_ & _ & _ & _ & N & _). unfold default_cell. now rewrite N. Qed.

Definition same_fits (a b : Z * row * row) : Prop :=
  exists fl g p g' p', a = (fl, struct "gauss" g, struct "pgauss" p) /\ b = (fl, struct "gauss" g', struct "pgauss" p') /\
    (forall c, g' c = g c) /\ (forall c, p' c = p c).
Lemma fit_stamp_mv : forall label st st', alike (Forall2 same_obs) st st' -> alike same_fits (fit_stamp env label st) (fit_stamp env' label st').
Proof.
  intros label [o|e] [o'|e'] H; cbn in H; try contradiction; unfold fit_stamp.
  - destruct setting as (_ & _ & FG & FP & _). apply (alike_bind _ _ _ _ _ _ _ _ _ _ (FG _ _ H)). intros g g' Eg.
    apply (alike_bind _ _ _ _ _ _ _ _ _ _ (FP _ _ H)). intros p p' Ep. cbn [alike]. exists 0, g, p, g', p'. auto.
  - subst e'. pose proof (default_mv label). pose proof (default_mv "nan").
    destruct e; try reflexivity; [|destruct n as [|[|n]]; try reflexivity].
    all: cbn [alike]; do 5 eexists; split; [reflexivity|]; split; [reflexivity|]; auto.
Qed.

Lemma get_output_cases : forall e t fl g p bm,
  match first_peak t with
  | Raise x => get_output e t (base_row fl g p) bm = Raise x
  | Ok _ => match mbexp_box e with
            | None => get_output e t (base_row fl g p) bm = Raise (OtherError 0)
            | Some _ => exists r, get_output e t (base_row fl g p) bm = Ok r
            end
  end.
Proof.
  intros e t fl g p bm. unfold get_output.
  assert (E : get_output_struct e (base_row fl g p) = Ok (base_row fl g p ++ map (fun nt => (fst nt, output_default e nt)) output_dtype)%list).
  { vm_compute. reflexivity. }
  rewrite E. clear E. set (z := (_ ++ _)%list). clearbody z. destruct (first_peak t); cbn [obind]; [|reflexivity].
  destruct (match m_cen e (s_id t) with Some c => c | None => s_peakpos t end) as [x y].
  destruct (match m_cen e (s_id t) with Some c => (Some (fst c - inject_Z (fst a))%Q, Some (snd c - inject_Z (snd a))%Q) | None => _ end) as [u v].
  destruct (mbexp_box e); cbn [obind]; [|reflexivity]. eexists. reflexivity.
Qed.

Lemma sget_app : forall A (a b : list (string * A)) c, sget c (a ++ b)%list = match sget c a with Some v => Some v | None => sget c b end.
Proof. induction a as [|[k v] a IH]; intros b c; [reflexivity|]. cbn [sget List.app]. destruct (String.eqb _ _); [reflexivity|apply IH]. Qed.
Lemma base_row_eq : forall fl g p g' p', (forall c : string, g' c = g c) -> (forall c : string, p' c = p c) -> base_row fl g' p' = base_row fl g p.
Proof. intros. unfold base_row. f_equal; [apply map_ext; congruence|]. f_equal. apply map_ext. congruence. Qed.

Lemma get_output_mv : forall fl g p g' p' bm bm', (forall c : string, g' c = g c) -> (forall c : string, p' c = p c) ->
  alike (fun r r' => moved_row dx dy r r' /\ (bm' = bm -> sget "bmask" r' = sget "bmask" r))
    (get_output env s (base_row fl g p) bm) (get_output env' s' (base_row fl g' p') bm').
Proof.
  intros fl g p g' p' bm bm' Eg Ep. rewrite (base_row_eq fl g p g' p' Eg Ep). clear Eg Ep.
  pose proof (get_output_cases env s fl g p bm) as C. pose proof (get_output_cases env' s' fl g p bm') as C'.
  pose proof first_peak_mv as FP. rewrite mbexp_mv in C'.
  destruct (first_peak s) as [pk|x], (first_peak s') as [pk'|x']; cbn [alike] in FP; try contradiction.
  2: { rewrite C, C'. exact FP. }
  destruct (mbexp_box env) as [b|] eqn:Eb; cbn [mvb option_map] in C'; [|now rewrite C, C'].
  destruct C as [r C], C' as [r' C']. rewrite C, C'. cbn [alike].
  apply get_output_ok in C. apply get_output_ok in C'.
  destruct C as (x & y & qx & qy & pks & b1 & Exy & Epk & Eb1 & ->).
  destruct C' as (x' & y' & qx' & qy' & pks' & b1' & Exy' & Epk' & Eb1' & ->).
  rewrite Eb in Eb1. apply Some_inj in Eb1. subst b1. rewrite mbexp_mv, Eb in Eb1'. cbn [mvb option_map] in Eb1'. apply Some_inj in Eb1'. subst b1'.
  rewrite peaks_mv, Epk in Epk'. cbn [map mvp fst snd] in Epk'. injection Epk' as <- <- _.
  destruct moved as (Id & _ & _ & MP). rewrite Id in *. destruct object as (OC & _ & _).
  destruct setting as (_ & RD & _ & _ & NA & DT & SS & _).
  assert (Mxy : moved_q dx x x' /\ moved_q dy y y').
  { destruct (m_cen env (s_id s)) as [c|], (m_cen env' (s_id s)) as [c'|]; try contradiction; cbn [both] in OC; unfold moved_pos in *; rewrite <- Exy, <- Exy' in *; cbn [fst snd] in *; tauto. }
  rewrite NA, DT, SS.
  set (k1 := Z.land bm _). set (k2 := Z.land bm' _).
  assert (K : bm' = bm -> k2 = k1) by (intro; subst; reflexivity). clearbody k1 k2.
  destruct (m_cen env (s_id s)) as [c|] eqn:Ec, (m_cen env' (s_id s)) as [c'|] eqn:Ec'; try contradiction; cbn [both] in OC.
  - rewrite <- (RD c c' OC). destruct OC as [O1 O2]. unfold moved_q in O1, O2. set (rd := m_radec env' c') in *. clearbody rd.
    split; [|intro E; rewrite (K E); reflexivity]. unfold moved_row.
    split; [unfold skeys; rewrite !map_app; reflexivity|].
    split; [exists x, x'; split; [reflexivity|]; split; [reflexivity|apply Mxy]|].
    split; [exists y, y'; split; [reflexivity|]; split; [reflexivity|apply Mxy]|].
    split; [exists (bx0 b); split; reflexivity|]. split; [exists (by0 b); split; reflexivity|].
    split; [do 2 eexists; split; [reflexivity|]; split; [reflexivity|]; cbn [both]; rewrite O1, inject_Z_plus; ring|].
    split; [do 2 eexists; split; [reflexivity|]; split; [reflexivity|]; cbn [both]; rewrite O2, inject_Z_plus; ring|].
    intros n I. rewrite !sget_app. destruct (sget n (base_row fl g p)); [reflexivity|].
    cbn [sget]. repeat (match goal with |- context [String.eqb ?a n] => destruct (String.eqb_spec a n) as [<-|] | |- context [String.eqb n ?a] => destruct (String.eqb_spec n a) as [->|] end; [first [reflexivity | exfalso; apply I; cbn; tauto]|]). reflexivity.
  - split; [|intro E; rewrite (K E); reflexivity]. unfold moved_row.
    split; [unfold skeys; rewrite !map_app; reflexivity|].
    split; [exists x, x'; split; [reflexivity|]; split; [reflexivity|apply Mxy]|].
    split; [exists y, y'; split; [reflexivity|]; split; [reflexivity|apply Mxy]|].
    split; [exists (bx0 b); split; reflexivity|]. split; [exists (by0 b); split; reflexivity|].
    split; [do 2 eexists; split; [reflexivity|]; split; [reflexivity|]; exact Logic.I|].
    split; [do 2 eexists; split; [reflexivity|]; split; [reflexivity|]; exact Logic.I|].
    intros n I. rewrite !sget_app. destruct (sget n (base_row fl g p)); [reflexivity|].
    cbn [sget]. repeat (match goal with |- context [String.eqb ?a n] => destruct (String.eqb_spec a n) as [<-|] | |- context [String.eqb n ?a] => destruct (String.eqb_spec n a) as [->|] end; [first [reflexivity | exfalso; apply I; cbn; tauto]|]). reflexivity.
Qed.

Lemma stamp_case_mv : forall label fl g p fl' g' p',
  stamp_case env label (source_mbobs env s) fl g p -> stamp_case env' label (source_mbobs env' s') fl' g' p' ->
  fl' = fl /\ (forall c, g' c = g c) /\ (forall c, p' c = p c).
Proof.
  intros label fl g p fl' g' p' C C'. pose proof source_mv as H.
  destruct (source_mbobs env s) as [o|e], (source_mbobs env' s') as [o'|e']; cbn [alike] in H; try contradiction.
  - destruct C as (-> & G & P), C' as (-> & G' & P'). destruct setting as (_ & _ & FG & FP & _).
    specialize (FG _ _ H). specialize (FP _ _ H). rewrite G, G' in FG. rewrite P, P' in FP. cbn in FG, FP. auto.
  - subst e'. pose proof (default_mv label) as D1. pose proof (default_mv "nan") as D2. unfold stamp_case in *.
    destruct e; try contradiction; [|destruct n as [|[|n]]; try contradiction].
    all: destruct C as (-> & -> & ->), C' as (-> & -> & ->); auto.
Qed.
End Move.

(** ** Whole catalogues *)
Lemma local_rows : forall dx dy env env' label order order' cat cat' rows rows',
  moved_setting dx dy env env' -> catalogue cat -> catalogue cat' -> lists_set order -> lists_set order' ->
  measure env label order cat = Ok (Some rows) -> measure env' label order' cat' = Ok (Some rows') ->
  exists cs cs', Permutation cs (childless cat) /\ Permutation cs' (childless cat') /\
    Forall2 (at_position env) cs rows /\ Forall2 (at_position env') cs' rows' /\
    forall n m s s' r r', nth_error cs n = Some s -> nth_error rows n = Some r -> nth_error cs' m = Some s' -> nth_error rows' m = Some r' ->
      moved_source dx dy s s' -> same_object dx dy env env' s -> moved_row dx dy r r'.
Proof.
  intros dx dy env env' label order order' cat cat' rows rows' S C C' O O' H H'.
  destruct (measure_ok _ _ _ _ _ C O H) as (cs & sb & bms & _ & P & Sb & Ne & L & F).
  destruct (measure_ok _ _ _ _ _ C' O' H') as (cs' & sb' & bms' & _ & P' & Sb' & Ne' & L' & F').
  assert (Esb : sb' = sb).
  { assert (N : cat <> []) by (intros ->; discriminate H). assert (N' : cat' <> []) by (intros ->; discriminate H').
    destruct (Sb N) as [A _], (Sb' N') as [A' _]. destruct S as (_ & _ & _ & _ & _ & _ & _ & E). congruence. }
  subst sb'.
  assert (POS : forall e cs rows, List.length rows = List.length cs ->
     (forall n s, nth_error cs n = Some s -> exists r, nth_error rows n = Some r /\ at_position e s r) -> Forall2 (at_position e) cs rows).
  { clear. intros e. induction cs as [|s cs IH]; intros [|r rows] L G; try discriminate; constructor.
    - destruct (G 0%nat s eq_refl) as (r' & E & X). apply Some_inj in E. now subst r'.
    - apply IH; [now inversion L|]. intros n s' E. exact (G (Datatypes.S n) s' E). }
  exists cs, cs'. split; [exact P|]. split; [exact P'|].
  split. { apply POS; [exact L|]. intros n s E. destruct (F n s E) as (r & fl & g & p & bm & A & _ & _ & G). exists r. split; [exact A|]. now apply output_facts in G. }
  split. { apply POS; [exact L'|]. intros n s E. destruct (F' n s E) as (r & fl & g & p & bm & A & _ & _ & G). exists r. split; [exact A|]. now apply output_facts in G. }
  intros n m s s' r r' En Er Em Er' M Ob.
  destruct (F n s En) as (r1 & fl & g & p & bm & A & _ & Sc & G). rewrite Er in A. apply Some_inj in A. subst r1.
  destruct (F' m s' Em) as (r1 & fl' & g' & p' & bm' & A & _ & Sc' & G'). rewrite Er' in A. apply Some_inj in A. subst r1.
  destruct (stamp_case_mv dx dy env env' S s s' M Ob _ _ _ _ _ _ _ Sc Sc') as (-> & Eg & Ep).
  pose proof (get_output_mv dx dy env env' S s s' M Ob fl g p g' p' bm bm' Eg Ep) as X. rewrite G, G' in X. apply X.
Qed.

Lemma get_bmask_mv : forall dx dy env env' s s', moved_detection dx dy env env' -> moved_source dx dy s s' ->
  alike eq (get_bmask env s) (get_bmask env' s').
Proof.
  intros dx dy env env' s s' (X & Y & R & C & P) M. unfold get_bmask. apply (alike_bind _ _ _ _ _ _ _ _ _ _ (first_peak_mv dx dy s s' M)).
  intros [x y] pk' ->. cbn [mvp fst snd]. rewrite X, Y. replace (y + dy - (m_dety0 env + dy)) with (y - m_dety0 env) by lia.
  replace (x + dx - (m_detx0 env + dx)) with (x - m_detx0 env) by lia.
  unfold insideb. rewrite R, C. fold (insideb (m_detmask env) (y - m_dety0 env) (x - m_detx0 env)).
  destruct (insideb (m_detmask env) _ _) eqn:I; [|reflexivity]. cbn [alike]. symmetry. apply P. now apply insideb_spec.
Qed.
Lemma Forall2_eq : forall A (l l' : list A), Forall2 eq l l' -> l' = l.
Proof. induction 1; congruence. Qed.

Lemma child_ids_mv : forall dx dy order cat cat', Forall2 (moved_source dx dy) cat cat' -> child_ids order cat' = child_ids order cat.
Proof.
  intros dx dy order cat cat' F. unfold child_ids. do 2 f_equal. induction F as [|s s' cat cat' M F IH]; [reflexivity|].
  cbn [filter]. destruct M as (Id & N & _). rewrite N. destruct (s_nchild s =? 0); cbn [map]; congruence.
Qed.
Lemma find_source_mv : forall dx dy env env' cat cat' id, Forall2 (moved_object dx dy env env') cat cat' ->
  both (moved_object dx dy env env') (find_source cat id) (find_source cat' id).
Proof.
  intros dx dy env env' cat cat' id F. unfold find_source. induction F as [|s s' cat cat' M F IH]; [exact Logic.I|].
  cbn [find]. pose proof M as [[Id _] _]. rewrite Id. destruct (s_id s =? id); [exact M|exact IH].
Qed.
Lemma some_or_attr_mv : forall A B (R : A -> B -> Prop) a b, both R a b -> alike R (some_or_attr a) (some_or_attr b).
Proof. intros A B R [a|] [b|] H; cbn in *; auto; contradiction. Qed.

Lemma measure_loop_mv : forall dx dy env env' label stamp stamp' bmasks, moved_setting dx dy env env' ->
  (forall id, alike (Forall2 same_obs) (stamp id) (stamp' id)) ->
  forall ch ch', Forall2 (both (moved_object dx dy env env')) ch ch' -> forall i,
  alike (Forall2 (moved_row_mask dx dy)) (measure_loop env label stamp bmasks i ch) (measure_loop env' label stamp' bmasks i ch').
Proof.
  intros dx dy env env' label stamp stamp' bmasks S St ch ch' F. induction F as [|c c' ch ch' H F IH]; intro i; cbn [measure_loop]; [constructor|].
  apply (alike_bind _ _ _ _ _ _ _ _ _ _ (some_or_attr_mv _ _ _ _ _ H)). intros s s' [M Ob].
  apply (alike_bind _ _ _ _ (moved_row_mask dx dy)).
  - unfold measure_one. destruct (nth_error bmasks i) as [bm|]; cbn [obind]; [|reflexivity].
    pose proof M as [Id _]. rewrite Id.
    apply (alike_bind _ _ _ _ _ _ _ _ _ _ (fit_stamp_mv dx dy env env' S label _ _ (St (s_id s)))).
    intros a b (fl & g & p & g' & p' & -> & -> & Eg & Ep). cbn [fst snd]. rewrite !combined_ok. cbn [obind].
    pose proof (get_output_mv dx dy env env' S s s' M Ob fl g p g' p' bm bm Eg Ep) as X.
    change (alike (moved_row_mask dx dy) (get_output env s (base_row fl g p) bm) (get_output env' s' (base_row fl g' p') bm)).
    destruct (get_output env s (base_row fl g p) bm), (get_output env' s' (base_row fl g' p') bm); cbn [alike] in *; try contradiction; [|exact X].
    destruct X as [X1 X2]. split; [exact X1|]. now apply X2.
  - intros r r' R. apply (alike_bind _ _ _ _ _ _ _ _ _ _ (IH (Datatypes.S i))). intros l l' Fl. constructor; assumption.
Qed.

Lemma measure_mv : forall dx dy env env' label order cat cat', moved_setting dx dy env env' -> moved_detection dx dy env env' ->
  Forall2 (moved_object dx dy env env') cat cat' ->
  alike (both (Forall2 (moved_row_mask dx dy))) (measure env label order cat) (measure env' label order cat').
Proof.
  intros dx dy env env' label order cat cat' S D F.
  assert (FM : Forall2 (moved_source dx dy) cat cat') by (clear -F; induction F as [|? ? ? ? [H _]]; constructor; auto).
  unfold measure. rewrite (child_ids_mv dx dy order cat cat' FM). unfold measure_with.
  pose proof F as Fc. destruct F as [|s0 s0' cat cat' M0 F]; [exact Logic.I|]. clear M0 F.
  set (c := s0 :: cat) in *. set (c' := s0' :: cat') in *. clearbody c c'.
  pose proof S as (_ & _ & _ & _ & _ & _ & _ & Esb). rewrite Esb. destruct (m_shear_bands env) as [sb|]; cbn [obind]; [|reflexivity].
  apply (alike_bind _ _ _ _ (Forall2 eq)).
  - apply (alike_omap _ _ _ _ (moved_source dx dy)); [exact FM|]. intros s s' M. exact (get_bmask_mv dx dy env env' s s' D M).
  - intros bms bms' E. apply Forall2_eq in E. subst bms'.
    apply (alike_bind _ _ _ _ (Forall2 (moved_row_mask dx dy))).
    + apply measure_loop_mv; [exact S| |].
      * intro id. unfold get_mbobs, check_source_id. rewrite (child_ids_mv dx dy order c c' FM).
        destruct (existsb _ _); cbn [obind]; [|reflexivity].
        apply (alike_bind _ _ _ _ _ _ _ _ _ _ (some_or_attr_mv _ _ _ _ _ (find_source_mv dx dy env env' c c' id Fc))).
        intros s s' [M Ob]. exact (source_mv dx dy env env' S s s' M Ob).
      * induction (child_ids order c) as [|id l IH]; cbn [map]; constructor; [now apply find_source_mv|exact IH].
    + intros rows rows' R. destruct R; [exact Logic.I|]. cbn [alike both]. constructor; assumption.
Qed.

(** ** The columns added afterwards *)
Lemma nearest_comp : forall a b, (a == b)%Q -> nearest a = nearest b.
Proof. intros a b H. unfold nearest. apply Qround.Qfloor_comp. now rewrite H. Qed.
Lemma qsum_map_comp : forall A (f g : A -> Q) l, (forall a, f a == g a)%Q -> (qsum (map f l) == qsum (map g l))%Q.
Proof. intros A f g l H. induction l as [|a l IH]; [reflexivity|]. cbn [map]. unfold qsum in *. cbn [fold_right]. now rewrite H, IH. Qed.
Lemma weighted_mfrac_comp : forall W rad im x y x' y', weight_of_numbers W -> (x == x')%Q -> (y == y')%Q ->
  both (fun a b => b == a)%Q (weighted_mfrac W rad im x y) (weighted_mfrac W rad im x' y').
Proof.
  intros W rad im x y x' y' HW Hx Hy. unfold weighted_mfrac. rewrite (nearest_comp _ _ Hx), (nearest_comp _ _ Hy).
  destruct (_ =? 0); [reflexivity|]. set (sub := slice _ _ _ _ _). unfold weighted_mean.
  set (w := fun ij : Z * Z => _). set (w' := fun ij : Z * Z => W (_ - (y' - _))%Q _).
  assert (E : forall ij, (w ij == w' ij)%Q). { intro ij. apply HW; [now rewrite Hy|now rewrite Hx]. }
  assert (S : (qsum (map w (coords (nr sub) (nc sub))) == qsum (map w' (coords (nr sub) (nc sub))))%Q) by now apply qsum_map_comp.
  destruct (Qeq_bool (qsum (map w _)) 0) eqn:A, (Qeq_bool (qsum (map w' _)) 0) eqn:B; cbn [both]; try exact Logic.I.
  - apply Qeq_bool_iff in A. apply Qeq_bool_neq in B. apply B. now rewrite <- S.
  - apply Qeq_bool_iff in B. apply Qeq_bool_neq in A. apply A. now rewrite S.
  - rewrite S. apply Qdiv_comp; [|reflexivity]. apply qsum_map_comp. intro ij. apply Qmult_comp; [symmetry; apply E|reflexivity].
Qed.
Lemma annotate_mv : forall dx dy d om mf p res res', weight_of_numbers (d_W d) -> Forall2 (moved_lrow dx dy) res res' ->
  alike (Forall2 (fun x x' => moved_lrow dx dy x x' /\ same_added x x')) (annotate d om mf p res) (annotate d om mf p res').
Proof.
  intros dx dy d om mf p res res' HW F. unfold annotate.
  assert (LR : forall x x', moved_lrow dx dy x x' -> (local_col x == local_col x' /\ local_row x == local_row x')%Q).
  { intros x x' (_ & A & B & C & D). unfold local_col, local_row, moved_q in *. rewrite A, B, C, D, !inject_Z_plus. split; ring. }
  assert (G : Forall2 (fun x x' => moved_lrow dx dy x x' /\ both (fun a b => b == a)%Q (l_mfrac x) (l_mfrac x'))
     (add_mfrac (d_W d) (d_rad d) mf res) (add_mfrac (d_W d) (d_rad d) mf res')).
  { unfold add_mfrac. destruct (existsb _ _); induction F as [|x x' res res' M F IH]; cbn [map]; constructor; try exact IH; (split; [exact M|]); cbn [with_mfrac l_mfrac].
    - apply weighted_mfrac_comp; [exact HW|apply LR, M|apply LR, M].
    - reflexivity. }
  apply (alike_bind _ _ _ _ (Forall2 (fun x x' => moved_lrow dx dy x x' /\ l_ormask x' = l_ormask x /\ both (fun a b => b == a)%Q (l_mfrac x) (l_mfrac x')))).
  - unfold add_ormask. eapply alike_omap; [exact G|]. intros x x' [M B]. cbn beta.
    destruct (LR _ _ M) as [A1 A2]. rewrite <- (nearest_comp _ _ A1), <- (nearest_comp _ _ A2).
    destruct (np_get om _ _); cbn [obind alike]; [|reflexivity]. split; [exact M|]. split; [reflexivity|exact B].
  - intros r r' Fr. cbn [alike]. unfold add_original_psf. clear -Fr.
    induction Fr as [|x x' r r' (M & A & B) F IH]; cbn [map]; constructor; [|exact IH]. split; [exact M|]. unfold same_added.
    cbn [with_psfrec l_ormask l_mfrac l_psfrec]. auto.
Qed.
