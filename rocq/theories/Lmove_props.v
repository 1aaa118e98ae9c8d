(** C124 and C125: what the LSST measurement of an object depends on. *)
From Coq Require Import ZArith QArith List String Bool Lia Permutation.
From Verif Require Import Base Arr Median Flags_model Dict Lutil_model Lexp_model Lmeas_model Lmeas_spec Lmove_spec Lmove_proofs.
From Verif Require Lmdet_model.
Import ListNotations.
Local Open Scope string_scope.
Local Open Scope Z_scope.

(** ** C124 *)

(** Two runs in the same frame with the same settings. The catalogues, the order
    of the ids and all pixels may differ. Every object that is in both catalogues
    and for which the bands are the same under the stamp has the same row, apart
    from bmask, which C61 shows to be that of another source. *)
Theorem C124_local : forall env env' label order order' cat cat' rows rows',
  moved_setting 0 0 env env' -> catalogue cat -> catalogue cat' -> lists_set order -> lists_set order' ->
  measure env label order cat = Ok (Some rows) -> measure env' label order' cat' = Ok (Some rows') ->
  exists cs cs', Permutation cs (childless cat) /\ Permutation cs' (childless cat') /\
    Forall2 (at_position env) cs rows /\ Forall2 (at_position env') cs' rows' /\
    forall n m s r r', nth_error cs n = Some s -> nth_error rows n = Some r -> nth_error cs' m = Some s -> nth_error rows' m = Some r' ->
      same_object 0 0 env env' s -> moved_row 0 0 r r'.
Proof.
  intros env env' label order order' cat cat' rows rows' S C C' O O' H H'.
  destruct (local_rows _ _ _ _ _ _ _ _ _ _ _ S C C' O O' H H') as (cs & cs' & P & P' & Q & Q' & F).
  exists cs, cs'. split; [exact P|]. split; [exact P'|]. split; [exact Q|]. split; [exact Q'|].
  intros n m s r r' A B A' B' Ob. apply (F n m s s r r' A B A' B'); [|exact Ob].
  unfold moved_source, moved_pos, moved_q. split; [reflexivity|]. split; [reflexivity|].
  split; [|split; rewrite Qplus_0_r; reflexivity].
  rewrite (map_ext (fun p : Z * Z => (fst p + 0, snd p + 0)) (fun p => p)); [now rewrite map_id|].
  intros [x y]. cbn [fst snd]. f_equal; apply Z.add_0_r.
Qed.
Print Assumptions C124_local.

(** The same in frames that differ by a shift of the pixel grid. *)
Theorem C124_local_shifted : forall dx dy env env' label order order' cat cat' rows rows',
  moved_setting dx dy env env' -> catalogue cat -> catalogue cat' -> lists_set order -> lists_set order' ->
  measure env label order cat = Ok (Some rows) -> measure env' label order' cat' = Ok (Some rows') ->
  exists cs cs', Permutation cs (childless cat) /\ Permutation cs' (childless cat') /\
    Forall2 (at_position env) cs rows /\ Forall2 (at_position env') cs' rows' /\
    forall n m s s' r r', nth_error cs n = Some s -> nth_error rows n = Some r -> nth_error cs' m = Some s' -> nth_error rows' m = Some r' ->
      moved_source dx dy s s' -> same_object dx dy env env' s -> moved_row dx dy r r'.
Proof. exact local_rows. Qed.
Print Assumptions C124_local_shifted.

(** Whether the object can be measured at all is local too: the same exception
    or the same observations. *)
Theorem C124_stamp : forall dx dy env env' s s', moved_setting dx dy env env' ->
  moved_source dx dy s s' -> same_object dx dy env env' s ->
  alike (Forall2 same_obs) (source_mbobs env s) (source_mbobs env' s').
Proof. intros dx dy env env' s s' S. exact (source_mv dx dy env env' S s s'). Qed.
Print Assumptions C124_stamp.

(** ** C125 *)

(** Everything shifted: the run has the same outcome, row by row, with the
    positions shifted; or it raises the same exception. *)
Theorem C125_translation : forall dx dy env env' label order cat cat',
  moved_setting dx dy env env' -> moved_detection dx dy env env' -> Forall2 (moved_object dx dy env env') cat cat' ->
  alike (both (Forall2 (moved_row_mask dx dy))) (measure env label order cat) (measure env' label order cat').
Proof. exact measure_mv. Qed.
Print Assumptions C125_translation.

(** The columns added to a table afterwards do not depend on where the frame is
    either: with the same or-mask, masked fraction and original PSF arrays, shifted
    rows get the same values or the same exception. *)
Theorem C125_added_columns : forall dx dy d ormask mfrac p res res', weight_of_numbers (Lmdet_model.d_W d) ->
  Forall2 (moved_lrow dx dy) res res' ->
  alike (Forall2 (fun x x' => moved_lrow dx dy x x' /\ same_added x x'))
    (Lmdet_model.annotate d ormask mfrac p res) (Lmdet_model.annotate d ormask mfrac p res').
Proof. exact annotate_mv. Qed.
Print Assumptions C125_added_columns.

(** ** An example: two bands of 9 x 9 pixels, with fits that read the pixels *)
Definition read_fit (k : Z) (obs : list lobs) : outcome (string -> cell) :=
  match obs with
  | [] => Raise IndexError
  | o :: _ => if insideb (o_image o) 1 1 then Ok (fun _ => CNum (Some (px (o_image o) 1 1 + inject_Z k)%Q)) else Raise IndexError
  end.
Definition band (x0 y0 : Z) (f : Z -> Z -> Q) (v : Z -> Z -> evar) : exposure :=
  mkExp x0 y0 (mkImg 9 9 f) (mkImg 9 9 v) (ifill 9 9 0) (Some (fun _ _ => ifill 3 3 1%Q)) (Some 7).
Definition pic (i j : Z) : Q := inject_Z (10 * i + j).
Definition survey (x0 y0 : Z) (f : Z -> Z -> Q) (v : Z -> Z -> evar) : menv :=
  mkMenv [band x0 y0 f v; band x0 y0 pic (fun _ _ => Some 4%Q)] x0 y0 (mkImg 9 9 (fun i j => 32 + i))
    (fun id => if id =? 3 then None else Some (inject_Z (x0 + id) + (1 # 2), inject_Z (y0 + 4))%Q) (fun id => None)
    (fun _ _ _ => mkMat 1 0 0 1) (fun c => (Qred (fst c - inject_Z x0), Qred (snd c - inject_Z y0)))
    (read_fit 10) (read_fit 20) (0%Q, 0%Q) 1 32 3 (Ok [0]).
Definition src (x0 y0 id j i : Z) : source := mkSrc id 0 [(x0 + j, y0 + i)] (inject_Z (x0 + j), inject_Z (y0 + i)).
Definition orig := survey 100 200 pic (fun _ _ => Some 2%Q).
(** Other values above row 3, where the variance is not finite either. *)
Definition other (dx dy : Z) := survey (100 + dx) (200 + dy)
  (fun i j => if i <? 3 then 99%Q else pic i j) (fun i j => if i <? 3 then None else Some 2%Q).

Lemma read_fit_same : forall k, same_fit (read_fit k) (read_fit k).
Proof.
  intros k l l' F. destruct F as [|o o' l l' H F]; [reflexivity|]. cbn [read_fit]. destruct H as ((R & C & P) & _).
  unfold insideb. rewrite R, C. fold (insideb (o_image o) 1 1). destruct (insideb (o_image o) 1 1) eqn:I; [|reflexivity].
  cbn [alike]. intros _. rewrite (P 1 1); [reflexivity|]. now apply insideb_spec.
Qed.
Lemma survey_moved : forall dx dy x0 y0 f v f' v', moved_setting dx dy (survey x0 y0 f v) (survey (x0 + dx) (y0 + dy) f' v').
Proof.
  intros dx dy x0 y0 f v f' v'. unfold moved_setting. cbn [survey m_bands m_radec m_gauss m_pgauss m_no_attempt m_detected m_stamp_size m_shear_bands].
  assert (FR : forall g w g' w' E E', (forall w x y x' y', m_W E w x y = m_W E' w x' y') -> m_nanpos E = m_nanpos E' -> moved_frame dx dy E E' (band x0 y0 g w) (band (x0 + dx) (y0 + dy) g' w')).
  { intros g w g' w' E E' HW HN. unfold moved_frame. cbn [band e_x0 e_y0 e_image e_psf e_wcs nr nc both]. do 4 (split; [reflexivity|]).
    split; [split; [intros; unfold same_img; auto|unfold same_img; auto]|]. intros p p' _. apply HW. }
  split; [repeat (constructor; [now apply FR|]); constructor|].
  split.
  { intros c c' [A B]. unfold moved_q in A, B. f_equal; apply Qred_complete; [rewrite A|rewrite B]; rewrite inject_Z_plus; ring. }
  split; [apply read_fit_same|]. split; [apply read_fit_same|]. auto.
Qed.
(** An object in rows 4 to 6 of the image does not see the change, one in rows 0
    to 2 does. *)
Lemma survey_object : forall dx dy f v f' v' id j i, id <> 3 ->
  (forall a b, i - 1 <= a <= i + 1 -> f' a b = f a b /\ v' a b = v a b) ->
  same_object dx dy (survey 100 200 f v) (survey (100 + dx) (200 + dy) f' v') (src 100 200 id j i).
Proof.
  intros dx dy f v f' v' id j i N A. unfold same_object. cbn [survey m_cen m_skypix m_bands m_stamp_size src s_id s_peaks hd_error].
  rewrite (proj2 (Z.eqb_neq id 3) N). cbn [both]. split.
  { unfold moved_pos, moved_q. cbn [fst snd]. rewrite !inject_Z_plus. split; ring. }
  split; [exact Logic.I|]. intros x y E. apply Some_inj in E. apply pair_equal_spec in E. destruct E as [<- <-].
  change (3 / 2) with 1. constructor; [|constructor; [|constructor]]; intros a b [I [H1 H2]]; cbn [band e_x0 e_y0 e_image e_var e_mask px] in *; [|auto].
  destruct (A a b) as [-> ->]; [lia|]. auto.
Qed.
Definition s2 := src 100 200 2 6 5.
Definition s4 := src 100 200 4 4 1.
Definition ids (l : list Z) : list Z := l.
Definition name (l : list Z) : string := "0".
Example C124_ex : exists a b a' b',
  measure orig name ids [s2; s4] = Ok (Some [a; b]) /\ measure (other 0 0) name ids [s4; s2] = Ok (Some [b'; a']) /\
  moved_setting 0 0 orig (other 0 0) /\ same_object 0 0 orig (other 0 0) s2 /\
  sget "gauss_T" a = Some (CNum (Some 66%Q)) /\ sget "gauss_T" a' = Some (CNum (Some 66%Q)) /\
  sget "stamp_flags" b = Some (CInt 0) /\ sget "stamp_flags" b' <> Some (CInt 0).
Proof.
  do 4 eexists. split; [vm_compute; reflexivity|]. split; [vm_compute; reflexivity|].
  split; [exact (survey_moved 0 0 100 200 _ _ _ _)|]. split.
  { apply (survey_object 0 0); [lia|]. intros a b H. rewrite (proj2 (Z.ltb_ge a 3)) by lia. auto. }
  split; [reflexivity|]. split; [reflexivity|]. split; [reflexivity|]. discriminate.
Qed.
Example C125_ex : exists a b a' b', let moved := survey (100 + 5) (200 + -2) pic (fun _ _ => Some 2%Q) in
  measure orig name ids [s2; s4] = Ok (Some [a; b]) /\ measure moved name ids [src 105 198 2 6 5; src 105 198 4 4 1] = Ok (Some [a'; b']) /\
  moved_setting 5 (-2) orig moved /\ moved_detection 5 (-2) orig moved /\
  Forall2 (moved_object 5 (-2) orig moved) [s2; s4] [src 105 198 2 6 5; src 105 198 4 4 1] /\
  sget "col" a = Some (CNum (Some (205 # 2))) /\ sget "col" a' = Some (CNum (Some (215 # 2))) /\
  sget "row0" a = Some (CInt 200) /\ sget "row0" a' = Some (CInt 198) /\ sget "ra" a' = sget "ra" a /\ sget "bmask" b' = Some (CInt 1).
Proof.
  do 4 eexists. cbv zeta. split; [vm_compute; reflexivity|]. split; [vm_compute; reflexivity|].
  split; [exact (survey_moved 5 (-2) 100 200 _ _ _ _)|].
  split; [split; [reflexivity|split; [reflexivity|unfold same_img; auto]]|].
  split.
  { constructor; [|constructor; [|constructor]]; (split; [split; [reflexivity|split; [reflexivity|split; [reflexivity|split; reflexivity]]]|]);
      (apply (survey_object 5 (-2)); [lia|auto]). }
  repeat (split; [reflexivity|]). reflexivity.
Qed.
Definition drun1 : Lmdet_model.drun :=
  Lmdet_model.mkDrun (5, 5) None [] None (Ok tt) [] [] (fun _ _ => None) (Ok []) (fun _ => Ok None) (fun a b => 1 + a * a + b * b)%Q 1.
Definition lr (x0 y0 : Z) : Lmdet_model.lrow := Lmdet_model.mkLrow 1 (inject_Z y0 + (5 # 2)) (inject_Z x0 + (7 # 3)) y0 x0 0 None None.
Example C125_added_ex : exists a a',
  let ormask := mkImg 5 5 (fun i j => 10 * i + j) in let mfrac := mkImg 5 5 (fun i j => inject_Z (i + j)) in
  let p := Lmdet_model.mkPst 0 1 0 0 0 0 4 true in
  Lmdet_model.annotate drun1 ormask mfrac p [lr 100 200] = Ok [a] /\ Lmdet_model.annotate drun1 ormask mfrac p [lr (100 + 5) (200 + -2)] = Ok [a'] /\
  weight_of_numbers (Lmdet_model.d_W drun1) /\ moved_lrow 5 (-2) (lr 100 200) (lr (100 + 5) (200 + -2)) /\
  Lmdet_model.l_ormask a = 32 /\ Lmdet_model.l_ormask a' = 32.
Proof.
  do 2 eexists. cbv zeta. split; [vm_compute; reflexivity|]. split; [vm_compute; reflexivity|].
  split. { intros x y x' y' Hx Hy. cbn [drun1 Lmdet_model.d_W]. now rewrite Hx, Hy. }
  split; [|split; reflexivity]. unfold moved_lrow, moved_q. repeat split; cbn [lr Lmdet_model.l_row Lmdet_model.l_col]; rewrite inject_Z_plus; ring.
Qed.
