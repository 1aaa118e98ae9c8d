(** C139: do_metadetect returns. *)
From Coq Require Import ZArith QArith List String Bool Lia Lqa Reals Qreals.
From Verif Require Import Base Arr Median Flags_model Detect_model Detect_spec Summ_model Coadd_model Wavg_model Joint_model Conf_model
  Mdet_model Mdet_spec Mrun_model Mrun_spec Mrun_proofs Mrun_props Mtot_spec Mtot_proofs Mtotr_proofs.
From Verif Require Shearpos_model.
Import ListNotations.
Local Open Scope string_scope.
Local Open Scope Z_scope.

(** A call of do_metadetect without colours returns, whatever the pixels are: the
    images have one shape, the object can be constructed and has fitters with
    different column prefixes, every combination has one to six different bands,
    and third party code returns. Missing from the full claim: objects whose
    unsheared position lies half of a stamp or more above the image, see the
    refutation below. *)
Theorem C139_returns_partial : forall x c main sbc dbc md,
  all_one_shape main None -> main <> [] -> metacal_ok x c -> boxes_ok (st_meds c) -> known_box_type (st_meds c) -> sep_ok x ->
  third_returns x c -> unsheared_near x c main ->
  construct (st_conf c) (zlen main) false false sbc dbc = Ok md -> md_fitters md <> [] -> distinct_prefixes (md_fitters md) ->
  (forall sb, In sb (md_shear md) -> good_bands (zlen main) sb) -> (forall db, In db (md_det md) -> good_bands (zlen main) db) ->
  exists o, do_metadetect x c main sbc None None dbc = Ok o.
Proof.
  intros x c main sbc dbc md H1 H2 H3 H4 H5 H6 H7 H8 H9 H10 H11 H12 H13.
  apply (run_total x c main sbc None None dbc md); auto. intros kf dp E. discriminate.
Qed.
Print Assumptions C139_returns_partial.

(** The same with colours, when the colour function returns keys it was given
    images for, and the first fitter is one of the weighted averages. *)
Theorem C139_colour_returns_partial : forall x c main sbc keyf dep dbc md,
  all_one_shape main (Some dep) -> main <> [] -> metacal_ok x c -> boxes_ok (st_meds c) -> known_box_type (st_meds c) -> sep_ok x ->
  third_returns x c -> unsheared_near x c main -> colours_return keyf dep main ->
  construct (st_conf c) (zlen main) true true sbc dbc = Ok md -> md_fitters md <> [] -> distinct_prefixes (md_fitters md) ->
  (forall f fs, md_fitters md = f :: fs -> fi_wavg f = true) ->
  (forall sb, In sb (md_shear md) -> good_bands (zlen main) sb) -> (forall db, In db (md_det md) -> good_bands (zlen main) db) ->
  exists o, do_metadetect x c main sbc (Some keyf) (Some dep) dbc = Ok o.
Proof.
  intros x c main sbc keyf dep dbc md H1 H2 H3 H4 H5 H6 H7 H8 H9 H10 H11 H12 H13 H14 H15.
  apply (run_total x c main sbc (Some keyf) (Some dep) dbc md); auto.
  intros kf dp E1 E2. apply Some_inj in E1. apply Some_inj in E2. subst kf dp. split; assumption.
Qed.
Print Assumptions C139_colour_returns_partial.

(** ** A concrete setting: two bands of 6x6 pixels with a masked pixel in the
    first, a shear step of 3/5. *)
Definition sep9 (d : option (img Q * Q * img bool)) : outcome (list (Z * detobj) * img Z) :=
  match d with
  | None => Ok ([], ifill 1 1 0)
  | Some (dim, w, mask) => Ok (if (6 <=? nr dim) && (6 <=? nc dim) then objs6 else [], ifill (nr dim) (nc dim) 0)
  end.
Definition unshear9 (t : string) (row col : Q) : Q * Q :=
  if String.eqb t "1p" then ((5 # 2) + 2 * (row - (5 # 2)), (5 # 2) + (1 # 2) * (col - (5 # 2)))%Q else (row, col).
Definition third9 : third :=
  mkThird sep9 read6 metacal6 (fun o => Summ_model.mkPsfres 0 (Some 1%Q) (Some (0%Q, 0%Q)) None)
    (fun f o => Ok (mom6 (px (f_image o) 1 1))) (fun f p => Ok (mom6 1))
    (mkNg 1 2 4) mk6 (fun q => q) (fun q => q) (fun _ => BootOther)
    (fun _ => Raise RuntimeError) (fun _ => Raise RuntimeError)
    (fun o t row col => Ok (unshear9 t row col)) (fun _ _ _ => (fun _ _ => 1%Q, fun _ _ => true)) (2355 # 1000).
Definition obs9 (q : Q) : obs :=
  mkObs (mkImg 6 6 (fun i j => if (i =? 3) && (j =? 3) then q else 1%Q)) (ifill 6 6 2%Q) (ifill 6 6 0) (ifill 6 6 0)
    (Some (mkImg 6 6 (fun i j => if (i =? 2) && (j =? 2) then 1%Q else 0%Q))) None 1 (ifill 3 3 1%Q).
Definition main9 : mbo := [[obs9 5]; [obs6 7 0]].
Definition settings9 (box : Z) : settings :=
  mkSettings (st_conf (settings6 0)) ["noshear"; "1p"] (mkMeds "iso_radius" 4 2 2 5 box box) None (Some 0) None None.
(** The unsheared positions are those of the package for this step. *)
Theorem C139_setting_unshears : forall row col r0 c0 sc, sc <> 0%R ->
  Shearpos_model.unshear_positions [(Q2R row, Q2R col)] "1p" (Shearpos_model.mkJac r0 c0 sc 0 0 sc) (6, 6)%R (3 / 5)%R =
  Ok [(Q2R (fst (unshear9 "1p" row col)), Q2R (snd (unshear9 "1p" row col)))].
Proof.
  intros row col r0 c0 sc Hs. rewrite unshear_1p; [|exact Hs|Lra.lra].
  replace (1 - 3 / 5 * (3 / 5))%R with ((4 / 5) * (4 / 5))%R by field. rewrite sqrt_square by Lra.lra.
  unfold unshear9. cbn [String.eqb Ascii.eqb Bool.eqb fst snd]. rewrite !Q2R_plus, !Q2R_mult, !Q2R_minus.
  replace (Q2R (5 # 2)) with (5 / 2)%R by (unfold Q2R; cbn [Qnum Qden]; field).
  replace (Q2R 2) with 2%R by (unfold Q2R; cbn [Qnum Qden]; field). replace (Q2R (1 # 2)) with (1 / 2)%R by (unfold Q2R; cbn [Qnum Qden]; field).
  f_equal. f_equal. f_equal; field.
Qed.
Print Assumptions C139_setting_unshears.
Lemma main9_shape : all_one_shape main9 None.
Proof.
  exists 6, 6. split; [|intros; discriminate]. split; [lia|]. split; [lia|].
  intros ol [<-|[<-|[]]]; eexists; (split; [reflexivity|]); cbn; repeat split; intros; discriminate.
Qed.
Lemma third9_metacal : forall b, metacal_ok third9 (settings9 b).
Proof. intros b. exact (metacal6_ok 0). Qed.
Lemma third9_sep : sep_ok third9.
Proof.
  split.
  - intros dim w mask objs seg n o H Hin. cbn [tp_sep third9 sep9] in H. apply Ok_inj, pair_equal_spec in H. destruct H as [<- _].
    destruct ((6 <=? nr dim) && (6 <=? nc dim)) eqn:E; [|destruct Hin]. apply Bool.andb_true_iff in E. destruct E as [E1 E2].
    apply Z.leb_le in E1. apply Z.leb_le in E2. unfold pos_in.
    destruct Hin as [X|[X|[X|[]]]]; injection X as <- <-; cbn [d_x d_y obj6]; unfold Qlt, Qle; cbn; lia.
  - intros objs seg H. cbn in H. congruence.
Qed.
Lemma third9_returns : forall b, third_returns third9 (settings9 b).
Proof.
  intros b. split; [|split; [|split; [|split; [|split]]]].
  - split; [intros [[[dim w] mask]|]; eexists; reflexivity|]. intros dim w mask objs seg H. cbn [tp_sep third9 sep9] in H.
    apply Ok_inj, pair_equal_spec in H. destruct H as [_ <-]. split; reflexivity.
  - intros wt cut e j pc p H. cbn [tp_read third9]. unfold read6.
    destruct (H "image") as (s1 & -> & _); [cbn; tauto|]. destruct (H "weight") as (s2 & -> & E1 & E2); [cbn; tauto|].
    destruct (H "bmask") as (s3 & -> & _); [cbn; tauto|]. cbn [obind]. eexists. split; [reflexivity|].
    intros o [<-|[]]. cbn [f_bmask f_psf f_weight nr nc imap]. split; [discriminate|]. split; [discriminate|]. congruence.
  - intros m. left. eexists. reflexivity.
  - intros o _. split; [discriminate|left; discriminate].
  - split; [intros f o; eexists; reflexivity|]. split; [intros f p; eexists; reflexivity|]. intros mb g p H. discriminate.
  - intros o t y xx _. eexists. reflexivity.
Qed.
Lemma near9 : unsheared_near third9 (settings9 8) main9.
Proof.
  intros o0 rest t y xx r' c' Em Ht Hp Hu. injection Em as <- <-. cbn [tp_unshear third9] in Hu. apply Ok_inj in Hu.
  destruct Hp as (P1 & P2 & P3 & P4). cbn [ob_image obs9 nr nc] in *. change (min_box_size (st_meds (settings9 8)) / 2) with 4.
  change (inject_Z (6 + 4)) with 10%Q. change (inject_Z 6) with 6%Q in P2, P4. unfold unshear9 in Hu.
  destruct (String.eqb t "1p"); apply pair_equal_spec in Hu; destruct Hu as [<- <-]; split; Lqa.lra.
Qed.
Definition bands9 : option (list (list Z)) := Some [[0; 1]; [1]].
Lemma made9 : forall b k, exists md, construct (st_conf (settings9 b)) (zlen main9) k k bands9 DetShear = Ok md /\
  md_fitters md <> [] /\ distinct_prefixes (md_fitters md) /\ (forall f fs, md_fitters md = f :: fs -> fi_wavg f = true) /\
  (forall sb, In sb (md_shear md) -> good_bands (zlen main9) sb) /\ (forall db, In db (md_det md) -> good_bands (zlen main9) db).
Proof.
  intros b k.
  assert (G : forall sb, In sb [[0; 1]; [1]] -> good_bands (zlen main9) sb).
  { intros sb [<-|[<-|[]]]; (split; [discriminate|]); (split; [|split; [cbn; lia|]]).
    - constructor; [intros [E|[]]; discriminate|constructor; [intros []|constructor]].
    - intros z [<-|[<-|[]]]; cbn; lia.
    - constructor; [intros []|constructor].
    - intros z [<-|[]]; cbn; lia. }
  destruct k; (eexists; split; [vm_compute; reflexivity|]; cbn [md_fitters md_shear md_det];
    split; [discriminate|]; split; [|split; [intros f fs E; injection E as <- _; reflexivity|split; exact G]];
    apply nodup_distinct; vm_compute; constructor; [intros [E|[]]; discriminate|constructor; [intros []|constructor]]).
Qed.

(** With stamps of 8 pixels the hypotheses hold, without and with colours. *)
Definition dep9 (k : Z) : option (cobs obs) := if k =? 1 then Some (Other main9) else Some SameObject.
Example C139_returns_example : all_one_shape main9 None /\ main9 <> [] /\ metacal_ok third9 (settings9 8) /\ boxes_ok (st_meds (settings9 8)) /\
  known_box_type (st_meds (settings9 8)) /\ sep_ok third9 /\ third_returns third9 (settings9 8) /\ unsheared_near third9 (settings9 8) main9 /\
  all_one_shape main9 (Some dep9) /\ colours_return key6 dep9 main9 /\
  (exists r, do_metadetect third9 (settings9 8) main9 bands9 None None DetShear = Ok (Some r) /\ map fst r = ["noshear"; "1p"]) /\
  exists r, do_metadetect third9 (settings9 8) main9 bands9 (Some key6) (Some dep9) DetShear = Ok (Some r) /\ map fst r = ["noshear"; "1p"].
Proof.
  split; [exact main9_shape|]. split; [discriminate|]. split; [apply third9_metacal|]. split; [unfold boxes_ok; cbn; lia|].
  split; [right; reflexivity|]. split; [exact third9_sep|]. split; [apply third9_returns|]. split; [exact near9|]. split.
  { destruct main9_shape as (r & c & H & _). exists r, c. split; [exact H|]. intros d k m E H'. apply Some_inj in E. subst d. unfold dep9 in H'.
    destruct (k =? 1); [|discriminate]. apply Some_inj in H'. injection H' as <-. exact H. }
  split.
  { split.
    - intros fl. destruct fl as [|[q|] l]; cbn [key6]; eexists; (split; [reflexivity|]); intros k _; unfold dep9; destruct (k =? 1); discriminate.
    - intros k m H. unfold dep9 in H. destruct (k =? 1); [|discriminate]. apply Some_inj in H. injection H as <-. reflexivity. }
  split; eexists; (split; [vm_compute; reflexivity|reflexivity]).
Qed.

(** The full claim is false: with stamps of 2 pixels the same call raises a
    ValueError, from the masked fraction at the unsheared position of the object
    in the last row. Every other hypothesis holds. *)
Theorem C139_returns_refuted : exists x c main sbc dbc md,
  all_one_shape main None /\ main <> [] /\ metacal_ok x c /\ boxes_ok (st_meds c) /\ known_box_type (st_meds c) /\ sep_ok x /\
  third_returns x c /\ construct (st_conf c) (zlen main) false false sbc dbc = Ok md /\ md_fitters md <> [] /\ distinct_prefixes (md_fitters md) /\
  (forall sb, In sb (md_shear md) -> good_bands (zlen main) sb) /\ (forall db, In db (md_det md) -> good_bands (zlen main) db) /\
  do_metadetect x c main sbc None None dbc = Raise ValueError.
Proof.
  destruct (made9 2 false) as (md & M1 & M2 & M3 & _ & M4 & M5). exists third9, (settings9 2), main9, bands9, DetShear, md.
  split; [exact main9_shape|]. split; [discriminate|]. split; [apply third9_metacal|]. split; [unfold boxes_ok; cbn; lia|].
  split; [right; reflexivity|]. split; [exact third9_sep|]. split; [apply third9_returns|].
  split; [exact M1|]. split; [exact M2|]. split; [exact M3|]. split; [exact M4|]. split; [exact M5|]. vm_compute. reflexivity.
Qed.
Print Assumptions C139_returns_refuted.

(** It happens for the default step 0.01 and stamps of 32 pixels too, for images
    of 3600 to 9000 rows: the unsheared row of an object in the last row has an
    integer part for which measure_mfrac raises, whatever the images are. *)
Theorem C139_large_image : forall N col dc r0 c0 sc, (3600 <= N <= 9000)%Z -> sc <> 0%R ->
  exists r' c' n, Shearpos_model.unshear_positions [(IZR (N - 1), col)] "1p" (Shearpos_model.mkJac r0 c0 sc 0 0 sc) (IZR N, dc) (1 / 100)%R = Ok [(r', c')] /\
    (IZR n <= r' < IZR (n + 1))%R /\
    forall mf bm g near y xx, nr mf = N -> (inject_Z n <= y)%Q -> (y < inject_Z (n + 1))%Q ->
      measure_mfrac mf bm [(y, xx, 32, (g, near))] = Raise ValueError.
Proof.
  intros N col dc r0 c0 sc HN Hs. destruct (large_far N col dc r0 c0 sc HN Hs) as (r' & c' & n & E & B & F). exists r', c', n.
  split; [exact E|]. split; [exact B|]. intros mf bm g near y xx Hm H1 H2. unfold measure_mfrac. cbn [omap].
  rewrite (far_raises mf bm g near y xx 32 n); [reflexivity|lia|lia|exact H1|exact H2|rewrite Hm; exact F|].
  change (32 / 2) with 16 in F. lia.
Qed.
Print Assumptions C139_large_image.
