(** C88, C89: do_metadetect end to end. *)
From Coq Require Import ZArith QArith Qabs List String Bool Lia.
From Verif Require Import Base Arr Median Flags_model Detect_model Detect_spec Summ_model Coadd_model Wavg_model Wavg_spec
  Joint_model Conf_model Mdet_model Mdet_spec Mcol_spec Mrun_model Mrun_spec Mrun_proofs.
Import ListNotations.
Local Open Scope string_scope.
Local Open Scope Z_scope.

(** ** C88 *)

(** Without colours: one table per requested type. The table of a type lists, for
    the pairs of shear and detection bands in order, the objects found in the
    detection bands of that type's images, each measured with every fitter on the
    stamps cut from that type's images; it is None without any object. Fitters of a
    table with rows have different column prefixes. *)
Theorem C88_rows : forall x c main sbc dbc r,
  all_one_shape main None -> metacal_ok x c -> boxes_ok (st_meds c) -> sep_ok x ->
  do_metadetect x c main sbc None None dbc = Ok (Some r) ->
  exists md mcal, construct (st_conf c) (zlen main) false false sbc dbc = Ok md /\ tp_metacal x main = Ok mcal /\
    NoDup (map fst r) /\ (forall t, In t (map fst r) <-> In t (st_types c)) /\
    (forall t, In t (map fst mcal) <-> In t (st_types c)) /\
    forall t m, In (t, m) mcal -> exists blocks,
      Forall2 (block x c md main None t m) (combine (md_shear md) (md_det md)) blocks /\
      table r t = Some (match List.concat blocks with [] => None | l => Some l end).
Proof. exact run_rows. Qed.
Print Assumptions C88_rows.

(** With colours: the objects are found in the main images of the type, the
    colour of each comes from its stamps there, and it is measured on the
    images of its colour. *)
Theorem C88_colour_rows : forall x c main sbc keyf dep dbc r,
  all_one_shape main (Some dep) -> metacal_ok x c -> boxes_ok (st_meds c) -> sep_ok x ->
  do_metadetect x c main sbc (Some keyf) (Some dep) dbc = Ok (Some r) ->
  exists md mcal, construct (st_conf c) (zlen main) true true sbc dbc = Ok md /\ tp_metacal x main = Ok mcal /\
    NoDup (map fst r) /\ (forall t, In t (map fst r) <-> In t (st_types c)) /\
    (forall t, In t (map fst mcal) <-> In t (st_types c)) /\
    forall t m, In (t, m) mcal -> exists blocks,
      Forall2 (colour_block x c md main (Some (keyf, dep)) keyf t m) (combine (md_shear md) (md_det md)) blocks /\
      table r t = Some (match List.concat blocks with [] => None | l => Some l end).
Proof. exact run_colour_rows. Qed.
Print Assumptions C88_colour_rows.

(** A call that returns gives None exactly when the main images have no usable
    pixel, an observation without weight or an excluded one, or metacal failed
    on a PSF. *)
Theorem C88_none : forall x c main sbc keyf dep dbc o, all_one_shape main dep ->
  do_metadetect x c main sbc keyf dep dbc = Ok o ->
  exists md, construct (st_conf c) (zlen main) (has keyf) (has dep) sbc dbc = Ok md /\
    let e := environment x c md main (color_arg keyf dep) in
    (o = None <-> no_usable_pixel sob e \/ zero_weight_observation sob e \/ excluded_observation sob e \/
       tp_metacal x main = Raise BootPSFFailure).
Proof. exact run_none. Qed.
Print Assumptions C88_none.

(** A rejected configuration ends the call with that exception. *)
Theorem C88_rejects : forall x c main sbc keyf dep dbc ex,
  construct (st_conf c) (zlen main) (has keyf) (has dep) sbc dbc = Raise ex ->
  do_metadetect x c main sbc keyf dep dbc = Raise ex.
Proof. intros x c main sbc keyf dep dbc ex H. unfold do_metadetect. rewrite H. reflexivity. Qed.
Print Assumptions C88_rejects.

(** Colours that all lead to the content of the main images change nothing: a
    call that succeeds without them succeeds with them, with the same tables. The
    first fitter is of the averaging kind with symmetrized weights, stamps do not
    use the segmentation map. *)
Theorem C88_colour_same : forall x c main sbc keyf dep dbc md f0 fs r,
  all_one_shape main (Some dep) -> metacal_ok x c ->
  (st_weight_type c = None \/ st_weight_type c = Some "weight") -> reader_weight x ->
  construct (st_conf c) (zlen main) false false sbc dbc = Ok md ->
  md_fitters md = f0 :: fs -> fi_wavg f0 = true -> fi_symm f0 = true ->
  (forall fl, exists key, keyf fl = Ok key /\
     (key = None \/ exists k, key = Some k /\ (dep k = Some SameObject \/ dep k = Some (Other main)))) ->
  do_metadetect x c main sbc None None dbc = Ok r ->
  exists r2, do_metadetect x c main sbc (Some keyf) (Some dep) dbc = Ok r2 /\ result_eqv r2 r.
Proof. exact run_colour_same. Qed.
Print Assumptions C88_colour_same.

(** ** C89 *)

(** Every row belongs to an object; for each of its fits without flag, in every
    band the stamp of the object in that type's images has no forbidden bit, and when the edge bit 2^30 is forbidden the stamp lies in the image. *)
Theorem C89_clean : forall x c main sbc dbc r t rows dr,
  all_one_shape main None -> metacal_ok x c -> boxes_ok (st_meds c) -> sep_ok x -> reader_ok x ->
  do_metadetect x c main sbc None None dbc = Ok (Some r) -> table r t = Some (Some rows) -> In dr rows ->
  exists md mcal m sb db o, construct (st_conf c) (zlen main) false false sbc dbc = Ok md /\ tp_metacal x main = Ok mcal /\
    In (t, m) mcal /\ In (sb, db) (combine (md_shear md) (md_det md)) /\
    x_row (r_extra dr) = d_y o /\ x_col (r_extra dr) = d_x o /\
    forall f fr, In (f, fr) (combine (md_fitters md) (r_fits dr)) -> o_flags fr = 0 ->
      exists b, stamp_size x (st_meds c) o b /\
        forall ob, In [ob] m ->
          stamp_clean (bmask_flags c) (x_row (r_extra dr)) (x_col (r_extra dr)) b ob /\
          (Z.testbit (bmask_flags c) 30 = true -> stamp_inside (x_row (r_extra dr)) (x_col (r_extra dr)) b ob).
Proof. exact run_clean. Qed.
Print Assumptions C89_clean.

(** ** A concrete setting: two bands of 6x6 pixels, three objects: one inside, one
    at the low edge, one at the high edge. *)
Definition obj6 (y xx : Q) : detobj := mkDet xx y 0 1 0 1 1 1 1 1.
Definition objs6 : list (Z * detobj) := [(1, obj6 3 3); (2, obj6 0 1); (3, obj6 5 2)].
Definition seg6 : img Z := mkImg 6 6 (fun i j => if (i =? 3) && (j =? 3) then 1 else 0).
Definition sep6 (d : option (img Q * Q * img bool)) : outcome (list (Z * detobj) * img Z) :=
  match d with
  | None => Ok ([], seg6)
  | Some (dim, w, mask) => Ok (if (6 <=? nr dim) && (6 <=? nc dim) then objs6 else [], seg6)
  end.
Definition read6 (wt : string) (cut : string -> outcome (img Detect_model.num)) (e : cat_entry) (jac : Z) (pc : Q * Q)
  (p : img Q) : outcome (list fobs) :=
  do im <- cut "image"; do w <- cut "weight"; do b <- cut "bmask";
  Ok [mkFobs (imap num_q im) (imap num_q w) jac (Some (mkPsf p p jac)) None None (Some (imap num_z b)) None].
Definition brighter (o : obs) : obs :=
  mkObs (imap (fun q => q + 1)%Q (ob_image o)) (ob_weight o) (ob_bmask o) (ob_ormask o) (ob_mfrac o) (ob_noise o)
    (ob_jac o) (ob_psf o).
Definition metacal6 (m : mbo) : outcome (list (string * mbo)) :=
  Ok [("noshear", m); ("1p", map (map brighter) m)].
Definition mom6 (q : Q) : fitres :=
  mkFit 0 (Some (fun i => Some (if Nat.leb 4 i then q else q / 10)%Q))
    (Some (fun i j => Some (if Nat.eqb i j then 1 else 0)%Q)) None (Some (Some q)) (Some (Some 1%Q)) (Some 0).
Definition mk6 (m : vec) (cv : mat) : momresult :=
  mkMom (ndiv (m 2%nat) (m 4%nat)) (ndiv (m 3%nat) (m 4%nat)) (fun i j => cv i j) (ndiv (m 4%nat) (m 5%nat)) (Some 1%Q) 0 0 0.
Definition third6 : third :=
  mkThird sep6 read6 metacal6 (fun o => Summ_model.mkPsfres 0 (Some 1%Q) (Some (0%Q, 0%Q)) None)
    (fun f o => Ok (mom6 (px (f_image o) 1 1))) (fun f p => Ok (mom6 1))
    (mkNg 1 2 4) mk6 (fun q => q) (fun q => q) (fun _ => BootOther)
    (fun _ => Raise RuntimeError) (fun _ => Raise RuntimeError)
    (fun o t row col => Ok (row, (col + (1 # 10))%Q)) (fun _ _ _ => (fun _ _ => 1%Q, fun _ _ => true)) (2355 # 1000).
Definition obs6 (q : Q) (bits : Z) : obs :=
  mkObs (mkImg 6 6 (fun i j => if (i =? 3) && (j =? 3) then q else 1%Q)) (ifill 6 6 2%Q)
    (mkImg 6 6 (fun i j => if (i =? 5) && (j =? 0) then bits else 0)) (ifill 6 6 0) None None 1 (ifill 3 3 1%Q).
Definition main6 : mbo := [[obs6 5 1]; [obs6 7 0]].
Definition settings6 (flags : Z) : settings :=
  mkSettings (mkConfig true true None
      (Some [mkFc (Some "wmom") (Some (mkW (Some (12 # 10)) None None)) None None;
             mkFc (Some "pgauss") (Some (mkW (Some 2%Q) None (Some (1 # 2)))) None None])
      (mkFc None None None None))
    ["noshear"; "1p"] (mkMeds "iso_radius" 4 2 2 5 4 4) None (Some flags) None None.

Lemma obs6_shape : forall q b q' b', has_shape [[obs6 q b]; [obs6 q' b']] 6 6.
Proof.
  intros q b q' b'. split; [lia|]. split; [lia|]. intros ol [<-|[<-|[]]]; eexists; (split; [reflexivity|]); cbn;
    repeat split; intros; discriminate.
Qed.
Lemma metacal6_ok : forall fl, metacal_ok third6 (settings6 fl).
Proof.
  intros fl m d H. apply Ok_inj in H. subst d. split; [|split].
  - cbn. constructor; [intros [E|[]]; discriminate|constructor; [intros []|constructor]].
  - intros t. reflexivity.
  - intros t m' [E|[E|[]]]; injection E as <- <-; (split; [unfold zlen; rewrite ?map_length; reflexivity|]); intros r c' Hs; [exact Hs|].
    destruct Hs as (H1 & H2 & Hs). split; [exact H1|]. split; [exact H2|]. intros ol Hol. apply in_map_iff in Hol.
    destruct Hol as (ol' & <- & Hin). destruct (Hs ol' Hin) as (o & -> & K). exists (brighter o). split; [reflexivity|]. exact K.
Qed.
Lemma sep6_ok : sep_ok third6.
Proof.
  split.
  - intros dim w mask objs seg n o H Hin. cbn [tp_sep third6 sep6] in H. apply Ok_inj, pair_equal_spec in H. destruct H as [<- _].
    destruct ((6 <=? nr dim) && (6 <=? nc dim)) eqn:E; [|destruct Hin]. apply Bool.andb_true_iff in E. destruct E as [E1 E2].
    apply Z.leb_le in E1. apply Z.leb_le in E2. unfold pos_in.
    destruct Hin as [X|[X|[X|[]]]]; injection X as <- <-; cbn [d_x d_y obj6]; unfold Qlt, Qle; cbn; lia.
  - intros objs seg H. cbn in H. congruence.
Qed.
Lemma read6_ok : reader_ok third6.
Proof.
  intros wt cut e j pc p l o H Hin. cbn [tp_read third6] in H. unfold read6 in H.
  destruct (cut "image") as [im|]; [|discriminate]. destruct (cut "weight") as [w|]; [|discriminate].
  destruct (cut "bmask") as [b|]; [|discriminate]. cbn [obind] in H. apply Ok_inj in H. subst l.
  destruct Hin as [<-|[]]. exists b. split; reflexivity.
Qed.
Lemma read6_weight : reader_weight third6.
Proof.
  intros cut cut' e e' j pc p H _. cbn [tp_read third6]. unfold read6.
  rewrite (H "image"), (H "weight"), (H "bmask") by discriminate. reflexivity.
Qed.
Lemma boxes6_ok : forall fl, boxes_ok (st_meds (settings6 fl)).
Proof. intros fl. cbn. unfold boxes_ok. cbn. lia. Qed.

(** Positions, object flags and first band fluxes of the tables. *)
Definition shown (o : outcome (option (results row))) :=
  match o with
  | Ok (Some r) => Some (map (fun kv => (fst kv, match snd kv with
      | None => []
      | Some l => map (fun d => (Qred (x_row (r_extra d)), Qred (x_col (r_extra d)), map (fun f => (o_flags f, map (fun n => match n with Some q => Some (Qred q) | None => None end) (o_band_flux f))) (r_fits d))) l
      end)) r)
  | _ => None
  end.
Definition run6 (flags : Z) (main : mbo) (keyf : option keyfun) (dep : option colours) :=
  do_metadetect third6 (settings6 flags) main (Some [[0; 1]; [1]]) keyf dep DetShear.
Definition flags_of (o : outcome (option (results row))) : option (list (list bool)) :=
  match o with
  | Ok (Some r) => match table r "noshear" with Some (Some l) => Some (map (fun d => map (fun f => o_flags f =? 0) (r_fits d)) l) | _ => None end
  | _ => None
  end.
Definition second_row (o : outcome (option (results row))) : option (list Z * Z) :=
  match o with
  | Ok (Some r) => match table r "noshear" with
                   | Some (Some (_ :: d :: _)) => Some (map o_flags (r_fits d), qtrunc (x_row (r_extra d)))
                   | _ => None
                   end
  | _ => None
  end.
Definition is_table (o : outcome (option (results row))) : bool := match o with Ok (Some _) => true | _ => false end.
Lemma table_of : forall o, is_table o = true -> exists r, o = Ok (Some r).
Proof. intros [[r|]|e] H; try discriminate H. exists r. reflexivity. Qed.
Lemma none_shape : all_one_shape main6 None.
Proof. exists 6, 6. split; [apply obs6_shape|]. intros d k m H. discriminate. Qed.

Example C88_rows_example :
  all_one_shape main6 None /\ metacal_ok third6 (settings6 (2 ^ 30)) /\ boxes_ok (st_meds (settings6 (2 ^ 30))) /\ sep_ok third6 /\
  exists r, run6 (2 ^ 30) main6 None None = Ok (Some r) /\
  shown (Ok (Some r)) = Some
    [("noshear", [(3%Q, 3%Q, [(0, [Some 5%Q; Some 7%Q]); (0, [Some 5%Q; Some 7%Q])]);
                  (0%Q, 1%Q, [(0, [Some 1%Q; Some 1%Q]); (0, [Some 1%Q; Some 1%Q])]);
                  (5%Q, 2%Q, [(170917888, [None; None]); (170917888, [None; None])]);
                  (3%Q, 3%Q, [(0, [Some 5%Q; Some 7%Q]); (0, [Some 5%Q; Some 7%Q])]);
                  (0%Q, 1%Q, [(0, [Some 1%Q; Some 1%Q]); (0, [Some 1%Q; Some 1%Q])]);
                  (5%Q, 2%Q, [(170917888, [None; None]); (170917888, [None; None])])]);
     ("1p", [(3%Q, 3%Q, [(0, [Some 6%Q; Some 8%Q]); (0, [Some 6%Q; Some 8%Q])]);
             (0%Q, 1%Q, [(0, [Some 2%Q; Some 2%Q]); (0, [Some 2%Q; Some 2%Q])]);
             (5%Q, 2%Q, [(170917888, [None; None]); (170917888, [None; None])]);
             (3%Q, 3%Q, [(0, [Some 6%Q; Some 8%Q]); (0, [Some 6%Q; Some 8%Q])]);
             (0%Q, 1%Q, [(0, [Some 2%Q; Some 2%Q]); (0, [Some 2%Q; Some 2%Q])]);
             (5%Q, 2%Q, [(170917888, [None; None]); (170917888, [None; None])])])].
Proof.
  split; [exact none_shape|]. split; [apply metacal6_ok|]. split; [apply boxes6_ok|]. split; [exact sep6_ok|].
  destruct (table_of (run6 (2 ^ 30) main6 None None)) as [r E]; [vm_compute; reflexivity|].
  exists r. split; [exact E|]. rewrite <- E. vm_compute. reflexivity.
Qed.

(** The prefixes of its fitters, and how numbers are written. *)
Definition bases6 : list (string * option Q) :=
  match construct (st_conf (settings6 0)) 2 false false (Some [[0; 1]; [1]]) DetShear with
  | Ok md => map (fun f => (fi_base f, fi_suffix f)) (md_fitters md)
  | Raise _ => []
  end.
Example C88_prefix_example :
  bases6 = [("wmom", None); ("pgauss", Some (1 # 2)%Q)] /\
  (forall f, fi_base f = "wmom" -> fi_suffix f = None -> prefix f "wmom") /\
  (forall f, fi_base f = "pgauss" -> fi_suffix f = Some (1 # 2)%Q -> prefix f "pgauss_reg0.50") /\
  (forall f, fi_base f = "admom" -> prefix f "am") /\
  number_text (1234 # 1000) "1.23" /\ number_text (125 # 1000) "0.12" /\ number_text (- (1 # 1000)) "-0.00".
Proof.
  assert (T : number_text (1 # 2) "0.50").
  { exists 50, "0". split; [lia|]. split; [split; [discriminate|intros H; discriminate H]|]. split; [reflexivity|].
    left. split; [discriminate|reflexivity]. }
  split; [vm_compute; reflexivity|]. split; [|split; [|split; [|split; [|split]]]].
  - intros f E1 E2. right. left. split; [rewrite E1; discriminate|]. split; [exact E2|symmetry; exact E1].
  - intros f E1 E2. right. right. split; [rewrite E1; discriminate|]. exists (1 # 2)%Q, "0.50".
    split; [exact E2|]. split; [exact T|]. rewrite E1. reflexivity.
  - intros f E. left. split; [exact E|reflexivity].
  - exists 123, "1". split; [lia|]. split; [split; [discriminate|intros H; discriminate H]|]. split; [reflexivity|].
    left. split; [discriminate|reflexivity].
  - exists 12, "0". split; [lia|]. split; [split; [discriminate|intros _; reflexivity]|]. split; [reflexivity|].
    left. split; [discriminate|reflexivity].
  - exists 0, "0". split; [lia|]. split; [split; [discriminate|intros H; discriminate H]|]. split; [reflexivity|].
    right. split; [reflexivity|reflexivity].
Qed.

(** The bright object has another colour than the other two. *)
Definition red6 : mbo := [[obs6 50 0]; [obs6 70 0]].
Definition key6 (fl : list Wavg_model.num) : outcome (option Z) :=
  match fl with Some q :: _ => Ok (if Qle_bool 3 q then Some 1 else None) | _ => Ok (Some 2) end.
Definition dep6 (k : Z) : option (cobs obs) := if k =? 1 then Some (Other red6) else Some SameObject.
Lemma dep6_shape : all_one_shape main6 (Some dep6).
Proof.
  exists 6, 6. split; [apply obs6_shape|]. intros d k m H H'. apply Some_inj in H. subst d. unfold dep6 in H'.
  destruct (k =? 1); [|discriminate]. apply Some_inj in H'. injection H' as <-. apply obs6_shape.
Qed.
Example C88_colour_example : all_one_shape main6 (Some dep6) /\
  exists r, run6 (2 ^ 30) main6 (Some key6) (Some dep6) = Ok (Some r) /\
  shown (Ok (Some r)) = Some
    [("noshear", [(3%Q, 3%Q, [(0, [Some 50%Q; Some 70%Q]); (0, [Some 50%Q; Some 70%Q])]);
                  (0%Q, 1%Q, [(0, [Some 1%Q; Some 1%Q]); (0, [Some 1%Q; Some 1%Q])]);
                  (5%Q, 2%Q, [(170917888, [None; None]); (170917888, [None; None])]);
                  (3%Q, 3%Q, [(0, [Some 50%Q; Some 70%Q]); (0, [Some 50%Q; Some 70%Q])]);
                  (0%Q, 1%Q, [(0, [Some 1%Q; Some 1%Q]); (0, [Some 1%Q; Some 1%Q])]);
                  (5%Q, 2%Q, [(170917888, [None; None]); (170917888, [None; None])])]);
     ("1p", [(3%Q, 3%Q, [(0, [Some 51%Q; Some 71%Q]); (0, [Some 51%Q; Some 71%Q])]);
             (0%Q, 1%Q, [(0, [Some 2%Q; Some 2%Q]); (0, [Some 2%Q; Some 2%Q])]);
             (5%Q, 2%Q, [(170917888, [None; None]); (170917888, [None; None])]);
             (3%Q, 3%Q, [(0, [Some 51%Q; Some 71%Q]); (0, [Some 51%Q; Some 71%Q])]);
             (0%Q, 1%Q, [(0, [Some 2%Q; Some 2%Q]); (0, [Some 2%Q; Some 2%Q])]);
             (5%Q, 2%Q, [(170917888, [None; None]); (170917888, [None; None])])])].
Proof.
  split; [exact dep6_shape|].
  destruct (table_of (run6 (2 ^ 30) main6 (Some key6) (Some dep6))) as [r E]; [vm_compute; reflexivity|].
  exists r. split; [exact E|]. rewrite <- E. vm_compute. reflexivity.
Qed.

(** Both answers of C88_none; a rejected configuration. *)
Definition no_weight6 : mbo := [[obs6 5 0]; [mkObs (ifill 6 6 1%Q) (ifill 6 6 0%Q) (ifill 6 6 0) (ifill 6 6 0) None None 1 (ifill 3 3 1%Q)]].
Example C88_none_example : all_one_shape no_weight6 None /\ run6 0 no_weight6 None None = Ok None /\
  exists r, run6 0 main6 None None = Ok (Some r).
Proof.
  split.
  { exists 6, 6. split; [|intros; discriminate]. split; [lia|]. split; [lia|].
    intros ol [<-|[<-|[]]]; eexists; (split; [reflexivity|]); cbn; repeat split; intros; discriminate. }
  split; [vm_compute; reflexivity|]. destruct (table_of (run6 0 main6 None None)) as [r E]; [vm_compute; reflexivity|].
  exists r. exact E.
Qed.
Example C88_rejects_example : construct (st_conf (settings6 0)) (zlen main6) (has (Some key6)) (has (@None colours)) None DetNone = Raise RuntimeError.
Proof. reflexivity. Qed.
(** Colours with the main content, reached in three ways. *)
Definition same6 (k : Z) : option (cobs obs) := if k =? 1 then Some (Other main6) else Some SameObject.
Example C88_colour_same_example : all_one_shape main6 (Some same6) /\ reader_weight third6 /\
  (forall fl, exists key, key6 fl = Ok key /\
     (key = None \/ exists k, key = Some k /\ (same6 k = Some SameObject \/ same6 k = Some (Other main6)))) /\
  exists md f0 fs r, construct (st_conf (settings6 (2 ^ 30))) (zlen main6) false false (Some [[0; 1]; [1]]) DetShear = Ok md /\
    md_fitters md = f0 :: fs /\ fi_wavg f0 = true /\ fi_symm f0 = true /\ run6 (2 ^ 30) main6 None None = Ok (Some r).
Proof.
  split.
  { exists 6, 6. split; [apply obs6_shape|]. intros d k m H H'. apply Some_inj in H. subst d. unfold same6 in H'.
    destruct (k =? 1); [|discriminate]. apply Some_inj in H'. injection H' as <-. apply obs6_shape. }
  split; [exact read6_weight|]. split.
  { intros fl. destruct fl as [|[q|] l]; cbn [key6].
    - eexists. split; [reflexivity|]. right. exists 2. split; [reflexivity|]. left. reflexivity.
    - destruct (Qle_bool 3 q); eexists; (split; [reflexivity|]); [right|left; reflexivity]. exists 1. split; [reflexivity|]. right. reflexivity.
    - eexists. split; [reflexivity|]. right. exists 2. split; [reflexivity|]. left. reflexivity. }
  destruct (table_of (run6 (2 ^ 30) main6 None None)) as [r E]; [vm_compute; reflexivity|].
  do 4 eexists. split; [reflexivity|]. split; [reflexivity|]. split; [reflexivity|]. split; [reflexivity|exact E].
Qed.

(** C89: the row at the high edge is flagged, the one inside is not; a forbidden
    bit of one shear band flags the object whose stamp has it. *)
Example C89_example : reader_ok third6 /\
  flags_of (run6 (2 ^ 30) main6 None None) =
    Some [[true; true]; [true; true]; [false; false]; [true; true]; [true; true]; [false; false]] /\
  flags_of (run6 1 [[obs6 5 1]; [mkObs (ifill 6 6 1%Q) (ifill 6 6 1%Q)
      (mkImg 6 6 (fun i j => if (i =? 0) && (j =? 3) then 1 else 0)) (ifill 6 6 0) None None 1 (ifill 3 3 1%Q)]] None None) =
    Some [[true; true]; [false; false]; [false; false]; [true; true]; [false; false]; [false; false]].
Proof. split; [exact read6_ok|]. split; vm_compute; reflexivity. Qed.

(** The stronger claim, that an unflagged object has the stamp centred on it
    inside of the image, is false: near the low edges the stamp is moved instead
    of being filled. *)
Theorem C89_centred_refuted : exists x c main r rows dr, all_one_shape main None /\ metacal_ok x c /\ boxes_ok (st_meds c) /\
  sep_ok x /\ reader_ok x /\ Z.testbit (bmask_flags c) 30 = true /\
  do_metadetect x c main (Some [[0; 1]; [1]]) None None DetShear = Ok (Some r) /\ table r "noshear" = Some (Some rows) /\ In dr rows /\
  (forall fr, In fr (r_fits dr) -> o_flags fr = 0) /\ r_fits dr <> [] /\
  (forall o b, stamp_size x (st_meds c) o b -> b = 4) /\ qtrunc (x_row (r_extra dr)) - 4 / 2 + 1 < 0.
Proof.
  exists third6, (settings6 (2 ^ 30)), main6.
  destruct (table_of (run6 (2 ^ 30) main6 None None)) as [r E]; [vm_compute; reflexivity|].
  assert (T : second_row (Ok (Some r)) = Some ([0; 0], 0)) by (rewrite <- E; vm_compute; reflexivity).
  unfold second_row in T. destruct (table r "noshear") as [[[|a [|b d]]|]|] eqn:Et; try discriminate T.
  apply Some_inj, pair_equal_spec in T. destruct T as [Hf Hx]. exists r, (a :: b :: d), b.
  split; [exact none_shape|]. split; [apply metacal6_ok|]. split; [apply boxes6_ok|]. split; [exact sep6_ok|]. split; [exact read6_ok|].
  split; [reflexivity|]. split; [exact E|]. split; [exact Et|]. split; [right; left; reflexivity|].
  split.
  { clear - Hf. intros fr Hin. destruct (r_fits b) as [|f1 [|f2 [|]]]; try discriminate Hf. injection Hf as F1 F2. destruct Hin as [<-|[<-|[]]]; assumption. }
  split; [intros X; rewrite X in Hf; discriminate Hf|]. split.
  { intros o bb (want & _ & ([[Hi Hb]|Hb] & _)); cbn in Hb; lia. }
  rewrite Hx. reflexivity.
Qed.
Print Assumptions C89_centred_refuted.
