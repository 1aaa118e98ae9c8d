(** C138: moving the sky by whole pixels moves the objects and changes no fit. *)
From Coq Require Import ZArith QArith List String Bool Lia.
From Verif Require Import Base Arr Median Flags_model Detect_model Detect_spec Summ_model Coadd_model Wavg_model Wavg_spec
  Joint_model Conf_model Mdet_model Mdet_spec Mcol_spec Mrun_model Mrun_spec Mrun_proofs Mrun_props Mlocal_spec Mlocal_proofs Mlocal_props
  Mmove_spec Mmove_proofs.
Import ListNotations.
Local Open Scope string_scope.
Local Open Scope Z_scope.

(** Two calls of do_metadetect, on images that may have different sizes, without
    colours. An object of a type that is found in both calls, in the second [dr]
    rows and [dc] columns further on, has the same fits in both tables, and its
    position moves with it, if its stamps lie in the images and the pixels under
    them are the same. *)
Theorem C138_runs : forall dr dc x c main main' sbc dbc r r',
  reader_moves x -> metacal_ok x c -> boxes_ok (st_meds c) -> sep_ok x ->
  all_one_shape main None -> all_one_shape main' None -> zlen main = zlen main' ->
  do_metadetect x c main sbc None None dbc = Ok (Some r) -> do_metadetect x c main' sbc None None dbc = Ok (Some r') ->
  exists md mcal mcal', construct (st_conf c) (zlen main) false false sbc dbc = Ok md /\
    tp_metacal x main = Ok mcal /\ tp_metacal x main' = Ok mcal' /\
    forall t m m', In (t, m) mcal -> In (t, m') mcal' -> exists blocks blocks',
      table r t = Some (match List.concat blocks with [] => None | l => Some l end) /\
      table r' t = Some (match List.concat blocks' with [] => None | l => Some l end) /\
      List.length blocks = List.length (combine (md_shear md) (md_det md)) /\
      List.length blocks' = List.length (combine (md_shear md) (md_det md)) /\
      forall k sd rows rows', nth_error (combine (md_shear md) (md_det md)) k = Some sd ->
        nth_error blocks k = Some rows -> nth_error blocks' k = Some rows' ->
        exists objs seg objs' seg', found x (md_nodet md) m (snd sd) objs seg /\ found x (md_nodet md) m' (snd sd) objs' seg' /\
          List.length rows = List.length objs /\ List.length rows' = List.length objs' /\
          forall i i' no no' o o' w w' b, nth_error objs i = Some no -> nth_error objs' i' = Some no' ->
            nth_error rows i = Some w -> nth_error rows' i' = Some w' ->
            fst no' = fst no -> moved_object dr dc (snd no) (snd no') -> stamp_size x (st_meds c) (snd no) b ->
            In [o] m -> In [o'] m' ->
            fits_in (nr (ob_image o)) (d_y (snd no)) b -> fits_in (nc (ob_image o)) (d_x (snd no)) b ->
            fits_in (nr (ob_image o')) (d_y (snd no')) b -> fits_in (nc (ob_image o')) (d_x (snd no')) b ->
            moved_stamps dr dc (d_y (snd no)) (d_x (snd no)) b seg seg' m m' ->
            row_moved dr dc w w'.
Proof. exact runs_move. Qed.
Print Assumptions C138_runs.

(** The same for single rows (C88), also with colours. *)
Theorem C138_row : forall dr dc x c md main main' color color' key key' sb db db' t t' m m' seg seg' n no no' r r' b R C R' C',
  reader_moves x -> has_shape m R C -> has_shape m' R' C' -> moved_object dr dc (snd no) (snd no') ->
  stamp_size x (st_meds c) (snd no) b ->
  fits_in R (d_y (snd no)) b -> fits_in C (d_x (snd no)) b -> fits_in R' (d_y (snd no')) b -> fits_in C' (d_x (snd no')) b ->
  moved_stamps dr dc (d_y (snd no)) (d_x (snd no)) b seg seg' m m' ->
  object_row x c md main color key sb db t m seg n no r ->
  object_row x c md main' color' key' sb db' t' m' seg' n no' r' -> row_moved dr dc r r'.
Proof. exact row_move. Qed.
Print Assumptions C138_row.

(** A detector that finds the bright pixels, with the fitters of Mrun_props: a star at (3, 3)
    of 6x6 pixels, and the same star at (5, 4) of 8x8 pixels. *)
Definition bright (d : img Q) (ij : Z * Z) : bool := Qle_bool 3 (px d (fst ij) (snd ij)).
Definition obj8 (i j : Z) : detobj := mkDet (inject_Z j) (inject_Z i) j j i i 1 1 1 1.
Definition seg8 (d : img Q) : img Z := mkImg (nr d) (nc d) (fun i j => if bright d (i, j) then 1 else 0).
Definition sep8 (d : option (img Q * Q * img bool)) : outcome (list (Z * detobj) * img Z) :=
  match d with
  | None => Ok ([], ifill 0 0 0)
  | Some (dim, w, mask) => Ok (map (fun ij => (1, obj8 (fst ij) (snd ij))) (filter (bright dim) (coords (nr dim) (nc dim))), seg8 dim)
  end.
Definition third8 : third :=
  mkThird sep8 read7 (tp_metacal third6) (tp_psf third6) (tp_go third6) (tp_go_psf third6) (tp_ng third6) (tp_mk third6)
    (tp_toT third6) (tp_sqrt third6) (tp_boot third6) (tp_am_psf third6) (tp_am third6) (tp_unshear third6) (tp_aper third6)
    (tp_fwhm_fac third6).
Lemma read8_moves : reader_moves third8.
Proof.
  intros wt cut cut' e e' j pc p p' Hc _ _ _ _ Hp. cbn [tp_read third8]. unfold read7, read6. rewrite (stored_same _ 0%Q p p' Hp).
  assert (E : forall t, (do s <- cut t; Ok (stored (F 0) s)) = (do s <- cut' t; Ok (stored (F 0) s))).
  { intro t. destruct (Hc t) as [(s & s' & -> & -> & S)|(ex & -> & ->)]; cbn [obind]; [rewrite (stored_same _ _ s s' S)|]; reflexivity. }
  rewrite (E "image"), (E "weight"), (E "bmask"). reflexivity.
Qed.
Lemma sep8_ok : sep_ok third8.
Proof.
  split.
  - intros dim w mask objs seg n o H Hin. cbn [tp_sep third8 sep8] in H. apply Ok_inj, pair_equal_spec in H. destruct H as [<- _].
    apply in_map_iff in Hin. destruct Hin as ([i j] & X & Hin). apply filter_In in Hin. destruct Hin as [Hin _]. apply in_coords in Hin.
    injection X as <- <-. cbn [d_x d_y obj8 fst snd]. unfold pos_in. rewrite <- !Zlt_Qlt. change 0%Q with (inject_Z 0). rewrite <- !Zle_Qle. lia.
  - intros objs seg H. cbn in H. congruence.
Qed.
Definition obs8 (q : Q) : obs :=
  mkObs (mkImg 8 8 (fun i j => if (i =? 5) && (j =? 4) then q else 1%Q)) (ifill 8 8 2%Q) (ifill 8 8 0) (ifill 8 8 0) None None 1 (ifill 3 3 1%Q).
Definition main8 : mbo := [[obs8 5]; [obs8 7]].
Definition run8 (main : mbo) := do_metadetect third8 (settings6 0) main (Some [[0; 1]; [1]]) None None DetShear.
Definition seen8 (r : results row) := match shown (Ok (Some r)) with Some ((_, l) :: _) => map (fun d => (fst (fst d), snd (fst d), map snd (snd d))) l | _ => [] end.
Example C138_example : reader_moves third8 /\ metacal_ok third8 (settings6 0) /\ boxes_ok (st_meds (settings6 0)) /\ sep_ok third8 /\
  all_one_shape main6 None /\ all_one_shape main8 None /\ zlen main6 = zlen main8 /\
  moved_object 2 1 (obj8 3 3) (obj8 5 4) /\ stamp_size third8 (st_meds (settings6 0)) (obj8 3 3) 4 /\
  fits_in 6 3 4 /\ fits_in 8 5 4 /\ fits_in 8 4 4 /\
  moved_stamps 2 1 3 3 4 (seg8 (ob_image (obs6 5 1))) (seg8 (ob_image (obs8 5))) main6 main8 /\
  exists r r', run8 main6 = Ok (Some r) /\ run8 main8 = Ok (Some r') /\
  seen8 r = [(3, 3, [[Some 5; Some 7]; [Some 5; Some 7]]); (3, 3, [[Some 5; Some 7]; [Some 5; Some 7]])]%Q /\
  seen8 r' = [(5, 4, [[Some 5; Some 7]; [Some 5; Some 7]]); (5, 4, [[Some 5; Some 7]; [Some 5; Some 7]])]%Q.
Proof.
  split; [exact read8_moves|]. split; [exact (metacal6_ok 0)|]. split; [apply boxes6_ok|]. split; [exact sep8_ok|]. split; [exact none_shape|].
  split.
  { exists 8, 8. split; [|intros d k m H; discriminate H]. split; [lia|]. split; [lia|].
    intros ol [<-|[<-|[]]]; eexists; (split; [reflexivity|]); cbn; repeat split; intros; discriminate. }
  split; [reflexivity|]. split; [repeat split; reflexivity|].
  split.
  { exists 18. split.
    - right. split; [reflexivity|]. exists 4%Q. split; [split; [|split; [|left; reflexivity]]; unfold Qle; cbn; lia|].
      split; intro H; [split|exfalso; apply H; reflexivity]. { vm_compute. discriminate. } { vm_compute. reflexivity. }
    - split; [right; reflexivity|]. split; [unfold into_range; cbn; lia|]. intros s [[_ Hs]|Hs] Hw; cbn in *; lia. }
  split; [split; [discriminate|vm_compute; split; discriminate]|]. split; [split; [discriminate|vm_compute; split; discriminate]|].
  split; [split; [discriminate|vm_compute; split; discriminate]|].
  assert (FP : first_pixel 3 4 = 2) by reflexivity.
  split.
  { assert (K : forall A (a b : A) i j, (if (i + 2 =? 5) && (j + 1 =? 4) then a else b) = (if (i =? 3) && (j =? 3) then a else b)).
    { intros A a b i j. destruct (Z.eqb_spec i 3), (Z.eqb_spec (i + 2) 5), (Z.eqb_spec j 3), (Z.eqb_spec (j + 1) 4); try lia; reflexivity. }
    assert (G : forall q b, moved_obs 2 1 3 3 4 (obs6 q b) (obs8 q)).
    { intros q b. split; [intros i j U; cbn [px ob_image obs6 obs8]; apply K|]. split; [intros i j U; reflexivity|]. split.
      - intros i j [_ U]. rewrite FP in U. cbn [px ob_bmask obs6 obs8 ifill]. destruct (Z.eqb_spec j 0); [lia|]. now rewrite Bool.andb_false_r.
      - split; [left; split; reflexivity|]. split; [reflexivity|]. repeat split; reflexivity. }
    split.
    - constructor; [|constructor; [|constructor]]; do 2 eexists; (split; [reflexivity|]); (split; [reflexivity|]); (split; [apply G|]); repeat split; reflexivity.
    - intros i j _. unfold seg8, bright. cbn [px ob_image obs6 obs8 fst snd]. rewrite K. reflexivity. }
  destruct (table_of (run8 main6)) as [r E]; [vm_compute; reflexivity|]. destruct (table_of (run8 main8)) as [r' E']; [vm_compute; reflexivity|].
  exists r, r'. split; [exact E|]. split; [exact E'|]. unfold seen8. split; [rewrite <- E|rewrite <- E']; vm_compute; reflexivity.
Qed.
