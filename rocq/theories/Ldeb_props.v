(** C99: detection with the scarlet deblender. *)
From Coq Require Import ZArith QArith Qcanon List String Bool Lia.
From Verif Require Import Base Arr Median Dict Lutil_model Lutil_spec Lexp_model Lthr_model Lthr_spec Lmdet_model Lmeas_model Lsub_model Lscar_model
  Lphot_model Lphot_spec Lrun_model Lrun_spec Lrun_props Ldeb_model Ldeb_spec Ldeb_proofs.
Import ListNotations.
Local Open Scope string_scope.
Local Open Scope Z_scope.

(** When something is detected, each band is deconvolved once, in the order of
    the bands, under its own name and for the same detected sources; the
    deblender gets the exposures of all bands, their deconvolutions and the
    detected sources; the sources returned are those of its catalogue with the
    footprints of band "i", whatever the shear bands are, and the models
    returned are its models. *)
Theorem C99_each_band : forall Dec (D : deblender Dec) mb d cat sc,
  run_with_scarlet D mb d = Ok (cat, Some sc) ->
  exists found decs cat0, db_detect D d = Ok (Some found) /\ deconvolved_bands D found mb decs /\
    db_deblend D mb decs found = Ok (cat0, sc) /\ db_attach D sc cat0 "i" = Ok cat.
Proof.
  intros Dec D mb d cat sc H. apply run_with_scarlet_ok in H. destruct H as [(_ & _ & X)|(found & decs & cat0 & sc0 & A & B & C & E & X)]; [discriminate|].
  apply Some_inj in X. subst sc0. eauto 7.
Qed.
Print Assumptions C99_each_band.

(** When the detection returns nothing there are no sources and no models, and
    nothing is deconvolved or deblended: the answer is the same for any other
    deconvolution and deblender. Conversely, no models means nothing detected. *)
Theorem C99_nothing_detected : forall Dec (D : deblender Dec) mb d,
  (db_detect D d = Ok None -> run_with_scarlet D mb d = Ok ([], None)) /\
  (forall cat, run_with_scarlet D mb d = Ok (cat, None) -> cat = [] /\ db_detect D d = Ok None).
Proof.
  intros Dec D mb d. split.
  - intro E. unfold run_with_scarlet. now rewrite E.
  - intros cat H. apply run_with_scarlet_ok in H. destruct H as [(A & B & _)|(? & ? & ? & ? & _ & _ & _ & _ & X)]; [auto|discriminate].
Qed.
Print Assumptions C99_nothing_detected.

(** If the stack does not fail, neither does the detection, provided that one of
    the bands is called "i". Missing: any bands will do, which is false. *)
Theorem C99_with_i_partial : forall Dec (D : deblender Dec) mb d,
  works D -> In "i" (map fst mb) -> exists r, run_with_scarlet D mb d = Ok r.
Proof. exact @run_works. Qed.
Print Assumptions C99_with_i_partial.

(** Without a band called "i", a run of metadetection with the scarlet deblender
    raises as soon as anything is detected: if it returns, every table is empty
    and the detection had returned nothing. *)
Theorem C99_without_i : forall Prof Dec (R : mrun Prof) (D : cfg -> deblender Dec) user names bands noise mfracs ormasks gp bands1 res,
  (forall c, models_of_bands (D c)) -> (forall c, attaches_modelled (D c)) -> ~ In "i" names ->
  distinct_keys (ODict (given_items user)) -> one_name (given_items user) ->
  given (ODict (given_items user)) ["deblender"] = Some (AStr "scarlet") ->
  scarlet_metadetect R D user names bands noise mfracs ormasks gp = (bands1, Ok res) ->
  forall t tab, sget t res = Some (Table tab) -> tab = None /\ exists c d, db_detect (D c) d = Ok None.
Proof. exact @scarlet_without_i. Qed.
Print Assumptions C99_without_i.

(** A stack that does not fail: two sources, and models in all bands. A
    deconvolution is remembered as the name and the first pixel. *)
Definition deb2 : deblender Q :=
  mkDeb (fun _ => Ok (Some [star; edge])) (fun e _ name => Ok (name, px (e_image e) 0 0))
    (fun mb dec found => Ok (found, mkScar (map fst mb) (fun _ => Some (mkBox 102 202 148 248)) [[[model 3 3; model 5 2]]]))
    (fun sc cat b => if existsb (String.eqb b) (sc_bands sc) then Ok cat else Raise ValueError).
Lemma deb2_ok : works deb2 /\ models_of_bands deb2 /\ attaches_modelled deb2.
Proof.
  split; [|split].
  - split; [intros; eexists; reflexivity|]. split; [intros; eexists; reflexivity|].
    split; [intros mb dec found; do 2 eexists; split; [reflexivity|exact (incl_refl _)]|].
    intros sc cat b I. exists cat. cbn. assert (E : existsb (String.eqb b) (sc_bands sc) = true); [|now rewrite E].
    apply existsb_exists. exists b. now rewrite String.eqb_refl.
  - intros mb dec found cat sc E. cbn in E. apply Ok_inj, pair_equal_spec in E. destruct E as [_ <-]. exact (incl_refl _).
  - intros sc cat b cat' E. cbn in E. destruct (existsb (String.eqb b) (sc_bands sc)) eqn:X; [|discriminate].
    apply existsb_exists in X. destruct X as (y & Iy & Ey). apply String.eqb_eq in Ey. now subst y.
Qed.
Example C99_example : exists sc, run_with_scarlet deb2 [("g", plane 1 2); ("i", plane 3 4)] (ph_single phot2 (plane 1 2)) = Ok ([star; edge], Some sc) /\
  make_deconvolved_mbexp deb2 [("g", plane 1 2); ("i", plane 3 4)] [star; edge] = Ok [("g", 1%Q); ("i", 3%Q)].
Proof. eexists. split; reflexivity. Qed.

(** The scarlet deblender does not work for every choice of bands: with the same
    images and a stack that does not fail, the run in the bands g and i gives
    tables, and the run in the bands g and r raises. *)
Definition user_i (b : string) : items :=
  [("shear_bands", OLeaf (ANames [b])); ("deblender", OLeaf (AStr "scarlet")); ("metacal", ODict [("types", OLeaf (ANames ["noshear"]))])].
Theorem C99_any_bands_refuted : works deb2 /\ models_of_bands deb2 /\ attaches_modelled deb2 /\
  (exists bands1 rows, scarlet_metadetect run2 (fun _ => deb2) (Some (user_i "i")) ["g"; "i"] [plane 1 2; plane 3 4] [plane 5 2; plane 6 4] (Some mf2) None false =
     (bands1, Ok [("noshear", Table (Some rows))]) /\ List.length rows = 2%nat) /\
  snd (scarlet_metadetect run2 (fun _ => deb2) (Some (user_i "r")) ["g"; "r"] [plane 1 2; plane 3 4] [plane 5 2; plane 6 4] (Some mf2) None false) =
    Raise ValueError.
Proof.
  destruct deb2_ok as (W & M & A). split; [exact W|]. split; [exact M|]. split; [exact A|]. split.
  - do 2 eexists. split; [vm_compute; reflexivity|reflexivity].
  - vm_compute. reflexivity.
Qed.
Print Assumptions C99_any_bands_refuted.
(** A run that meets the hypotheses of [C99_without_i]: nothing is detected. *)
Definition deb0 : deblender Q := mkDeb (fun _ => Ok None) (db_deconvolve deb2) (db_deblend deb2) (db_attach deb2).
Example C99_without_i_example : exists bands1,
  scarlet_metadetect run2 (fun _ => deb0) (Some (user_i "r")) ["g"; "r"] [plane 1 2; plane 3 4] [plane 5 2; plane 6 4] (Some mf2) None false =
    (bands1, Ok [("noshear", Table None)]) /\
  models_of_bands deb0 /\ attaches_modelled deb0 /\ ~ In "i" ["g"; "r"] /\
  distinct_keys (ODict (user_i "r")) /\ one_name (user_i "r") /\ given (ODict (user_i "r")) ["deblender"] = Some (AStr "scarlet").
Proof.
  destruct deb2_ok as (_ & M & A). eexists. split; [vm_compute; reflexivity|]. split; [exact M|]. split; [exact A|].
  split; [cbn; intuition discriminate|]. split.
  - constructor; [repeat constructor; cbn; intuition discriminate|]. intros k o [E|[E|[E|[]]]]; injection E as <- <-; try constructor.
    + repeat constructor. intros [].
    + intros k o [E|[]]. injection E as <- <-. constructor.
  - split; [intros l E; discriminate|reflexivity].
Qed.
