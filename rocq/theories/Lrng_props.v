(** C100-C102: the random number generator in metadetect/lsst. *)
From Coq Require Import ZArith QArith Qcanon List String Bool Lia.
From Verif Require Import Base Arr Median Dict Flags_model Lutil_model Lutil_spec Lutil_proofs Lexp_model Lthr_model Lthr_spec Lmdet_model Lmdet_spec
  Lmeas_model Lmeas_spec Lsub_model Lscar_model Lphot_model Lphot_spec Lphot_proofs Lphot_props Lrun_model Lrun_spec Lrun_proofs Lrun_props
  Lrng_model Lrng_spec Lrng_proofs.
From Verif Require Lmcal_model.
Import ListNotations.
Local Open Scope string_scope.
Local Open Scope Z_scope.

(** ** C100: run_metadetect with two seeds *)

(** Two runs that differ in the state of the generator only, and both return. If
    the caller asks for another reconvolution than "fitgauss", or the fits of the
    original PSFs come out the same, then the results have the same keys in the
    same order, the tables have the same objects in the same order, and all
    columns but those of the Gaussian fit and psfrec_g, psfrec_T agree. The
    exposures are left the same. Missing: the default reconvolution, for which
    this is false. *)
Theorem C100_seed_partial : forall G Prof (L : draws G) (R : mrun Prof) user names bands noise mfracs ormasks gp g g' bands1 res g1 bands1' res' g1',
  labels_bands L -> distinct_keys (ODict (given_items user)) -> one_name (given_items user) -> List.length names = List.length bands ->
  rrun_metadetect L R user names bands noise mfracs ormasks gp g = (bands1, Ok (res, g1)) ->
  rrun_metadetect L R user names bands noise mfracs ormasks gp g' = (bands1', Ok (res', g1')) ->
  (exists r, given (ODict (given_items user)) ["metacal"; "reconv_type"] = Some (AStr r) /\ r <> "fitgauss") \/
    fst (draw_psfs L bands1 g) = fst (draw_psfs L bands1 g') ->
  bands1 = bands1' /\ skeys res = skeys res' /\
  forall t, match sget t res, sget t res' with Some a, Some b => same_entry a b | None, None => True | _, _ => False end.
Proof.
  intros G Prof L R user names bands noise mfracs ormasks gp g g' bands1 res g1 bands1' res' g1' LB Dk On Ln H H' C.
  destruct (run_same L LB R _ _ _ _ _ _ _ _ _ _ _ _ _ _ _ Dk On Ln H H' C) as [E S].
  split; [exact E|]. split; [exact (results_keys _ _ S)|]. intro t. exact (results_get _ _ t S).
Qed.
Print Assumptions C100_seed_partial.

(** A generator that has no influence on the fits can be left out: the run is then
    the one that C87 is about, whatever the seed. *)
Theorem C100_no_influence : forall G Prof (L : draws G) (R : mrun Prof) user names bands noise mfracs ormasks gp g bands1 o,
  no_influence L (r_phot R) -> rrun_metadetect L R user names bands noise mfracs ormasks gp g = (bands1, o) ->
  run_metadetect R user names bands noise mfracs ormasks gp = (bands1, do r <- o; Ok (fst r)).
Proof.
  intros G Prof L R user names bands noise mfracs ormasks gp g bands1 o N H. pose proof (run_values L R user names bands noise mfracs ormasks gp g N) as E.
  cbv zeta in E. rewrite H in E. symmetry. exact E.
Qed.
Print Assumptions C100_no_influence.

(** ** C101: other metacal types, the same seed *)

(** Types that are added after those of a run leave the tables of that run as they
    are, up to the last bit, and the statistics of the PSFs. *)
Theorem C101_added_types : forall G Prof (L : draws G) (R : mrun Prof) user user' s more names bands noise mfracs ormasks gp g bands1 res' g1',
  read_config R user = Ok s -> read_config R user' = Ok (with_types s (s_types s ++ more)) -> NoDup (s_types s ++ more)%list ->
  rrun_metadetect L R user' names bands noise mfracs ormasks gp g = (bands1, Ok (res', g1')) ->
  exists res g1, rrun_metadetect L R user names bands noise mfracs ormasks gp g = (bands1, Ok (res, g1)) /\
    forall t, ~ In t more -> sget t res = sget t res'.
Proof. exact @run_fewer. Qed.
Print Assumptions C101_added_types.

(** A type that two runs with the same seed have in common, with any other types
    before or after it, has the same objects in both, and all columns but those of
    the Gaussian fit are the same. *)
Lemma types_allowed : forall Prof (R : mrun Prof) user s, read_config R user = Ok s -> incl (s_types s) allowed_types.
Proof.
  intros Prof R user s H. unfold read_config in H.
  repeat match type of H with
  | obind (validate ?l) _ = Ok _ => destruct (validate l) eqn:V; cbn [obind] in H; [|discriminate]
  | obind ?a _ = Ok _ => destruct a eqn:?; cbn [obind] in H; [|discriminate]
  end.
  apply Ok_inj in H. subst s. cbn [s_types]. intros t I. unfold validate in V. destruct (forallb _ _) eqn:F; [|discriminate].
  rewrite forallb_forall in F. specialize (F t I). apply existsb_exists in F. destruct F as (x & Ix & Ex). apply String.eqb_eq in Ex. now subst.
Qed.
Theorem C101_common_type : forall G Prof (L : draws G) (R : mrun Prof) user user' s types names bands noise mfracs ormasks gp gp' g bands1 res g1 bands1' res' g1',
  labels_bands L ->
  read_config R user = Ok s -> read_config R user' = Ok (with_types s types) -> NoDup (s_types s) -> NoDup types ->
  rrun_metadetect L R user names bands noise mfracs ormasks gp g = (bands1, Ok (res, g1)) ->
  rrun_metadetect L R user' names bands noise mfracs ormasks gp' g = (bands1', Ok (res', g1')) ->
  forall t, In t (s_types s) -> In t types ->
    exists tab tab', sget t res = Some (Table tab) /\ sget t res' = Some (Table tab') /\ same_tables tab tab'.
Proof.
  intros G Prof L R user user' s types names bands noise mfracs ormasks gp gp' g bands1 res g1 bands1' res' g1' LB C C' N N' H H' t I I'.
  refine (other_types L R _ _ _ _ _ _ _ _ _ _ _ _ _ _ _ _ _ _ LB C C' N N' H H' t I I' _).
  intros ->. apply (types_allowed _ R _ _ C) in I. cbn in I. intuition discriminate.
Qed.
Print Assumptions C101_common_type.

(** ** C102: run_photometry *)

(** Two runs of run_photometry that differ in the state of the generator only, and
    both return: the same objects, with the same columns but those of the Gaussian
    fit and psfrec_g, psfrec_T; the same effect on the caller's configuration and
    exposures. *)
Theorem C102_seed : forall G (L : draws G) P h user names bands mfracs ormasks g g' h1 bands1 t g1 h1' bands1' t' g1',
  labels_bands L -> List.length names = List.length bands ->
  rrun_photometry L P h user names bands mfracs ormasks g = (h1, bands1, Ok (t, g1)) ->
  rrun_photometry L P h user names bands mfracs ormasks g' = (h1', bands1', Ok (t', g1')) ->
  h1 = h1' /\ bands1 = bands1' /\ same_tables t t'.
Proof.
  intros G L P h user names bands mfracs ormasks g g' h1 bands1 t g1 h1' bands1' t' g1' LB Ln H H'.
  exact (phot_same L LB P h user names bands mfracs ormasks g g' h1 bands1 t g1 h1' bands1' t' g1' Ln H H').
Qed.
Print Assumptions C102_seed.
(** Without an influence of the generator the run is the one of C86. *)
Theorem C102_no_influence : forall G (L : draws G) P h user names bands mfracs ormasks g h1 bands1 o,
  no_influence L P -> rrun_photometry L P h user names bands mfracs ormasks g = (h1, bands1, o) ->
  run_photometry P h user names bands mfracs ormasks = (h1, bands1, do r <- o; Ok (fst r)).
Proof.
  intros G L P h user names bands mfracs ormasks g h1 bands1 o N H. pose proof (phot_values L P h user names bands mfracs ormasks g N) as E.
  cbv zeta in E. rewrite H in E. symmetry. exact E.
Qed.
Print Assumptions C102_no_influence.

(** ** Concrete runs: the generator is a number that goes up by one with each fit.
    A fit of a PSF reports the first pixel plus a thousandth of that number, the
    Gaussian fit the pixel in the middle plus the number itself. *)
Definition count : draws nat :=
  mkDraws (fun e n => (Ok (mkPf 0 (1 # 10) 0 (Qred (px (e_image e) 0 0 + inject_Z (Z.of_nat n) / 1000))), S n))
    (fun sb obs n => (do c <- middle obs;
       Ok (fun k => if String.eqb k "shear_bands" then CStr "1"
                    else match c k with CNum (Some q) => CNum (Some (Qred (q + inject_Z (Z.of_nat n)))) | v => v end), S n)).
Lemma count_labels : labels_bands count.
Proof.
  intros sb obs g obs' g' c c' H H'. cbn in H, H'. destruct (middle obs); cbn [obind] in H; [|discriminate]. destruct (middle obs'); cbn [obind] in H'; [|discriminate].
  apply Ok_inj in H, H'. now subst.
Qed.
Definition with_reconv (rc : string) (types : list string) : option items :=
  Some [("shear_bands", OLeaf (ANames ["r"])); ("metacal", ODict [("types", OLeaf (ANames types)); ("reconv_type", OLeaf (AStr rc))])].
Lemma with_reconv_ok : forall rc types, distinct_keys (ODict (given_items (with_reconv rc types))) /\ one_name (given_items (with_reconv rc types)) /\
  given (ODict (given_items (with_reconv rc types))) ["metacal"; "reconv_type"] = Some (AStr rc).
Proof.
  intros rc types. split; [|split; [|reflexivity]].
  - constructor; [repeat constructor; cbn; intuition discriminate|]. intros k o [E|[E|[]]]; injection E as <- <-; try constructor.
    + repeat constructor; cbn; intuition discriminate.
    + intros k o [E|[E|[]]]; injection E as <- <-; constructor.
  - intros l E. discriminate.
Qed.
Definition counted (R : mrun unit) rc types n :=
  rrun_metadetect count R (with_reconv rc types) ["g"; "r"] [plane 1 2; plane 3 4] [plane 5 2; plane 6 4] (Some mf2) (Some [om2; ifill 51 51 2]) false n.
Example C100_example : exists bands' a b c d a' b' c' d',
  counted run2 "gauss" ["noshear"; "1p"] 0 = (bands', Ok ([("noshear", Table (Some [a; b])); ("1p", Table (Some [c; d]))], 4%nat)) /\
  counted run2 "gauss" ["noshear"; "1p"] 7 = (bands', Ok ([("noshear", Table (Some [a'; b'])); ("1p", Table (Some [c'; d']))], 11%nat)) /\
  (* the PSFs take two draws, the second object of each type has no stamp *)
  sget "gauss_T" a = Some (CNum (Some (11 # 1))) /\ sget "gauss_T" a' = Some (CNum (Some (18 # 1))) /\
  sget "gauss_T" c = Some (CNum (Some (Qred (9 * (101 # 100) + 3)))) /\ sget "gauss_T" c' = Some (CNum (Some (Qred (9 * (101 # 100) + 10)))) /\
  sget "pgauss_T" c = sget "pgauss_T" c' /\ sget "shear_bands" c = Some (CStr "1") /\ sget "stamp_flags" d = Some (CInt (2 ^ 20)).
Proof. do 9 eexists. split; [vm_compute; reflexivity|]. split; [vm_compute; reflexivity|]. repeat split. Qed.

(** With the default reconvolution, the drawn sizes of the PSFs enter the images:
    here drawing adds the variance of the new PSF to the pixels. *)
Definition run3 : mrun Q :=
  mkRun phot2 (fun _ _ _ => 1%Q) (fun v _ => Ok v) (fun _ _ _ => Ok 0%Q) (fun p _ => p) (fun _ k _ => k)
    (fun im _ _ s p => Ok (imap (fun v => v + p)%Q im)) (fun c bands d => Ok None).
Theorem C100_fitgauss_refuted : ~ (forall G Prof (L : draws G) (R : mrun Prof) user names bands noise mfracs ormasks gp g g' bands1 res g1 bands1' res' g1',
  labels_bands L -> distinct_keys (ODict (given_items user)) -> one_name (given_items user) -> List.length names = List.length bands ->
  rrun_metadetect L R user names bands noise mfracs ormasks gp g = (bands1, Ok (res, g1)) ->
  rrun_metadetect L R user names bands noise mfracs ormasks gp g' = (bands1', Ok (res', g1')) ->
  forall t, match sget t res, sget t res' with Some a, Some b => same_entry a b | None, None => True | _, _ => False end).
Proof.
  intro H.
  assert (X : exists bands1 res g1 bands1' res' g1' a b a' b',
    rrun_metadetect count run3 None ["g"; "r"] [plane 1 2; plane 3 4] [plane 5 2; plane 6 4] (Some mf2) None false 0%nat = (bands1, Ok (res, g1)) /\
    rrun_metadetect count run3 None ["g"; "r"] [plane 1 2; plane 3 4] [plane 5 2; plane 6 4] (Some mf2) None false 7%nat = (bands1', Ok (res', g1')) /\
    sget "noshear" res = Some (Table (Some [a; b])) /\ sget "noshear" res' = Some (Table (Some [a'; b'])) /\ sget "pgauss_T" a <> sget "pgauss_T" a').
  { do 10 eexists. split; [vm_compute; reflexivity|]. split; [vm_compute; reflexivity|]. split; [reflexivity|]. split; [reflexivity|]. vm_compute. discriminate. }
  destruct X as (bands1 & res & g1 & bands1' & res' & g1' & a & b & a' & b' & E & E' & S & S' & N).
  assert (Dk : distinct_keys (ODict (given_items None))) by (constructor; [constructor|intros k o []]).
  assert (On : one_name (given_items None)) by (intros l Hl; discriminate).
  specialize (H _ _ count run3 None ["g"; "r"] [plane 1 2; plane 3 4] _ _ _ _ _ _ _ _ _ _ _ _ count_labels Dk On eq_refl E E' "noshear"). rewrite S, S' in H. cbn in H.
  inversion H as [|? ? ? ? [_ Hc]]. subst. apply N, Hc. cbn. intuition discriminate.
Qed.
Print Assumptions C100_fitgauss_refuted.

(** The Gaussian fits of a type depend on the types before it, and on the objects
    before it: the generator is shared. *)
Theorem C101_shared_generator_refuted : exists bands' a b c d e f g1 g2,
  counted run2 "gauss" ["noshear"; "1p"] 0 = (bands', Ok ([("noshear", Table (Some [a; b])); ("1p", Table (Some [c; d]))], g1)) /\
  counted run2 "gauss" ["1p"] 0 = (bands', Ok ([("1p", Table (Some [e; f]))], g2)) /\
  sget "gauss_T" c <> sget "gauss_T" e /\ sget "pgauss_T" c = sget "pgauss_T" e.
Proof. do 9 eexists. split; [vm_compute; reflexivity|]. split; [vm_compute; reflexivity|]. split; [vm_compute; discriminate|reflexivity]. Qed.
Print Assumptions C101_shared_generator_refuted.
Example C101_example : exists s bands' res g1 a b,
  read_config run2 (with_reconv "gauss" ["noshear"]) = Ok s /\ s_types s = ["noshear"] /\
  read_config run2 (with_reconv "gauss" ["noshear"; "2m"]) = Ok (with_types s (s_types s ++ ["2m"])) /\ NoDup (s_types s ++ ["2m"])%list /\
  counted run2 "gauss" ["noshear"; "2m"] 5 = (bands', Ok (res, g1)) /\ sget "noshear" res = Some (Table (Some [a; b])).
Proof.
  do 6 eexists. split; [vm_compute; reflexivity|]. split; [reflexivity|]. split; [vm_compute; reflexivity|].
  split; [repeat constructor; cbn; intuition discriminate|]. split; [vm_compute; reflexivity|]. reflexivity.
Qed.
Example C102_example : exists h' bands' a b a' b',
  rrun_photometry count phot2 default_heap None ["g"; "r"] [plane 1 2; plane 3 4] (Some mf2) (Some [om2; ifill 51 51 2]) 0%nat = (h', bands', Ok (Some [a; b], 3%nat)) /\
  rrun_photometry count phot2 default_heap None ["g"; "r"] [plane 1 2; plane 3 4] (Some mf2) (Some [om2; ifill 51 51 2]) 7%nat = (h', bands', Ok (Some [a'; b'], 10%nat)) /\
  sget "gauss_T" a <> sget "gauss_T" a' /\ sget "psfrec_T" a <> sget "psfrec_T" a' /\ sget "ormask" a = Some (CInt 7) /\ sget "pgauss_T" a = Some (CNum (Some (3 # 1))).
Proof.
  do 6 eexists. split; [vm_compute; reflexivity|]. split; [vm_compute; reflexivity|]. split; [vm_compute; discriminate|]. split; [vm_compute; discriminate|]. split; reflexivity.
Qed.
