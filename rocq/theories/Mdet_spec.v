(** Specification vocabulary for C27-C33 and C68. *)
From Coq Require Import ZArith QArith List String Bool.
From Verif Require Import Base Arr Median Flags_model Detect_model Summ_model Wavg_model Conf_model Mdet_model.
Import ListNotations.
Local Open Scope Z_scope.

(** ** Equality up to the representation of rationals *)
Definition qimg_eqv (a b : img Q) : Prop :=
  nr a = nr b /\ nc a = nc b /\ forall i j, (px a i j == px b i j)%Q.
Definition zimg_eqv (a b : img Z) : Prop :=
  nr a = nr b /\ nc a = nc b /\ forall i j, px a i j = px b i j.
Definition opt_rel {A} (R : A -> A -> Prop) (a b : option A) : Prop :=
  match a, b with Some x, Some y => R x y | None, None => True | _, _ => False end.
Definition out_rel {A} (R : A -> A -> Prop) (a b : outcome A) : Prop :=
  match a, b with Ok x, Ok y => R x y | Raise e, Raise f => e = f | _, _ => False end.
Definition stats_eqv (a b : psf_stats) : Prop :=
  ps_flags a = ps_flags b /\ opt_rel Qeq (ps_g1 a) (ps_g1 b) /\ opt_rel Qeq (ps_g2 a) (ps_g2 b) /\
  opt_rel Qeq (ps_T a) (ps_T b).
Definition summary_eqv (a b : summary) : Prop :=
  qimg_eqv (sm_mfrac a) (sm_mfrac b) /\ zimg_eqv (sm_bmask a) (sm_bmask b) /\
  zimg_eqv (sm_ormask a) (sm_ormask b) /\ stats_eqv (sm_stats a) (sm_stats b).
Definition mval_eqv (a b : mval) : Prop :=
  match a, b with MNum x, MNum y => (x == y)%Q | MNan, MNan => True | _, _ => False end.
Definition extra_eqv (a b : extra) : Prop :=
  x_row a = x_row b /\ x_col a = x_col b /\ x_row_ns a = x_row_ns b /\ x_col_ns a = x_col_ns b /\
  x_ormask a = x_ormask b /\ x_ormask_ns a = x_ormask_ns b /\
  x_bmask a = x_bmask b /\ x_bmask_ns a = x_bmask_ns b /\
  mval_eqv (x_mfrac a) (x_mfrac b) /\ mval_eqv (x_mfrac_ns a) (x_mfrac_ns b) /\
  (x_mfrac_img a == x_mfrac_img b)%Q /\ stats_eqv (x_psf a) (x_psf b) /\ x_det_bands a = x_det_bands b.

Section Spec.
Variables O SEG ST FL FR : Type.
Variable sob : O -> sobs.
Notation env := (env O SEG ST FL FR).
Notation state := (state O FR).

Definition kdata_eqv (a b : kdata O) : Prop :=
  kd_mp a = kd_mp b /\ opt_rel summary_eqv (kd_sum a) (kd_sum b).
Definition row_eqv (a b : drow FR) : Prop :=
  r_fits a = r_fits b /\ extra_eqv (r_extra a) (r_extra b).

(** All planes of a set of observations have one shape. *)
Definition uniform (m : mb O) : Prop :=
  exists r c, forall ol o, In ol m -> In o ol ->
    nr (so_weight (sob o)) = r /\ nc (so_weight (sob o)) = c /\
    nr (so_bmask (sob o)) = r /\ nc (so_bmask (sob o)) = c /\
    nr (so_ormask (sob o)) = r /\ nc (so_ormask (sob o)) = c.
Definition env_uniform (e : env) : Prop :=
  uniform (e_main e) /\
  forall keyf dep k m, e_color e = Some (keyf, dep) -> dep k = Some (Other m) -> uniform m.

(** What a request means without any cache: take the observations of the colour,
    fit the PSFs, run metacal, then summarise the shear bands. *)
Definition uncached (e : env) (key : option Z) (sb : list Z) : outcome (kdata O) :=
  do km <- obs_of e key;
  do f <- psf_flags e (snd km);
  do r <- all_metacal e (snd km);
  do s <- summarise sob e (mkMP (Some f) (Some r)) (snd km) sb;
  Ok (mkK (mkMP (Some f) (Some r)) (Some s)).
(** What a request returns on a new object. *)
Definition fresh (e : env) (key : option Z) (sb : list Z) : outcome (kdata O) :=
  fst (get_data sob e key sb init_state).
(** All entries are there. *)
Definition complete (kd : kdata O) : Prop :=
  mp_psf (kd_mp kd) <> None /\ mp_mcal (kd_mp kd) <> None /\ kd_sum kd <> None.
Definition all_ok {A} (l : list (outcome A)) : Prop := forall x, In x l -> exists a, x = Ok a.
(** The state after a history, and the history went without exceptions. *)
Definition after (e : env) (h : list op) : state := snd (run_ops sob e h init_state).
Definition healthy (e : env) (h : list op) : Prop := all_ok (fst (run_ops sob e h init_state)).

(** result[t]: None when there is no such key. *)
Definition table (r : results FR) (t : string) : option (option (list (drow FR))) := assoc String.eqb t r.
Definition tables_eqv (a b : results FR) : Prop :=
  forall t, opt_rel (opt_rel (Forall2 row_eqv)) (table a t) (table b t).
Definition result_eqv (a b : option (results FR)) : Prop := opt_rel tables_eqv a b.

(** ngmix's get_all_metacal returns a dictionary with the requested types. *)
Definition metacal_types (e : env) : Prop :=
  forall m d, e_metacal e m = Ok d -> NoDup (map fst d) /\ forall t, In t (map fst d) <-> In t (e_types e).

(** Nothing can be measured: no pixel has a masked fraction below one, or an
    observation has only zero weights, or one is excluded everywhere. *)
Definition no_usable_pixel (e : env) : Prop :=
  exists mf, get_mfrac (map (map sob) (e_main e)) = Ok mf /\
    forall i j, inside mf i j -> (1 <= px mf i j)%Q.
Definition zero_weight_observation (e : env) : Prop :=
  exists ol o, In ol (e_main e) /\ In o ol /\
    forall i j, inside (so_weight (sob o)) i j -> (px (so_weight (sob o)) i j == 0)%Q.
Definition excluded_observation (e : env) : Prop :=
  exists ol o, In ol (e_main e) /\ In o ol /\
    forall i j, inside (so_bmask (sob o)) i j -> Z.land (px (so_bmask (sob o)) i j) (e_nodet e) <> 0.
Definition metacal_psf_failure (e : env) : Prop := e_metacal e (e_main e) = Raise BootPSFFailure.

(** The row of one object: the result of each fitter in order on its stamp with
    the shear bands, and the position, mask and PSF columns from the summary of
    the shear bands, the detection bands and the catalogue entry. Fitters have
    different column prefixes. *)
Definition row_of (e : env) (sb db : list Z) (t : string) (su : summary) (d : det) (st : ST) (r : drow FR) : Prop :=
  Forall2 (fun f x => e_fit e f sb st = Ok x) (e_fitters e) (r_fits r) /\
  (forall i j f g, nth_error (e_fitters e) i = Some f -> nth_error (e_fitters e) j = Some g -> i <> j ->
     e_colname e f <> e_colname e g) /\
  exists x, extra_of sob e t su db d = Ok x /\ extra_eqv (r_extra r) x.

(** The detections of a band combination on the images m. *)
Definition detected (e : env) (m : mb O) (db : list Z) (cat : list det) (seg : SEG) : Prop :=
  exists sel, Forall2 (fun b x => py_index m b = Ok x) db sel /\ e_detect e sel = Ok (cat, seg).

(** One block without colours: one row per detection, in order. *)
Definition block_of (e : env) (t : string) (m : mb O) (sd : list Z * list Z) (rows : list (drow FR)) : Prop :=
  exists cat seg kd su, detected e m (snd sd) cat seg /\
    uncached e None (fst sd) = Ok kd /\ kd_sum kd = Some su /\
    Forall2 (fun d r => exists st, e_stamp e m (Some seg) d = Ok st /\ row_of e (fst sd) (snd sd) t su d st r) cat rows.

(** One block with colours: the detection's own colour key decides which
    observations are measured; a detection whose colour has no metacal images
    (its PSF step failed) gives no row, any other gives one. *)
Definition colour_of (e : env) (keyf : FL -> outcome (option Z)) (sb : list Z) (m : mb O) (seg : SEG) (d : det)
  (key : option Z) : Prop :=
  exists f0 rest st fl, e_fitters e = f0 :: rest /\ e_stamp e m (Some seg) d = Ok st /\
    e_flux e f0 sb st = Ok fl /\ keyf fl = Ok key.
Definition colour_rows (e : env) (sb db : list Z) (t : string) (key : option Z) (d : det) (part : list (drow FR)) : Prop :=
  exists kd, uncached e key sb = Ok kd /\
    ((mp_mcal (kd_mp kd) = Some None /\ part = []) \/
     (exists dict m st su r, mp_mcal (kd_mp kd) = Some (Some dict) /\ assoc String.eqb t dict = Some m /\
        kd_sum kd = Some su /\ e_stamp e m None d = Ok st /\ row_of e sb db t su d st r /\ part = [r])).
Definition colour_block_of (e : env) (keyf : FL -> outcome (option Z)) (t : string) (m : mb O)
  (sd : list Z * list Z) (rows : list (drow FR)) : Prop :=
  exists cat seg keys parts, detected e m (snd sd) cat seg /\
    Forall2 (colour_of e keyf (fst sd) m seg) cat keys /\
    Forall2 (fun dk part => colour_rows e (fst sd) (snd sd) t (snd dk) (fst dk) part) (combine cat keys) parts /\
    rows = List.concat parts.

(** The same configuration and observations without colours. *)
Definition without_colour (e : env) : env :=
  mkEnv (e_main e) None (e_psf_fit e) (e_metacal e) (e_types e) (e_nodet e) (e_fitters e) (e_shear e) (e_det e)
    (e_detect e) (e_stamp e) (e_fit e) (e_colname e) (e_flux e) (e_unshear e) (e_ormask_region e) (e_mask_region e)
    (e_aper e).

End Spec.
Arguments table {FR}. Arguments tables_eqv {FR}. Arguments result_eqv {FR}. Arguments metacal_types {O SEG ST FL FR}.
Arguments no_usable_pixel {O SEG ST FL FR}. Arguments zero_weight_observation {O SEG ST FL FR}.
Arguments excluded_observation {O SEG ST FL FR}. Arguments metacal_psf_failure {O SEG ST FL FR}.
Arguments row_of {O SEG ST FL FR}. Arguments detected {O SEG ST FL FR}. Arguments block_of {O SEG ST FL FR}.
Arguments colour_of {O SEG ST FL FR}. Arguments colour_rows {O SEG ST FL FR}. Arguments colour_block_of {O SEG ST FL FR}.
Arguments without_colour {O SEG ST FL FR}.
Arguments kdata_eqv {O}. Arguments row_eqv {FR}. Arguments uniform {O}. Arguments env_uniform {O SEG ST FL FR}.
Arguments uncached {O SEG ST FL FR}. Arguments fresh {O SEG ST FL FR}. Arguments complete {O}. Arguments after {O SEG ST FL FR}. Arguments healthy {O SEG ST FL FR}.
