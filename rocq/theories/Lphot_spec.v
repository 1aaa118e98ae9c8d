(** Specification vocabulary for run_photometry. *)
From Coq Require Import ZArith QArith List String Bool.
From Verif Require Import Base Arr Median Dict Lutil_model Lutil_spec Lexp_model Lthr_model Lmdet_model Lmdet_spec Lmeas_model Lmeas_spec.
From Verif Require Lsky_model Lsky_spec.
Import ListNotations.
Local Open Scope string_scope.
Local Open Scope Z_scope.

(** The option [k] (the option [s] of the section [k]): what the caller's
    dictionary says, or the default. *)
Definition asked (user : option nat) : nat := match user with Some u => u | None => DEFAULT end.
Definition setting (h : heap) (user : option nat) (k : string) : option val :=
  match option_of h (asked user) k with Some v => Some v | None => option_of h DEFAULT k end.
Definition subsetting (h : heap) (user : option nat) (k s : string) : option val :=
  match suboption_of h (asked user) k s with Some v => Some v | None => suboption_of h DEFAULT k s end.

(** [e'] is the exposure [e] with at most its image and mask changed. *)
Definition same_frame (e e' : exposure) : Prop :=
  e_x0 e' = e_x0 e /\ e_y0 e' = e_y0 e /\ e_var e' = e_var e /\ e_psf e' = e_psf e /\ e_wcs e' = e_wcs e.
(** Its image is the old one lowered by some backgrounds. *)
Definition sky_lowered (e e' : exposure) : Prop :=
  same_frame e e' /\ exists bgs, Lsky_spec.lowered_by (e_image e) bgs (e_image e').
(** The iterated sky subtraction of [e] gave [e']: two iterations of background
    and detection, or fewer because the stack failed in the next one (then its
    background is subtracted if it was the detection that failed). *)
Definition sky_iterated (back : exposure -> Lsky_model.exposure -> Lsky_model.failure + img Q)
    (detect : exposure -> Lsky_model.exposure -> img Z * (Lsky_model.failure + unit * option (img Q))) (e e' : exposure) : Prop :=
  same_frame e e' /\ exists l x,
    Lsky_spec.iterations (back e) (detect e) (Lsky_model.mkX (e_image e) (e_mask e) None) l x /\
    ((List.length l = 2%nat /\ e_image e' = Lsky_model.x_image x /\ e_mask e' = Lsky_model.x_mask x) \/
     ((List.length l < 2)%nat /\ exists f, (f = Lsky_model.StackError \/ f = Lsky_model.TaskFailure) /\
       ((back e x = inl f /\ e_image e' = Lsky_model.x_image x /\ e_mask e' = Lsky_model.x_mask x) \/
        exists bg m, back e x = inr bg /\
          detect e (Lsky_model.mkX (Lsky_model.lowered (Lsky_model.x_image x) bg) (Lsky_model.x_mask x) (Some (Lsky_model.mean bg))) = (m, inl f) /\
          e_image e' = Lsky_model.lowered (Lsky_model.x_image x) bg /\ e_mask e' = m))).

(** A row that says what the measurement of this source on the observations [on]
    gave: its position, and either the two fits or the reason why there are none. *)
Definition object_row_on (on : list lobs -> Prop) (env : menv) (label : string) (s : source) (r : row) : Prop :=
  at_position env s r /\ at_sky env s r /\
  at_corner (m_bands env) r /\
  sget "stamp_size" r = Some (CInt (m_stamp_size env)) /\
  exists flags, sget "stamp_flags" r = Some (CInt flags) /\
    (flags = 2 ^ 20 <-> ~ stamp_inside env s) /\
    (flags = 2 ^ 25 <-> stamp_inside env s /\ some_band_unusable env s) /\
    (flags = 0 <-> stamp_inside env s /\ ~ some_band_unusable env s) /\
    (flags = 0 -> exists obs g p, on obs /\ m_gauss env obs = Ok g /\ m_pgauss env obs = Ok p /\ has_fits g p r) /\
    (flags <> 0 -> not_attempted env r /\ sget "shear_bands" r = Some (CStr label)).
(** The same on the stamps of the exposures themselves. *)
Definition object_row (env : menv) (label : string) (s : source) (r : row) : Prop :=
  object_row_on (fun obs => source_mbobs env s = Ok obs) env label s r.

(** The row's position in arrays of the image, and its own pixel. *)
Definition place_of_row (r : row) (y x : Q) : Prop :=
  exists a b r0 c0, sget "row" r = Some (CNum (Some a)) /\ sget "col" r = Some (CNum (Some b)) /\
    sget "row0" r = Some (CInt r0) /\ sget "col0" r = Some (CInt c0) /\ y = (a - inject_Z r0)%Q /\ x = (b - inject_Z c0)%Q.
Definition pixel_of_row (r : row) (i j : Z) : Prop :=
  exists y x, place_of_row r y x /\ pixel_of y i /\ pixel_of x j.
(** Its mask column has a bit exactly when one of the masks has it there. *)
Definition ormask_column (ormasks : option (list (img Z))) (r : row) : Prop :=
  exists v, sget "ormask" r = Some (CInt v) /\
    match ormasks with
    | None => v = 0
    | Some ms => forall i j b, pixel_of_row r i j -> (forall m, In m ms -> inside m i j) -> 0 <= b ->
        (Z.testbit v b = true <-> exists m, In m ms /\ Z.testbit (px m i j) b = true)
    end.
(** [m] is the mean of the maps [ms] of the bands, with the inverse of the median
    variance of each band as its weight. *)
Definition mean_map (vars : list (img (option Q))) (ms : list (img Q)) (m : img Q) : Prop :=
  exists ws, Forall2 median_weight vars ws /\
    (0 < qsum ws)%Q /\ (forall x, In x ms -> nr x = nr m /\ nc x = nc m) /\
    forall i j, (px m i j * qsum ws == qsum (map (fun wm => fst wm * px (snd wm) i j) (combine ws ms)))%Q.
(** Its masked fraction as it is: 0 for everyone when no pixel of the map is
    positive; else, at least the box half width away from the edges, the mean
    around a point in the pixel with row and column exchanged (C57). *)
Definition mfrac_column (W : Q -> Q -> Q) (rad : Z) (m : img Q) (r : row) : Prop :=
  exists v, sget "mfrac" r = Some (CNum v) /\
    ((forall i j, inside m i j -> (px m i j <= 0)%Q) -> v = Some 0%Q) /\
    forall y x i j q, v = Some q -> place_of_row r y x -> pixel_of y i -> pixel_of x j ->
      (exists a b, inside m a b /\ (0 < px m a b)%Q) ->
      rad <= i -> rad <= j -> i + rad < Z.min (nr m) (nc m) -> j + rad < Z.min (nr m) (nc m) ->
      is_mean_around W m rad (inject_Z j + (y - inject_Z i)) (inject_Z i + (x - inject_Z j)) q.
(** Its PSF columns. *)
Definition psf_columns (p : psfstats) (r : row) : Prop :=
  sget "psfrec_flags" r = Some (CInt 0) /\ sget "psfrec_navg" r = Some (CInt (st_navg p)) /\
  sget "psfrec_g" r = Some (CPair (st_g1 p) (st_g2 p)) /\ sget "psfrec_T" r = Some (CNum (Some (st_T p))).
(** [p] is the mean of the PSF fits [fs] of the bands over the shear bands, with
    the inverse of the median variance of each band as its weight. *)
Definition mean_psf (to_g : Q -> Q -> option (Q * Q)) (shear : list Z) (fs : list psffit) (vars : list (img (option Q))) (p : psfstats) : Prop :=
  exists ws, Forall2 median_weight vars ws /\
    let total := sum_over shear (fun _ => 1%Q) fs ws in
    (0 < total)%Q /\ st_navg p = zlen shear /\
    (st_e1 p * total == sum_over shear pf_e1 fs ws)%Q /\ (st_e2 p * total == sum_over shear pf_e2 fs ws)%Q /\
    (st_T p * total == sum_over shear pf_T fs ws)%Q /\ to_g (st_e1 p) (st_e2 p) = Some (st_g1 p, st_g2 p).

(** The names of the bands asked for in the option shear_bands: all of them when
    it is None or empty. *)
Definition wanted_bands (v : option val) (names want : list string) : Prop :=
  (want = names /\ exists a, v = Some (VAtom a) /\ truthy a = false) \/ (want <> [] /\ v = Some (VAtom (ANames want))).
