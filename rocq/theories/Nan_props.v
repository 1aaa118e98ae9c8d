(** C127: pixels that are infinite or not a number. *)
From Coq Require Import ZArith QArith List Bool Lia Lqa.
From Verif Require Import Base Arr Median Nan_model Nan_spec Nan_proofs.
From Verif Require Detect_model Coadd_spec Lexp_model Lexp_spec Lmdet_model.
Import ListNotations.
Local Open Scope Z_scope.

(** The detection image is finite exactly where every band is, and there it is the
    detection image of the data without the bad pixels. *)
Theorem C127_detection : forall nodet bands, bands <> [] -> (forall b, In b bands -> has_data b) ->
  exists detim wsum mask, Detect_model.set_detim nodet (map tidy bands) = Some (detim, wsum, mask) /\
    nr (x_detim bands) = nr detim /\ nc (x_detim bands) = nc detim /\
    forall i j, (finite (px (x_detim bands) i j) <-> forall b, In b bands -> finite (px (xb_image b) i j)) /\
      (finite (px (x_detim bands) i j) -> is (px (x_detim bands) i j) (px detim i j)).
Proof. exact detection. Qed.
Print Assumptions C127_detection.

(** A band without any positive weight: nothing of the detection image is left. *)
Theorem C127_detection_unusable : forall bands b i j, In b bands ->
  (forall k l, inside (xb_weight b) k l -> ~ positive (px (xb_weight b) k l)) -> px (x_detim bands) i j = NaN.
Proof. exact detection_none. Qed.
Print Assumptions C127_detection_unusable.

(** The coadd of observations: its image is finite exactly where every band is, and there
    it is the mean of the bands. Its weight is finite everywhere, 0 where some band's weight
    is nan or 0, and otherwise one over the variance of the mean. *)
Theorem C127_coadd : forall obs, obs <> [] -> (forall o, In o obs -> has_data o) ->
  exists ws im wt, x_coadd obs = Some (im, wt) /\
    Forall2 (fun o w => Coadd_spec.positive_median (imap clean (xb_weight o)) w /\ (0 < w)%Q) obs ws /\
    forall i j,
      (finite (px im i j) <-> forall o, In o obs -> finite (px (xb_image o) i j)) /\
      (finite (px im i j) -> is (px im i j) (Coadd_spec.wavg (fun o => clean (px (xb_image o) i j)) obs ws)) /\
      ((forall o, In o obs -> px (xb_weight o) i j = NaN \/ exists q, px (xb_weight o) i j = Fin q /\ (0 <= q)%Q) ->
         ((exists o, In o obs /\ ~ positive (px (xb_weight o) i j)) -> px wt i j = Fin 0) /\
         ((forall o, In o obs -> positive (px (xb_weight o) i j)) ->
            exists v, px wt i j = Fin v /\ (0 < v)%Q /\
              (v * qsum (map (fun ow => snd ow * snd ow / clean (px (xb_weight (fst ow)) i j)) (combine obs ws)) == qsum ws * qsum ws)%Q)).
Proof. exact coadd. Qed.
Print Assumptions C127_coadd.

Theorem C127_coadd_unusable : forall obs o, In o obs ->
  (forall k l, inside (xb_weight o) k l -> ~ positive (px (xb_weight o) k l)) -> x_coadd obs = None.
Proof. exact coadd_none. Qed.
Print Assumptions C127_coadd_unusable.

(** The coadd of exposures: bad pixels whose variance is not positive do not matter at all;
    the image is finite exactly where all others are, and there it is the coadd of the data
    without the bad pixels. Its variance is never nan. *)
Theorem C127_exposures : forall xs, let es := map (fun eb => tidy_exposure (fst eb) (snd eb)) xs in
  xs <> [] -> Lexp_spec.compatible es -> Lexp_spec.usable es ->
  exists co im var, Lexp_model.coadd_exposures es = Ok (Some co) /\ x_coadd_exposures (map snd xs) = Some (im, var) /\
    forall i j,
      (finite (px im i j) <-> forall b, In b (map snd xs) -> positive (px (xb_weight b) i j) -> finite (px (xb_image b) i j)) /\
      (finite (px im i j) -> exists v, px (Lexp_model.c_image co) i j = Some v /\ is (px im i j) v) /\
      match px (Lexp_model.c_var co) i j with Some v => is (px var i j) v | None => px var i j = Inf false end.
Proof. exact exposures. Qed.
Print Assumptions C127_exposures.

Theorem C127_exposures_unusable : forall bs b, In b bs ->
  (forall k l, inside (xb_weight b) k l -> ~ positive (px (xb_weight b) k l)) ->
  exists im var, x_coadd_exposures bs = Some (im, var) /\ forall i j, px im i j = NaN.
Proof. exact exposures_none. Qed.
Print Assumptions C127_exposures_unusable.

(** The masked fraction of the LSST pipeline. Variances that are infinite or nan are left
    out; without others the call fails. *)
Theorem C127_mfrac : forall bands mf ws,
  Lmdet_model.get_mfrac_mbexp (map (fun b => imap clean_var (xb_weight b)) bands) (Some (map (fun b => imap clean (xb_image b)) bands)) = Ok (mf, ws) ->
  exists im, x_mfrac bands = Ok im /\ forall i j,
    (finite (px im i j) <-> forall b, In b bands -> finite (px (xb_image b) i j)) /\
    (finite (px im i j) -> is (px im i j) (px mf i j)).
Proof. exact mfrac. Qed.
Print Assumptions C127_mfrac.

Theorem C127_mfrac_refused : forall bands, bands <> [] ->
  (x_mfrac bands = Raise ValueError <->
   exists b, In b bands /\ forall i j, inside (xb_weight b) i j -> finite (px (xb_weight b) i j) -> ~ positive (px (xb_weight b) i j)).
Proof. exact mfrac_refused. Qed.
Print Assumptions C127_mfrac_refused.

(** All of these have the shape of the image of the first band. *)
Theorem C127_shapes : forall b rest, let shape {A} (m : img A) := nr m = nr (xb_image b) /\ nc m = nc (xb_image b) in
  shape (x_detim (b :: rest)) /\
  (forall im wt, x_coadd (b :: rest) = Some (im, wt) -> shape im /\ shape wt) /\
  (forall im var, x_coadd_exposures (b :: rest) = Some (im, var) -> shape im /\ shape var) /\
  (forall im, x_mfrac (b :: rest) = Ok im -> shape im).
Proof.
  intros b rest shape. split; [split; reflexivity|]. split; [|split].
  - intros im wt H. unfold x_coadd in H. destruct (forallb _ _); [|discriminate]. cbv zeta in H. apply Some_inj in H. injection H as <- <-. split; split; reflexivity.
  - intros im var H. unfold x_coadd_exposures in H. cbv zeta in H. destruct (match xsum _ with Fin _ => _ | Inf _ => _ | NaN => _ end); [discriminate|].
    apply Some_inj in H. injection H as <- <-. split; split; reflexivity.
  - intros im H. unfold x_mfrac in H. cbv zeta in H. destruct (forallb _ _); [|discriminate]. apply Ok_inj in H. subst im. split; reflexivity.
Qed.
Print Assumptions C127_shapes.

(** ** Two bands of 2 x 3 pixels: (0, 0) is nan in one and +infinity in the other, (0, 1) is
    infinite in one; (1, 1) has weight nan in one band. *)
Definition ex_b1 : xband := mkXb
  (mkImg 2 3 (fun i j => if (i =? 0) && (j =? 0) then NaN else Fin (inject_Z (i + j))))
  (mkImg 2 3 (fun i j => if (i =? 1) && (j =? 1) then NaN else Fin 2)).
Definition ex_b2 : xband := mkXb
  (mkImg 2 3 (fun i j => if (i =? 0) && (j <? 2) then Inf (j =? 1) else Fin 4))
  (mkImg 2 3 (fun i j => if i =? 0 then Fin 0 else Fin 6)).
Lemma ex_has_data : forall b, In b [ex_b1; ex_b2] -> has_data b.
Proof.
  intros b [<-|[<-|[]]]; (split; [exists 1, 0; split; [unfold inside; cbn; lia|right; eexists; split; [reflexivity|reflexivity]]|]);
    intros i j _; cbn; [destruct ((i =? 1) && (j =? 1)); discriminate|destruct (i =? 0); discriminate].
Qed.
Example C127_detection_ex : (forall b, In b [ex_b1; ex_b2] -> has_data b) /\
  px (x_detim [ex_b1; ex_b2]) 0 0 = NaN /\ px (x_detim [ex_b1; ex_b2]) 0 1 = Inf true /\
  is (px (x_detim [ex_b1; ex_b2]) 0 2) (7 # 2) /\ is (px (x_detim [ex_b1; ex_b2]) 1 1) (7 # 2).
Proof.
  split; [exact ex_has_data|]. split; [vm_compute; reflexivity|]. split; [vm_compute; reflexivity|].
  split; (eexists; split; [vm_compute; reflexivity|reflexivity]).
Qed.
(** The weight is 0 at (0, 2), where the second band has none, and at (1, 1), where that of
    the first is nan. *)
Example C127_coadd_ex : exists im wt, x_coadd [ex_b1; ex_b2] = Some (im, wt) /\
  px im 0 0 = NaN /\ is (px im 1 2) (15 # 4) /\ px wt 0 2 = Fin 0 /\ px wt 1 1 = Fin 0 /\ is (px wt 1 2) 8.
Proof.
  eexists. eexists. split; [reflexivity|]. split; [vm_compute; reflexivity|]. split; [eexists; split; [vm_compute; reflexivity|reflexivity]|].
  split; [vm_compute; reflexivity|]. split; [vm_compute; reflexivity|]. eexists; split; [vm_compute; reflexivity|reflexivity].
Qed.
(** As exposures: the infinite pixels of the second band have variance 0. *)
Definition ex_e : Lexp_model.exposure := Lexp_model.mkExp 0 0 (ifill 2 3 0%Q) (ifill 2 3 (Some 0%Q)) (ifill 2 3 0)
  (Some (fun _ _ => ifill 3 3 1%Q)) (Some 0).
Definition ex_xs := [(ex_e, ex_b1); (ex_e, ex_b2)].
Example C127_exposures_ex :
  (let es := map (fun eb => tidy_exposure (fst eb) (snd eb)) ex_xs in Lexp_spec.compatible es /\ Lexp_spec.usable es) /\
  exists im var, x_coadd_exposures (map snd ex_xs) = Some (im, var) /\
    px im 0 0 = NaN /\ is (px im 0 1) (3 # 4) /\ is (px im 1 2) (13 # 4) /\ is (px var 0 1) 2 /\ is (px var 1 2) (3 # 2).
Proof.
  split.
  - cbv zeta. split.
    + exists 2, 3, 3. intros e [<-|[<-|[]]]; (split; [reflexivity|]; split; [reflexivity|]; eexists; split; [reflexivity|]; intros; split; reflexivity).
    + split.
      * intros e [<-|[<-|[]]]; exists 1, 0; (split; [unfold inside; cbn; lia|reflexivity]).
      * eexists. split; [left; reflexivity|]. unfold Lexp_spec.unusable. vm_compute. lia.
  - eexists. eexists. split; [reflexivity|]. split; [vm_compute; reflexivity|].
    split; [eexists; split; [vm_compute; reflexivity|reflexivity]|]. split; [eexists; split; [vm_compute; reflexivity|reflexivity]|].
    split; (eexists; split; [vm_compute; reflexivity|reflexivity]).
Qed.
Example C127_mfrac_ex : exists mf ws im,
  Lmdet_model.get_mfrac_mbexp (map (fun b => imap clean_var (xb_weight b)) [ex_b1; ex_b2]) (Some (map (fun b => imap clean (xb_image b)) [ex_b1; ex_b2])) = Ok (mf, ws) /\
  x_mfrac [ex_b1; ex_b2] = Ok im /\ px im 0 1 = Inf true /\ is (px im 1 1) (10 # 4).
Proof.
  eexists. eexists. eexists. split; [reflexivity|]. split; [reflexivity|]. split; [vm_compute; reflexivity|]. eexists; split; [vm_compute; reflexivity|reflexivity].
Qed.
(** A band with weight nan, 0 and -infinity only is without data. *)
Definition ex_none : xband := mkXb (ifill 2 3 (Fin 1)) (mkImg 2 3 (fun i j => if j =? 0 then NaN else if j =? 1 then Fin 0 else Inf true)).
Example C127_none_ex : (forall k l, inside (xb_weight ex_none) k l -> ~ positive (px (xb_weight ex_none) k l)) /\
  px (x_detim [ex_b1; ex_none]) 1 2 = NaN /\ x_coadd [ex_b1; ex_none] = None /\ x_mfrac [ex_b1; ex_none] = Raise ValueError.
Proof.
  split; [|split; [vm_compute; reflexivity|split; vm_compute; reflexivity]]. intros k l _ [E|(q & E & P)]; cbn in E; destruct (l =? 0); try discriminate; destruct (l =? 1); try discriminate.
  injection E as <-. now apply Qlt_irrefl in P.
Qed.
