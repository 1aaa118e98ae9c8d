(** C91: stamps; C92: the settings of the source extractor; C93: fitters by name. *)
From Coq Require Import ZArith QArith List String Bool Lia Permutation.
From Verif Require Import Base Arr Median Dict Lutil_model Lutil_spec Lexp_model Lexp_spec Lmeas_model Lmeas_spec
  Lrest_model Lrest_spec Lrest_proofs.
Import ListNotations.
Local Open Scope string_scope.
Local Open Scope Z_scope.

(** ** C91 *)

(** One observation per band, in the order of the bands, all of the same box: with
    clip the pixels of the exposures within half the stamp size of the first peak,
    without clip every pixel within it, all of which then lie in the exposures.
    Pixel values and mask are those of the exposure at the same position of the
    sky plane; the jacobian is centred on the object, the PSF is drawn at its
    centroid. *)
Theorem C91_stamp : forall env s size clip l x y pks, aligned (m_bands env) -> m_bands env <> [] -> 0 <= size ->
  s_peaks s = (x, y) :: pks -> get_stamp_mbobs env s size clip = Ok l ->
  map fst l = seq 0 (List.length (m_bands env)) /\
  exists x0 y0 h w, stamp_box (m_bands env) x y (size / 2) clip x0 y0 h w /\
    (clip = false -> forall X Y, x - size / 2 <= X <= x + size / 2 -> y - size / 2 <= Y <= y + size / 2 ->
       forall e, In e (m_bands env) -> in_exposure e X Y) /\
    Forall2 (fun e o => part_observed (m_W env)
      (match m_skypix env (s_id s) with Some p => p | None => (inject_Z x, inject_Z y) end)
      (match m_cen env (s_id s) with Some p => p | None => m_nanpos env end) e x0 y0 h w o) (m_bands env) (map snd l).
Proof. intros env s size clip l x y pks A N S P H. exact (stamp_ok env s size clip l x y pks A S P H N). Qed.
Print Assumptions C91_stamp.

(** Refusal at the edge: without clip whenever a pixel of the window lies outside
    the exposures, with clip never for a peak inside. *)
Theorem C91_edge : forall env s size x y pks, 0 <= size -> s_peaks s = (x, y) :: pks ->
  (forall X Y, x - size / 2 <= X <= x + size / 2 -> y - size / 2 <= Y <= y + size / 2 ->
     (forall e, In e (m_bands env) -> ~ in_exposure e X Y) -> get_stamp_mbobs env s size false = Raise LengthError) /\
  (aligned (m_bands env) -> (forall e, In e (m_bands env) -> in_exposure e x y) -> get_stamp_mbobs env s size true <> Raise LengthError).
Proof.
  intros env s size x y pks S P. split.
  - intros X Y HX HY O. exact (noclip_refused env s size x y pks X Y S P HX HY O).
  - intros A I. exact (clip_never_edge env s size x y pks A S P I).
Qed.
Print Assumptions C91_edge.

(** The extractor: the stamps are those of the source with that id, which has no
    children; any other id is refused by every method, and the with statement runs
    its block. *)
Theorem C91_extractor : forall env order cat id size clip, catalogue cat -> lists_set order ->
  (forall l, get_mbobs_clip env order cat id size clip = Ok l ->
     exists s, In s (childless cat) /\ s_id s = id /\ get_stamp_mbobs env s size clip = Ok l) /\
  ((forall s, In s (childless cat) -> s_id s <> id) ->
     get_mbobs_clip env order cat id size clip = Raise ValueError /\
     forall A (body : outcome A), with_source order cat id body = Raise ValueError) /\
  (forall s A (body : outcome A), In s (childless cat) -> with_source order cat (s_id s) body = body) /\
  exists cs, children order cat = map Some cs /\ Permutation cs (childless cat).
Proof.
  intros env order cat id size clip C O. split; [|split; [|split]].
  - intros l H. destruct (mbobs_child _ _ _ _ _ _ _ O H) as (s & I & E & s' & F & G). exists s. split; [exact I|]. split; [exact E|].
    unfold childless in I. apply filter_In in I. rewrite <- E, (Lmeas_proofs.find_source_In cat s C (proj1 I)) in F. congruence.
  - intros N. pose proof (not_child order cat id O N) as E. unfold get_mbobs_clip, with_source. rewrite E. auto.
  - intros s A body I. unfold with_source, check_source_id. assert (J : In (s_id s) (child_ids order cat)) by (apply (Lmeas_proofs.child_ids_In order cat _ O); eauto).
    replace (existsb (Z.eqb (s_id s)) (child_ids order cat)) with true; [reflexivity|]. symmetry. apply existsb_exists.
    exists (s_id s). split; [exact J|apply Z.eqb_refl].
  - exact (children_all order cat C O).
Qed.
Print Assumptions C91_extractor.

(** The measurement uses the stamps without clip. *)
Theorem C91_measured : forall env s obs, source_mbobs env s = Ok obs ->
  get_stamp_mbobs env s (m_stamp_size env) false = Ok (combine (seq 0 (List.length (m_bands env))) obs).
Proof. exact source_stamp. Qed.
Print Assumptions C91_measured.

Definition sA : exposure :=
  mkExp 100 200 (mkImg 9 9 (fun i j => inject_Z (10 * i + j))) (ifill 9 9 (Some 2%Q)) (mkImg 9 9 (fun i j => i)) (Some (fun _ _ => ifill 3 3 1%Q)) (Some 7).
Definition sB : exposure :=
  mkExp 100 200 (ifill 9 9 3%Q) (ifill 9 9 (Some 4%Q)) (ifill 9 9 0) (Some (fun _ _ => ifill 3 3 1%Q)) (Some 7).
Definition senv : menv :=
  mkMenv [sA; sB] 100 200 (ifill 9 9 0) (fun _ => Some (101%Q, 205%Q)) (fun _ => None) (fun _ _ _ => mkMat 1 0 0 1) (fun c => c)
    (fun _ => Raise ValueError) (fun _ => Raise ValueError) (0%Q, 0%Q) 1 32 5 (Ok [0]).
Definition edge_source : source := mkSrc 4 0 [(101, 205)] (101%Q, 205%Q).
Example C91_example :
  aligned (m_bands senv) /\ s_peaks edge_source = [(101, 205)] /\
  get_stamp_mbobs senv edge_source 5 false = Raise LengthError /\
  (exists o1 o2, get_stamp_mbobs senv edge_source 5 true = Ok [(0%nat, o1); (1%nat, o2)] /\
     nr (o_image o1) = 5 /\ nc (o_image o1) = 4 /\ px (o_image o1) 0 0 = inject_Z 30 /\ (px (o_weight o2) 1 1 == 1 # 4)%Q) /\
  get_mbobs_clip senv (fun l => l) [edge_source] 4 3 false <> Raise LengthError /\
  get_mbobs_clip senv (fun l => l) [edge_source] 5 3 false = Raise ValueError /\
  stamp_box (m_bands senv) 101 205 2 true 100 203 5 4.
Proof.
  split. { intros a b [<-|[<-|[]]] [<-|[<-|[]]]; repeat split. }
  split; [reflexivity|]. split; [reflexivity|]. split. { eexists _, _. repeat split. }
  split; [vm_compute; discriminate|]. split; [reflexivity|]. split; [lia|]. split; [lia|]. intros X Y. split.
  - intros H. split; [lia|]. split; [lia|]. intros _ e [<-|[<-|[]]]; unfold in_exposure; cbn; lia.
  - intros (H1 & H2 & H3). assert (H4 := H3 eq_refl sA (or_introl eq_refl)). unfold in_exposure in H4. cbn in H4. lia.
Qed.

(** ** C92 *)

(** For every history of detections: no dictionary that existed before is changed;
    each detection configured by the caller's dictionary sees the caller's
    threshold and, in a dictionary of its own, every other entry; a missing
    threshold or filter kernel is a KeyError every time; a detection without
    configuration sees the defaults of sxdes. *)
Theorem C92_settings : forall glob gthr h args h' os, sx_history glob gthr h args = (h', os) ->
  List.length os = List.length args /\
  (forall p d, nth_error h p = Some d -> nth_error h' p = Some d) /\
  (forall i o, nth_error args i = Some None -> nth_error os i = Some o -> o = Ok (gthr, glob)) /\
  (forall i a o d, nth_error args i = Some (Some a) -> nth_error os i = Some o -> nth_error h a = Some d -> NoDup (map fst d) ->
    (sget "filter_kernel" d = None \/ sget "detect_thresh" d = None -> o = Raise KeyError) /\
    (forall kernel thr, sget "filter_kernel" d = Some kernel -> sget "detect_thresh" d = Some thr ->
       exists p d', o = Ok (thr, p) /\ nth_error h p = None /\ nth_error h' p = Some d' /\ settings_of d d')).
Proof.
  intros glob gthr h args h' os H. destruct (sx_all _ _ _ _ _ _ H) as [A B]. split; [exact (sx_length _ _ _ _ _ _ H)|].
  split; [exact A|]. split; [exact (sx_default _ _ _ _ _ _ H)|exact B].
Qed.
Print Assumptions C92_settings.
Definition sx_user : list (string * sxval) :=
  [("detect_thresh", SNum 3); ("deblend_cont", SNum (1 # 100)); ("filter_kernel", SSeq [1%Q; 2%Q; 1%Q])].
Example C92_example :
  exists h, sx_history 1 (SNum (8 # 10)) [sx_user; [("minarea", SNum 4)]; [("detect_thresh", SNum 1)]] [Some 0%nat; Some 0%nat; None; Some 2%nat] =
    (h, [Ok (SNum 3, 3%nat); Ok (SNum 3, 4%nat); Ok (SNum (8 # 10), 1%nat); Raise KeyError]) /\
  nth_error h 0 = Some sx_user /\ NoDup (map fst sx_user) /\
  nth_error h 4 = Some [("deblend_cont", SNum (1 # 100)); ("filter_kernel", SArr [1%Q; 2%Q; 1%Q])].
Proof.
  eexists. split; [vm_compute; reflexivity|]. split; [reflexivity|]. split; [|reflexivity].
  cbn. repeat constructor; cbn; intuition discriminate.
Qed.

(** ** C93 *)

(** The fitter for a measurement type: which, with which width, and when it is
    refused. The width is read before the name is checked. *)
Theorem C93_fitter : forall c f, get_fitter c = Ok f <->
  exists t, fc_meas_type c = Some t /\
   (t = "am" /\ f = FAdmom "am" 2 \/ t = "gauss" /\ f = FGauss \/
    exists w, fc_weight c = Some (Some w) /\
      (t = "wmom" /\ f = FWmom w \/ t = "ksigma" /\ f = FKsigma w \/ t = "pgauss" /\ f = FPgauss w)).
Proof.
  intros [t w] f. unfold get_fitter. cbn [fc_meas_type fc_weight]. split.
  - destruct t as [t|]; cbn [key obind]; [|discriminate]. intros H. exists t. split; [reflexivity|].
    destruct (String.eqb_spec t "am"); [apply Ok_inj in H; auto|]. destruct (String.eqb_spec t "gauss"); [apply Ok_inj in H; auto|].
    destruct w as [[w|]|]; cbn [key obind] in H; try discriminate. right. right. exists w. split; [reflexivity|].
    destruct (String.eqb_spec t "wmom"); [apply Ok_inj in H; auto|]. destruct (String.eqb_spec t "ksigma"); [apply Ok_inj in H; auto|].
    destruct (String.eqb_spec t "pgauss"); [apply Ok_inj in H; auto|discriminate].
  - intros (t' & E & H). subst t. cbn [key obind].
    destruct H as [[-> ->]|[[-> ->]|(w' & -> & [[-> ->]|[[-> ->]|[-> ->]]])]]; reflexivity.
Qed.
Print Assumptions C93_fitter.
Theorem C93_refusal : forall c e, get_fitter c = Raise e ->
  (e = KeyError /\ (fc_meas_type c = None \/ fc_weight c = None \/ fc_weight c = Some None)) \/
  (e = ValueError /\ exists t, fc_meas_type c = Some t /\ ~ In t ["am"; "gauss"; "wmom"; "ksigma"; "pgauss"]).
Proof.
  intros [t w] e H. unfold get_fitter in H. cbn [fc_meas_type fc_weight] in *.
  destruct t as [t|]; cbn [key obind] in H; [|injection H as <-; auto].
  destruct (String.eqb_spec t "am"); [discriminate|]. destruct (String.eqb_spec t "gauss"); [discriminate|].
  destruct w as [[w|]|]; cbn [key obind] in H; try (injection H as <-; auto).
  destruct (String.eqb_spec t "wmom"); [discriminate|]. destruct (String.eqb_spec t "ksigma"); [discriminate|].
  destruct (String.eqb_spec t "pgauss"); [discriminate|]. injection H as <-. right. split; [reflexivity|]. exists t. split; [reflexivity|].
  cbn. intuition congruence.
Qed.
Print Assumptions C93_refusal.
Theorem C93_pgauss : forall fwhm f, get_pgauss_fitter fwhm = Ok f <-> exists w, fwhm = Some w /\ f = FPgauss w.
Proof. intros [w|] f; cbn; split; [intros H; apply Ok_inj in H; eauto|intros (w' & H & ->); apply Some_inj in H; congruence|discriminate|intros (w & H & _); discriminate]. Qed.
Print Assumptions C93_pgauss.
Example C93_example :
  get_fitter (mkFitconf (Some "ksigma") (Some (Some (12 # 10)%Q))) = Ok (FKsigma (12 # 10)) /\
  get_fitter (mkFitconf (Some "exp") None) = Raise KeyError /\ get_fitter (mkFitconf (Some "exp") (Some (Some 1%Q))) = Raise ValueError.
Proof. repeat split. Qed.
