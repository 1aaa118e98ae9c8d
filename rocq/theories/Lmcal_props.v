(** Property C63: metacal exposures with fixed noise. *)
From Coq Require Import ZArith QArith List String Bool Lia.
From Verif Require Import Base Arr Dict Median Lmcal_model Lmcal_spec Lmcal_proofs.
Import ListNotations.
Local Open Scope string_scope.
Local Open Scope Z_scope.

(** C63: the shear of each type is the documented one; any other type raises. *)
Theorem C63_shear : forall t,
  (forall g1 g2, get_shear_from_type t = Ok (g1, g2) <-> sget t documented = Some (Some (g1, g2))) /\
  (get_shear_from_type t = Raise ValueError <-> ~ In t ["1p"; "1m"; "2p"; "2m"]).
Proof.
  intros t. unfold get_shear_from_type, documented. cbn [sget In].
  destruct (String.eqb_spec t "noshear") as [->|N0]; [cbn; split; [split; discriminate|split; [intuition discriminate|reflexivity]]|].
  destruct (String.eqb_spec t "1p") as [->|N1]; [split; [intros g1 g2; split; intros H; inversion H; reflexivity|split; [discriminate|tauto]]|].
  destruct (String.eqb_spec t "1m") as [->|N2]; [split; [intros g1 g2; split; intros H; inversion H; reflexivity|split; [discriminate|tauto]]|].
  destruct (String.eqb_spec t "2p") as [->|N3]; [split; [intros g1 g2; split; intros H; inversion H; reflexivity|split; [discriminate|tauto]]|].
  destruct (String.eqb_spec t "2m") as [->|N4]; [split; [intros g1 g2; split; intros H; inversion H; reflexivity|split; [discriminate|tauto]]|].
  split; [split; discriminate|]. split; [intros _; intuition congruence|reflexivity].
Qed.
Print Assumptions C63_shear.

(** C63: several bands. The result has exactly the requested types; for each type
    and band the image is the sheared image plus the noise turned, sheared and
    turned back, the variance is twice the data's, and mask, band and the rest are
    the data's. The noise exposures are those before the addition. The same number
    of bands in data and noise is assumed. *)
Theorem C63_mbexps_partial : forall PSF I W P (g : galsim PSF I W P) mbexp noise types stats d nd,
  List.length noise = List.length mbexp ->
  get_metacal_mbexps_fixnoise g mbexp noise types stats = Ok (d, nd) ->
  (forall t, In t (skeys d) <-> In t (requested types)) /\ (forall t, In t (skeys nd) <-> In t (requested types)) /\
  (NoDup (requested types) -> skeys d = requested types /\ skeys nd = requested types) /\
  forall t, In t (requested types) -> exists s es ns es', (mbexp <> [] -> sget t documented = Some s) /\
    Forall2 (fun es e' => metacal_exp g (fst es) (snd es) s false e') (with_stats mbexp stats) es /\
    Forall2 (fun es e' => metacal_exp g (fst es) (snd es) s true e') (with_stats noise stats) ns /\
    sget t d = Some es' /\ sget t nd = Some ns /\
    List.length es = List.length ns /\
    Forall2 (fun p e' => fixed (fst p) (snd p) e') (combine es ns) es'.
Proof. intros PSF I W P g. exact (mbexps_fixnoise_spec g). Qed.
Print Assumptions C63_mbexps_partial.

(** C63: a single exposure, when no type is repeated. *)
Theorem C63_exps_partial : forall PSF I W P (g : galsim PSF I W P) exp noise stats types d nd,
  NoDup (requested types) ->
  get_metacal_exps_fixnoise g exp noise stats types = Ok (d, nd) ->
  skeys d = requested types /\ skeys nd = requested types /\
  forall t, In t (requested types) -> exists s e n e', sget t documented = Some s /\
    metacal_exp g exp stats s false e /\ metacal_exp g noise stats s true n /\
    sget t d = Some e' /\ sget t nd = Some n /\ fixed e n e'.
Proof. intros PSF I W P g. exact (exps_fixnoise_spec g). Qed.
Print Assumptions C63_exps_partial.

(** C63: the shapes fit: the turned, sheared and turned back noise has the shape of
    the noise image. *)
Theorem C63_shape : forall PSF I W P (g : galsim PSF I W P) exp stats s rot e', draw_shape g ->
  metacal_exp g exp stats s rot e' -> nr (e_image e') = nr (e_image exp) /\ nc (e_image e') = nc (e_image exp).
Proof.
  intros PSF I W P g exp stats s rot e' D [M _]. unfold metacal_image in M. destruct rot.
  - destruct M as [m [[w [k [p [_ [_ [_ E]]]]]] ->]]. destruct (D _ _ _ _ _ _ E) as [A B]. cbn in *. auto.
  - destruct M as [w [k [p [_ [_ [_ E]]]]]]. exact (D _ _ _ _ _ _ E).
Qed.
Print Assumptions C63_shape.

(** C63: if drawing follows a quarter turn of the image, under which a shear
    changes sign, the noise of a type is sheared the opposite way. *)
Definition opposite (s : option (Q * Q)) : option (Q * Q) := option_map (fun g => (- fst g, - snd g)%Q) s.
Definition turns {PSF I W P} (g : galsim PSF I W P) : Prop :=
  forall im w k s p m, g_draw g (rot90 im) w k s p = Ok m -> exists m', g_draw g im w k (opposite s) p = Ok m' /\ img_eq m (rot90 m').
Theorem C63_noise_opposite : forall PSF I W P (g : galsim PSF I W P) exp stats s im', turns g ->
  metacal_image g exp stats s true im' ->
  exists m, metacal_image g exp stats (opposite s) false m /\ img_eq im' m.
Proof.
  intros PSF I W P g exp stats s im' T [m [[w [k [p [E1 [E2 [E3 E4]]]]]] ->]]. destruct (T _ _ _ _ _ _ E4) as [m' [F [G1 [G2 G3]]]].
  exists m'. split; [exists w, k, p; auto|]. cbn in G1, G2. split; [cbn; auto|]. split; [cbn; auto|].
  intros i j [Hi Hj]. cbn in Hi, Hj |- *. rewrite G3 by (unfold inside; cbn; lia). cbn. f_equal; lia.
Qed.
Print Assumptions C63_noise_opposite.

(** C63: success, and the errors: an unknown type, statistics of another length. *)
Theorem C63_succeeds : forall PSF I W P (g : galsim PSF I W P) mbexp noise types stats, works g ->
  (forall t, In t (requested types) -> sget t documented <> None) -> List.length noise = List.length mbexp ->
  match stats with Some s => List.length s = List.length mbexp | None => True end ->
  exists d nd, get_metacal_mbexps_fixnoise g mbexp noise types stats = Ok (d, nd).
Proof. intros PSF I W P g mbexp noise types stats Wk. exact (mbexps_fixnoise_known g Wk mbexp noise types stats). Qed.
Print Assumptions C63_succeeds.
Theorem C63_errors : forall PSF I W P (g : galsim PSF I W P) exp stats types rot mbexp noise sts,
  (works g -> (exists t, In t (requested types) /\ sget t documented = None) -> get_metacal_exps g exp stats types rot = Raise ValueError) /\
  (List.length sts <> List.length mbexp -> get_metacal_mbexps_fixnoise g mbexp noise types (Some sts) = Raise AssertionError).
Proof.
  intros PSF I W P g exp stats types rot mbexp noise sts. split.
  - intros Wk [t [Ht Hd]]. exact (exps_unknown g Wk exp stats types rot t Ht Hd).
  - intros N. unfold get_metacal_mbexps_fixnoise, get_metacal_mbexps.
    assert (E : zlen sts =? zlen mbexp = false) by (apply Z.eqb_neq; unfold zlen; lia). rewrite E. reflexivity.
Qed.
Print Assumptions C63_errors.

(** ** Concrete cases: a drawing that scales the image by 1 + g1 + 2 g2. *)
Definition gx : galsim unit unit unit unit :=
  mkG (fun _ => Ok tt) (fun _ => Ok (ifill 3 3 1%Q)) (fun _ _ _ => 1%Q) (fun _ _ => Ok tt) (fun _ _ _ => Ok tt) (fun p _ => p)
    (fun _ k _ => k) (fun im _ _ s _ => Ok (imap (fun v => v * match s with None => 1 | Some (a, b) => 1 + a + 2 * b end)%Q im)) (fun _ => tt).
Definition ex (v var : Q) (b : string) : exposure unit unit := mkE (mkImg 2 3 (fun i j => v + inject_Z (10 * i + j))%Q) (ifill 2 3 (Some var)) (ifill 2 3 0) tt b tt.
Example C63_example : exists d nd es,
  works gx /\ draw_shape gx /\ NoDup (requested None) /\
  get_metacal_mbexps_fixnoise gx [ex 1 1 "g"; ex 2 3 "r"] [ex 5 1 "g"; ex 6 3 "r"] None None = Ok (d, nd) /\
  skeys d = ["noshear"; "1p"; "1m"] /\ sget "1p" d = Some es /\
  Forall2 (fun e v => px (e_image e) 1 2 == v)%Q es [(13 + 17) * (101 # 100); (14 + 18) * (101 # 100)]%Q /\
  map (fun e => option_map Qred (px (e_var e) 0 0)) es = [Some 2; Some 6]%Q.
Proof.
  eexists. eexists. eexists. split; [repeat split; intros; eexists; reflexivity|].
  split; [intros im w k s p im' H; apply Ok_inj in H; subst im'; split; reflexivity|].
  split; [repeat constructor; cbn; intuition discriminate|]. split; [reflexivity|]. split; [reflexivity|]. split; [reflexivity|].
  split; [|vm_compute; reflexivity]. repeat constructor; vm_compute; reflexivity.
Qed.

(** A drawing that follows turns: it adds g1 times a pattern that changes sign under
    a quarter turn. *)
Definition wave (im : img Q) (i j : Z) : Z := (2 * i + 1 - nr im) * (2 * i + 1 - nr im) - (2 * j + 1 - nc im) * (2 * j + 1 - nc im).
Definition gy : galsim unit unit unit unit :=
  mkG (fun _ => Ok tt) (fun _ => Ok (ifill 3 3 1%Q)) (fun _ _ _ => 1%Q) (fun _ _ => Ok tt) (fun _ _ _ => Ok tt) (fun p _ => p) (fun _ k _ => k)
    (fun im _ _ s _ => Ok (match s with None => im | Some (a, _) => mkImg (nr im) (nc im) (fun i j => px im i j + a * inject_Z (wave im i j))%Q end)) (fun _ => tt).
Example C63_turns : turns gy.
Proof.
  intros im w k [[a b]|] p m H; apply Ok_inj in H; subst m; eexists; (split; [reflexivity|]); [|split; [reflexivity|split; [reflexivity|intros; reflexivity]]].
  split; [reflexivity|]. split; [reflexivity|]. intros i j _. cbn. f_equal. unfold Qmult. cbn. f_equal. unfold wave. cbn [nr nc rot90]. ring.
Qed.

(** C63: noise with fewer bands than the data is accepted; the band without noise
    keeps its variance. *)
Theorem C63_missing_band_refuted : exists (g : galsim unit unit unit unit) mbexp noise types d nd es e,
  get_metacal_mbexps_fixnoise g mbexp noise types None = Ok (d, nd) /\ List.length mbexp = 2%nat /\
  sget "1p" d = Some es /\ nth_error es 1 = Some e /\ ~ twice (px (e_var (ex 2 3 "r")) 0 0) (px (e_var e) 0 0) /\ nth_error mbexp 1 = Some (ex 2 3 "r").
Proof.
  exists gx, [ex 1 1 "g"; ex 2 3 "r"], [ex 5 1 "g"], None. eexists. eexists. eexists. eexists.
  split; [reflexivity|]. split; [reflexivity|]. split; [reflexivity|]. split; [reflexivity|]. split; [vm_compute; discriminate|]. split; reflexivity.
Qed.
Print Assumptions C63_missing_band_refuted.
(** C63: a repeated type makes the single exposure function add the noise twice. *)
Theorem C63_repeated_refuted : exists (g : galsim unit unit unit unit) exp noise types d nd e n e',
  get_metacal_exps_fixnoise g exp noise None types = Ok (d, nd) /\ sget "1p" d = Some e' /\ sget "1p" nd = Some n /\
  metacal_exp g exp None (Some (1 # 100, 0)%Q) false e /\ ~ fixed e n e'.
Proof.
  exists gx, (ex 1 1 "g"), (ex 5 1 "g"), (Some ["1p"; "1p"]). eexists. eexists.
  exists (mkE (imap (fun v => v * (1 + (1 # 100) + 2 * 0))%Q (e_image (ex 1 1 "g"))) (ifill 2 3 (Some 1%Q)) (ifill 2 3 0) tt "g" tt). eexists. eexists.
  split; [reflexivity|]. split; [reflexivity|]. split; [reflexivity|]. split.
  - assert (T : is_target gx (ex 1 1 "g") None tt) by (exists tt, (ifill 3 3 1%Q), tt; repeat split).
    split; [|split; [exists tt, (ifill 3 3 1%Q), tt; repeat split; exact T|repeat split]].
    exists tt, (ifill 3 3 1%Q), tt. repeat split; try exact T.
  - intros [_ [_ [_ [_ [_ [V _]]]]]]. specialize (V 0 0). vm_compute in V. discriminate.
Qed.
Print Assumptions C63_repeated_refuted.
