(** C56 to C58, C74, C75: the columns MetadetectTask.run adds to the tables. *)
From Coq Require Import ZArith QArith List String Bool Lia Lqa.
From Verif Require Import Base Arr Median Flags_model Lmdet_model Lmdet_spec Lmdet_proofs.
Import ListNotations.
Local Open Scope string_scope.
Local Open Scope Z_scope.

Ltac pix := unfold own_pixel, pixel_of; repeat split; first [apply Qle_bool_iff; reflexivity | apply Qlt_alt; reflexivity].

(** ** C56 *)

(** For every list of bit masks and every table whose objects lie on the image:
    the column is added without an exception, rows stay as they are and in
    order, and bit b of an object is set exactly when some band's mask has it at
    the object's own pixel. *)
Theorem C56_ormask_column : forall dims ormasks om res,
  combine_ormasks dims ormasks = Ok om ->
  Forall (fun x => exists i j, own_pixel x i j /\ inside om i j) res ->
  exists res', add_ormask om res = Ok res' /\
  Forall2 (fun x x' => same_object x x' /\ l_mfrac x' = l_mfrac x /\ l_psfrec x' = l_psfrec x /\
    forall i j b, own_pixel x i j -> 0 <= b ->
      (Z.testbit (l_ormask x') b = true <->
       exists ms m, ormasks = Some ms /\ In m ms /\ Z.testbit (px m i j) b = true)) res res'.
Proof.
  intros dims ormasks om res C F. destruct (add_ormask_total om res F) as [res' E].
  exists res'. split; [assumption|]. apply add_ormask_spec in E.
  revert F. induction E as [|x x' l l' [G ->] E IH]; intro F; inversion F; subst; constructor; [|now apply IH].
  split; [repeat split|]. do 2 (split; [reflexivity|]). intros i j b O Hb.
  destruct H1 as (i' & j' & O' & I). destruct (own_pixel_nearest _ _ _ O) as [-> ->].
  destruct (own_pixel_nearest _ _ _ O') as [-> ->]. rewrite np_get_inside in G by assumption.
  apply Ok_inj in G. cbn. cbn in G. rewrite <- G. now apply (combine_ormasks_bits dims).
Qed.
Print Assumptions C56_ormask_column.

(** The size of the combined mask: the image's, or that of every given mask. *)
Theorem C56_combined_size : forall dims ormasks om, combine_ormasks dims ormasks = Ok om ->
  match ormasks with
  | None => nr om = fst dims /\ nc om = snd dims
  | Some ms => ms <> [] /\ forall m, In m ms -> nr m = nr om /\ nc m = nc om
  end.
Proof.
  intros dims [[|m ms]|] om H; cbn [combine_ormasks] in H; [discriminate| |].
  - split; [discriminate|]. destruct (ofold_or _ _ _ H) as (A & B & C & _). intros x [<-|I]; [now rewrite A, B|rewrite A, B; rewrite Forall_forall in C; now apply C].
  - apply Ok_inj in H. subst. cbn. auto.
Qed.
Print Assumptions C56_combined_size.

(** An object at row -3 of a 10 x 10 image is given the bits of row 7 (the
    measured centroid need not lie on the image). *)
Definition om_far : img Z := mkImg 10 10 (fun i j => if (i =? 7) && (j =? 5) then 1 else 0).
Definition obj_off : lrow := mkLrow 1 (-3 # 1) (5 # 1) 0 0 0 None None.
Theorem C56_outside_refuted : exists om x x',
  own_pixel x (-3) 5 /\ ~ inside om (-3) 5 /\ add_ormask om [x] = Ok [x'] /\ l_ormask x' = 1 /\
  (forall i j, inside om i j -> px om i j <> 0 -> (6 <= Z.abs (i - -3))).
Proof.
  exists om_far, obj_off, (with_ormask obj_off 1). split; [pix|].
  split; [unfold inside; cbn; lia|]. split; [vm_compute; reflexivity|]. split; [reflexivity|].
  intros i j _ H. cbn in H. destruct (i =? 7) eqn:E; [apply Z.eqb_eq in E; lia|]. cbn in H. lia.
Qed.
Print Assumptions C56_outside_refuted.

Definition om1 : img Z := mkImg 4 5 (fun i j => if (i =? 2) && (j =? 3) then 5 else 0).
Definition om2 : img Z := mkImg 4 5 (fun i j => if i =? 2 then 2 else 8).
Definition obj_in : lrow := mkLrow 7 (211 # 100) (1326 # 100) 0 10 0 None None.
Example C56_ex : exists om,
  combine_ormasks (4, 5) (Some [om1; om2]) = Ok om /\ own_pixel obj_in 2 3 /\ inside om 2 3 /\
  add_ormask om [obj_in] = Ok [with_ormask obj_in 7].
Proof.
  eexists. split; [vm_compute; reflexivity|]. split; [pix|].
  split; [unfold inside; cbn; lia|]. vm_compute. reflexivity.
Qed.

(** ** C57 *)

(** The map entering the measurement is the mean of the bands' maps with weights
    1/(median of the finite positive variances). *)
Theorem C57_band_mean : forall vars ms m ws, get_mfrac_mbexp vars (Some ms) = Ok (m, ws) ->
  List.length vars = List.length ms ->
  Forall2 median_weight vars ws /\
  (0 < qsum ws)%Q /\
  (forall x, In x ms -> nr x = nr m /\ nc x = nc m) /\
  forall i j, (px m i j * qsum ws == qsum (map (fun wm => fst wm * px (snd wm) i j) (combine ws ms)))%Q.
Proof. exact get_mfrac_spec. Qed.
Print Assumptions C57_band_mean.

(** The claim is false: for an object at row 30, column 10 of a 41 x 41 map
    (weights positive on offsets up to 3, box half width 3) the map is 1 on every
    pixel within 5 of the object and the column says 0; conversely with the map
    masked only around row 10, column 30 it says 1. *)
Definition Wtest (a b : Q) : Q := if Qle_bool (a * a + b * b) 9 then 1 else 0.
Definition near (i0 j0 i j : Z) : bool := (Z.abs (i - i0) <=? 5) && (Z.abs (j - j0) <=? 5).
Definition mf_at (i0 j0 : Z) : img Q := mkImg 41 41 (fun i j => if near i0 j0 i j then 1%Q else 0%Q).
Definition obj_57 : lrow := mkLrow 1 (30 # 1) (10 # 1) 0 0 0 None None.
Lemma Wtest_ok : weight_ok Wtest.
Proof.
  split.
  - intros a b. unfold Wtest. destruct (Qle_bool _ _); lra.
  - intros a a' b b' E F. unfold Wtest. assert (a * a + b * b == a' * a' + b' * b')%Q as X by (rewrite E, F; reflexivity).
    destruct (Qle_bool (a * a + b * b) 9) eqn:P; destruct (Qle_bool (a' * a' + b' * b') 9) eqn:Q; try reflexivity; exfalso.
    + apply Qle_bool_iff in P. rewrite X in P. apply Qle_bool_iff in P. congruence.
    + apply Qle_bool_iff in Q. rewrite <- X in Q. apply Qle_bool_iff in Q. congruence.
Qed.
Theorem C57_wrong_place_refuted : exists W rad m x x' v,
  weight_ok W /\ own_pixel x 30 10 /\
  (forall i j, Z.abs (i - 30) <= 5 -> Z.abs (j - 10) <= 5 -> px m i j = 1%Q) /\
  add_mfrac W rad m [x] = [x'] /\ l_mfrac x' = Some v /\ (v == 0)%Q /\
  ~ is_mean_around W m rad (l_row x - inject_Z (l_row0 x)) (l_col x - inject_Z (l_col0 x)) v.
Proof.
  exists Wtest, 3, (mf_at 30 10), obj_57. eexists. eexists.
  split; [exact Wtest_ok|]. split; [pix|].
  split. { intros i j A B. cbn. unfold near. rewrite (proj2 (Z.leb_le _ _) A), (proj2 (Z.leb_le _ _) B). reflexivity. }
  split; [reflexivity|]. split; [vm_compute; reflexivity|]. split; [vm_compute; reflexivity|].
  intro M. specialize (M 30 10). destruct M as [_ M]; [pix|pix|].
  apply Qeq_bool_iff in M. vm_compute in M. discriminate.
Qed.
Print Assumptions C57_wrong_place_refuted.

(** What is measured instead, at every position whose pixel (i, j) is at least the
    box half width away from the edges: the mean around a point in pixel (j, i),
    with the offsets from the middle of the pixel exchanged back. *)
Theorem C57_transposed : forall W rad m row col i j v, weight_ok W -> 0 <= rad -> pixel_of row i -> pixel_of col j ->
  rad <= i -> rad <= j -> i + rad < Z.min (nr m) (nc m) -> j + rad < Z.min (nr m) (nc m) ->
  weighted_mfrac W rad m col row = Some v ->
  is_mean_around W m rad (inject_Z j + (row - inject_Z i)) (inject_Z i + (col - inject_Z j)) v.
Proof. intros W rad m row col i j v HW. intros. now apply weighted_mfrac_swapped. Qed.
Print Assumptions C57_transposed.

(** Missing: positions off the diagonal, where the claim is false. On the diagonal of a
    square map, with the map not zero everywhere, the column is right. *)
Theorem C57_diagonal_partial : forall W rad m x v, weight_ok W -> 0 <= rad -> nr m = nc m ->
  (l_row x - inject_Z (l_row0 x) = l_col x - inject_Z (l_col0 x))%Q ->
  (exists i, own_pixel x i i /\ 0 <= i < nr m) ->
  (exists i j, inside m i j /\ 0 < px m i j)%Q ->
  forall x', add_mfrac W rad m [x] = [x'] -> l_mfrac x' = Some v ->
  is_mean_around W m rad (l_row x - inject_Z (l_row0 x)) (l_col x - inject_Z (l_col0 x)) v.
Proof.
  intros W rad m x v HW Hr Sq Ed [i [[O _] Ii]] (a & b & Iab & P) x' H V.
  unfold add_mfrac in H. rewrite (proj2 (existsb_exists _ _)) in H.
  - cbn [map] in H. injection H as <-. cbn in V. unfold local_row, local_col in V. rewrite <- Ed in *.
    apply weighted_mfrac_diag; try assumption. now exists i.
  - exists (px m a b). split.
    + unfold pixels. apply in_map_iff. exists (a, b). split; [reflexivity|]. now apply in_coords.
    + destruct (Qle_bool (px m a b) 0) eqn:X; [apply Qle_bool_iff in X; lra|reflexivity].
Qed.
Print Assumptions C57_diagonal_partial.
Definition obj_diag : lrow := mkLrow 1 (30 # 1) (130 # 1) 0 100 0 None None.
Example C57_diag_ex : exists v, l_mfrac (hd obj_diag (add_mfrac Wtest 3 (mf_at 27 30) [obj_diag])) = Some v /\ (0 < v)%Q /\ (v < 1)%Q.
Proof. eexists. vm_compute. repeat split. Qed.

(** Wherever it is measured, a value is 1 or lies between the bounds of the map; and it is
    the same number 0 for everyone when no pixel is positive. *)
Theorem C57_range : forall W rad m res, weight_ok W -> 0 <= nr m -> 0 <= nc m ->
  (forall i j, inside m i j -> (0 <= px m i j)%Q /\ (px m i j <= 1)%Q) ->
  Forall2 (fun x x' => same_object x x' /\ l_ormask x' = l_ormask x /\
    forall v, l_mfrac x' = Some v -> (0 <= v)%Q /\ (v <= 1)%Q) res (add_mfrac W rad m res).
Proof.
  intros W rad m res HW N1 N2 B. pose proof (add_mfrac_Forall2 W rad m res) as F.
  induction F as [|x x' l l' (S & O & v & -> & V) F IH]; constructor; [|assumption].
  do 2 (split; [assumption|]). cbn. intros q E. subst v. destruct V as [[V _]|V].
  - apply Some_inj in V. subst. lra.
  - symmetry in V. destruct (weighted_mfrac_range W HW rad m _ _ q 0 1 N1 N2 V B); lra.
Qed.
Print Assumptions C57_range.

(** ** C58 *)

(** Whenever the PSF fit of some band fails, in the way the code provides for,
    and no band raises anything else, the run raises. *)
Theorem C58_failure_raises : forall d om mf ws,
  combine_ormasks (d_dims d) (d_ormasks d) = Ok om ->
  get_mfrac_mbexp (d_vars d) (d_mfracs d) = Ok (mf, ws) -> d_sky d = Ok tt ->
  zlen ws = zlen (d_psffits d) -> (exists f, In f (d_psffits d) /\ psf_failed f) ->
  (forall e, In (Raise e) (d_psffits d) -> e = BootPSFFailure \/ e = GMixFatalError) ->
  task_run d = Raise AssertionError \/ task_run d = Raise UnboundLocalError.
Proof.
  intros d om mf ws A B C D E F. unfold task_run. rewrite A, B, C. cbn [obind fst snd].
  destruct (fit_original_failure (d_to_g d) (d_shear d) (d_psffits d) ws D E F) as [-> | ->]; cbn; auto.
Qed.
Print Assumptions C58_failure_raises.

(** The PSF columns of a run that returns never carry a flag. *)
Theorem C58_never_flagged : forall d tabs p, task_run d = Ok (tabs, p) ->
  st_flags p = 0 /\
  forall s rows x, In (s, Some rows) tabs -> In x rows -> exists r, l_psfrec x = Some r /\ pr_flags r = 0.
Proof.
  intros d tabs p H. destruct (task_run_spec _ _ _ H) as (om & mf & ws & mcal & _ & _ & P & _ & F).
  destruct (fit_original_ok_flags _ _ _ _ _ P) as [Fl _]. split; [assumption|].
  intros s rows x I Ix.
  assert (exists sm, In sm mcal /\ exists raw, Forall2 (annotated d om mf p) raw rows) as (sm & _ & raw & G).
  { clear -F I. induction F as [|a t l l' [E M] F IH]; [destruct I|]. destruct I as [->|I].
    - cbn in M. exists a. split; [now left|]. destruct (d_measure d (snd a)) as [[raw|]|]; try contradiction. now exists raw.
    - destruct (IH I) as (sm & A & B). exists sm. split; [now right|assumption]. }
  clear -G Ix Fl. induction G as [|y y' l l' A G IH]; [destruct Ix|]. destruct Ix as [->|Ix]; [|now apply IH].
  destruct A as (_ & _ & _ & ->). eexists. split; [reflexivity|]. exact Fl.
Qed.
Print Assumptions C58_never_flagged.

(** Missing: failed fits. When every band's fit succeeds and the shear bands are
    distinct bands, the statistics are the weighted means over the shear bands,
    unflagged, and navg counts them. *)
Theorem C58_success_partial : forall to_g shear fs wgts,
  zlen wgts = zlen fs -> NoDup shear -> (forall i, In i shear -> 0 <= i < zlen fs) ->
  (forall f, In f fs -> pf_flags f = 0) ->
  (0 < sum_over shear (fun _ => 1) fs wgts)%Q ->
  (forall a b, exists g, to_g a b = Some g) ->
  exists p, fit_original_psfs to_g shear (map Ok fs) wgts = Ok p /\
    st_flags p = 0 /\ st_navg p = zlen shear /\ st_perband p = true /\
    (st_e1 p * sum_over shear (fun _ => 1) fs wgts == sum_over shear pf_e1 fs wgts)%Q /\
    (st_e2 p * sum_over shear (fun _ => 1) fs wgts == sum_over shear pf_e2 fs wgts)%Q /\
    (st_T p * sum_over shear (fun _ => 1) fs wgts == sum_over shear pf_T fs wgts)%Q /\
    to_g (st_e1 p) (st_e2 p) = Some (st_g1 p, st_g2 p).
Proof. exact fit_original_success. Qed.
Print Assumptions C58_success_partial.

(** A run with two bands, one of whose PSF fits is flagged or not. *)
Definition run_ex (flag : Z) : drun :=
  mkDrun (4, 5) (Some [om1; om2])
    [ifill 4 5 (Some 2%Q); ifill 4 5 (Some 4%Q)] (Some [ifill 4 5 (1 # 2); ifill 4 5 (1 # 4)]) (Ok tt)
    [1] [Ok (mkPf 0 (1 # 10) (1 # 20) (3 # 10)); Ok (mkPf flag (2 # 10) (3 # 20) (4 # 10))] (fun a b => Some (a, b))
    (Ok [("noshear", 0%nat); ("1p", 1%nat); ("1m", 2%nat)])
    (fun n => match n with 0%nat => Ok (Some [obj_in; with_mfrac obj_in None]) | 1%nat => Ok None | _ => Ok (Some [obj_in]) end)
    Wtest 3.
Example C58_ex : task_run (run_ex 4) = Raise AssertionError /\ psf_failed (nth 1 (d_psffits (run_ex 4)) (Ok (mkPf 0 0 0 0))).
Proof. split; [vm_compute; reflexivity|]. cbn. lia. Qed.
Theorem C58_refuted : exists d,
  (exists f, In f (d_psffits d) /\ psf_failed f) /\
  (forall f, In f (d_psffits d) -> exists p, f = Ok p) /\
  forall r, task_run d <> Ok r.
Proof.
  exists (run_ex 4). split; [eexists; split; [right; left; reflexivity|cbn; lia]|].
  split; [intros f [<-|[<-|[]]]; eexists; reflexivity|]. intros r H. vm_compute in H. discriminate.
Qed.
Print Assumptions C58_refuted.
Example C58_success_ex : exists t, task_run (run_ex 0) = Ok t /\ st_navg (snd t) = 1 /\ (st_T (snd t) == 4 # 10)%Q.
Proof. eexists. split; [vm_compute; reflexivity|]. vm_compute. auto. Qed.

(** ** C74: one table per sheared image *)
Theorem C74_tables : forall d tabs p mcal, d_metacal d = Ok mcal -> task_run d = Ok (tabs, p) ->
  map fst tabs = map fst mcal /\
  Forall2 (fun sm t => match d_measure d (snd sm), snd t with
    | Ok None, None => True
    | Ok (Some rows), Some rows' =>
        Forall2 (fun x x' => same_object x x' /\
          l_psfrec x' = Some (mkPr (st_flags p) (st_navg p) (st_g1 p) (st_g2 p) (st_T p)) /\
          forall i j b ms, d_ormasks d = Some ms -> own_pixel x i j -> 0 <= b ->
            (forall m, In m ms -> inside m i j) ->
            (Z.testbit (l_ormask x') b = true <-> exists m, In m ms /\ Z.testbit (px m i j) b = true)) rows rows'
    | _, _ => False end) mcal tabs.
Proof.
  intros d tabs p mcal M H. destruct (task_run_spec _ _ _ H) as (om & mf & ws & mcal' & O & _ & _ & M' & F).
  rewrite M in M'. apply Ok_inj in M'. subst mcal'. clear M H. split.
  - induction F as [|a t l l' [E _] F IH]; cbn; [reflexivity|]. now rewrite E, IH.
  - induction F as [|a t l l' [_ E] F IH]; constructor; [|assumption].
    destruct (d_measure d (snd a)) as [[rows|]|]; destruct (snd t) as [rows'|]; try contradiction; [|exact Logic.I].
    clear -E O. induction E as [|x x' l l' (S & G & _ & P) E IH]; constructor; [|assumption].
    split; [assumption|]. split; [assumption|]. intros i j b ms EM Ow Hb In1.
    destruct (own_pixel_nearest _ _ _ Ow) as [Ei Ej]. rewrite <- Ei, <- Ej in G.
    pose proof (C56_combined_size _ _ _ O) as Sz. rewrite EM in Sz. destruct Sz as [Ne Sz].
    assert (I0 : inside om i j). { destruct ms as [|m0 ms]; [congruence|]. destruct (Sz m0 (or_introl eq_refl)) as [A B].
      specialize (In1 m0 (or_introl eq_refl)). unfold inside in *. now rewrite <- A, <- B. }
    rewrite np_get_inside in G by assumption. apply Ok_inj in G. rewrite <- G.
    rewrite (combine_ormasks_bits _ _ _ O i j b Hb). split.
    + intros (ms' & m & A & B & C). rewrite EM in A. apply Some_inj in A. subst ms'. eauto.
    + intros (m & A & B). eauto.
Qed.
Print Assumptions C74_tables.
Example C74_ex : exists a b t, task_run (run_ex 0) = Ok ([("noshear", Some [a; b]); ("1p", None); ("1m", Some [t])], snd (match task_run (run_ex 0) with Ok x => x | _ => ([], mkPst 0 0 0 0 0 0 0 true) end))
  /\ l_ormask a = 7 /\ own_pixel obj_in 2 3.
Proof. do 3 eexists. split; [vm_compute; reflexivity|]. split; [reflexivity|]. pix. Qed.

(** And the masked fraction column is filled from the weighted mean of the bands'
    maps: 0 for everyone when that map is nowhere positive; else, at least the
    box half width away from the edges, the mean at the place C57 describes. *)
Theorem C74_mfrac : forall d tabs p mcal ms, weight_ok (d_W d) -> 0 <= d_rad d ->
  d_metacal d = Ok mcal -> d_mfracs d = Some ms -> task_run d = Ok (tabs, p) ->
  exists mf ws, get_mfrac_mbexp (d_vars d) (Some ms) = Ok (mf, ws) /\
  Forall2 (fun sm t => forall rows rows', d_measure d (snd sm) = Ok (Some rows) -> snd t = Some rows' ->
    Forall2 (fun x x' =>
      ((forall i j, inside mf i j -> (px mf i j <= 0)%Q) -> l_mfrac x' = Some 0%Q) /\
      forall i j v, (exists a b, inside mf a b /\ (0 < px mf a b)%Q) -> own_pixel x i j ->
        d_rad d <= i -> d_rad d <= j ->
        i + d_rad d < Z.min (nr mf) (nc mf) -> j + d_rad d < Z.min (nr mf) (nc mf) -> l_mfrac x' = Some v ->
        is_mean_around (d_W d) mf (d_rad d)
          (inject_Z j + (l_row x - inject_Z (l_row0 x) - inject_Z i))
          (inject_Z i + (l_col x - inject_Z (l_col0 x) - inject_Z j)) v) rows rows') mcal tabs.
Proof.
  intros d tabs p mcal ms HW Hr M N H. destruct (task_run_spec _ _ _ H) as (om & mf & ws & mcal' & _ & G & _ & M' & F).
  rewrite M in M'. apply Ok_inj in M'. subst mcal'. rewrite N in G. exists mf, ws. split; [exact G|]. clear -F HW Hr.
  induction F as [|a t l l' [_ E] F IH]; constructor; [|assumption].
  intros rows rows' E1 E2. rewrite E1, E2 in E. clear -E HW Hr.
  induction E as [|x x' l l' (_ & _ & V & _) E IH]; constructor; [|assumption]. split.
  - intros Z0. destruct V as [[V _]|[_ (q & I & P)]]; [exact V|]. exfalso.
    unfold pixels in I. apply in_map_iff in I. destruct I as ([i j] & <- & I). apply in_coords in I.
    specialize (Z0 i j I). cbn [fst snd] in P. lra.
  - intros i j v (a & b & I & P) [O1 O2] A B C D Ev. destruct V as [[_ V]|[V _]].
    + exfalso. assert (In (px mf a b) (pixels mf)) as J. { unfold pixels. apply in_map_iff. exists (a, b). split; [reflexivity|]. now apply in_coords. }
      specialize (V _ J). lra.
    + rewrite V in Ev. now apply (C57_transposed (d_W d) (d_rad d) mf (local_row x) (local_col x) i j v).
Qed.
Print Assumptions C74_mfrac.
(** The map of a run and its mean: the bands have 1/2 and 1/4 and weights 1/2 and 1/4. *)
Example C74_mfrac_ex : exists mf ws, get_mfrac_mbexp (d_vars (run_ex 0)) (d_mfracs (run_ex 0)) = Ok (mf, ws) /\ (px mf 1 1 == 5 # 12)%Q /\
  exists a b r, snd (hd ("", None) (fst (match task_run (run_ex 0) with Ok x => x | _ => ([], mkPst 0 0 0 0 0 0 0 true) end))) = Some (a :: b :: r) /\
  exists v, l_mfrac a = Some v /\ (v == 5 # 12)%Q.
Proof.
  do 2 eexists. split; [vm_compute; reflexivity|]. split; [vm_compute; reflexivity|].
  do 3 eexists. split; [vm_compute; reflexivity|]. eexists. split; vm_compute; reflexivity.
Qed.

(** ** C75: the optional inputs *)

(** Leaving out the masks is the same call as giving masks of the image's size
    without a bit: the same tables, or the same exception. *)
Theorem C75_empty_masks : forall d ms, ms <> [] ->
  (forall m, In m ms -> nr m = fst (d_dims d) /\ nc m = snd (d_dims d) /\ forall i j, inside m i j -> px m i j = 0) ->
  task_run (with_ormasks d None) = task_run (with_ormasks d (Some ms)).
Proof. exact task_run_zero_masks. Qed.
Print Assumptions C75_empty_masks.
(** So nobody has a bit then. *)
Theorem C75_no_ormasks : forall d, d_ormasks d = None -> forall tabs p, task_run d = Ok (tabs, p) ->
  forall s rows x, In (s, Some rows) tabs -> In x rows -> l_ormask x = 0.
Proof.
  intros d N tabs p H s rows x I Ix. destruct (task_run_spec _ _ _ H) as (om & mf & ws & mcal & O & _ & _ & _ & F).
  rewrite N in O. cbn [combine_ormasks] in O. apply Ok_inj in O. subst om. clear H.
  induction F as [|a t l l' [E M] F IH]; [destruct I|]. destruct I as [->|I]; [|now apply IH].
  cbn in M. destruct (d_measure d (snd a)) as [[raw|]|]; try contradiction. clear -M Ix.
  induction M as [|y y' l l' A G IH]; [destruct Ix|]. destruct Ix as [->|Ix]; [|now apply IH].
  destruct A as (_ & A & _). unfold np_get in A. destruct (insideb _ _ _) in A; [|discriminate].
  apply Ok_inj in A. rewrite <- A. reflexivity.
Qed.
Print Assumptions C75_no_ormasks.

(** Leaving out the masked fractions, the default, always raises. *)
Theorem C75_no_mfrac_refuted :
  (forall d, d_mfracs d = None -> forall r, task_run d <> Ok r) /\
  exists d, d_mfracs d = None /\ d_ormasks d = None /\ task_run d = Raise TypeError.
Proof.
  split.
  - intros d N r H. destruct r as [tabs p]. destruct (task_run_spec _ _ _ H) as (om & mf & ws & mcal & _ & G & _).
    rewrite N in G. discriminate.
  - exists (mkDrun (4, 5) None [ifill 4 5 (Some 2%Q)] None (Ok tt) [0] [Ok (mkPf 0 0 0 1)] (fun a b => Some (a, b)) (Ok []) (fun _ => Ok None) Wtest 3).
    repeat split.
Qed.
Print Assumptions C75_no_mfrac_refuted.
Definition run_noor : drun :=
  let d := run_ex 0 in mkDrun (d_dims d) None (d_vars d) (d_mfracs d) (d_sky d) (d_shear d) (d_psffits d) (d_to_g d) (d_metacal d) (d_measure d) (d_W d) (d_rad d).
Example C75_ex : exists t, task_run run_noor = Ok t /\ (exists x y r, snd (hd ("", None) (fst t)) = Some (x :: y :: r)).
Proof. eexists. split; [vm_compute; reflexivity|]. cbn. eauto. Qed.
