(** C131: the shape of an object depends on its stamps in the shear bands only. *)
From Coq Require Import ZArith QArith List String Bool Lia.
From Verif Require Import Base Arr Median Flags_model Detect_model Detect_spec Summ_model Coadd_model Wavg_model Wavg_spec
  Joint_model Conf_model Mdet_model Mdet_spec Mcol_spec Mrun_model Mrun_spec Mrun_proofs Mrun_props Mlocal_spec Mlocal_proofs Mlocal_props
  Onlyb_spec Onlyb_proofs.
From Verif Require Wavg_props Joint_props.
Import ListNotations.
Local Open Scope string_scope.
Local Open Scope Z_scope.

(** Two calls of do_metadetect on images of as many bands, without colours: rows of
    an object that both calls find, with images that agree under its stamp in the
    bands [bs] (any bands). Everything else is free: the other bands, the pixels
    elsewhere, the other objects. *)
Theorem C131_runs : forall x c main main' sbc dbc r r',
  reader_local x -> metacal_ok x c -> boxes_ok (st_meds c) -> sep_ok x ->
  all_one_shape main None -> all_one_shape main' None -> zlen main = zlen main' ->
  do_metadetect x c main sbc None None dbc = Ok (Some r) -> do_metadetect x c main' sbc None None dbc = Ok (Some r') ->
  exists md mcal mcal', construct (st_conf c) (zlen main) false false sbc dbc = Ok md /\
    tp_metacal x main = Ok mcal /\ tp_metacal x main' = Ok mcal' /\
    forall t m m', In (t, m) mcal -> In (t, m') mcal' -> exists blocks blocks',
      table r t = Some (match List.concat blocks with [] => None | l => Some l end) /\
      table r' t = Some (match List.concat blocks' with [] => None | l => Some l end) /\
      List.length blocks = List.length (combine (md_shear md) (md_det md)) /\
      List.length blocks' = List.length (combine (md_shear md) (md_det md)) /\
      forall k sd rows rows', nth_error (combine (md_shear md) (md_det md)) k = Some sd ->
        nth_error blocks k = Some rows -> nth_error blocks' k = Some rows' ->
        exists objs seg objs' seg', found x (md_nodet md) m (snd sd) objs seg /\ found x (md_nodet md) m' (snd sd) objs' seg' /\
          List.length rows = List.length objs /\ List.length rows' = List.length objs' /\
          forall i i' no dr dr' b bs, nth_error objs i = Some no -> nth_error objs' i' = Some no ->
            nth_error rows i = Some dr -> nth_error rows' i' = Some dr' ->
            stamp_size x (st_meds c) (snd no) b -> same_stamps_in bs (d_y (snd no)) (d_x (snd no)) b seg seg' m m' ->
            List.length (r_fits dr) = List.length (md_fitters md) /\ List.length (r_fits dr') = List.length (md_fitters md) /\
            forall q f u u', nth_error (md_fitters md) q = Some f -> nth_error (r_fits dr) q = Some u -> nth_error (r_fits dr') q = Some u' ->
              fit_agrees (tp_ng x) f (fst sd) bs (List.length m) u u'.
Proof. exact runs_agree. Qed.
Print Assumptions C131_runs.

(** The same for single rows, also with colours. *)
Theorem C131_row : forall x c md main main' color color' key key' sb db db' t t' m m' seg seg' n no r r' b bs R C R' C',
  reader_local x -> has_shape m R C -> has_shape m' R' C' -> stamp_size x (st_meds c) (snd no) b ->
  same_stamps_in bs (d_y (snd no)) (d_x (snd no)) b seg seg' m m' ->
  object_row x c md main color key sb db t m seg n no r ->
  object_row x c md main' color' key' sb db' t' m' seg' n no r' ->
  forall q f u u', nth_error (md_fitters md) q = Some f -> nth_error (r_fits r) q = Some u -> nth_error (r_fits r') q = Some u' ->
    fit_agrees (tp_ng x) f sb bs (List.length m) u u'.
Proof. exact row_agree. Qed.
Print Assumptions C131_row.

(** The fits alone: averaged moments of two lists of stamps that agree in the
    shear bands, and the flux of a band in which they agree. *)
Theorem C131_moments : forall ng mk to_T qsqrt ft bm sb fw sym mb mb' r r', agree_in sb mb mb' ->
  fit_mbobs_wavg ng mk to_T qsqrt mb ft bm (Some sb) fw sym = Ok r ->
  fit_mbobs_wavg ng mk to_T qsqrt mb' ft bm (Some sb) fw sym = Ok r' -> same_object r r'.
Proof. exact wavg_object. Qed.
Print Assumptions C131_moments.

Theorem C131_flux : forall ng mk to_T qsqrt ft bm sb fw sym bs mb mb' r r' k, agree_in bs mb mb' ->
  fit_mbobs_wavg ng mk to_T qsqrt mb ft bm (Some sb) fw sym = Ok r ->
  fit_mbobs_wavg ng mk to_T qsqrt mb' ft bm (Some sb) fw sym = Ok r' ->
  In (Z.of_nat k) bs -> (k < List.length mb)%nat -> same_flux k r r'.
Proof. exact wavg_flux. Qed.
Print Assumptions C131_flux.

(** Joint fits that are not flagged in either case. *)
Theorem C131_gauss_partial : forall ng boot mb mb' bm sb coadd r r', NO_ATTEMPT ng <> 0 -> agree_in sb mb mb' -> (forall b, In b sb -> 0 <= b) ->
  fit_mbobs_gauss ng boot mb bm (Some sb) coadd = Ok r -> fit_mbobs_gauss ng boot mb' bm (Some sb) coadd = Ok r' ->
  o_flags r = 0 -> o_flags r' = 0 -> r = r'.
Proof. exact gauss_agree. Qed.
Print Assumptions C131_gauss_partial.

Theorem C131_admom_partial : forall ng rp ro mb mb' bm sb sym r r', NO_ATTEMPT ng <> 0 -> agree_in sb mb mb' -> (forall b, In b sb -> 0 <= b) ->
  fit_mbobs_admom ng rp ro mb bm (Some sb) sym = Ok r -> fit_mbobs_admom ng rp ro mb' bm (Some sb) sym = Ok r' ->
  o_flags r = 0 -> o_flags r' = 0 -> r = r'.
Proof. exact admom_agree. Qed.
Print Assumptions C131_admom_partial.

(** ** Examples *)
Section Fits.
Import Wavg_props.
Definition mb_w (q : Q) : list (list fobs) := [[ex_obs 5]; [ex_obs q]; [ex_obs 7]].
Example C131_moments_example : agree_in [0; 2] (mb_w 3) (mb_w 20) /\ exists r r',
  fit_mbobs_wavg ex_ng ex_mk ex_toT ex_sqrt (mb_w 3) ex_ft 1 (Some [0; 2]) 0 true = Ok r /\
  fit_mbobs_wavg ex_ng ex_mk ex_toT ex_sqrt (mb_w 20) ex_ft 1 (Some [0; 2]) 0 true = Ok r' /\
  o_flags r = 0 /\ map (option_map Qred) (o_band_flux r) = [Some 5; Some 3; Some 7]%Q /\ map (option_map Qred) (o_band_flux r') = [Some 5; Some 20; Some 7]%Q.
Proof.
  split; [split; [reflexivity|]; intros [|[|[|k]]] [H|[H|[]]]; try discriminate H; try reflexivity; exfalso; lia|].
  do 2 eexists. split; [vm_compute; reflexivity|]. split; [vm_compute; reflexivity|]. vm_compute. repeat split; reflexivity.
Qed.
End Fits.
Section Joint.
Import Joint_props.
Definition mb_j (q : Q) (bits : Z) : list (list fobs) := [[ex_obs 5 2 0]; [ex_obs q 4 bits]; [ex_obs 7 2 0]].
Lemma mb_j_agree : forall q q' b b', agree_in [0; 2] (mb_j q b) (mb_j q' b').
Proof. split; [reflexivity|]. intros [|[|[|k]]] [H|[H|[]]]; try discriminate H; try reflexivity; exfalso; lia. Qed.
Example C131_joint_example : agree_in [0; 2] (mb_j 3 0) (mb_j 20 0) /\ NO_ATTEMPT ex_ng <> 0 /\
  (exists r r', fit_mbobs_gauss ex_ng ex_boot (mb_j 3 0) 1 (Some [0; 2]) false = Ok r /\ fit_mbobs_gauss ex_ng ex_boot (mb_j 20 0) 1 (Some [0; 2]) false = Ok r' /\
     o_flags r = 0 /\ o_flags r' = 0) /\
  (exists r r', fit_mbobs_admom ex_ng ex_rp ex_ro (mb_j 3 0) 1 (Some [0; 2]) true = Ok r /\ fit_mbobs_admom ex_ng ex_rp ex_ro (mb_j 20 0) 1 (Some [0; 2]) true = Ok r' /\
     o_flags r = 0 /\ o_flags r' = 0).
Proof.
  split; [apply mb_j_agree|]. split; [discriminate|].
  split; do 2 eexists; (split; [vm_compute; reflexivity|]); (split; [vm_compute; reflexivity|]); split; vm_compute; reflexivity.
Qed.
End Joint.

(** The joint fits are not attempted when the stamp in another band is not
    usable, here because of a forbidden mask bit. *)
Theorem C131_joint_refuted : ~ (forall ng boot mb mb' bm sb coadd r r', NO_ATTEMPT ng <> 0 -> agree_in sb mb mb' -> (forall b, In b sb -> 0 <= b) ->
    fit_mbobs_gauss ng boot mb bm (Some sb) coadd = Ok r -> fit_mbobs_gauss ng boot mb' bm (Some sb) coadd = Ok r' -> same_object r r') /\
  ~ (forall ng rp ro mb mb' bm sb sym r r', NO_ATTEMPT ng <> 0 -> agree_in sb mb mb' -> (forall b, In b sb -> 0 <= b) ->
    fit_mbobs_admom ng rp ro mb bm (Some sb) sym = Ok r -> fit_mbobs_admom ng rp ro mb' bm (Some sb) sym = Ok r' -> same_object r r').
Proof.
  assert (P : forall b, In b [0; 2] -> 0 <= b) by (intros b [<-|[<-|[]]]; lia).
  split; intro H.
  - destruct (H Joint_props.ex_ng Joint_props.ex_boot (mb_j 3 0) (mb_j 3 1) 1 [0; 2] false _ _ ltac:(discriminate) (mb_j_agree _ _ _ _) P eq_refl eq_refl) as (E & _).
    vm_compute in E. discriminate E.
  - destruct (H Joint_props.ex_ng Joint_props.ex_rp Joint_props.ex_ro (mb_j 3 0) (mb_j 3 1) 1 [0; 2] true _ _ ltac:(discriminate) (mb_j_agree _ _ _ _) P eq_refl eq_refl) as (E & _).
    vm_compute in E. discriminate E.
Qed.
Print Assumptions C131_joint_refuted.

(** The run of Mlocal_props: the first band changes, also under the stamp of the
    first object; the second band does not. *)
Definition other8 : mbo := [[obs6 50 1]; [obs6 7 0]].
Lemma other8_shape : has_shape other8 6 6.
Proof.
  split; [lia|]. split; [lia|]. intros ol [<-|[<-|[]]]; eexists; (split; [reflexivity|]); cbn; repeat split; intros; discriminate.
Qed.
Definition some_fluxes (r : results row) :=
  match shown (Ok (Some r)) with Some ((_, l) :: _) => map (fun d => map snd (snd d)) l | _ => [] end.
Example C131_example : reader_local third7 /\ metacal_ok third7 (settings6 0) /\ boxes_ok (st_meds (settings6 0)) /\ sep_ok third7 /\
  all_one_shape main6 None /\ all_one_shape other8 None /\ zlen main6 = zlen other8 /\
  same_stamps_in [1] 3 3 4 seg6 seg6 main6 other8 /\ ~ same_stamps_in [0; 1] 3 3 4 seg6 seg6 main6 other8 /\
  exists r r', run7 main6 = Ok (Some r) /\ run7 other8 = Ok (Some r') /\ some_fluxes r <> some_fluxes r'.
Proof.
  split; [exact read7_local|]. split; [apply metacal7_ok|]. split; [apply boxes6_ok|]. split; [exact sep7_ok|]. split; [exact none_shape|].
  split; [exists 6, 6; split; [exact other8_shape|intros d k m H; discriminate H]|]. split; [reflexivity|].
  assert (S : forall A (im : img A) y xx b, same_under y xx b im im) by (intros; repeat split; reflexivity).
  assert (P : forall A (im : img A), same_pixels im im) by (intros; repeat split; reflexivity).
  split.
  { split; [reflexivity|]. split; [|split; [|apply S]].
    - intros k ol ol' [H|[]] K K'. replace k with 1%nat in * by lia. cbn in K, K'. injection K as <-. injection K' as <-.
      do 2 eexists. split; [reflexivity|]. split; [reflexivity|]. split; [|split; reflexivity].
      split; [apply S|]. split; [apply S|]. split; [apply S|]. split; [left; split; reflexivity|]. split; [reflexivity|apply P].
    - intros o0 o0' rest rest' E E'. injection E as <- _. injection E' as <- _. split; [reflexivity|]. split; reflexivity. }
  split.
  { intros (_ & A & _). destruct (A 0%nat [obs6 5 1] [obs6 50 1] (or_introl eq_refl) eq_refl eq_refl) as (o & o' & E & E' & ((_ & _ & U) & _) & _).
    injection E as <-. injection E' as <-. specialize (U 3 3). cbn in U. assert (X : 5%Q = 50%Q); [apply U|discriminate X].
    + unfold inside. cbn. lia.
    + unfold under_stamp. change (first_pixel 3 4) with 2. lia. }
  destruct (table_of (run7 main6)) as [r E]; [vm_compute; reflexivity|]. destruct (table_of (run7 other8)) as [r' E']; [vm_compute; reflexivity|].
  exists r, r'. split; [exact E|]. split; [exact E'|]. unfold some_fluxes. rewrite <- E, <- E'. vm_compute. discriminate.
Qed.
