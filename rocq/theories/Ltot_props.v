(** C140: one object never stops the LSST measurement. *)
From Coq Require Import ZArith QArith List String Bool Lia Permutation.
From Verif Require Import Base Arr Median Flags_model Dict Coadd_model Wavg_model Joint_model Mtot_spec Lutil_model Lexp_model Lmeas_model Lmeas_spec
  Lfit_model Ltot_spec Ltot_proofs.
From Verif Require Wavg_props Joint_props Lmeas_props Lfit_props.
Import ListNotations.
Local Open Scope string_scope.
Local Open Scope Z_scope.

(** Whatever the pixels, variances, positions and sizes of the bands are, the
    measurement returns: None without objects, otherwise a row for each. *)
Theorem C140_measure : forall env label order cat, can_measure env cat -> lists_set order ->
  (childless cat = [] -> measure env label order cat = Ok None) /\
  (childless cat <> [] -> exists rows, measure env label order cat = Ok (Some rows) /\ List.length rows = List.length (childless cat)).
Proof.
  intros env label order cat H O. destruct (measure_returns env label order cat H O) as (rows & E & L). split; intros X.
  - rewrite X in L. destruct rows; [exact E|discriminate].
  - destruct rows as [|r rows]; [destruct (childless cat); [congruence|discriminate]|]. exists (r :: rows). split; [exact E|exact L].
Qed.
Print Assumptions C140_measure.

(** With the fits of the package nothing has to be said about the fits, only
    about third party code: the moments routines return for every stamp, and a
    successful joint fit has a flux and an error for each band. *)
Theorem C140_own_fits : forall ng boot mk toT sq ft jid env order cat sb,
  catalogue cat -> lists_set order -> has_pixels (m_bands env) -> (forall e, In e (m_bands env) -> has_wcs_psf e) -> peaks_on_mask env cat ->
  m_shear_bands env = Ok sb -> good_bands (zlen (m_bands env)) sb -> zlen (m_bands env) <= 6 ->
  (forall mb g p, boot mb = BootOk g p -> g_flags g = 0 -> List.length (g_flux g) = List.length mb /\ List.length (g_flux_err g) = List.length mb) ->
  k_kind ft <> "am" -> (forall o, exists r, k_go ft o = Ok r) -> (forall p, exists r, k_go_psf ft p = Ok r) ->
  (childless cat = [] -> measure_fits ng boot mk toT sq ft jid env order cat = Ok None) /\
  (childless cat <> [] -> exists rows, measure_fits ng boot mk toT sq ft jid env order cat = Ok (Some rows) /\ List.length rows = List.length (childless cat)).
Proof.
  intros ng boot mk toT sq ft jid env order cat sb C O Hp Hb Hm Hs Gb H6 Hboot Hk H1 H2. apply C140_measure; [|exact O].
  split; [exact C|]. split; [exact Hp|]. split; [exact Hb|]. split; [exact Hm|]. split; [|exists sb; exact Hs].
  apply (own_fits_return ng boot mk toT sq ft jid env sb); auto. split; [|exact H6]. destruct (m_bands env); [destruct Hp|]. unfold zlen. cbn. lia.
Qed.
Print Assumptions C140_own_fits.

(** An object in the middle, one at the edge, one where a band has no usable
    variance, and one without a centroid, with the fits of the package. *)
Definition env9 : menv := Lfit_props.env_of [Lmeas_props.exA; Lmeas_props.exB].
Definition boot9 (mb : list (list fobs)) : bootout :=
  BootOk (mkGauss 0 (Some 10%Q) (Some 0%Q, Some 0%Q) (fun _ _ => Some 1%Q) (Some 4%Q) (Some 1%Q)
            (map (fun _ => Some 5%Q) mb) (map (fun _ => Some 1%Q) mb))
         (fun k => mkPsfres 0 (Some 2%Q) (Some 0%Q, Some 0%Q)).
Definition cat9 := [Lmeas_props.parent; Lmeas_props.kid; Lmeas_props.kid3; Lmeas_props.kid4].
Example C140_example : can_measure Lmeas_props.env1 cat9 /\ catalogue cat9 /\ lists_set Lmeas_props.in_order /\ has_pixels (m_bands env9) /\
  (forall e, In e (m_bands env9) -> has_wcs_psf e) /\ peaks_on_mask env9 cat9 /\ good_bands (zlen (m_bands env9)) [0] /\
  (forall mb g p, boot9 mb = BootOk g p -> g_flags g = 0 -> List.length (g_flux g) = List.length mb /\ List.length (g_flux_err g) = List.length mb) /\
  (forall o, exists r, k_go Wavg_props.ex_ft o = Ok r) /\ (forall p, exists r, k_go_psf Wavg_props.ex_ft p = Ok r) /\
  exists a b c, measure_fits Wavg_props.ex_ng boot9 Wavg_props.ex_mk Wavg_props.ex_toT Wavg_props.ex_sqrt Wavg_props.ex_ft Lfit_props.ex_jid
      env9 Lmeas_props.in_order cat9 = Ok (Some [a; b; c]) /\
    map (sget "stamp_flags") [a; b; c] = map (fun f => Some (CInt f)) [0; flag_value EDGE_HIT; flag_value ZERO_WEIGHTS].
Proof.
  assert (Hc : catalogue cat9) by (repeat constructor; cbn; intuition lia).
  assert (Hp : forall env, m_detmask env = Lmeas_props.det_mask -> m_detx0 env = 100 -> m_dety0 env = 200 -> peaks_on_mask env cat9).
  { intros env E1 E2 E3 s Hs. rewrite E1, E2, E3. repeat (destruct Hs as [<-|Hs]; [do 2 eexists; (split; [reflexivity|]); unfold inside; cbn; lia|]). destruct Hs. }
  assert (Hb : forall e, In e [Lmeas_props.exA; Lmeas_props.exB] -> has_wcs_psf e).
  { intros e [<-|[<-|[]]]; (split; [discriminate|]); eexists; (split; [reflexivity|]); intros; split; reflexivity. }
  split. { split; [exact Hc|]. split; [cbn; lia|]. split; [exact Hb|]. split; [apply Hp; reflexivity|]. split; [|exists [0]; reflexivity].
    intros s obs _. split; eexists; reflexivity. }
  split; [exact Hc|]. split; [exact Lmeas_props.in_order_ok|]. split; [cbn; lia|]. split; [exact Hb|]. split; [apply Hp; reflexivity|].
  split. { split; [discriminate|]. split; [repeat constructor; intros []|]. split; [cbn; lia|]. intros b [<-|[]]. cbn. lia. }
  split. { intros mb g p H F. injection H as <- <-. cbn [g_flux g_flux_err]. rewrite !map_length. auto. }
  split; [intros o; unfold Wavg_props.ex_ft; cbn [k_go]; eauto|]. split; [intros p; unfold Wavg_props.ex_ft; cbn [k_go_psf]; eauto|].
  do 3 eexists. split; [vm_compute; reflexivity|]. reflexivity.
Qed.
