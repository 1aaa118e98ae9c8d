(** C61, C62, C76 to C78: the LSST measurement. *)
From Coq Require Import ZArith QArith List String Bool Lia Permutation.
From Verif Require Import Base Arr Median Flags_model Dict Lutil_model Lutil_spec Lexp_model Lmeas_model Lmeas_spec Lmeas_proofs.
Import ListNotations.
Local Open Scope string_scope.
Local Open Scope Z_scope.

(** ** A small survey: two bands of 9 x 9 pixels with corner (100, 200) *)
Definition exA : exposure :=
  mkExp 100 200 (ifill 9 9 1%Q) (mkImg 9 9 (fun i j => if i <? 3 then None else Some 2%Q)) (ifill 9 9 0) (Some (fun _ _ => ifill 3 3 1%Q)) (Some 7).
Definition exB : exposure :=
  mkExp 100 200 (ifill 9 9 3%Q) (ifill 9 9 (Some 4%Q)) (ifill 9 9 0) (Some (fun _ _ => ifill 3 3 1%Q)) (Some 7).
Definition det_mask : img Z := mkImg 9 9 (fun i j => 32 + (if (i =? 4) && (j =? 4) then 1 else 0) + (if (i =? 5) && (j =? 6) then 2 else 0)).
Definition fake_fit (k : Z) (obs : list lobs) : outcome (string -> cell) := Ok (fun _ => CFit (k + zlen obs)).
Definition env1 : menv :=
  mkMenv [exA; exB] 100 200 det_mask
    (fun id => if id =? 3 then None else Some (inject_Z (100 + id), (2041 # 10))%Q) (fun id => None)
    (fun _ _ _ => mkMat 1 0 0 1) (fun c => (fst c + 10, snd c - 100)%Q)
    (fake_fit 10) (fake_fit 20) (0%Q, 0%Q) 1 32 3 (Ok [0]).
Definition parent : source := mkSrc 1 2 [(104, 204)] (104%Q, 204%Q).
Definition kid : source := mkSrc 2 0 [(106, 205)] ((1061 # 10)%Q, (2052 # 10)%Q).
Definition kid3 : source := mkSrc 3 0 [(108, 205)] ((1081 # 10)%Q, (2052 # 10)%Q).
Definition kid4 : source := mkSrc 4 0 [(104, 201)] ((1041 # 10)%Q, (2012 # 10)%Q).
Definition in_order (l : list Z) : list Z := l.
Lemma in_order_ok : lists_set in_order. Proof. intros l _. apply Permutation_refl. Qed.
Definition lab (l : list Z) : string := "0".

(** ** C61 *)

(** For every catalogue with distinct ids and every order in which the child
    ids are listed: one row per source without children, and the position, sky
    position and fits of a row are those of its source. Missing: the mask value,
    for which the claim is false. *)
Theorem C61_rows_partial : forall env label order cat rows, catalogue cat -> lists_set order ->
  measure env label order cat = Ok (Some rows) ->
  exists cs, Permutation cs (childless cat) /\ cs <> [] /\
    Forall2 (fun s r => at_position env s r /\ at_sky env s r /\
      forall obs, source_mbobs env s = Ok obs ->
        exists g p, m_gauss env obs = Ok g /\ m_pgauss env obs = Ok p /\ has_fits g p r) cs rows.
Proof.
  intros env label order cat rows C O H. destruct (measure_ok _ _ _ _ _ C O H) as (cs & sb & bms & M & P & _ & Ne & L & F).
  exists cs. split; [exact P|]. split; [destruct cs; [destruct rows; [congruence|discriminate]|discriminate]|].
  assert (G : forall n s, nth_error cs n = Some s -> exists r, nth_error rows n = Some r /\ at_position env s r /\ at_sky env s r /\
      forall obs, source_mbobs env s = Ok obs -> exists g p, m_gauss env obs = Ok g /\ m_pgauss env obs = Ok p /\ has_fits g p r).
  { intros n s E. destruct (F n s E) as (r & fl & g & p & bm & A & B & S & G). exists r. split; [exact A|].
    apply output_facts in G. destruct G as (_ & G1 & G2 & G3 & _). split; [exact G1|]. split; [exact G2|].
    intros obs Eo. rewrite Eo in S. destruct S as (_ & S1 & S2). exists g, p. auto. }
  clear -L G. revert rows L G. induction cs as [|s cs IH]; intros [|r rows] L G; try discriminate; constructor.
  - destruct (G 0%nat s eq_refl) as (r' & E & X). apply Some_inj in E. now subst r'.
  - apply IH; [now inversion L|]. intros n s' E. exact (G (S n) s' E).
Qed.
Print Assumptions C61_rows_partial.

(** A table is returned exactly when some source has no children. *)
Theorem C61_none : forall env label order cat res, catalogue cat -> lists_set order ->
  measure env label order cat = Ok res -> (res = None <-> childless cat = []).
Proof.
  intros env label order cat res C O H. destruct (measure_ok _ _ _ _ _ C O H) as (cs & sb & bms & M & P & _ & F).
  destruct res as [rows|].
  - split; [discriminate|]. intro E. rewrite E in P. apply Permutation_sym, Permutation_nil in P. subst cs.
    destruct F as (Ne & L & _). destruct rows; [congruence|discriminate].
  - subst cs. split; [intros _|reflexivity]. now apply Permutation_nil in P.
Qed.
Print Assumptions C61_none.

(** What the mask column holds: row n has the mask at the peak of the n-th
    source of the whole catalogue, parents included. *)
Theorem C61_bmask_position : forall env label order cat rows, catalogue cat -> lists_set order ->
  measure env label order cat = Ok (Some rows) -> masks_by_position env cat rows.
Proof. exact measure_masks. Qed.
Print Assumptions C61_bmask_position.

(** So the mask value is right when no source is a parent and the ids are listed
    in catalogue order. Missing: any other catalogue or listing. *)
Theorem C61_bmask_partial : forall env label order cat rows, catalogue cat -> lists_set order ->
  (forall s, In s cat -> s_nchild s = 0) -> (forall l, order l = l) ->
  measure env label order cat = Ok (Some rows) ->
  Forall2 (fun s r => at_position env s r /\ exists v, sget "bmask" r = Some (CInt v) /\ mask_at_peak env s v) cat rows.
Proof.
  intros env label order cat rows C O NP Id H.
  pose proof (C61_bmask_position _ _ _ _ _ C O H) as B.
  destruct (measure_ok _ _ _ _ _ C O H) as (cs & sb & bms & M & P & _ & Ne & L & F).
  assert (E : cs = cat).
  { assert (Ch : childless cat = cat).
    { unfold childless. clear -NP. induction cat as [|s cat IH]; [reflexivity|]. cbn. rewrite (proj2 (Z.eqb_eq _ _)) by (apply NP; now left).
      f_equal. apply IH. intros. apply NP. now right. }
    unfold child_ids in M. rewrite Id in M. fold (childless cat) in M. rewrite Ch in M, P.
    rewrite nodup_fixed_point in M by exact C.
    apply (same_ids cat C); [intros s; apply Permutation_in, P|auto|exact M]. }
  subst cs. clear M P Ne.
  assert (G : forall n s, nth_error cat n = Some s -> exists r, nth_error rows n = Some r /\ at_position env s r /\ exists v, sget "bmask" r = Some (CInt v) /\ mask_at_peak env s v).
  { intros n s E. destruct (F n s E) as (r & fl & g & p & bm & A & _ & _ & G). exists r. split; [exact A|].
    apply output_facts in G. split; [apply G|]. destruct (B n r A) as (s' & v & E' & V1 & V2).
    rewrite E in E'. apply Some_inj in E'. subst s'. exists v. auto. }
  clear -L G. revert rows L G. induction cat as [|s cs IH]; intros [|r rows] L G; try discriminate; constructor.
  - destruct (G 0%nat s eq_refl) as (r' & E & X). apply Some_inj in E. now subst r'.
  - apply IH; [now inversion L|]. intros n s' E. exact (G (S n) s' E).
Qed.
Print Assumptions C61_bmask_partial.

(** The claim is false with parents: a catalogue with a parent first gives its
    child the parent's mask value. *)
Theorem C61_bmask_refuted : exists env cat r v v',
  catalogue cat /\ childless cat = [kid] /\ measure env lab in_order cat = Ok (Some [r]) /\ at_position env kid r /\
  mask_at_peak env kid v /\ sget "bmask" r = Some (CInt v') /\ mask_at_peak env parent v' /\ v <> v'.
Proof.
  exists env1, [parent; kid]. eexists. exists 2, 1. split; [repeat constructor; cbn; intuition lia|].
  split; [reflexivity|]. split; [vm_compute; reflexivity|].
  split; [split; [do 2 eexists; repeat split|do 3 eexists; split; [reflexivity|split; reflexivity]]|].
  split; [do 2 eexists; split; [reflexivity|]; split; [unfold inside; cbn; lia|reflexivity]|].
  split; [reflexivity|]. split; [|lia]. do 2 eexists. split; [reflexivity|]. split; [unfold inside; cbn; lia|reflexivity].
Qed.
Print Assumptions C61_bmask_refuted.
Example C61_ex : exists a b, measure env1 lab in_order [kid; kid4] = Ok (Some [a; b]) /\ catalogue [kid; kid4] /\
  sget "bmask" a = Some (CInt 2) /\ sget "stamp_flags" a = Some (CInt 0) /\ sget "stamp_flags" b = Some (CInt (2 ^ 25)).
Proof. do 2 eexists. split; [vm_compute; reflexivity|]. split; [repeat constructor; cbn; intuition lia|]. repeat split. Qed.

(** ** C62 *)

(** When two or more bands cannot be coadded the detection step raises, for
    every detection and measurement. *)
Theorem C62_no_coadd_raises : forall single detect env_of label order bands,
  (2 <= List.length bands)%nat -> coadd_exposures bands = Ok None ->
  detect_deblend_and_measure single detect env_of label order bands = Raise ValueError.
Proof.
  intros single detect env_of label order [|a [|b bands]] L E; cbn in L; try lia.
  unfold detect_deblend_and_measure, dd_run. rewrite E. reflexivity.
Qed.
Print Assumptions C62_no_coadd_raises.
(** The detection step by itself returns no sources then, but as a tuple of two
    values; otherwise it returns the sources and the exposure they were found on. *)
Theorem C62_detection_alone_partial : forall single detect bands,
  (2 <= List.length bands)%nat ->
  (coadd_exposures bands = Ok None -> dd_run single detect bands = Ok (Two [])) /\
  (forall d, coadd_exposures bands = Ok (Some d) ->
     (forall l, detect d = Ok (Some l) -> dd_run single detect bands = Ok (Three l d)) /\
     (detect d = Ok None -> dd_run single detect bands = Ok (Three [] d)) /\
     (forall x, detect d = Raise x -> dd_run single detect bands = Raise x)).
Proof.
  intros single detect [|a [|b bands]] L; cbn in L; try lia. unfold dd_run.
  split; [intros ->; reflexivity|]. intros d ->. cbn [obind].
  repeat split; intros; rewrite H; reflexivity.
Qed.
Print Assumptions C62_detection_alone_partial.
(** Two bands without finite variance cannot be coadded. *)
Definition dead : exposure := mkExp 0 0 (ifill 3 3 1%Q) (ifill 3 3 None) (ifill 3 3 0) (Some (fun _ _ => ifill 3 3 1%Q)) (Some 7).
Theorem C62_refuted : exists bands, coadd_exposures bands = Ok None /\
  forall single detect env_of label order, detect_deblend_and_measure single detect env_of label order bands = Raise ValueError.
Proof.
  exists [dead; dead]. split; [vm_compute; reflexivity|]. intros. apply C62_no_coadd_raises; [cbn; lia|vm_compute; reflexivity].
Qed.
Print Assumptions C62_refuted.
(** Missing: the case above. When the detection finds nothing, or only parents,
    the result is the empty one. *)
Theorem C62_nothing_detected_partial : forall single detect env_of label order bands d,
  match bands with [e] => d = single e | _ => coadd_exposures bands = Ok (Some d) end ->
  bands <> [] ->
  (detect d = Ok None \/ detect d = Ok (Some [])) ->
  detect_deblend_and_measure single detect env_of label order bands = Ok None.
Proof.
  intros single detect env_of label order bands d E Ne D. unfold detect_deblend_and_measure, dd_run.
  destruct bands as [|a [|b bands]]; [congruence| |].
  - subst d. cbn [obind]. destruct D as [D|D]; rewrite D; reflexivity.
  - rewrite E. cbn [obind]. destruct D as [D|D]; rewrite D; reflexivity.
Qed.
Print Assumptions C62_nothing_detected_partial.
Example C62_ex : exists d, coadd_exposures [exB; exB] = Ok (Some d).
Proof. eexists. vm_compute. reflexivity. Qed.

(** ** C76: the stamp flags tell why an object was not measured *)
Theorem C76_stamp_flags : forall env label order cat rows, catalogue cat -> lists_set order ->
  0 <= m_stamp_size env -> one_box (m_bands env) ->
  measure env label order cat = Ok (Some rows) ->
  exists cs sb, Permutation cs (childless cat) /\ m_shear_bands env = Ok sb /\
    Forall2 (fun s r => at_position env s r /\ exists flags, sget "stamp_flags" r = Some (CInt flags) /\
      (flags = 2 ^ 20 <-> ~ stamp_inside env s) /\
      (flags = 2 ^ 25 <-> stamp_inside env s /\ some_band_unusable env s) /\
      (flags = 0 <-> stamp_inside env s /\ ~ some_band_unusable env s) /\
      (flags = 0 -> exists obs g p, source_mbobs env s = Ok obs /\ List.length obs = List.length (m_bands env) /\
                      m_gauss env obs = Ok g /\ m_pgauss env obs = Ok p /\ has_fits g p r) /\
      (flags <> 0 -> not_attempted env r /\ sget "shear_bands" r = Some (CStr (label sb)))) cs rows.
Proof.
  intros env label order cat rows C O Sz Ob H. destruct (measure_ok _ _ _ _ _ C O H) as (cs & sb & bms & M & P & Q & Ne & L & F).
  exists cs, sb. split; [exact P|].
  assert (Nc : cat <> []). { intro E. subst cat. unfold childless in P. cbn in P. apply Permutation_sym, Permutation_nil in P. subst cs. destruct rows; [congruence|discriminate]. }
  split; [now apply Q|].
  assert (G : forall n s, nth_error cs n = Some s -> exists r, nth_error rows n = Some r /\ at_position env s r /\ exists flags, sget "stamp_flags" r = Some (CInt flags) /\
      (flags = 2 ^ 20 <-> ~ stamp_inside env s) /\
      (flags = 2 ^ 25 <-> stamp_inside env s /\ some_band_unusable env s) /\
      (flags = 0 <-> stamp_inside env s /\ ~ some_band_unusable env s) /\
      (flags = 0 -> exists obs g p, source_mbobs env s = Ok obs /\ List.length obs = List.length (m_bands env) /\
                      m_gauss env obs = Ok g /\ m_pgauss env obs = Ok p /\ has_fits g p r) /\
      (flags <> 0 -> not_attempted env r /\ sget "shear_bands" r = Some (CStr (label sb)))).
  { intros n s E. destruct (F n s E) as (r & fl & g & p & bm & A & _ & S & G). exists r. split; [exact A|].
    assert (Pk : s_peaks s <> []). { apply get_output_ok in G. destruct G as (x & y & px & py & pks & b & _ & -> & _). discriminate. }
    apply output_facts in G. destruct G as (_ & G1 & _ & G3 & G4 & _). split; [exact G1|]. exists fl. split; [exact G4|].
    pose proof (stamp_edge env s Sz Ob Pk) as T1. pose proof (stamp_zero env s Sz Pk) as T2. pose proof (stamp_ok env s Sz Pk) as T3.
    assert (Def : g = default_cell env (label sb) -> p = default_cell env "nan" -> not_attempted env r /\ sget "shear_bands" r = Some (CStr (label sb))).
    { intros -> ->. destruct G3 as [Ga Gb]. split.
      - intros c I Nsb. apply in_app_or in I.
        assert (D : forall l, default_cell env l c = if has_sub "flags" c then CInt (m_no_attempt env) else CNum None).
        { intro l. unfold default_cell. destruct (String.eqb_spec c "shear_bands"); [congruence|reflexivity]. }
        destruct I as [I|I]; [rewrite (Ga c I)|rewrite (Gb c I)]; now rewrite D.
      - rewrite (Ga "shear_bands") by (cbn; tauto). reflexivity. }
    unfold stamp_case in S. destruct (source_mbobs env s) as [obs|e] eqn:Eo.
    - destruct S as (-> & S1 & S2). destruct (T3 obs eq_refl) as (I & U & Lo).
      split; [split; [intro X; discriminate|tauto]|]. split; [split; [intro X; discriminate|tauto]|]. split; [tauto|].
      split; [intros _; exists obs, g, p; auto|congruence].
    - assert (Cs : (e = LengthError \/ e = OtherError 1%nat) /\ g = default_cell env (label sb) /\ p = default_cell env "nan" /\
        fl = (if match e with LengthError => true | _ => false end then 2 ^ 20 else 2 ^ 25)).
      { destruct e; try contradiction; [tauto|]. destruct n0 as [|[|n0]]; try contradiction. tauto. }
      destruct Cs as ([-> | ->] & Sg & Sp & Sf); specialize (Def Sg Sp); cbn in Sf; rewrite Sf.
      + destruct T1 as [T1 _]. specialize (T1 eq_refl). split; [split; [auto|reflexivity]|]. split; [split; [discriminate|tauto]|].
        split; [split; [discriminate|tauto]|]. split; [discriminate|auto].
      + destruct (T2 eq_refl) as [I U]. split; [split; [discriminate|tauto]|]. split; [tauto|]. split; [split; [discriminate|tauto]|]. split; [discriminate|auto]. }
  clear -L G. revert rows L G. induction cs as [|s cs IH]; intros [|r rows] L G; try discriminate; constructor.
  - destruct (G 0%nat s eq_refl) as (r' & E & X). apply Some_inj in E. now subst r'.
  - apply IH; [now inversion L|]. intros n s' E. exact (G (S n) s' E).
Qed.
Print Assumptions C76_stamp_flags.
Example C76_ex : exists a b c, measure env1 lab in_order [parent; kid; kid3; kid4] = Ok (Some [a; b; c]) /\
  sget "stamp_flags" a = Some (CInt 0) /\ sget "stamp_flags" b = Some (CInt (2 ^ 20)) /\ sget "stamp_flags" c = Some (CInt (2 ^ 25)) /\
  catalogue [parent; kid; kid3; kid4] /\ one_box (m_bands env1).
Proof.
  do 3 eexists. split; [vm_compute; reflexivity|]. do 3 (split; [reflexivity|]). split; [repeat constructor; cbn; intuition lia|].
  intros e e' [<-|[<-|[]]] [<-|[<-|[]]]; reflexivity.
Qed.

(** ** C77: the reported position *)
(** Image positions are always numbers; sky positions are those of the centroid
    when it is a number. Missing: sky positions otherwise. *)
Theorem C77_positions_partial : forall env label order cat rows, catalogue cat -> lists_set order ->
  measure env label order cat = Ok (Some rows) ->
  exists cs, Permutation cs (childless cat) /\
    Forall2 (fun s r => at_position env s r /\ at_sky env s r /\ at_corner (m_bands env) r) cs rows.
Proof.
  intros env label order cat rows C O H. destruct (measure_ok _ _ _ _ _ C O H) as (cs & sb & bms & M & P & _ & Ne & L & F).
  exists cs. split; [exact P|].
  assert (G : forall n s, nth_error cs n = Some s -> exists r, nth_error rows n = Some r /\ at_position env s r /\ at_sky env s r /\ at_corner (m_bands env) r).
  { intros n s E. destruct (F n s E) as (r & fl & g & p & bm & A & B & S & G). exists r. split; [exact A|].
    apply output_facts in G. tauto. }
  clear -L G. revert rows L G. induction cs as [|s cs IH]; intros [|r rows] L G; try discriminate; constructor.
  - destruct (G 0%nat s eq_refl) as (r' & E & X). apply Some_inj in E. now subst r'.
  - apply IH; [now inversion L|]. intros n s' E. exact (G (S n) s' E).
Qed.
Print Assumptions C77_positions_partial.
(** An object whose centroid is not a number is reported at its peak, with a
    sky position that is not a number although the wcs has one for the peak. *)
Theorem C77_sky_refuted : exists env cat r x y, measure env lab in_order cat = Ok (Some [r]) /\
  sget "col" r = Some (CNum (Some x)) /\ sget "row" r = Some (CNum (Some y)) /\
  sget "ra" r = Some (CNum None) /\ sget "dec" r = Some (CNum None).
Proof. exists env1, [kid3]. do 3 eexists. split; [vm_compute; reflexivity|]. repeat split. Qed.
Print Assumptions C77_sky_refuted.

(** ** C78: the columns *)
(** Every row has the same columns in the same order, whatever happened to the
    object; the columns filled in later hold their defaults. *)
Theorem C78_columns : forall env label order cat rows, catalogue cat -> lists_set order ->
  measure env label order cat = Ok (Some rows) -> forall r, In r rows ->
  map fst r = all_columns /\ NoDup all_columns /\
  sget "stamp_size" r = Some (CInt (m_stamp_size env)) /\
  sget "ormask" r = Some (CInt 0) /\ sget "mfrac" r = Some (CNum None) /\
  sget "psfrec_flags" r = Some (CInt (m_no_attempt env)) /\ sget "psfrec_navg" r = Some (CInt (-9999)) /\
  sget "psfrec_g" r = Some (CNum None) /\ sget "psfrec_T" r = Some (CNum None).
Proof.
  intros env label order cat rows C O H r I. destruct (measure_ok _ _ _ _ _ C O H) as (cs & sb & bms & M & P & _ & Ne & L & F).
  apply In_nth_error in I. destruct I as [n En]. destruct (nth_error cs n) as [s|] eqn:Es.
  2: { exfalso. apply nth_error_None in Es. assert (nth_error rows n <> None) as X by congruence. apply nth_error_Some in X. lia. }
  destruct (F n s Es) as (r' & fl & g & p & bm & A & B & _ & G). rewrite En in A. apply Some_inj in A. subst r'.
  apply output_facts in G. unfold skeys in G. split; [apply G|]. split; [|tauto].
  unfold all_columns. cbn. repeat (constructor; [cbn; intuition discriminate|]). constructor.
Qed.
Print Assumptions C78_columns.
(** The detection bit is removed from the mask column and no other. *)
Theorem C78_bmask_bits : forall env label order cat rows, catalogue cat -> lists_set order ->
  measure env label order cat = Ok (Some rows) -> forall n r, nth_error rows n = Some r ->
  exists s x y v, nth_error cat n = Some s /\ hd_error (s_peaks s) = Some (x, y) /\ sget "bmask" r = Some (CInt v) /\
    forall b, 0 <= b -> Z.testbit v b =
      Z.testbit (px (m_detmask env) (y - m_dety0 env) (x - m_detx0 env)) b && negb (Z.testbit (m_detected env) b).
Proof.
  intros env label order cat rows C O H n r E. destruct (C61_bmask_position _ _ _ _ _ C O H n r E) as (s & v & A & B & x & y & P & I & V).
  exists s, x, y, v. do 3 (split; [assumption|]). intros b Hb. subst v. rewrite Z.land_spec, Z.lnot_spec by exact Hb. reflexivity.
Qed.
Print Assumptions C78_bmask_bits.

(** ** C79: get_stamp *)
(** MBObsExtractor.get_stamp never returns a stamp. *)
Theorem C79_get_stamp_refuted : forall env order cat id r, get_stamp env order cat id <> Ok r.
Proof.
  intros env order cat id r H. unfold get_stamp in H. destruct (check_source_id order cat id); cbn [obind] in H; [|discriminate].
  destruct (some_or_attr (find_source cat id)); cbn [obind] in H; [|discriminate]. destruct (get_bbox _ _ _ _); cbn [obind] in H; discriminate.
Qed.
Print Assumptions C79_get_stamp_refuted.
(** The extractor's get_mbobs: for a source without children one observation
    per band, cut out of that band around the peak; for any other id it raises. *)
Theorem C79_get_mbobs : forall env order cat id obs, catalogue cat -> lists_set order ->
  get_mbobs env order cat id = Ok obs ->
  exists s, In s (childless cat) /\ s_id s = id /\ List.length obs = List.length (m_bands env) /\
    forall x y, hd_error (s_peaks s) = Some (x, y) -> 0 <= m_stamp_size env ->
    let k := m_stamp_size env / 2 in
    Forall2 (fun e o => nr (o_image o) = 2 * k + 1 /\ nc (o_image o) = 2 * k + 1 /\
      forall i j, px (o_image o) i j = px (e_image e) (y - k + i - e_y0 e) (x - k + j - e_x0 e)) (m_bands env) obs.
Proof.
  intros env order cat id obs C O H. unfold get_mbobs, check_source_id in H.
  destruct (existsb (Z.eqb id) (child_ids order cat)) eqn:Ex; cbn [obind] in H; [|discriminate].
  apply existsb_exists in Ex. destruct Ex as (i' & I & E). apply Z.eqb_eq in E. subst i'.
  apply child_ids_In in I; [|exact O]. destruct I as (s & I & <-). exists s. split; [exact I|]. split; [reflexivity|].
  unfold childless in I. apply filter_In in I. rewrite find_source_In in H by tauto. cbn [some_or_attr obind] in H.
  unfold source_mbobs in H. destruct (get_bbox _ _ _ _) as [b|] eqn:Eb; cbn [obind] in H; [|discriminate].
  split; [now apply omap_ok_length in H|]. intros x y Fp Sz k. destruct (s_peaks s) as [|p pks] eqn:Epk; [discriminate|].
  cbn [hd_error] in Fp. apply Some_inj in Fp. subst p.
  assert (Hb : b = Some (mkBox (x - k) (y - k) (x + k) (y + k))).
  { unfold get_bbox in Eb. fold k in Eb. assert (0 <= k) by (apply Z.div_pos; lia). unfold grow, norm_box in Eb. cbn [bx0 by0 bx1 by1] in Eb.
    rewrite (proj2 (Z.ltb_ge (x + k) (x - k))), (proj2 (Z.ltb_ge (y + k) (y - k))) in Eb by lia. cbn [orb] in Eb.
    destruct (contains_box _ _); [|discriminate]. now apply Ok_inj in Eb. }
  subst b. apply omap_ok_Forall2 in H. clear -H. induction H as [|e o l l' E H IH]; constructor; [|exact IH].
  unfold band_obs in E. destruct (sub_exp e _) as [sub|] eqn:Es; cbn [obind] in E; [|discriminate].
  destruct (first_peak s) as [pk|]; cbn [obind] in E; [|discriminate].
  unfold sub_exp in Es. destruct (contains_box _ _); [|discriminate]. apply Ok_inj in Es.
  unfold extract_obs in E. destruct (forallb _ _); [discriminate|]. destruct (get_jacobian _ _ _ _); cbn [obind] in E; [|discriminate].
  destruct (some_or_attr _); cbn [obind] in E; [|discriminate]. destruct (negb _); [discriminate|]. apply Ok_inj in E. subst o. cbn [o_image].
  subst sub. cbn [e_image]. unfold cut. cbn [nr nc px bx0 by0 bx1 by1]. split; [lia|]. split; [lia|]. intros i j. f_equal; lia.
Qed.
Print Assumptions C79_get_mbobs.
Theorem C79_other_id : forall env order cat id, lists_set order ->
  (forall s, In s (childless cat) -> s_id s <> id) -> get_mbobs env order cat id = Raise ValueError.
Proof.
  intros env order cat id O N. unfold get_mbobs, check_source_id. destruct (existsb _ _) eqn:E; [|reflexivity]. exfalso.
  apply existsb_exists in E. destruct E as (i & I & E). apply Z.eqb_eq in E. subst i. apply child_ids_In in I; [|exact O].
  destruct I as (s & I & Es). exact (N s I Es).
Qed.
Print Assumptions C79_other_id.
Example C79_ex : exists obs, get_mbobs env1 in_order [parent; kid] 2 = Ok obs /\ get_mbobs env1 in_order [parent; kid] 1 = Raise ValueError.
Proof. eexists. split; vm_compute; reflexivity. Qed.
