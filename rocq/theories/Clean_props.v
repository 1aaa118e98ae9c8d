(** C133: values without flags are numbers. *)
From Coq Require Import ZArith QArith List String Bool Lia.
From Verif Require Import Base Arr Median Flags_model Detect_model Summ_model Coadd_model Wavg_model
  Joint_model Conf_model Mdet_model Mrun_model Mrun_spec Mrun_props Mtab_model Mtab_spec Mtab_proofs Mtab_props Clean_spec Clean_proofs.
Import ListNotations.
Local Open Scope string_scope.
Local Open Scope Z_scope.

(** One object, any fitter: where a flag column is 0 the values it describes are
    numbers. *)
Theorem C133_fit : forall x c f sb st r, honest x -> fit x c f sb st = Ok r -> unflagged_numbers r /\ summary_covers r.
Proof. intros x c f sb st r Hx H. exact (conj (fit_numbers x c Hx f sb st r H) (fit_covers x c Hx f sb st r H)). Qed.
Print Assumptions C133_fit.

(** One object, the fitters that average over bands: without any flag every value
    of the row is a number. *)
Theorem C133_average : forall x c f sb st r, honest x -> sized (tp_mk x) -> fi_wavg f = true -> fit x c f sb st = Ok r ->
  o_flags r = 0 -> all_numbers r.
Proof. intros x c f sb st r Hx Hs Hw H. exact (wavg_all x c Hx Hs f sb st r Hw H). Qed.
Print Assumptions C133_average.

(** The tables of do_metadetect: in row [i] of the table of any shear type, for
    the fitter with prefix [p]. *)
Theorem C133_tables : forall x c main sbc keyf dep dbc md ps ts t tb k p i,
  honest x -> all_one_shape main dep -> metacal_ok x c -> same_bands main dep ->
  construct (st_conf c) (zlen main) (has keyf) (has dep) sbc dbc = Ok md -> Forall2 prefix (md_fitters md) ps ->
  do_metadetect_tables x c main sbc keyf dep dbc = Ok (Some ts) -> In (t, Some tb) ts -> nth_error ps k = Some p ->
  (read tb (p ++ "_psf_flags") i (CInt 0) -> forall q v, In q ["_psf_g"; "_psf_T"] -> read tb (p ++ q) i v -> numbers v) /\
  (read tb (p ++ "_obj_flags") i (CInt 0) -> forall q v, In q ["_s2n"; "_g"; "_g_cov"] -> read tb (p ++ q) i v -> numbers v) /\
  (read tb (p ++ "_T_flags") i (CInt 0) -> forall q v, In q ["_T"; "_T_err"] -> read tb (p ++ q) i v -> numbers v) /\
  (read tb (p ++ "_psf_flags") i (CInt 0) -> read tb (p ++ "_T_flags") i (CInt 0) ->
     forall v, read tb (p ++ "_T_ratio") i v -> numbers v) /\
  (forall ff b, read tb (p ++ "_band_flux_flags") i (CInts ff) -> nth_error ff b = Some 0 ->
     forall q v, In q ["_band_flux"; "_band_flux_err"] -> read tb (p ++ q) i v -> flux_number v b) /\
  (read tb (p ++ "_flags") i (CInt 0) ->
     forall q v, In q ["_psf_flags"; "_obj_flags"] -> read tb (p ++ q) i v -> v = CInt 0).
Proof.
  intros x c main sbc keyf dep dbc md ps ts t tb k p i Hx H1 H2 H3 H4 H5 H6 H7 H8.
  exact (table_numbers x c main sbc keyf dep dbc md ps Hx H1 H2 H3 H4 H5 ts t tb k p i H6 H7 H8).
Qed.
Print Assumptions C133_tables.

(** Adaptive moments measure no fluxes: none of their rows has a flux or a flux
    error, and each band says that it was not tried. *)
Theorem C133_admom_fluxes : forall ng rp ro mbobs bm sb sym r, fit_mbobs_admom ng rp ro mbobs bm sb sym = Ok r ->
  Forall (eq None) (o_band_flux r) /\ Forall (eq None) (o_band_flux_err r) /\ Forall (eq (NO_ATTEMPT ng)) (o_band_flux_flags r).
Proof. exact admom_fluxes. Qed.
Print Assumptions C133_admom_fluxes.

(** ** A concrete case: the two-band field of Mrun_props, with honest fitting code
    and the fitters wmom, gauss and am. *)
Definition known (v : Wavg_model.num) : bool := match v with Some _ => true | None => false end.
Definition mk7 (m : vec) (cv : mat) : momresult :=
  let e1 := ndiv (m 2%nat) (m 4%nat) in let e2 := ndiv (m 3%nat) (m 4%nat) in let T := ndiv (m 4%nat) (m 5%nat) in
  let ok := known e1 && known e2 && ngt0 T && forallb (fun i => forallb (fun j => known (cv i j)) [0; 1]%nat) [0; 1]%nat in
  mkMom e1 e2 cv T (Some 1%Q) (if known T then 0 else 8) (if ok then 0 else 8) 0.
Definition boot7 (mb : list (list fobs)) : bootout :=
  match mb with
  | [] => BootOther
  | _ => BootOk (mkGauss 0 (Some 10%Q) (Some (1 # 10)%Q, Some 0%Q) (fun _ _ => Some 1%Q) (Some 4%Q) (Some 1%Q)
                   (map (fun _ => Some 6%Q) mb) (map (fun _ => Some 1%Q) mb))
           (fun k => Joint_model.mkPsfres 0 (Some 2%Q) (Some 0%Q, Some 0%Q))
  end.
Definition am7 : amres := mkAm 0 0 (Some 4%Q) (Some 1%Q) (Some 10%Q) (Some (1 # 10)%Q, Some 0%Q) (fun _ _ => Some 1%Q).
Definition third7 : third :=
  mkThird sep6 read6 metacal6 (fun o => Summ_model.mkPsfres 0 (Some 1%Q) (Some (0%Q, 0%Q)) None)
    (fun f o => Ok (mom6 (px (f_image o) 1 1))) (fun f p => Ok (mom6 1))
    (mkNg 1 2 4) mk7 (fun q => q) (fun q => q) boot7 (fun _ => Ok am7) (fun _ => Ok am7)
    (fun o t row col => Ok (row, (col + (1 # 10))%Q)) (fun _ _ _ => (fun _ _ => 1%Q, fun _ _ => true)) (2355 # 1000).
Definition settings7 : settings :=
  mkSettings (mkConfig true true None
      (Some [mkFc (Some "wmom") (Some (mkW (Some (12 # 10)) None None)) None None;
             mkFc (Some "gauss") None None None; mkFc (Some "am") None None None])
      (mkFc None None None None))
    ["noshear"; "1p"] (mkMeds "iso_radius" 4 2 2 5 4 4) None (Some 0) None None.
Definition tables7 := do_metadetect_tables third7 settings7 main6 (Some [[0; 1]; [1]]) None None DetShear.
Lemma known_num : forall v, known v = true -> is_num v.
Proof. intros [q|] H; [now exists q|discriminate]. Qed.
Lemma honest7 : honest third7 /\ sized (tp_mk third7).
Proof.
  assert (M : forall m c, mo_flags (mk7 m c) = 0 -> known (mo_e1 (mk7 m c)) = true /\ known (mo_e2 (mk7 m c)) = true /\
    ngt0 (mo_T (mk7 m c)) = true /\ forallb (fun i => forallb (fun j => known (c i j)) [0; 1]%nat) [0; 1]%nat = true).
  { intros m c. unfold mk7. cbv zeta. cbn [mo_flags mo_e1 mo_e2 mo_T]. destruct (_ && _ && _ && _) eqn:E; [|discriminate]. intros _.
    apply andb_true_iff in E. destruct E as [E E4]. apply andb_true_iff in E. destruct E as [E E3]. apply andb_true_iff in E. tauto. }
  assert (NZ : forall v, ngt0 v = true -> nonzero v).
  { intros [q|] H; [|discriminate]. exists q. split; [reflexivity|]. intros X. cbn in H. apply negb_true_iff in H.
    assert (Qle_bool q 0 = true) by (apply Qle_bool_iff; rewrite X; apply Qle_refl). congruence. }
  split; [split|].
  - split; discriminate.
  - intros v H X. cbn in X. rewrite X in H. exact (Qlt_irrefl 0 H).
  - intros m c. split.
    + intros H. destruct (M m c H) as (A & B & C & D). apply known_num in A, B. apply NZ in C. split; [exact A|]. split; [exact B|]. split.
      * intros i j Hi Hj. cbn [forallb] in D. rewrite !andb_true_iff in D. apply known_num.
        change (mo_ecov (mk7 m c) i j) with (c i j). destruct i as [|[|i]]; [| |lia]; (destruct j as [|[|j]]; [| |lia]); tauto.
      * split; [exact C|]. destruct C as (q & C & _). change (mo_T (mk7 m c)) with (ndiv (m 4%nat) (m 5%nat)) in C.
        destruct (m 4%nat), (m 5%nat); try discriminate C. eexists. reflexivity.
    + intros H. split; [|exists 1%Q; reflexivity]. apply known_num. change (tp_mk third7) with mk7 in *. change (mo_T_flags (mk7 m c)) with (if known (mo_T (mk7 m c)) then 0 else 8) in H.
      destruct (known (mo_T (mk7 m c))); [reflexivity|discriminate].
  - intros f o r H fl fe A B _. apply Ok_inj in H. subst r. cbn [mom6 r_flux r_flux_err] in A, B. apply Some_inj in A, B. subst fl fe.
    split; eexists; reflexivity.
  - intros mb g p H. destruct mb as [|ol mb]; [discriminate|]. unfold tp_boot, third7, boot7 in H. injection H as <- <-. split; [discriminate|].
    cbn [g_flags g_s2n g_g g_gcov g_T g_T_err g_flux g_flux_err Joint_model.q_flags Joint_model.q_g Joint_model.q_T]. split.
    + intros _. split; [eexists; reflexivity|]. split; [split; eexists; reflexivity|]. split; [intros i j _ _; eexists; reflexivity|].
      split; [eexists; reflexivity|]. split; [eexists; reflexivity|].
      split; (constructor; [eexists; reflexivity|]); apply Forall_forall; intros v Hv; apply in_map_iff in Hv; destruct Hv as (o & <- & _); eexists; reflexivity.
    + intros k _. split; [split; eexists; reflexivity|]. exists 2%Q. split; reflexivity.
  - intros o r H _. apply Ok_inj in H. subst r. split; [split; eexists; reflexivity|]. exists 4%Q. split; [reflexivity|discriminate].
  - intros o r H. apply Ok_inj in H. subst r. split; intros _.
    + split; [eexists; reflexivity|]. split; [split; eexists; reflexivity|]. intros i j _ _. eexists. reflexivity.
    + split; eexists; reflexivity.
  - intros m c H. destruct (M m c H) as (_ & _ & C & _). change (tp_mk third7) with mk7 in *. change (mo_T_flags (mk7 m c)) with (if known (mo_T (mk7 m c)) then 0 else 8).
    destruct (mo_T (mk7 m c)); [reflexivity|discriminate].
Qed.
Lemma metacal7_ok : metacal_ok third7 settings7.
Proof. exact (metacal6_ok 0). Qed.
Lemma fitters7 : exists md, construct (st_conf settings7) (zlen main6) (has (@None keyfun)) (has (@None colours)) (Some [[0; 1]; [1]]) DetShear = Ok md /\
  Forall2 prefix (md_fitters md) ["wmom"; "gauss"; "am"].
Proof.
  destruct (construct (st_conf settings7) (zlen main6) (has (@None keyfun)) (has (@None colours)) (Some [[0; 1]; [1]]) DetShear) as [md|y] eqn:E;
    [|vm_compute in E; discriminate E].
  exists md. split; [reflexivity|]. vm_compute in E. apply Ok_inj in E. subst md. cbn [md_fitters]. constructor; [|constructor; [|constructor; [|constructor]]].
  - right. left. repeat split; discriminate || reflexivity.
  - right. left. repeat split; discriminate || reflexivity.
  - right. left. repeat split; discriminate || reflexivity.
Qed.
Definition cells7 := cells6 tables7 ["wmom_flags"; "wmom_T_flags"; "gauss_flags"; "gauss_band_flux"; "am_flags"; "am_band_flux"].
Example C133_example : honest third7 /\ sized (tp_mk third7) /\ all_one_shape main6 None /\ metacal_ok third7 settings7 /\ same_bands main6 None /\
  (exists md, construct (st_conf settings7) (zlen main6) (has (@None keyfun)) (has (@None colours)) (Some [[0; 1]; [1]]) DetShear = Ok md /\
     Forall2 prefix (md_fitters md) ["wmom"; "gauss"; "am"]) /\
  map (fun kt => filter (fun cv => negb (String.eqb (fst cv) "gauss_band_flux" || String.eqb (fst cv) "am_band_flux")) (snd kt)) cells7 =
    [[("wmom_flags", [CInt 0; CInt 0; CInt 169869312; CInt 0; CInt 0; CInt 169869312]);
      ("wmom_T_flags", [CInt 0; CInt 0; CInt 1; CInt 0; CInt 0; CInt 1]);
      ("gauss_flags", [CInt 0; CInt 0; CInt 0; CInt 0; CInt 0; CInt 0]);
      ("am_flags", [CInt 0; CInt 0; CInt 0; CInt 0; CInt 0; CInt 0])];
     [("wmom_flags", [CInt 0; CInt 0; CInt 169869312; CInt 0; CInt 0; CInt 169869312]);
      ("wmom_T_flags", [CInt 0; CInt 0; CInt 1; CInt 0; CInt 0; CInt 1]);
      ("gauss_flags", [CInt 0; CInt 0; CInt 0; CInt 0; CInt 0; CInt 0]);
      ("am_flags", [CInt 0; CInt 0; CInt 0; CInt 0; CInt 0; CInt 0])]].
Proof.
  split; [exact (proj1 honest7)|]. split; [exact (proj2 honest7)|]. split; [exact none_shape|]. split; [exact metacal7_ok|].
  split; [intros d k m H; discriminate|]. split; [exact fitters7|]. vm_compute. reflexivity.
Qed.

(** "A row whose flags column is 0 holds numbers only" is false of the joint
    fitters: with the shear band 1 of two bands, row 3 has gauss_flags 0 and
    am_flags 0, but the Gaussian fit has no flux in band 0 and adaptive moments
    have none at all. *)
Definition cell_of (o : outcome (option tables)) (i : nat) (n : string) : option cell :=
  match o with
  | Ok (Some ((_, Some tb) :: _)) => match get_col n (t_cols tb) with Some l => nth_error l i | None => None end
  | _ => None
  end.
Lemma get_col_in : forall A n (l : list (string * list A)) v, get_col n l = Some v -> In (n, v) l.
Proof.
  intros A n l v. induction l as [|[d w] l IH]; cbn [get_col]; [discriminate|]. destruct (String.eqb n d) eqn:E.
  - intros H. apply Some_inj in H. apply String.eqb_eq in E. subst. now left.
  - intros H. right. exact (IH H).
Qed.
Lemma cells_read : forall o i l, map (fun nv => cell_of o i (fst nv)) l = map (fun nv => Some (snd nv)) l -> l <> [] ->
  exists ts t tb, o = Ok (Some ts) /\ In (t, Some tb) ts /\ forall n v, In (n, v) l -> read tb n i v.
Proof.
  intros o i l H N. destruct o as [[[|[t [tb|]] ts]|]|]; try (destruct l; [congruence|discriminate H]).
  exists ((t, Some tb) :: ts), t, tb. split; [reflexivity|]. split; [now left|]. clear N. induction l as [|[n v] l IH]; [intros ? ? []|].
  cbn [map fst snd] in H. injection H as H1 H2. intros n' v' [X|X]; [|exact (IH H2 n' v' X)]. injection X as <- <-.
  cbn [cell_of] in H1. destruct (get_col n (t_cols tb)) as [cs|] eqn:E; [|discriminate]. exists cs. split; [exact (get_col_in _ _ _ _ E)|exact H1].
Qed.
Theorem C133_summary_refuted : exists x c main sbc ts t tb i,
  honest x /\ sized (tp_mk x) /\ all_one_shape main None /\ metacal_ok x c /\ same_bands main None /\
  do_metadetect_tables x c main sbc None None DetShear = Ok (Some ts) /\ In (t, Some tb) ts /\
  read tb "gauss_flags" i (CInt 0) /\ read tb "gauss_band_flux" i (CNums [None; Some 6%Q]) /\
  read tb "am_flags" i (CInt 0) /\ read tb "am_band_flux" i (CNums [None; None]).
Proof.
  destruct (cells_read (do_metadetect_tables third7 settings7 main6 (Some [[0; 1]; [1]]) None None DetShear) 3
    [("gauss_flags", CInt 0); ("gauss_band_flux", CNums [None; Some 6%Q]); ("am_flags", CInt 0); ("am_band_flux", CNums [None; None])])
    as (ts & t & tb & E & I & R); [vm_compute; reflexivity|discriminate|].
  exists third7, settings7, main6, (Some [[0; 1]; [1]]), ts, t, tb, 3%nat.
  split; [exact (proj1 honest7)|]. split; [exact (proj2 honest7)|]. split; [exact none_shape|]. split; [exact metacal7_ok|].
  split; [intros d k m H; discriminate|]. split; [exact E|]. split; [exact I|].
  split; [apply R; left; reflexivity|]. split; [apply R; right; left; reflexivity|].
  split; [apply R; right; right; left; reflexivity|apply R; right; right; right; left; reflexivity].
Qed.
Print Assumptions C133_summary_refuted.
