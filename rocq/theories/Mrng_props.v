(** C94 to C98: the driver with its random number generator. *)
From Coq Require Import ZArith QArith List String Bool.
From Verif Require Import Base Arr Median Flags_model Summ_model Wavg_model Conf_model
  Mdet_model Mdet_spec Mrng_model Mrng_spec Mrng_proofs.
Import ListNotations.
Local Open Scope string_scope.
Local Open Scope Z_scope.

(** ** C94 *)

(** Without colours and with moments fitters only, random numbers are drawn for two
    things: the PSF fits of the main observations and then metacal on them. For
    every history of requests and go() calls, what happens is what happens in the
    driver without generator for these two values. So all that is proved about
    that driver holds for any seed. *)
Theorem C94_drawn_once : forall O SEG ST FL FR G (sob : O -> sobs) (r : renv O SEG ST FL FR G) g h,
  no_colours r -> moments_only r ->
  let e := with_oracles (r_base r) (fun _ => drawn_psf r g) (fun _ => drawn_mcal r g) (e_fit (r_base r)) in
  fst (rrun_ops sob r h (rinit g)) = fst (run_ops sob e h init_state) /\
  rs_core (snd (rrun_ops sob r h (rinit g))) = snd (run_ops sob e h init_state).
Proof. intros O SEG ST FL FR G sob r g h Hc Hm e. exact (drawn_ops O SEG ST FL FR G sob r Hc Hm g h). Qed.
Print Assumptions C94_drawn_once.
Theorem C94_same_draws : forall O SEG ST FL FR G (sob : O -> sobs) (r : renv O SEG ST FL FR G) g g' h,
  no_colours r -> moments_only r -> drawn_psf r g = drawn_psf r g' -> drawn_mcal r g = drawn_mcal r g' ->
  fst (rrun_ops sob r h (rinit g)) = fst (rrun_ops sob r h (rinit g')) /\
  rs_core (snd (rrun_ops sob r h (rinit g))) = rs_core (snd (rrun_ops sob r h (rinit g'))).
Proof.
  intros O SEG ST FL FR G sob r g g' h Hc Hm E1 E2.
  destruct (drawn_ops O SEG ST FL FR G sob r Hc Hm g h) as [A B]. destruct (drawn_ops O SEG ST FL FR G sob r Hc Hm g' h) as [A' B'].
  rewrite A, B, A', B', E1, E2. auto.
Qed.
Print Assumptions C94_same_draws.
(** When the state of the generator has no influence on any value, colours and joint
    fitters included, the generator can be left out. *)
Theorem C94_refines : forall O SEG ST FL FR G (sob : O -> sobs) (r : renv O SEG ST FL FR G) g h,
  stateless r -> identities r ->
  fst (rrun_ops sob r h (rinit g)) = fst (run_ops sob (r_base r) h init_state) /\
  rs_core (snd (rrun_ops sob r h (rinit g))) = snd (run_ops sob (r_base r) h init_state).
Proof. intros O SEG ST FL FR G sob r g h Hs Hi. exact (stateless_ops O SEG ST FL FR G sob r Hs Hi h g). Qed.
Print Assumptions C94_refines.

(** ** C95 *)

(** Two configurations that differ in the fitters only, without colours, the same
    seed: the tables are there for the same types and have the same rows in the
    same order; the position, mask and PSF columns are the same and so are the
    columns of each moments fitter that both have. *)
Theorem C95_other_fitters : forall O SEG ST FL FR G (sob : O -> sobs) (r : renv O SEG ST FL FR G) fs fs' g s s',
  no_colours r ->
  rgo sob (change_base r (with_fitters (r_base r) fs)) (rinit g) = (Ok tt, s) ->
  rgo sob (change_base r (with_fitters (r_base r) fs')) (rinit g) = (Ok tt, s') ->
  exists a b, s_result (rs_core s) = Some a /\ s_result (rs_core s') = Some b /\
    opt_rel (fun ta tb => forall t, opt_rel (opt_rel (Forall2 (same_but_joint fs fs'))) (table ta t) (table tb t)) a b.
Proof. intros O SEG ST FL FR G sob r fs fs' g s s' Hc H1 H2. exact (two_go O SEG ST FL FR G sob r fs fs' Hc g s s' H1 H2). Qed.
Print Assumptions C95_other_fitters.

(** ** C97 *)

(** Band combinations added at the end only add rows at the end of the tables,
    with any fitters and with colours. *)
Theorem C97_appended : forall O SEG ST FL FR G (sob : O -> sobs) (r : renv O SEG ST FL FR G) sh sh' dt dt' s s2,
  List.length sh = List.length dt ->
  rgo sob (change_base r (with_bands (r_base r) (sh ++ sh') (dt ++ dt'))) s = (Ok tt, s2) ->
  exists s1, rgo sob (change_base r (with_bands (r_base r) sh dt)) s = (Ok tt, s1) /\
    ((s_result (rs_core s1) = Some None /\ s_result (rs_core s2) = Some None) \/
     exists a b, s_result (rs_core s1) = Some (Some a) /\ s_result (rs_core s2) = Some (Some b) /\
       forall t, extends (table a t) (table b t)).
Proof. intros O SEG ST FL FR G sob r sh sh' dt dt' s s2 L H. exact (bands_appended O SEG ST FL FR G sob r sh sh' dt dt' s s2 L H). Qed.
Print Assumptions C97_appended.

(** ** C98 *)

(** With moments fitters, colours included: after a successful go() another one
    changes nothing: no random number is drawn, nothing is computed and the result
    is the same. Missing: joint fitters, for which it is false. *)
Theorem C98_go_again_partial : forall O SEG ST FL FR G (sob : O -> sobs) (r : renv O SEG ST FL FR G) s s1,
  moments_only r -> rgo sob r s = (Ok tt, s1) -> rgo sob r s1 = (Ok tt, s1).
Proof. intros O SEG ST FL FR G sob r s s1. exact (go_again O SEG ST FL FR G sob r s s1). Qed.
Print Assumptions C98_go_again_partial.

(** ** A concrete setting: two bands of 2x2 pixels, two detections. The generator
    is a counter; metacal writes it into the images, a stamp reads it there, a
    joint fit reports it. *)
Definition v22 (q : Q) : sobs := mkSobs (mkImg 2 2 (fun _ _ => q)) (Some (mkImg 2 2 (fun i _ => if i =? 0 then (1 # 2)%Q else 0%Q)))
  (mkImg 2 2 (fun i j => i + 2 * j)) (mkImg 2 2 (fun _ j => j)).
Definition vmain : mb sobs := [[v22 1]; [v22 2]].
Definition vpsf (t : Q) : pobs := mkPobs 1 (Some (mkPsfres 0 (Some t) (Some ((1 # 10)%Q, 0%Q)) None)).
Definition wm : fitter := mkFitter "wmom" None (Some 2%Q) None 2 0 true false false.
Definition am : fitter := mkFitter "am" None None None 2 0 false true false.
Definition renv22 (color : option ((Z -> outcome (option Z)) * (Z -> option (cobs sobs)))) (fs : list fitter) (sh dt : list (list Z))
  : renv sobs unit Z Z (list Z) Z :=
  mkRenv (mkEnv vmain color (fun _ => ([], Ok tt)) (fun _ => Raise ValueError) ["noshear"; "1p"] 1024 fs sh dt
    (fun m => Ok ([mkDetc 1 0 2 1; mkDetc 0 1 2 2], tt))
    (fun m _ d => Ok (10 * dc_number d + Qnum (px (so_weight (match m with (o :: _) :: _ => o | _ => v22 3 end)) 0 0)))
    (fun _ sb st => Ok (st :: sb)) fi_base (fun _ _ st => Ok (st / 10))
    (fun _ a b => Ok (a, b)) None None (fun _ _ _ => (fun _ _ => 1%Q, fun _ _ => true)))
    (fun k => k) (fun m g => (([[vpsf 1]; [vpsf (inject_Z g)]], Ok tt), g + 1))
    (fun m g => (Ok [("noshear", [[v22 (inject_Z g)]; [v22 2]]); ("1p", [[v22 (inject_Z (g + 1))]; [v22 2]])], g + 2))
    (fun f sb st g => (Ok [st; g], g + 1)).
Definition fits_of (s : rstate sobs (list Z) Z) : option (list (string * option (list (list (list Z))))) :=
  match s_result (rs_core s) with
  | Some (Some r) => Some (map (fun kv => (fst kv, option_map (map (@r_fits (list Z))) (snd kv))) r)
  | _ => None
  end.
Definition after_go (r : renv sobs unit Z Z (list Z) Z) (s : rstate sobs (list Z) Z) : rstate sobs (list Z) Z := snd (rgo (fun o => o) r s).

Lemma went : forall r s, fst (rgo (fun o => o) r s) = Ok tt -> rgo (fun o => o) r s = (Ok tt, after_go r s).
Proof. intros r s H. unfold after_go. rewrite <- H. apply surjective_pairing. Qed.
Definition rows_of (r : renv sobs unit Z Z (list Z) Z) (g : Z) (t : string) : option (list (drow (list Z))) :=
  match s_result (rs_core (after_go r (rinit g))) with
  | Some (Some tb) => match table tb t with Some x => x | None => None end
  | _ => None
  end.
Lemma rows_of_some : forall r g t l, rows_of r g t = Some l ->
  exists tb, s_result (rs_core (after_go r (rinit g))) = Some (Some tb) /\ table tb t = Some (Some l).
Proof.
  intros r g t l. unfold rows_of. destruct (s_result _) as [[tb|]|]; [|discriminate|discriminate].
  destruct (table tb t) as [x|] eqn:E; [|discriminate]. intros ->. eauto.
Qed.

(** C94 and C98: two combinations, seed 3; another go() draws nothing. *)
Example C94_example : let r := renv22 None [wm] [[0; 1]; [1]] [[0]; [1; 0]] in
  no_colours r /\ moments_only r /\
  fst (rgo (fun o => o) r (rinit 3)) = Ok tt /\ rs_gen (after_go r (rinit 3)) = 6 /\
  fits_of (after_go r (rinit 3)) = Some [("noshear", Some [[[14; 0; 1]]; [[24; 0; 1]]; [[14; 1]]; [[24; 1]]]);
                                        ("1p", Some [[[15; 0; 1]]; [[25; 0; 1]]; [[15; 1]]; [[25; 1]]])] /\
  rs_gen (after_go r (after_go r (rinit 3))) = 6.
Proof.
  split; [reflexivity|]. split. { intros f [<-|[]]. reflexivity. }
  repeat split; vm_compute; reflexivity.
Qed.
(** The seed matters, and matters through the two draws only. *)
Example C94_seed_matters : let r := renv22 None [wm] [[0]] [[0]] in
  fits_of (after_go r (rinit 3)) <> fits_of (after_go r (rinit 4)).
Proof. vm_compute. discriminate. Qed.
(** C94_refines: a generator without influence. *)
Example C94_stateless_example : let b := r_base (renv22 (Some (fun fl => Ok (Some fl), fun k => Some (Other [[v22 (inject_Z k)]; [v22 2]]))) [wm; am] [[0]] [[0]]) in
  let r := mkRenv b (fun k => k) (fun m g => (e_psf_fit b m, g + 1)) (fun m g => (e_metacal b m, g + 1)) (fun f sb st g => (e_fit b f sb st, g + 1)) in
  stateless r /\ identities r.
Proof.
  cbv zeta. split; [repeat split|]. intros keyf dep k k' m m' Ec Ek Ek' E. cbn in Ec. apply Some_inj, pair_equal_spec in Ec. destruct Ec as [_ <-].
  cbn in E. congruence.
Qed.
(** C95: the joint fitter in front of the moments fitter; the columns of the latter
    do not move although the joint fits use random numbers. *)
Example C95_example : let r := renv22 None [wm] [[0; 1]; [1]] [[0]; [1; 0]] in
  let r' := change_base r (with_fitters (r_base r) [am; wm]) in
  no_colours r /\ fst (rgo (fun o => o) r' (rinit 3)) = Ok tt /\
  fits_of (after_go r' (rinit 3)) = Some [("noshear", Some [[[14; 6]; [14; 0; 1]]; [[24; 7]; [24; 0; 1]]; [[14; 10]; [14; 1]]; [[24; 11]; [24; 1]]]);
    ("1p", Some [[[15; 8]; [15; 0; 1]]; [[25; 9]; [25; 0; 1]]; [[15; 12]; [15; 1]]; [[25; 13]; [25; 1]]])].
Proof. repeat split; vm_compute; reflexivity. Qed.
Example C97_example : let r := renv22 (Some (fun fl => Ok (if fl =? 1 then None else Some fl), fun k => Some (Other vmain))) [wm; am] [] [] in
  let r1 := change_base r (with_bands (r_base r) [[0; 1]] [[0]]) in
  let r2 := change_base r (with_bands (r_base r) [[0; 1]; [1]] [[0]; [0]]) in
  fst (rgo (fun o => o) r2 (rinit 3)) = Ok tt /\
  fits_of (after_go r1 (rinit 3)) = Some [("noshear", Some [[[14; 0; 1]; [14; 6]]; [[28; 0; 1]; [28; 10]]]); ("1p", Some [[[15; 0; 1]; [15; 11]]; [[29; 0; 1]; [29; 12]]])] /\
  fits_of (after_go r2 (rinit 3)) = Some [("noshear", Some [[[14; 0; 1]; [14; 6]]; [[28; 0; 1]; [28; 10]]; [[14; 1]; [14; 13]]; [[28; 1]; [28; 14]]]);
    ("1p", Some [[[15; 0; 1]; [15; 11]]; [[29; 0; 1]; [29; 12]]; [[15; 1]; [15; 15]]; [[29; 1]; [29; 16]]])].
Proof. repeat split; vm_compute; reflexivity. Qed.

(** ** C96 *)

(** REFUTED: with colours the moments columns depend on the other fitters: the
    joint fits of the first object come before metacal on the observations of the
    second one's colour. *)
Theorem C96_colours_refuted : exists (r : renv sobs unit Z Z (list Z) Z) fs fs' g s s' rows rows',
  nth_error fs 0 = Some wm /\ nth_error fs' 0 = Some wm /\ fi_wavg wm = true /\
  rgo (fun o => o) (change_base r (with_fitters (r_base r) fs)) (rinit g) = (Ok tt, s) /\
  rgo (fun o => o) (change_base r (with_fitters (r_base r) fs')) (rinit g) = (Ok tt, s') /\
  (exists t t', s_result (rs_core s) = Some (Some t) /\ s_result (rs_core s') = Some (Some t') /\
     table t "noshear" = Some (Some rows) /\ table t' "noshear" = Some (Some rows')) /\
  ~ Forall2 (same_but_joint fs fs') rows rows'.
Proof.
  set (r := renv22 (Some (fun fl => Ok (if fl =? 1 then None else Some fl), fun k => Some (Other vmain))) [wm] [[0]] [[0]]).
  set (r1 := change_base r (with_fitters (r_base r) [wm])). set (r2 := change_base r (with_fitters (r_base r) [wm; am])).
  assert (E : option_map (map (@r_fits (list Z))) (rows_of r1 3 "noshear") = Some [[[14; 0]]; [[27; 0]]] /\
              option_map (map (@r_fits (list Z))) (rows_of r2 3 "noshear") = Some [[[14; 0]; [14; 6]]; [[28; 0]; [28; 10]]]).
  { split; vm_compute; reflexivity. }
  destruct E as [E1 E2].
  destruct (rows_of r1 3 "noshear") as [l1|] eqn:R1; [|discriminate E1]. destruct (rows_of r2 3 "noshear") as [l2|] eqn:R2; [|discriminate E2].
  cbn [option_map] in E1, E2. apply Some_inj in E1. apply Some_inj in E2.
  destruct (rows_of_some _ _ _ _ R1) as (t1 & A1 & B1). destruct (rows_of_some _ _ _ _ R2) as (t2 & A2 & B2).
  exists r, [wm], [wm; am], 3, (after_go r1 (rinit 3)), (after_go r2 (rinit 3)), l1, l2.
  split; [reflexivity|]. split; [reflexivity|]. split; [reflexivity|].
  split; [apply went; vm_compute; reflexivity|]. split; [apply went; vm_compute; reflexivity|].
  split. { exists t1, t2. auto. }
  intros H. destruct H as [|a b l l' _ H2]; [discriminate E1|]. destruct H2 as [|a2 b2 l3 l3' (_ & _ & _ & H3) _]; [discriminate E1|].
  specialize (H3 0%nat 0%nat wm eq_refl eq_refl eq_refl). cbn [map] in E1, E2.
  assert (F1 : r_fits a2 = [[27; 0]]) by congruence. assert (F2 : r_fits b2 = [[28; 0]; [28; 10]]) by congruence.
  rewrite F1, F2 in H3. discriminate H3.
Qed.
Print Assumptions C96_colours_refuted.

(** The part that holds: both configurations have moments fitters only, and the same
    first one (it gives the fluxes for the colours). Missing: joint fitters. *)
Theorem C96_moments_partial : forall O SEG ST FL FR G (sob : O -> sobs) (r : renv O SEG ST FL FR G) fs fs' g s s',
  hd_error fs = hd_error fs' -> (forall f, In f fs -> fi_wavg f = true) -> (forall f, In f fs' -> fi_wavg f = true) ->
  rgo sob (change_base r (with_fitters (r_base r) fs)) (rinit g) = (Ok tt, s) ->
  rgo sob (change_base r (with_fitters (r_base r) fs')) (rinit g) = (Ok tt, s') ->
  exists a b, s_result (rs_core s) = Some a /\ s_result (rs_core s') = Some b /\
    opt_rel (fun ta tb => forall t, opt_rel (opt_rel (Forall2 (same_but_joint fs fs'))) (table ta t) (table tb t)) a b.
Proof.
  intros O SEG ST FL FR G sob r fs fs' g s s' Hh H1 H2 E1 E2. exact (eq_go O SEG ST FL FR G sob r fs fs' Hh H1 H2 g s s' E1 E2).
Qed.
Print Assumptions C96_moments_partial.
(** A second moments fitter, the second object with its own colour. *)
Definition pg : fitter := mkFitter "pgauss" None (Some 2%Q) None 2 0 true false false.
Example C96_example :
  let r := renv22 (Some (fun fl => Ok (if fl =? 1 then None else Some fl), fun k => Some (Other vmain))) [wm] [[0]] [[0]] in
  let r2 := change_base r (with_fitters (r_base r) [wm; pg]) in
  fst (rgo (fun o => o) r2 (rinit 3)) = Ok tt /\
  option_map (map (@r_fits (list Z))) (rows_of r 3 "noshear") = Some [[[14; 0]]; [[27; 0]]] /\
  option_map (map (@r_fits (list Z))) (rows_of r2 3 "noshear") = Some [[[14; 0]; [14; 0]]; [[27; 0]; [27; 0]]].
Proof. repeat split; vm_compute; reflexivity. Qed.

(** C98 is REFUTED for joint fitters: the second go() draws further random numbers
    and its result differs. *)
Theorem C98_joint_refuted : exists (r : renv sobs unit Z Z (list Z) Z) g s1 s2,
  rgo (fun o => o) r (rinit g) = (Ok tt, s1) /\ rgo (fun o => o) r s1 = (Ok tt, s2) /\
  s_result (rs_core s1) <> s_result (rs_core s2).
Proof.
  set (r := renv22 None [am] [[0]] [[0]]).
  exists r, 3, (after_go r (rinit 3)), (after_go r (after_go r (rinit 3))).
  split; [apply went; vm_compute; reflexivity|]. split; [apply went; vm_compute; reflexivity|].
  intros H. assert (E : fits_of (after_go r (rinit 3)) = fits_of (after_go r (after_go r (rinit 3)))) by (unfold fits_of; rewrite H; reflexivity).
  vm_compute in E. discriminate E.
Qed.
Print Assumptions C98_joint_refuted.
