(** Property C90: the named mask planes. *)
From Coq Require Import ZArith Reals List String Bool Lia Lra.
From Verif Require Import Base Arr Dict Masking_model Masking_spec Lmask_model Lmask_spec Lmask_proofs Lmask_props Lplane_model Lplane_spec Lplane_proofs.
Import ListNotations.
Local Open Scope string_scope.
Local Open Scope Z_scope.

(** C90: whatever happens in a process, a plane keeps its bit and no two planes
    share one. *)
Theorem C90_stable : forall reg l, table reg ->
  table (history reg l) /\ forall n i, In (n, i) reg -> In (n, i) (history reg l).
Proof. intros reg l T. exact (history_grows l reg T). Qed.
Print Assumptions C90_stable.

(** C90: a mask value has a bit of the combined value exactly when it has one of
    the planes; unknown planes raise. *)
Theorem C90_bits : forall reg names, table reg ->
  (forall m, bit_mask reg names = Ok m -> forall v, Z.land v m <> 0 <-> left_out reg names v) /\
  ((exists m, bit_mask reg names = Ok m) <-> forall n, In n names -> exists i, In (n, i) reg).
Proof.
  intros reg names T. split; [intros m H; exact (bit_mask_land names reg m T H)|]. split; [|apply bit_mask_ok].
  intros [m H]. revert m H. induction names as [|k r IH]; intros m H n I; [destruct I|]. cbn [bit_mask] in H.
  destruct (sget k reg) as [i|] eqn:E; [|discriminate]. destruct (bit_mask reg r) as [m'|] eqn:Em; cbn [obind] in H; [|discriminate].
  destruct I as [<-|I]; [exists i; apply sget_In_pair; [apply T|exact E]|]. eapply IH; [reflexivity|exact I].
Qed.
Print Assumptions C90_bits.

(** C90: asking for the planes to skip returns the documented ones, all of them
    registered then; the only plane it ever adds is BRIGHT; asking again changes
    nothing. It fails exactly when BRIGHT is missing and no bit is left, and then
    it changes nothing. *)
Theorem C90_lists : forall get names reg, table reg -> has_standard reg ->
  get = get_stats_mask /\ names = skipped_by_statistics \/ get = get_detection_mask /\ names = skipped_by_detection ->
  (forall reg' out, get reg = (reg', Ok out) ->
     out = names /\ table reg' /\ (forall n, In n out -> exists i, In (n, i) reg') /\
     (forall n i, In (n, i) reg -> In (n, i) reg') /\ (forall n i, In (n, i) reg' -> In (n, i) reg \/ n = "BRIGHT") /\
     get reg' = (reg', Ok out)) /\
  (forall reg' e, get reg = (reg', Raise e) -> reg' = reg) /\
  ((exists e, snd (get reg) = Raise e) <-> full reg /\ forall i, ~ In ("BRIGHT", i) reg).
Proof.
  intros get names reg T S L. fold (mask_list get names) in L. split; [|split].
  - intros reg' out H. pose proof (mask_list_known _ _ _ _ _ L T S H) as (-> & E & K). split; [reflexivity|]. split; [apply E|]. split; [exact K|].
    split; [apply E|]. split; [apply E|]. rewrite (mask_list_call _ _ _ L). rewrite add_again; [reflexivity|].
    destruct E as (_ & _ & _ & i & I). apply in_map_iff. exists ("BRIGHT", i). auto.
  - intros reg' e H. rewrite (mask_list_call _ _ _ L) in H. destruct (add_plane reg "BRIGHT"); [discriminate|]. now apply pair_equal_spec in H.
  - rewrite (mask_list_call _ _ _ L). assert (Q : (forall i, ~ In ("BRIGHT", i) reg) <-> ~ In "BRIGHT" (map fst reg)).
    { split; [intros N I; apply in_map_iff in I; destruct I as ([n i] & En & I); cbn in En; subst n; exact (N i I)|].
      intros N i I. apply N. apply in_map_iff. exists ("BRIGHT", i). auto. }
    rewrite Q, <- add_fails. destruct (add_plane reg "BRIGHT"); cbn [snd]; split; intros [x E]; try discriminate; eauto.
Qed.
Print Assumptions C90_lists.

(** C90: pixels in the circle of a bright object are left out of detection and of
    the statistics at any later time, whatever was registered in between; no other
    pixel is left out because of the call. The noise is treated like the data. *)
Theorem C90_bright : forall reg wcs xy0 info w r c reg1 w' l get names reg2 m, table reg -> has_standard reg ->
  (forall b, In b info -> (0 <= br_rad b)%R) -> world_ok r c w ->
  bright_masks wcs xy0 info w reg = (reg1, Ok w') ->
  get = get_stats_mask \/ get = get_detection_mask ->
  get (history reg1 l) = (reg2, Ok names) -> bit_mask reg2 names = Ok m ->
  forall e e' i j, became w w' e e' -> 0 <= i < r -> 0 <= j < c ->
  (Z.land (px (e_mask e') i j) m <> 0 <-> Z.land (px (e_mask e) i j) m <> 0 \/ in_circle wcs xy0 info i j).
Proof.
  intros reg wcs xy0 info w r c reg1 w' l get names reg2 m T S Rd W H G Hg Hm e e' i j B Hi Hj.
  destruct (bright_ok _ _ _ _ _ _ _ T H) as [G1 (b & x & Ib & _)]. pose proof (history_grows l reg1 (proj1 G1)) as G2.
  assert (L : exists ns, mask_list get ns) by (destruct G as [->| ->]; eexists; [left|right]; split; reflexivity). destruct L as [ns L].
  assert (S2 : has_standard (history reg1 l)) by (eapply standard_grows; [|exact G2]; eapply standard_grows; [exact S|exact G1]).
  destruct (mask_list_known _ _ _ _ _ L (proj1 G2) S2 Hg) as (-> & (T3 & G3 & _) & K).
  assert (N : forall n, In n ns -> exists i, In (n, i) reg1).
  { intros n In_. assert (D : n = "BRIGHT" \/ In n ["BAD"; "EDGE"; "DETECTED"; "DETECTED_NEGATIVE"; "NO_DATA"]).
    { destruct L as [[_ ->]|[_ ->]]; unfold skipped_by_statistics, skipped_by_detection in In_; cbn [In] in *; intuition auto. }
    destruct D as [->|D]; [eauto|]. exact (standard_grows _ _ S G1 n D). }
  assert (G13 : grows reg1 reg2) by (split; [exact T3|intros n k I; apply G3; apply G2; exact I]).
  rewrite !(bit_mask_land ns reg2 m T3 Hm). rewrite !(grows_left_out reg1 reg2 ns _ (proj1 G1) G13 N).
  apply (bright_left_out reg wcs xy0 info w r c reg1 w' ns e e' i j T Rd W H); try assumption.
  - destruct L as [[_ ->]|[_ ->]]; unfold skipped_by_statistics, skipped_by_detection; cbn [In]; auto 7.
  - destruct L as [[_ ->]|[_ ->]]; unfold skipped_by_statistics, skipped_by_detection; cbn [In]; intuition discriminate.
Qed.
Print Assumptions C90_bright.

(** C90: the apodized edge does not change which pixels are left out. *)
Theorem C90_edge : forall reg w r c reg1 w' l get names reg2 m, table reg -> has_standard reg -> world_ok r c w ->
  edge_masks w reg = (reg1, Ok w') -> get = get_stats_mask \/ get = get_detection_mask ->
  get (history reg1 l) = (reg2, Ok names) -> bit_mask reg2 names = Ok m ->
  forall e e' i j, became w w' e e' -> 0 <= i < r -> 0 <= j < c ->
  (Z.land (px (e_mask e') i j) m <> 0 <-> Z.land (px (e_mask e) i j) m <> 0).
Proof.
  intros reg w r c reg1 w' l get names reg2 m T S W H G Hg Hm e e' i j B Hi Hj.
  destruct (edge_ok _ _ _ _ T H) as [G1 (b & Ib & A)]. pose proof (history_grows l reg1 (proj1 G1)) as G2.
  assert (L : exists ns, mask_list get ns) by (destruct G as [->| ->]; eexists; [left|right]; split; reflexivity). destruct L as [ns L].
  assert (S2 : has_standard (history reg1 l)) by (eapply standard_grows; [|exact G2]; eapply standard_grows; [exact S|exact G1]).
  destruct (mask_list_known _ _ _ _ _ L (proj1 G2) S2 Hg) as (-> & (T3 & G3 & _) & K).
  rewrite !(bit_mask_land ns reg2 m T3 Hm).
  assert (Ib2 : In ("APODIZED_EDGE", b) reg2) by (apply G3; apply G2; exact Ib).
  assert (NA : ~ In "APODIZED_EDGE" ns).
  { destruct L as [[_ ->]|[_ ->]]; unfold skipped_by_statistics, skipped_by_detection; cbn [In]; intuition discriminate. }
  destruct (edge_spec r c (Z.shiftl 1 b) w W) as (w'' & E & M). rewrite E in A. apply Ok_inj in A. subst w''.
  apply (became_masked _ _ _ _ _ _ _ _ _ M) in B. destruct B as [_ B]. destruct (B i j Hi Hj) as (_ & B1 & B2).
  destruct (Rlt_dec (edge_factor AP_RAD r c i j) 1) as [Lt|Lt].
  - destruct (B1 Lt) as [_ ->]. rewrite Z.lor_0_r, (left_out_lor reg2 ns _ "APODIZED_EDGE" b T3 Ib2). tauto.
  - destruct (B2 Lt) as [_ ->]. rewrite Z.lor_0_r. tauto.
Qed.
Print Assumptions C90_edge.

(** The planes of a fresh process; another package then adds one. A pixel in the
    circle of an object is skipped by the detection, one outside is not. *)
Definition fresh : registry := [("BAD", 0); ("SAT", 1); ("INTRP", 2); ("CR", 3); ("EDGE", 4); ("DETECTED", 5); ("DETECTED_NEGATIVE", 6); ("SUSPECT", 7); ("NO_DATA", 8)].
Lemma C90_fresh : table fresh /\ has_standard fresh.
Proof.
  split; [split; [|split]|].
  - repeat constructor; cbn; intuition discriminate.
  - repeat constructor; cbn; intuition discriminate.
  - intros n i I. cbn in I. repeat (destruct I as [I|I]; [inversion I; lia|]). destruct I.
  - intros n I. cbn in I |- *. repeat (destruct I as [<-|I]; [eexists; eauto 12|]). destruct I.
Qed.
Example C90_example :
  let l := [Add "STREAK"; Stats; Add "STREAK"; DetMask] in
  sget "BRIGHT" (history fresh l) = Some 10 /\ sget "STREAK" (history fresh l) = Some 9 /\ zlen (history fresh l) = 11 /\
  exists reg, get_detection_mask fresh = (reg, Ok ["EDGE"; "NO_DATA"; "BRIGHT"]) /\ bit_mask reg ["EDGE"; "NO_DATA"; "BRIGHT"] = Ok 784.
Proof. cbn. repeat split. eexists. split; reflexivity. Qed.
Definition full_table : registry := map (fun i => (append "P" (String (Ascii.ascii_of_nat (Z.to_nat (i + 40))) EmptyString), i)) (zrange 32).
Example C90_full : snd (get_stats_mask full_table) = Raise LSSTRuntimeError /\ snd (get_stats_mask fresh) <> Raise LSSTRuntimeError.
Proof. split; [reflexivity|discriminate]. Qed.
Example C90_bright_example : exists reg1 w' reg2 m,
  bright_masks (fun a b => (a, b)) (0, 0) [mkBright 12 10 3] world20 fresh = (reg1, Ok w') /\
  get_detection_mask (history reg1 [Add "STREAK"]) = (reg2, Ok ["EDGE"; "NO_DATA"; "BRIGHT"]) /\ bit_mask reg2 ["EDGE"; "NO_DATA"; "BRIGHT"] = Ok m /\
  forall e', sget "r" (w_exp w') = Some e' -> Z.land (px (e_mask e') 10 12) m <> 0 /\ Z.land (px (e_mask e') 10 18) m = 0.
Proof.
  destruct (bright_spec (fun a b => (a, b)) (0, 0) [mkBright 12 10 3] (Z.shiftl 1 9) (Z.shiftl 1 10) 20 25 world20) as (w' & ex & E & M & _).
  { intros b [<-|[]]. cbn. lra. } { exact C66_world20. }
  assert (H : bright_masks (fun a b => (a, b)) (0, 0) [mkBright 12 10 3] world20 fresh = ((fresh ++ [("BRIGHT", 9); ("BRIGHT_EXPANDED", 10)])%list, Ok w')).
  { set (r1 := (fresh ++ [("BRIGHT", 9)])%list). set (r2 := (fresh ++ [("BRIGHT", 9); ("BRIGHT_EXPANDED", 10)])%list).
    assert (A1 : add_plane fresh "BRIGHT" = Ok r1) by (vm_compute; reflexivity).
    assert (A2 : add_plane r1 "BRIGHT_EXPANDED" = Ok r2) by (vm_compute; reflexivity).
    assert (B1 : bit_mask r2 ["BRIGHT"] = Ok (Z.shiftl 1 9)) by (vm_compute; reflexivity).
    assert (B2 : bit_mask r2 ["BRIGHT_EXPANDED"] = Ok (Z.shiftl 1 10)) by (vm_compute; reflexivity).
    unfold bright_masks, adding. rewrite A1, A2, B1, B2. cbn [obind]. rewrite E. reflexivity. }
  eexists _, w', _, 784. split; [exact H|]. split; [reflexivity|]. split; [reflexivity|]. intros e' Ee.
  assert (Rd : forall b, In b [mkBright 12 10 3] -> (0 <= br_rad b)%R) by (intros b [<-|[]]; cbn; lra).
  assert (B : became world20 w' (exp20 2) e').
  { exists "r". split; [cbn; auto|]. left. split; [reflexivity|exact Ee]. }
  pose proof (C90_bright fresh _ _ _ _ 20 25 _ _ [Add "STREAK"] get_detection_mask _ _ 784 (proj1 C90_fresh) (proj2 C90_fresh)
    Rd C66_world20 H (or_intror eq_refl) eq_refl eq_refl (exp20 2) e') as P. split.
  - apply P; [exact B|lia|lia|]. right. exists (mkBright 12 10 3). split; [now left|]. cbn [fst snd br_ra br_dec br_rad].
    replace ((12 - 0 - 12) ^ 2 + (10 - 0 - 10) ^ 2)%R with 0%R by ring. rewrite sqrt_0. lra.
  - destruct (Z.eq_dec (Z.land (px (e_mask e') 10 18) 784) 0) as [|N]; [assumption|]. exfalso. apply (proj1 (P 10 18 B ltac:(lia) ltac:(lia))) in N.
    destruct N as [N|N]; [apply N; reflexivity|]. destruct N as (b & I & L). destruct I as [<-|[]]. cbn [fst snd br_ra br_dec br_rad] in L.
    replace ((12 - 0 - 18) ^ 2 + (10 - 0 - 10) ^ 2)%R with (6 * 6)%R in L by ring. rewrite sqrt_square in L by lra. lra.
Qed.
