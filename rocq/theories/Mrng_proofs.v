(** Proofs for C94-C98. *)
From Coq Require Import ZArith QArith List String Bool Lia.
From Verif Require Import Base Arr Median Flags_model Detect_model Summ_model Wavg_model Wavg_proofs Joint_model Conf_model Mdet_model
  Mdet_spec Mcache_proofs Mdet_proofs Mrng_model Mrng_spec.
Import ListNotations.
Local Open Scope Z_scope.

Lemma key_eqb_refl : forall k, key_eqb k k = true.
Proof. intros [k|]; [apply Z.eqb_refl|reflexivity]. Qed.
Lemma key_eqb_eq : forall a b, key_eqb a b = true <-> a = b.
Proof.
  intros [a|] [b|]; cbn; split; intros H; try congruence; try discriminate; auto.
  - apply Z.eqb_eq in H. congruence.
  - injection H as ->. apply Z.eqb_refl.
Qed.
Lemma assoc_dput_key : forall V (k k' : option Z) (v : V) l,
  assoc key_eqb k (dput key_eqb k' v l) = if key_eqb k k' then Some v else assoc key_eqb k l.
Proof.
  intros V k k' v l. induction l as [|[a w] l IH]; cbn [dput assoc].
  - destruct (key_eqb k k'); reflexivity.
  - destruct (key_eqb k' a) eqn:E; cbn [assoc].
    + apply key_eqb_eq in E. subst a. destruct (key_eqb k k'); reflexivity.
    + destruct (key_eqb k a) eqn:Ea; [|exact IH]. apply key_eqb_eq in Ea. subst a.
      destruct (key_eqb k k') eqn:E2; [|reflexivity]. apply key_eqb_eq in E2. subst k'. rewrite key_eqb_refl in E. discriminate.
Qed.

Section Proofs.
Variables O SEG ST FL FR G : Type.
Variable sob : O -> sobs.
Notation env := (env O SEG ST FL FR).
Notation renv := (renv O SEG ST FL FR G).
Notation rstate := (rstate O FR G).
Notation RM := (RM O FR G).

(** ** Simulation of the driver without generator *)
Section Sim.
Variable Inv : rstate -> Prop.
Definition sim {A} (rm : RM A) (m : M O FR A) : Prop := forall s, Inv s ->
  fst (rm s) = fst (m (rs_core s)) /\ rs_core (snd (rm s)) = snd (m (rs_core s)) /\ Inv (snd (rm s)).

Lemma sim_ret : forall A (a : A), sim (rret a) (ret a).
Proof. intros A a s H. cbn. auto. Qed.
Lemma sim_lift : forall A (o : outcome A), sim (rlift o) (lift o).
Proof. intros A a s H. cbn. auto. Qed.
Lemma sim_bind : forall A B (rm : RM A) m (rf : A -> RM B) f, sim rm m -> (forall a, sim (rf a) (f a)) ->
  sim (rbind rm rf) (mbind m f).
Proof.
  intros A B rm m rf f H1 H2 s I. destruct (H1 s I) as (E1 & E2 & I1). unfold rbind, mbind.
  destruct (rm s) as [o s1], (m (rs_core s)) as [o' s1']. cbn [fst snd] in *. subst o' s1'.
  destruct o as [a|x]; [exact (H2 a s1 I1)|cbn; auto].
Qed.
Lemma sim_mmap : forall A B (rf : A -> RM B) f l, (forall a, In a l -> sim (rf a) (f a)) -> sim (rmmap rf l) (mmap f l).
Proof.
  intros A B rf f l. induction l as [|a l IH]; intros H; cbn [rmmap mmap]; [apply sim_ret|].
  apply sim_bind; [apply H; left; reflexivity|]. intros b. apply sim_bind; [apply IH; intros; apply H; right; assumption|].
  intros bs. apply sim_ret.
Qed.
Lemma sim_bind_lift : forall A B (rm : RM A) o (rf : A -> RM B) k, sim rm (lift o) -> (forall a, sim (rf a) (lift (k a))) ->
  sim (rbind rm rf) (lift (obind o k)).
Proof.
  intros A B rm o rf k H1 H2 s I. destruct (H1 s I) as (E1 & E2 & I1). unfold rbind, lift in *. cbn [fst snd] in *.
  destruct (rm s) as [o' s1]. cbn [fst snd] in *. subst o' . destruct o as [a|x]; cbn [obind]; [|cbn; auto].
  destruct (H2 a s1 I1) as (F1 & F2 & F3). cbn [fst snd] in *. rewrite E2 in F2. auto.
Qed.
Lemma sim_mmap_lift : forall A B (rf : A -> RM B) g l, (forall a, In a l -> sim (rf a) (lift (g a))) -> sim (rmmap rf l) (lift (omap g l)).
Proof.
  intros A B rf g l. induction l as [|a l IH]; intros H; cbn [rmmap omap]; [apply sim_ret|].
  apply sim_bind_lift; [apply H; left; reflexivity|]. intros b. apply sim_bind_lift; [apply IH; intros; apply H; right; assumption|].
  intros bs. apply sim_ret.
Qed.

Variable r : renv.
Variables (pf : mb O -> list (list pobs) * outcome unit) (mc : mb O -> outcome (list (string * mb O))) (ft : fitter -> list Z -> ST -> outcome FR).
Let b := r_base r.
Let e' := with_oracles b pf mc ft.
Hypothesis Hres : forall s x, Inv s -> Inv (mkRs (rs_gen s) (rs_psf s) (mkState (s_cache (rs_core s)) (s_log (rs_core s)) x)).
Hypothesis Hget : forall key sb, sim (rget_data sob r key sb) (get_data sob e' key sb).
Hypothesis Hfit : forall f sb st, In f (e_fitters b) -> sim (rfit r f sb st) (lift (ft f sb st)).

Lemma sim_set : forall x, sim (rset_result x) (set_result x).
Proof. intros x s I. cbn. split; [reflexivity|]. split; [reflexivity|]. apply Hres, I. Qed.
Lemma sim_measure : forall cat stamps sb db t su,
  sim (rmeasure sob r cat stamps sb db t su) (lift (measure sob e' cat stamps sb db t su)).
Proof.
  intros cat stamps sb db t su. unfold rmeasure, measure. apply sim_bind_lift.
  - apply sim_mmap_lift. intros f If. unfold rfit_list, fit_list. apply sim_bind_lift.
    + apply sim_mmap_lift. intros st _. apply Hfit, If.
    + intros rows. apply sim_ret.
  - intros all. apply sim_bind_lift; [apply sim_lift|]. intros [rows|]; [|apply sim_ret].
    apply sim_bind_lift; [apply sim_lift|]. intros x. apply sim_ret.
Qed.
Lemma sim_go : sim (rgo sob r) (go sob e').
Proof.
  unfold rgo, go. apply sim_bind; [apply sim_lift|]. intros mf. change (give_up sob e' mf) with (give_up sob (r_base r) mf).
  destruct (give_up sob (r_base r) mf); [apply sim_set|]. apply sim_bind; [apply Hget|]. intros kd.
  apply sim_bind; [apply sim_lift|]. intros [mcal|]; [|apply sim_set]. apply sim_bind.
  - apply sim_mmap. intros [sb db] _. cbn [fst snd]. change (e_color e') with (e_color (r_base r)).
    destruct (e_color (r_base r)) as [[keyf dep]|].
    + unfold rgo_bands_color, go_bands_color. apply sim_mmap. intros [t m] _. cbn [fst snd].
      apply sim_bind; [apply sim_lift|]. intros f0. apply sim_bind; [apply sim_lift|]. intros cs.
      apply sim_bind; [apply sim_lift|]. intros [|fl fls]; [apply sim_ret|]. apply sim_bind; [apply sim_lift|]. intros keys.
      apply sim_bind; [|intros data; apply sim_ret]. apply sim_mmap. intros dk _. unfold rcolor_one, color_one.
      apply sim_bind; [apply Hget|]. intros kd'. apply sim_bind; [apply sim_lift|]. intros [dict|]; [|apply sim_ret].
      apply sim_bind; [apply sim_lift|]. intros m'. apply sim_bind; [apply sim_lift|]. intros st. apply sim_bind; [apply sim_lift|]. intros su.
      apply sim_bind; [apply sim_measure|]. intros x. apply sim_ret.
    + unfold rgo_bands, go_bands. apply sim_bind; [apply Hget|]. intros kd'. apply sim_mmap. intros [t m] _. cbn [fst snd].
      apply sim_bind; [apply sim_lift|]. intros cs. apply sim_bind; [apply sim_lift|]. intros su.
      apply sim_bind; [apply sim_measure|]. intros x. apply sim_ret.
  - intros all. apply sim_set.
Qed.
Lemma sim_ops : forall l s, Inv s ->
  fst (rrun_ops sob r l s) = fst (run_ops sob e' l (rs_core s)) /\
  rs_core (snd (rrun_ops sob r l s)) = snd (run_ops sob e' l (rs_core s)) /\ Inv (snd (rrun_ops sob r l s)).
Proof.
  induction l as [|o l IH]; intros s I; cbn [rrun_ops run_ops]; [cbn; auto|].
  assert (S : sim (rstep sob r o) (step sob e' o)).
  { destruct o as [k sb|]; cbn [rstep step]; [|apply sim_go]. apply sim_bind; [apply Hget|]. intros kd. apply sim_ret. }
  destruct (S s I) as (E1 & E2 & I1). destruct (rstep sob r o s) as [x s1], (step sob e' o (rs_core s)) as [x' s1'].
  cbn [fst snd] in *. subst x' s1'. destruct (IH s1 I1) as (F1 & F2 & F3).
  destruct (rrun_ops sob r l s1) as [xs s2], (run_ops sob e' l (rs_core s1)) as [xs' s2']. cbn [fst snd] in *. subst. auto.
Qed.
End Sim.

(** compute_sb reads the PSF results only. *)
Lemma compute_sb_psf : forall (a b : env) mp m sb, fst (e_psf_fit a m) = fst (e_psf_fit b m) ->
  compute_sb sob a mp m sb = compute_sb sob b mp m sb.
Proof. intros a b mp m sb H. unfold compute_sb, summarise. rewrite H. reflexivity. Qed.

(** ** A generator without influence *)
Section Stateless.
Variable r : renv.
Hypothesis Hs : stateless r.
Hypothesis Hid : identities r.
Let b := r_base r.
Definition inv1 (s : rstate) : Prop := forall key k m, obs_of b key = Ok (k, m) -> assoc key_eqb k (s_cache (rs_core s)) <> None ->
  assoc key_eqb (oid r k) (rs_psf s) = Some (fst (e_psf_fit b m)).

Lemma obs_same : forall key key' k k' m m', obs_of b key = Ok (k, m) -> obs_of b key' = Ok (k', m') -> oid r k = oid r k' -> m = m'.
Proof.
  intros key key' k k' m m' H H' E. unfold obs_of in H, H'.
  destruct (e_color b) as [[keyf dep]|] eqn:Ec.
  - assert (C : forall key k m, match key with None => Ok (None, e_main b) | Some k => match dep k with None => Raise KeyError
        | Some SameObject => Ok (None, e_main b) | Some (Other m) => Ok (Some k, m) end end = Ok (k, m) ->
        k = None /\ m = e_main b \/ exists z, k = Some z /\ dep z = Some (Other m)).
    { clear. intros [z|] k m H; [|injection H as <- <-; auto]. destruct (dep z) as [[|m']|] eqn:Ed; [injection H as <- <-; auto| |discriminate].
      injection H as <- <-. right. eauto. }
    destruct (C _ _ _ H) as [[-> ->]|(z & -> & D)]; destruct (C _ _ _ H') as [[-> ->]|(z' & -> & D')]; cbn in E; try congruence.
    injection E as E. exact (Hid keyf dep z z' m m' Ec D D' E).
  - destruct key; [discriminate|]. destruct key'; [discriminate|]. congruence.
Qed.

Lemma stateless_get : forall key sb, sim inv1 (rget_data sob r key sb) (get_data sob b key sb).
Proof.
  intros key sb s I. unfold rget_data, get_data. fold b.
  destruct (obs_of b key) as [[k m]|x] eqn:Eo; [|cbn; auto].
  (* the first part *)
  set (p1 := match assoc key_eqb k (s_cache (rs_core s)) with Some _ => (Ok tt, s) | None =>
     let '((mp, ev, o), (g, psfs)) := rcompute_key r k m s in
     (o, mkRs g psfs (mkState (dput key_eqb k (mp, []) (s_cache (rs_core s))) (s_log (rs_core s) ++ ev)%list (s_result (rs_core s)))) end).
  set (p2 := match assoc key_eqb k (s_cache (rs_core s)) with Some _ => (Ok tt, rs_core s) | None =>
     let '(mp, ev, o) := compute_key b k m in
     (o, mkState (dput key_eqb k (mp, []) (s_cache (rs_core s))) (s_log (rs_core s) ++ ev)%list (s_result (rs_core s))) end).
  assert (P : fst p1 = fst p2 /\ rs_core (snd p1) = snd p2 /\ inv1 (snd p1) /\ assoc key_eqb k (s_cache (snd p2)) <> None).
  { unfold p1, p2. clear p1 p2. destruct (assoc key_eqb k (s_cache (rs_core s))) as [en|] eqn:Ea.
    - cbn [fst snd]. rewrite Ea. repeat split; auto. discriminate.
    - destruct Hs as (H1 & H2 & _). unfold rcompute_key, compute_key, psf_flags, all_metacal.
      pose proof (H1 m (rs_gen s)) as A1. destruct (r_psf r m (rs_gen s)) as [[ps o] g1]. cbn [fst] in A1. fold b in A1. rewrite <- A1. cbn [fst snd].
      assert (J : forall g c, (forall k', assoc key_eqb k' (s_cache c) <> None -> k' = k \/ assoc key_eqb k' (s_cache (rs_core s)) <> None) ->
         inv1 (mkRs g (dput key_eqb (oid r k) ps (rs_psf s)) c)).
      { intros g c Hc key' k' m' Eo' Ea'. cbn [rs_psf rs_core] in *. rewrite assoc_dput_key.
        destruct (key_eqb (oid r k') (oid r k)) eqn:Ek.
        - apply key_eqb_eq in Ek. rewrite (obs_same _ _ _ _ _ _ Eo' Eo Ek), <- A1. reflexivity.
        - destruct (Hc k' Ea') as [->|N]; [rewrite key_eqb_refl in Ek; discriminate|]. exact (I key' k' m' Eo' N). }
      assert (J2 : forall v k', assoc key_eqb k' (dput key_eqb k (v : cache_entry O) (s_cache (rs_core s))) <> None ->
        k' = k \/ assoc key_eqb k' (s_cache (rs_core s)) <> None).
      { intros v k'. rewrite assoc_dput_key. destruct (key_eqb k' k) eqn:Ek; [apply key_eqb_eq in Ek; auto|auto]. }
      assert (J3 : forall v, assoc key_eqb k (dput key_eqb k (v : cache_entry O) (s_cache (rs_core s))) <> None).
      { intros v. rewrite assoc_dput_key, key_eqb_refl. discriminate. }
      destruct (match o with Ok _ => Ok 0 | Raise BootPSFFailure => Ok (flag_value PSF_FAILURE) | Raise x => Raise x end) as [f|x].
      + pose proof (H2 m g1) as A2. destruct (r_mcal r m g1) as [mcl g2]. cbn [fst] in A2. fold b in A2. rewrite <- A2.
        destruct (match mcl with Ok d => Ok (Some d) | Raise BootPSFFailure => Ok None | Raise x => Raise x end) as [d|x];
          cbn [fst snd rs_core s_cache]; repeat split; auto; apply J; intros k'; cbn [s_cache]; apply J2.
      + cbn [fst snd rs_core s_cache]; repeat split; auto; apply J; intros k'; cbn [s_cache]; apply J2. }
  clearbody p1 p2. destruct p1 as [o s1], p2 as [o2 c1]. cbn [fst snd] in P. destruct P as (<- & <- & I1 & N1).
  destruct o as [u|x]; [|cbn; auto]. destruct (assoc key_eqb k (s_cache (rs_core s1))) as [[mp sbs]|] eqn:Ec; [|cbn; auto].
  cbv zeta. destruct (assoc bands_eqb (zsort sb) sbs) as [kd|]; [cbn; auto|].
  assert (Es : compute_sb sob (with_psf b (stored_psf r s1 k)) mp m sb = compute_sb sob b mp m sb).
  { apply compute_sb_psf. cbn [with_psf e_psf_fit fst]. unfold stored_psf. rewrite (I1 key k m Eo); [reflexivity|]. rewrite Ec. discriminate. }
  rewrite Es. destruct (compute_sb sob b mp m sb) as [kd o]. cbn [fst snd rs_core]. split; [reflexivity|]. split; [reflexivity|].
  intros key' k' m' Eo' Ea'. cbn [rs_core s_cache rs_psf] in *. apply (I1 key' k' m' Eo'). rewrite assoc_dput_key in Ea'.
  destruct (key_eqb k' k) eqn:Ek; [|exact Ea']. apply key_eqb_eq in Ek. subst k'. rewrite Ec. discriminate.
Qed.

Lemma stateless_ops : forall l g,
  fst (rrun_ops sob r l (rinit g)) = fst (run_ops sob b l init_state) /\
  rs_core (snd (rrun_ops sob r l (rinit g))) = snd (run_ops sob b l init_state).
Proof.
  intros l g. assert (E : b = with_oracles b (e_psf_fit b) (e_metacal b) (e_fit b)) by (destruct b; reflexivity).
  destruct (sim_ops inv1 r (e_psf_fit b) (e_metacal b) (e_fit b)) with (l := l) (s := rinit g (O:=O) (FR:=FR)) as (A & B & _).
  - intros s x I key k m. exact (I key k m).
  - fold b. rewrite <- E. apply stateless_get.
  - intros f sb st _ s I. unfold rfit. destruct (fi_wavg f); [apply sim_lift; exact I|].
    destruct Hs as (_ & _ & H3). pose proof (H3 f sb st (rs_gen s)) as A. destruct (r_joint r f sb st (rs_gen s)) as [o g']. cbn [fst] in A. subst o.
    cbn [fst snd lift rs_core]. repeat split. intros key k m. exact (I key k m).
  - intros key k m _ H. exfalso. apply H. reflexivity.
  - fold b in A, B. rewrite <- E in A, B. auto.
Qed.
End Stateless.

(** ** Without colours and with moments fitters only *)
Section Drawn.
Variable r : renv.
Hypothesis Hc : no_colours r.
Hypothesis Hm : moments_only r.
Variable g0 : G.
Let b := r_base r.
Let e' := with_oracles b (fun _ => drawn_psf r g0) (fun _ => drawn_mcal r g0) (e_fit b).
Definition inv2 (s : rstate) : Prop :=
  (assoc key_eqb None (s_cache (rs_core s)) = None /\ rs_gen s = g0) \/
  (assoc key_eqb None (s_cache (rs_core s)) <> None /\ assoc key_eqb None (rs_psf s) = Some (fst (drawn_psf r g0))).

Lemma drawn_get : forall key sb, sim inv2 (rget_data sob r key sb) (get_data sob e' key sb).
Proof.
  intros key sb s I. unfold rget_data, get_data. fold b. change (obs_of e' key) with (obs_of b key).
  destruct (obs_of b key) as [[k m]|x] eqn:Eo; [|cbn; auto].
  assert (Ek : k = None /\ m = e_main b).
  { unfold obs_of in Eo. destruct key as [z|]; [|injection Eo as <- <-; auto]. unfold no_colours in Hc. fold b in Hc. rewrite Hc in Eo. discriminate. }
  destruct Ek as [-> ->].
  set (p1 := match assoc key_eqb None (s_cache (rs_core s)) with Some _ => (Ok tt, s) | None =>
     let '((mp, ev, o), (g, psfs)) := rcompute_key r None (e_main b) s in
     (o, mkRs g psfs (mkState (dput key_eqb None (mp, []) (s_cache (rs_core s))) (s_log (rs_core s) ++ ev)%list (s_result (rs_core s)))) end).
  set (p2 := match assoc key_eqb None (s_cache (rs_core s)) with Some _ => (Ok tt, rs_core s) | None =>
     let '(mp, ev, o) := compute_key e' None (e_main b) in
     (o, mkState (dput key_eqb None (mp, []) (s_cache (rs_core s))) (s_log (rs_core s) ++ ev)%list (s_result (rs_core s))) end).
  assert (P : fst p1 = fst p2 /\ rs_core (snd p1) = snd p2 /\ inv2 (snd p1) /\ assoc key_eqb None (s_cache (snd p2)) <> None).
  { unfold p1, p2. clear p1 p2. destruct (assoc key_eqb None (s_cache (rs_core s))) as [en|] eqn:Ea.
    - cbn [fst snd]. rewrite Ea. repeat split; auto. discriminate.
    - destruct I as [[_ Eg]|[N _]]; [|congruence].
      unfold rcompute_key, compute_key, psf_flags, all_metacal. cbn [e' with_oracles e_psf_fit e_metacal]. unfold drawn_mcal. fold b. rewrite Eg.
      assert (D : drawn_psf r g0 = fst (r_psf r (e_main b) g0)) by reflexivity. rewrite D.
      destruct (r_psf r (e_main b) g0) as [[ps o] g1] eqn:Er. cbn [fst snd] in *.
      assert (J3 : forall v, assoc key_eqb None (dput key_eqb None (v : cache_entry O) (s_cache (rs_core s))) <> None).
      { intros v. rewrite assoc_dput_key, key_eqb_refl. discriminate. }
      assert (J : forall g c, assoc key_eqb None (s_cache c) <> None -> inv2 (mkRs g (dput key_eqb (oid r None) ps (rs_psf s)) c)).
      { intros g c Nc. right. cbn [rs_core rs_psf]. split; [exact Nc|]. rewrite assoc_dput_key. cbn [oid option_map]. cbn [key_eqb]. rewrite D. reflexivity. }
      destruct (match o with Ok _ => Ok 0 | Raise BootPSFFailure => Ok (flag_value PSF_FAILURE) | Raise x => Raise x end) as [f|x].
      + destruct (r_mcal r (e_main b) g1) as [mcl g2]. cbn [fst].
        destruct (match mcl with Ok d => Ok (Some d) | Raise BootPSFFailure => Ok None | Raise x => Raise x end) as [d|x];
          cbn [fst snd rs_core s_cache]; repeat split; auto; apply J; cbn [s_cache]; apply J3.
      + cbn [fst snd rs_core s_cache]; repeat split; auto; apply J; cbn [s_cache]; apply J3. }
  clearbody p1 p2. destruct p1 as [o s1], p2 as [o2 c1]. cbn [fst snd] in P. destruct P as (<- & <- & I1 & N1).
  destruct o as [u|x]; [|cbn; auto]. destruct (assoc key_eqb None (s_cache (rs_core s1))) as [[mp sbs]|] eqn:Ec; [|cbn; auto].
  cbv zeta. destruct (assoc bands_eqb (zsort sb) sbs) as [kd|]; [cbn; auto|].
  assert (Ip : assoc key_eqb None (rs_psf s1) = Some (fst (drawn_psf r g0))) by (destruct I1 as [[N _]|[_ H]]; [congruence|exact H]).
  assert (Es : compute_sb sob (with_psf b (stored_psf r s1 None)) mp (e_main b) sb = compute_sb sob e' mp (e_main b) sb).
  { apply compute_sb_psf. cbn [with_psf e' with_oracles e_psf_fit fst]. unfold stored_psf. cbn [oid option_map]. rewrite Ip. reflexivity. }
  rewrite Es. destruct (compute_sb sob e' mp (e_main b) sb) as [kd o]. cbn [fst snd rs_core]. split; [reflexivity|]. split; [reflexivity|].
  right. cbn [rs_core s_cache rs_psf]. split; [|exact Ip]. rewrite assoc_dput_key, key_eqb_refl. discriminate.
Qed.

Lemma drawn_ops : forall l,
  fst (rrun_ops sob r l (rinit g0)) = fst (run_ops sob e' l init_state) /\
  rs_core (snd (rrun_ops sob r l (rinit g0))) = snd (run_ops sob e' l init_state).
Proof.
  intros l. destruct (sim_ops inv2 r (fun _ => drawn_psf r g0) (fun _ => drawn_mcal r g0) (e_fit b)) with (l := l) (s := rinit g0 (O:=O) (FR:=FR)) as (A & B & _).
  - intros s x I. exact I.
  - apply drawn_get.
  - intros f sb st If. unfold rfit. rewrite (Hm f If). apply sim_lift.
  - left. split; reflexivity.
  - auto.
Qed.
End Drawn.

(** ** A second go() finds everything in the caches *)
Definition ext (a b : list (option Z * cache_entry O)) : Prop :=
  forall k mp sbs, assoc key_eqb k a = Some (mp, sbs) -> exists sbs', assoc key_eqb k b = Some (mp, sbs') /\
    forall sb kd, assoc bands_eqb sb sbs = Some kd -> assoc bands_eqb sb sbs' = Some kd.
Lemma ext_refl : forall a, ext a a.
Proof. intros a k mp sbs H. eauto. Qed.
Lemma ext_trans : forall a b c, ext a b -> ext b c -> ext a c.
Proof.
  intros a b c H1 H2 k mp sbs H. destruct (H1 _ _ _ H) as (sbs1 & E1 & F1). destruct (H2 _ _ _ E1) as (sbs2 & E2 & F2).
  exists sbs2. split; [exact E2|]. auto.
Qed.
Definition cache (s : rstate) := s_cache (rs_core s).
Definition stable {A} (m : RM A) : Prop := forall s a s1, m s = (Ok a, s1) ->
  ext (cache s) (cache s1) /\ forall s2, ext (cache s1) (cache s2) -> m s2 = (Ok a, s2).
Lemma stable_ret : forall A (a : A), stable (rret a).
Proof. intros A a s a' s1 H. cbv [rret] in *. injection H as <- <-. split; [apply ext_refl|reflexivity]. Qed.
Lemma stable_lift : forall A (o : outcome A), stable (rlift o).
Proof. intros A o s a' s1 H. cbv [rlift] in *. injection H as -> <-. split; [apply ext_refl|reflexivity]. Qed.
Lemma stable_bind : forall A B (m : RM A) (f : A -> RM B), stable m -> (forall a, stable (f a)) -> stable (rbind m f).
Proof.
  intros A B m f Hm Hf s b s2 H. unfold rbind in *. destruct (m s) as [[a|x] s1] eqn:E; [|discriminate].
  destruct (Hm _ _ _ E) as [X1 Y1]. destruct (Hf a _ _ _ H) as [X2 Y2]. split; [exact (ext_trans _ _ _ X1 X2)|].
  intros s3 X3. rewrite (Y1 s3 (ext_trans _ _ _ X2 X3)). exact (Y2 s3 X3).
Qed.
Lemma stable_mmap : forall A B (f : A -> RM B) l, (forall a, In a l -> stable (f a)) -> stable (rmmap f l).
Proof.
  intros A B f l. induction l as [|a l IH]; intros H; cbn [rmmap]; [apply stable_ret|].
  apply stable_bind; [apply H; left; reflexivity|]. intros b. apply stable_bind; [apply IH; intros; apply H; right; assumption|].
  intros bs. apply stable_ret.
Qed.
Lemma ext_dput : forall c k v, assoc key_eqb k c = None -> ext c (dput key_eqb k v c).
Proof.
  intros c k v N k' mp sbs H. exists sbs. split; [|auto]. rewrite assoc_dput_key. destruct (key_eqb k' k) eqn:E; [|exact H].
  apply key_eqb_eq in E. congruence.
Qed.
Lemma bands_eqb_eq : forall a b, bands_eqb a b = true <-> a = b.
Proof.
  unfold bands_eqb. induction a as [|x a IH]; destruct b as [|y b]; cbn; split; intros H; try congruence; try discriminate.
  - apply andb_true_iff in H. destruct H as [H1 H2]. apply Z.eqb_eq in H1. apply IH in H2. congruence.
  - injection H as -> ->. rewrite Z.eqb_refl. apply IH. reflexivity.
Qed.
Lemma assoc_dput_bands : forall V k k' (v : V) l,
  assoc bands_eqb k (dput bands_eqb k' v l) = if bands_eqb k k' then Some v else assoc bands_eqb k l.
Proof.
  intros V k k' v l. induction l as [|[a w] l IH]; cbn [dput assoc].
  - destruct (bands_eqb k k'); reflexivity.
  - destruct (bands_eqb k' a) eqn:E; cbn [assoc].
    + apply bands_eqb_eq in E. subst a. destruct (bands_eqb k k'); reflexivity.
    + destruct (bands_eqb k a) eqn:Ea; [|exact IH]. apply bands_eqb_eq in Ea. subst a.
      destruct (bands_eqb k k') eqn:E2; [|reflexivity]. apply bands_eqb_eq in E2. subst k'.
      rewrite (proj2 (bands_eqb_eq k k) eq_refl) in E. discriminate.
Qed.
Lemma stable_get : forall (r : renv) key sb, stable (rget_data sob r key sb).
Proof.
  intros r key sb s kd s1 H. unfold rget_data in H.
  destruct (obs_of (r_base r) key) as [[k m]|x] eqn:Eo; [|discriminate].
  set (p1 := match assoc key_eqb k (s_cache (rs_core s)) with Some _ => (Ok tt, s) | None =>
     let '((mp, ev, o), (g, psfs)) := rcompute_key r k m s in
     (o, mkRs g psfs (mkState (dput key_eqb k (mp, []) (s_cache (rs_core s))) (s_log (rs_core s) ++ ev)%list (s_result (rs_core s)))) end) in H.
  assert (P : ext (cache s) (cache (snd p1))).
  { unfold p1. destruct (assoc key_eqb k (s_cache (rs_core s))) eqn:Ea; [apply ext_refl|].
    destruct (rcompute_key r k m s) as [[[mp ev] o] [g psfs]]. cbn [snd cache rs_core s_cache]. apply ext_dput. exact Ea. }
  clearbody p1. destruct p1 as [[u|x] t]; [|discriminate]. cbn [snd] in P.
  destruct (assoc key_eqb k (s_cache (rs_core t))) as [[mp sbs]|] eqn:Ec; [|discriminate]. cbv zeta in H.
  assert (Q : ext (cache t) (cache s1) /\ exists sbs', assoc key_eqb k (cache s1) = Some (mp, sbs') /\ assoc bands_eqb (zsort sb) sbs' = Some kd).
  { destruct (assoc bands_eqb (zsort sb) sbs) as [kd'|] eqn:Eb.
    - injection H as <- <-. split; [apply ext_refl|]. exists sbs. auto.
    - destruct (compute_sb _ _ mp m sb) as [kd' o]. destruct o as [u'|x]; [|discriminate]. injection H as <- <-. cbn [cache rs_core s_cache]. split.
      + intros k' mp' sbs' H. rewrite assoc_dput_key. destruct (key_eqb k' k) eqn:E; [|eauto]. apply key_eqb_eq in E. subst k'.
        unfold cache in H. rewrite Ec in H. injection H as <- <-. eexists. split; [reflexivity|]. intros sb' kd0 H. rewrite assoc_dput_bands.
        destruct (bands_eqb sb' (zsort sb)) eqn:E; [|exact H]. apply bands_eqb_eq in E. congruence.
      + eexists. rewrite assoc_dput_key, key_eqb_refl. split; [reflexivity|]. rewrite assoc_dput_bands, (proj2 (bands_eqb_eq _ _) eq_refl). reflexivity. }
  destruct Q as (Q1 & sbs' & Q2 & Q3). split; [exact (ext_trans _ _ _ P Q1)|].
  intros s2 X. destruct (X _ _ _ Q2) as (sbs2 & E2 & F2). unfold cache in E2. unfold rget_data. rewrite Eo, E2. cbv zeta. rewrite E2, (F2 _ _ Q3). reflexivity.
Qed.
Lemma stable_measure : forall (r : renv) cat stamps sb db t su, moments_only r -> stable (rmeasure sob r cat stamps sb db t su).
Proof.
  intros r cat stamps sb db t su Hm. unfold rmeasure. apply stable_bind.
  - apply stable_mmap. intros f If. unfold rfit_list. apply stable_bind; [|intros; apply stable_ret].
    apply stable_mmap. intros st _. unfold rfit. rewrite (Hm f If). apply stable_lift.
  - intros all. apply stable_bind; [apply stable_lift|]. intros [rows|]; [|apply stable_ret].
    apply stable_bind; [apply stable_lift|]. intros x. apply stable_ret.
Qed.
(** go() up to the assignment of the result. *)
Definition rbody (r : renv) : RM (option (results FR)) :=
  let e := r_base r in
  rbind (rlift (get_mfrac (map (map sob) (e_main e)))) (fun mf =>
  if give_up sob e mf then rret None
  else
    rbind (rget_data sob r None (zrange (zlen (e_main e)))) (fun kd =>
    rbind (rlift (kd_mcal kd)) (fun mc =>
    match mc with
    | None => rret None
    | Some mcal =>
      rbind (rmmap (fun sd => match e_color e with
                              | Some (keyf, _) => rgo_bands_color sob r keyf (fst sd) (snd sd) mcal
                              | None => rgo_bands sob r (fst sd) (snd sd) mcal
                              end) (combine (e_shear e) (e_det e))) (fun all =>
      rret (Some (finish e (fold_left add_tables all []))))
    end))).
Lemma rgo_body : forall (r : renv) s, rgo sob r s = rbind (rbody r) (fun x => rset_result x) s.
Proof.
  intros r s. unfold rgo, rbody, rbind, rlift. destruct (get_mfrac _) as [mf|]; [|reflexivity].
  destruct (give_up sob (r_base r) mf); [reflexivity|].
  destruct (rget_data sob r None _ s) as [[kd|] s1]; [|reflexivity]. destruct (kd_mcal kd) as [[mcal|]|]; [|reflexivity|reflexivity].
  destruct (rmmap _ _ s1) as [[all|] s2]; reflexivity.
Qed.
Lemma stable_body : forall r : renv, moments_only r -> stable (rbody r).
Proof.
  intros r Hm. unfold rbody. cbv zeta. apply stable_bind; [apply stable_lift|]. intros mf. destruct (give_up _ _ mf); [apply stable_ret|].
  apply stable_bind; [apply stable_get|]. intros kd. apply stable_bind; [apply stable_lift|]. intros [mcal|]; [|apply stable_ret].
  apply stable_bind; [|intros; apply stable_ret]. apply stable_mmap. intros [sb db] _. destruct (e_color (r_base r)) as [[keyf dep]|].
  - unfold rgo_bands_color. apply stable_mmap. intros [t m] _. cbn [fst snd].
    apply stable_bind; [apply stable_lift|]. intros f0. apply stable_bind; [apply stable_lift|]. intros cs.
    apply stable_bind; [apply stable_lift|]. intros [|fl fls]; [apply stable_ret|]. apply stable_bind; [apply stable_lift|]. intros keys.
    apply stable_bind; [|intros data; apply stable_ret]. apply stable_mmap. intros dk _. unfold rcolor_one.
    apply stable_bind; [apply stable_get|]. intros kd'. apply stable_bind; [apply stable_lift|]. intros [dict|]; [|apply stable_ret].
    apply stable_bind; [apply stable_lift|]. intros m'. apply stable_bind; [apply stable_lift|]. intros st. apply stable_bind; [apply stable_lift|]. intros su.
    apply stable_bind; [apply stable_measure, Hm|]. intros x. apply stable_ret.
  - unfold rgo_bands. apply stable_bind; [apply stable_get|]. intros kd'. apply stable_mmap. intros [t m] _. cbn [fst snd].
    apply stable_bind; [apply stable_lift|]. intros cs. apply stable_bind; [apply stable_lift|]. intros su.
    apply stable_bind; [apply stable_measure, Hm|]. intros x. apply stable_ret.
Qed.
Lemma go_again : forall (r : renv) s s1, moments_only r -> rgo sob r s = (Ok tt, s1) -> rgo sob r s1 = (Ok tt, s1).
Proof.
  intros r s s1 Hm H. rewrite rgo_body in *. unfold rbind in *. destruct (rbody r s) as [[x|x] t] eqn:E; [|discriminate].
  destruct (stable_body r Hm _ _ _ E) as [_ Y]. unfold rset_result in H. injection H as <-. rewrite Y; [|apply ext_refl]. reflexivity.
Qed.

(** ** Appending band combinations *)
Lemma rmmap_app : forall A B (f : A -> RM B) l l' s bs s2, rmmap f (l ++ l')%list s = (Ok bs, s2) ->
  exists b1 s1 b2, rmmap f l s = (Ok b1, s1) /\ rmmap f l' s1 = (Ok b2, s2) /\ bs = (b1 ++ b2)%list.
Proof.
  intros A B f l. induction l as [|a l IH]; intros l' s bs s2 H; cbn [app rmmap] in *.
  - exists [], s, bs. auto.
  - unfold rbind in *. destruct (f a s) as [[b|] s1]; [|discriminate].
    destruct (rmmap f (l ++ l')%list s1) as [[bs1|] s3] eqn:E; [|discriminate]. cbv [rret] in *. injection H as <- <-.
    destruct (IH _ _ _ _ E) as (b1 & s4 & b2 & E1 & E2 & ->). rewrite E1. exists (b :: b1), s4, b2. auto.
Qed.
Lemma combine_app : forall A B (a a' : list A) (c c' : list B), List.length a = List.length c ->
  combine (a ++ a') (c ++ c') = (combine a c ++ combine a' c')%list.
Proof.
  intros A B. induction a as [|x a IH]; intros a' [|y c] c' L; cbn in *; try discriminate; [reflexivity|]. f_equal. apply IH. congruence.
Qed.
Lemma bands_appended : forall (r : renv) sh sh' dt dt' s s2, List.length sh = List.length dt ->
  rgo sob (change_base r (with_bands (r_base r) (sh ++ sh') (dt ++ dt'))) s = (Ok tt, s2) ->
  exists s1, rgo sob (change_base r (with_bands (r_base r) sh dt)) s = (Ok tt, s1) /\
    ((s_result (rs_core s1) = Some None /\ s_result (rs_core s2) = Some None) \/
     exists a b, s_result (rs_core s1) = Some (Some a) /\ s_result (rs_core s2) = Some (Some b) /\
       forall t, extends (table a t) (table b t)).
Proof.
  intros r sh sh' dt dt' s s2 L H. set (b := r_base r) in *.
  assert (E : forall x y, rbody (change_base r (with_bands b x y)) =
    rbind (rlift (get_mfrac (map (map sob) (e_main b)))) (fun mf =>
    if give_up sob b mf then rret None else
    rbind (rget_data sob r None (zrange (zlen (e_main b)))) (fun kd =>
    rbind (rlift (kd_mcal kd)) (fun mc =>
    match mc with
    | None => rret None
    | Some mcal =>
      rbind (rmmap (fun sd => match e_color b with
                              | Some (keyf, _) => rgo_bands_color sob r keyf (fst sd) (snd sd) mcal
                              | None => rgo_bands sob r (fst sd) (snd sd) mcal
                              end) (combine x y)) (fun all =>
      rret (Some (finish b (fold_left add_tables all []))))
    end)))) by (intros; reflexivity).
  rewrite rgo_body in H. rewrite rgo_body. rewrite E in H. rewrite E. unfold rbind, rlift in *. clear E.
  destruct (get_mfrac _) as [mf|]; [|discriminate].
  destruct (give_up sob b mf).
  { cbv [rret rset_result] in *. injection H as <-. eexists. split; [reflexivity|]. left. auto. }
  destruct (rget_data sob r None _ s) as [[kd|] s0]; [|discriminate]. destruct (kd_mcal kd) as [[mcal|]|]; [| |discriminate].
  2:{ cbv [rret rset_result] in *. injection H as <-. eexists. split; [reflexivity|]. left. auto. }
  rewrite combine_app in H by exact L. destruct (rmmap _ _ s0) as [[all|] s3] eqn:Em in H; [|discriminate].
  destruct (rmmap_app _ _ _ _ _ _ _ _ Em) as (b1 & s1 & b2 & E1 & E2 & ->). cbv zeta in *. rewrite E1.
  cbv [rret rset_result] in *. injection H as <-. eexists. split; [reflexivity|]. right. eexists _, _. cbn [rs_core s_result].
  split; [reflexivity|]. split; [reflexivity|]. intros t.
  rewrite (finish_lookup _ _ _ _ _ b b1 t), (finish_lookup _ _ _ _ _ b (b1 ++ b2) t), concat_app, picks_app.
  destruct (picks _ t (List.concat b1)) as [|v l].
  - destruct (existsb (String.eqb t) (e_types b)); cbn [extends]; [|trivial].
    cbn [app]. destruct (picks _ t (List.concat b2)); discriminate.
  - cbn [app extends]. change (v :: (l ++ picks FR t (List.concat b2))%list) with ((v :: l) ++ picks FR t (List.concat b2))%list.
    rewrite concat_app. eauto.
Qed.

(** ** Other fitters *)

(** The rows of one table. *)
Lemma transpose_len : forall A n (cols : list (list A)), (forall c, In c cols -> List.length c = n) -> List.length (transpose n cols) = n.
Proof.
  intros A n cols. induction cols as [|c cols IH]; intros H; cbn [transpose]; [apply repeat_length|].
  rewrite map_length, combine_length, IH by (intros; apply H; right; assumption). rewrite (H c (or_introl eq_refl)). lia.
Qed.
Lemma transpose_nth : forall A n (cols : list (list A)) k row, (forall c, In c cols -> List.length c = n) ->
  nth_error (transpose n cols) k = Some row -> Forall2 (fun c x => nth_error c k = Some x) cols row.
Proof.
  intros A n cols k. induction cols as [|c cols IH]; intros row H E; cbn [transpose] in E.
  - apply nth_error_In, repeat_spec in E. subst row. constructor.
  - rewrite nth_error_map in E. destruct (nth_error (combine c (transpose n cols)) k) as [[x y]|] eqn:Ec; [|discriminate].
    cbn [option_map fst snd] in E. apply Some_inj in E. subst row.
    assert (N : nth_error c k = Some x /\ nth_error (transpose n cols) k = Some y).
    { clear - Ec. revert k Ec. generalize (transpose n cols). induction c as [|a c IH]; intros [|b l] [|k] H; cbn in H; try discriminate.
      - injection H as -> ->. auto.
      - exact (IH _ _ H). }
    constructor; [tauto|]. apply IH; [intros; apply H; right; assumption|tauto].
Qed.
Lemma combine_rows_cols : forall names (cols : list (list FR)) n x, cols <> [] -> (forall c, In c cols -> List.length c = n) ->
  combine_rows names (map Some cols) = Ok x -> x = Some (transpose n cols).
Proof.
  intros names cols n x N L H. destruct cols as [|c [|c2 cols]]; [congruence| |].
  - cbn in H. apply Ok_inj in H. subst x. cbn [transpose]. rewrite <- (L c (or_introl eq_refl)). f_equal.
    clear. induction c; cbn; congruence.
  - unfold combine_rows in H. rewrite oall_some in H. cbn [map] in H. destruct (forallb _ _); [|discriminate].
    destruct (nodupb names); [|discriminate]. apply Ok_inj in H. subst x. rewrite (L c (or_introl eq_refl)). reflexivity.
Qed.
Lemma rmmap_gen : forall A B (P : rstate -> rstate -> Prop) (Q : A -> B -> Prop) (f : A -> RM B) l,
  (forall s, P s s) -> (forall a b c, P a b -> P b c -> P a c) ->
  (forall a s b s1, In a l -> f a s = (Ok b, s1) -> P s s1 /\ Q a b) ->
  forall s bs s1, rmmap f l s = (Ok bs, s1) -> P s s1 /\ Forall2 Q l bs.
Proof.
  intros A B P Q f l Hr Ht. induction l as [|a l IH]; intros H s bs s1 E; cbn [rmmap] in E.
  - cbv [rret] in E. injection E as <- <-. split; [apply Hr|constructor].
  - unfold rbind, rret in E. destruct (f a s) as [[b|] s2] eqn:Ea; [|discriminate]. destruct (rmmap f l s2) as [[bs'|] s3] eqn:El; [|discriminate].
    injection E as <- <-. destruct (H a s b s2 (or_introl eq_refl) Ea) as [P1 Q1].
    destruct (IH (fun a' s b s1 I => H a' s b s1 (or_intror I)) _ _ _ El) as [P2 Q2]. split; [exact (Ht _ _ _ P1 P2)|constructor; auto].
Qed.
(** Only the generator may have changed. *)
Definition gen_only (s s1 : rstate) : Prop := rs_psf s1 = rs_psf s /\ rs_core s1 = rs_core s.
Lemma gen_only_refl : forall s, gen_only s s. Proof. split; reflexivity. Qed.
Lemma gen_only_trans : forall a b c, gen_only a b -> gen_only b c -> gen_only a c.
Proof. intros a b c [H1 H2] [H3 H4]. split; congruence. Qed.

Lemma omap_nth : forall A B (f : A -> outcome B) l r k a, omap f l = Ok r -> nth_error l k = Some a ->
  exists b, nth_error r k = Some b /\ f a = Ok b.
Proof.
  intros A B f. induction l as [|x l IH]; intros r k a H E; [destruct k; discriminate|]. cbn [omap] in H.
  destruct (f x) as [y|] eqn:Ex; [|discriminate]. cbn [obind] in H. destruct (omap f l) as [ys|] eqn:El; [|discriminate].
  cbn [obind] in H. apply Ok_inj in H. subst r. destruct k as [|k]; cbn [nth_error] in *.
  - apply Some_inj in E. subst x. eauto.
  - exact (IH _ _ _ eq_refl E).
Qed.
Lemma F2_nth : forall A B (R : A -> B -> Prop) l l' k a, Forall2 R l l' -> nth_error l k = Some a -> exists b, nth_error l' k = Some b /\ R a b.
Proof. intros A B R l l' k a H. revert k. induction H; intros [|k] E; cbn in *; try discriminate; [apply Some_inj in E; subst; eauto|eauto]. Qed.

Definition rows_spec (r : renv) cat stamps sb db t su (x : option (list (drow FR))) : Prop :=
  match stamps with
  | [] => x = None
  | _ => exists rows, x = Some rows /\ List.length rows = List.length cat /\
     forall k d st, nth_error cat k = Some d -> nth_error stamps k = Some st -> exists row, nth_error rows k = Some row /\
       extra_of sob (r_base r) t su db d = Ok (r_extra row) /\
       Forall2 (fun f y => fi_wavg f = true -> e_fit (r_base r) f sb st = Ok y) (e_fitters (r_base r)) (r_fits row)
  end.
Lemma measure_rows : forall (r : renv) cat stamps sb db t su s x s1, List.length cat = List.length stamps ->
  rmeasure sob r cat stamps sb db t su s = (Ok x, s1) -> gen_only s s1 /\ rows_spec r cat stamps sb db t su x.
Proof.
  intros r cat stamps sb db t su s x s1 L H. unfold rows_spec. unfold rmeasure in H. unfold rbind at 1 in H.
  destruct (rmmap (fun f => rfit_list r f sb stamps) (e_fitters (r_base r)) s) as [[all|] s0] eqn:E; [|discriminate].
  pose (Q := fun (f : fitter) (c : option (list FR)) =>
     match stamps with [] => c = None | _ => exists col, c = Some col /\ Forall2 (fun st y => fi_wavg f = true -> e_fit (r_base r) f sb st = Ok y) stamps col end).
  apply (rmmap_gen _ _ gen_only Q) in E; [|apply gen_only_refl|apply gen_only_trans|].
  2:{ intros f s' c s2 If Hf. unfold rfit_list, rbind in Hf. destruct (rmmap (rfit r f sb) stamps s') as [[rows|] s3] eqn:Er; [|discriminate].
      cbv [rret] in Hf. injection Hf as <- <-.
      apply (rmmap_gen _ _ gen_only (fun st y => fi_wavg f = true -> e_fit (r_base r) f sb st = Ok y)) in Er; [|apply gen_only_refl|apply gen_only_trans|].
      - destruct Er as [G1 F1]. split; [exact G1|]. unfold Q. destruct F1 as [|st y sts rows' Hy F1]; [reflexivity|]. eexists. split; [reflexivity|].
        constructor; assumption.
      - intros st s4 y s5 _ Hy. unfold rfit in Hy. destruct (fi_wavg f).
        + cbv [rlift] in Hy. injection Hy as -> <-. split; [apply gen_only_refl|reflexivity].
        + destruct (r_joint r f sb st (rs_gen s4)) as [o g]. injection Hy as -> <-. split; [split; reflexivity|discriminate]. }
  destruct E as [G1 F]. unfold rbind, rlift in H.
  destruct (combine_rows (map (e_colname (r_base r)) (e_fitters (r_base r))) all) as [res|] eqn:Ec; [|discriminate].
  destruct stamps as [|st0 stamps'].
  - assert (Eall : all = map (fun _ => None) (e_fitters (r_base r))).
    { clear - F. unfold Q in F. induction F; cbn [map]; [reflexivity|]. f_equal; assumption. }
    assert (res = None).
    { subst all. destruct (e_fitters (r_base r)) as [|f [|f2 fs]]; cbn [map] in Ec; [discriminate|cbn in Ec; apply Ok_inj in Ec; auto|].
      cbn [combine_rows oall] in Ec. destruct (existsb has _); [discriminate|]. apply Ok_inj in Ec. auto. }
    subst res. cbv [rret] in H. injection H as <- <-. auto.
  - set (stamps := st0 :: stamps') in *.
    assert (Ecol : exists cols, all = map Some cols /\ Forall2 (fun f c => Forall2 (fun st y => fi_wavg f = true -> e_fit (r_base r) f sb st = Ok y) stamps c) (e_fitters (r_base r)) cols).
    { clear - F. unfold Q in F. cbn [stamps] in F. fold stamps in F. induction F as [|f c fs cs H F IH]; [exists []; split; [reflexivity|constructor]|].
      destruct H as (col & -> & Hc). destruct IH as (cols & -> & IH). exists (col :: cols). split; [reflexivity|constructor; assumption]. }
    destruct Ecol as (cols & -> & Hc).
    assert (Ne : cols <> []). { intros ->. inversion Hc as [E0 E1|]. rewrite <- E0 in Ec. discriminate. }
    assert (Lc : forall c, In c cols -> List.length c = List.length stamps).
    { clear - Hc. intros c I. induction Hc as [|f c0 fs cs H F IH]; [destruct I|]. destruct I as [<-|I]; [symmetry; exact (Forall2_len _ _ _ _ _ H)|exact (IH I)]. }
    apply (combine_rows_cols _ _ _ _ Ne Lc) in Ec. subst res.
    unfold add_positions in H. destruct (6 <? zlen db); [discriminate|].
    destruct (omap _ (combine cat (transpose (List.length stamps) cols))) as [rows|] eqn:Eo; [|discriminate]. cbv [rret] in H. injection H as <- <-.
    split; [exact G1|]. exists rows. split; [reflexivity|].
    assert (Lt : List.length (transpose (List.length stamps) cols) = List.length cat) by (rewrite transpose_len; [symmetry; exact L|exact Lc]).
    split. { apply omap_Forall2, Forall2_len in Eo. rewrite combine_length in Eo. lia. }
    intros k d st Ek Es.
    destruct (nth_error (transpose (List.length stamps) cols) k) as [row|] eqn:Et.
    2:{ exfalso. apply nth_error_None in Et. assert (k < List.length cat)%nat by (apply nth_error_Some; congruence). lia. }
    assert (Ecb : nth_error (combine cat (transpose (List.length stamps) cols)) k = Some (d, row)).
    { clear - Ek Et. revert k Ek Et. generalize (transpose (List.length stamps) cols). induction cat as [|a cat IH]; intros [|b l] [|k] H1 H2; cbn in *; try discriminate.
      - congruence.
      - exact (IH _ _ H1 H2). }
    destruct (omap_nth _ _ _ _ _ _ _ Eo Ecb) as (y & Ey & Hy). cbn [fst snd] in Hy.
    destruct (extra_of sob (r_base r) t su db d) as [xx|]; [|discriminate]. cbn [obind] in Hy. apply Ok_inj in Hy. subst y.
    eexists. split; [exact Ey|]. split; [reflexivity|]. cbn [r_fits]. pose proof (transpose_nth _ _ _ _ _ Lc Et) as T.
    clear - Hc T Es. revert row T. induction Hc as [|f c fs cs H F IH]; intros row T; inversion T; subst; constructor; [|apply IH; assumption].
    intros W. destruct (F2_nth _ _ _ _ _ _ _ H Es) as (y' & E1 & E2). assert (y' = y) by congruence. subst y'. auto.
Qed.

(** Two runs that differ in the fitters. *)
Section Two.
Variable r : renv.
Variables fs fs' : list fitter.
Let b := r_base r.
Let r1 := change_base r (with_fitters b fs).
Let r2 := change_base r (with_fitters b fs').
Hypothesis Hc : no_colours r.
Definition J (s1 s2 : rstate) : Prop :=
  s_cache (rs_core s1) = s_cache (rs_core s2) /\ rs_psf s1 = rs_psf s2 /\
  (assoc key_eqb None (s_cache (rs_core s1)) <> None \/ rs_gen s1 = rs_gen s2).
(** The main observations are in the cache. *)
Definition J' (s1 s2 : rstate) : Prop := J s1 s2 /\ assoc key_eqb None (s_cache (rs_core s1)) <> None.
Definition rel {A B} (K : rstate -> rstate -> Prop) (R : A -> B -> Prop) (m1 : RM A) (m2 : RM B) : Prop := forall s1 s2 a c s1' s2',
  K s1 s2 -> m1 s1 = (Ok a, s1') -> m2 s2 = (Ok c, s2') -> R a c /\ J' s1' s2'.
Lemma rel_ret : forall A B (R : A -> B -> Prop) a c, R a c -> rel J' R (rret a) (rret c).
Proof. intros A B R a c H s1 s2 a' c' s1' s2' Hj H1 H2. cbv [rret] in *. injection H1 as <- <-. injection H2 as <- <-. auto. Qed.
Lemma rel_lift : forall A (o : outcome A), rel J' (fun x y => x = y /\ o = Ok x) (rlift o) (rlift o).
Proof. intros A o s1 s2 a c s1' s2' Hj H1 H2. cbv [rlift] in *. injection H1 as -> <-. injection H2 as <- <-. auto. Qed.
Lemma rel_bind : forall A B C D K (R : A -> B -> Prop) (R' : C -> D -> Prop) m1 m2 f1 f2, rel K R m1 m2 ->
  (forall a c, R a c -> rel J' R' (f1 a) (f2 c)) -> rel K R' (rbind m1 f1) (rbind m2 f2).
Proof.
  intros A B C D K R R' m1 m2 f1 f2 Hm Hf s1 s2 a c s1' s2' Hj H1 H2. unfold rbind in *.
  destruct (m1 s1) as [[x|] t1] eqn:E1; [|discriminate]. destruct (m2 s2) as [[y|] t2] eqn:E2; [|discriminate].
  destruct (Hm _ _ _ _ _ _ Hj E1 E2) as [Rxy Hj']. exact (Hf x y Rxy _ _ _ _ _ _ Hj' H1 H2).
Qed.
Lemma rel_mmap : forall A B C (R : B -> C -> Prop) (f1 : A -> RM B) (f2 : A -> RM C) l, (forall a, rel J' R (f1 a) (f2 a)) ->
  rel J' (Forall2 R) (rmmap f1 l) (rmmap f2 l).
Proof.
  intros A B C R f1 f2 l H. induction l as [|a l IH]; cbn [rmmap]; [apply rel_ret; constructor|].
  apply (rel_bind _ _ _ _ _ R); [apply H|]. intros x y Rxy. apply (rel_bind _ _ _ _ _ (Forall2 R)); [exact IH|].
  intros xs ys Rs. apply rel_ret. constructor; assumption.
Qed.
Lemma rel_get : forall sb, rel J eq (rget_data sob r1 None sb) (rget_data sob r2 None sb).
Proof.
  intros sb s1 s2 a c s1' s2' (H1 & H2 & H3) E1 E2. change (rget_data sob r1 None sb) with (rget_data sob r None sb) in E1.
  change (rget_data sob r2 None sb) with (rget_data sob r None sb) in E2. unfold rget_data in E1, E2. cbn [obs_of] in E1, E2.
  rewrite <- H1 in E2.
  destruct (assoc key_eqb None (s_cache (rs_core s1))) as [[mp sbs]|] eqn:Ec.
  - rewrite <- H1 in E2. rewrite Ec in E1, E2. cbv zeta in *.
    destruct (assoc bands_eqb (zsort sb) sbs) as [kd|] eqn:Eb.
    + injection E1 as <- <-. injection E2 as <- <-. assert (N : assoc key_eqb None (s_cache (rs_core s1)) <> None) by (rewrite Ec; discriminate).
      split; [reflexivity|]. split; [|exact N]. split; [exact H1|]. split; [exact H2|]. left. exact N.
    + assert (Ep : stored_psf r s2 None = stored_psf r s1 None) by (unfold stored_psf; rewrite H2; reflexivity). rewrite Ep in E2.
      destruct (compute_sb _ _ mp _ sb) as [kd [u|]]; [|discriminate]. injection E1 as <- <-. injection E2 as <- <-. split; [reflexivity|].
      assert (N : assoc key_eqb None (dput key_eqb None (mp, dput bands_eqb (zsort sb) kd sbs) (s_cache (rs_core s1))) <> None)
        by (rewrite assoc_dput_key, key_eqb_refl; discriminate).
      split; [|exact N]. split; [reflexivity|]. cbn [rs_core s_cache rs_psf]. split; [exact H2|]. left. exact N.
  - destruct H3 as [H3|H3]; [congruence|].
    assert (Ek : rcompute_key r None (e_main (r_base r)) s2 = rcompute_key r None (e_main (r_base r)) s1).
    { unfold rcompute_key. rewrite H3, H2. reflexivity. }
    rewrite Ek in E2. destruct (rcompute_key r None (e_main (r_base r)) s1) as [[[mp ev] o] [g psfs]].
    destruct o as [u|x]; [|discriminate]. cbn [rs_core s_cache rs_psf rs_gen] in E1, E2. rewrite assoc_dput_key, key_eqb_refl in E1, E2.
    cbv zeta in *. cbn [assoc] in *. unfold stored_psf in *. cbn [rs_psf] in *.
    destruct (compute_sb _ _ mp _ sb) as [kd [u'|]]; [|discriminate]. injection E1 as <- <-. injection E2 as <- <-. split; [reflexivity|].
    assert (N : forall v, assoc key_eqb None (dput key_eqb None (v : cache_entry O) (dput key_eqb None (mp, []) (s_cache (rs_core s1)))) <> None)
      by (intros v; rewrite assoc_dput_key, key_eqb_refl; discriminate).
    split; [|apply N]. split; [reflexivity|]. split; [reflexivity|]. left. apply N.
Qed.
Lemma rel_get' : forall sb, rel J' eq (rget_data sob r1 None sb) (rget_data sob r2 None sb).
Proof. intros sb s1 s2 a c s1' s2' [Hj _]. exact (rel_get sb s1 s2 a c s1' s2' Hj). Qed.
Lemma J_gen : forall s1 s2 t1 t2, J' s1 s2 -> gen_only s1 t1 -> gen_only s2 t2 -> J' t1 t2.
Proof.
  intros s1 s2 t1 t2 [(H1 & H2 & H3) N] [A1 A2] [B1 B2]. unfold J', J. rewrite A1, A2, B1, B2. auto.
Qed.
Lemma nth_F2 : forall A B (R : A -> B -> Prop) l l', List.length l = List.length l' ->
  (forall k a c, nth_error l k = Some a -> nth_error l' k = Some c -> R a c) -> Forall2 R l l'.
Proof.
  intros A B R l. induction l as [|a l IH]; intros [|c l'] L H; try discriminate; constructor.
  - exact (H 0%nat a c eq_refl eq_refl).
  - apply IH; [cbn in L; congruence|]. intros k x y. exact (H (S k) x y).
Qed.
Definition tab_rel (x y : option (list (drow FR))) : Prop :=
  match x, y with Some l, Some l' => Forall2 (same_but_joint fs fs') l l' | None, None => True | _, _ => False end.
Lemma tab_of_rows : forall cat stamps sb db t su a c, List.length cat = List.length stamps ->
  rows_spec r1 cat stamps sb db t su a -> rows_spec r2 cat stamps sb db t su c -> tab_rel a c.
Proof.
  intros cat stamps sb db t su a c L M1 M2. unfold rows_spec in *. destruct stamps as [|st0 stamps']; [subst a c; cbn; trivial|].
  set (stamps := st0 :: stamps') in *. destruct M1 as (rows & -> & L1 & R1). destruct M2 as (rows' & -> & L2 & R2). cbn [tab_rel].
  apply nth_F2; [congruence|]. intros k x y Ex Ey.
  assert (Lk : (k < List.length cat)%nat) by (rewrite <- L1; apply nth_error_Some; congruence).
  destruct (nth_error cat k) as [d|] eqn:Ed; [|apply nth_error_None in Ed; lia].
  destruct (nth_error stamps k) as [st|] eqn:Es; [|apply nth_error_None in Es; lia].
  destruct (R1 k d st Ed Es) as (x' & Ex' & X1 & X2). destruct (R2 k d st Ed Es) as (y' & Ey' & Y1 & Y2).
  assert (x' = x) by congruence. assert (y' = y) by congruence. subst x' y'.
  change (extra_of sob (r_base r1) t su db d) with (extra_of sob b t su db d) in X1.
  change (extra_of sob (r_base r2) t su db d) with (extra_of sob b t su db d) in Y1.
  change (e_fitters (r_base r1)) with fs in X2. change (e_fitters (r_base r2)) with fs' in Y2.
  change (e_fit (r_base r1)) with (e_fit b) in X2. change (e_fit (r_base r2)) with (e_fit b) in Y2.
  split; [congruence|]. split; [symmetry; exact (Forall2_len _ _ _ _ _ X2)|]. split; [symmetry; exact (Forall2_len _ _ _ _ _ Y2)|].
  intros i j f Ei Ej W. destruct (F2_nth _ _ _ _ _ _ _ X2 Ei) as (u & Eu & Hu). destruct (F2_nth _ _ _ _ _ _ _ Y2 Ej) as (v & Ev & Hv).
  rewrite Eu, Ev. specialize (Hu W). specialize (Hv W). congruence.
Qed.
Lemma two_measure : forall cat stamps sb db t su, List.length cat = List.length stamps ->
  rel J' tab_rel (rmeasure sob r1 cat stamps sb db t su) (rmeasure sob r2 cat stamps sb db t su).
Proof.
  intros cat stamps sb db t su L s1 s2 a c s1' s2' Hj E1 E2.
  destruct (measure_rows _ _ _ _ _ _ _ _ _ _ L E1) as [G1 M1]. destruct (measure_rows _ _ _ _ _ _ _ _ _ _ L E2) as [G2 M2].
  split; [exact (tab_of_rows _ _ _ _ _ _ _ _ L M1 M2)|exact (J_gen _ _ _ _ Hj G1 G2)].
Qed.
Lemma detect_len : forall m db (cs : list det * list ST), do_detect b m db = Ok cs -> List.length (fst cs) = List.length (snd cs).
Proof.
  intros m db cs H. unfold do_detect in H. destruct (omap (py_index m) db) as [sel|]; [|discriminate]. cbn [obind] in H.
  destruct (e_detect b sel) as [c0|]; [|discriminate]. cbn [obind] in H. destruct (omap _ (fst c0)) as [sts|] eqn:E; [|discriminate].
  cbn [obind] in H. apply Ok_inj in H. subst cs. apply omap_Forall2, Forall2_len in E. exact E.
Qed.
Definition ent_rel (x y : string * option (list (drow FR))) : Prop := fst x = fst y /\ tab_rel (snd x) (snd y).
Definition res_rel (x y : option (results FR)) : Prop :=
  match x, y with
  | None, None => True
  | Some a, Some c => forall t, match table a t, table c t with Some u, Some v => tab_rel u v | None, None => True | _, _ => False end
  | _, _ => False
  end.
Lemma res_of_tables : forall all all', Forall2 (Forall2 ent_rel) all all' ->
  res_rel (Some (finish b (fold_left add_tables all []))) (Some (finish b (fold_left add_tables all' []))).
Proof.
  intros all all' Hall t. 
    rewrite (finish_lookup _ _ _ _ _ b all t), (finish_lookup _ _ _ _ _ b all' t).
    assert (P : Forall2 (Forall2 (same_but_joint fs fs')) (picks FR t (List.concat all)) (picks FR t (List.concat all'))).
    { assert (Hl : Forall2 ent_rel (List.concat all) (List.concat all')) by (clear - Hall; induction Hall; cbn; [constructor|apply Forall2_app; assumption]).
      clear - Hl. unfold picks. induction Hl as [|x y l l' [H1 H2] F IH]; cbn [flat_map]; [constructor|]. apply Forall2_app; [|exact IH].
      unfold pick. rewrite <- H1. destruct (String.eqb t (fst x)); [|constructor]. destruct (snd x), (snd y); cbn in H2; try contradiction; constructor; auto. }
    destruct P as [|x y l l' Hx Hl].
    + destruct (existsb (String.eqb t) (e_types b)); cbn; trivial.
    + cbn [tab_rel]. clear - Hx Hl. assert (F : Forall2 (Forall2 (same_but_joint fs fs')) (x :: l) (y :: l')) by (constructor; assumption).
      induction F; cbn [List.concat]; [constructor|apply Forall2_app; assumption].
Qed.
Lemma two_body : forall s1 s2 a c s1' s2', J s1 s2 -> rbody r1 s1 = (Ok a, s1') -> rbody r2 s2 = (Ok c, s2') -> res_rel a c.
Proof.
  intros s1 s2 a c s1' s2' Hj E1 E2. unfold rbody in E1, E2. cbv zeta in *. unfold rbind at 1 in E1. unfold rbind at 1 in E2. unfold rlift at 1 in E1. unfold rlift at 1 in E2.
  change (e_main (r_base r1)) with (e_main b) in E1. change (e_main (r_base r2)) with (e_main b) in E2.
  destruct (get_mfrac (map (map sob) (e_main b))) as [mf|]; [|discriminate].
  change (give_up sob (r_base r1) mf) with (give_up sob b mf) in E1. change (give_up sob (r_base r2) mf) with (give_up sob b mf) in E2.
  destruct (give_up sob b mf). { cbv [rret] in *. injection E1 as <- <-. injection E2 as <- <-. exact Logic.I. }
  revert s1 s2 a c s1' s2' Hj E1 E2.
  match goal with |- forall s1 s2 a c s1' s2', J s1 s2 -> ?m1 s1 = _ -> ?m2 s2 = _ -> _ => assert (X : rel J res_rel m1 m2) end.
  2:{ intros s1 s2 a c s1' s2' Hj E1 E2. exact (proj1 (X s1 s2 a c s1' s2' Hj E1 E2)). }
  apply (rel_bind _ _ _ _ _ eq); [apply rel_get|]. intros kd kd' <-.
  apply (rel_bind _ _ _ _ _ _ _ _ _ _ _ (rel_lift _ (kd_mcal kd))). intros mc mc' [<- _]. destruct mc as [mcal|]; [|apply rel_ret; exact Logic.I].
  change (e_color (r_base r1)) with (e_color b). change (e_color (r_base r2)) with (e_color b).
  replace (e_color b) with (@None ((FL -> outcome (option Z)) * (Z -> option (cobs O)))) by (symmetry; exact Hc).
  apply (rel_bind _ _ _ _ _ (Forall2 (Forall2 ent_rel))).
  - change (combine (e_shear (r_base r2)) (e_det (r_base r2))) with (combine (e_shear (r_base r1)) (e_det (r_base r1))).
    apply rel_mmap. intros [sb db]. cbn [fst snd]. unfold rgo_bands. apply (rel_bind _ _ _ _ _ eq); [apply rel_get'|]. intros kd1 kd2 <-.
    apply rel_mmap. intros [t m]. cbn [fst snd].
    change (do_detect (r_base r1) m db) with (do_detect b m db). change (do_detect (r_base r2) m db) with (do_detect b m db).
    apply (rel_bind _ _ _ _ _ _ _ _ _ _ _ (rel_lift _ (do_detect b m db))). intros cs cs' [<- Ecs].
    apply (rel_bind _ _ _ _ _ _ _ _ _ _ _ (rel_lift _ (kd_summary kd1))). intros su su' [<- _].
    apply (rel_bind _ _ _ _ _ tab_rel); [apply two_measure; exact (detect_len _ _ _ Ecs)|]. intros x y Hxy. apply rel_ret. split; [reflexivity|exact Hxy].
  - intros all all' Hall. apply rel_ret. exact (res_of_tables all all' Hall).
Qed.
Lemma two_go : forall g s1' s2', rgo sob r1 (rinit g) = (Ok tt, s1') -> rgo sob r2 (rinit g) = (Ok tt, s2') ->
  exists a c, s_result (rs_core s1') = Some a /\ s_result (rs_core s2') = Some c /\ res_rel a c.
Proof.
  intros g s1' s2' E1 E2. rewrite rgo_body in E1, E2. unfold rbind in *.
  destruct (rbody r1 (rinit g)) as [[a|] t1] eqn:B1; [|discriminate]. destruct (rbody r2 (rinit g)) as [[c|] t2] eqn:B2; [|discriminate].
  cbv [rset_result] in *. injection E1 as <-. injection E2 as <-. exists a, c. split; [reflexivity|]. split; [reflexivity|].
  apply (two_body _ _ _ _ _ _ (conj eq_refl (conj eq_refl (or_intror eq_refl))) B1 B2).
Qed.
End Two.

(** With moments fitters in both lists the two runs go through the same states, with
    colours too. *)
Section Equal.
Variable r : renv.
Variables fs fs' : list fitter.
Let b := r_base r.
Let r1 := change_base r (with_fitters b fs).
Let r2 := change_base r (with_fitters b fs').
Hypothesis Hh : hd_error fs = hd_error fs'.
Hypothesis H1 : forall f, In f fs -> fi_wavg f = true.
Hypothesis H2 : forall f, In f fs' -> fi_wavg f = true.
Definition releq {A B} (R : A -> B -> Prop) (m1 : RM A) (m2 : RM B) : Prop := forall s a c s1 s2,
  m1 s = (Ok a, s1) -> m2 s = (Ok c, s2) -> R a c /\ s1 = s2.
Lemma releq_ret : forall A B (R : A -> B -> Prop) a c, R a c -> releq R (rret a) (rret c).
Proof. intros A B R a c H s a' c' s1 s2 E1 E2. cbv [rret] in *. injection E1 as <- <-. injection E2 as <- <-. auto. Qed.
Lemma releq_lift : forall A (o : outcome A), releq (fun x y => x = y /\ o = Ok x) (rlift o) (rlift o).
Proof. intros A o s a c s1 s2 E1 E2. cbv [rlift] in *. injection E1 as -> <-. injection E2 as <- <-. auto. Qed.
Lemma releq_same : forall A (m : RM A), releq eq m m.
Proof. intros A m s a c s1 s2 E1 E2. rewrite E1 in E2. injection E2 as <- <-. auto. Qed.
Lemma releq_bind : forall A B C D (R : A -> B -> Prop) (R' : C -> D -> Prop) m1 m2 f1 f2, releq R m1 m2 ->
  (forall a c, R a c -> releq R' (f1 a) (f2 c)) -> releq R' (rbind m1 f1) (rbind m2 f2).
Proof.
  intros A B C D R R' m1 m2 f1 f2 Hm Hf s a c s1 s2 E1 E2. unfold rbind in *.
  destruct (m1 s) as [[x|] t1] eqn:F1; [|discriminate]. destruct (m2 s) as [[y|] t2] eqn:F2; [|discriminate].
  destruct (Hm _ _ _ _ _ F1 F2) as [Rxy <-]. exact (Hf x y Rxy _ _ _ _ _ E1 E2).
Qed.
Lemma releq_mmap : forall A B C (R : B -> C -> Prop) (f1 : A -> RM B) (f2 : A -> RM C) l, (forall a, releq R (f1 a) (f2 a)) ->
  releq (Forall2 R) (rmmap f1 l) (rmmap f2 l).
Proof.
  intros A B C R f1 f2 l H. induction l as [|a l IH]; cbn [rmmap]; [apply releq_ret; constructor|].
  apply (releq_bind _ _ _ _ R); [apply H|]. intros x y Rxy. apply (releq_bind _ _ _ _ (Forall2 R)); [exact IH|].
  intros xs ys Rs. apply releq_ret. constructor; assumption.
Qed.
Lemma measure_still : forall (q : renv) cat stamps sb db t su s x s1, moments_only q ->
  rmeasure sob q cat stamps sb db t su s = (Ok x, s1) -> s1 = s.
Proof.
  intros q cat stamps sb db t su s x s1 Hm E. unfold rmeasure, rbind in E.
  destruct (rmmap (fun f => rfit_list q f sb stamps) (e_fitters (r_base q)) s) as [[all|] s0] eqn:Ea; [|discriminate].
  apply (rmmap_gen _ _ (fun u v => v = u) (fun _ _ => True)) in Ea; [|reflexivity|congruence|].
  - destruct Ea as [-> _]. unfold rlift in E. destruct (combine_rows _ all) as [[rows|]|]; [| |discriminate].
    + destruct (add_positions _ _ _ _ _ _ _); [|discriminate]. cbv [rret] in E. injection E as _ <-. reflexivity.
    + cbv [rret] in E. injection E as _ <-. reflexivity.
  - intros f u c v If E'. split; [|trivial]. unfold rfit_list, rbind in E'.
    destruct (rmmap (rfit q f sb) stamps u) as [[rows|] w] eqn:Er; [|discriminate]. cbv [rret] in E'. injection E' as _ <-.
    apply (rmmap_gen _ _ (fun u v => v = u) (fun _ _ => True)) in Er; [exact (proj1 Er)|reflexivity|congruence|].
    intros st u' y v' _ Ey. split; [|trivial]. unfold rfit in Ey. rewrite (Hm f If) in Ey. cbv [rlift] in Ey. injection Ey as _ <-. reflexivity.
Qed.
Lemma eq_measure : forall cat stamps sb db t su, List.length cat = List.length stamps ->
  releq (tab_rel fs fs') (rmeasure sob r1 cat stamps sb db t su) (rmeasure sob r2 cat stamps sb db t su).
Proof.
  intros cat stamps sb db t su L s a c s1 s2 E1 E2.
  pose proof (measure_still r1 _ _ _ _ _ _ _ _ _ H1 E1) as ->. pose proof (measure_still r2 _ _ _ _ _ _ _ _ _ H2 E2) as ->.
  split; [|reflexivity].
  destruct (measure_rows _ _ _ _ _ _ _ _ _ _ L E1) as [_ M1]. destruct (measure_rows _ _ _ _ _ _ _ _ _ _ L E2) as [_ M2].
  exact (tab_of_rows r fs fs' cat stamps sb db t su a c L M1 M2).
Qed.
Lemma eq_body : releq (res_rel fs fs') (rbody r1) (rbody r2).
Proof.
  unfold rbody. cbv zeta.
  change (e_main (r_base r1)) with (e_main b). change (e_main (r_base r2)) with (e_main b).
  apply (releq_bind _ _ _ _ _ _ _ _ _ _ (releq_lift _ (get_mfrac (map (map sob) (e_main b))))). intros mf mf' [<- _].
  change (give_up sob (r_base r1) mf) with (give_up sob b mf). change (give_up sob (r_base r2) mf) with (give_up sob b mf).
  destruct (give_up sob b mf); [apply releq_ret; exact Logic.I|].
  assert (Hget : forall key sb, releq eq (rget_data sob r1 key sb) (rget_data sob r2 key sb)).
  { intros key sb. change (rget_data sob r1 key sb) with (rget_data sob r key sb). change (rget_data sob r2 key sb) with (rget_data sob r key sb). apply releq_same. }
  apply (releq_bind _ _ _ _ eq); [apply Hget|]. intros kd kd' <-.
  apply (releq_bind _ _ _ _ _ _ _ _ _ _ (releq_lift _ (kd_mcal kd))). intros mc mc' [<- _]. destruct mc as [mcal|]; [|apply releq_ret; exact Logic.I].
  apply (releq_bind _ _ _ _ (Forall2 (Forall2 (ent_rel fs fs')))).
  - change (combine (e_shear (r_base r2)) (e_det (r_base r2))) with (combine (e_shear (r_base r1)) (e_det (r_base r1))).
    apply releq_mmap. intros [sb db]. cbn [fst snd]. change (e_color (r_base r1)) with (e_color b). change (e_color (r_base r2)) with (e_color b).
    destruct (e_color b) as [[keyf dep]|] eqn:Ecol.
    + unfold rgo_bands_color. apply releq_mmap. intros [t m]. cbn [fst snd].
      apply (releq_bind _ _ _ _ eq).
      { change (e_fitters (r_base r1)) with fs. change (e_fitters (r_base r2)) with fs'.
        destruct fs as [|f l], fs' as [|f' l']; try discriminate Hh; [apply releq_same|]. cbn in Hh. apply Some_inj in Hh. subst f'. apply releq_same. }
      intros f0 f0' <-.
      change (do_detect (r_base r1) m db) with (do_detect b m db). change (do_detect (r_base r2) m db) with (do_detect b m db).
      apply (releq_bind _ _ _ _ _ _ _ _ _ _ (releq_lift _ (do_detect b m db))). intros cs cs' [<- Ecs].
      change (e_flux (r_base r1)) with (e_flux b). change (e_flux (r_base r2)) with (e_flux b).
      apply (releq_bind _ _ _ _ _ _ _ _ _ _ (releq_lift _ (omap (e_flux b f0 sb) (snd cs)))). intros fl fl' [<- _].
      destruct fl as [|fl0 fls]; [apply releq_ret; split; [reflexivity|exact Logic.I]|].
      apply (releq_bind _ _ _ _ _ _ _ _ _ _ (releq_lift _ (omap keyf (fl0 :: fls)))). intros keys keys' [<- _].
      apply (releq_bind _ _ _ _ (Forall2 (Forall2 (same_but_joint fs fs')))).
      * apply releq_mmap. intros dk. unfold rcolor_one.
        apply (releq_bind _ _ _ _ eq); [apply Hget|]. intros kd1 kd2 <-.
        apply (releq_bind _ _ _ _ _ _ _ _ _ _ (releq_lift _ (kd_mcal kd1))). intros mc mc' [<- _]. destruct mc as [dict|]; [|apply releq_ret; constructor].
        apply (releq_bind _ _ _ _ eq); [apply releq_same|]. intros m1 m2 <-.
        change (e_stamp (r_base r1)) with (e_stamp b). change (e_stamp (r_base r2)) with (e_stamp b).
        apply (releq_bind _ _ _ _ eq); [apply releq_same|]. intros st st' <-.
        apply (releq_bind _ _ _ _ eq); [apply releq_same|]. intros su su' <-.
        apply (releq_bind _ _ _ _ (tab_rel fs fs')); [apply eq_measure; reflexivity|]. intros x y Hxy. apply releq_ret.
        destruct x, y; cbn in Hxy; try contradiction; [exact Hxy|constructor].
      * intros x y Hxy. apply releq_ret. split; [reflexivity|]. cbn [snd].
        assert (F : Forall2 (same_but_joint fs fs') (List.concat x) (List.concat y)) by (clear - Hxy; induction Hxy; cbn; [constructor|apply Forall2_app; assumption]).
        destruct F; cbn; [trivial|constructor; assumption].
    + unfold rgo_bands. apply (releq_bind _ _ _ _ eq); [apply Hget|]. intros kd1 kd2 <-.
      apply releq_mmap. intros [t m]. cbn [fst snd].
      change (do_detect (r_base r1) m db) with (do_detect b m db). change (do_detect (r_base r2) m db) with (do_detect b m db).
      apply (releq_bind _ _ _ _ _ _ _ _ _ _ (releq_lift _ (do_detect b m db))). intros cs cs' [<- Ecs].
      apply (releq_bind _ _ _ _ _ _ _ _ _ _ (releq_lift _ (kd_summary kd1))). intros su su' [<- _].
      apply (releq_bind _ _ _ _ (tab_rel fs fs')); [apply eq_measure; exact (detect_len r _ _ _ Ecs)|]. intros x y Hxy. apply releq_ret. split; [reflexivity|exact Hxy].
  - intros all all' Hall. apply releq_ret. exact (res_of_tables r fs fs' all all' Hall).
Qed.
Lemma eq_go : forall g s1' s2', rgo sob r1 (rinit g) = (Ok tt, s1') -> rgo sob r2 (rinit g) = (Ok tt, s2') ->
  exists a c, s_result (rs_core s1') = Some a /\ s_result (rs_core s2') = Some c /\ res_rel fs fs' a c.
Proof.
  intros g s1' s2' E1 E2. rewrite rgo_body in E1, E2. unfold rbind in *.
  destruct (rbody r1 (rinit g)) as [[a|] t1] eqn:B1; [|discriminate]. destruct (rbody r2 (rinit g)) as [[c|] t2] eqn:B2; [|discriminate].
  cbv [rset_result] in *. injection E1 as <-. injection E2 as <-. exists a, c. split; [reflexivity|]. split; [reflexivity|].
  exact (proj1 (eq_body _ _ _ _ _ B1 B2)).
Qed.
End Equal.
End Proofs.
