(** The driver of metadetect/metadetect.py with its random number generator.

    Mdet_model treats PSF fits, metacal and fits as functions of their inputs.
    Here the state of self.rng (metadetect.py:143) is threaded through the calls
    that receive it, in the order in which they are made: fit_all_psfs (525), the
    joint fitters (579-589) and get_all_metacal (791-795). The moments fitters
    (569-578), detection, stamps and the added columns do not receive it. PSF fit
    results are stored in the observations and read later, so they are part of the
    state as well. Everything else is taken from Mdet_model. *)
From Coq Require Import ZArith QArith List String Bool.
From Verif Require Import Base Arr Median Flags_model Detect_model Summ_model Wavg_model Joint_model Conf_model Mdet_model.
Import ListNotations.
Local Open Scope Z_scope.

Section Rng.
Variables O SEG ST FL FR G : Type.
Variable sob : O -> sobs.
Notation env := (env O SEG ST FL FR).
Notation mb := (mb O).
Notation mcalpsf := (mcalpsf O).
Notation kdata := (kdata O).
Notation drow := (drow FR).
Notation results := (results FR).

(** [r_base] without its e_psf_fit and e_metacal, and its e_fit for moments
    fitters only. [r_oid]: the identity of the observations given for a colour key
    (two keys may share them). The oracles return the new state of the generator. *)
Record renv := mkRenv {
  r_base : env;
  r_oid : Z -> Z;
  r_psf : mb -> G -> (list (list pobs) * outcome unit) * G;
  r_mcal : mb -> G -> outcome (list (string * mb)) * G;
  r_joint : fitter -> list Z -> ST -> G -> outcome FR * G
}.
(** Generator, PSF results stored in the observations (of the identity; None for
    the main ones), and the state of Mdet_model. *)
Record rstate := mkRs { rs_gen : G; rs_psf : list (option Z * list (list pobs)); rs_core : state O FR }.
Definition rinit (g : G) : rstate := mkRs g [] init_state.

Definition RM (A : Type) := rstate -> outcome A * rstate.
Definition rret {A} (a : A) : RM A := fun s => (Ok a, s).
Definition rlift {A} (o : outcome A) : RM A := fun s => (o, s).
Definition rbind {A B} (m : RM A) (f : A -> RM B) : RM B :=
  fun s => match m s with
           | (Ok a, s') => f a s'
           | (Raise x, s') => (Raise x, s')
           end.
Fixpoint rmmap {A B} (f : A -> RM B) (l : list A) : RM (list B) :=
  match l with
  | [] => rret []
  | a :: r => rbind (f a) (fun b => rbind (rmmap f r) (fun bs => rret (b :: bs)))
  end.
Definition rset_result (r : option results) : RM unit :=
  fun s => (Ok tt, mkRs (rs_gen s) (rs_psf s) (mkState (s_cache (rs_core s)) (s_log (rs_core s)) (Some r))).

Section Env.
Variable r : renv.
Let e := r_base r.

(** The identity of the observations used for a key. *)
Definition oid (k : option Z) : option Z := option_map (r_oid r) k.

(** metadetect.py:524-534: the entry for a new key, with the computations made. *)
Definition rcompute_key (k : option Z) (m : mb) (s : rstate) : (mcalpsf * list event * outcome unit) * (G * list (option Z * list (list pobs))) :=
  let '((ps, o), g1) := r_psf r m (rs_gen s) in
  let psfs := dput key_eqb (oid k) ps (rs_psf s) in
  match (match o with Ok _ => Ok 0 | Raise BootPSFFailure => Ok (flag_value PSF_FAILURE) | Raise x => Raise x end) with
  | Raise x => ((mkMP None None, [EvPsf k], Raise x), (g1, psfs))
  | Ok f =>
    let '(mc, g2) := r_mcal r m g1 in
    match (match mc with Ok d => Ok (Some d) | Raise BootPSFFailure => Ok None | Raise x => Raise x end) with
    | Raise x => ((mkMP (Some f) None, [EvPsf k; EvMcal k], Raise x), (g2, psfs))
    | Ok d => ((mkMP (Some f) (Some d), [EvPsf k; EvMcal k], Ok tt), (g2, psfs))
    end
  end.
(** The base with the given PSF results (metadetect.py:550 reads those stored in the
    observations). *)
Definition with_psf (b : env) (ps : list (list pobs)) : env :=
  mkEnv (e_main b) (e_color b) (fun _ => (ps, Ok tt)) (e_metacal b) (e_types b) (e_nodet b) (e_fitters b) (e_shear b) (e_det b)
    (e_detect b) (e_stamp b) (e_fit b) (e_colname b) (e_flux b) (e_unshear b) (e_ormask_region b) (e_mask_region b) (e_aper b).
Definition stored_psf (s : rstate) (k : option Z) : list (list pobs) :=
  match assoc key_eqb (oid k) (rs_psf s) with Some ps => ps | None => [] end.

(** metadetect.py:499-557, _get_mbobs_data. *)
Definition rget_data (key : option Z) (shear_bands : list Z) : RM kdata := fun s =>
  match obs_of e key with
  | Raise x => (Raise x, s)
  | Ok (k, m) =>
    let '(r1, s1) :=
      match assoc key_eqb k (s_cache (rs_core s)) with
      | Some _ => (Ok tt, s)
      | None =>
        let '((mp, ev, o), (g, psfs)) := rcompute_key k m s in
        (o, mkRs g psfs (mkState (dput key_eqb k (mp, []) (s_cache (rs_core s))) (s_log (rs_core s) ++ ev)%list (s_result (rs_core s))))
      end in
    match r1 with
    | Raise x => (Raise x, s1)
    | Ok _ =>
      match assoc key_eqb k (s_cache (rs_core s1)) with
      | None => (Raise KeyError, s1)
      | Some (mp, sbs) =>
        let sbkey := zsort shear_bands in
        match assoc bands_eqb sbkey sbs with
        | Some kd => (Ok kd, s1)
        | None =>
          let '(kd, o) := compute_sb sob (with_psf e (stored_psf s1 k)) mp m shear_bands in
          (match o with Ok _ => Ok kd | Raise x => Raise x end,
           mkRs (rs_gen s1) (rs_psf s1)
             (mkState (dput key_eqb k (mp, dput bands_eqb sbkey kd sbs) (s_cache (rs_core s1)))
                      (s_log (rs_core s1) ++ [EvSum k sbkey])%list (s_result (rs_core s1))))
        end
      end
    end
  end.

(** metadetect.py:568-589: one object, one fitter. *)
Definition rfit (f : fitter) (shear_bands : list Z) (st : ST) : RM FR :=
  if fi_wavg f then rlift (e_fit e f shear_bands st)
  else fun s => let '(o, g) := r_joint r f shear_bands st (rs_gen s) in (o, mkRs g (rs_psf s) (rs_core s)).
(** fitting.py:302-369 and 700-760: the objects in order. *)
Definition rfit_list (f : fitter) (shear_bands : list Z) (stamps : list ST) : RM (option (list FR)) :=
  rbind (rmmap (rfit f shear_bands) stamps) (fun rows => rret (match rows with [] => None | _ => Some rows end)).
(** metadetect.py:559-616, _measure: the fitters in order. *)
Definition rmeasure (cat : list det) (stamps : list ST) (shear_bands det_bands : list Z) (shear_str : string) (sm : summary)
  : RM (option (list drow)) :=
  rbind (rmmap (fun f => rfit_list f shear_bands stamps) (e_fitters e)) (fun all_res =>
  rbind (rlift (combine_rows (map (e_colname e) (e_fitters e)) all_res)) (fun res =>
  match res with
  | None => rret None
  | Some rows => rbind (rlift (add_positions sob e cat rows shear_str sm det_bands)) (fun t => rret (Some t))
  end)).

(** metadetect.py:408-429, _go_bands. *)
Definition rgo_bands (shear_bands det_bands : list Z) (mcal : list (string * mb)) : RM results :=
  rbind (rget_data None shear_bands) (fun kd =>
  rmmap (fun sm =>
    rbind (rlift (do_detect e (snd sm) det_bands)) (fun cs =>
    rbind (rlift (kd_summary kd)) (fun su =>
    rbind (rmeasure (fst cs) (snd cs) shear_bands det_bands (fst sm) su) (fun t =>
    rret (fst sm, t))))) mcal).

(** metadetect.py:471-490. *)
Definition rcolor_one (shear_bands det_bands : list Z) (shear_str : string) (dk : det * option Z) : RM (list drow) :=
  rbind (rget_data (snd dk) shear_bands) (fun kd =>
  rbind (rlift (kd_mcal kd)) (fun mc =>
  match mc with
  | None => rret []
  | Some dict =>
    rbind (rlift (match assoc String.eqb shear_str dict with Some m => Ok m | None => Raise KeyError end)) (fun m =>
    rbind (rlift (e_stamp e m None (fst dk))) (fun st =>
    rbind (rlift (kd_summary kd)) (fun su =>
    rbind (rmeasure [fst dk] [st] shear_bands det_bands shear_str su) (fun t =>
    rret (match t with None => [] | Some l => l end)))))
  end)).
(** metadetect.py:431-497, _go_bands_with_color. *)
Definition rgo_bands_color (keyf : FL -> outcome (option Z)) (shear_bands det_bands : list Z) (mcal : list (string * mb)) : RM results :=
  rmmap (fun sm =>
    rbind (rlift (match e_fitters e with
                  | [] => Raise IndexError
                  | f :: _ => if fi_wavg f then Ok f else Raise RuntimeError
                  end)) (fun f0 =>
    rbind (rlift (do_detect e (snd sm) det_bands)) (fun cs =>
    rbind (rlift (omap (e_flux e f0 shear_bands) (snd cs))) (fun fluxes =>
    match fluxes with
    | [] => rret (fst sm, None)
    | _ =>
      rbind (rlift (omap keyf fluxes)) (fun keys =>
      rbind (rmmap (rcolor_one shear_bands det_bands (fst sm)) (combine (fst cs) keys)) (fun data =>
      rret (fst sm, match List.concat data with [] => None | l => Some l end)))
    end)))) mcal.

(** metadetect.py:348-406, go. *)
Definition rgo : RM unit :=
  rbind (rlift (get_mfrac (map (map sob) (e_main e)))) (fun mf =>
  if give_up sob e mf then rset_result None
  else
    rbind (rget_data None (zrange (zlen (e_main e)))) (fun kd =>
    rbind (rlift (kd_mcal kd)) (fun mc =>
    match mc with
    | None => rset_result None
    | Some mcal =>
      rbind (rmmap (fun sd => match e_color e with
                              | Some (keyf, _) => rgo_bands_color keyf (fst sd) (snd sd) mcal
                              | None => rgo_bands (fst sd) (snd sd) mcal
                              end) (combine (e_shear e) (e_det e))) (fun all =>
      rset_result (Some (finish e (fold_left add_tables all []))))
    end))).

(** A history of uses of the object. *)
Definition rstep (o : op) : RM unit :=
  match o with
  | Request k sb => rbind (rget_data k sb) (fun _ => rret tt)
  | Go => rgo
  end.
Fixpoint rrun_ops (l : list op) (s : rstate) : list (outcome unit) * rstate :=
  match l with
  | [] => ([], s)
  | o :: l' =>
    let '(x, s1) := rstep o s in
    let '(xs, s2) := rrun_ops l' s1 in
    (x :: xs, s2)
  end.
End Env.
End Rng.

Arguments mkRenv {O SEG ST FL FR G}. Arguments r_base {O SEG ST FL FR G}. Arguments r_oid {O SEG ST FL FR G}.
Arguments r_psf {O SEG ST FL FR G}. Arguments r_mcal {O SEG ST FL FR G}. Arguments r_joint {O SEG ST FL FR G}.
Arguments mkRs {O FR G}. Arguments rs_gen {O FR G}. Arguments rs_psf {O FR G}. Arguments rs_core {O FR G}.
Arguments rinit {O FR G}. Arguments rret {O FR G A}. Arguments rlift {O FR G A}. Arguments rbind {O FR G A B}.
Arguments rmmap {O FR G A B}. Arguments rset_result {O FR G}.
Arguments oid {O SEG ST FL FR G}. Arguments rcompute_key {O SEG ST FL FR G}. Arguments with_psf {O SEG ST FL FR}.
Arguments stored_psf {O SEG ST FL FR G}. Arguments rget_data {O SEG ST FL FR G}. Arguments rfit {O SEG ST FL FR G}.
Arguments rfit_list {O SEG ST FL FR G}. Arguments rmeasure {O SEG ST FL FR G}. Arguments rgo_bands {O SEG ST FL FR G}.
Arguments rcolor_one {O SEG ST FL FR G}. Arguments rgo_bands_color {O SEG ST FL FR G}. Arguments rgo {O SEG ST FL FR G}.
Arguments rstep {O SEG ST FL FR G}. Arguments rrun_ops {O SEG ST FL FR G}.
