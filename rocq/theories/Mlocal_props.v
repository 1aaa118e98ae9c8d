(** C121: the fits of an object depend on the pixels of its stamps only. *)
From Coq Require Import ZArith QArith List String Bool Lia.
From Verif Require Import Base Arr Median Flags_model Detect_model Detect_spec Summ_model Coadd_model Wavg_model Wavg_spec
  Joint_model Conf_model Mdet_model Mdet_spec Mcol_spec Mrun_model Mrun_spec Mrun_proofs Mrun_props Mlocal_spec Mlocal_proofs.
Import ListNotations.
Local Open Scope string_scope.
Local Open Scope Z_scope.

(** Two calls of do_metadetect on images of as many bands, without colours. In
    the tables of a type, the rows of an object that is found in both calls with
    the same detection record have the same fits, for every fitter, if the images
    of that type agree, in every band, under the stamp of the object. All pixels
    outside of it, and all other objects, are free. *)
Theorem C121_runs : forall x c main main' sbc dbc r r',
  reader_local x -> metacal_ok x c -> boxes_ok (st_meds c) -> sep_ok x ->
  all_one_shape main None -> all_one_shape main' None -> zlen main = zlen main' ->
  do_metadetect x c main sbc None None dbc = Ok (Some r) -> do_metadetect x c main' sbc None None dbc = Ok (Some r') ->
  exists md mcal mcal', construct (st_conf c) (zlen main) false false sbc dbc = Ok md /\
    tp_metacal x main = Ok mcal /\ tp_metacal x main' = Ok mcal' /\
    forall t m m', In (t, m) mcal -> In (t, m') mcal' -> exists blocks blocks',
      table r t = Some (match List.concat blocks with [] => None | l => Some l end) /\
      table r' t = Some (match List.concat blocks' with [] => None | l => Some l end) /\
      List.length blocks = List.length (combine (md_shear md) (md_det md)) /\
      List.length blocks' = List.length (combine (md_shear md) (md_det md)) /\
      forall k sd rows rows', nth_error (combine (md_shear md) (md_det md)) k = Some sd ->
        nth_error blocks k = Some rows -> nth_error blocks' k = Some rows' ->
        exists objs seg objs' seg', found x (md_nodet md) m (snd sd) objs seg /\ found x (md_nodet md) m' (snd sd) objs' seg' /\
          List.length rows = List.length objs /\ List.length rows' = List.length objs' /\
          forall i i' no dr dr' b, nth_error objs i = Some no -> nth_error objs' i' = Some no ->
            nth_error rows i = Some dr -> nth_error rows' i' = Some dr' ->
            stamp_size x (st_meds c) (snd no) b -> same_stamps (d_y (snd no)) (d_x (snd no)) b seg seg' m m' ->
            r_fits dr = r_fits dr'.
Proof. exact runs_local. Qed.
Print Assumptions C121_runs.

(** The same for single rows (C88), also with colours: neither the main images,
    the colours, the key nor the detection bands matter. *)
Theorem C121_row : forall x c md main main' color color' key key' sb db db' t t' m m' seg seg' n no r r' b R C,
  reader_local x -> has_shape m R C -> stamp_size x (st_meds c) (snd no) b ->
  same_stamps (d_y (snd no)) (d_x (snd no)) b seg seg' m m' ->
  object_row x c md main color key sb db t m seg n no r ->
  object_row x c md main' color' key' sb db' t' m' seg' n no r' -> r_fits r = r_fits r'.
Proof. exact row_local. Qed.
Print Assumptions C121_row.

(** ** The setting of Mrun_props, with a reader that reads arrays *)
Definition stored {A} (d : A) (im : img A) : img A :=
  let l := pixels im in let n := nc im in mkImg (nr im) n (fun i j => nth (Z.to_nat (i * n + j)) l d).
Definition read7 (wt : string) (cut : string -> outcome (img Detect_model.num)) (e : cat_entry) (jac : Z) (pc : Q * Q)
  (p : img Q) : outcome (list fobs) :=
  read6 wt (fun t => do s <- cut t; Ok (stored (F 0) s)) e jac pc (stored 0%Q p).
Definition third7 : third :=
  mkThird (tp_sep third6) read7 (tp_metacal third6) (tp_psf third6) (tp_go third6) (tp_go_psf third6) (tp_ng third6) (tp_mk third6)
    (tp_toT third6) (tp_sqrt third6) (tp_boot third6) (tp_am_psf third6) (tp_am third6) (tp_unshear third6) (tp_aper third6)
    (tp_fwhm_fac third6).
Lemma stored_same : forall A (d : A) im im', same_pixels im im' -> stored d im = stored d im'.
Proof.
  intros A d im im' (N & M & P). unfold stored. assert (E : pixels im = pixels im').
  { unfold pixels. rewrite <- N, <- M. apply map_ext_in. intros [i j] Hi. apply P. apply in_coords in Hi. exact Hi. }
  cbv zeta. rewrite E, N, M. reflexivity.
Qed.
Lemma read7_local : reader_local third7.
Proof.
  intros wt cut cut' e e' j pc p p' Hc _ Hp. cbn [tp_read third7]. unfold read7, read6. rewrite (stored_same _ 0%Q p p' Hp).
  assert (E : forall t, (do s <- cut t; Ok (stored (F 0) s)) = (do s <- cut' t; Ok (stored (F 0) s))).
  { intro t. destruct (Hc t) as [(s & s' & -> & -> & S)|(ex & -> & ->)]; cbn [obind]; [rewrite (stored_same _ _ s s' S)|]; reflexivity. }
  rewrite (E "image"), (E "weight"), (E "bmask"). reflexivity.
Qed.
Lemma metacal7_ok : forall fl, metacal_ok third7 (settings6 fl).
Proof. exact metacal6_ok. Qed.
Lemma sep7_ok : sep_ok third7.
Proof. exact sep6_ok. Qed.

(** The pixel at (1, 1) changes: it is under the stamp of the second object but
    not under that of the first one. *)
Definition obs7 (q : Q) (bits : Z) : obs :=
  mkObs (mkImg 6 6 (fun i j => if (i =? 3) && (j =? 3) then q else if (i =? 1) && (j =? 1) then 40%Q else 1%Q)) (ifill 6 6 2%Q)
    (mkImg 6 6 (fun i j => if (i =? 5) && (j =? 0) then bits else 0)) (ifill 6 6 0) None None 1 (ifill 3 3 1%Q).
Definition other7 : mbo := [[obs7 5 1]; [obs7 7 0]].
Lemma other7_shape : has_shape other7 6 6.
Proof.
  split; [lia|]. split; [lia|]. intros ol [<-|[<-|[]]]; eexists; (split; [reflexivity|]); cbn; repeat split; intros; discriminate.
Qed.
Definition run7 (main : mbo) := do_metadetect third7 (settings6 0) main (Some [[0; 1]; [1]]) None None DetShear.
Lemma first_same : same_stamps 3 3 4 seg6 seg6 main6 other7 /\ ~ same_stamps 0 1 4 seg6 seg6 main6 other7.
Proof.
  assert (S : forall A (im : img A) y xx b, same_under y xx b im im) by (intros; repeat split; reflexivity).
  assert (P : forall A (im : img A), same_pixels im im) by (intros; repeat split; reflexivity).
  split.
  - assert (G : forall q b, same_obs_under 3 3 4 (obs6 q b) (obs7 q b)).
    { intros q b. split; [|split; [apply S|split; [apply S|split; [left; split; reflexivity|split; [reflexivity|apply P]]]]].
      split; [reflexivity|]. split; [reflexivity|]. intros i j _ [Hi _]. change (first_pixel 3 4) with 2 in Hi. cbn [px ob_image obs6 obs7].
      destruct (Z.eqb_spec i 1); [lia|]. reflexivity. }
    split; [|apply S]. constructor; [|constructor; [|constructor]]; do 2 eexists; (split; [reflexivity|]); (split; [reflexivity|]); (split; [apply G|]); split; reflexivity.
  - intros [H _]. inversion H as [|? ? ? ? X _]; subst. destruct X as (o & o' & E & E' & ((_ & _ & Hp) & _) & _).
    injection E as <-. injection E' as <-. specialize (Hp 1 1). cbn in Hp. assert (X : 1%Q = 40%Q); [apply Hp|discriminate X].
    + unfold inside. cbn. lia.
    + unfold under_stamp. change (first_pixel 0 4) with 0. change (first_pixel 1 4) with 0. lia.
Qed.
(** The band fluxes of the first two rows of "noshear". *)
Definition first_fluxes (r : results row) :=
  match shown (Ok (Some r)) with Some ((_, l) :: _) => map (fun d => map snd (snd d)) (firstn 2 l) | _ => [] end.
Example C121_example : reader_local third7 /\ metacal_ok third7 (settings6 0) /\ boxes_ok (st_meds (settings6 0)) /\ sep_ok third7 /\
  all_one_shape main6 None /\ all_one_shape other7 None /\ zlen main6 = zlen other7 /\
  stamp_size third7 (st_meds (settings6 0)) (obj6 3 3) 4 /\ same_stamps 3 3 4 seg6 seg6 main6 other7 /\
  exists r r', run7 main6 = Ok (Some r) /\ run7 other7 = Ok (Some r') /\
  first_fluxes r = [[[Some 5; Some 7]; [Some 5; Some 7]]; [[Some 1; Some 1]; [Some 1; Some 1]]]%Q /\
  first_fluxes r' = [[[Some 5; Some 7]; [Some 5; Some 7]]; [[Some 40; Some 40]; [Some 40; Some 40]]]%Q.
Proof.
  split; [exact read7_local|]. split; [apply metacal7_ok|]. split; [apply boxes6_ok|]. split; [exact sep7_ok|]. split; [exact none_shape|].
  split; [exists 6, 6; split; [exact other7_shape|intros d k m H; discriminate H]|]. split; [reflexivity|].
  split.
  { exists 18. split.
    - right. split; [reflexivity|]. exists 4%Q. split; [split; [|split; [|left; reflexivity]]; unfold Qle; cbn; lia|].
      split; intro H; [split|exfalso; apply H; reflexivity]. { vm_compute. discriminate. } { vm_compute. reflexivity. }
    - split; [right; reflexivity|]. split; [unfold into_range; cbn; lia|]. intros s [[_ Hs]|Hs] Hw; cbn in *; lia. }
  split; [exact (proj1 first_same)|].
  destruct (table_of (run7 main6)) as [r E]; [vm_compute; reflexivity|]. destruct (table_of (run7 other7)) as [r' E']; [vm_compute; reflexivity|].
  exists r, r'. split; [exact E|]. split; [exact E'|]. unfold first_fluxes. split; [rewrite <- E|rewrite <- E']; vm_compute; reflexivity.
Qed.
