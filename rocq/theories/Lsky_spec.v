(** What C64 says: the exposure after a number of complete iterations. *)
From Coq Require Import ZArith QArith List.
From Verif Require Import Base Arr Median Lsky_model.
Import ListNotations.
Local Open Scope Z_scope.

(** The image [im'] is [im] lowered by the sum of the backgrounds. *)
Definition lowered_by (im : img Q) (bgs : list (img Q)) (im' : img Q) : Prop :=
  nr im' = nr im /\ nc im' = nc im /\
  forall i j, (px im' i j == px im i j - qsum (map (fun b => px b i j) bgs))%Q.

(** One iteration: the background [bg] of [e] is subtracted, then the objects are
    detected with result [r]. *)
Definition one_iteration {Res} (back : exposure -> failure + img Q) (detect : exposure -> img Z * (failure + Res * option (img Q)))
    (e : exposure) (bg : img Q) (r : Res) (e' : exposure) : Prop :=
  back e = inr bg /\
  let e1 := mkX (lowered (x_image e) bg) (x_mask e) (Some (mean bg)) in
  exists m, detect e1 = (m, inr (r, None)) /\ e' = mkX (x_image e1) m (x_bgmean e1).
(** Iterations one after the other, with their backgrounds and results. *)
Inductive iterations {Res} (back : exposure -> failure + img Q) (detect : exposure -> img Z * (failure + Res * option (img Q))) :
    exposure -> list (img Q * Res) -> exposure -> Prop :=
| it_none : forall e, iterations back detect e [] e
| it_more : forall e l e1 bg r e2, iterations back detect e l e1 -> one_iteration back detect e1 bg r e2 ->
    iterations back detect e (l ++ [(bg, r)])%list e2.

(** The detection does not re-estimate the background (the default). *)
Definition no_reestimate {Res} (detect : exposure -> img Z * (failure + Res * option (img Q))) : Prop :=
  forall e m r bg, detect e = (m, inr (r, bg)) -> bg = None.
(** Backgrounds have the image's shape. *)
Definition back_shape (back : exposure -> failure + img Q) : Prop :=
  forall e bg, back e = inr bg -> nr bg = nr (x_image e) /\ nc bg = nc (x_image e).
