(** What C103 and C104 say. *)
From Coq Require Import ZArith QArith List String Bool.
From Verif Require Import Base Arr Flags_model Coadd_model Wavg_model Joint_model Jrun_model.
Import ListNotations.
Local Open Scope Z_scope.

(** Every stamp of the objects has the pixel scale [s]. *)
Definition one_scale (scale_of : Z -> Q) (s : Q) (l : list (list (list fobs))) : Prop :=
  forall m ol o, In m l -> In ol m -> In o ol -> scale_of (f_jac o) = s.
(** The fit was made with one flux prior for each of the stamps, and with a
    position prior as wide as a pixel of the first of them. *)
Definition suited (scale_of : Z -> Q) (r : runner) (mb : list (list fobs)) : Prop :=
  List.length (pr_F (ru_prior r)) = List.length mb /\
  match mb with
  | (o :: _) :: _ => pr_sigma (ru_prior r) = (scale_of (f_jac o), scale_of (f_jac o))
  | _ => True
  end.
