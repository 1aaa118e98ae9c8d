(** What C63 says, for one exposure, one type and one pixel. *)
From Coq Require Import ZArith QArith List String Bool.
From Verif Require Import Base Arr Dict Median Lmcal_model.
Import ListNotations.
Local Open Scope string_scope.
Local Open Scope Z_scope.

(** The documented shear of each type; no entry: the type is not known. *)
Definition documented : list (string * option (Q * Q)) :=
  [("noshear", None); ("1p", Some (1 # 100, 0)%Q); ("1m", Some (- (1 # 100), 0)%Q); ("2p", Some (0, 1 # 100)%Q); ("2m", Some (0, - (1 # 100))%Q)].
(** The requested types: the default ones if none are given. *)
Definition requested (types : option (list string)) : list string :=
  match types with None => ["noshear"; "1p"; "1m"] | Some l => l end.

Section S.
Context {PSF I W P : Type} (g : galsim PSF I W P).

(** The target psf: from the statistics of the band's psf if they are given, else
    from the psf image; dilated by twice the shear. *)
Definition is_target (exp : exposure PSF I) (stats : option pstats) (p : P) : Prop :=
  exists w k t, g_jac g exp = Ok w /\ g_kernel g exp = Ok k /\ p = g_dilate g t (102 # 100)%Q /\
    let flux := qsum (pixels k) in
    match stats with
    | None => g_target g k w flux = Ok t
    | Some s => g_gaussian g (ps_T s * g_dilation g (ps_e1 s) (ps_e2 s) (ps_T s) / 2)%Q flux = Ok t
    end.
(** [im'] is [im], deconvolved by the exposure's psf, sheared and reconvolved. *)
Definition sheared (exp : exposure PSF I) (stats : option pstats) (shear : option (Q * Q)) (im im' : img Q) : Prop :=
  exists w k p, g_jac g exp = Ok w /\ g_kernel g exp = Ok k /\ is_target exp stats p /\ g_draw g im w k shear p = Ok im'.
(** The metacal image: the sheared image, or with [rot] the sheared quarter turn
    of the image turned back. *)
Definition metacal_image (exp : exposure PSF I) (stats : option pstats) (shear : option (Q * Q)) (rot : bool) (im' : img Q) : Prop :=
  if rot then exists m, sheared exp stats shear (rot90 (e_image exp)) m /\ im' = rot270 m
  else sheared exp stats shear (e_image exp) im'.
(** The metacal exposure: only the image and the psf are new. *)
Definition metacal_exp (exp : exposure PSF I) (stats : option pstats) (shear : option (Q * Q)) (rot : bool) (e' : exposure PSF I) : Prop :=
  metacal_image exp stats shear rot (e_image e') /\
  (exists p k w, is_target exp stats p /\ g_kernel g exp = Ok k /\ g_jac g exp = Ok w /\ e_psf e' = g_stackpsf g (g_drawpsf g p k w)) /\
  e_var e' = e_var exp /\ e_mask e' = e_mask exp /\ e_band e' = e_band exp /\ e_info e' = e_info exp.
(** Twice a variance; infinity stays. *)
Definition twice (v v' : option Q) : Prop :=
  match v, v' with Some a, Some b => (b == 2 * a)%Q | None, None => True | _, _ => False end.
(** The fixed noise exposure [e'] of data exposure [d] and noise exposure [n]:
    images added, variance twice that of the data. *)
Definition fixed (d n e' : exposure PSF I) : Prop :=
  nr (e_image e') = nr (e_image d) /\ nc (e_image e') = nc (e_image d) /\
  nr (e_var e') = nr (e_var d) /\ nc (e_var e') = nc (e_var d) /\
  (forall i j, px (e_image e') i j == px (e_image d) i j + px (e_image n) i j)%Q /\
  (forall i j, twice (px (e_var d) i j) (px (e_var e') i j)) /\
  e_mask e' = e_mask d /\ e_psf e' = e_psf d /\ e_band e' = e_band d /\ e_info e' = e_info d.

(** The bands with their statistics. *)
Definition with_stats (mbexp : list (exposure PSF I)) (stats : option (list pstats)) : list (exposure PSF I * option pstats) :=
  match stats with None => map (fun e => (e, None)) mbexp | Some s => combine mbexp (map Some s) end.
End S.

(** Drawing into a copy of the image keeps its shape. *)
Definition draw_shape {PSF I W P} (g : galsim PSF I W P) : Prop :=
  forall im w k s p im', g_draw g im w k s p = Ok im' -> nr im' = nr im /\ nc im' = nc im.
