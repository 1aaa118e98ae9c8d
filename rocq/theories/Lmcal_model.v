(** Model of metadetect/lsst/metacal_exposures.py. Pixel values are rational
    numbers. The image operations of galsim and the stack are arguments: the psf
    kernel image of an exposure and its jacobian (at the integer centre), the
    target psf, its dilation and its drawing, and the drawing of the deconvolved,
    sheared and reconvolved image, which fills a copy of its input image. *)
From Coq Require Import ZArith QArith List String Bool.
From Verif Require Import Base Arr Dict Median.
Import ListNotations.
Local Open Scope string_scope.
Local Open Scope Z_scope.

(** metacal_exposures.py:12,14. *)
Definition DEFAULT_TYPES : list string := ["noshear"; "1p"; "1m"].
Definition STEP : Q := (1 # 100)%Q.

(** metacal_exposures.py:260-284, get_shear_from_type: (g1, g2). *)
Definition get_shear_from_type (t : string) : outcome (Q * Q) :=
  if String.eqb t "1p" then Ok (STEP, 0%Q)
  else if String.eqb t "1m" then Ok (- STEP, 0)%Q
  else if String.eqb t "2p" then Ok (0%Q, STEP)
  else if String.eqb t "2m" then Ok (0, - STEP)%Q
  else Raise ValueError.

(** One band's psf_stats. *)
Record pstats := mkPs { ps_e1 : Q; ps_e2 : Q; ps_T : Q }.

(** exp, as far as it is used: its planes, its psf, its band, and the rest (wcs,
    box, filter). A variance is a number or infinite (None). *)
Record exposure (PSF I : Type) := mkE { e_image : img Q; e_var : img (option Q); e_mask : img Z; e_psf : PSF; e_band : string; e_info : I }.
Arguments mkE {PSF I}. Arguments e_image {PSF I}. Arguments e_var {PSF I}. Arguments e_mask {PSF I}. Arguments e_psf {PSF I}.
Arguments e_band {PSF I}. Arguments e_info {PSF I}.

(** The third party operations. W: wcs; P: psf profiles. *)
Record galsim (PSF I W P : Type) := mkG {
  g_jac : exposure PSF I -> outcome W;
  g_kernel : exposure PSF I -> outcome (img Q);
  g_dilation : Q -> Q -> Q -> Q;                 (* _get_ellip_dilation(e1, e2, T) *)
  g_gaussian : Q -> Q -> outcome P;              (* galsim.Gaussian, from sigma squared and flux *)
  g_target : img Q -> W -> Q -> outcome P;       (* _get_gauss_target_psf *)
  g_dilate : P -> Q -> P;
  g_drawpsf : P -> img Q -> W -> img Q;
  g_draw : img Q -> W -> img Q -> option (Q * Q) -> P -> outcome (img Q);
  g_stackpsf : img Q -> PSF                      (* util.get_stack_kernel_psf *)
}.
Arguments mkG {PSF I W P}. Arguments g_jac {PSF I W P}. Arguments g_kernel {PSF I W P}. Arguments g_dilation {PSF I W P}.
Arguments g_gaussian {PSF I W P}. Arguments g_target {PSF I W P}. Arguments g_dilate {PSF I W P}. Arguments g_drawpsf {PSF I W P}.
Arguments g_draw {PSF I W P}. Arguments g_stackpsf {PSF I W P}.

Section M.
Context {PSF I W P : Type} (g : galsim PSF I W P).
Notation exposure := (exposure PSF I).

(** metacal_exposures.py:327-335, _get_fitgauss_target_psf. *)
Definition get_fitgauss_target_psf (s : pstats) (flux : Q) : outcome P :=
  let dilation := g_dilation g (ps_e1 s) (ps_e2 s) (ps_T s) in
  g_gaussian g (ps_T s * dilation / 2)%Q flux.

(** metacal_exposures.py:232-257, _get_metacal_exp. [image] is already rotated
    when [rot] is set; drawing keeps its shape, so the assignment fits. *)
Definition get_metacal_exp (exp : exposure) (image : img Q) (gwcs : W) (psf_image : img Q) (psf_dilated : P) (psf_dilated_image : img Q)
    (shear_type : string) (rot : bool) : outcome exposure :=
  do shear <- (if String.eqb shear_type "noshear" then Ok None
               else do s <- get_shear_from_type shear_type; Ok (Some s));
  do shimage <- g_draw g image gwcs psf_image shear psf_dilated;
  let simage := if rot then rot270 shimage else shimage in
  Ok (mkE simage (e_var exp) (e_mask exp) (g_stackpsf g psf_dilated_image) (e_band exp) (e_info exp)).

(** metacal_exposures.py:155-229, get_metacal_exps. *)
Definition get_metacal_exps (exp : exposure) (psf_stats : option pstats) (types : option (list string)) (rot : bool)
  : outcome (list (string * exposure)) :=
  let types := match types with None => DEFAULT_TYPES | Some l => l end in
  do gwcs <- g_jac g exp;
  do psf_image <- g_kernel g exp;
  let psf_flux := qsum (pixels psf_image) in
  let image := if rot then rot90 (e_image exp) else e_image exp in
  do gauss_psf <- match psf_stats with
                  | Some s => get_fitgauss_target_psf s psf_flux
                  | None => g_target g psf_image gwcs psf_flux
                  end;
  let dilation := (1 + 2 * STEP)%Q in
  let psf_dilated := g_dilate g gauss_psf dilation in
  let psf_dilated_image := g_drawpsf g psf_dilated psf_image gwcs in
  ofold (fun mdict t =>
      do e <- get_metacal_exp exp image gwcs psf_image psf_dilated psf_dilated_image t rot;
      Ok (sput t e mdict))
    types [].

(** exp.image.array += nexp.image.array; exp.variance.array *= 2. Simplification:
    the two images have one shape, otherwise numpy raises. *)
Definition fix_exp (exp nexp : exposure) : exposure :=
  mkE (imap2 Qplus (e_image exp) (e_image nexp)) (imap (option_map (fun v => (v * 2)%Q)) (e_var exp)) (e_mask exp) (e_psf exp) (e_band exp) (e_info exp).
Definition dget {V} (k : string) (d : list (string * V)) : outcome V :=
  match sget k d with Some v => Ok v | None => Raise KeyError end.

(** metacal_exposures.py:115-152, get_metacal_exps_fixnoise. *)
Definition get_metacal_exps_fixnoise (exp noise_exp : exposure) (psf_stats : option pstats) (types : option (list string))
  : outcome (list (string * exposure) * list (string * exposure)) :=
  let types := match types with None => DEFAULT_TYPES | Some l => l end in
  do mdict <- get_metacal_exps exp psf_stats (Some types) false;
  do noise_mdict <- get_metacal_exps noise_exp psf_stats (Some types) true;
  do mdict <- ofold (fun d t =>
      do e <- dget t d;
      do n <- dget t noise_mdict;
      Ok (sput t (fix_exp e n) d))
    types mdict;
  Ok (mdict, noise_mdict).

(** metacal_exposures.py:87-105: the exposures of the bands for each type, the
    exposure of the next band appended to the list of each type. [stats]: the
    remaining bands' statistics. *)
Fixpoint band_loop (mbexp : list exposure) (stats : option (list pstats)) (types : list string) (rot : bool)
    (lists : list (string * list exposure)) : outcome (list (string * list exposure)) :=
  match mbexp with
  | [] => Ok lists
  | exp :: rest =>
      do s <- match stats with None => Ok None | Some [] => Raise IndexError | Some (s :: _) => Ok (Some s) end;
      do this <- get_metacal_exps exp s (Some types) rot;
      do lists <- ofold (fun d te => do l <- dget (fst te) d; Ok (sput (fst te) (l ++ [snd te])%list d)) this lists;
      band_loop rest (option_map (@tl pstats) stats) types rot lists
  end.

(** metacal_exposures.py:55-112, get_metacal_mbexps. A MultibandExposure is the
    list of its bands' exposures; get_mbexp (util.py:390-412) keeps that list. *)
Definition get_metacal_mbexps (mbexp : list exposure) (types : option (list string)) (rot : bool) (psf_stats : option (list pstats))
  : outcome (list (string * list exposure)) :=
  let types := match types with None => DEFAULT_TYPES | Some l => l end in
  if match psf_stats with Some s => negb (zlen s =? zlen mbexp) | None => false end then Raise AssertionError
  else
    do lists <- band_loop mbexp psf_stats types rot (fold_left (fun d t => sput t [] d) types []);
    ofold (fun d t => do l <- dget t lists; Ok (sput t l d)) types [].

(** for exp, nexp in zip(...): the exposures of the first list afterwards. *)
Fixpoint fix_zip (l n : list exposure) : list exposure :=
  match l, n with
  | e :: l, ne :: n => fix_exp e ne :: fix_zip l n
  | l, _ => l
  end.
(** metacal_exposures.py:17-52, get_metacal_mbexps_fixnoise. *)
Definition get_metacal_mbexps_fixnoise (mbexp noise_mbexp : list exposure) (types : option (list string)) (psf_stats : option (list pstats))
  : outcome (list (string * list exposure) * list (string * list exposure)) :=
  do mdict <- get_metacal_mbexps mbexp types false psf_stats;
  do noise_mdict <- get_metacal_mbexps noise_mbexp types true psf_stats;
  do mdict <- ofold (fun d t =>
      do l <- dget t d;
      do n <- dget t noise_mdict;
      Ok (sput t (fix_zip l n) d))
    (skeys mdict) mdict;
  Ok (mdict, noise_mdict).
End M.
