(** Model of metadetect/lsst/masking.py. Pixel values are real numbers; the mask
    planes' bits are parameters (looked up by name in the stack). All planes are
    taken to have the shape of the first band's image. *)
From Coq Require Import ZArith Reals List String Bool.
From Verif Require Import Base Arr Dict Masking_model.
Import ListNotations.
Local Open Scope string_scope.
Local Open Scope Z_scope.

(** lsst/masking.py:3-4. *)
Definition EXPAND_RAD : R := 16%R.
Definition AP_RAD : R := (3 / 2)%R.

(** An exposure; a variance of None is infinite. *)
Record exposure := mkExp { e_image : img R; e_var : img (option R); e_mask : img Z }.
(** The arguments: data, noise, masked fractions (each a dictionary by band) and
    the list of or-masks. All are changed in place. *)
Record world := mkWorld {
  w_exp : list (string * exposure);
  w_noise : option (list (string * exposure));
  w_mfrac : option (list (string * img R));
  w_ormasks : option (list (img Z))
}.

(** d[k] *)
Definition dget {V} (k : string) (d : list (string * V)) : outcome V :=
  match sget k d with Some v => Ok v | None => Raise KeyError end.
(** d[k] changed in place. *)
Definition dmod {V} (f : V -> V) (k : string) (d : list (string * V)) : outcome (list (string * V)) :=
  do v <- dget k d; Ok (sput k (f v) d).
(** The same for a dictionary that may be missing. *)
Definition dmod_opt {V} (f : V -> V) (k : string) (d : option (list (string * V))) : outcome (option (list (string * V))) :=
  match d with None => Ok None | Some d => do d <- dmod f k d; Ok (Some d) end.

(** lsst/masking.py:45-48 and 120-123. *)
Definition apodize_exp (ap_mask : img R) (msk : img bool) (bit : Z) (e : exposure) : exposure :=
  mkExp (upd_where msk (fun i j v => (v * px ap_mask i j)%R) (e_image e))
        (upd_where msk (fun _ _ _ => None) (e_var e))
        (upd_where msk (fun _ _ v => Z.lor v bit) (e_mask e)).
(** lsst/masking.py:40-55 and 114-130, one band. *)
Definition apodize_band (ap_mask : img R) (msk : img bool) (bit : Z) (w : world) (band : string) : outcome world :=
  do exps <- dmod (apodize_exp ap_mask msk bit) band (w_exp w);
  do noise <- dmod_opt (apodize_exp ap_mask msk bit) band (w_noise w);
  let ormasks := option_map (map (upd_where msk (fun _ _ v => Z.lor v bit))) (w_ormasks w) in
  do mfrac <- dmod_opt (upd_where msk (fun _ _ _ => 1%R)) band (w_mfrac w);
  Ok (mkWorld exps noise mfrac ormasks).
Fixpoint over (f : world -> string -> outcome world) (bands : list string) (w : world) : outcome world :=
  match bands with [] => Ok w | b :: r => do w <- f w b; over f r w end.
Definition apodize_all (ap_mask : img R) (bit : Z) (w : world) : outcome world :=
  let msk := imap (fun v => Rltb v 1) ap_mask in
  if img_any (fun b => b) msk then over (apodize_band ap_mask msk bit) (skeys (w_exp w)) w else Ok w.

(** mbexp[bands[0]] *)
Definition first_exp (w : world) : outcome exposure :=
  match w_exp w with (_, e) :: _ => Ok e | [] => Raise IndexError end.

(** lsst/masking.py:7-56. *)
Definition apply_edge (edge : Z) (w : world) : outcome world :=
  do e0 <- first_exp w;
  apodize_all (build_square_apodization_mask AP_RAD (ifill (nr (e_image e0)) (nc (e_image e0)) 1%R)) edge w.

(** lsst/masking.py:143-155, one band. *)
Definition expand_exp (bmask : img Z) (e : exposure) : exposure := mkExp (e_image e) (e_var e) (imap2 Z.lor (e_mask e) bmask).
Definition expand_band (bmask : img Z) (w : world) (band : string) : outcome world :=
  do exps <- dmod (expand_exp bmask) band (w_exp w);
  do noise <- dmod_opt (expand_exp bmask) band (w_noise w);
  let ormasks := option_map (map (fun o => imap2 Z.lor o bmask)) (w_ormasks w) in
  Ok (mkWorld exps noise (w_mfrac w) ormasks).

(** One row of bright_info. *)
Record bright := mkBright { br_ra : R; br_dec : R; br_rad : R }.
(** lsst/masking.py:86-101: positions in the local coordinate system. [wcs]:
    skyToPixel of the first band; [xy0]: the position of its first pixel. *)
Definition local_hole (wcs : R -> R -> R * R) (xy0 : Z * Z) (b : bright) : hole :=
  mkHole (fst (wcs (br_ra b) (br_dec b)) - IZR (fst xy0))%R (snd (wcs (br_ra b) (br_dec b)) - IZR (snd xy0))%R (br_rad b).

(** lsst/masking.py:59-155. *)
Definition apply_bright (wcs : R -> R -> R * R) (xy0 : Z * Z) (bright_info : list bright) (bright bright_expanded : Z) (w : world)
  : outcome world :=
  do e0 <- first_exp w;
  let holes := map (local_hole wcs xy0) bright_info in
  let rows := nr (e_image e0) in
  let cols := nc (e_image e0) in
  do ap_mask <- make_foreground_apodization_mask holes rows cols false AP_RAD;
  do w <- apodize_all ap_mask bright w;
  do ex <- make_foreground_bmask (map (fun h => mkHole (h_x h) (h_y h) (h_r h + EXPAND_RAD)%R) holes) rows cols false bright_expanded;
  if img_any (fun z => negb (z =? 0)) ex then over (expand_band ex) (skeys (w_exp w)) w else Ok w.
