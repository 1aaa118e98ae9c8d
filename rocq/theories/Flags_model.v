(** Model of metadetect/procflags.py. *)
From Coq Require Import ZArith List String Bool.
From Verif Require Import Base.
Import ListNotations.
Local Open Scope string_scope.
Local Open Scope Z_scope.

(** procflags.py:8-19, the module level flag names. *)
Inductive procflag : Type :=
| SHEAR_RANGE_ERROR | EDGE_HIT | PSF_FAILURE | OBJ_FAILURE
| NOMOMENTS_FAILURE | BAD_BBOX | ZERO_WEIGHTS | NO_DATA | MISSING_BAND
| INCONSISTENT_BANDS | CENTROID_FAILURE | DEBLEND_FAILURE.

(** procflags.py:8-19, the values ([2**k]). *)
Definition flag_value (f : procflag) : Z :=
  match f with
  | SHEAR_RANGE_ERROR => 2 ^ 19
  | EDGE_HIT => 2 ^ 20
  | PSF_FAILURE => 2 ^ 21
  | OBJ_FAILURE => 2 ^ 22
  | NOMOMENTS_FAILURE => 2 ^ 23
  | BAD_BBOX => 2 ^ 24
  | ZERO_WEIGHTS => 2 ^ 25
  | NO_DATA => 2 ^ 26
  | MISSING_BAND => 2 ^ 27
  | INCONSISTENT_BANDS => 2 ^ 28
  | CENTROID_FAILURE => 2 ^ 29
  | DEBLEND_FAILURE => 2 ^ 30
  end.

(** procflags.py:23-37, the descriptive strings. *)
Definition flag_name (f : procflag) : string :=
  match f with
  | SHEAR_RANGE_ERROR => "shear is out of range (abs(g) > 1 or abs(g_1,2) > 1)"
  | EDGE_HIT => "bbox hit edge"
  | PSF_FAILURE => "PSF fit failed"
  | OBJ_FAILURE => "object fit failed"
  | NOMOMENTS_FAILURE => "no moments"
  | BAD_BBOX => "problem making bounding box"
  | ZERO_WEIGHTS => "weights all zero"
  | NO_DATA => "no data"
  | MISSING_BAND => "missing data in one or more bands"
  | INCONSISTENT_BANDS =>
      "# of bands for PSF vs shear vs flux is not correct or there was a stamp coadding issue"
  | CENTROID_FAILURE => "finding the centroid failed"
  | DEBLEND_FAILURE => "The deblending failed"
  end.

(** procflags.py:23-37, order of the assignments to NAME_MAP. *)
Definition all_flags : list procflag :=
  [SHEAR_RANGE_ERROR; EDGE_HIT; PSF_FAILURE; OBJ_FAILURE;
   NOMOMENTS_FAILURE; BAD_BBOX; ZERO_WEIGHTS; NO_DATA; MISSING_BAND;
   INCONSISTENT_BANDS; CENTROID_FAILURE; DEBLEND_FAILURE].

(** The keys and values of NAME_MAP are ints or strings (procflags.py:22-40). *)
Inductive key : Type := KInt (z : Z) | KStr (s : string).

Definition key_eqb (a b : key) : bool :=
  match a, b with
  | KInt x, KInt y => Z.eqb x y
  | KStr x, KStr y => String.eqb x y
  | _, _ => false
  end.

(** A Python dict: association list in insertion order. [dict_set] models
    [d[k] = v]: an existing key keeps its place. *)
Definition dict := list (key * key).

Fixpoint dict_get (d : dict) (k : key) : option key :=
  match d with
  | [] => None
  | (k', v) :: r => if key_eqb k' k then Some v else dict_get r k
  end.

Fixpoint dict_set (d : dict) (k v : key) : dict :=
  match d with
  | [] => [(k, v)]
  | (k', v') :: r => if key_eqb k' k then (k', v) :: r else (k', v') :: dict_set r k v
  end.

(** procflags.py:22-37: copy the ngmix table, then assign each flag. *)
Definition name_map_forward (ngmix_map : dict) : dict :=
  fold_left (fun d f => dict_set d (KInt (flag_value f)) (KStr (flag_name f)))
            all_flags ngmix_map.

(** procflags.py:39-40: [for k, v in list(NAME_MAP.items()): NAME_MAP[v] = k]. *)
Definition name_map (ngmix_map : dict) : dict :=
  let d := name_map_forward ngmix_map in
  fold_left (fun d' kv => dict_set d' (snd kv) (fst kv)) d d.

(** ngmix.flags.get_flags_str (third party, called at procflags.py:56): for
    each of the 32 bits of [val], in order, the table's description, or a
    generic text when the table has no entry. Assumed behaviour of ngmix; the
    pieces are returned as a list, ngmix joins them with "|". *)
Definition get_flags_pieces (val : Z) (nm : dict) : list key :=
  flat_map
    (fun p =>
       let fval := 2 ^ p in
       if negb (Z.land val fval =? 0) then
         [match dict_get nm (KInt fval) with
          | Some v => v
          | None => KInt p      (* stands for the text "bit 2**p" *)
          end]
       else [])
    (zrange 32).

(** procflags.py:43-56. *)
Definition get_procflags_pieces (ngmix_map : dict) (val : Z) : list key :=
  get_flags_pieces val (name_map ngmix_map).

(** How the code builds a flag column value: [flags |= FLAG] for each failure,
    starting from an ngmix flag value (e.g. fitting.py:1262-1316). *)
Definition or_flags (low : Z) (fs : list procflag) : Z :=
  fold_left (fun v f => Z.lor v (flag_value f)) fs low.
