(** Specification vocabulary for C65, C73. *)
From Coq Require Import ZArith QArith List String Bool.
From Verif Require Import Base Dict Lutil_model Lutil_spec Lthr_model.
Import ListNotations.
Local Open Scope string_scope.

(** The detection configuration of the stack has the fields the package sets. *)
Definition stack_ok (stack : cfg) : Prop := forall k a, In (k, a) detect_settings -> exists b, value_at stack [k] = Some b.

(** The threshold in the detection section of a user's dictionary, under either of
    its names. *)
Definition user_threshold (d : items) : option atom :=
  match given (ODict d) ["detect"; "thresh"] with
  | Some a => Some a
  | None => given (ODict d) ["detect"; "thresholdValue"]
  end.
(** Not under both names. *)
Definition one_name (d : items) : Prop :=
  forall l, sget "detect" d = Some (ODict l) -> ~ (In "thresh" (skeys l) /\ In "thresholdValue" (skeys l)).

(** The threshold that is used when the requested one is [t]: a requested zero
    counts as no request. *)
Definition effective (t : atom) : atom := if truthy t then t else DEFAULT_THRESH.

(** The values that count as false. *)
Inductive false_value : atom -> Prop :=
| false_none : false_value ANone
| false_bool : false_value (ABool false)
| false_int : false_value (AInt 0)
| false_float : forall q, (q == 0)%Q -> false_value (AFloat q)
| false_string : false_value (AStr "")
| false_names : false_value (ANames []).

(** The detection settings of the package that no argument changes (the threshold
    is the only other one). *)
Definition fixed_settings : list (string * atom) :=
  [("thresholdType", AStr "stdev"); ("thresholdPolarity", AStr "positive"); ("minPixels", AInt 1);
   ("isotropicGrow", ABool true); ("combinedGrow", ABool true); ("nSigmaToGrow", AFloat (24 # 10));
   ("returnOriginalFootprints", ABool false); ("includeThresholdMultiplier", AFloat 1);
   ("adjustBackground", AFloat 0); ("doApplyFlatBackgroundRatio", ABool false); ("nPeaksMaxSimple", AInt 1);
   ("nSigmaForKernel", AFloat 7); ("reEstimateBackground", ABool false);
   ("excludeMaskPlanes", ANames ["EDGE"; "NO_DATA"; "BRIGHT"]);
   ("statsMask", ANames ["BAD"; "EDGE"; "DETECTED"; "DETECTED_NEGATIVE"; "NO_DATA"; "BRIGHT"])].

(** The section of a dictionary for the sky subtraction with the same properties
    as a dictionary for the detection. *)
Definition sky_section (d : items) : items :=
  match sget "iterate_detection_and_skysub" d with Some (ODict l) => l | _ => [] end.

(** The threshold that is used when [t] is requested: a requested zero counts as
    no request. *)
Definition used_for (t used : atom) : Prop := (~ false_value t /\ used = t) \/ (false_value t /\ used = AFloat 5).
