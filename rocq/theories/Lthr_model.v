(** Where the detection threshold and the other detection options come from:
    metadetect/lsst/measure.py get_detect_and_deblend_task, metadetect/lsst/skysub.py,
    metadetect/lsst/metadetect.py run_metadetect and MetadetectTask.run,
    metadetect/lsst/photometry.py run_photometry. *)
From Coq Require Import ZArith QArith List String Bool.
From Verif Require Import Base Dict Lutil_model.
Import ListNotations.
Local Open Scope string_scope.
Local Open Scope Z_scope.

(** python truth of a value *)
Definition truthy (a : atom) : bool :=
  match a with
  | ANone => false
  | ABool b => b
  | AInt z => negb (z =? 0)
  | AFloat q => negb (Qeq_bool q 0)
  | AStr s => negb (String.eqb s "")
  | ANames l => match l with [] => false | _ => true end
  end.

Definition items := list (string * ov).
(** d[k] for a dictionary value; a value that is no dictionary does not support
    item assignment. *)
Definition as_dict (o : ov) : outcome items :=
  match o with ODict l => Ok l | OLeaf _ => Raise TypeError end.

(** config_override['detect']['thresholdValue'] = thresh, making the dictionary
    first if it is not there (measure.py:293-296, skysub.py:190-192). *)
Definition put_threshold (d : items) (thresh : atom) : outcome items :=
  let sub := match sget "detect" d with Some o => o | None => ODict [] end in
  do l <- as_dict sub;
  Ok (sput "detect" (ODict (sput "thresholdValue" (OLeaf thresh) l)) d).

(** measure.py:48-60, SourceDetectionConfig: the attribute thresh of a detection
    configuration is its field thresholdValue. *)
Definition unalias_key (k : string) : string := if String.eqb k "thresh" then "thresholdValue" else k.
Definition unalias_detect (l : items) : items := map (fun kv => (unalias_key (fst kv), snd kv)) l.
(** The same for the dictionary under the key "detect". *)
Definition unalias (l : items) : items :=
  map (fun kv => match kv with
                 | (k, ODict d) => if String.eqb k "detect" then (k, ODict (unalias_detect d)) else (k, ODict d)
                 | (k, OLeaf a) => (k, OLeaf a)
                 end) l.
(** And for iterate_detection_and_skysub.detect. *)
Definition unalias_sky (l : items) : items :=
  map (fun kv => match kv with
                 | (k, ODict d) => if String.eqb k "iterate_detection_and_skysub" then (k, ODict (unalias d)) else (k, ODict d)
                 | (k, OLeaf a) => (k, OLeaf a)
                 end) l.

(** Fields that are set one by one; the stack has all of them. *)
Definition csets (c : cfg) (l : list (string * atom)) : cfg :=
  fold_left (fun c ka => cset c (fst ka) (CLeaf (snd ka))) l c.

(** defaults.py:11, DEFAULT_THRESH *)
Definition DEFAULT_THRESH : atom := AFloat 5.

(** The lists of util.py:894-944, get_stats_mask and get_detection_mask (their
    effect on the mask planes of the stack is in Lplane_model). *)
Definition STATS_MASK : list string := ["BAD"; "EDGE"; "DETECTED"; "DETECTED_NEGATIVE"; "NO_DATA"; "BRIGHT"].
Definition DETECTION_MASK : list string := ["EDGE"; "NO_DATA"; "BRIGHT"].

(** measure.py:86-145, DetectAndDeblendConfig.setDefaults. [stack]: the detection
    configuration of the stack before that. The fields of the measurement and
    deblending configurations are left out except maxFootprintArea and
    processSingles. *)
Definition detect_settings : list (string * atom) :=
  [("minPixels", AInt 1); ("isotropicGrow", ABool true); ("combinedGrow", ABool true);
   ("nSigmaToGrow", AFloat (24 # 10)); ("returnOriginalFootprints", ABool false);
   ("includeThresholdMultiplier", AFloat 1); ("thresholdPolarity", AStr "positive");
   ("adjustBackground", AFloat 0); ("doApplyFlatBackgroundRatio", ABool false);
   ("nPeaksMaxSimple", AInt 1); ("nSigmaForKernel", AFloat 7);
   ("excludeMaskPlanes", ANames DETECTION_MASK);
   ("thresholdType", AStr "stdev"); ("reEstimateBackground", ABool false);
   ("thresholdValue", DEFAULT_THRESH); ("statsMask", ANames STATS_MASK)].
Definition dd_defaults (stack : cfg) (deblender : string) : cfg :=
  CNode [("meas", CNode []);
         ("detect", csets stack detect_settings);
         ("deblend", CNode (if String.eqb deblender "scarlet"
                            then [("processSingles", CLeaf (ABool true)); ("maxFootprintArea", CLeaf (AInt 0))]
                            else [("maxFootprintArea", CLeaf (AInt 0))]));
         ("seed", CLeaf (AInt 42))].

(** measure.py:267-314, get_detect_and_deblend_task: the dictionary of the caller
    afterwards, and the configuration of the task. *)
Definition detect_and_deblend_config (stack : cfg) (thresh : atom) (deblender : string) (config : option items)
  : option items * outcome cfg :=
  let config_override := match config with Some d => d | None => [] end in
  let back d := match config with Some _ => Some d | None => None end in
  match (if truthy thresh then put_threshold config_override thresh else Ok config_override) with
  | Raise e =>
    (* 'detect' is there already, nothing was written *)
    (back config_override, Raise e)
  | Ok d =>
    (back d, match override (dd_defaults stack deblender) (ODict (unalias d)) with
             | (c, Ok _) => Ok c
             | (_, Raise e) => Raise e
             end)
  end.

(** skysub.py:18-44, 88-100: the defaults of the sky subtraction. The other fields
    of the background configuration are left out. *)
Definition iterate_defaults (stack : cfg) : cfg :=
  CNode [("niter", CLeaf (AInt 2));
         ("detect", csets stack [("reEstimateBackground", ABool false); ("thresholdValue", DEFAULT_THRESH)]);
         ("back", CNode [("ignoredPixelMask", CLeaf (ANames STATS_MASK))])].
Definition sky_defaults (stack : cfg) : cfg :=
  CNode [("iterate_detection_and_skysub", iterate_defaults stack)].

(** skysub.py:134-164, subtract_sky_mbexp *)
Definition sky_config (stack : cfg) (thresh : atom) (config : option items) : option items * outcome cfg :=
  let config_override := match config with Some d => d | None => [] end in
  let back d := match config with Some _ => Some d | None => None end in
  let key := "iterate_detection_and_skysub" in
  match (if truthy thresh then
           let sub := match sget key config_override with Some o => o | None => ODict [] end in
           do l <- as_dict sub; do l' <- put_threshold l thresh; Ok (sput key (ODict l') config_override)
         else Ok config_override) with
  | Raise e => (back config_override, Raise e)
  | Ok d =>
    (back d, match override (sky_defaults stack) (ODict (unalias_sky d)) with
             | (c, Ok _) => Ok c
             | (_, Raise e) => Raise e
             end)
  end.

(** skysub.py:167-207, iterate_detection_and_skysub: the threshold is set whatever
    it is. *)
Definition iterate_config (stack : cfg) (thresh : atom) (niter : Z) (config : option items) : option items * outcome cfg :=
  let back d := match config with Some _ => Some d | None => None end in
  let d0 := match config with Some d => d | None => [] end in
  if niter <? 1 then (back d0, Raise ValueError)
  else match put_threshold d0 thresh with
       | Raise e => (back d0, Raise e)
       | Ok d =>
         let d' := sput "niter" (OLeaf (AInt niter)) d in
         (back d', match override (iterate_defaults stack) (ODict (unalias d')) with
                   | (c, Ok _) => Ok c
                   | (_, Raise e) => Raise e
                   end)
       end.

(** metadetect.py:105-180, MetadetectConfig. *)
Definition mdet_defaults (stack : cfg) : cfg :=
  CNode [("subtract_sky", CLeaf (ABool false));
         ("pgauss", CNode [("fwhm", CLeaf (AFloat 2))]);
         ("detect", stack);
         ("deblender", CLeaf (AStr "sdss"));
         ("metacal", CNode [("types", CLeaf (ANames ["noshear"; "1p"; "1m"])); ("reconv_type", CLeaf (AStr "fitgauss"))]);
         ("stamp_size", CLeaf (AInt 49));
         ("shear_bands", CLeaf ANone)].
Definition leaf_at (c : cfg) (k : string) : outcome atom :=
  match cget c k with Some (CLeaf a) => Ok a | _ => Raise AttributeError end.
Definition node_at (c : cfg) (k : string) : outcome cfg :=
  match cget c k with Some (CNode l) => Ok (CNode l) | _ => Raise AttributeError end.
Definition run_of (x : cfg * outcome unit) : outcome cfg :=
  match x with (c, Ok _) => Ok c | (_, Raise e) => Raise e end.
Definition str_of (a : atom) : string := match a with AStr s => s | _ => "" end.

(** metadetect.py:82-103 with 204-221 and 279-284: the configurations with which
    run_metadetect subtracts the sky (None: it does not) and detects. *)
Definition metadetect_configs (stack : cfg) (user : option items) : outcome (option cfg * cfg) :=
  do c <- run_of (override (mdet_defaults stack) (ODict (unalias (match user with Some d => d | None => [] end))));
  do det <- node_at c "detect";
  do thresh <- leaf_at det "thresholdValue";
  do ss <- leaf_at c "subtract_sky";
  do deb <- leaf_at c "deblender";
  do sky <- (if truthy ss then do s <- snd (sky_config stack thresh None); Ok (Some s) else Ok None);
  do d <- snd (detect_and_deblend_config stack thresh (str_of deb) None);
  Ok (sky, d).

(** photometry.py:53-79: the configuration of run_photometry is the dictionary of
    configs.get_config; no deblender is passed on, measure.py:270 takes "sdss". *)
Definition photometry_configs (stack : cfg) (thresh subtract_sky deblender : atom) : outcome (option cfg * cfg) :=
  do sky <- (if truthy subtract_sky then do s <- snd (sky_config stack thresh None); Ok (Some s) else Ok None);
  do d <- snd (detect_and_deblend_config stack thresh "sdss" None);
  Ok (sky, d).
