(** Model of metadetect/lsst/skysub.py: iterated detection and sky subtraction.
    Pixel values are rational numbers. The stack's two tasks are arguments:
    [back] is the background of an exposure, or an error raised before anything
    was changed; [detect] gives the mask plane after detection and the detection's
    result, or an error. When its configuration asks for a re-estimate, the
    detection also lowers the image; the second part of its result is that
    background. *)
From Coq Require Import ZArith QArith List Bool.
From Verif Require Import Base Arr Median.
Import ListNotations.
Local Open Scope Z_scope.

(** What the run changes of an exposure: the image, the mask and the value of
    'BGMEAN' in the metadata. *)
Record exposure := mkX { x_image : img Q; x_mask : img Z; x_bgmean : option Q }.

(** The two errors the run handles, lines 77 and 81, and any other. *)
Inductive failure := StackError | TaskFailure | OtherFailure (e : exn).

(** The stack's SubtractBackgroundTask stores the mean of the background image. *)
Definition mean (im : img Q) : Q := (qsum (pixels im) / inject_Z (zlen (pixels im)))%Q.
Definition lowered (im bg : img Q) : img Q := imap2 (fun a b => (a - b)%Q) im bg.

Section Tasks.
Variable Res : Type.
Variable back : exposure -> failure + img Q.
Variable detect : exposure -> img Z * (failure + Res * option (img Q)).

(** skysub.py:67, self.back.run(exposure). *)
Definition run_back (e : exposure) : exposure * option failure :=
  match back e with
  | inl f => (e, Some f)
  | inr bg => (mkX (lowered (x_image e) bg) (x_mask e) (Some (mean bg)), None)
  end.
(** skysub.py:68, self.detect.run(table, exposure). *)
Definition run_detect (e : exposure) : exposure * (failure + Res) :=
  match detect e with
  | (m, inl f) => (mkX (x_image e) m (x_bgmean e), inl f)
  | (m, inr (r, None)) => (mkX (x_image e) m (x_bgmean e), inr r)
  | (m, inr (r, Some bg)) => (mkX (lowered (x_image e) bg) m (x_bgmean e), inr r)
  end.
(** skysub.py:66-70. [sky]: the running sum; [res]: the last result. 'BGMEAN' is
    always there after the background was subtracted. *)
Fixpoint iterate (n : nat) (sky : Q) (res : option Res) (e : exposure) : exposure * (failure + Q * option Res) :=
  match n with
  | O => (e, inr (sky, res))
  | S n =>
      match run_back e with
      | (e, Some f) => (e, inl f)
      | (e, None) =>
          match run_detect e with
          | (e, inl f) => (e, inl f)
          | (e, inr r) =>
              match x_bgmean e with
              | Some b => iterate n (sky + b)%Q (Some r) e
              | None => (e, inl (OtherFailure KeyError))
              end
          end
      end
  end.
(** skysub.py:56-85, IterateDetectionSkySubTask.run: the exposure afterwards, and
    the value returned or the exception. *)
Definition run (niter : Z) (e : exposure) : exposure * outcome (option Res) :=
  if niter <? 1 then (e, Raise ValueError)
  else
    match iterate (Z.to_nat niter) 0 None e with
    | (e, inr (sky, r)) => (mkX (x_image e) (x_mask e) (Some sky), Ok r)
    | (e, inl StackError) | (e, inl TaskFailure) => (e, Ok None)
    | (e, inl (OtherFailure x)) => (e, Raise x)
    end.
(** skysub.py:107-111, SubtractSkyMbExpTask.run, over the bands' exposures. *)
Fixpoint run_bands (niter : Z) (l : list exposure) : list exposure * outcome unit :=
  match l with
  | [] => ([], Ok tt)
  | e :: l =>
      match run niter e with
      | (e, Raise x) => (e :: l, Raise x)
      | (e, Ok _) => let (l, o) := run_bands niter l in (e :: l, o)
      end
  end.
(** skysub.py:178-223, iterate_detection_and_skysub: an earlier test of niter
    (line 200); the configuration is in Lthr_model. *)
Definition iterate_detection_and_skysub (niter : Z) (e : exposure) : exposure * outcome (option Res) :=
  if niter <? 1 then (e, Raise ValueError) else run niter e.
(** skysub.py:114-131, determine_and_subtract_sky. *)
Definition determine_and_subtract_sky (e : exposure) : exposure * (failure + img Q) :=
  match back e with
  | inl f => (e, inl f)
  | inr bg => (fst (run_back e), inr bg)
  end.
End Tasks.
