(** Model of motivators of several dimensions that are driven by splines: the calls of
    MotivatorNf and MotivatorXfTemplate (include/motive/vector_motivator.h:30-391), which
    pass the index and the number of dimensions on to SplineMotiveProcessor
    (src/motive/processor/spline_processor.cpp:44-144, 205-210, 227-238).

    Simplifications.  Vectors are the lists of their coordinates (vector_converter.h:35-51
    copies coordinate by coordinate).  A motivator is its index and its number of
    dimensions; how indices are given out and moved is ProcessorModel.v.  The local spline
    of SetTarget has the default capacity (SplineClassModel.v). *)
From Verif Require Import RBase RangeModel CurveModel CompactSplineModel EvaluatorModel SplineTargetModel SplineQueryModel SplineClassModel.

(** The calls that change what a motivator does. *)
Inductive call :=
| Initialize (index : Z) (dimensions : nat) (r : range)
| Remove (index : Z) (dimensions : nat)
| SetTargets (index : Z) (targets : list (list mnode))
| SetSplines (index : Z) (splines : list spline) (p : playback)
| SetSplinesAndTargets (index : Z) (splines : list (option spline)) (p : playback) (targets : list (list mnode))
| SetSplineTime (index : Z) (dimensions : nat) (time : Z)
| SetSplinePlaybackRate (index : Z) (dimensions : nat) (r : R)
| SetSplineRepeating (index : Z) (dimensions : nat) (b : bool)
| AdvanceFrame (delta : R).

(** spline_processor.cpp:82-87 (SetTargets): the loop over the dimensions; 146-203 (SetTarget). *)
Fixpoint set_targets (ev : evaluator) (index : Z) (targets : list (list mnode)) : option evaluator :=
  match targets with
  | [] => Some ev
  | t :: l => q <- set_target ev index new_local t ;; set_targets (snd q) (index + 1) l
  end.
(** spline_processor.cpp:103-118 (SetSplinesAndTargets) *)
Fixpoint set_splines_and_targets (ev : evaluator) (index : Z) (splines : list (option spline)) (p : playback) (targets : list (list mnode)) : option evaluator :=
  match splines, targets with
  | [], _ => Some ev
  | None :: l, t :: ts => q <- set_target ev index new_local t ;; set_splines_and_targets (snd q) (index + 1) l p ts
  | Some sp :: l, _ :: ts => ev' <- EvaluatorModel.set_splines ev index 1 (Some [sp]) p ;; set_splines_and_targets ev' (index + 1) l p ts
  | _, [] => None
  end.
(** spline_processor.cpp:205-210 (InitializeIndices), 227-238 (RemoveIndices), 89-101 (SetSplines),
    127-142 (SetSplineTime, SetSplinePlaybackRate, SetSplineRepeating), 35-38 (AdvanceFrame). *)
Definition do_call (c : call) (ev : evaluator) : option evaluator :=
  match c with
  | Initialize i n r => set_y_ranges ev i n r
  | Remove i n => clear_splines ev i n
  | SetTargets i ts => set_targets ev i ts
  | SetSplines i l p => EvaluatorModel.set_splines ev i (length l) (Some l) p
  | SetSplinesAndTargets i l p ts => set_splines_and_targets ev i l p ts
  | SetSplineTime i n t => set_xs ev i n (IZR t)
  | SetSplinePlaybackRate i n r => set_playback_rates ev i n r
  | SetSplineRepeating i n b => set_repeating ev i n b
  | AdvanceFrame d => advance_frame d ev
  end.
Fixpoint do_calls (l : list call) (ev : evaluator) : option evaluator :=
  match l with [] => Some ev | c :: l' => ev' <- do_call c ev ;; do_calls l' ev' end.

(** bulk_spline_evaluator.h:161-166, 180-187, 213-218: assert(Valid(index) && Valid(index + count - 1)) *)
Definition ends_valid (ev : evaluator) (index : Z) (dimensions : nat) : bool :=
  valid_index ev index && valid_index ev (index + Z.of_nat dimensions - 1).
(** vector_motivator.h:299 (Value), 304-308 (Velocity), 313-317 (Direction), 321-325 (TargetValue), 329-333
    (TargetVelocity), 339-343 (Difference): what a motivator shows. *)
Definition value (ev : evaluator) (index : Z) (dimensions : nat) : option (list R) := collect (fun s => Some (cur_y s)) ev index dimensions.
Definition velocity (ev : evaluator) (index : Z) (dimensions : nat) : option (list R) :=
  assert ends_valid ev index dimensions ;; collect (fun s => Some (slot_derivative s)) ev index dimensions.
Definition direction (ev : evaluator) (index : Z) (dimensions : nat) : option (list R) :=
  assert ends_valid ev index dimensions ;; collect (fun s => Some (slot_derivative_without_playback s)) ev index dimensions.
Definition target_value (ev : evaluator) (index : Z) (dimensions : nat) : option (list R) :=
  assert ends_valid ev index dimensions ;; target_values ev index dimensions.
Definition target_velocity (ev : evaluator) (index : Z) (dimensions : nat) : option (list R) :=
  assert ends_valid ev index dimensions ;; target_velocities ev index dimensions.
Definition difference (ev : evaluator) (index : Z) (dimensions : nat) : option (list R) :=
  assert ends_valid ev index dimensions ;; differences ev index dimensions.
(** vector_motivator.h:30-160 (MotivatorNf): the same queries, all of them for a motivator. *)
Definition queries : list (evaluator -> Z -> nat -> option (list R)) := [value; velocity; direction; target_value; target_velocity; difference].
