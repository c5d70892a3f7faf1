(** Model of the queries about the target of a spline motivator,
    src/motive/processor/spline_processor.cpp:55-81, with the loops of
    bulk_spline_evaluator.h that they call. *)
From Verif Require Import RBase RangeModel CurveModel CompactSplineModel EvaluatorModel.

(** A loop over the indices [index, index + dimensions) that fills an array. *)
Fixpoint collect {A} (f : slot -> option A) (ev : evaluator) (index : Z) (dimensions : nat) : option (list A) :=
  match dimensions with
  | O => Some []
  | S n => s <- getz ev index ;; a <- f s ;; l <- collect f ev (index + 1) n ;; Some (a :: l)
  end.

(** spline_processor.cpp:55-58 (TargetValues), bulk_spline_evaluator.h:212-217 (EndYs) *)
Definition target_values (ev : evaluator) (index : Z) (dimensions : nat) : option (list R) := collect slot_end_y ev index dimensions.
(** spline_processor.cpp:59-62 (TargetVelocities), bulk_spline_evaluator.h:225-230 (EndDerivatives) *)
Definition target_velocities (ev : evaluator) (index : Z) (dimensions : nat) : option (list R) := collect slot_end_derivative ev index dimensions.
(** spline_processor.cpp:63-66 (Differences), bulk_spline_evaluator.h:247-253 (YDifferencesToEnd) *)
Definition differences (ev : evaluator) (index : Z) (dimensions : nat) : option (list R) := collect slot_y_difference_to_end ev index dimensions.

(** spline_processor.cpp:67-78 (TargetTime): the loop, from the least int up. *)
Fixpoint target_time_loop (ev : evaluator) (index : Z) (dimensions : nat) (greatest : Z) : option Z :=
  match dimensions with
  | O => Some greatest
  | S n =>
      s <- getz ev index ;; e <- slot_end_x s ;; x <- slot_x s ;; t <- to_int (e - x) ;;
      target_time_loop ev (index + 1) n (Z.max greatest t)
  end.
Definition target_time (ev : evaluator) (index : Z) (dimensions : nat) : option Z := target_time_loop ev index dimensions (-2147483648).
(** spline_processor.cpp:79-81 (SplineTime) *)
Definition spline_time (ev : evaluator) (index : Z) : option Z := s <- getz ev index ;; x <- slot_x s ;; to_int x.
