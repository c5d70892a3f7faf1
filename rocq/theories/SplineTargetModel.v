(** Model of SplineMotiveProcessor::SetTarget, src/motive/processor/spline_processor.cpp:146-203,
    on top of the compact spline and evaluator models.  Times are MotiveTime (int), taken as
    unbounded Z; floats are exact reals. *)
From Verif Require Import RBase RangeModel CurveModel CompactSplineModel EvaluatorModel.

(** target.h:59-80 (MotiveNode1f); a target (target.h:99-175) is the list of its nodes. *)
Record mnode := MNode { mn_value : R; mn_velocity : R; mn_time : Z; mn_direction : direction }.

(** spline_processor.cpp:25 (kYRangeBufferPercent) *)
Definition kYRangeBufferPercent : R := 12 / 10.

(** target.h:148-157 (ValueRange) *)
Definition value_range (t : list mnode) (start_value : R) : range :=
  fold_left (fun r n => Rg (Rmin (mn_value n) (start_ r)) (Rmax (mn_value n) (end_ r))) t (Rg start_value start_value).

(** bulk_spline_evaluator.h:265-273 (NextY) *)
Definition slot_next_y (s : slot) (current_y target_y : R) (d : direction) : option R :=
  if valid (modular_range s) then diff <- mod_diff (modular_range s) current_y target_y d ;; Some (current_y + diff)
  else Some target_y.

(** spline_processor.cpp:161-164, 190-193: the value of a node, normalized if the index
    uses modular arithmetic. *)
Definition slot_node_value (s : slot) (v : R) : option R :=
  if valid (modular_range s) then normalize_wild (modular_range s) v else Some v.

(** spline_processor.cpp:293-311 (CalculateYRange) *)
Definition calculate_y_range (s : slot) (t : list mnode) (start_y : R) : range :=
  if valid (modular_range s) then lengthen (modular_range s) (IZR (len t))
  else lengthen (value_range t start_y) kYRangeBufferPercent.

(** spline_processor.cpp:187-198: the loop over the nodes. *)
Fixpoint add_waypoints (s : slot) (sp : spline) (prev_y : R) (l : list mnode) : option spline :=
  match l with
  | [] => Some sp
  | n :: l' =>
      target_y <- slot_node_value s (mn_value n) ;;
      y <- slot_next_y s prev_y target_y (mn_direction n) ;;
      sp' <- add_node sp (IZR (mn_time n)) y (mn_velocity n) AddWithoutModification ;;
      add_waypoints s sp' y l'
  end.

(** spline_processor.cpp:153-154 (override_current) *)
Definition override_current (s : slot) (t : list mnode) : bool :=
  match t with
  | n0 :: _ => (mn_time n0 =? 0)%Z || match source s with None => true | Some _ => false end
  | [] => true
  end.
(** spline_processor.cpp:168,188: the nodes after the start. *)
Definition waypoints (s : slot) (t : list mnode) : list mnode := if override_current s t then tl t else t.

(** spline_processor.cpp:159-165 (start_y), 166-167 (start_derivative; Velocity is the
    interpolator's Derivative) *)
Definition start_value (s : slot) (t : list mnode) : option R :=
  n0 <- getz t 0 ;;
  if override_current s t then slot_node_value s (mn_value n0) else slot_normalized_y s.
Definition start_velocity (s : slot) (t : list mnode) : option R :=
  n0 <- getz t 0 ;; Some (if override_current s t then mn_velocity n0 else slot_derivative s).

(** spline_processor.cpp:177-198: fill the local spline. *)
Definition build_target (local : spline) (s : slot) (t : list mnode) : option spline :=
  y <- start_value s t ;;
  d <- start_velocity s t ;;
  last <- getz t (len t - 1) ;;
  let sp0 := init local (calculate_y_range s t y) (recommend_x_granularity (IZR (mn_time last))) in
  sp1 <- add_node sp0 0 y d EnsureCubicWellBehaved ;;
  add_waypoints s sp1 y (waypoints s t).

(** spline_processor.cpp:146-203 (SetTarget), with the spline it builds. *)
Definition set_target (ev : evaluator) (i : Z) (local : spline) (t : list mnode) : option (spline * evaluator) :=
  s <- getz ev i ;;
  sp <- build_target local s t ;;
  ev' <- set_splines ev i 1 (Some [sp]) (playback_from 0) ;;
  Some (sp, ev').
