(** What the evaluator theorems talk about, apart from the model's functions. *)
From Verif Require Import RBase RangeModel CurveModel CompactSplineModel CompactSplineSpec EvaluatorModel.

(** [v] and [d] are a value and slope of the spline at [x], for a lookup that rounds x
    to the grid: x may be up to half a grain outside the segment that is used. *)
Inductive spline_at (s : spline) (x v d : R) : Prop :=
| At_before sx : start_x s = Some sx -> x <= sx -> start_y s = Some v -> d = 0 -> spline_at s x v d
| At_after ex : end_x s = Some ex -> ex + x_granularity s / 2 <= x \/ (num_nodes s = 1%Z /\ ex - x_granularity s / 2 <= x) ->
    end_y s = Some v -> d = 0 -> spline_at s x v d
| At_segment i a b : getz (nodes s) i = Some a -> getz (nodes s) (i + 1) = Some b ->
    node_x a (x_granularity s) - x_granularity s / 2 <= x < node_x b (x_granularity s) + x_granularity s / 2 ->
    (nx a < nx b)%Z \/ i = (num_nodes s - 2)%Z ->
    segment_value s i x = Some (v, d) -> spline_at s x v d.

(** The slot plays the spline with these playback parameters and is at [x]: this is
    the x it reports, and its value and derivative are those of the spline there. *)
Definition plays (s : slot) (sp : spline) (p : playback) (x : R) : Prop :=
  source s = Some sp /\ slot_x s = Some x /\
  exists v d, spline_at sp x v d /\ cur_y s = y_scale p * v + y_offset p /\
    slot_derivative_without_playback s = y_scale p * d /\ slot_derivative s = playback_rate p * (y_scale p * d).

(** [x] is the position [total], wrapped around the end of the spline if it repeats. *)
Definition wrapped (sp : spline) (repeat : bool) (total x : R) : Prop :=
  if repeat then exists ex (k : Z), end_x sp = Some ex /\ x = total + IZR k * ex /\ - x_granularity sp / 2 <= x < ex + x_granularity sp / 2
  else x = total.

(** Steps for which x can be represented as an int number of grains. *)
Definition small_step (sp : spline) (d : R) : Prop := 0 <= d <= 2147000000 * x_granularity sp.

Fixpoint sum (l : list R) : R := match l with [] => 0 | x :: l' => x + sum l' end.

(** A list of results, if all of them are there. *)
Fixpoint all_some {A} (l : list (option A)) : option (list A) :=
  match l with [] => Some [] | o :: l' => x <- o ;; r <- all_some l' ;; Some (x :: r) end.

(** What advancing does to one index on its own. *)
Definition advance_slot (delta : R) (s : slot) : option slot :=
  let s' := step_x delta s in
  t <- (if past_end s' then reinit_slot s' else Some s') ;; Some (evaluate_slot t).
