(** Model of the simulation of src/motive/processor/overshoot_processor.cpp in single
    precision.

    OvershootModel.v follows the same functions with exact real numbers, and its records
    are used here.  Every `float` operation rounds with [rnd], the conversion of the frame
    time (an int) included. *)
From Verif Require Import RBase RangeModel OvershootModel RoundModel RoundRangeModel.

Section Operations.
Variable rnd : R -> R.

(** overshoot_processor.cpp:188-190 (Normalize), range.h:107-111 *)
Definition f_normalize_diff (d : odata) (x : R) : option R :=
  if o_modular (init_of d) then
    match o_range (init_of d) with Some r => f_normalize rnd (start_ r) (end_ r) x | None => Some x end
  else Some x.

(** overshoot_processor.cpp:151-175 (CalculateVelocity); the clamps and comparisons
    (overshoot_init.h:42-58) don't round. *)
Definition f_calculate_velocity (dt : Z) (d : odata) (current_value : R) : option R :=
  diff <- f_normalize_diff d (rnd (target_value d - current_value)) ;;
  let wrong_direction := Rltb (rnd (velocity d * diff)) 0 in
  let multiplier := if wrong_direction then o_wrong_direction_multiplier (init_of d) else 1 in
  let acceleration := rnd (rnd (diff * o_accel_per_difference (init_of d)) * multiplier) in
  let unclamped := rnd (velocity d + rnd (rnd (IZR dt) * acceleration)) in
  let v := clamp_velocity (init_of d) unclamped in
  Some (if at_target (init_of d) diff v then 0 else v).

(** overshoot_processor.cpp:177-186 (CalculateValue) *)
Definition f_calculate_value (dt : Z) (d : odata) (current_value : R) : option R :=
  if Reqb (velocity d) 0 then Some (target_value d)
  else
    delta <- clamp_delta (init_of d) (rnd (rnd (IZR dt) * velocity d)) ;;
    unclamped <- f_normalize_diff d (rnd (current_value + delta)) ;;
    Some (clamp_range (init_of d) unclamped).

(** overshoot_processor.cpp:37-38: one step. *)
Definition f_step (dt : Z) (x : odata * R) : option (odata * R) :=
  v <- f_calculate_velocity dt (fst x) (snd x) ;;
  let d := OData v (target_value (fst x)) (init_of (fst x)) in
  y <- f_calculate_value dt d (snd x) ;; Some (d, y).

(** overshoot_processor.cpp:34-41: the inner loop of AdvanceFrame; [None] when it has not
    ended after [fuel] rounds. *)
Fixpoint f_advance_index (fuel : nat) (time_remaining : Z) (x : odata * R) : option (odata * R) :=
  if (0 <? time_remaining)%Z then
    match fuel with
    | O => None
    | S f =>
        let dt := Z.min time_remaining (o_max_delta_time (init_of (fst x))) in
        x' <- f_step dt x ;; f_advance_index f (time_remaining - dt) x'
    end
  else Some x.
(** overshoot_processor.cpp:25-43 (AdvanceFrame), for one index: a sequence of frames, each
    with as many rounds as it has milliseconds. *)
Fixpoint f_frames (delta_times : list Z) (x : odata * R) : option (odata * R) :=
  match delta_times with
  | [] => Some x
  | t :: l => x' <- f_advance_index (Z.to_nat t) t x ;; f_frames l x'
  end.
End Operations.
