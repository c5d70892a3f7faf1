(** Model of OvershootMotiveProcessor, src/motive/processor/overshoot_processor.cpp, with
    OvershootInit (include/motive/overshoot_init.h), OvershootData
    (src/motive/processor/overshoot_data.h) and Settled1f (include/motive/util.h).

    Floats are reals.  The full range of the default constructor, minus to plus infinity,
    is [None].  A member that has not been initialised is [None]; using it is an error.
    MotiveTime is Z.  Defragment, which AdvanceFrame calls first, is in ProcessorModel.v. *)
From Verif Require Import RBase RangeModel.

(** util.h:60-88 (Settled1f) *)
Record settled := SettledAt { max_difference : R; settled_velocity : R }.
(** util.h:65-67 (Settled) *)
Definition is_settled (s : settled) (dist velocity : R) : bool :=
  Rleb (Rabs dist) (max_difference s) && Rleb (Rabs velocity) (settled_velocity s).

(** overshoot_init.h:88-125 (members) *)
Record oinit := OInit {
  o_range : option range; o_modular : bool; o_max_velocity : R; o_max_delta : option R; o_at_target : settled;
  o_accel_per_difference : R; o_wrong_direction_multiplier : R; o_max_delta_time : Z
}.
(** overshoot_init.h:32-39 (OvershootInit): max_delta_ is not initialised. *)
Definition oinit_default : oinit := OInit None false 0 None (SettledAt 0 0) 0 0 0.
(** mathfu::Clamp *)
Definition clamp_between (x lower upper : R) : R := Rmax lower (Rmin x upper).
(** overshoot_init.h:42-44 (ClampVelocity) *)
Definition clamp_velocity (i : oinit) (v : R) : R := clamp_between v (- o_max_velocity i) (o_max_velocity i).
(** overshoot_init.h:49-51 (ClampDelta) *)
Definition clamp_delta (i : oinit) (delta : R) : option R := m <- o_max_delta i ;; Some (clamp_between delta (- m) m).
(** overshoot_init.h:56-58 (AtTarget) *)
Definition at_target (i : oinit) (dist velocity : R) : bool := is_settled (o_at_target i) dist velocity.
(** Range::Clamp and Range::Normalize of range(), also when it is full. *)
Definition clamp_range (i : oinit) (x : R) : R := match o_range i with Some r => clamp r x | None => x end.
Definition normalize_range (i : oinit) (x : R) : option R := match o_range i with Some r => normalize r x | None => Some x end.

(** overshoot_data.h:23-39 (OvershootData) *)
Record odata := OData { velocity : R; target_value : R; init_of : oinit }.
(** overshoot_data.h:24-28 (Initialize) *)
Definition odata_initialize (i : oinit) : odata := OData 0 0 i.

(** overshoot_processor.cpp:188-190 (Normalize) *)
Definition normalize_diff (d : odata) (x : R) : option R := if o_modular (init_of d) then normalize_range (init_of d) x else Some x.

(** overshoot_processor.cpp:151-175 (CalculateVelocity) *)
Definition calculate_velocity (dt : Z) (d : odata) (current_value : R) : option R :=
  diff <- normalize_diff d (target_value d - current_value) ;;
  let wrong_direction := Rltb (velocity d * diff) 0 in
  let multiplier := if wrong_direction then o_wrong_direction_multiplier (init_of d) else 1 in
  let acceleration := diff * o_accel_per_difference (init_of d) * multiplier in
  let unclamped := velocity d + IZR dt * acceleration in
  let v := clamp_velocity (init_of d) unclamped in
  Some (if at_target (init_of d) diff v then 0 else v).

(** overshoot_processor.cpp:177-186 (CalculateValue) *)
Definition calculate_value (dt : Z) (d : odata) (current_value : R) : option R :=
  if Reqb (velocity d) 0 then Some (target_value d)
  else
    delta <- clamp_delta (init_of d) (IZR dt * velocity d) ;;
    unclamped <- normalize_diff d (current_value + delta) ;;
    Some (clamp_range (init_of d) unclamped).

(** overshoot_processor.cpp:37-38: one step; the data and the value of one index. *)
Definition step (dt : Z) (x : odata * R) : option (odata * R) :=
  v <- calculate_velocity dt (fst x) (snd x) ;;
  let d := OData v (target_value (fst x)) (init_of (fst x)) in
  y <- calculate_value dt d (snd x) ;; Some (d, y).

(** overshoot_processor.cpp:34-41: the inner loop of AdvanceFrame; [None] when it has not
    ended after [fuel] rounds. *)
Fixpoint advance_index (fuel : nat) (time_remaining : Z) (x : odata * R) : option (odata * R) :=
  if (0 <? time_remaining)%Z then
    match fuel with
    | O => None
    | S f =>
        let dt := Z.min time_remaining (o_max_delta_time (init_of (fst x))) in
        x' <- step dt x ;; advance_index f (time_remaining - dt) x'
    end
  else Some x.

(** overshoot_processor.cpp:192-193 (data_, values_): resized together (136-139), so one
    list of pairs. *)
Definition ostate := list (odata * R).
(** overshoot_processor.cpp:25-43 (AdvanceFrame) *)
Fixpoint advance_frame (fuel : nat) (delta_time : Z) (st : ostate) : option ostate :=
  match st with
  | [] => Some []
  | x :: st' => x' <- advance_index fuel delta_time x ;; r <- advance_frame fuel delta_time st' ;; Some (x' :: r)
  end.

(** Loops that fill out[i] for i below dimensions. *)
Fixpoint gather {A} (f : Z -> option A) (i : Z) (n : nat) : option (list A) :=
  match n with O => Some [] | S n' => x <- f i ;; r <- gather f (i + 1) n' ;; Some (x :: r) end.

(** overshoot_processor.cpp:49-51 (Values) *)
Definition values (st : ostate) (index : Z) : option R := x <- getz st index ;; Some (snd x).
(** overshoot_processor.cpp:53-58 (Velocities) *)
Definition velocities (st : ostate) (index : Z) (dimensions : nat) : option (list R) :=
  gather (fun i => x <- getz st (index + i) ;; Some (velocity (fst x))) 0 dimensions.
(** overshoot_processor.cpp:60-65 (TargetValues) *)
Definition target_values (st : ostate) (index : Z) (dimensions : nat) : option (list R) :=
  gather (fun i => x <- getz st (index + i) ;; Some (target_value (fst x))) 0 dimensions.
(** overshoot_processor.cpp:74-80 (Differences): values_[i], not values_[index + i]. *)
Definition differences (st : ostate) (index : Z) (dimensions : nat) : option (list R) :=
  gather (fun i => x <- getz st (index + i) ;; y <- getz st i ;; normalize_diff (fst x) (target_value (fst x) - snd y)) 0 dimensions.

(** overshoot_processor.cpp:89-110 (SetTargets), for one index: the nodes are (value,
    velocity, time). *)
Definition set_target_index (nodes : list (R * R * Z)) (x : odata * R) : option (odata * R) :=
  match nodes with
  | [] => None
  | (v, vel, time) :: rest =>
      let x' := if (time =? 0)%Z then (OData vel (target_value (fst x)) (init_of (fst x)), v) else x in
      let target := if (time =? 0)%Z then match rest with (w, _, _) :: _ => Some w | [] => None end else Some v in
      Some (match target with
            | Some w => (OData (velocity (fst x')) w (init_of (fst x')), snd x')
            | None => x'
            end)
  end.

(** overshoot_processor.cpp:113-120 (InitializeIndices), 122-124 (RemoveIndices): one index. *)
Definition initialize_index (i : oinit) : odata * R := (odata_initialize i, 0).
Definition removed_index : odata * R := initialize_index oinit_default.
