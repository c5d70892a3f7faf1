(** Model of Settled1f for whole motivators and of Twitch, include/motive/util.h.

    Twitch asks a motivator of one dimension for Difference and Velocity and then calls
    SetTarget.  What these do depends on the processor; here they are those of the overshoot
    processor and of the spline processor.  The const, ease-in-ease-out and spring processors
    do not define SetTargets: the call does nothing (vector_processor.h:86-87). *)
From Verif Require Import RBase Base RangeModel EvaluatorModel SplineTargetModel TargetModel SplineQueryModel VectorMotivatorModel OvershootModel.

(** util.h:52-56 (TwitchDirection) *)
Inductive twitch_direction := TwitchNone | TwitchPositive | TwitchNegative.
(** util.h:108: the velocity given. *)
Definition twitch_velocity (d : twitch_direction) (velocity : R) : R := match d with TwitchPositive => velocity | _ => - velocity end.

(** util.h:71-80 (Settled), the loop over the dimensions; 91-94 for one dimension. *)
Fixpoint all_settled (s : settled) (differences velocities : list R) : bool :=
  match differences, velocities with
  | d :: ds, v :: vs => if is_settled s d v then all_settled s ds vs else false
  | _, _ => true
  end.
Definition overshoot_settled (s : settled) (st : ostate) (index : Z) (dimensions : nat) : option bool :=
  ds <- OvershootModel.differences st index dimensions ;; vs <- OvershootModel.velocities st index dimensions ;; Some (all_settled s ds vs).
Definition spline_settled (s : settled) (ev : evaluator) (index : Z) (dimensions : nat) : option bool :=
  ds <- difference ev index dimensions ;; vs <- VectorMotivatorModel.velocity ev index dimensions ;; Some (all_settled s ds vs).

(** util.h:103-110 (Twitch), for an overshoot motivator. *)
Definition overshoot_twitch (d : twitch_direction) (velocity : R) (s : settled) (index : Z) (st : ostate) : option ostate :=
  match d with
  | TwitchNone => Some st
  | _ =>
      b <- overshoot_settled s st index 1 ;;
      if (b : bool) then
        y <- OvershootModel.values st index ;;
        x <- getz st index ;;
        x' <- set_target_index [(y, twitch_velocity d velocity, 0%Z)] x ;;
        setz st index x'
      else Some st
  end.
(** util.h:103-110 (Twitch), for a spline motivator. *)
Definition spline_twitch (d : twitch_direction) (velocity : R) (s : settled) (index : Z) (ev : evaluator) : option evaluator :=
  match d with
  | TwitchNone => Some ev
  | _ =>
      b <- spline_settled s ev index 1 ;;
      if (b : bool) then
        ys <- value ev index 1 ;;
        y <- getz ys 0 ;;
        set_targets ev index [tar_current y (twitch_velocity d velocity)]
      else Some ev
  end.
