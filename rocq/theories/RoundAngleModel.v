(** Model of include/motive/math/angle.h in single precision.

    AngleModel.v follows the same functions with exact real numbers.  Here every `float`
    operation rounds: [rnd] rounds to single precision.  A failing assert is [None]. *)
From Verif Require Import RBase RoundModel AngleModel.

(** angle.h:53-59, 73: the constants, as the singles nearest to them (the digits are
    taken as given: that they are nearest to multiples of pi isn't proved here). *)
Definition kPi : R := 13176795 / 4194304.
Definition kTwoPi : R := 13176795 / 2097152.
Definition kThreePi : R := 9882596 / 1048576.
Definition kDegreesToRadians : R := 9370165 / 536870912.
Definition kRadiansToDegrees : R := 15019745 / 262144.
Definition kMinUniqueAngle : R := - (13176794 / 4194304).

Section Operations.
(** Rounding to `float`; rounding of what C computes in the type of [floor]'s result:
    `float` where std::floor is visible, `double` where only C's is. *)
Variables rnd wide : R -> R.

(** angle.h:404-406 (IsAngleInRange), 313 (IsValid); kMaxUniqueAngle 60 is kPi. *)
Definition f_in_range (a : R) : bool := Rleb kMinUniqueAngle a && Rleb a kPi.
(** angle.h:106 (explicit constructor, with its assert). *)
Definition f_angle (a : R) : option R := assert f_in_range a ;; Some a.

(** angle.h:432-441 (ModWithinThreePi). *)
Definition f_mod_within_three_pi (a : R) : option R :=
  assert (Rltb (- kThreePi) a && Rltb a kThreePi) ;;
  let above := if Rltb a kMinUniqueAngle then rnd (a + kTwoPi) else a in
  let below := if Rltb kPi above then rnd (above - kTwoPi) else above in
  assert f_in_range below ;; Some below.
(** angle.h:442-445 (ModIfNegativePi). *)
Definition f_mod_if_negative_pi (a : R) : R := if Rltb a kMinUniqueAngle then kPi else a.
(** angle.h:322-328 (WrapAngle). *)
Definition f_wrap_angle (a : R) : R :=
  let units := Rfloor (rnd (a / kTwoPi)) in
  let a1 := rnd (wide (a - wide (wide (IZR units + 1) * kTwoPi))) in
  if Rleb a1 (- kPi) then rnd (a1 + kTwoPi) else a1.

(** angle.h:109 (Abs), 117-120 and 450-453 (+), 123-126 and 455-458 (-),
    129-132 and 460-463 (scaling), 141 (negation). *)
Definition f_abs (a : R) : option R := f_angle (Rabs a).
Definition f_add (a b : R) : option R := f_mod_within_three_pi (rnd (a + b)).
Definition f_sub (a b : R) : option R := f_mod_within_three_pi (rnd (a - b)).
Definition f_mul (a s : R) : R := f_wrap_angle (rnd (a * s)).
Definition f_neg (a : R) : option R := f_angle (f_mod_if_negative_pi (- a)).
(** angle.h:336-338 (FromWithinThreePi), 341-343 (FromRadians), 346-348 (FromDegrees),
    147 (ToDegrees). *)
Definition f_from_within_three_pi (a : R) : option R := r <- f_mod_within_three_pi a ;; f_angle r.
Definition f_from_radians (a : R) : option R := f_angle (f_wrap_angle a).
Definition f_from_degrees (d : R) : option R := f_from_radians (rnd (d * kDegreesToRadians)).
Definition f_to_degrees (a : R) : R := rnd (kRadiansToDegrees * a).
(** angle.h:494-508 (Clamp). *)
Definition f_clamp (a center max_diff : R) : option R :=
  assert (Rleb 0 max_diff && Rleb max_diff kPi) ;;
  diff <- f_sub a center ;;
  diff_clamped <- f_angle (mclamp diff (- max_diff) max_diff) ;;
  f_add center diff_clamped.
End Operations.
