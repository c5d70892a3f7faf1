(** Model of include/motive/math/angle.h and src/motive/math/angle.cpp.

    Radians are real numbers.  kMinUniqueAngle (angle.h:73) is "the biggest float
    greater than -pi", so [x < kMinUniqueAngle] on floats is [x <= -PI] here, and
    [kMinUniqueAngle <= x] is [-PI < x].  A failing assert is [None]. *)
From Verif Require Import RBase VecModel.

(** angle.h:404-406 (IsAngleInRange), 313 (IsValid). *)
Definition in_range (a : R) : bool := Rltb (- PI) a && Rleb a PI.

(** angle.h:106 (explicit constructor, with its assert). *)
Definition mk_angle (a : R) : option R := assert in_range a ;; Some a.

(** angle.h:432-441 (ModWithinThreePi). *)
Definition mod_within_three_pi (a : R) : option R :=
  assert (Rltb (- (3 * PI)) a && Rltb a (3 * PI)) ;;
  let above := if Rleb a (- PI) then a + 2 * PI else a in
  let below := if Rltb PI above then above - 2 * PI else above in
  assert in_range below ;; Some below.

(** angle.h:442-445 (ModIfNegativePi). *)
Definition mod_if_negative_pi (a : R) : R := if Rleb a (- PI) then PI else a.

(** angle.h:322-328 (WrapAngle). *)
Definition wrap_angle (a : R) : R :=
  let a1 := a - (IZR (Rfloor (a / (2 * PI))) + 1) * (2 * PI) in
  if Rleb a1 (- PI) then a1 + 2 * PI else a1.

(** angle.h:109 (Abs). *)
Definition angle_abs (a : R) : option R := mk_angle (Rabs a).
(** angle.h:117-120, 450-453 (+). *)
Definition angle_add (a b : R) : option R := mod_within_three_pi (a + b).
(** angle.h:123-126, 455-458 (-). *)
Definition angle_sub (a b : R) : option R := mod_within_three_pi (a - b).
(** angle.h:129-132, 460-463 (scaling). *)
Definition angle_mul (a s : R) : R := wrap_angle (a * s).
(** angle.h:135-138, 465-468 (division; dividing by zero gives no angle). *)
Definition angle_div (a s : R) : option R := assert (negb (Reqb s 0)) ;; Some (wrap_angle (a / s)).
(** angle.h:141 (negation). *)
Definition angle_neg (a : R) : option R := mk_angle (mod_if_negative_pi (- a)).
(** angle.h:336-338 (FromWithinThreePi). *)
Definition from_within_three_pi (a : R) : option R := r <- mod_within_three_pi a ;; mk_angle r.
(** angle.h:341-343 (FromRadians). *)
Definition from_radians (a : R) : option R := mk_angle (wrap_angle a).
(** angle.h:346-348 (FromDegrees), kDegreesToRadians 58. *)
Definition from_degrees (d : R) : option R := from_radians (d * (PI / 180)).
(** angle.h:147 (ToDegrees), kRadiansToDegrees 59. *)
Definition to_degrees (a : R) : R := 180 / PI * a.

(** mathfu::Clamp(x, lower, upper) = max(lower, min(x, upper)). *)
Definition mclamp (x lo hi : R) : R := Rmax lo (Rmin x hi).

(** angle.h:494-508 (Clamp). *)
Definition angle_clamp (a center max_diff : R) : option R :=
  assert (Rleb 0 max_diff && Rleb max_diff PI) ;;
  diff <- angle_sub a center ;;
  diff_clamped <- mk_angle (mclamp diff (- max_diff) max_diff) ;;
  angle_add center diff_clamped.

(** angle.h:43-50 (AngleToVectorSystem). *)
Inductive vsystem := XY | XZ | YZ | YX | ZX | ZY.

(** angle.h:151-258 (ToVectorSystem and the six conversions), 424-428 (ToVector). *)
Definition to_vector (sys : vsystem) (a : R) : vec3 :=
  let zero_axis := cos a in let ninety_axis := sin a in
  match sys with
  | XY => V3 zero_axis ninety_axis 0
  | XZ => V3 zero_axis 0 ninety_axis
  | YZ => V3 0 zero_axis ninety_axis
  | YX => V3 ninety_axis zero_axis 0
  | ZX => V3 ninety_axis 0 zero_axis
  | ZY => V3 0 ninety_axis zero_axis
  end.

(** The C library's atan2f(y, x) for real arguments; atan2f(0, 0) is 0. *)
Definition atan2 (y x : R) : R :=
  if Rltb 0 x then atan (y / x)
  else if Rltb x 0 then (if Rleb 0 y then atan (y / x) + PI else atan (y / x) - PI)
  else if Rltb 0 y then PI / 2 else if Rltb y 0 then - (PI / 2) else 0.

(** angle.h:352-400 (FromVectorSystem and the six conversions). *)
Definition from_vector (sys : vsystem) (v : vec3) : option R :=
  mk_angle (mod_if_negative_pi
    match sys with
    | XY => atan2 (vy v) (vx v)
    | XZ => atan2 (vz v) (vx v)
    | YZ => atan2 (vz v) (vy v)
    | YX => atan2 (vx v) (vy v)
    | ZX => atan2 (vx v) (vz v)
    | ZY => atan2 (vy v) (vz v)
    end).

(** angle.h:276-294 (ToXYRotationMatrix, ToXZRotationMatrix, ToYZRotationMatrix). *)
Definition xy_matrix (a : R) : mat3 := let x := cos a in let y := sin a in mat3_of x y 0 (- y) x 0 0 0 1.
Definition xz_matrix (a : R) : mat3 := let x := cos a in let z := sin a in mat3_of x 0 z 0 1 0 (- z) 0 x.
Definition yz_matrix (a : R) : mat3 := let y := cos a in let z := sin a in mat3_of 1 0 0 0 y z 0 (- z) y.

(** angle.h:262-273, 297-309 (ToRotationMatrix; the reversed systems negate first). *)
Definition to_rotation_matrix (sys : vsystem) (a : R) : option mat3 :=
  match sys with
  | XY => Some (xy_matrix a)
  | XZ => Some (xz_matrix a)
  | YZ => Some (yz_matrix a)
  | YX => n <- angle_neg a ;; Some (xy_matrix n)
  | ZX => n <- angle_neg a ;; Some (xz_matrix n)
  | ZY => n <- angle_neg a ;; Some (yz_matrix n)
  end.

(** angle.cpp:20-35 (kUpVectors, VectorSystemUp). *)
Definition vector_system_up (sys : vsystem) : vec3 :=
  match sys with
  | XY => kAxisZ | XZ => kAxisY | YZ => kAxisX
  | YX => vneg kAxisZ | ZX => vneg kAxisY | ZY => vneg kAxisX
  end.

(** angle.cpp:37-53 (LatitudeAndLongitudeToUnitSphere). *)
Definition lat_long (lat long : R) (sys : vsystem) : vec3 :=
  let radius := Rabs (cos lat) in
  let up_dist := sin lat in
  vadd (vscale radius (to_vector sys long)) (vscale up_dist (vector_system_up sys)).
