(** Model of include/motive/math/float.h at the level of 32-bit patterns
    ([bits] is the unsigned value of the union's integer), and the same helpers on
    real numbers for use in the curve model. *)
From Verif Require Import RBase.

(** float.h:26-28 *)
Definition kExponentMask : Z := 255.
Definition kExponentShift : Z := 23.
Definition kExponentOffset : Z := 127.
(** float.h:35-40 *)
Definition kInfinityExponent : Z := 128.
Definition kMaxFloatExponent : Z := 127.
Definition kMaxInvertableExponent : Z := 126.
Definition kMinInvertableExponent : Z := -126.
Definition kZeroExponent : Z := -127.

(** float.h:60-64 (ExponentAsInt) on the bit pattern; the result is an int, the
    subtraction cannot wrap. *)
Definition exponent_as_int (bits : Z) : Z :=
  (Z.land (Z.shiftr bits kExponentShift) kExponentMask - kExponentOffset)%Z.
(** float.h:71-75 (ExponentFromInt): the bit pattern. *)
Definition exponent_from_int (i : Z) : Z :=
  Z.shiftl (Z.land (i + kExponentOffset) kExponentMask) kExponentShift.
(** float.h:86-88 (ReciprocalExponent) *)
Definition reciprocal_exponent (bits : Z) : Z := exponent_from_int (- exponent_as_int bits).
(** float.h:96-98 (SqrtReciprocalExponent); C++ division truncates. *)
Definition sqrt_reciprocal_exponent (bits : Z) : Z := exponent_from_int (Z.quot (- exponent_as_int bits) 2).
(** float.h:102-105 (MaxPowerOf2Scale) *)
Definition max_power_of_2_scale (bits max_exponent : Z) : Z :=
  exponent_from_int (Z.min kMaxFloatExponent (max_exponent - exponent_as_int bits)).

(** 2^k for any integer k. *)
Definition pow2 (k : Z) : R := powerRZ 2 k.

(** ** The same on real numbers
    float.h:60-64 for a real: floor(log2 |x|), with the documented results for
    values too small or too large for a float. *)
Definition r_exponent (x : R) : Z :=
  if Rltb (Rabs x) (pow2 (-126)) then kZeroExponent
  else if Rleb (pow2 128) (Rabs x) then kInfinityExponent
  else Rfloor (ln (Rabs x) / ln 2).
(** float.h:71-75 *)
Definition r_exponent_from_int (i : Z) : R := if (i =? kZeroExponent)%Z then 0 else pow2 i.
(** float.h:86-88, 96-98, 102-105 *)
Definition r_reciprocal_exponent (x : R) : R := r_exponent_from_int (- r_exponent x).
Definition r_sqrt_reciprocal_exponent (x : R) : R := r_exponent_from_int (Z.quot (- r_exponent x) 2).
Definition r_max_power_of_2_scale (x : R) (max_exponent : Z) : R :=
  r_exponent_from_int (Z.min kMaxFloatExponent (max_exponent - r_exponent x)).
(** float.h:111-114 (ClampNearZero) *)
Definition clamp_near_zero (x epsilon : R) : R := if Rleb (Rabs x) epsilon then 0 else x.
