(** Binary floating point with rounding.

    The other floating point models compute with exact real numbers.  The models built
    on this file (RoundAngleModel.v and others) instead round after every operation, as
    the `float` and `double` arithmetic of the C++ code does.  A format is given by the
    bits of its significand and its smallest exponent; overflow, NaN and signed zero are
    not modelled (no largest exponent), nor extended intermediate precision other than
    where a function takes a second, wider rounding. *)
From Verif Require Import RBase.

(** Two to the power [e]. *)
Definition pow2 (e : Z) : R := powerRZ 2 e.

(** The numbers of a binary format with [p] bits of significand and smallest exponent
    [emin], subnormal numbers included: [m * 2^e]. *)
Definition fmt (p emin : Z) (x : R) : Prop :=
  exists m e, (Z.abs m < 2 ^ p)%Z /\ (emin <= e)%Z /\ x = IZR m * pow2 e.

(** IEEE 754 binary32 (`float`) and binary64 (`double`). *)
Definition single : R -> Prop := fmt 24 (-149).
Definition double : R -> Prop := fmt 53 (-1074).

(** [r] is a number of the format [F] nearest to [x]. *)
Definition nearest (F : R -> Prop) (x r : R) : Prop :=
  F r /\ forall f, F f -> Rabs (r - x) <= Rabs (f - x).

(** [rnd] rounds to nearest in [F], breaking ties in any way. *)
Definition rounds (F : R -> Prop) (rnd : R -> R) : Prop := forall x, nearest F x (rnd x).

(** IEEE 754's default, ties to even.  The exponent of the last bit of [x]: *)
Definition last_bit (p emin : Z) (x : R) : Z :=
  Z.max emin (Rfloor (ln (Rabs x) / ln 2) + 1 - p).
(** The nearest integer, the even one of two. *)
Definition int_even (y : R) : Z :=
  let n := Rfloor y in
  if Rltb (y - IZR n) (1 / 2) then n
  else if Rltb (1 / 2) (y - IZR n) then (n + 1)%Z
  else if Z.even n then n else (n + 1)%Z.
Definition round_even (p emin : Z) (x : R) : R :=
  if Reqb x 0 then 0
  else let e := last_bit p emin x in IZR (int_even (x * pow2 (- e))) * pow2 e.

Definition round_single : R -> R := round_even 24 (-149).
Definition round_double : R -> R := round_even 53 (-1074).
