(** Model of the cubic curves of include/motive/math/curve.h and src/motive/math/curve.cpp
    in single precision.

    CurveModel.v follows the same functions with exact real numbers.  Here every `float`
    operation rounds with [rnd], in the order of the source; no operations are fused. *)
From Verif Require Import RBase CurveModel RoundModel.

Section Operations.
Variable rnd : R -> R.

(** curve.cpp:285-317 (Init) *)
Definition f_cubic_init (start_y start_derivative end_y end_derivative width_x : R) : cubic :=
  let one_over_w := if Rltb 0 width_x then rnd (1 / width_x) else 1 in
  let one_over_w_sq := rnd (one_over_w * one_over_w) in
  let one_over_w_cubed := rnd (one_over_w_sq * one_over_w) in
  Cubic
    (rnd (rnd (rnd (2 * one_over_w_cubed) * rnd (start_y - end_y)) +
          rnd (one_over_w_sq * rnd (end_derivative + start_derivative))))
    (rnd (rnd (rnd (3 * one_over_w_sq) * rnd (end_y - start_y)) -
          rnd (one_over_w * rnd (end_derivative + rnd (2 * start_derivative)))))
    (if Rltb 0 width_x then start_derivative else 0) start_y.
(** curve.h:389-392 (Evaluate) *)
Definition f_keval (c : cubic) (x : R) : R :=
  rnd (rnd (rnd (rnd (rnd (rnd (k3 c * x) + k2 c) * x) + k1 c) * x) + k0 c).
(** curve.h:396-398 (Derivative) *)
Definition f_kderiv (c : cubic) (x : R) : R :=
  rnd (rnd (rnd (rnd (rnd (3 * k3 c) * x) + rnd (2 * k2 c)) * x) + k1 c).
(** curve.h:378 (ShiftUp), 381-385 (ScaleUp) *)
Definition f_kshift_up (c : cubic) (s : R) : cubic := Cubic (k3 c) (k2 c) (k1 c) (rnd (k0 c + s)).
Definition f_kscale_up (c : cubic) (s : R) : cubic := Cubic (rnd (k3 c * s)) (rnd (k2 c * s)) (rnd (k1 c * s)) (rnd (k0 c * s)).
End Operations.
