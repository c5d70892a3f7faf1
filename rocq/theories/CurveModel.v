(** Model of include/motive/math/curve.h and src/motive/math/curve.cpp over the
    real numbers.  Text output and graphs are left out. *)
From Verif Require Import RBase RangeModel FloatModel.

(** curve.h:91-318: c2 x^2 + c1 x + c0. *)
Record quad := Quad { q2 : R; q1 : R; q0 : R }.
(** curve.h:356-448: c3 x^3 + c2 x^2 + c1 x + c0. *)
Record cubic := Cubic { k3 : R; k2 : R; k1 : R; k0 : R }.

(** curve.h:39-40 *)
Definition kEpsilonScale : R := / pow2 22.

(** curve.cpp:31-40 (Init with start derivative) *)
Definition quad_with_start_derivative (start_y start_derivative end_y : R) : quad :=
  Quad (end_y - start_y - start_derivative) start_derivative start_y.
(** curve.cpp:42-50 (Init with origin) *)
Definition quad_with_origin (y derivative second_derivative : R) : quad :=
  Quad (1 / 2 * second_derivative) derivative y.
(** curve.cpp:52-64 (Init with point) *)
Definition quad_with_point (x y_at_x derivative_at_x second_derivative : R) : quad :=
  let c2 := 1 / 2 * second_derivative in
  let c1 := derivative_at_x - second_derivative * x in
  Quad c2 c1 (y_at_x - x * (c2 * x + c1)).

(** curve.h:151-153, 157, 161-166, 172-175 *)
Definition qeval (q : quad) (x : R) : R := (q2 q * x + q1 q) * x + q0 q.
Definition qderiv (q : quad) (x : R) : R := 2 * q2 q * x + q1 q.
Definition qderiv2 (q : quad) (x : R) : R := 2 * q2 q.
Definition qderiv3 (q : quad) (x : R) : R := 0.

(** curve.cpp:66-83 (ShiftLeft), curve.h:137 (ShiftRight), 140 (ShiftUp), 143-147 (ScaleUp) *)
Definition qshift_left (q : quad) (s : R) : quad :=
  if Reqb s 0 then q else Quad (q2 q) (qderiv q s) (qeval q s).
Definition qshift_right (q : quad) (s : R) : quad := qshift_left q (- s).
Definition qshift_up (q : quad) (s : R) : quad := Quad (q2 q) (q1 q) (q0 q + s).
Definition qscale_up (q : quad) (s : R) : quad := Quad (q2 q * s) (q1 q * s) (q0 q * s).
(** curve.h:117-130, 320-330 (+, -) *)
Definition qadd (a b : quad) : quad := Quad (q2 a + q2 b) (q1 a + q1 b) (q0 a + q0 b).
Definition qsub (a b : quad) : quad := Quad (q2 a - q2 b) (q1 a - q1 b) (q0 a - q0 b).
(** curve.h:285-288 (ScaleInXByReciprocal), 278-280 (ScaleInX), 291-293 (ScaleInY) *)
Definition qscale_in_x_by_reciprocal (q : quad) (r : R) : quad := Quad (q2 q * r * r) (q1 q * r) (q0 q).
Definition qscale_in_x (q : quad) (s : R) : quad := qscale_in_x_by_reciprocal q (1 / s).
Definition qscale_in_y (q : quad) (s : R) : quad := Quad (s * q2 q) (s * q1 q) (s * q0 q).

(** curve.h:297-300 (AbsCoeff), 201-205 (MaxCoeff), 189-195 (EpsilonOfCoefficients), 209 (Discriminant) *)
Definition qabs (q : quad) : quad := Quad (Rabs (q2 q)) (Rabs (q1 q)) (Rabs (q0 q)).
Definition max_coeff (q : quad) : R := Rmax (Rmax (Rabs (q2 q)) (Rabs (q1 q))) (Rabs (q0 q)).
Definition qepsilon (q : quad) : R := max_coeff q * kEpsilonScale.
Definition discriminant (q : quad) : R := q1 q * q1 q - 4 * q2 q * q0 q.
(** curve.cpp:85-91 (ReliableDiscriminant) *)
Definition reliable_discriminant (q : quad) (epsilon : R) : R := clamp_near_zero (discriminant q) epsilon.

(** curve.h:217-222 (CriticalPoint), [None] when the assert fails or c2 is zero. *)
Definition critical_point (q : quad) : option R :=
  assert (Rleb (qepsilon q) (Rabs (q2 q))) ;;
  assert (negb (Reqb (q2 q) 0)) ;;
  Some (- (q1 q / q2 q) * (1 / 2)).

(** curve.cpp:187-218 (RootsWithoutNormalizing).  [None]: a division by zero, or
    the assert. *)
Definition roots_without_normalizing (q : quad) : option (list R) :=
  let epsilon := qepsilon q in
  if Rltb (Rabs (q2 q)) epsilon then
    if Rltb (Rabs (q1 q)) epsilon then Some []
    else if Reqb (q1 q) 0 then None else Some [- q0 q / q1 q]
  else
    let d := reliable_discriminant q epsilon in
    if Rltb d 0 then Some []
    else if Reqb (q2 q) 0 then None
    else
      let divisor := 1 / q2 q * (1 / 2) in
      if Reqb d 0 then Some [- q1 q * divisor]
      else
        let root_minus := (- q1 q - sqrt d) * divisor in
        let root_plus := (- q1 q + sqrt d) * divisor in
        assert (negb (Reqb root_minus root_plus)) ;;
        Some [Rmin root_minus root_plus; Rmax root_minus root_plus].

(** float.cpp:25-29 (kInvertablePowerOf2Range) *)
Definition kInvertablePowerOf2Range : range := Rg (pow2 kMinInvertableExponent) (pow2 kMaxInvertableExponent).

(** curve.cpp:106-125: the scale of the x axis.  The quotient is infinite or NaN
    when both c1 and c0 are zero; then Contains is false. *)
Definition x_scale_reciprocal (q : quad) : R :=
  let a := qabs q in
  let scale_with_linear := Rleb (q0 a) (q1 a) in
  let comparison_coeff := Rmax (q1 a) (q0 a) in
  let quotient := q2 a / comparison_coeff in
  let unclamped :=
    if Reqb comparison_coeff 0 || negb (contains kInvertablePowerOf2Range quotient) then 1
    else if scale_with_linear then r_reciprocal_exponent quotient
    else r_sqrt_reciprocal_exponent quotient in
  Rmin unclamped (r_max_power_of_2_scale (q1 a) kMaxInvertableExponent).

(** curve.cpp:157-162: the scale of the y axis. *)
Definition y_scale (x_scaled : quad) : R :=
  let a := qabs x_scaled in
  let unclamped := r_reciprocal_exponent (clamp kInvertablePowerOf2Range (q2 a)) in
  let m := Rmin (r_max_power_of_2_scale (q0 a) (kMaxInvertableExponent - 1))
                (r_max_power_of_2_scale (q1 a) (kMaxInvertableExponent - 1)) in
  Rmin m unclamped.

(** curve.cpp:93-182 (Roots), without the debug checks below. *)
Definition normalized (q : quad) : quad :=
  let x_scaled := qscale_in_x_by_reciprocal q (x_scale_reciprocal q) in
  qscale_in_y x_scaled (y_scale x_scaled).
Definition roots (q : quad) : option (list R) :=
  l <- roots_without_normalizing (normalized q) ;;
  Some (map (fun x => x * x_scale_reciprocal q) l).

(** curve.cpp:131-140: the first debug assert of Roots (MOTIVE_CURVE_SANITY_CHECKS). *)
Definition x_scale_sane (q : quad) : bool :=
  let a := qabs q in
  let scale_with_linear := Rleb (q0 a) (q1 a) in
  let comparison_coeff := Rmax (q1 a) (q0 a) in
  if Reqb comparison_coeff 0 || negb (contains kInvertablePowerOf2Range (q2 a / comparison_coeff)) then true
  else
    let s := qabs (qscale_in_x_by_reciprocal q (x_scale_reciprocal q)) in
    let quotient := q2 s / (if scale_with_linear then q1 s else q0 s) in
    Rleb (1 / 2) quotient && Rleb quotient 2.

(** curve.h:246-249 (XsForValue) *)
Definition xs_for_value (q : quad) (v : R) : option (list R) := roots (Quad (q2 q) (q1 q) (q0 q - v)).

(** curve.cpp:220-231 (RootsInRange) *)
Definition roots_in_range (q : quad) (valid_x : range) : option (list R) :=
  l <- roots q ;;
  r <- values_in_range valid_x (length_ valid_x * kEpsilonScale) l ;;
  Some (firstn (Z.to_nat (snd r)) (fst r)).

(** curve.cpp:233-270 (RangesMatchingSign), [None] when the assert fails. *)
Definition ranges_matching_sign (q : quad) (x_limits : range) (sign : R) : option (list range) :=
  rs <- roots_in_range q x_limits ;;
  let valid_at_start := Rleb 0 (sign * qeval q (start_ x_limits)) in
  let valid_at_end := Rleb 0 (sign * qeval q (end_ x_limits)) in
  assert (Nat.eqb (length rs) 1 || Bool.eqb valid_at_start valid_at_end) ;;
  match rs with
  | [] => if valid_at_start then Some [Rg (start_ x_limits) (end_ x_limits)] else Some []
  | r0 :: rest =>
      match rest, valid_at_start with
      | r1 :: _, true => Some [Rg (start_ x_limits) r0; Rg r1 (end_ x_limits)]
      | _, _ =>
          let start := if valid_at_start then start_ x_limits else r0 in
          let end' := if valid_at_end then end_ x_limits else match rest with r1 :: _ => r1 | [] => r0 end in
          Some [Rg start end']
      end
  end.

(** curve.cpp:285-317 (CubicCurve::Init) *)
Definition cubic_init (start_y start_derivative end_y end_derivative width_x : R) : cubic :=
  let w1 := if Rltb 0 width_x then 1 / width_x else 1 in
  let w2 := w1 * w1 in
  let w3 := w2 * w1 in
  Cubic (2 * w3 * (start_y - end_y) + w2 * (end_derivative + start_derivative))
        (3 * w2 * (end_y - start_y) - w1 * (end_derivative + 2 * start_derivative))
        (if Rltb 0 width_x then start_derivative else 0)
        start_y.

(** curve.h:389-413 *)
Definition keval (c : cubic) (x : R) : R := ((k3 c * x + k2 c) * x + k1 c) * x + k0 c.
Definition kderiv (c : cubic) (x : R) : R := (3 * k3 c * x + 2 * k2 c) * x + k1 c.
Definition kderiv2 (c : cubic) (x : R) : R := 6 * k3 c * x + 2 * k2 c.
Definition kderiv3 (c : cubic) (x : R) : R := 6 * k3 c.

(** curve.cpp:319-338 (ShiftLeft), curve.h:375-385 (ShiftRight, ShiftUp, ScaleUp) *)
Definition kshift_left (c : cubic) (s : R) : cubic :=
  if Reqb s 0 then c else Cubic (k3 c) (kderiv2 c s * (1 / 2)) (kderiv c s) (keval c s).
Definition kshift_right (c : cubic) (s : R) : cubic := kshift_left c (- s).
Definition kshift_up (c : cubic) (s : R) : cubic := Cubic (k3 c) (k2 c) (k1 c) (k0 c + s).
Definition kscale_up (c : cubic) (s : R) : cubic := Cubic (k3 c * s) (k2 c * s) (k1 c * s) (k0 c * s).

(** curve.h:424-430 (Epsilon) *)
Definition kepsilon (c : cubic) : R :=
  Rmax (Rmax (Rmax (Rabs (k3 c)) (Rabs (k2 c))) (Rabs (k1 c))) (Rabs (k0 c)) * kEpsilonScale.
(** curve.cpp:340-350 (UniformCurvature) *)
Definition uniform_curvature (c : cubic) (x_limits : range) : bool :=
  let a := clamp_near_zero (kderiv2 c (start_ x_limits)) (kepsilon c) in
  let b := clamp_near_zero (kderiv2 c (end_ x_limits)) (kepsilon c) in
  Rleb 0 (a * b).
