(** Model of include/motive/math/curve_util.h and src/motive/math/curve_util.cpp
    over the real numbers.  The conversion of an iteration count to int is taken to
    be in range. *)
From Verif Require Import RBase RangeModel FloatModel CurveModel.

(** curve_util.cpp:25 *)
Definition kEpsilonXPercent : R := 1 / 10000.

(** curve_util.h:30-93 (QuadraticEaseInEaseOut) *)
Record eieo := EIEO { in_curve : quad; out_curve : quad; intersection_x : R; total_x : R }.
(** curve_util.h:39-43 (constructor from one curve) *)
Definition eieo_single (c : quad) (end_x : R) : eieo := EIEO c c end_x end_x.
(** curve_util.h:77-79 (Curve), 46 (Evaluate), 49 (Derivative), 53 (SecondDerivative) *)
Definition e_curve (e : eieo) (x : R) : quad := if Rleb x (intersection_x e) then in_curve e else out_curve e.
Definition e_eval (e : eieo) (x : R) : R := qeval (e_curve e x) x.
Definition e_deriv (e : eieo) (x : R) : R := qderiv (e_curve e x) x.
Definition e_deriv2 (e : eieo) (x : R) : R := qderiv2 (e_curve e x) x.

(** The last element (curve_util.cpp:110). *)
Fixpoint last_root (l : list R) : option R :=
  match l with [] => None | [x] => Some x | _ :: l' => last_root l' end.

(** curve_util.cpp:107-110 (the quadratic in the shift) *)
Definition s_quadratic (f g : quad) : quad :=
  let h := qsub f g in
  Quad (4 * q2 g * q2 f) (4 * (q2 g * q1 h - q1 g * q2 h)) (q1 h * q1 h - 4 * q2 h * q0 h).

(** curve_util.cpp:68-144 (CalculateShiftForUniqueIntersection).  Outer [None]: a
    division by zero or the assert; inner [None]: returns false; otherwise
    (intersection_x, shift_x). *)
Definition shift_for_unique_intersection (f g : quad) (typical_total_x : R) : option (option (R * R)) :=
  let h := qsub f g in
  let a := q2 g in let b := q1 g in
  let p := q2 h in let q := q1 h in let r := q0 h in
  s_roots <- roots (s_quadratic f g) ;;
  match last_root s_roots with
  | None => Some None
  | Some s =>
      if Reqb (2 * p) 0 then None
      else
        let u := - (q + 2 * a * s) / (2 * p) in
        let u_epsilon := typical_total_x * kEpsilonXPercent in
        assert (Rleb (Rabs (qeval (Quad p (q + 2 * a * s) (r - a * s * s + b * s)) u)) u_epsilon) ;;
        Some (Some (if Rltb (Rabs u) u_epsilon then 0 else u, s))
  end.

(** curve_util.cpp:146-240 (CalculateSecondDerivativesFromTypicalCurve).  A second
    derivative is [None] when it is infinite (division by zero). *)
Definition second_derivatives_from_typical (d u bias : R) : option (option R * option R) :=
  assert (Rleb 0 bias && Rleb bias 1 && Rltb 0 u && Rltb 0 d) ;;
  let ease_in_bias := Rleb (1 / 2) bias in
  let s := if ease_in_bias then bias else 1 - bias in
  let u2 := u * u in
  let div x y := if Reqb y 0 then None else Some (x / y) in
  let bigger := div (2 * d) (s * u2) in
  let smaller := div (2 * d) ((1 - s) * u2) in
  Some (if ease_in_bias then (bigger, smaller) else (smaller, bigger)).

(** curve_util.cpp:245-260 (CalculateQuadraticFlyOut) *)
Definition fly_out (start_value end_value start_derivative second_derivative_abs : R) : option eieo :=
  let curvature := if Rleb start_value end_value then 1 else -1 in
  let c := quad_with_origin start_value start_derivative (curvature * second_derivative_abs) in
  xs <- xs_for_value c end_value ;;
  match xs with
  | [] => None
  | x0 :: rest =>
      if Rleb 0 x0 then Some (eieo_single c x0)
      else match rest with
           | x1 :: _ => if Rleb 0 x1 then Some (eieo_single c x1) else None
           | [] => None
           end
  end.

(** curve_util.cpp:262-282 (CalculateQuadraticFlyIn) *)
Definition fly_in (start_value end_value end_derivative second_derivative_abs : R) : option eieo :=
  let curvature := if Rleb end_value start_value then 1 else -1 in
  let c := quad_with_origin end_value end_derivative (curvature * second_derivative_abs) in
  xs <- xs_for_value c start_value ;;
  match xs with
  | [] => None
  | begin_x :: _ =>
      assert (Rleb begin_x 0) ;;
      Some (eieo_single (qshift_right c (- begin_x)) (- begin_x))
  end.

(** curve_util.cpp:287-363 (CalculateQuadraticEaseInEaseOut).  A second derivative of
    [None] is infinity; when both are infinite the fly-in curve has an infinite
    coefficient ([None]). *)
Definition ease_in_ease_out (start_value start_derivative : R) (start_second : option R)
    (end_value end_derivative : R) (end_second : option R) (typical_delta_value typical_total_x : R) : option eieo :=
  let pos o := match o with None => true | Some v => Rltb 0 v end in
  assert (pos start_second && pos end_second && Rltb 0 typical_delta_value && Rltb 0 typical_total_x) ;;
  let value_epsilon := kEpsilonScale * typical_delta_value in
  let typical_derivative := typical_delta_value / typical_total_x in
  let derivative_epsilon := kEpsilonScale * typical_derivative in
  let end_value_eq_start_value := Rleb (Rabs (end_value - start_value)) value_epsilon in
  if end_value_eq_start_value && Rleb (Rabs (end_derivative - start_derivative)) derivative_epsilon then
    Some (eieo_single (quad_with_origin start_value start_derivative 0) 0)
  else
    let start_curvature :=
      if end_value_eq_start_value then (if Rltb start_derivative 0 then 1 else -1)
      else (if Rleb start_value end_value then 1 else -1) in
    match start_second, end_second with
    | None, None => None
    | None, Some e2 => fly_in start_value end_value end_derivative e2
    | Some s2, None => fly_out start_value end_value start_derivative s2
    | Some s2, Some e2 =>
        let c_in := quad_with_origin start_value start_derivative (start_curvature * s2) in
        let c_out := quad_with_origin end_value end_derivative (- start_curvature * e2) in
        shift <- shift_for_unique_intersection c_in c_out typical_total_x ;;
        match shift with
        | None => None
        | Some (ix, tx) =>
            if Rltb tx ix || Rltb ix 0 then fly_out start_value end_value start_derivative (Rmax s2 e2)
            else Some (EIEO c_in (qshift_right c_out tx) ix tx)
        end
    end.

(** ** The spring *)
(** curve_util.h:324-366 (Context); [valid_end] is [None] for infinity. *)
Record context := Ctx { coeff : R; peak : R; peak_x : R; valid_start : R; valid_end : option R }.
(** curve_util.h:577-612 (members); log_sqrt_b_reciprocal_ is recomputed. *)
Record spring := Spring { start_away_coeff : R; start_peak : R; start_x : R; target : R; bias_ : R; r_ : R; sqrt_b : R }.

(** curve_util.h:388-397 (constructor from a value) *)
Definition spring_constant (v : R) : spring := Spring 0 0 0 v 0 0 0.

(** curve_util.cpp:494-499 *)
Definition spring_bias (bias : R) : R :=
  if Reqb bias 1 then 1 else if Rltb bias 1 then Rmin (1 - 5 / 100) bias else Rmax (1 + 5 / 100) bias.

(** curve_util.cpp:489-534 (constructor); [None] for a division by zero or the root
    of a negative number. *)
Definition spring_init (current_value current_derivative target_value typical_delta_value typical_delta_x bias : R) : option spring :=
  let b := spring_bias bias in
  let delta_value := target_value - current_value in
  let downward := Rltb delta_value 0 in
  let toward := Rleb 0 (delta_value * current_derivative) in
  assert (negb (Reqb typical_delta_x 0)) ;;
  let toward_coeff := typical_delta_value / (typical_delta_x * typical_delta_x) in
  assert (Rltb 0 b) ;;
  let away_coeff := toward_coeff / b in
  let abs_coeff := if toward then toward_coeff else away_coeff in
  let coeff := if downward then - abs_coeff else abs_coeff in
  assert (negb (Reqb coeff 0)) ;;
  let peak_x := 1 / 2 * current_derivative / coeff in
  let peak := - (delta_value + coeff * peak_x * peak_x) in
  assert (Rltb 0 away_coeff) ;;
  let sqrt_b := sqrt b in
  let d := sqrt (Rabs peak / away_coeff) in
  let r := if Reqb b 1 then 2 * d else d * (1 + b) / (sqrt_b - b) in
  Some (Spring (if downward then - away_coeff else away_coeff) peak peak_x target_value b r sqrt_b).

(** curve_util.h:569-573 *)
Definition to_internal_x (s : spring) (x : R) : R := x + start_x s.
Definition to_external_x (s : spring) (x : R) : R := x - start_x s.
Definition quadratic_x (s : spring) (x : R) (c : context) : R := to_internal_x s x - peak_x c.

(** curve_util.cpp:573-587: the context of a spring of bias 1. *)
Definition context_bias_1 (s : spring) (x : R) : option context :=
  if Reqb (r_ s) 0 then None
  else
    let iterations := x / r_ s in
    let iterations_of_peak := Rfloor (iterations + 1 / 2) in
    let peak_x := r_ s * IZR iterations_of_peak in
    let valid_x_start := r_ s * (IZR iterations_of_peak - 1 / 2) in
    let swap_signs := negb (Z.rem iterations_of_peak 2 =? 0)%Z in
    Some (Ctx (if swap_signs then - start_away_coeff s else start_away_coeff s)
              (if swap_signs then - start_peak s else start_peak s) peak_x
              valid_x_start (Some (valid_x_start + r_ s))).

(** curve_util.cpp:563-623 (CalculateContext).  With r_ = 0 the quotient x / r_ is
    NaN or infinity: the code returns the constant context for x >= 0. *)
Definition at_end (x : R) : context := Ctx 0 0 0 x None.
Definition calculate_context (s : spring) (external_x : R) : option context :=
  let x := to_internal_x s external_x in
  if Reqb (bias_ s) 1 then context_bias_1 s x
  else if Reqb (r_ s) 0 then (if Rleb 0 x then Some (at_end x) else None)
  else
    let inside_log := 1 - x / r_ s in
    if Rleb inside_log (1 / 100) then Some (at_end x)
    else
      let iterations := ln inside_log * (1 / ln (sqrt_b s)) in
      let n := Rfloor iterations in
      let sqrt_b_pow_peak_before := powerRZ (sqrt_b s) n in
      let x_of_peak_before := r_ s * (1 - sqrt_b_pow_peak_before) in
      let x_of_peak_after := r_ s * (1 - sqrt_b_pow_peak_before * sqrt_b s) in
      let zero_percent := 1 / (1 + bias_ s) in
      let x_of_zero := lerp (Rg x_of_peak_before x_of_peak_after) zero_percent in
      let toward := Rltb x x_of_zero in
      let iterations_of_peak := (if toward then n else n + 1)%Z in
      let swap_signs := negb (Z.rem iterations_of_peak 2 =? 0)%Z in
      let b_pow_peak_before := sqrt_b_pow_peak_before * sqrt_b_pow_peak_before in
      let b_pow_peak := if toward then b_pow_peak_before else b_pow_peak_before * bias_ s in
      let peak_signed := start_peak s * b_pow_peak in
      let coeff_signed := if toward then start_away_coeff s * bias_ s else start_away_coeff s in
      Some (Ctx (if swap_signs then - coeff_signed else coeff_signed)
                (if swap_signs then - peak_signed else peak_signed)
                (if toward then x_of_peak_before else x_of_peak_after)
                (if toward then x_of_peak_before else x_of_zero)
                (Some (if toward then x_of_zero else x_of_peak_after))).

(** curve_util.cpp:536-554: the next portion of the curve; [None] for a division by
    zero or the root of a negative number, or when the portion never ends. *)
Definition next_context (s : spring) (c : context) : option context :=
  x_end <- valid_end c ;;
  let next_is_toward := Reqb (peak_x c) x_end in
  assert (next_is_toward || negb (Reqb (bias_ s) 0)) ;;
  let coeff' := if next_is_toward then coeff c * bias_ s else - coeff c / bias_ s in
  let peak' := if next_is_toward then peak c else - peak c * bias_ s in
  assert (negb (Reqb coeff' 0)) ;;
  assert (Rleb 0 (- peak' / coeff')) ;;
  let x_width := sqrt (- peak' / coeff') in
  Some (if next_is_toward then Ctx coeff' (peak c) (peak_x c) x_end (Some (x_end + x_width))
        else Ctx coeff' peak' (x_end + x_width) x_end (Some (x_end + x_width))).

(** curve_util.h:563-567 (ValidX) *)
Definition valid_x (s : spring) (external_x : R) (c : context) : bool :=
  match valid_end c with
  | Some e => contains_with_tolerance (Rg (valid_start c) e) (to_internal_x s external_x) (1 / 100)
  | None => true
  end.

Definition after_end (x : R) (c : context) : bool :=
  match valid_end c with Some e => Rltb e x | None => false end.
(** curve_util.cpp:536-561 (IncrementContextInternal) *)
Definition increment_internal (s : spring) (x : R) (c : context) : option context :=
  c' <- next_context s c ;;
  if after_end x c' then calculate_context s (to_external_x s x) else Some c'.
(** curve_util.h:435-441 (IncrementContext) *)
Definition increment_context (s : spring) (external_x : R) (c : context) : option context :=
  let x := to_internal_x s external_x in
  c' <- (if after_end x c then increment_internal s x c else Some c) ;;
  assert (valid_x s external_x c') ;; Some c'.

(** curve_util.h:511-516, 525-529, 539-543 (…WithContext), with their assert. *)
Definition s_eval_with (s : spring) (x : R) (c : context) : option R :=
  assert (valid_x s x c) ;;
  Some (target s + peak c + coeff c * quadratic_x s x c * quadratic_x s x c).
Definition s_deriv_with (s : spring) (x : R) (c : context) : option R :=
  assert (valid_x s x c) ;; Some (2 * coeff c * quadratic_x s x c).
Definition s_deriv2_with (s : spring) (x : R) (c : context) : option R :=
  assert (valid_x s x c) ;; Some (2 * coeff c).
(** curve_util.h:466-469 (Evaluate), 481-484 (Derivative) *)
Definition s_eval (s : spring) (x : R) : option R := c <- calculate_context s x ;; s_eval_with s x c.
Definition s_deriv (s : spring) (x : R) : option R := c <- calculate_context s x ;; s_deriv_with s x c.

(** curve_util.cpp:625-633 (IterationX), for a whole number of iterations. *)
Definition iteration_x (s : spring) (iterations : Z) : R :=
  if Reqb (bias_ s) 1 then r_ s * IZR iterations
  else to_external_x s (r_ s * (1 - powerRZ (sqrt_b s) iterations)).
