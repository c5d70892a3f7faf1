(** Model of blending from one spline to another with BulkSplineEvaluator
    (bulk_spline_evaluator.cpp) in single precision, for one index.

    EvaluatorModel.v follows the same functions with exact real numbers.  Here every `float`
    operation rounds with [rnd], in the order of the source; no operations are fused.
    [tangent] is what Derivative() of a node computes from its angle, any function. *)
From Verif Require Import RBase RangeModel CurveModel CompactSplineModel EvaluatorModel RoundModel RoundRangeModel RoundNodeModel RoundCubicModel RoundEvaluatorModel.

Section Operations.
Variable rnd : R -> R.
Variable tangent : Z -> R.

(** curve.h:402-404 (SecondDerivative) *)
Definition f_kderiv2 (c : cubic) (x : R) : R := rnd (rnd (rnd (6 * k3 c) * x) + rnd (2 * k2 c)).
(** curve.cpp:319-338 (ShiftLeft), curve.h:375 (ShiftRight) *)
Definition f_kshift_left (c : cubic) (s : R) : cubic :=
  if Reqb s 0 then c else Cubic (k3 c) (rnd (f_kderiv2 c s * (1 / 2))) (f_kderiv rnd c s) (f_keval rnd c s).
Definition f_kshift_right (c : cubic) (s : R) : cubic := f_kshift_left c (- s).

(** compact_spline.cpp:198-203 (NodeY) *)
Definition f_node_y_at (s : spline) (i : Z) : option R :=
  n <- (if (i =? kAfterSplineIndex)%Z then back s else if (i =? kBeforeSplineIndex)%Z then front s else getz (nodes s) i) ;;
  Some (f_node_y rnd s n).
(** bulk_spline_evaluator.cpp:70-120 (CalculateBlendInit) *)
Definition f_calculate_blend_init (s : slot) (sp : spline) (p : playback) : option cinit :=
  let blend_width := rnd (blend_x p * playback_rate p) in
  q <- f_index_for_x_allowing_repeat rnd sp (rnd (start_at p + blend_width)) kInvalidSplineIndex (repeat_ p) ;;
  let (i, blend_end_x) := (q : Z * R) in
  e <- (if outside_spline i then y <- f_node_y_at sp i ;; Some (y, 0)
        else
          a <- f_node_x_at rnd sp i ;; c <- f_create_cubic_init rnd tangent sp i ;;
          let curve_x := rnd (blend_end_x - a) in
          Some (f_keval rnd (f_cubic_of rnd c) curve_x, f_kderiv rnd (f_cubic_of rnd c) curve_x)) ;;
  let end_y := rnd (rnd (fst (e : R * R) * y_scale p) + y_offset p) in
  let r := modular_range s in
  ys <- (if valid r then
           start <- f_normalize_close rnd (start_ r) (end_ r) (cur_y s) ;;
           end_normalized <- f_normalize_close rnd (start_ r) (end_ r) end_y ;;
           diff <- f_normalize rnd (start_ r) (end_ r) (rnd (end_normalized - start)) ;;
           Some (start, rnd (start + diff))
         else Some (cur_y s, end_y)) ;;
  Some (CInit (fst ys) (f_slot_derivative rnd s) (snd (ys : R * R)) (snd e) blend_width).
(** bulk_spline_evaluator.cpp:122-151 (BlendToSpline) *)
Definition f_blend_to_spline (sp : spline) (p : playback) (s : slot) : option slot :=
  c <- f_calculate_blend_init s sp p ;;
  q <- f_index_for_x_allowing_repeat rnd sp (start_at p) kInvalidSplineIndex (repeat_ p) ;;
  let (i, blend_start_x) := (q : Z * R) in
  a <- f_node_x_at rnd sp i ;;
  let start := rnd (blend_start_x - a) in
  Some (Slot (playback_rate p) (y_offset p) (y_scale p) (Some sp) i (repeat_ p) (modular_range s)
             start (Some (rnd (start + rnd (blend_x p * playback_rate p)))) (f_kshift_right (f_cubic_of rnd c) start) (cur_y s)).
(** bulk_spline_evaluator.cpp:166-193 (SetSplines): what happens to one index. *)
Definition f_set_spline (sp : spline) (p : playback) (s : slot) : option slot :=
  match source s with
  | Some _ => if Rltb 0 (blend_x p) then s' <- f_blend_to_spline sp p s ;; Some (f_evaluate_slot rnd s') else f_start_spline rnd tangent sp p s
  | None => f_start_spline rnd tangent sp p s
  end.
End Operations.
