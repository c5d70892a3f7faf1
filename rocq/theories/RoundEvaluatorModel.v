(** Model of playing a spline with BulkSplineEvaluator (bulk_spline_evaluator.cpp) in single
    precision, for one index.

    EvaluatorModel.v and CompactSplineModel.v follow the same functions with exact real
    numbers.  Here every `float` operation rounds with [rnd], in the order of the source.
    [tangent] is what Derivative() of a node computes from its angle: the standard doesn't
    say how `std::tan` rounds, so it is any function.  Blending from one spline to another
    isn't modelled, nor are rates and repeating that change while a spline plays. *)
From Verif Require Import RBase RangeModel CurveModel CompactSplineModel EvaluatorModel RoundModel RoundRangeModel RoundNodeModel RoundCubicModel.

Section Operations.
Variable rnd : R -> R.
Variable tangent : Z -> R.

(** compact_spline_node.h:87-91 (X, Y) *)
Definition f_node_x (s : spline) (n : node) : R := f_x rnd (nx n) (x_granularity s).
Definition f_node_y (s : spline) (n : node) : R := f_y rnd (ny n) (start_ (y_range s)) (end_ (y_range s)).
(** compact_spline.h:252-258 (StartX, EndX) *)
Definition f_start_x (s : spline) : option R := n <- front s ;; Some (f_node_x s n).
Definition f_end_x (s : spline) : option R := n <- back s ;; Some (f_node_x s n).
(** compact_spline.cpp:187-196 (NodeX) *)
Definition f_node_x_at (s : spline) (i : Z) : option R :=
  if (i =? kAfterSplineIndex)%Z then f_end_x s
  else if (i =? kBeforeSplineIndex)%Z then Some 0
  else n <- getz (nodes s) i ;; Some (f_node_x s n).
(** compact_spline.h:548-551 (WidthX): the difference of the 16 bit numbers is an int. *)
Definition f_width_x (s : spline) (a b : node) : R := rnd (IZR (nx b - nx a) * x_granularity s).
(** compact_spline.cpp:275-308 (IndexForX) *)
Definition f_index_for_x (s : spline) (x : R) (guess : Z) : option Z :=
  q <- f_quantize_x rnd x (x_granularity s) ;;
  f <- front s ;;
  b <- back s ;;
  if (q <? nx f)%Z then Some kBeforeSplineIndex
  else if ((q =? nx b) && (2 <=? num_nodes s))%Z then Some (num_nodes s - 2)%Z
  else if (nx b <=? q)%Z then Some kAfterSplineIndex
  else
    in_guess <- index_contains_x s q guess ;;
    use_guess <- (if in_guess then
                    n <- getz (nodes s) guess ;; m <- getz (nodes s) (guess + 1) ;;
                    Some (Rltb 0 (f_width_x s n m))
                  else Some false) ;;
    if use_guess then Some guess
    else
      i <- binary_search_index s q ;;
      ok <- index_contains_x s q i ;;
      assert ok ;; Some i.
(** compact_spline.cpp:310-326 (IndexForXAllowingRepeat) *)
Definition f_index_for_x_allowing_repeat (s : spline) (x : R) (guess : Z) (repeat : bool) : option (Z * R) :=
  i <- f_index_for_x s x guess ;;
  if negb repeat || negb (i =? kAfterSplineIndex)%Z then Some (i, x)
  else
    e <- f_end_x s ;;
    repeat_x <- f_normalize_close rnd 0 e x ;;
    j <- f_index_for_x s repeat_x 0 ;;
    Some (j, repeat_x).
(** compact_spline.cpp:261-273 (RangeX(index)); an end of [None] is infinity. *)
Definition f_range_x (s : spline) (i : Z) : option (R * option R) :=
  if (i =? kBeforeSplineIndex)%Z then e <- f_start_x s ;; Some (0, Some e)
  else if (i =? kAfterSplineIndex)%Z then b <- f_end_x s ;; Some (b, None)
  else
    a <- getz (nodes s) i ;; b <- getz (nodes s) (i + 1) ;;
    Some (f_node_x s a, Some (f_node_x s b)).
(** range.h:67 (Length), with an infinite end. *)
Definition f_length_x (r : R * option R) : option R := match snd r with Some e => Some (rnd (e - fst r)) | None => None end.
(** compact_spline.cpp:379-396 (CreateCubicInit) *)
Definition f_create_cubic_init (s : spline) (i : Z) : option cinit :=
  if outside_spline i then
    n <- (if (i =? kBeforeSplineIndex)%Z then front s else back s) ;;
    let y := f_node_y s n in Some (CInit y 0 y 0 1)
  else
    a <- getz (nodes s) i ;; b <- getz (nodes s) (i + 1) ;;
    Some (CInit (f_node_y s a) (tangent (nangle a)) (f_node_y s b) (tangent (nangle b)) (f_width_x s a b)).
Definition f_cubic_of (c : cinit) : cubic :=
  f_cubic_init rnd (ci_start_y c) (ci_start_derivative c) (ci_end_y c) (ci_end_derivative c) (ci_width_x c).

(** bulk_spline_evaluator.cpp:298-326 (InitCubic) *)
Definition f_init_cubic (s : slot) (start_x : R) : option slot :=
  match source s with
  | None => Some s
  | Some sp =>
      p <- f_index_for_x_allowing_repeat sp start_x ((x_index s + 1) mod 65536)%Z (repeats s) ;;
      let (i, new_start_x) := (p : Z * R) in
      r <- f_range_x sp i ;;
      c <- f_create_cubic_init sp i ;;
      Some (Slot (rate s) (offset_y s) (scale_y s) (source s) i (repeats s) (modular_range s)
                 (rnd (new_start_x - fst r)) (f_length_x r)
                 (f_kshift_up rnd (f_kscale_up rnd (f_cubic_of c) (scale_y s)) (offset_y s)) (cur_y s))
  end.
(** bulk_spline_evaluator.cpp:328-332 (EvaluateIndex) *)
Definition f_evaluate_slot (s : slot) : slot :=
  Slot (rate s) (offset_y s) (scale_y s) (source s) (x_index s) (repeats s) (modular_range s) (cubic_x s) (cubic_x_end s) (curve s)
       (f_keval rnd (curve s) (cubic_x s)).
(** bulk_spline_evaluator.cpp:153-164 (JumpToSpline), 166-193 (SetSplines, no blending) *)
Definition f_start_spline (sp : spline) (p : playback) (s : slot) : option slot :=
  s' <- f_init_cubic (Slot (playback_rate p) (y_offset p) (y_scale p) (Some sp) kInvalidSplineIndex (repeat_ p) (modular_range s)
                           (cubic_x s) (cubic_x_end s) (curve s) (cur_y s)) (start_at p) ;;
  Some (f_evaluate_slot s').
(** bulk_spline_evaluator.h:129-131 (X), 294-298 (CubicStartX) *)
Definition f_slot_x (s : slot) : option R :=
  sp <- source s ;; a <- f_node_x_at sp (x_index s) ;; Some (rnd (a + cubic_x s)).
(** bulk_spline_evaluator.h:150-152 (Derivative) *)
Definition f_slot_derivative (s : slot) : R := rnd (rate s * f_kderiv rnd (curve s) (cubic_x s)).
(** bulk_spline_evaluator.cpp:281-296 (UpdateCubicXs_OneStep), for one index *)
Definition f_step_x (delta : R) (s : slot) : slot :=
  Slot (rate s) (offset_y s) (scale_y s) (source s) (x_index s) (repeats s) (modular_range s)
       (rnd (cubic_x s + rnd (delta * rate s))) (cubic_x_end s) (curve s) (cur_y s).
(** bulk_spline_evaluator.cpp:340-355 (AdvanceFrame), for one index *)
Definition f_advance_slot (delta : R) (s : slot) : option slot :=
  let s' := f_step_x delta s in
  t <- (if past_end s' then x <- f_slot_x s' ;; f_init_cubic s' x else Some s') ;; Some (f_evaluate_slot t).
(** Any number of frames. *)
Fixpoint f_frames (s : slot) (deltas : list R) : option slot :=
  match deltas with [] => Some s | d :: l => s' <- f_advance_slot d s ;; f_frames s' l end.
End Operations.
