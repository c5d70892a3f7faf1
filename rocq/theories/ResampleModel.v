(** Model of InitFromSpline (src/motive/math/compact_spline.cpp:71-97 and 111-120): a spline
    is evaluated at regular distances and rebuilt from the results. *)
From Verif Require Import RBase RangeModel CompactSplineModel EvaluatorModel.

(** compact_spline.cpp:39 *)
Definition kYRangeBufferPercent : R := 105 / 100.
(** compact_spline.cpp:80-92 (AddPoint of AppendToSplineBulkOutput), for one spline, and the
    calls of it in BulkEvaluate. *)
Definition add_point (ev : evaluator) (s : spline) : option spline :=
  p <- getz ev 0 ;; x <- slot_x p ;; add_node s x (cur_y p) (slot_derivative p) AddWithoutModification.
Fixpoint add_points (l : list (Z * evaluator)) (s : spline) : option spline :=
  match l with [] => Some s | (_, ev) :: l' => s' <- add_point ev s ;; add_points l' s' end.
(** compact_spline.cpp:111-120 (InitFromSpline); [s] is this spline, [src] the other one. *)
Definition init_from_spline (s src : spline) : option spline :=
  assert (1 <? max_nodes s)%Z ;;
  sx <- start_x src ;;
  ex <- end_x src ;;
  l <- bulk_evaluate (Z.to_nat (max_nodes s)) [src] sx ((ex - sx) / IZR (max_nodes s - 1)) (max_nodes s) ;;
  add_points l (init s (lengthen (y_range src) kYRangeBufferPercent) (x_granularity src)).
