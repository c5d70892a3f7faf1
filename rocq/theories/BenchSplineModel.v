(** Model of the splines of the benchmark program (src/benchmarker/benchmarker.cpp:46-50, 66-89).
    Over real numbers; an infinity is the lack of a number.  [None] is a failed assertion, or
    the access to the last node of none. *)
From Verif Require Import RBase RangeModel CompactSplineModel.
From Verif Require SplinePoolModel.

(** benchmarker.cpp:71-77: the loop that finds the y-extremes. *)
Fixpoint y_extremes (nodes : list unode) (m : option (R * R)) : option (R * R) :=
  match nodes with
  | [] => m
  | n :: rest => y_extremes rest (Some match m with None => (uy n, uy n) | Some (mn, mx) => (Rmin (uy n) mn, Rmax (uy n) mx) end)
  end.
(** benchmarker.cpp:84-88: the loop that scales and adds the nodes; AddNode's method is the
    default, compact_spline.h:147-149. *)
Fixpoint add_scaled (x_scale y_scale : R) (nodes : list unode) (s : spline) : option spline :=
  match nodes with
  | [] => Some s
  | n :: rest => s' <- add_node s (ux n * x_scale) (uy n * y_scale) (uderivative n / x_scale) EnsureCubicWellBehaved ;; add_scaled x_scale y_scale rest s'
  end.
(** benchmarker.cpp:69-89 (CreateSpline), for the spline [s]. *)
Definition create_spline (nodes : list unode) (x_scale y_scale : R) (s : spline) : option spline :=
  m <- y_extremes nodes None ;;
  last <- getz nodes (len nodes - 1)%Z ;;
  add_scaled x_scale y_scale nodes (init s (Rg (y_scale * fst m) (y_scale * snd m)) (recommend_x_granularity (x_scale * ux last))).
(** compact_spline.h:81-82: a new CompactSpline; its range is not set. *)
Definition new_spline (r : range) : spline := Spline r 0 [] SplinePoolModel.default_max_nodes.
