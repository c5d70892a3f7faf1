(** What the spline theorems talk about, apart from the model's functions. *)
From Verif Require Import RBase RangeModel CurveModel CompactSplineModel.
From Coq Require Import Sorting.Sorted.

(** One AddNode call. *)
Record call := Call { c_x : R; c_y : R; c_derivative : R; c_method : add_method }.
(** A sequence of AddNode calls, [None] when one of them fails an assert. *)
Fixpoint add_nodes (s : spline) (l : list call) : option spline :=
  match l with
  | [] => Some s
  | c :: l' => s' <- add_node s (c_x c) (c_y c) (c_derivative c) (c_method c) ;; add_nodes s' l'
  end.

(** A spline that can be evaluated: the nodes are in order and their fields within
    the range of their types, and the segment indices are below the markers. *)
Record spline_ok (s : spline) : Prop := {
  ok_granularity : 0 < x_granularity s;
  ok_y_range : start_ (y_range s) <= end_ (y_range s);
  ok_sorted : StronglySorted Z.le (map nx (nodes s));
  ok_fields : Forall (fun n => 0 <= nx n <= 65535 /\ 0 <= ny n <= 65535 /\ -16384 < nangle n < 16384)%Z (nodes s);
  ok_count : (1 <= num_nodes s <= 65534)%Z
}.

(** The position in grains lies in [start of the segment, end of the segment]. *)
Definition segment_holds (s : spline) (i q : Z) : Prop :=
  exists a b, getz (nodes s) i = Some a /\ getz (nodes s) (i + 1) = Some b /\ (nx a <= q <= nx b)%Z.

(** Value and derivative, at [x], of the cubic of segment [i]. *)
Definition segment_value (s : spline) (i : Z) (x : R) : option (R * R) :=
  a <- getz (nodes s) i ;; b <- getz (nodes s) (i + 1) ;;
  let c := cubic_init (node_y a (y_range s)) (node_derivative a) (node_y b (y_range s)) (node_derivative b)
                      (IZR (nx b - nx a) * x_granularity s) in
  Some (keval c (x - node_x a (x_granularity s)), kderiv c (x - node_x a (x_granularity s))).

(** The position, in grains, that represents x. *)
Definition grains (s : spline) (x : R) : Z := Rtrunc (x / x_granularity s + 1 / 2).
(** x is small enough for QuantizeX's int. *)
Definition in_int_range (s : spline) (x : R) : Prop := Rabs (x / x_granularity s) < 2147483647.

(** The first and the last node at a given x. *)
Definition first_at (x : Z) (l : list node) : option node := find (fun n => (nx n =? x)%Z) l.
Definition last_at (x : Z) (l : list node) : option node := first_at x (rev l).
(** The quantized node of a call. *)
Definition makes (g : R) (r : range) (c : call) (n : node) : Prop :=
  make_node (c_x c) (c_y c) (c_derivative c) g r = Some n.
