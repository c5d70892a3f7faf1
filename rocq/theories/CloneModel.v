(** Model of what a clone gets: CompactSpline::operator= (compact_spline.h:87-94), the
    CloneIndices of the spline processor (spline_processor.cpp:214-225), the copy
    assignment of MatrixOperation (matrix_op.h:250-257), and the CloneIndices of the
    matrix and SQT processors (matrix_processor.cpp:137-143, sqt_processor.cpp:138-144).

    Simplifications.  Which indices and splines are allocated for the clone is the
    subject of ProcessorModel.v and SplinePoolModel.v; here the splines that
    AllocateSpline returns are given by their capacities.  A motivator of another
    processor is abstract, as in MatrixModel.v. *)
From Verif Require Import RBase MathfuModel RangeModel CurveModel CompactSplineModel EvaluatorModel MatrixModel.

(** compact_spline.h:87-94 (operator=): the capacity stays, and has to be enough. *)
Definition assign_spline (dst src : spline) : option spline :=
  assert (num_nodes src <=? max_nodes dst)%Z ;; Some (Spline (y_range src) (x_granularity src) (nodes src) (max_nodes dst)).

(** spline_processor.cpp:218-224: the function given to CopyIndices, for an allocated
    spline of [capacity] nodes.  A null source is dereferenced; see [clone_ready]. *)
Definition clone_spline (capacity : Z -> Z) (index : Z) (src : option spline) : option spline :=
  sp <- src ;; assign_spline (Spline range_default 0 [] (capacity index)) sp.
(** No null source is dereferenced, and every assert of operator= holds. *)
Fixpoint clone_ready (ev : evaluator) (dst src : Z) (count : nat) (capacity : Z -> Z) : bool :=
  match count with
  | O => true
  | S n =>
      match getz ev src with
      | Some s => match source s with Some sp => (num_nodes sp <=? capacity dst)%Z | None => false end
      | None => false
      end && clone_ready ev (dst + 1) (src + 1) n capacity
  end.
(** spline_processor.cpp:214-225 (CloneIndices) *)
Definition clone_indices (ev : evaluator) (dst src : Z) (count : nat) (capacity : Z -> Z) : option evaluator :=
  assert clone_ready ev dst src count capacity ;; copy_indices ev dst src count (clone_spline capacity).

Section Ops.
Context {M : Type} (clone : M -> option (option M)).
(** motivator.h:121-126 (CloneFrom), processor.cpp:77-93 (CloneMotivator): [clone] is
    what the processor makes of its motivator: a clone, or nothing if it does not
    support cloning. *)
Definition motivator_clone (m : option M) : option (option M) := match m with Some m => clone m | None => Some None end.
(** matrix_op.h:250-257 (operator=) *)
Definition op_clone (o : @op M) : option (@op M) :=
  m <- motivator_clone (op_motivator o) ;; Some (Op (op_id o) (op_type o) m (op_const o)).
(** The copy of ops_, a std::vector. *)
Fixpoint ops_clone (l : list (@op M)) : option (list (@op M)) :=
  match l with [] => Some [] | o :: l' => o' <- op_clone o ;; r <- ops_clone l' ;; Some (o' :: r) end.
(** matrix_processor.cpp:137-143 (CloneIndices), one index: the members of MatrixData
    (matrix_data.h:162-170) are copied. *)
Definition mdata_clone (d : @mdata M) : option (@mdata M) := ops <- ops_clone (md_ops d) ;; Some (MData (md_matrix d) (md_scale d) ops).
(** sqt_processor.cpp:138-144 (CloneIndices), one index; sqt_data.h:282-293 *)
Definition qdata_clone (d : @qdata M) : option (@qdata M) := ops <- ops_clone (qd_ops d) ;; Some (QData (qd_matrix d) (qd_rotation d) (qd_scale d) ops).
End Ops.
