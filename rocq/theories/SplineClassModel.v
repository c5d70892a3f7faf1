(** The spline processor's motivators as the motivators that drive matrix operations:
    what MatrixModel.v leaves open, filled in with the model of the evaluator.

    Simplifications.  Every motivator is its own slot: that calls about one index leave
    the others alone is C40.  A motivator is made on an index that was never used
    (C92_spline_refuted: one that was used before may keep its old range).  The local
    spline of SetTarget has the default capacity; one from the pool may have more. *)
From Verif Require Import RBase RangeModel CurveModel MathfuModel CompactSplineModel EvaluatorModel SplineTargetModel MatrixModel RigModel CloneModel.

(** spline_processor.cpp:171-176, compact_spline.h:79-82: an allocated spline. *)
Definition new_local : spline := Spline range_default 0 [] 7.
(** spline_processor.cpp:146-203 (SetTarget), on one slot. *)
Definition slot_set_target (t : list mnode) (s : slot) : option slot :=
  sp <- build_target new_local s t ;; set_spline sp (playback_from 0) s.
(** spline_processor.cpp:67-78 (TargetTime), for one dimension. *)
Definition slot_target_time (s : slot) : option Z :=
  e <- slot_end_x s ;; x <- slot_x s ;; t <- to_int (e - x) ;; Some (Z.max (-2147483648) t).
(** spline_processor.cpp:43-50 (Values, Velocities), 67-78, 83-101 (SetTargets, SetSplines),
    205-210 (InitializeIndices); an init is the range of a SplineInit. *)
Definition spline_class : mclass slot range spline :=
  MClass slot range spline (fun r => Some (slot_set_y_range r slot_default)) cur_y (fun s => Some (slot_derivative s)) slot_target_time
    slot_set_target set_spline start_y.

(** spline_processor.cpp:214-225 (CloneIndices), for one motivator and a spline of the
    default capacity. *)
Definition slot_clone (s : slot) : option (option slot) :=
  sp <- source s ;; sp' <- assign_spline new_local sp ;; Some (Some (with_source s (Some sp'))).

(** ** Frames *)
(** One frame for the motivator of an operation. *)
Definition op_advance {M} (f : M -> option M) (o : op M) : option (op M) :=
  match op_motivator o with Some m => m' <- f m ;; Some (Op (op_id o) (op_type o) (Some m') (op_const o)) | None => Some o end.
(** spline_processor.cpp:34-37 (AdvanceFrame), then matrix_processor.cpp:34-47
    (AdvanceFrame): the order is that of the priorities (engine.cpp:73-86). *)
Definition mdata_frame {M I S} (k : mclass M I S) (f : M -> option M) (d : mdata M) : option (mdata M) :=
  ops <- map_all (op_advance f) (md_ops d) ;; mdata_update k (MData (md_matrix d) (md_scale d) ops).
(** The same with sqt_processor.cpp:34-48 (AdvanceFrame). *)
Definition qdata_frame {M I S} (k : mclass M I S) (f : M -> option M) (d : qdata M) : option (qdata M) :=
  ops <- map_all (op_advance f) (qd_ops d) ;; qdata_update k (QData (qd_matrix d) (qd_rotation d) (qd_scale d) ops).
(** A bone of a rig that has a motivator. *)
Definition bone_frame {M I S} (k : mclass M I S) (f : M -> option M) (b : @bone M) : option (@bone M) :=
  match b with inl d => d' <- mdata_frame k f d ;; Some (inl d') | inr d => d' <- qdata_frame k f d ;; Some (inr d') end.
Definition maybe_bone_frame {M I S} (k : mclass M I S) (f : M -> option M) (b : option (@bone M)) : option (option (@bone M)) :=
  match b with Some b => b' <- bone_frame k f b ;; Some (Some b') | None => Some None end.
(** rig_processor.cpp:38-51 (AdvanceFrame), after the processors above. *)
Definition rig_data_frame {M I S} (k : mclass M I S) (from_matrix : mat3 -> quat) (f : M -> option M) (d : rig_data (@bone M) (opinit I S)) : option (rig_data (@bone M) (opinit I S)) :=
  ms <- map_all (maybe_bone_frame k f) (motivators d) ;;
  update_global_transforms (bone_class k from_matrix)
    (RigData ms (globals d) (weights d) (defining d) (current d) (root_bone d) (root_transform d) (end_time d)).
