(** Model of the changes of playback rate and repetition of matrix, SQT and rig motivators
    (include/motive/matrix_op.h:363-371, include/motive/matrix_motivator.h:164-174,
    src/motive/processor/matrix_data.h:107-117, src/motive/processor/sqt_data.h:195-205,
    src/motive/processor/rig_data.h:167-185 and 203-207).

    What one motivator does when its rate or repetition is set is [rclass]; for spline
    motivators see SplineTargetModel.v and EvaluatorModel.v. *)
From Verif Require Import RBase MathfuModel RangeModel MatrixModel RigModel.
Local Open Scope R_scope.

(** SetSplinePlaybackRate and SetSplineRepeating of Motivator1f. *)
Record rclass (M : Type) := RClass { r_rate : R -> M -> option M; r_repeat : bool -> M -> option M }.
Arguments r_rate {M}. Arguments r_repeat {M}.

Section Ops.
Context {M : Type} (r : rclass M).
(** matrix_op.h:363-366 (SetPlaybackRate) *)
Definition op_set_rate (rate : R) (o : op M) : option (op M) :=
  match op_motivator o with
  | None => Some o
  | Some m => m' <- r_rate r rate m ;; Some (Op (op_id o) (op_type o) (Some m') (op_const o))
  end.
(** matrix_op.h:368-371 (SetRepeating) *)
Definition op_set_repeating (repeat : bool) (o : op M) : option (op M) :=
  match op_motivator o with
  | None => Some o
  | Some m => m' <- r_repeat r repeat m ;; Some (Op (op_id o) (op_type o) (Some m') (op_const o))
  end.
(** matrix_data.h:107-111 (SetPlaybackRate), 113-117 (SetRepeating) *)
Definition mdata_set_rate (rate : R) (d : mdata M) : option (mdata M) :=
  ops <- map_all (op_set_rate rate) (md_ops d) ;; Some (MData (md_matrix d) (md_scale d) ops).
Definition mdata_set_repeating (repeat : bool) (d : mdata M) : option (mdata M) :=
  ops <- map_all (op_set_repeating repeat) (md_ops d) ;; Some (MData (md_matrix d) (md_scale d) ops).
(** sqt_data.h:195-199 (SetPlaybackRate), 201-205 (SetRepeating) *)
Definition qdata_set_rate (rate : R) (d : qdata M) : option (qdata M) :=
  ops <- map_all (op_set_rate rate) (qd_ops d) ;; Some (QData (qd_matrix d) (qd_rotation d) (qd_scale d) ops).
Definition qdata_set_repeating (repeat : bool) (d : qdata M) : option (qdata M) :=
  ops <- map_all (op_set_repeating repeat) (qd_ops d) ;; Some (QData (qd_matrix d) (qd_rotation d) (qd_scale d) ops).
(** The bones of a rig: matrix or SQT motivators (matrix_processor.cpp:105-111,
    sqt_processor.cpp:106-112). *)
Definition bone_rclass : rclass (bone (M := M)) := RClass bone
  (fun rate b => match b with inl d => d' <- mdata_set_rate rate d ;; Some (inl d') | inr d => d' <- qdata_set_rate rate d ;; Some (inr d') end)
  (fun repeat b => match b with inl d => d' <- mdata_set_repeating repeat d ;; Some (inl d') | inr d => d' <- qdata_set_repeating repeat d ;; Some (inr d') end).
End Ops.

Section Rig.
Context {B O : Type} (r : rclass B).
Definition with_motivators (d : rig_data B O) (ms : list (option B)) : rig_data B O :=
  RigData ms (globals d) (weights d) (defining d) (current d) (root_bone d) (root_transform d) (end_time d).
(** matrix_motivator.h:164-168 (SetPlaybackRate), 170-174 (SetRepeating): nothing happens to
    a motivator that is not valid. *)
Definition motivator_set_rate (rate : R) (m : option B) : option (option B) :=
  match m with None => Some None | Some b => b' <- r_rate r rate b ;; Some (Some b') end.
Definition motivator_set_repeating (repeat : bool) (m : option B) : option (option B) :=
  match m with None => Some None | Some b => b' <- r_repeat r repeat b ;; Some (Some b') end.
(** rig_data.h:167-173 (SetPlaybackRate), 203-207 (SetRepeating) *)
Definition rig_set_rate (rate : R) (d : rig_data B O) : option (rig_data B O) :=
  ms <- map_all (motivator_set_rate rate) (motivators d) ;; Some (with_motivators d ms).
Definition rig_set_repeating (repeat : bool) (d : rig_data B O) : option (rig_data B O) :=
  ms <- map_all (motivator_set_repeating repeat) (motivators d) ;; Some (with_motivators d ms).
(** rig_data.h:181-183: the loop over the bones, from index [k]. *)
Fixpoint rates_bones (fuel : nat) (k : Z) (rate : R) (ms : list (option B)) : option (list (option B)) :=
  match fuel with
  | 0%nat => Some ms
  | Datatypes.S f => m <- getz ms k ;; m' <- motivator_set_rate rate m ;; ms' <- setz ms k m' ;; rates_bones f (k + 1)%Z rate ms'
  end.
(** rig_data.h:178-184: the loop over the rates, from [i]. *)
Fixpoint rates_loop (rates : list R) (i n : Z) (ms : list (option B)) : option (list (option B)) :=
  match rates with
  | [] => Some ms
  | rate :: l => ms' <- rates_bones (Z.to_nat n) (i * n)%Z rate ms ;; rates_loop l (i + 1)%Z n ms'
  end.
(** rig_data.h:175-185 (SetPlaybackRates) *)
Definition rig_set_rates (rates : list R) (d : rig_data B O) : option (rig_data B O) :=
  ms <- rates_loop rates 0 (num_bones (defining d)) (motivators d) ;; Some (with_motivators d ms).
End Rig.
