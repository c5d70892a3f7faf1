(** Model of matrix operations (include/motive/matrix_op.h) and of the two processors that
    turn lists of them into transforms: MatrixData and MatrixMotiveProcessor
    (src/motive/processor/matrix_data.h, matrix_processor.cpp), SqtData and SqtMotiveProcessor
    (sqt_data.h, sqt_processor.cpp).

    The one-dimensional motivator that drives an operation belongs to another processor; it
    is abstract here (type [M] with the calls of [mclass]).  sinf and cosf are sin and cos.
    [None] is a failed assert, a null pointer, a division by zero, or a failing call to the
    motivator. *)
From Verif Require Import RBase MathfuModel RangeModel AngleModel OvershootModel SimpleModel EvaluatorModel SplineTargetModel.
Local Open Scope R_scope.

(** matrix_op.h:48-68 (MatrixOperationType) *)
Inductive mtype := InvalidOp | RotateX | RotateY | RotateZ | TranslateX | TranslateY | TranslateZ | ScaleX | ScaleY | ScaleZ | ScaleUniformly
  | QuaternionW | QuaternionX | QuaternionY | QuaternionZ.
(** matrix_op.h:77-94 (RotateOp, ScaleOp, QuaternionOp) *)
Definition rotate_op (t : mtype) : bool := match t with RotateX | RotateY | RotateZ => true | _ => false end.
Definition scale_op (t : mtype) : bool := match t with ScaleX | ScaleY | ScaleZ | ScaleUniformly => true | _ => false end.
Definition quaternion_op (t : mtype) : bool := match t with QuaternionW | QuaternionX | QuaternionY | QuaternionZ => true | _ => false end.
(** matrix_op.h:71-74 (NearlyEqual), 38 (kEpsilon) *)
Definition nearly_equal (a b precision : R) : bool := let diff := a - b in Rleb (- precision) diff && Rleb diff precision.
Definition kEpsilon : R := 1 / 1000.
(** matrix_op.h:108-110 (OperationDefaultValue) *)
Definition default_value (t : mtype) : R := if scale_op t then 1 else match t with QuaternionW => 1 | _ => 0 end.
(** matrix_op.cpp:19-41 (DefaultOpsTranslation, DefaultOpsQuaternion, DefaultOpsScale) *)
Definition default_translation : vec3 := V3 (default_value TranslateX) (default_value TranslateY) (default_value TranslateZ).
Definition default_quaternion : quat := Quat (default_value QuaternionW) (default_value QuaternionX) (default_value QuaternionY) (default_value QuaternionZ).
Definition default_scale : vec3 := V3 (default_value ScaleX) (default_value ScaleY) (default_value ScaleZ).

(** matrix_op.h:35-37 (kMaxMatrixOpId) *)
Definition kMaxMatrixOpId : Z := 254.

(** matrix_op.h:130-202 (MatrixOperationInit); [I] are motivator inits, [S] splines. *)
Inductive union (S : Type) := UEmpty | UValue (v : R) | UTarget (t : list mnode) | USpline (s : S).
Arguments UEmpty {S}. Arguments UValue {S}. Arguments UTarget {S}. Arguments USpline {S}.
Record opinit (I S : Type) := OpInit { i_init : option I; i_id : Z; i_type : mtype; i_union : union S }.
Arguments OpInit {I S}. Arguments i_init {I S}. Arguments i_id {I S}. Arguments i_type {I S}. Arguments i_union {I S}.

(** The calls made to a Motivator1f (and, last, CompactSpline::StartY). *)
Record mclass (M I S : Type) := MClass {
  m_new : I -> option M; m_value : M -> R; m_velocity : M -> option R; m_target_time : M -> option Z;
  m_set_target : list mnode -> M -> option M; m_set_spline : S -> playback -> M -> option M; spline_start_y : S -> option R }.
Arguments m_new {M I S}. Arguments m_value {M I S}. Arguments m_velocity {M I S}. Arguments m_target_time {M I S}.
Arguments m_set_target {M I S}. Arguments m_set_spline {M I S}. Arguments spline_start_y {M I S}.

(** target.h:235-238 (Current1f), 243-250 (Target1f) *)
Definition current1f (value velocity : R) : list mnode := [MNode value velocity 0 Closest].
Definition target1f (value velocity : R) (time : Z) : option (list mnode) :=
  assert (0 <=? time)%Z ;; Some [MNode value velocity time Closest].

Section Ops.
Context {M I S : Type} (k : mclass M I S).

(** matrix_op.h:180-191 (StartValue) *)
Definition init_start_value (i : opinit I S) : option R :=
  match i_union i with
  | UEmpty => Some (default_value (i_type i))
  | UValue v => Some v
  | UTarget t => n <- getz t 0 ;; Some (mn_value n)
  | USpline s => spline_start_y k s
  end.

(** matrix_op.h:503-515 (members); an invalid motivator is [None]. *)
Record op := Op { op_id : Z; op_type : mtype; op_motivator : option M; op_const : R }.
(** matrix_op.h:268-270 (Value) *)
Definition op_value (o : op) : R := match op_motivator o with Some m => m_value k m | None => op_const o end.
(** matrix_op.h:273-275 (Velocity) *)
Definition op_velocity (o : op) : option R := match op_motivator o with Some m => m_velocity k m | None => Some 0 end.
(** matrix_op.h:278-280 (Blendable) *)
Definition blendable (o : op) (i : opinit I S) : bool := (op_id o =? i_id i)%Z.
(** matrix_op.h:291-294 (SetTarget1f) *)
Definition op_set_target (t : list mnode) (o : op) : option op :=
  m <- op_motivator o ;; m' <- m_set_target k t m ;; Some (Op (op_id o) (op_type o) (Some m') (op_const o)).
(** matrix_op.h:296-300 (SetValue1f) *)
Definition op_set_value (v : R) (o : op) : option op :=
  match op_motivator o with
  | Some _ => None
  | None => assert negb (rotate_op (op_type o)) || AngleModel.in_range v ;; Some (Op (op_id o) (op_type o) None v)
  end.
(** The motivator, created at the current constant if there is none (matrix_op.h:328-331, 337-340). *)
Definition ensure_motivator (o : op) (i : opinit I S) : option M :=
  match op_motivator o with
  | Some m => Some m
  | None => init <- i_init i ;; m <- m_new k init ;; m_set_target k (current1f (op_const o) 0) m
  end.
(** matrix_op.h:302-347 (BlendToOp) *)
Definition blend_to_op (i : opinit I S) (p : playback) (o : op) : option op :=
  match i_union i with
  | UEmpty => Some o
  | UValue v =>
      match op_motivator o with
      | None => Some (Op (op_id o) (op_type o) None v)
      | Some m =>
          d <- m_velocity k m ;;
          if nearly_equal (m_value k m) v kEpsilon && nearly_equal d 0 kEpsilon then Some (Op (op_id o) (op_type o) None v)
          else time <- to_motive_time (blend_x p) ;; t <- target1f v 0 time ;; m' <- m_set_target k t m ;; Some (Op (op_id o) (op_type o) (Some m') (op_const o))
      end
  | UTarget t => m <- ensure_motivator o i ;; m' <- m_set_target k t m ;; Some (Op (op_id o) (op_type o) (Some m') (op_const o))
  | USpline s => m <- ensure_motivator o i ;; m' <- m_set_spline k s p m ;; Some (Op (op_id o) (op_type o) (Some m') (op_const o))
  end.
(** matrix_op.h:214-233 (MatrixOperation) *)
Definition make_op (i : opinit I S) (p : playback) : option op :=
  assert (i_id i <=? kMaxMatrixOpId)%Z ;;
  let v := default_value (i_type i) in
  m <- match i_init i with None => Some None | Some init => m <- m_new k init ;; m' <- m_set_target k (current1f v 0) m ;; Some (Some m') end ;;
  blend_to_op i p (Op (i_id i) (i_type i) m v).
(** matrix_op.h:349-361 (BlendToDefault) *)
Definition blend_to_default (blend_time : Z) (o : op) : option op :=
  let v := default_value (op_type o) in
  match op_motivator o with
  | None => Some (Op (op_id o) (op_type o) None v)
  | Some m =>
      t <- if (blend_time =? 0)%Z then Some (current1f v 0) else target1f v 0 blend_time ;;
      m' <- m_set_target k t m ;;
      Some (Op (op_id o) (op_type o) (Some m') (op_const o))
  end.
(** matrix_op.h:373-381 (TimeRemaining) *)
Definition op_time_remaining (o : op) : option Z := match op_motivator o with Some m => m_target_time k m | None => Some 0%Z end.

(** matrix_op.h:482-492 (RotateAboutAxis) *)
Definition rotate_about (angle : R) (p q : vec4) : vec4 * vec4 :=
  let s := sin angle in let c := cos angle in
  (add4 (scale4 c p) (scale4 s q), sub4 (scale4 c q) (scale4 s p)).
(** matrix_op.h:406-473: the body of the loop. *)
Definition op_step (st : mat4 * vec3) (o : op) : option (mat4 * vec3) :=
  let m := fst st in let sc := snd st in let v := op_value o in
  match op_type o with
  | RotateX => let pq := rotate_about v (c1 m) (c2 m) in Some (M4 (c0 m) (fst pq) (snd pq) (c3 m), sc)
  | RotateY => let pq := rotate_about v (c2 m) (c0 m) in Some (M4 (snd pq) (c1 m) (fst pq) (c3 m), sc)
  | RotateZ => let pq := rotate_about v (c0 m) (c1 m) in Some (M4 (fst pq) (snd pq) (c2 m) (c3 m), sc)
  | TranslateX => Some (M4 (c0 m) (c1 m) (c2 m) (add4 (c3 m) (scale4 v (c0 m))), sc)
  | TranslateY => Some (M4 (c0 m) (c1 m) (c2 m) (add4 (c3 m) (scale4 v (c1 m))), sc)
  | TranslateZ => Some (M4 (c0 m) (c1 m) (c2 m) (add4 (c3 m) (scale4 v (c2 m))), sc)
  | ScaleX => Some (M4 (scale4 v (c0 m)) (c1 m) (c2 m) (c3 m), V3 (x3 sc * v) (y3 sc) (z3 sc))
  | ScaleY => Some (M4 (c0 m) (scale4 v (c1 m)) (c2 m) (c3 m), V3 (x3 sc) (y3 sc * v) (z3 sc))
  | ScaleZ => Some (M4 (c0 m) (c1 m) (scale4 v (c2 m)) (c3 m), V3 (x3 sc) (y3 sc) (z3 sc * v))
  | ScaleUniformly => Some (M4 (scale4 v (c0 m)) (scale4 v (c1 m)) (scale4 v (c2 m)) (c3 m), V3 (x3 sc * v) (y3 sc * v) (z3 sc * v))
  | _ => None
  end.
Fixpoint op_steps (st : mat4 * vec3) (ops : list op) : option (mat4 * vec3) :=
  match ops with [] => Some st | o :: ops' => st' <- op_step st o ;; op_steps st' ops' end.
(** matrix_op.h:394-478 (CalculateResultMatrix): the matrix and the scale. *)
Definition calculate_result_matrix (ops : list op) : option (mat4 * vec3) := op_steps (identity4, V3 1 1 1) ops.

(** ** The merge of operation lists, the same code in both classes *)
(** std::vector::emplace *)
Definition insert_at {A} (l : list A) (i : Z) (x : A) : list A := firstn (Z.to_nat i) l ++ x :: skipn (Z.to_nat i) l.
(** The first loop (matrix_data.h:65-93, sqt_data.h:153-181).  Every round increments at
    least one of the indices, so the two sizes are enough fuel (proved). *)
Fixpoint merge_loop (forbidden : mtype -> bool) (fuel : nat) (ops : list op) (new_ops : list (opinit I S)) (p : playback) (old_idx new_idx : Z) : option (list op * Z * Z) :=
  if ((old_idx <? len ops) && (new_idx <? len new_ops))%Z then
    match fuel with
    | O => None
    | Datatypes.S fuel' =>
        old_op <- getz ops old_idx ;; new_op <- getz new_ops new_idx ;;
        assert negb (forbidden (i_type new_op)) ;;
        if blendable old_op new_op then
          o <- blend_to_op new_op p old_op ;; ops' <- setz ops old_idx o ;;
          merge_loop forbidden fuel' ops' new_ops p (old_idx + 1) (new_idx + 1)
        else if (op_id old_op <? i_id new_op)%Z then
          t <- to_motive_time (blend_x p) ;; o <- blend_to_default t old_op ;; ops' <- setz ops old_idx o ;;
          merge_loop forbidden fuel' ops' new_ops p (old_idx + 1) new_idx
        else
          o <- make_op new_op p ;;
          merge_loop forbidden fuel' (insert_at ops old_idx o) new_ops p (old_idx + 1) (new_idx + 1)
    end
  else Some (ops, old_idx, new_idx).
(** The second loop (matrix_data.h:97-99, sqt_data.h:185-187). *)
Fixpoint default_loop (fuel : nat) (ops : list op) (p : playback) (old_idx num_ops : Z) : option (list op) :=
  if (old_idx <? num_ops)%Z then
    match fuel with
    | O => None
    | Datatypes.S fuel' =>
        old_op <- getz ops old_idx ;; t <- to_motive_time (blend_x p) ;; o <- blend_to_default t old_op ;; ops' <- setz ops old_idx o ;;
        default_loop fuel' ops' p (old_idx + 1) num_ops
    end
  else Some ops.
(** The third loop (matrix_data.h:102-104, sqt_data.h:190-192). *)
Fixpoint insert_loop (fuel : nat) (ops : list op) (new_ops : list (opinit I S)) (p : playback) (new_idx : Z) : option (list op) :=
  if (new_idx <? len new_ops)%Z then
    match fuel with
    | O => None
    | Datatypes.S fuel' =>
        new_op <- getz new_ops new_idx ;; o <- make_op new_op p ;; insert_loop fuel' (ops ++ [o]) new_ops p (new_idx + 1)
    end
  else Some ops.
(** matrix_data.h:56-105, sqt_data.h:147-192 (BlendToOps, without AlignQuaternionOps) *)
Definition merge_ops (forbidden : mtype -> bool) (ops : list op) (new_ops : list (opinit I S)) (p : playback) : option (list op) :=
  match merge_loop forbidden (length ops + length new_ops) ops new_ops p 0 0 with
  | Some (ops1, old_idx, new_idx) =>
      ops2 <- default_loop (length ops1) ops1 p old_idx (len ops1) ;;
      insert_loop (length new_ops) ops2 new_ops p new_idx
  | None => None
  end.

(** matrix_data.h:119-126, sqt_data.h:207-214 (TimeRemaining) *)
Fixpoint ops_time_remaining (time : Z) (ops : list op) : option Z :=
  match ops with [] => Some time | o :: ops' => t <- op_time_remaining o ;; ops_time_remaining (Z.max time t) ops' end.

(** ** MatrixData *)
(** matrix_data.h:162-170; scale_ is not initialised by the constructor. *)
Record mdata := MData { md_matrix : mat4; md_scale : option vec3; md_ops : list op }.
(** matrix_data.h:28 *)
Definition mdata_default : mdata := MData identity4 None [].
(** matrix_data.h:46-49 (Reset) *)
Definition mdata_reset (d : mdata) : mdata := MData identity4 (md_scale d) [].
(** matrix_data.h:51-54 (UpdateResultMatrix) *)
Definition mdata_update (d : mdata) : option mdata :=
  r <- calculate_result_matrix (md_ops d) ;; Some (MData (fst r) (Some (snd r)) (md_ops d)).
(** The loops that append the initial operations (matrix_data.h:34-38, sqt_data.h:39-43). *)
Fixpoint append_ops (forbidden : mtype -> bool) (ops : list op) (new_ops : list (opinit I S)) : option (list op) :=
  match new_ops with
  | [] => Some ops
  | i :: l => assert negb (forbidden (i_type i)) ;; o <- make_op i (playback_from 0) ;; append_ops forbidden (ops ++ [o]) l
  end.
(** matrix_data.h:30-44 (Initialize) *)
Definition mdata_initialize (init : list (opinit I S)) (d : mdata) : option mdata :=
  ops <- append_ops quaternion_op (md_ops d) init ;; mdata_update (MData (md_matrix d) (md_scale d) ops).
(** matrix_data.h:56-105 (BlendToOps) *)
Definition mdata_blend_to_ops (new_ops : list (opinit I S)) (p : playback) (d : mdata) : option mdata :=
  ops <- merge_ops quaternion_op (md_ops d) new_ops p ;; Some (MData (md_matrix d) (md_scale d) ops).
(** matrix_data.h:119-126 (TimeRemaining) *)
Definition mdata_time_remaining (d : mdata) : option Z := ops_time_remaining 0 (md_ops d).
(** matrix_data.h:140-142 (result_translation), 157 (result_scale) *)
Definition mdata_translation (d : mdata) : vec3 := translation_of (md_matrix d).
(** matrix_data.h:144-155 (result_rotation), up to the call of quat::FromMatrix: the matrix
    that is turned into a quaternion.  Division by a scale of zero has no result. *)
Definition mdata_rotation_matrix (d : mdata) : option mat3 :=
  s <- md_scale d ;;
  assert negb (Reqb (x3 s) 0 || Reqb (y3 s) 0 || Reqb (z3 s) 0) ;;
  let m := md_matrix d in
  Some (M3 (scale3 (1 / x3 s) (drop4 (c0 m))) (scale3 (1 / y3 s) (drop4 (c1 m))) (scale3 (1 / z3 s) (drop4 (c2 m)))).

(** ** SqtData *)
(** sqt_data.h:282-293 *)
Record qdata := QData { qd_matrix : mat4; qd_rotation : quat; qd_scale : vec3; qd_ops : list op }.
(** sqt_data.h:29-33 *)
Definition qdata_default : qdata := QData identity4 qidentity (V3 1 1 1) [].
(** sqt_data.h:51-57 (Reset) *)
Definition qdata_reset (d : qdata) : qdata :=
  QData (transform default_translation (to_matrix default_quaternion) default_scale) default_quaternion default_scale [].
(** sqt_data.h:66-130: the body of the loop, on (translation, rotation_, scale_). *)
Definition sqt_step (st : vec3 * quat * vec3) (o : op) : option (vec3 * quat * vec3) :=
  let '(t, q, s) := st in let v := op_value o in
  match op_type o with
  | TranslateX => Some (V3 v (y3 t) (z3 t), q, s)
  | TranslateY => Some (V3 (x3 t) v (z3 t), q, s)
  | TranslateZ => Some (V3 (x3 t) (y3 t) v, q, s)
  | ScaleX => Some (t, q, V3 v (y3 s) (z3 s))
  | ScaleY => Some (t, q, V3 (x3 s) v (z3 s))
  | ScaleZ => Some (t, q, V3 (x3 s) (y3 s) v)
  | ScaleUniformly => Some (t, q, V3 v v v)
  | QuaternionW => Some (t, Quat v (qx q) (qy q) (qz q), s)
  | QuaternionX => Some (t, Quat (qw q) v (qy q) (qz q), s)
  | QuaternionY => Some (t, Quat (qw q) (qx q) v (qz q), s)
  | QuaternionZ => Some (t, Quat (qw q) (qx q) (qy q) v, s)
  | _ => None
  end.
Fixpoint sqt_steps (st : vec3 * quat * vec3) (ops : list op) : option (vec3 * quat * vec3) :=
  match ops with [] => Some st | o :: ops' => st' <- sqt_step st o ;; sqt_steps st' ops' end.
(** sqt_data.h:59-137 (UpdateResultMatrix) *)
Definition qdata_update (d : qdata) : option qdata :=
  st <- sqt_steps (default_translation, default_quaternion, default_scale) (qd_ops d) ;;
  let '(t, q, s) := st in
  q' <- qnormalize q ;; Some (QData (transform t (to_matrix q') s) q' s (qd_ops d)).
(** sqt_data.h:35-49 (Initialize) *)
Definition qdata_initialize (init : list (opinit I S)) (d : qdata) : option qdata :=
  ops <- append_ops rotate_op (qd_ops d) init ;; qdata_update (QData (qd_matrix d) (qd_rotation d) (qd_scale d) ops).
(** sqt_data.h:242-260: the start orientation of the new operations. *)
Fixpoint next_quaternion (q : quat) (new_ops : list (opinit I S)) : option quat :=
  match new_ops with
  | [] => Some q
  | i :: l =>
      match i_type i with
      | QuaternionW => v <- init_start_value i ;; next_quaternion (Quat v (qx q) (qy q) (qz q)) l
      | QuaternionX => v <- init_start_value i ;; next_quaternion (Quat (qw q) v (qy q) (qz q)) l
      | QuaternionY => v <- init_start_value i ;; next_quaternion (Quat (qw q) (qx q) v (qz q)) l
      | QuaternionZ => v <- init_start_value i ;; next_quaternion (Quat (qw q) (qx q) (qy q) v) l
      | _ => next_quaternion q l
      end
  end.
(** sqt_data.h:266-278: negate one operation. *)
Definition negate_op (o : op) : option op :=
  if quaternion_op (op_type o) then
    let value := op_value o in
    match op_motivator o with
    | Some _ => d <- op_velocity o ;; op_set_target (current1f (- value) (- d)) o
    | None => op_set_value (- value) o
    end
  else Some o.
Fixpoint negate_ops (ops : list op) : option (list op) :=
  match ops with [] => Some [] | o :: l => o' <- negate_op o ;; l' <- negate_ops l ;; Some (o' :: l') end.
(** sqt_data.h:240-280 (AlignQuaternionOps) *)
Definition align_quaternion_ops (new_ops : list (opinit I S)) (d : qdata) : option qdata :=
  q <- next_quaternion qidentity new_ops ;;
  next <- qnormalize q ;;
  if Rltb (qdot (qd_rotation d) next) 0 then
    ops <- negate_ops (qd_ops d) ;; Some (QData (qd_matrix d) (qd_rotation d) (qd_scale d) ops)
  else Some d.
(** sqt_data.h:139-193 (BlendToOps) *)
Definition qdata_blend_to_ops (new_ops : list (opinit I S)) (p : playback) (d : qdata) : option qdata :=
  d1 <- align_quaternion_ops new_ops d ;;
  ops <- merge_ops rotate_op (qd_ops d1) new_ops p ;; Some (QData (qd_matrix d1) (qd_rotation d1) (qd_scale d1) ops).
(** sqt_data.h:207-214 (TimeRemaining) *)
Definition qdata_time_remaining (d : qdata) : option Z := ops_time_remaining 0 (qd_ops d).

(** ** The processors *)
Fixpoint map_all {A B} (f : A -> option B) (l : list A) : option (list B) :=
  match l with [] => Some [] | x :: l' => y <- f x ;; r <- map_all f l' ;; Some (y :: r) end.
(** matrix_processor.cpp:34-47 (AdvanceFrame; Defragment is in ProcessorModel.v) *)
Definition matrix_frame : list mdata -> option (list mdata) := map_all mdata_update.
(** sqt_processor.cpp:34-48 (AdvanceFrame) *)
Definition sqt_frame : list qdata -> option (list qdata) := map_all qdata_update.
End Ops.
Arguments op : clear implicits. Arguments mdata : clear implicits. Arguments qdata : clear implicits.
