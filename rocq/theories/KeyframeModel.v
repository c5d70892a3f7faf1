(** Model of src/motive/util/keyframe_converter.cpp over the real numbers: keyframes become
    two spline nodes each, and those become CompactSplines.

    The arrays behind KeyframeData's pointers are lists; reading outside them is [None].
    [int left_node_index] is an unbounded integer.  A buffer is described by the splines
    placed in it and their byte offsets. *)
From Verif Require Import RBase RangeModel CurveModel CompactSplineModel MatrixModel.
Local Open Scope Z_scope.

(** keyframe_converter.h:26-36 (QuaternionOrder, InterpolationType) *)
Inductive quaternion_order := OrderWXYZ | OrderXYZW.
Inductive interpolation := Linear | Step | CubicSpline.
(** keyframe_converter.h:47-53 (KeyframeData) *)
Record keyframe_data := KData { kd_times : list R; kd_values : list R; kd_count : Z; kd_type : interpolation; kd_ms : R }.

(** keyframe_converter.cpp:25-33 (ConvertTimeToMilliseconds, ConvertTangentToMilliseconds) *)
Definition to_ms (time ms : R) : R := (time * ms)%R.
Definition tangent_to_ms (tangent ms : R) : option R := assert (negb (Reqb ms 0)) ;; Some (tangent / ms)%R.

(** matrix_op.h:48-68: enumerators as numbers. *)
Definition type_number (t : mtype) : Z :=
  match t with
  | InvalidOp => 0 | RotateX => 1 | RotateY => 2 | RotateZ => 3 | TranslateX => 4 | TranslateY => 5 | TranslateZ => 6
  | ScaleX => 7 | ScaleY => 8 | ScaleZ => 9 | ScaleUniformly => 10 | QuaternionW => 11 | QuaternionX => 12 | QuaternionY => 13 | QuaternionZ => 14
  end.
Definition types : list mtype :=
  [InvalidOp; RotateX; RotateY; RotateZ; TranslateX; TranslateY; TranslateZ; ScaleX; ScaleY; ScaleZ; ScaleUniformly;
   QuaternionW; QuaternionX; QuaternionY; QuaternionZ].
(** keyframe_converter.cpp:340-341, 379-380: static_cast<MatrixOperationType>(base_type + i) *)
Definition type_plus (t : mtype) (i : Z) : option mtype := getz types (type_number t + i).
(** keyframe_converter.cpp:37-46 (IndexForQuaternionComponent) *)
Definition index_for_component (t : mtype) (order : quaternion_order) : Z :=
  match order with
  | OrderWXYZ => type_number t - type_number QuaternionW
  | OrderXYZW => if type_number t =? type_number QuaternionW then 3 else type_number t - type_number QuaternionX
  end.

(** keyframe_converter.cpp:49-56 (Keyframe) *)
Record keyframe := Keyframe { kf_values : list R; kf_left : list R; kf_right : list R }.
Definition new_keyframe (count : Z) : keyframe :=
  let z := repeat 0%R (Z.to_nat count) in Keyframe z z z.

(** The loops of lines 65-67, 71-81: [n] elements from [start]. *)
Definition slice (l : list R) (start n : Z) : option (list R) :=
  assert ((0 <=? start) && (0 <=? n) && (start + n <=? len l)) ;; Some (firstn (Z.to_nat n) (skipn (Z.to_nat start) l)).
(** keyframe_converter.cpp:61-83 (GetArrayValue) *)
Definition get_array_value (data : keyframe_data) (channel_count frame : Z) (output previous : keyframe) : option keyframe :=
  match kd_type data with
  | CubicSpline =>
      let left_start := frame * channel_count * 3 in
      l <- slice (kd_values data) left_start channel_count ;;
      let value_start := left_start + channel_count in
      v <- slice (kd_values data) value_start channel_count ;;
      r <- slice (kd_values data) (value_start + channel_count) channel_count ;;
      Some (Keyframe v l r)
  | _ =>
      v <- slice (kd_values data) (frame * channel_count) channel_count ;;
      Some (Keyframe v (kf_left output) (kf_right output))
  end.
(** keyframe_converter.cpp:95-113 (GetQuaternionValue) *)
Definition get_quaternion_value (data : keyframe_data) (frame : Z) (output previous : keyframe) : option keyframe :=
  o <- get_array_value data 4 frame output previous ;;
  match kd_type data with
  | Linear =>
      if 0 <? frame then
        match kf_values o, kf_values previous with
        | [a; b; c; d], [a'; b'; c'; d'] =>
            let dotprod := (a * a' + b * b' + c * c' + d * d')%R in
            Some (if Rltb dotprod 0 then Keyframe [a * -1; b * -1; c * -1; d * -1]%R (kf_left o) (kf_right o) else o)
        | _, _ => None
        end
      else Some o
  | _ => Some o
  end.

(** What a frame does to the nodes of one channel, given the channel's index. *)
Definition channel_fn : Type := keyframe_data -> Z -> R -> Z -> keyframe -> keyframe -> list unode -> option (list unode).

(** keyframe_converter.cpp:134-165 (body of the channel loop in AddLinearKeyframeData) *)
Definition linear_channel : channel_fn := fun data frame time channel current previous ns =>
  let i := frame * 2 in
  value <- getz (kf_values current) channel ;;
  left <- getz ns i ;;
  ns <- setz ns i (UNode time value (uderivative left)) ;;
  right <- getz ns (i + 1) ;;
  ns <- setz ns (i + 1) (UNode time value (uderivative right)) ;;
  if i =? 0 then setz ns i (UNode time value 0)
  else
    prev_right <- getz ns (i - 1) ;;
    let delta_time := (time - ux prev_right)%R in
    let tangent := if Rltb 0 delta_time then ((value - uy prev_right) / delta_time)%R else 0%R in
    ns <- setz ns (i - 1) (UNode (ux prev_right) (uy prev_right) tangent) ;;
    ns <- setz ns i (UNode time value tangent) ;;
    if frame =? kd_count data - 1 then setz ns (i + 1) (UNode time value 0) else Some ns.
(** keyframe_converter.cpp:189-211 (body of the channel loop in AddStepKeyframeData) *)
Definition step_channel : channel_fn := fun data frame time channel current previous ns =>
  let i := frame * 2 in
  value <- getz (kf_values current) channel ;;
  left <- getz ns i ;;
  ns <- setz ns i (UNode time (uy left) 0) ;;
  ns <- setz ns (i + 1) (UNode time value 0) ;;
  if i =? 0 then setz ns i (UNode time value 0)
  else previous_value <- getz (kf_values previous) channel ;; setz ns i (UNode time previous_value 0).
(** keyframe_converter.cpp:235-252 (body of the channel loop in AddCubicSplineKeyframeData) *)
Definition cubic_channel : channel_fn := fun data frame time channel current previous ns =>
  let i := frame * 2 in
  value <- getz (kf_values current) channel ;;
  l <- getz (kf_left current) channel ;;
  dl <- tangent_to_ms l (kd_ms data) ;;
  ns <- setz ns i (UNode time value dl) ;;
  r <- getz (kf_right current) channel ;;
  dr <- tangent_to_ms r (kd_ms data) ;;
  setz ns (i + 1) (UNode time value dr).

(** The channel loops. *)
Fixpoint channels_loop (f : Z -> list unode -> option (list unode)) (channel : Z) (chans : list (list unode)) : option (list (list unode)) :=
  match chans with
  | [] => Some []
  | ns :: rest => ns' <- f channel ns ;; rest' <- channels_loop f (channel + 1) rest ;; Some (ns' :: rest')
  end.
(** keyframe_converter.cpp:130-167, 185-213, 231-254 (the frame loops); [n] frames remain. *)
Fixpoint frames_loop (data : keyframe_data) (value_fn : Z -> keyframe -> keyframe -> option keyframe) (f : channel_fn)
    (n : nat) (frame : Z) (current previous : keyframe) (chans : list (list unode)) : option (list (list unode)) :=
  match n with
  | O => Some chans
  | S n' =>
      t <- getz (kd_times data) frame ;;
      current' <- value_fn frame current previous ;;
      chans' <- channels_loop (fun c ns => f data frame (to_ms t (kd_ms data)) c current' previous ns) 0 chans ;;
      frames_loop data value_fn f n' (frame + 1) current' current' chans'
  end.
(** keyframe_converter.cpp:115-168, 170-214, 216-255, 257-273 (AddLinearKeyframeData,
    AddStepKeyframeData, AddCubicSplineKeyframeData, AddKeyframeData): resize fills with zeros. *)
Definition add_keyframe_data (data : keyframe_data) (channel_count : Z) (value_fn : Z -> keyframe -> keyframe -> option keyframe) : option (list (list unode)) :=
  assert (0 <=? kd_count data) ;;
  let zeros := repeat (UNode 0 0 0) (Z.to_nat (kd_count data * 2)) in
  frames_loop data value_fn (match kd_type data with Linear => linear_channel | Step => step_channel | CubicSpline => cubic_channel end)
    (Z.to_nat (kd_count data)) 0 (new_keyframe channel_count) (new_keyframe channel_count)
    (repeat zeros (Z.to_nat channel_count)).

(** compact_spline.h:35-36 (kMaxSplineIndex) *)
Definition kMaxSplineIndex : Z := 65532.
(** keyframe_converter.cpp:275-283 (GetRequiredNodeCount) *)
Definition required_node_count (keyframe_count : Z) (type : interpolation) : Z :=
  if kMaxSplineIndex <? keyframe_count * 2 then kInvalidSplineIndex else keyframe_count * 2.
(** keyframe_converter.cpp:301-309 (GetRequiredBufferSize); sizes do not overflow size_t. *)
Definition required_buffer_size (keyframe_count channel_count : Z) (type : interpolation) : Z :=
  let n := required_node_count keyframe_count type in
  if n =? kInvalidSplineIndex then 0 else channel_count * size n.

(** compact_spline.h:330-335, 341-347, 357-364 (CreateInPlace, CreateFromNodes,
    CreateFromNodesInPlace): a new spline for as many nodes as there are. *)
Definition create_from_nodes (l : list unode) : option spline :=
  assert (len l <=? kMaxSplineIndex) ;; init_from_nodes (Spline range_default 0 [] (len l)) l.
(** keyframe_converter.cpp:285-297 (CreateSplinesInPlace): the splines with the offsets
    they are created at, and the bytes used. *)
Fixpoint create_splines (offset bytes_used : Z) (chans : list (list unode)) : option (list (Z * spline) * Z) :=
  match chans with
  | [] => Some ([], bytes_used)
  | ns :: rest =>
      s <- create_from_nodes ns ;;
      out <- create_splines (offset + size (max_nodes s)) (bytes_used + size (max_nodes s)) rest ;;
      Some ((offset, s) :: fst out, snd out)
  end.

(** keyframe_converter.cpp:311-320 (AddArrayCurves) *)
Definition array_nodes (data : keyframe_data) (channel_count : Z) : option (list (list unode)) :=
  add_keyframe_data data channel_count (get_array_value data channel_count).
Definition add_array_curves (data : keyframe_data) (channel_count : Z) : option (list (Z * spline) * Z) :=
  chans <- array_nodes data channel_count ;; create_splines 0 0 chans.
(** keyframe_converter.cpp:322-334 (AddQuaternionCurves into a buffer) *)
Definition quaternion_nodes (data : keyframe_data) : option (list (list unode)) :=
  add_keyframe_data data 4 (get_quaternion_value data).
Definition reorder (order : quaternion_order) (chans : list (list unode)) : option (list (list unode)) :=
  match order, chans with
  | OrderXYZW, [n0; n1; n2; n3] => Some [n3; n0; n1; n2]
  | OrderWXYZ, _ => Some chans
  | _, _ => None
  end.
Definition add_quaternion_curves (data : keyframe_data) (order : quaternion_order) : option (list (Z * spline) * Z) :=
  chans <- quaternion_nodes data ;; chans <- reorder order chans ;; create_splines 0 0 chans.

(** Operations added to an animation; every curve has the same kind of init. *)
Definition anim_op : Type := opinit unit spline.
(** matrix_op.h:114-116 (IsOperationDefaultValue) *)
Definition is_default_value (t : mtype) (v : R) : bool := nearly_equal (default_value t) v (1 / 100000).
(** base_id + i, as a MatrixOpId (uint8_t) *)
Definition id_plus (base i : Z) : Z := (base + i) mod 256.
(** keyframe_converter.cpp:336-347 (AddVector3Constants); [n] components remain. *)
Fixpoint vector3_constants (n : nat) (i : Z) (base : mtype) (base_id : Z) (vector : list R) : option (list anim_op) :=
  match n with
  | O => Some []
  | S n' =>
      t <- type_plus base i ;; v <- getz vector i ;;
      rest <- vector3_constants n' (i + 1) base base_id vector ;;
      Some (if is_default_value t v then rest else OpInit None (id_plus base_id i) t (UValue v) :: rest)
  end.
Definition add_vector3_constants (ops : list anim_op) (base : mtype) (base_id : Z) (vector : list R) : option (list anim_op) :=
  new <- vector3_constants 3 0 base base_id vector ;; Some (ops ++ new).
(** keyframe_converter.cpp:349-361 (AddQuaternionConstants) *)
Fixpoint quaternion_constants (n : nat) (i : Z) (base_id : Z) (quat : list R) (order : quaternion_order) : option (list anim_op) :=
  match n with
  | O => Some []
  | S n' =>
      t <- type_plus QuaternionW i ;; v <- getz quat (index_for_component t order) ;;
      rest <- quaternion_constants n' (i + 1) base_id quat order ;;
      Some (if is_default_value t v then rest else OpInit None (id_plus base_id i) t (UValue v) :: rest)
  end.
Definition add_quaternion_constants (ops : list anim_op) (base_id : Z) (quat : list R) (order : quaternion_order) : option (list anim_op) :=
  new <- quaternion_constants 4 0 base_id quat order ;; Some (ops ++ new).
(** keyframe_converter.cpp:363-383 (AddVector3Curves): the operations; splines[i] is the i-th of them. *)
Fixpoint vector3_curves (n : nat) (i : Z) (base : mtype) (base_id : Z) (chans : list (list unode)) : option (list anim_op) :=
  match n with
  | O => Some []
  | S n' =>
      ns <- getz chans i ;; s <- create_from_nodes ns ;; t <- type_plus base i ;;
      rest <- vector3_curves n' (i + 1) base base_id chans ;;
      Some (OpInit (Some tt) (id_plus base_id i) t (USpline s) :: rest)
  end.
Definition add_vector3_curves (ops : list anim_op) (base : mtype) (base_id : Z) (data : keyframe_data) : option (list anim_op) :=
  chans <- array_nodes data 3 ;; new <- vector3_curves 3 0 base base_id chans ;; Some (ops ++ new).
(** keyframe_converter.cpp:385-406 (AddQuaternionCurves to an animation) *)
Fixpoint quaternion_curves (n : nat) (i : Z) (base_id : Z) (order : quaternion_order) (chans : list (list unode)) : option (list anim_op) :=
  match n with
  | O => Some []
  | S n' =>
      t <- type_plus QuaternionW i ;;
      ns <- getz chans (index_for_component t order) ;; s <- create_from_nodes ns ;;
      rest <- quaternion_curves n' (i + 1) base_id order chans ;;
      Some (OpInit (Some tt) (id_plus base_id i) t (USpline s) :: rest)
  end.
Definition add_quaternion_ops (ops : list anim_op) (base_id : Z) (order : quaternion_order) (data : keyframe_data) : option (list anim_op) :=
  chans <- quaternion_nodes data ;; new <- quaternion_curves 4 0 base_id order chans ;; Some (ops ++ new).
