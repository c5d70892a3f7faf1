(** Model of the extraction of animation data from FBX nodes in src/anim_pipeline/anim_pipeline.cpp
    (class FbxAnimParser), over the real numbers.  What the FBX SDK tells about a node is the
    data of the records below; times are FBX ticks, [ms] is FbxTime::GetMilliSeconds.  Logging
    is left out. *)
From Verif Require Import RBase CurveModel MatrixModel RigModel AnimDataModel AnimChannelsModel.
Local Open Scope Z_scope.

(** FbxAnimCurve: keys with time, value and derivatives on both sides; Evaluate,
    EvaluateLeftDerivative and EvaluateRightDerivative. *)
Record fbx_key := FbxKey { fk_time : Z; fk_value : R; fk_left : R; fk_right : R }.
Record fbx_curve := FbxCurve { fc_keys : list fbx_key; fc_value : Z -> R; fc_left : Z -> R; fc_right : Z -> R }.
(** A channel of an FbxAnimCurveNode: GetChannelValue(channel, 0) and GetCurve(channel). *)
Record fbx_channel := FbxChannel { fh_value : R; fh_curve : option fbx_curve }.
(** FbxPropertyT<FbxDouble3>: its value and the curve node driving it
    (anim_pipeline.cpp:335-343, AnimCurveNodeDrivingProperty). *)
Record fbx_property := FbxProperty { fp_value : Z -> R; fp_anim : option (list fbx_channel) }.
Inductive fbx_name := LclTranslation | RotationOffset | RotationPivot | PreRotation | LclRotation | PostRotation | ScalingOffset | ScalingPivot | LclScaling.
(** FbxNode: its properties and its rotation order. *)
Record fbx_data := FbxData { fd_property : fbx_name -> fbx_property; fd_order : Z }.

(** anim_pipeline.cpp:35-53 (kDefaultChannelOrder, kRotationOrderToChannelOrder,
    kRotationOrderToChannelOrderInverted) *)
Definition kRotationOrder : list (list Z) := [[2; 1; 0]; [2; 0; 1]; [1; 0; 2]; [1; 2; 0]; [0; 2; 1]; [0; 1; 2]; [2; 1; 0]].
Definition kRotationOrderInverted : list (list Z) := [[0; 1; 2]; [0; 2; 1]; [1; 2; 0]; [1; 0; 2]; [2; 0; 1]; [2; 1; 0]; [0; 1; 2]].
(** anim_pipeline.cpp:390-402 (ChannelOrder) *)
Definition channel_order (order : Z) (op : mtype) (invert : bool) : option (list Z) :=
  if rotate_kind op then getz (if invert then kRotationOrderInverted else kRotationOrder) order else Some [0; 1; 2].

(** anim_pipeline.cpp:286-288 (InvertValue), 290-295 (FbxToFlatValue), 297-302 (FbxToFlatDerivative) *)
Definition invert_value (v : R) (op : mtype) (invert : bool) : R := if invert then if scale_kind op then (1 / v)%R else (- v)%R else v.
Definition flat_value (op : mtype) (invert : bool) (x : R) : R := invert_value (if rotate_kind op then (PI / 180 * x)%R else x) op invert.
Definition flat_derivative (op : mtype) (invert : bool) (d : R) : R := flat_value op invert (d / 1000)%R.

(** anim_pipeline.cpp:370-382 (the loop of AnimConst); [i] is the key before [rest]. *)
Fixpoint keys_const (op : mtype) (invert : bool) (tol angle first : R) (k : fbx_key) (rest : list fbx_key) : bool :=
  match rest with
  | [] => true
  | k' :: rest' =>
      if (Rltb angle (Rabs (atan (flat_derivative op invert (fk_left k)))) || Rltb angle (Rabs (atan (flat_derivative op invert (fk_right k)))) ||
          Rltb tol (Rabs (flat_value op invert (fk_value k') - first)))%bool
      then false else keys_const op invert tol angle first k' rest'
  end.
(** anim_pipeline.cpp:345-388 (AnimConst): whether the channel is constant, and the value. *)
Definition anim_const (p : fbx_property) (op : mtype) (invert : bool) (channel : Z) (tol angle : R) : bool * R :=
  match fp_anim p with
  | None => (true, flat_value op invert (fp_value p channel))
  | Some chs =>
      match getz chs channel with
      | None => (true, flat_value op invert (fp_value p channel))
      | Some c =>
          match fh_curve c with
          | Some (FbxCurve (k :: rest) _ _ _) =>
              let first := flat_value op invert (fk_value k) in
              if keys_const op invert tol angle first k rest then (true, first) else (false, flat_value op invert (fh_value c))
          | _ => (true, flat_value op invert (fh_value c))
          end
      end
  end.

(** anim_pipeline.cpp:511-526: sixteen samples of an interval. *)
Definition sample_ticks (t0 t1 : Z) : list Z := map (fun i => t0 + Z.of_nat i * Z.quot (t1 - t0) 15) (seq 0 16).
Definition sample_values (op : mtype) (invert : bool) (c : fbx_curve) (t0 t1 : Z) : list R := map (fun t => flat_value op invert (fc_value c t)) (sample_ticks t0 t1).
Definition sample_derivatives (op : mtype) (invert : bool) (c : fbx_curve) (t0 t1 : Z) : list R :=
  flat_derivative op invert (fc_right c t0) :: map (fun t => flat_derivative op invert (fc_left c t)) (tl (sample_ticks t0 t1)).
(** anim_pipeline.cpp:280-284 (FbxToFlatTime): a long long cast to an int. *)
Definition flat_time (ms : Z -> Z) (t : Z) : option Z :=
  assert (ms t <=? int_max) ;; Some (if int_min <=? ms t then ms t else (ms t - int_min) mod 4294967296 + int_min).
(** anim_pipeline.cpp:499-542 (the loop of GatherFlatAnimCurve) *)
Fixpoint gather_intervals (ms : Z -> Z) (op : mtype) (invert : bool) (c : fbx_curve) (span : Z * Z) (channel : Z) (keys : list fbx_key) (d : anim_data) : option anim_data :=
  match keys with
  | a :: ((b :: _) as rest) =>
      d' <- (if (snd span <? fk_time a) || (fk_time b <? fst span) then Some d
             else
               let t0 := Z.max (fst span) (fk_time a) in
               let t1 := Z.min (snd span) (fk_time b) in
               f0 <- flat_time ms t0 ;; f1 <- flat_time ms t1 ;;
               add_curve d channel f0 f1 (sample_values op invert c t0 t1) (sample_derivatives op invert c t0 t1) 16) ;;
      gather_intervals ms op invert c span channel rest d'
  | _ => Some d
  end.
(** anim_pipeline.cpp:492-549 (GatherFlatAnimCurve) *)
Definition gather_curve (ms : Z -> Z) (op : mtype) (invert : bool) (c : fbx_curve) (span : Z * Z) (channel : Z) (d : anim_data) : option anim_data :=
  assert (1 <? len (fc_keys c)) ;;
  d' <- gather_intervals ms op invert c span channel (fc_keys c) d ;; prune_nodes d' channel.

(** anim_pipeline.cpp:412-423: the property, the first id, the operation for x and whether
    it is inverted. *)
Definition kProperties : list (fbx_name * Z * mtype * bool) :=
  [(LclTranslation, 0, TranslateX, false); (RotationOffset, 0, TranslateX, false); (RotationPivot, 0, TranslateX, false);
   (PreRotation, 3, RotateX, false); (LclRotation, 6, RotateX, false); (PostRotation, 9, RotateX, true);
   (RotationPivot, 12, TranslateX, true); (ScalingOffset, 12, TranslateX, false); (ScalingPivot, 12, TranslateX, false);
   (LclScaling, 15, ScaleX, false); (ScalingPivot, 19, TranslateX, true)].
(** The operation for x plus the channel. *)
Definition op_plus (op : mtype) (channel : Z) : mtype :=
  match op, channel with
  | RotateX, 1 => RotateY | RotateX, 2 => RotateZ | TranslateX, 1 => TranslateY | TranslateX, 2 => TranslateZ
  | ScaleX, 1 => ScaleY | ScaleX, 2 => ScaleZ | o, _ => o
  end.
(** anim_pipeline.cpp:443-484: one channel of a property, with its id. *)
Definition gather_channel (ms : Z -> Z) (p : fbx_property) (op : mtype) (invert : bool) (span : Z * Z) (channel id : Z) (d : anim_data) : option anim_data :=
  let o := op_plus op channel in
  let '(const, v) := anim_const p op invert channel (tolerance_for_op (ad_tol d) o) (tl_angle (ad_tol d)) in
  if const && is_default (ad_tol d) o v then Some d
  else
    dc <- alloc_channel d o id ;;
    let '(d1, ch) := dc in
    if const then add_constant d1 ch v
    else
      chs <- fp_anim p ;; fc <- getz chs channel ;; c <- fh_curve fc ;;
      d2 <- gather_curve ms op invert c span ch d1 ;;
      n <- nodes_of d2 ch ;; assert (0 <? len n) ;; Some d2.
Fixpoint gather_channels (ms : Z -> Z) (p : fbx_property) (op : mtype) (invert : bool) (span : Z * Z) (order : list Z) (id : Z) (d : anim_data) : option anim_data :=
  match order with [] => Some d | c :: r => d' <- gather_channel ms p op invert span c id d ;; gather_channels ms p op invert span r (id + 1) d' end.
Definition three_channels (p : fbx_property) : bool := match fp_anim p with None => true | Some chs => len chs =? 3 end.
Fixpoint gather_properties (ms : Z -> Z) (f : fbx_data) (span : Z * Z) (l : list (fbx_name * Z * mtype * bool)) (d : anim_data) : option anim_data :=
  match l with
  | [] => Some d
  | (name, id, op, invert) :: r =>
      let p := fd_property f name in
      d' <- (if three_channels p then order <- channel_order (fd_order f) op invert ;; gather_channels ms p op invert span order id d else Some d) ;;
      gather_properties ms f span r d'
  end.
(** anim_pipeline.cpp:404-490 (GatherFlatAnimForNode) *)
Definition gather_node (ms : Z -> Z) (f : fbx_data) (no_uniform_scale : bool) (span : Z * Z) (d : anim_data) : option anim_data :=
  d' <- gather_properties ms f span kProperties d ;; prune_channels d' no_uniform_scale.

(** A node that is a bone, with its bone index and the bones among its children. *)
Inductive fbx_bone := FbxBone (index : Z) (data : fbx_data) (children : list fbx_bone).
(** anim_pipeline.cpp:304-333 (GatherFlatAnimRecursive), from a bone on.  Nodes that are no
    bones have no bones among their descendants (C84). *)
Fixpoint gather_anim (ms : Z -> Z) (nu : bool) (span : Z * Z) (n : fbx_bone) (d : anim_data) : option anim_data :=
  match n with
  | FbxBone i f cs =>
      d1 <- set_cur_bone d i ;; d2 <- gather_node ms f nu span d1 ;;
      let d3 := reset_cur_bone d2 in
      r <- should_recurse d3 i ;;
      if r then (fix each l e := match l with [] => Some e | c :: l' => e' <- gather_anim ms nu span c e ;; each l' e' end) cs d3
      else Some d3
  end.
Fixpoint gather_anims (ms : Z -> Z) (nu : bool) (span : Z * Z) (l : list fbx_bone) (d : anim_data) : option anim_data :=
  match l with [] => Some d | n :: r => d' <- gather_anim ms nu span n d ;; gather_anims ms nu span r d' end.
