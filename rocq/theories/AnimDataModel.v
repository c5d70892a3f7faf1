(** Model of src/anim_pipeline/anim_data.cpp and anim_data.h over the real numbers: recording
    curves, pruning nodes, shifting and extending channels, the time span and repetition.
    PruneChannels is in AnimChannelsModel.v.

    FlatTime is an int: additions and subtractions that overflow are [None].  Logging is
    left out, as is NumBytes.  Names of bones are lists of characters. *)
From Verif Require Import RBase CurveModel CompactSplineModel MatrixModel RigModel.
Local Open Scope Z_scope.

(** anim_data.h:95-107 (SplineNode) *)
Record snode := SNode { sn_time : Z; sn_val : R; sn_der : R }.
Definition snode_eqb (a b : snode) : bool := (sn_time a =? sn_time b) && Reqb (sn_val a) (sn_val b) && Reqb (sn_der a) (sn_der b).
(** anim_data.h:110-119 (Channel) *)
Record channel := Channel { ch_op : mtype; ch_id : Z; ch_nodes : list snode }.
(** anim_data.h:122-137 (Bone) *)
Record bone := Bone { bn_name : list Z; bn_parent : Z; bn_channels : list channel }.
(** anim_pipeline.h:27-45 (Tolerances) *)
Record tolerances := Tolerances { tl_scale : R; tl_rotate : R; tl_translate : R; tl_angle : R; tl_repeat_angle : R }.
(** anim_data.h:207-215 (bones_, cur_bone_index_, tolerances_, root_bones_only_) *)
Record anim_data := AnimData { ad_bones : list bone; ad_cur : Z; ad_tol : tolerances; ad_root_only : bool }.
(** anim_data.cpp:18-23 (AnimData) *)
Definition new_anim_data (t : tolerances) (root_only : bool) : anim_data := AnimData [] (-1) t root_only.

Definition with_bones (d : anim_data) (b : list bone) : anim_data := AnimData b (ad_cur d) (ad_tol d) (ad_root_only d).
(** Subtraction of two ints; overflow is undefined. *)
Definition sub_int (a b : Z) : option Z := add_int a (- b).

(** anim_data.cpp:25-29 (AllocBone) *)
Definition alloc_bone (d : anim_data) (name : list Z) (parent : Z) : anim_data * Z :=
  (with_bones d (ad_bones d ++ [Bone name parent []]), len (ad_bones d)).
(** anim_data.cpp:31-37 (SetCurBoneIndex, ResetCurBoneIndex) *)
Definition set_cur_bone (d : anim_data) (i : Z) : option anim_data :=
  assert (0 <=? i) && (i <? len (ad_bones d)) ;; assert (ad_cur d =? -1) ;; Some (AnimData (ad_bones d) i (ad_tol d) (ad_root_only d)).
Definition reset_cur_bone (d : anim_data) : anim_data := AnimData (ad_bones d) (-1) (ad_tol d) (ad_root_only d).
(** anim_data.cpp:337-345 (CurChannels) *)
Definition cur_channels (d : anim_data) : option (list channel) :=
  b <- getz (ad_bones d) (ad_cur d) ;; Some (bn_channels b).
Definition set_cur_channels (d : anim_data) (c : list channel) : option anim_data :=
  b <- getz (ad_bones d) (ad_cur d) ;; bones <- setz (ad_bones d) (ad_cur d) (Bone (bn_name b) (bn_parent b) c) ;; Some (with_bones d bones).
(** Replacing the nodes of a channel of the current bone. *)
Definition set_nodes (d : anim_data) (id : Z) (n : list snode) : option anim_data :=
  chs <- cur_channels d ;; c <- getz chs id ;; chs' <- setz chs id (Channel (ch_op c) (ch_id c) n) ;; set_cur_channels d chs'.
Definition nodes_of (d : anim_data) (id : Z) : option (list snode) :=
  chs <- cur_channels d ;; c <- getz chs id ;; Some (ch_nodes c).
(** anim_data.cpp:39-43 (AllocChannel) *)
Definition alloc_channel (d : anim_data) (op : mtype) (id : Z) : option (anim_data * Z) :=
  chs <- cur_channels d ;; d' <- set_cur_channels d (chs ++ [Channel op id []]) ;; Some (d', len chs).
(** anim_data.cpp:45-49 (ShouldRecurse) *)
Definition should_recurse (d : anim_data) (i : Z) : option bool :=
  b <- getz (ad_bones d) i ;; Some (negb (ad_root_only d) || (len (bn_channels b) =? 0)).
(** anim_data.cpp:51-56 (AddConstant) *)
Definition add_constant (d : anim_data) (id : Z) (v : R) : option anim_data := set_nodes d id [SNode 0 v 0].

(** matrix_op.h:75-88 (RotateOp, TranslateOp, ScaleOp) *)
Definition rotate_kind (t : mtype) : bool := match t with RotateX | RotateY | RotateZ => true | _ => false end.
Definition translate_kind (t : mtype) : bool := match t with TranslateX | TranslateY | TranslateZ => true | _ => false end.
Definition scale_kind (t : mtype) : bool := match t with ScaleX | ScaleY | ScaleZ | ScaleUniformly => true | _ => false end.
(** anim_data.cpp:278-284 (ToleranceForOp) *)
Definition tolerance_for_op (t : tolerances) (op : mtype) : R :=
  if rotate_kind op then tl_rotate t else if translate_kind op then tl_translate t else if scale_kind op then tl_scale t else (1 / 10)%R.
(** anim_data.cpp:608-612 (DefaultOpValue), 290-292 (IsDefaultValue) *)
Definition default_op_value (op : mtype) : R := if scale_kind op then 1%R else 0%R.
Definition is_default (t : tolerances) (op : mtype) (v : R) : bool := Rltb (Rabs (v - default_op_value op)) (tolerance_for_op t op).
(** anim_data.cpp:347-350 (Tolerance) *)
Definition tolerance (d : anim_data) (id : Z) : option R :=
  chs <- cur_channels d ;; c <- getz chs id ;; Some (tolerance_for_op (ad_tol d) (ch_op c)).

(** anim_data.h:139-153 (CurveSegment): the pointers are an offset into the arrays. *)
Record segment := Segment { sg_start : Z; sg_end : Z; sg_first : Z; sg_count : Z }.
(** anim_data.cpp:92-101 (the loop over the samples in AddCurve); [n] samples remain.  The result is the worst
    index, difference and time. *)
Fixpoint worst_loop (c : cubic) (vals : list R) (first : Z) (n : nat) (i : Z) (time inc : R) (worst : Z * R * R) : option (Z * R * R) :=
  match n with
  | O => Some worst
  | S n' =>
      v <- getz vals (first + i) ;;
      let diff := Rabs (keval c time - v) in
      worst_loop c vals first n' (i + 1) (time + inc)%R inc (if Rltb (snd (fst worst)) diff then (i, diff, time) else worst)
  end.
(** anim_data.cpp:72-134 (the loop over the segments in AddCurve); the last segment is the head.  In a
    segment of one sample the division by zero is not used. *)
Fixpoint segments_loop (fuel : nat) (vals ders : list R) (tol : R) (segs : list segment) (n : list snode) : option (list snode) :=
  match fuel with
  | O => None
  | S fuel' =>
      match segs with
      | [] => Some n
      | s :: rest =>
          width <- sub_int (sg_end s) (sg_start s) ;;
          v0 <- getz vals (sg_first s) ;; d0 <- getz ders (sg_first s) ;;
          v1 <- getz vals (sg_first s + (sg_count s - 1)) ;; d1 <- getz ders (sg_first s + (sg_count s - 1)) ;;
          let c := cubic_init v0 d0 v1 d1 (IZR width) in
          let inc := (IZR width / IZR (sg_count s - 1))%R in
          w <- worst_loop c vals (sg_first s) (Z.to_nat (sg_count s - 2)) 1 inc inc (0, 0%R, 0%R) ;;
          let '(idx, diff, time) := w in
          if (0 <? idx) && Rltb tol diff then
            t <- to_int time ;; mid <- add_int (sg_start s) t ;;
            segments_loop fuel' vals ders tol
              (Segment (sg_start s) mid (sg_first s) (idx + 1) :: Segment mid (sg_end s) (sg_first s + idx) (sg_count s - idx) :: rest) n
          else
            let start_node := SNode (sg_start s) v0 d0 in
            let end_node := SNode (sg_end s) v1 d1 in
            let matches := match getz n (len n - 1) with Some b => snode_eqb b start_node | None => false end in
            segments_loop fuel' vals ders tol rest ((if matches then n else n ++ [start_node]) ++ [end_node])
      end
  end.
(** anim_data.cpp:64-135 (AddCurve): the nodes that a channel has after it.  Twice as many
    steps as samples are enough; see C69. *)
Definition curve_nodes (vals ders : list R) (count : Z) (t0 t1 : Z) (tol : R) (n : list snode) : option (list snode) :=
  segments_loop (Z.to_nat (2 * count + 1)) vals ders tol [Segment t0 t1 0 count] n.
Definition add_curve (d : anim_data) (id t0 t1 : Z) (vals ders : list R) (count : Z) : option anim_data :=
  tol <- tolerance d id ;; n <- nodes_of d id ;; n' <- curve_nodes vals ders count t0 t1 tol n ;; set_nodes d id n'.

(** anim_data.cpp:601-606 (EqualNodes) *)
Definition equal_nodes (a b : snode) (tol angle : R) : bool :=
  (sn_time a =? sn_time b) && Rltb (Rabs (sn_val a - sn_val b)) tol && Rltb (Rabs (atan (sn_der a - sn_der b))) angle.
(** anim_data.cpp:581-595 (the loop of IntermediateNodesRedundant) *)
Fixpoint on_cubic (c : cubic) (t0 : Z) (tol angle : R) (mids : list snode) : option bool :=
  match mids with
  | [] => Some true
  | m :: rest =>
      w <- sub_int (sn_time m) t0 ;;
      if Rltb (Rabs (keval c (IZR w) - sn_val m)) tol && Rltb (Rabs (atan (kderiv c (IZR w) - sn_der m))) angle
      then on_cubic c t0 tol angle rest else Some false
  end.
(** anim_data.cpp:566-599 (IntermediateNodesRedundant): the nodes from [i] to [j]. *)
Definition redundant (t : tolerances) (n : list snode) (i j : Z) (tol : R) : option bool :=
  start <- getz n i ;; fin <- getz n j ;;
  if equal_nodes start fin tol (tl_angle t) then Some true
  else
    width <- sub_int (sn_time fin) (sn_time start) ;;
    on_cubic (cubic_init (sn_val start) (sn_der start) (sn_val fin) (sn_der fin) (IZR width)) (sn_time start) tol (tl_angle t)
      (firstn (Z.to_nat (j - i - 1)) (skipn (Z.to_nat (i + 1)) n)).
(** anim_data.cpp:148-155 (the inner loop of PruneNodes); [k] values of j remain. *)
Fixpoint prune_inner (k : nat) (t : tolerances) (n : list snode) (tol : R) (i j : Z) (prune : list bool) (next : Z) : option (list bool * Z) :=
  match k with
  | O => Some (prune, next)
  | S k' =>
      r <- redundant t n i j tol ;;
      if r then p <- setz prune (j - 1) true ;; prune_inner k' t n tol i (j + 1) p j
      else prune_inner k' t n tol i (j + 1) prune next
  end.
(** anim_data.cpp:146-157 (the outer loop of PruneNodes); every step advances. *)
Fixpoint prune_outer (fuel : nat) (t : tolerances) (n : list snode) (tol : R) (i : Z) (prune : list bool) : option (list bool) :=
  match fuel with
  | O => None
  | S f =>
      if i <? len n then
        r <- prune_inner (Z.to_nat (len n - (i + 2))) t n tol i (i + 2) prune (i + 1) ;;
        prune_outer f t n tol (snd r) (fst r)
      else Some prune
  end.
(** anim_data.cpp:160-168 (the compaction in PruneNodes) *)
Fixpoint compact (k : nat) (read write : Z) (prune : list bool) (n : list snode) : option (list snode) :=
  match k with
  | O => Some (firstn (Z.to_nat write) n)
  | S k' =>
      p <- getz prune read ;;
      if p then compact k' (read + 1) write prune n
      else
        n' <- (if write <? read then x <- getz n read ;; setz n write x else Some n) ;;
        compact k' (read + 1) (write + 1) prune n'
  end.
(** anim_data.cpp:172-175 (is_const in PruneNodes) *)
Definition is_const (t : tolerances) (tol : R) (n : list snode) : bool :=
  match n with
  | [a; b] => Rltb (Rabs (sn_val a - sn_val b)) tol && Rltb (Rabs (atan (sn_der a))) (tl_angle t) && Rltb (Rabs (atan (sn_der b))) (tl_angle t)
  | _ => false
  end.
(** anim_data.cpp:137-179 (PruneNodes): the nodes of the channel. *)
Definition pruned_nodes (t : tolerances) (tol : R) (n : list snode) : option (list snode) :=
  prune <- prune_outer (length n + 1) t n tol 0 (repeat false (length n)) ;;
  n' <- compact (length n) 0 0 prune n ;;
  Some (if is_const t tol n' then firstn 1 n' else n').
Definition prune_nodes (d : anim_data) (id : Z) : option anim_data :=
  tol <- tolerance d id ;; n <- nodes_of d id ;; n' <- pruned_nodes (ad_tol d) tol n ;; set_nodes d id n'.

(** Loops over all elements. *)
Fixpoint map_opt {A B} (f : A -> option B) (l : list A) : option (list B) :=
  match l with [] => Some [] | x :: r => y <- f x ;; r' <- map_opt f r ;; Some (y :: r') end.
Definition each_channel (f : list snode -> option (list snode)) (d : anim_data) : option anim_data :=
  bones <- map_opt (fun b => chs <- map_opt (fun c => n <- f (ch_nodes c) ;; Some (Channel (ch_op c) (ch_id c) n)) (bn_channels b) ;;
                             Some (Bone (bn_name b) (bn_parent b) chs)) (ad_bones d) ;;
  Some (with_bones d bones).
(** anim_data.cpp:239-251 (ShiftTime) *)
Definition shift_nodes (offset : Z) (n : list snode) : option (list snode) :=
  map_opt (fun x => t <- add_int (sn_time x) offset ;; Some (SNode t (sn_val x) (sn_der x))) n.
Definition shift_time (d : anim_data) (offset : Z) : option anim_data :=
  if offset =? 0 then Some d else each_channel (shift_nodes offset) d.
(** anim_data.cpp:253-276 (ExtendChannelsToTime) *)
Definition extend_nodes (end_time : Z) (n : list snode) : option (list snode) :=
  if len n <=? 1 then Some n
  else
    back <- getz n (len n - 1) ;;
    if end_time <=? sn_time back then Some n
    else Some ((if negb (Reqb (sn_der back) 0) then n ++ [SNode (sn_time back) (sn_val back) 0] else n) ++ [SNode end_time (sn_val back) 0]).
Definition extend_channels (d : anim_data) (end_time : Z) : option anim_data := each_channel (extend_nodes end_time) d.

Definition int_min : Z := -2147483648.
Definition int_max : Z := 2147483647.
Definition all_channels (d : anim_data) : list channel := flat_map bn_channels (ad_bones d).
(** anim_data.cpp:311-322 (MaxAnimatedTime) *)
Definition max_time_loop : list channel -> Z -> option Z :=
  fix loop chs acc := match chs with
  | [] => Some acc
  | c :: rest => if 1 <? len (ch_nodes c) then b <- getz (ch_nodes c) (len (ch_nodes c) - 1) ;; loop rest (Z.max acc (sn_time b)) else loop rest acc
  end.
Definition max_animated_time (d : anim_data) : option Z :=
  m <- max_time_loop (all_channels d) int_min ;; Some (if m =? int_min then 0 else m).
(** anim_data.cpp:324-335 (MinAnimatedTime) *)
Definition min_time_loop : list channel -> Z -> option Z :=
  fix loop chs acc := match chs with
  | [] => Some acc
  | c :: rest => if 1 <? len (ch_nodes c) then b <- getz (ch_nodes c) 0 ;; loop rest (Z.min acc (sn_time b)) else loop rest acc
  end.
Definition min_animated_time (d : anim_data) : option Z :=
  m <- min_time_loop (all_channels d) int_max ;; Some (if m =? int_max then 0 else m).

(** anim_data.cpp:358-379 (the channel loop in FirstNonRepeatingBone): the first channel of a bone whose ends differ. *)
Fixpoint first_non_repeating_channel (t : tolerances) (chs : list channel) (id : Z) : option (option Z) :=
  match chs with
  | [] => Some None
  | c :: rest =>
      a <- getz (ch_nodes c) 0 ;; b <- getz (ch_nodes c) (len (ch_nodes c) - 1) ;;
      let same := Rltb (Rabs (sn_val a - sn_val b)) (tolerance_for_op t (ch_op c)) && Rltb (Rabs (atan (sn_der a - sn_der b))) (tl_repeat_angle t) in
      if same then first_non_repeating_channel t rest (id + 1) else Some (Some id)
  end.
(** anim_data.cpp:352-382 (FirstNonRepeatingBone): a bone and a channel.  The index of the bone is 8 bits wide;
    with 256 bones or more and all repeating, the loop does not end. *)
Fixpoint first_non_repeating (t : tolerances) (bones : list bone) (i : Z) : option (option (Z * Z)) :=
  match bones with
  | [] => assert (i <=? 255) ;; Some None
  | b :: rest =>
      assert (i <=? 255) ;;
      r <- first_non_repeating_channel t (bn_channels b) 0 ;;
      match r with Some id => Some (Some (i, id)) | None => first_non_repeating t rest (i + 1) end
  end.
Definition first_non_repeating_bone (d : anim_data) : option (Z * option Z) :=
  r <- first_non_repeating (ad_tol d) (ad_bones d) 0 ;;
  Some (match r with Some (i, id) => (i, Some id) | None => (kInvalidBoneIdx, None) end).
(** anim_pipeline.h:23 (RepeatPreference) *)
Inductive repeat_preference := RepeatIfRepeatable | AlwaysRepeat | NeverRepeat.
(** anim_data.cpp:384-411 (Repeat) *)
Definition repeats (d : anim_data) (p : repeat_preference) : option bool :=
  match p with
  | NeverRepeat => Some false
  | _ =>
      r <- first_non_repeating_bone d ;;
      Some (match p with AlwaysRepeat => true | _ => fst r =? kInvalidBoneIdx end)
  end.
(** anim_data.cpp:560-564 (BoneParent): an int as a BoneIndex (uint8_t). *)
Definition bone_parent (d : anim_data) (i : Z) : option Z :=
  b <- getz (ad_bones d) i ;; Some (if bn_parent b <? 0 then kInvalidBoneIdx else bn_parent b mod 256).
