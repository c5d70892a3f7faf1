(** Model of RigAnim (include/motive/rig_anim.h, src/motive/rig_anim.cpp), RigInit
    (src/motive/rig_init.cpp), RigData (src/motive/processor/rig_data.h) and RigProcessor
    (src/motive/processor/rig_processor.cpp).

    The matrix motivator of a bone belongs to the matrix or SQT processor; here it is
    abstract (type [B] with the calls of [bclass]); [bone_class] is the instance made of
    MatrixData and SqtData of MatrixModel.v.  BoneIndex is uint8_t and MotiveTime is int.
    [None] is a failed assert, an access out of range, a null pointer, a signed overflow or
    a division by zero.  Names are lists of numbers (bytes).  SetPlaybackRate(s)
    and SetRepeating are in RateModel.v; the reports for debugging in ChildModel.v. *)
From Verif Require Import RBase MathfuModel RangeModel AngleModel OvershootModel SimpleModel EvaluatorModel SplineTargetModel MatrixModel.
Local Open Scope R_scope.

(** common.h:58-59 (kMotiveTimeEndless), 68-69 (kMaxNumBones, kInvalidBoneIdx) *)
Definition kMotiveTimeEndless : Z := 2147483647.
Definition kMaxNumBones : Z := 254.
Definition kInvalidBoneIdx : Z := 255.
(** Addition of two ints; overflow is undefined. *)
Definition add_int (a b : Z) : option Z :=
  assert (-2147483648 <=? a + b)%Z && (a + b <=? 2147483647)%Z ;; Some (a + b)%Z.

(** matrix_anim.h:25-87 (MatrixAnim; the splines are in the operations) *)
Record manim (O : Type) := MAnim { ma_sqt : bool; ma_ops : list O }.
Arguments MAnim {O}. Arguments ma_sqt {O}. Arguments ma_ops {O}.
(** rig_anim.h:122-128; [ra_names] are the names of the bones. *)
Record rig_anim (O : Type) := RigAnim { ra_anims : list (manim O); ra_parents : list Z; ra_names : list (list Z); ra_end : Z; ra_repeat : bool }.
Arguments RigAnim {O}. Arguments ra_anims {O}. Arguments ra_parents {O}. Arguments ra_names {O}. Arguments ra_end {O}. Arguments ra_repeat {O}.

Section Anim.
Context {O : Type}.
(** rig_anim.h:28 *)
Definition ra_default : rig_anim O := RigAnim [] [] [] 0 false.
(** rig_anim.h:50 (NumBones) *)
Definition num_bones (a : rig_anim O) : Z := (len (ra_anims a) mod 256)%Z.
(** rig_anim.h:43-46 (Anim) *)
Definition anim_at (a : rig_anim O) (idx : Z) : option (manim O) := getz (ra_anims a) idx.
(** rig_anim.cpp:21-32 (Init) *)
Definition ra_init (n : Z) (record_names : bool) (a : rig_anim O) : option (rig_anim O) :=
  assert (n <=? kMaxNumBones)%Z ;;
  Some (RigAnim (resize (ra_anims a) n (MAnim false [])) (resize (ra_parents a) n 0%Z) (if record_names then resize (ra_names a) n [] else ra_names a) (ra_end a) (ra_repeat a)).
(** rig_anim.cpp:34-43 (InitMatrixAnim); the caller fills in the returned animation [m]. *)
Definition init_matrix_anim (idx parent : Z) (name : list Z) (m : manim O) (a : rig_anim O) : option (rig_anim O) :=
  assert (idx <? len (ra_anims a))%Z ;;
  assert (parent <? idx)%Z || (parent =? kInvalidBoneIdx)%Z ;;
  parents <- setz (ra_parents a) idx parent ;;
  names <- (if (0 <? len (ra_names a))%Z then setz (ra_names a) idx name else Some (ra_names a)) ;;
  anims <- setz (ra_anims a) idx m ;;
  Some (RigAnim anims parents names (ra_end a) (ra_repeat a)).
(** rig_anim.cpp:45-52 (NumOps): the loop over the bones from [i]. *)
Fixpoint num_ops_loop (fuel : nat) (i acc : Z) (a : rig_anim O) : option Z :=
  match fuel with
  | 0%nat => Some acc
  | Datatypes.S f => m <- getz (ra_anims a) i ;; num_ops_loop f (i + 1)%Z (acc + len (ma_ops m))%Z a
  end.
Definition num_ops (a : rig_anim O) : option Z := num_ops_loop (Z.to_nat (num_bones a)) 0 0 a.

(** memcmp(a, b, n) == 0 *)
Fixpoint same_bytes (n : nat) (i : Z) (a b : list Z) : option bool :=
  match n with
  | 0%nat => Some true
  | Datatypes.S n' => x <- getz a i ;; y <- getz b i ;; r <- same_bytes n' (i + 1)%Z a b ;; Some ((x =? y)%Z && r)
  end.
(** rig_init.cpp:36-42 (MatchesHierarchy) *)
Definition matches_parents (parents_a : list Z) (len_a : Z) (parents_b : list Z) (len_b : Z) : option bool :=
  if (len_a =? len_b)%Z then same_bytes (Z.to_nat len_a) 0 parents_a parents_b else Some false.
(** rig_init.cpp:52-55 (MatchesHierarchy) *)
Definition matches_hierarchy (a b : rig_anim O) : option bool := matches_parents (ra_parents a) (num_bones a) (ra_parents b) (num_bones b).
End Anim.

Section Lookup.
Context {I S : Type}.
(** rig_anim.cpp:58-88: the spline and constant of one operation type [op]. *)
Definition spline_and_constant (matrix_ops : list (opinit I S)) (op : mtype) : option S * R :=
  let alternate_op := if scale_op op then ScaleUniformly else InvalidOp in
  let is (t u : mtype) : bool := match t, u with
    | InvalidOp, InvalidOp | RotateX, RotateX | RotateY, RotateY | RotateZ, RotateZ
    | TranslateX, TranslateX | TranslateY, TranslateY | TranslateZ, TranslateZ
    | ScaleX, ScaleX | ScaleY, ScaleY | ScaleZ, ScaleZ | ScaleUniformly, ScaleUniformly
    | QuaternionW, QuaternionW | QuaternionX, QuaternionX | QuaternionY, QuaternionY | QuaternionZ, QuaternionZ => true
    | _, _ => false end in
  (fix loop (l : list (opinit I S)) : option S * R :=
     match l with
     | [] => (None, default_value op)
     | it :: l' =>
         if is (i_type it) op || is (i_type it) alternate_op then
           match i_union it with
           | UValue v => (None, v)
           | USpline s => (Some s, default_value op)
           | _ => (None, default_value op)
           end
         else loop l'
     end) matrix_ops.
(** rig_anim.cpp:54-90 (GetSplinesAndConstants): the two output arrays. *)
Definition splines_and_constants (bone : Z) (ops : list mtype) (a : rig_anim (opinit I S)) : option (list (option S * R)) :=
  m <- anim_at a bone ;; Some (map (spline_and_constant (ma_ops m)) ops).
End Lookup.

(** The calls made to a MatrixMotivator4f: Initialize with an empty SqtInit ([true]) or
    MatrixInit, BlendToOps, Value, Value with three parts, TimeRemaining, CloneFrom. *)
Record bclass (B O : Type) := BClass {
  b_init : bool -> option B; b_blend : list O -> playback -> B -> option B; b_value : B -> mat4;
  b_parts : B -> option (vec3 * quat * vec3); b_time : B -> option Z; b_clone : B -> option B }.
Arguments b_init {B O}. Arguments b_blend {B O}. Arguments b_value {B O}. Arguments b_parts {B O}. Arguments b_time {B O}. Arguments b_clone {B O}.

Section Rig.
Context {B O : Type} (c : bclass B O).

(** rig_data.h:511-528; [None] in [motivators] is a motivator that is not valid. *)
Record rig_data := RigData { motivators : list (option B); globals : list affine; weights : list R; defining : rig_anim O;
  current : option (rig_anim O); root_bone : Z; root_transform : affine; end_time : Z }.

(** rig_data.h:365-371: the local transform of a bone, with one animation. *)
Definition bone_local (ms : list (option B)) (i : Z) : option mat4 :=
  m <- getz ms i ;; Some (match m with Some b => b_value c b | None => identity4 end).
(** rig_data.h:373-389 and 454-482: bone [i] of the loops over the bones. *)
Definition global_step (parents : list Z) (root i : Z) (local : mat4) (st : list affine * affine) : option (list affine * affine) :=
  let '(out, rt) := st in
  p <- getz parents i ;;
  let rt' := if (i =? root)%Z then to_affine local else rt in
  v <- (if (i =? root)%Z then
          if (p =? kInvalidBoneIdx)%Z then Some affine_identity else assert (p <? i)%Z ;; getz out p
        else if (p =? kInvalidBoneIdx)%Z then Some (to_affine local)
        else assert (p <? i)%Z ;; g <- getz out p ;; Some (to_affine (mmul (from_affine g) local))) ;;
  out' <- setz out i v ;; Some (out', rt').
Fixpoint global_loop (fuel : nat) (i : Z) (local : Z -> option mat4) (parents : list Z) (root : Z) (st : list affine * affine) : option (list affine * affine) :=
  match fuel with
  | 0%nat => Some st
  | Datatypes.S f => m <- local i ;; st' <- global_step parents root i m st ;; global_loop f (i + 1)%Z local parents root st'
  end.

(** rig_data.h:419-446: the loop over the animations from [j], for bone [i] of [n]. *)
Fixpoint blend_parts (ms : list (option B)) (n i j : Z) (ws : list R) (first : quat) (st : vec3 * quat * vec3) : option (vec3 * quat * vec3) :=
  match ws with
  | [] => Some st
  | weight :: ws' =>
      m <- getz ms (i + j * n)%Z ;;
      parts <- match m with Some b => b_parts c b | None => Some (default_translation, default_quaternion, default_scale) end ;;
      let '(position, rotation, scale) := parts in
      let first' := if (j =? 0)%Z then rotation else first in
      let rotation_weight := if (j =? 0)%Z then weight else if Rltb (qdot first rotation) 0 then weight * (-1) else weight in
      let '(bp, br, bs) := st in
      blend_parts ms n i (j + 1)%Z ws' first' (add3 bp (scale3 weight position), qadd br (qscale rotation_weight rotation), add3 bs (scale3 weight scale))
  end.
(** rig_data.h:402-453: the local transform of a bone, with several animations.  [first_quat]
    is not initialised; it is not read before it is written. *)
Definition bone_blended (ms : list (option B)) (n : Z) (ws : list R) (i : Z) : option mat4 :=
  st <- blend_parts ms n i 0 ws qidentity (V3 0 0 0, Quat 0 0 0 0, V3 0 0 0) ;;
  let '(p, q, s) := st in q' <- qnormalize q ;; Some (transform p (to_matrix q') s).
(** rig_data.h:357-391 (CalculateGlobalTransforms), 393-484 (CalculateBlendedGlobalTransforms),
    233-242 (UpdateGlobalTransforms) *)
Definition update_global_transforms (d : rig_data) : option rig_data :=
  let n := num_bones (defining d) in
  let local := if (len (weights d) <=? 1)%Z then bone_local (motivators d) else bone_blended (motivators d) n (weights d) in
  st <- global_loop (Z.to_nat n) 0 local (ra_parents (defining d)) (root_bone d) (globals d, root_transform d) ;;
  let '(g, r) := st in
  Some (RigData (motivators d) g (weights d) (defining d) (current d) (root_bone d) r (end_time d)).

(** rig_init.cpp:20-33 (RigInit): the assert. *)
Definition rig_init_ok (anim : rig_anim O) (bone_parents : list Z) (n : Z) : option bool :=
  if (num_bones anim =? 1)%Z then Some true else matches_parents (ra_parents anim) (num_bones anim) bone_parents n.
(** rig_data.h:38-53 (RigData); the transforms are overwritten at once. *)
Definition rig_new (anim : rig_anim O) (root start_time : Z) : option rig_data :=
  let n := num_bones anim in
  update_global_transforms (RigData (repeat None (Z.to_nat n)) (repeat affine_identity (Z.to_nat n)) [] anim None root affine_identity start_time).

(** Which motivator is blended: the one there, a clone of the first animation's, a new one. *)
Inductive origin := Keep | Clone | Fresh.
(** rig_data.h:75-82 and 127-153: bone [j] of an animation whose bones start at [base]. *)
Definition blend_bone (from : origin) (base j : Z) (anim : rig_anim O) (p : playback) (ms : list (option B)) : option (list (option B)) :=
  ma <- anim_at anim j ;;
  old <- getz ms (base + j)%Z ;;
  m <- match from with
       | Keep => Some old
       | Clone => o <- getz ms j ;; match o with Some b => b' <- b_clone c b ;; Some (Some b') | None => Some None end
       | Fresh => b <- b_init c (ma_sqt ma) ;; Some (Some b)
       end ;;
  b <- match m with Some b => Some b | None => b_init c (ma_sqt ma) end ;;
  b' <- b_blend c (ma_ops ma) p b ;;
  setz ms (base + j)%Z (Some b').
Fixpoint blend_bones (fuel : nat) (from : origin) (base j : Z) (anim : rig_anim O) (p : playback) (ms : list (option B)) : option (list (option B)) :=
  match fuel with
  | 0%nat => Some ms
  | Datatypes.S f => ms' <- blend_bone from base j anim p ms ;; blend_bones f from base (j + 1)%Z anim p ms'
  end.
(** rig_data.h:64-65 and 122-123: the hierarchies fit. *)
Definition fits (anim def : rig_anim O) : option bool :=
  if (num_bones def =? 1)%Z || (num_bones anim =? 1)%Z then Some true else matches_hierarchy anim def.

(** rig_data.h:57-87 (BlendToAnim) *)
Definition blend_to_anim (anim : rig_anim O) (p : playback) (start_time : Z) (d : rig_data) : option rig_data :=
  e <- add_int start_time (ra_end anim) ;;
  let n := num_bones (defining d) in
  ok <- fits anim (defining d) ;;
  assert ok ;;
  let ws := resize (weights d) 1 1 in
  ms <- blend_bones (Z.to_nat n) Keep 0 0 anim p (resize (motivators d) n None) ;;
  Some (RigData ms (globals d) ws (defining d) (Some anim) (root_bone d) (root_transform d) e).

(** rig_data.h:97-103: total weight and latest end. *)
Fixpoint totals (ws : list R) (anims : list (rig_anim O)) (total : R) (max_time : Z) : option (R * Z) :=
  match ws, anims with
  | [], [] => Some (total, max_time)
  | w :: ws', a :: anims' => assert Rleb 0 w ;; totals ws' anims' (total + w) (Z.max max_time (ra_end a))
  | _, _ => None
  end.
(** rig_data.h:116-155: the loop over the animations from [i]. *)
Fixpoint blend_anims (args : list (rig_anim O * playback)) (i old_count n : Z) (def : rig_anim O) (ms : list (option B)) : option (list (option B)) :=
  match args with
  | [] => Some ms
  | (anim, p) :: args' =>
      ok <- fits anim def ;;
      assert ok ;;
      let from := if (old_count <=? i)%Z then if (old_count =? 1)%Z then Clone else Fresh else Keep in
      ms' <- blend_bones (Z.to_nat n) from (i * n)%Z 0 anim p ms ;;
      blend_anims args' (i + 1)%Z old_count n def ms'
  end.
(** rig_data.h:89-163 (BlendToAnims); an argument is an animation with its playback and
    weight, so the three arrays have the same length. *)
Definition blend_to_anims (args : list (rig_anim O * playback * R)) (start_time : Z) (d : rig_data) : option rig_data :=
  let count := len args in
  let old_count := len (weights d) in
  tm <- totals (map snd args) (map (fun a => fst (fst a)) args) 0 0 ;;
  let '(total, max_time) := tm in
  assert Rltb 0 total ;;
  e <- add_int start_time max_time ;;
  let n := num_bones (defining d) in
  ms <- blend_anims (map fst args) 0 old_count n (defining d) (resize (motivators d) (n * count)%Z None) ;;
  Some (RigData ms (globals d) (map (fun a => snd a / total) args) (defining d)
    (match args with a :: _ => Some (fst (fst a)) | [] => current d end) (root_bone d) (root_transform d) e).

(** rig_data.h:187-201 (SetWeights) *)
Fixpoint weights_total (ws : list R) (total : R) : option R :=
  match ws with [] => Some total | w :: l => assert Rleb 0 w ;; weights_total l (total + w) end.
Fixpoint assign_weights (old ws : list R) (total : R) : list R :=
  match old, ws with
  | [], _ => []
  | _ :: old', [] => 0 :: assign_weights old' [] total
  | _ :: old', w :: ws' => w / total :: assign_weights old' ws' total
  end.
Definition set_weights (ws : list R) (d : rig_data) : option rig_data :=
  total <- weights_total ws 0 ;;
  assert Rltb 0 total ;;
  Some (RigData (motivators d) (globals d) (assign_weights (weights d) ws total) (defining d) (current d) (root_bone d) (root_transform d) (end_time d)).

(** matrix_motivator.h:81-83 (TimeRemaining) *)
Definition bone_time (m : option B) : option Z := match m with Some b => b_time c b | None => Some 0%Z end.
Fixpoint times_max (time : Z) (ms : list (option B)) : option Z :=
  match ms with [] => Some time | m :: l => t <- bone_time m ;; times_max (Z.max time t) l end.
(** rig_data.h:209-218 (TimeRemaining) *)
Definition rig_time_remaining (d : rig_data) : option Z :=
  if (end_time d =? kMotiveTimeEndless)%Z then Some kMotiveTimeEndless else times_max 0 (motivators d).
(** rig_data.h:220-231 (ChildTimeRemaining); a negative index is compared as a large
    unsigned number. *)
Fixpoint child_times (fuel : nat) (k : Z) (time : Z) (ms : list (option B)) : option Z :=
  match fuel with
  | 0%nat => Some time
  | Datatypes.S f => m <- getz ms k ;; t <- bone_time m ;; child_times f (k + 1)%Z (Z.max time t) ms
  end.
Definition child_time_remaining (index : Z) (d : rig_data) : option Z :=
  if (index <? 0)%Z || (len (weights d) <=? index)%Z then Some 0%Z
  else child_times (Z.to_nat (num_bones (defining d))) (index * num_bones (defining d))%Z 0 (motivators d).

(** rig_processor.cpp:38-51 (AdvanceFrame; Defragment is in ProcessorModel.v): the data, and
    the time, which is declared to be an int. *)
Definition rig_frame (delta_time : Z) (time : Z) (data : list rig_data) : option (Z * list rig_data) :=
  data' <- map_all update_global_transforms data ;; t <- add_int time delta_time ;; Some (t, data').
End Rig.
Arguments rig_data : clear implicits.

(** The bones of the matrix and SQT processors.  [from_matrix] is quat::FromMatrix of
    mathfu, which is not modelled.  A clone has the same operations in the same state. *)
Section Bones.
Context {M I S : Type} (k : mclass M I S) (from_matrix : mat3 -> quat).
Definition bone : Type := mdata M + qdata M.
Definition bone_class : bclass bone (opinit I S) := BClass bone (opinit I S)
  (fun sqt => if sqt then d <- qdata_initialize k [] qdata_default ;; Some (inr d) else d <- mdata_initialize k [] mdata_default ;; Some (inl d))
  (fun ops p b => match b with inl d => d' <- mdata_blend_to_ops k ops p d ;; Some (inl d') | inr d => d' <- qdata_blend_to_ops k ops p d ;; Some (inr d') end)
  (fun b => match b with inl d => md_matrix d | inr d => qd_matrix d end)
  (fun b => match b with
            | inl d => r <- mdata_rotation_matrix d ;; s <- md_scale d ;; Some (mdata_translation d, from_matrix r, s)
            | inr d => Some (translation_of (qd_matrix d), qd_rotation d, qd_scale d)
            end)
  (fun b => match b with inl d => mdata_time_remaining k d | inr d => qdata_time_remaining k d end)
  (fun b => Some b).
End Bones.
