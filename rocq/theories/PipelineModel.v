(** Model of the converter from an FBX scene to animation files: src/anim_pipeline/anim_pipeline.cpp
    (GatherFlatAnim, RunAnimPipeline) and src/anim_pipeline/flat_anim.cpp (OutputFlatBuffer).  The
    scene is what the FBX SDK has loaded; logging, the conversion of axes and units while loading
    and the writing of bytes are left out. *)
From Verif Require Import RBase CommandLineModel MatrixModel RigModel AnimTableModel AnimDataModel AnimChannelsModel FlatAnimModel FbxModel.
Local Open Scope Z_scope.

(** FbxNode: its name, whether it has a skeleton attribute or a mesh, its properties, its children. *)
Inductive scene_node := SceneNode (name : list Z) (solid : bool) (data : fbx_data) (children : list scene_node).
(** What the first two passes look at (FlatAnimModel). *)
Fixpoint skeleton_of (n : scene_node) : fbx_node := match n with SceneNode name solid _ cs => FbxNode name solid (map skeleton_of cs) end.
(** anim_pipeline.cpp:177-192 (AddBoneForNode), 215-227 (GatherBonesRecursive): the entries of
    node_to_bone_map after the second pass, written at the nodes.  [next] is the number of bones so far. *)
Fixpoint label (n : scene_node) (next : Z) : list fbx_bone * Z :=
  match n with
  | SceneNode _ _ f cs =>
      if need_bone (skeleton_of n) then
        let '(bs, k) := (fix each l k := match l with [] => ([], k) | c :: r => let '(b, k1) := label c k in let '(bs, k2) := each r k1 in (b ++ bs, k2) end) cs (next + 1) in
        ([FbxBone next f bs], k)
      else ([], next)
  end.
Fixpoint labels (l : list scene_node) (next : Z) : list fbx_bone * Z :=
  match l with [] => ([], next) | c :: r => let '(b, k1) := label c next in let '(bs, k2) := labels r k1 in (b ++ bs, k2) end.
(** anim_pipeline.cpp:229-262 (GatherFlatAnim); [roots] are the children of the scene's root
    node, [span] is the time span of the animation. *)
Definition gather_flat_anim (ms : Z -> Z) (no_uniform_scale : bool) (span : Z * Z) (roots : list scene_node) (d : anim_data) : option anim_data :=
  gather_anims ms no_uniform_scale span (fst (labels roots (len (ad_bones d)))) (gather_all (map skeleton_of roots) d).

(** anim_pipeline.cpp:591-601 (RunAnimPipeline, the times) *)
Definition set_times (preserve_start_time stagger_end_times : bool) (d : anim_data) : option anim_data :=
  d1 <- (if preserve_start_time then Some d else m <- min_animated_time d ;; o <- sub_int 0 m ;; shift_time d o) ;;
  if stagger_end_times then Some d1 else m <- max_animated_time d1 ;; extend_channels d1 m.
(** flat_anim.cpp:53-94 (OutputFlatBuffer): whether it returns true, and the file's contents if
    one was written.  [writable]: the directory can be made and the file be opened. *)
Definition output_flat_buffer (d : anim_data) (p : AnimDataModel.repeat_preference) (name : list Z) (writable : bool) : option (bool * option (list fb_rig)) :=
  rigs <- create_flat_buffer d p name ;;
  if len rigs =? 0 then Some (false, None) else if writable then Some (true, Some rigs) else Some (false, None).
(** The two records of tolerances, and the two types of preferences, are the same in the code. *)
Definition data_tolerances (t : CommandLineModel.tolerances) : AnimDataModel.tolerances :=
  AnimDataModel.Tolerances (t_scale t) (t_rotate t) (t_translate t) (t_angle t) (t_repeat_angle t).
Definition data_repeat (p : CommandLineModel.repeat_preference) : AnimDataModel.repeat_preference :=
  match p with CommandLineModel.RepeatIfRepeatable => AnimDataModel.RepeatIfRepeatable | CommandLineModel.AlwaysRepeat => AnimDataModel.AlwaysRepeat | CommandLineModel.NeverRepeat => AnimDataModel.NeverRepeat end.
(** anim_pipeline.cpp:578-617 (RunAnimPipeline): the exit status and the file.  [scene] is [None] when
    it cannot be loaded; [name] is the name of the output file without directory and extension. *)
Definition run_pipeline (args : pipeline_args) (ms : Z -> Z) (span : Z * Z) (scene : option (list scene_node)) (name : list Z) (writable : bool) : option (Z * option (list fb_rig)) :=
  match scene with
  | None => Some (1, None)
  | Some roots =>
      if 0 <=? debug_time args then Some (0, None)
      else
        d <- gather_flat_anim ms (no_uniform args) span roots (new_anim_data (data_tolerances (tols args)) (roots_only args)) ;;
        d' <- set_times (preserve_start args) (stagger args) d ;;
        o <- output_flat_buffer d' (data_repeat (repeat_pref args)) name writable ;;
        let '(ok, file) := o in Some (if ok then 0 else 1, file)
  end.
