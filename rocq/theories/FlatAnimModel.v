(** Model of the way of an animation from an FBX scene's nodes through
    src/anim_pipeline/flat_anim.cpp into FlatBuffers, and back with
    src/motive/io/flatbuffers.cpp.  The FlatBuffers are the records below (anim.fbs); a null
    pointer is [None].  Times are ints as floats, exactly.  Strings have no NUL and are lists
    of characters.  An operation id is a byte in both formats and comes back as it was. *)
From Verif Require Import RBase RangeModel CompactSplineModel MatrixModel RigModel AnimTableModel AnimDataModel.
Local Open Scope Z_scope.

(** ** The bones of a scene *)
(** FbxNode: its name, whether it has a skeleton or a mesh, and its children. *)
Inductive fbx_node := FbxNode (name : list Z) (solid : bool) (children : list fbx_node).
Definition fbx_name (n : fbx_node) : list Z := match n with FbxNode s _ _ => s end.
Definition fbx_children (n : fbx_node) : list fbx_node := match n with FbxNode _ _ c => c end.
(** anim_pipeline.cpp:194-213 (MarkBoneNodesRecursive): whether the node is marked. *)
Fixpoint need_bone (n : fbx_node) : bool :=
  match n with FbxNode _ solid cs => (fix any l := match l with [] => solid | c :: r => need_bone c || any r end) cs end.
(** anim_pipeline.cpp:177-192 (AddBoneForNode), 215-227 (GatherBonesRecursive) *)
Fixpoint gather_bones (n : fbx_node) (parent : Z) (d : anim_data) : anim_data :=
  match n with
  | FbxNode name _ cs =>
      if need_bone n then
        let '(d', i) := alloc_bone d name parent in
        (fix each l e := match l with [] => e | c :: r => each r (gather_bones c i e) end) cs d'
      else d
  end.
(** anim_pipeline.cpp:243-246 (the second pass of GatherFlatAnim) *)
Fixpoint gather_all (roots : list fbx_node) (d : anim_data) : anim_data :=
  match roots with [] => d | n :: r => gather_all r (gather_bones n (-1) d) end.

(** ** FlatBuffers *)
(** anim.fbs:46-94, compact_spline.fbs (CompactSplineFb, CompactSplineFloatFb; its times are in milliseconds here) *)
Record fb_spline := FbSpline { fs_start : R; fs_end : R; fs_granularity : R; fs_nodes : list node }.
Inductive fb_value := FbCompact (s : option fb_spline) | FbFloat (s : option (list unode)) | FbConstant (v : R) | FbNone.
Record fb_op := FbOp { fo_id : Z; fo_type : mtype; fo_value : fb_value }.
Record fb_matrix := FbMatrix { fm_sqt : bool; fm_ops : list fb_op }.
Record fb_rig := FbRig { fr_anims : list fb_matrix; fr_parents : list Z; fr_names : option (list (list Z)); fr_repeat : bool; fr_name : list Z }.

(** ** Exporting *)
(** flat_anim.cpp:239-243 (BoneBaseName): what follows the last colon. *)
Fixpoint after_colon (name : list Z) : option (list Z) :=
  match name with
  | [] => None
  | c :: r => match after_colon r with Some s => Some s | None => if c =? 58 then Some r else None end
  end.
Definition bone_base_name (name : list Z) : list Z := match after_colon name with Some s => s | None => name end.
(** flat_anim.cpp:270-278 (the loop of CreateCompactSpline); no time before the first. *)
Fixpoint add_flat_nodes (s : spline) (last_time : option Z) (n : list snode) : option spline :=
  match n with
  | [] => Some s
  | x :: rest =>
      let t := Z.max 0 (sn_time x) in
      if match last_time with None => true | Some l => l <=? t end
      then s' <- add_node s (IZR t) (sn_val x) (sn_der x) AddWithoutModification ;; add_flat_nodes s' (Some t) rest
      else add_flat_nodes s last_time rest
  end.
(** flat_anim.cpp:255-280 (CreateCompactSpline), 245-253 (SplineYRange): including values
    one by one in the empty range, as [covers] does. *)
Definition create_compact_spline (n : list snode) : option spline :=
  assert (1 <? len n) ;;
  b <- getz n (len n - 1) ;; r <- covers (map sn_val n) ;;
  add_flat_nodes (init (Spline range_default 0 [] (len n mod 65536)) r (recommend_x_granularity (IZR (sn_time b)))) None n.
(** flat_anim.cpp:227-237 (CreateSplineFlatBuffer) *)
Definition spline_to_fb (s : spline) : fb_spline := FbSpline (start_ (y_range s)) (end_ (y_range s)) (x_granularity s) (nodes s).
(** flat_anim.cpp:177-206 (the loop over the channels) *)
Definition export_channel (c : channel) : option fb_op :=
  x <- getz (ch_nodes c) 0 ;;
  if len (ch_nodes c) <=? 1 then Some (FbOp (ch_id c) (ch_op c) (FbConstant (sn_val x)))
  else s <- create_compact_spline (ch_nodes c) ;; Some (FbOp (ch_id c) (ch_op c) (FbCompact (Some (spline_to_fb s)))).
Definition export_bone (b : bone) : option fb_matrix := ops <- map_opt export_channel (bn_channels b) ;; Some (FbMatrix false ops).
(** The indices from [start] on. *)
Fixpoint indices (n : nat) (start : Z) : list Z := match n with O => [] | S k => start :: indices k (start + 1) end.
(** flat_anim.cpp:160-225 (CreateRigAnimFbFromBoneRange): [n] bones from [start]. *)
Definition export_range (d : anim_data) (p : repeat_preference) (start n : Z) (name : list Z) : option fb_rig :=
  let idx := indices (Z.to_nat n) start in
  anims <- map_opt (fun i => b <- getz (ad_bones d) i ;; export_bone b) idx ;;
  names <- map_opt (fun i => b <- getz (ad_bones d) i ;; Some (bone_base_name (bn_name b))) idx ;;
  parents <- map_opt (bone_parent d) idx ;;
  rep <- repeats d p ;;
  Some (FbRig anims parents (Some names) rep name).
(** The decimal digits of a bone index. *)
Definition digits (i : Z) : list Z :=
  if i <? 10 then [48 + i] else if i <? 100 then [48 + i / 10; 48 + i mod 10] else [48 + i / 100; 48 + (i / 10) mod 10; 48 + i mod 10].
(** flat_anim.cpp:96-158 (CreateFlatBuffer): the rig animations in the file. *)
Definition create_flat_buffer (d : anim_data) (p : repeat_preference) (name : list Z) : option (list fb_rig) :=
  if kMaxNumBones <? len (ad_bones d) then Some []
  else if negb (ad_root_only d) then r <- export_range d p 0 (len (ad_bones d)) name ;; Some [r]
  else map_opt (fun i => export_range d p i 1 (name ++ 95 :: digits i))
         (filter (fun i => match getz (ad_bones d) i with Some b => negb (len (bn_channels b) =? 0) | None => false end) (indices (length (ad_bones d)) 0)).

(** ** Loading *)
Section Load.
Context {I : Type} (spline_init : range -> I).
Local Notation opi := (opinit I spline).

(** flatbuffers.cpp:132-135 (the loop over the nodes of a spline) *)
Fixpoint verbatim_nodes (s : spline) (n : list node) : option spline :=
  match n with [] => Some s | x :: r => s' <- add_node_verbatim s x ;; verbatim_nodes s' r end.
(** flatbuffers.cpp:99-202 (the loop over the operations in MatrixAnimFromFlatBuffers) *)
Definition load_op (sqt : bool) (o : fb_op) : option opi :=
  assert (if quaternion_op (fo_type o) then sqt else if rotate_op (fo_type o) then negb sqt else true) ;;
  let init := spline_init (range_of_op (fo_type o)) in
  match fo_value o with
  | FbCompact None | FbFloat None => Some (OpInit (Some init) (fo_id o) (fo_type o) UEmpty)
  | FbCompact (Some f) =>
      s <- verbatim_nodes (Spline (Rg (fs_start f) (fs_end f)) (fs_granularity f) [] (len (fs_nodes f) mod 65536)) (fs_nodes f) ;;
      assert (num_nodes s =? max_nodes s) ;;
      Some (OpInit (Some init) (fo_id o) (fo_type o) (USpline s))
  | FbFloat (Some l) =>
      (* line 159: nodes()->end()->time() *)
      e <- getz l (len l) ;; r <- covers (map uy l) ;;
      s <- add_uncompressed_nodes (CompactSplineModel.init (Spline range_default 0 [] (len l mod 65536)) r (recommend_x_granularity (ux e))) l ;;
      assert (num_nodes s =? max_nodes s) ;;
      Some (OpInit (Some init) (fo_id o) (fo_type o) (USpline s))
  | FbConstant v => Some (OpInit None (fo_id o) (fo_type o) (UValue v))
  | FbNone => None
  end.
(** flatbuffers.cpp:75-203 (MatrixAnimFromFlatBuffers) for a new MatrixAnim *)
Definition load_matrix (m : fb_matrix) : option (manim opi) := ops <- map_opt (load_op (fm_sqt m)) (fm_ops m) ;; Some (MAnim (fm_sqt m) ops).
(** flatbuffers.cpp:206-215 (EndTime) *)
Fixpoint ops_end_time (ops : list opi) (acc : Z) : option Z :=
  match ops with
  | [] => Some acc
  | o :: r => match i_union o with USpline s => x <- end_x s ;; t <- to_int x ;; ops_end_time r (Z.max acc t) | _ => ops_end_time r acc end
  end.
(** flatbuffers.cpp:230-236 (the loop of RigAnimFromFlatBuffers); InitMatrixAnim fails before the index could wrap. *)
Fixpoint load_bones (fuel : nat) (f : fb_rig) (record_names : bool) (i end_time : Z) (a : rig_anim opi) : option (rig_anim opi * Z) :=
  match fuel with
  | O => Some (a, end_time)
  | S k =>
      parent <- getz (fr_parents f) i ;;
      name <- (if record_names then n <- fr_names f ;; getz n i else Some []) ;;
      m <- getz (fr_anims f) i ;; ma <- load_matrix m ;;
      a' <- init_matrix_anim i parent name ma a ;;
      t <- ops_end_time (ma_ops ma) 0 ;;
      load_bones k f record_names (i + 1) (Z.max end_time t) a'
  end.
(** flatbuffers.cpp:217-242 (RigAnimFromFlatBuffers) for a new RigAnim *)
Definition load_rig (f : fb_rig) : option (rig_anim opi) :=
  let n := len (fr_anims f) in
  let record_names := match fr_names f with Some l => len l =? n | None => false end in
  assert (len (fr_parents f) =? n) ;;
  a <- ra_init (n mod 256) record_names ra_default ;;
  r <- load_bones (Z.to_nat n) f record_names 0 0 a ;;
  let '(a', t) := r in
  Some (RigAnim (ra_anims a') (ra_parents a') (ra_names a') (if fr_repeat f then int_max else t) (fr_repeat f)).

(** ** Defining animations *)
(** defining_anim_pipeline.cpp:66-82 (the loop over the operations) *)
Definition export_defining_op (o : opi) : option fb_op :=
  match i_union o with
  | UEmpty | UValue _ => Some (FbOp (i_id o) (i_type o) (FbCompact None))
  | _ => None
  end.
(** defining_anim_pipeline.cpp:46-93 (CreateRigAnimFbFromRigAnim); [None] is also the answer false. *)
Definition export_defining (name : list Z) (a : rig_anim opi) : option fb_rig :=
  let idx := indices (Z.to_nat (num_bones a)) 0 in
  anims <- map_opt (fun i => m <- anim_at a i ;; ops <- map_opt export_defining_op (ma_ops m) ;; Some (FbMatrix false ops)) idx ;;
  parents <- map_opt (getz (ra_parents a)) idx ;;
  Some (FbRig anims parents (Some (map (bone_name a) idx)) (ra_repeat a) name).
End Load.
