(** Model of a whole frame: MotiveEngine::AdvanceFrame (src/motive/engine.cpp:73-86) on the
    processors that the library registers.  Each processor's own frame is that of the other
    model files; here they work on one state, in which the operations of a matrix refer to
    motivators of other processors and the bones of a rig refer to matrices.

    Simplifications.  A reference is the kind of the processor and the index; that
    Defragment, with which each frame starts, changes no reference's meaning is C10.
    References are made by blending (MatrixModel.v, RigModel.v), which is not repeated here.
    The animation of a rig is that of RigModel.v. *)
From Verif Require Import RBase MathfuModel RangeModel CurveModel CompactSplineModel EvaluatorModel OvershootModel SimpleModel SplineTargetModel MatrixModel RigModel EngineModel.

(** The processors of src/motive/processor; the factories and types of EngineModel.v are numbers. *)
Inductive kind := KSpline | KConst | KOvershoot | KEase | KSpring | KMatrix | KSqt | KRig.
Definition number (k : kind) : nat :=
  match k with KSpline => 0 | KConst => 1 | KOvershoot => 2 | KEase => 3 | KSpring => 4 | KMatrix => 5 | KSqt => 6 | KRig => 7 end.
Definition kind_of (f : nat) : option kind := nth_error [KSpline; KConst; KOvershoot; KEase; KSpring; KMatrix; KSqt; KRig] f.
(** The Priority() functions: spline_processor.cpp:41, const_processor.cpp:58,
    overshoot_processor.cpp:46, ease_in_ease_out_processor.cpp:110, spring_processor.cpp:65,
    matrix_processor.cpp:50, sqt_processor.cpp:51, rig_processor.cpp:82. *)
Definition kind_priority (k : kind) : Z :=
  match k with KSpline => 0 | KConst => 1 | KOvershoot => 1 | KEase => 1 | KSpring => 1 | KMatrix => 2 | KSqt => 2 | KRig => 3 end.
Definition prio (f : nat) : Z := match kind_of f with Some k => kind_priority k | None => 0 end.

Record ref := Ref { r_kind : kind; r_index : Z }.
Section World.
(** What an animation's operations are (opinit), and quat::FromMatrix of mathfu. *)
Context {O : Type} (from_matrix : mat3 -> quat).
(** data_ of each processor; w_time is time_ of the rig processor (rig_processor.cpp:51). *)
Record world := World { w_splines : evaluator; w_consts : list (R * R); w_overshoots : ostate; w_eases : list (edata * R); w_springs : list (sdata * R);
  w_matrices : list (mdata ref); w_sqts : list (qdata ref); w_rigs : list (rig_data ref O); w_time : Z }.

(** Motivator1f::Value (vector_motivator.h:299): Values of the motivator's processor. *)
Definition scalar (w : world) (r : ref) : option R :=
  match r_kind r with
  | KSpline => s <- getz (w_splines w) (r_index r) ;; Some (cur_y s)
  | KConst => x <- getz (w_consts w) (r_index r) ;; Some (snd x)
  | KOvershoot => x <- getz (w_overshoots w) (r_index r) ;; Some (snd x)
  | KEase => x <- getz (w_eases w) (r_index r) ;; Some (snd x)
  | KSpring => x <- getz (w_springs w) (r_index r) ;; Some (snd x)
  | _ => None
  end.
(** The class of MatrixModel.v for references: a frame only calls Value. *)
Definition ref_class (w : world) : mclass ref unit unit :=
  MClass ref unit unit (fun _ => None) (fun r => match scalar w r with Some v => v | None => 0 end) (fun _ => None) (fun _ => None)
    (fun _ _ => None) (fun _ _ _ => None) (fun _ => None).
Definition ops_ok (w : world) (ops : list (op ref)) : bool :=
  forallb (fun o => match op_motivator o with Some r => match scalar w r with Some _ => true | None => false end | None => true end) ops.

(** MatrixMotivator4f (matrix_motivator.h:57-68): the data of a bone's motivator. *)
Definition bone_at (w : world) (r : ref) : option (@bone ref) :=
  match r_kind r with
  | KMatrix => d <- getz (w_matrices w) (r_index r) ;; Some (inl d)
  | KSqt => d <- getz (w_sqts w) (r_index r) ;; Some (inr d)
  | _ => None
  end.
(** The class of RigModel.v for references: a frame only calls Value. *)
Definition bone_refs (w : world) : bclass ref O :=
  BClass ref O (fun _ => None) (fun _ _ _ => None) (fun r => match bone_at w r with Some b => b_value (bone_class (ref_class w) from_matrix) b | None => identity4 end)
    (fun r => b <- bone_at w r ;; b_parts (bone_class (ref_class w) from_matrix) b) (fun _ => None) (fun _ => None).
Definition bones_ok (w : world) (ms : list (option ref)) : bool :=
  forallb (fun m => match m with Some r => match bone_at w r with Some _ => true | None => false end | None => true end) ms.

(** AdvanceFrame of each processor (the files and lines are with the functions called). *)
Definition advance_kind (k : kind) (dt : Z) (w : world) : option world :=
  match k with
  | KSpline => l <- EvaluatorModel.advance_frame (IZR dt) (w_splines w) ;; Some (World l (w_consts w) (w_overshoots w) (w_eases w) (w_springs w) (w_matrices w) (w_sqts w) (w_rigs w) (w_time w))
  | KConst => Some (World (w_splines w) (map (const_frame dt) (w_consts w)) (w_overshoots w) (w_eases w) (w_springs w) (w_matrices w) (w_sqts w) (w_rigs w) (w_time w))
  | KOvershoot => l <- OvershootModel.advance_frame (Z.to_nat dt) dt (w_overshoots w) ;; Some (World (w_splines w) (w_consts w) l (w_eases w) (w_springs w) (w_matrices w) (w_sqts w) (w_rigs w) (w_time w))
  | KEase => l <- map_all (ease_frame dt) (w_eases w) ;; Some (World (w_splines w) (w_consts w) (w_overshoots w) l (w_springs w) (w_matrices w) (w_sqts w) (w_rigs w) (w_time w))
  | KSpring => l <- map_all (spring_frame dt) (w_springs w) ;; Some (World (w_splines w) (w_consts w) (w_overshoots w) (w_eases w) l (w_matrices w) (w_sqts w) (w_rigs w) (w_time w))
  | KMatrix =>
      assert (forallb (fun d => ops_ok w (md_ops d)) (w_matrices w)) ;;
      l <- matrix_frame (ref_class w) (w_matrices w) ;; Some (World (w_splines w) (w_consts w) (w_overshoots w) (w_eases w) (w_springs w) l (w_sqts w) (w_rigs w) (w_time w))
  | KSqt =>
      assert (forallb (fun d => ops_ok w (qd_ops d)) (w_sqts w)) ;;
      l <- sqt_frame (ref_class w) (w_sqts w) ;; Some (World (w_splines w) (w_consts w) (w_overshoots w) (w_eases w) (w_springs w) (w_matrices w) l (w_rigs w) (w_time w))
  | KRig =>
      assert (forallb (fun d => bones_ok w (motivators d)) (w_rigs w)) ;;
      q <- rig_frame (bone_refs w) dt (w_time w) (w_rigs w) ;; Some (World (w_splines w) (w_consts w) (w_overshoots w) (w_eases w) (w_springs w) (w_matrices w) (w_sqts w) (snd q) (fst q))
  end.
Fixpoint advance_kinds (l : list kind) (dt : Z) (w : world) : option world :=
  match l with [] => Some w | k :: l' => w' <- advance_kind k dt w ;; advance_kinds l' dt w' end.
(** engine.cpp:73-86 (AdvanceFrame): the processors in the order of EngineModel.v. *)
Definition kind_of_object (h : list object) (o : nat) : option kind := x <- nth_error h o ;; kind_of (o_factory x).
Definition world_frame (e : engine) (dt : Z) (w : world) : option world :=
  l <- EngineModel.advance (heap e) (sorted e) ;; ks <- map_all (kind_of_object (heap e)) l ;; advance_kinds ks dt w.
Fixpoint world_frames (e : engine) (dts : list Z) (w : world) : option world :=
  match dts with [] => Some w | dt :: l => w' <- world_frame e dt w ;; world_frames e l w' end.
End World.
Arguments world : clear implicits.
