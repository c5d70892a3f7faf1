(** Model of the children of matrix motivators: NumChildren, ChildValue1f/3f, SetChildValue1f/3f
    and SetChildTarget1f (include/motive/matrix_motivator.h:84-155), which go through the
    matrix and SQT processors (src/motive/processor/matrix_processor.cpp:67-97,
    sqt_processor.cpp:68-98) to the operations (matrix_data.h:128-136, sqt_data.h:216-224), and
    of the reports for debugging of rigs (src/motive/processor/rig_data.h:258-352,
    src/motive/rig_anim.cpp:92-113).

    Simplifications.  Child indices are numbers (uint32_t in the code: one that is out of range
    of int fails the assert like any that is too large).  A line of a report is the list of its
    cells, each of which a comma ends; a cell that holds the name of an animation says so
    without giving it.  The text of a number is the number.  The rows of LocalTransforms are
    the matrix.  [None] is a failed assert, an access out of range, a null pointer or a signed
    overflow. *)
From Verif Require Import RBase MathfuModel RangeModel AngleModel OvershootModel SimpleModel EvaluatorModel SplineTargetModel MatrixModel RigModel.
Local Open Scope R_scope.

Section Children.
Context {M I S : Type} (k : mclass M I S).
(** matrix_processor.cpp:67-69, sqt_processor.cpp:68-70 (NumChildren); matrix_data.h:159,
    sqt_data.h:234 (num_ops) *)
Definition num_children (ops : list (op M)) : Z := len ops.
(** matrix_data.h:128-136, sqt_data.h:216-224 (Op) *)
Definition child (ops : list (op M)) (child_index : Z) : option (op M) := getz ops child_index.
(** matrix_processor.cpp:71-77, sqt_processor.cpp:72-78 (ChildValues): the values from [i] on. *)
Fixpoint child_values (count : nat) (i : Z) (ops : list (op M)) : option (list R) :=
  match count with
  | 0%nat => Some []
  | Datatypes.S n => o <- child ops i ;; l <- child_values n (i + 1)%Z ops ;; Some (op_value k o :: l)
  end.
(** matrix_motivator.h:95-99 (ChildValue1f) *)
Definition child_value (i : Z) (ops : list (op M)) : option R := o <- child ops i ;; Some (op_value k o).
(** matrix_processor.cpp:84-88, sqt_processor.cpp:85-89 (SetChildTarget1f) *)
Definition set_child_target (i : Z) (t : list mnode) (ops : list (op M)) : option (list (op M)) :=
  o <- child ops i ;; o' <- op_set_target k t o ;; setz ops i o'.
(** matrix_processor.cpp:90-96, sqt_processor.cpp:91-97 (SetChildValues) *)
Fixpoint set_child_values (i : Z) (values : list R) (ops : list (op M)) : option (list (op M)) :=
  match values with
  | [] => Some ops
  | v :: l => o <- child ops i ;; o' <- op_set_value v o ;; ops' <- setz ops i o' ;; set_child_values (i + 1)%Z l ops'
  end.
(** The same on MatrixData and SqtData: only the operations change. *)
Definition mdata_set_child_target (i : Z) (t : list mnode) (d : mdata M) : option (mdata M) :=
  ops <- set_child_target i t (md_ops d) ;; Some (MData (md_matrix d) (md_scale d) ops).
Definition mdata_set_child_values (i : Z) (values : list R) (d : mdata M) : option (mdata M) :=
  ops <- set_child_values i values (md_ops d) ;; Some (MData (md_matrix d) (md_scale d) ops).
Definition qdata_set_child_target (i : Z) (t : list mnode) (d : qdata M) : option (qdata M) :=
  ops <- set_child_target i t (qd_ops d) ;; Some (QData (qd_matrix d) (qd_rotation d) (qd_scale d) ops).
Definition qdata_set_child_values (i : Z) (values : list R) (d : qdata M) : option (qdata M) :=
  ops <- set_child_values i values (qd_ops d) ;; Some (QData (qd_matrix d) (qd_rotation d) (qd_scale d) ops).
End Children.

(** ** The reports of a rig *)
Inductive cell := CEmpty | CTitle | CTimeTitle | CUnknown | CBone (name : list Z) | COp (t : mtype) | CAnim | CTime (t : Z) | CNumber (v : R).

Section Report.
Context {M I S : Type} (k : mclass M I S).
Notation O := (opinit I S).
Notation bone := (@bone M).
(** rig_anim.h:56-58 (BoneName) *)
Definition bone_name (a : rig_anim O) (idx : Z) : cell :=
  match getz (ra_names a) idx with Some n => CBone n | None => CUnknown end.
(** rig_anim.cpp:102-110: the cells of one bone in [line]. *)
Definition header_cells (line : Z) (name : cell) (ops : list O) : list cell :=
  if (line =? 0)%Z then match ops with [] => [] | _ :: l => name :: map (fun _ => CEmpty) l end
  else map (fun o => COp (i_type o)) ops.
(** rig_anim.cpp:92-113 (CsvHeaderForDebugging): the loop over the bones from [i]. *)
Fixpoint csv_header_loop (fuel : nat) (i line : Z) (a : rig_anim O) : option (list cell) :=
  match fuel with
  | 0%nat => Some []
  | Datatypes.S f => m <- getz (ra_anims a) i ;; l <- csv_header_loop f (i + 1)%Z line a ;; Some (header_cells line (bone_name a i) (ma_ops m) ++ l)
  end.
Definition anim_csv_header (line : Z) (a : rig_anim O) : option (list cell) := csv_header_loop (Z.to_nat (num_bones a)) 0 line a.
(** rig_data.h:271-277 (CsvHeaderForDebugging): the two lines. *)
Definition csv_header (d : rig_data bone O) : option (list cell * list cell) :=
  l0 <- anim_csv_header 0 (defining d) ;; l1 <- anim_csv_header 1 (defining d) ;;
  Some (CTitle :: CTimeTitle :: l0, CEmpty :: CEmpty :: l1).

Definition bone_ops (b : bone) : list (op M) := match b with inl d => md_ops d | inr d => qd_ops d end.
(** rig_data.h:264-267: the children of a bone from [j], written from [at_] on. *)
Fixpoint write_children (count : nat) (j : Z) (ops : list (op M)) (values : list R) (at_ : Z) : option (list R * Z) :=
  match count with
  | 0%nat => Some (values, at_)
  | Datatypes.S n => v <- child_value k j ops ;; values' <- setz values at_ v ;; write_children n (j + 1)%Z ops values' (at_ + 1)%Z
  end.
(** rig_data.h:261-268: the loop over the bones from [i]. *)
Fixpoint write_bones (fuel : nat) (i : Z) (ms : list (option bone)) (values : list R) (at_ : Z) : option (list R) :=
  match fuel with
  | 0%nat => Some values
  | Datatypes.S f =>
      m <- getz ms i ;; b <- m ;;
      r <- write_children (Z.to_nat (num_children (bone_ops b))) 0 (bone_ops b) values at_ ;;
      write_bones f (i + 1)%Z ms (fst r) (snd r)
  end.
(** rig_data.h:258-269 (ChildValuesForDebugging) *)
Definition child_values_for_debugging (d : rig_data bone O) (values : list R) : option (list R) :=
  n <- num_ops (defining d) ;; write_bones (Z.to_nat (num_bones (defining d))) 0 (motivators d) (resize values n 0) 0.
(** rig_data.h:294 and 337: degrees for rotations. *)
Definition multiplier (t : mtype) : R := if rotate_op t then 180 / PI else 1.
(** rig_data.h:293-297: the operations of a bone, whose values are read from [at_] on. *)
Fixpoint value_cells (ops : list O) (values : list R) (at_ : Z) : option (list cell) :=
  match ops with
  | [] => Some []
  | o :: l => v <- getz values at_ ;; r <- value_cells l values (at_ + 1)%Z ;; Some (CNumber (multiplier (i_type o) * v) :: r)
  end.
(** rig_data.h:288-298: the loop over the bones from [i]. *)
Fixpoint csv_values_loop (fuel : nat) (i : Z) (a : rig_anim O) (values : list R) (at_ : Z) : option (list cell) :=
  match fuel with
  | 0%nat => Some []
  | Datatypes.S f =>
      m <- anim_at a i ;; c <- value_cells (ma_ops m) values at_ ;;
      l <- csv_values_loop f (i + 1)%Z a values (at_ + len (ma_ops m))%Z ;; Some (c ++ l)
  end.
(** rig_data.h:279-301 (CsvValuesForDebugging) *)
Definition csv_values (current_time : Z) (d : rig_data bone O) : option (list cell) :=
  values <- child_values_for_debugging d [] ;;
  a <- current d ;;
  t <- add_int current_time (- end_time d) ;; anim_time <- add_int t (ra_end a) ;;
  l <- csv_values_loop (Z.to_nat (num_bones (defining d))) 0 (defining d) values 0 ;;
  Some (CAnim :: CTime anim_time :: l).

(** rig_data.h:336-347: one operation of the current animation, with the child in its place. *)
Fixpoint local_ops (l : list O) (i : Z) (ops : list (op M)) : option (list (mtype * R)) :=
  match l with
  | [] => Some []
  | o :: l' => v <- child_value k i ops ;; r <- local_ops l' (i + 1)%Z ops ;; Some ((i_type o, multiplier (i_type o) * v) :: r)
  end.
(** rig_data.h:318-350: the loop from bone [idx] to its ancestors: name, matrix, operations.
    [fuel] is more than the bones there can be. *)
Fixpoint local_loop (fuel : nat) (idx : Z) (a : rig_anim O) (d : rig_data bone O) : option (list (cell * mat4 * list (mtype * R))) :=
  if (idx =? kInvalidBoneIdx)%Z then Some [] else
  match fuel with
  | 0%nat => None
  | Datatypes.S f =>
      m <- getz (motivators d) idx ;; b <- m ;;
      ma <- anim_at a idx ;;
      l <- local_ops (ma_ops ma) 0 (bone_ops b) ;;
      p <- getz (ra_parents (defining d)) idx ;;
      r <- local_loop f p a d ;;
      Some ((bone_name (defining d) idx, match b with inl x => md_matrix x | inr x => qd_matrix x end, l) :: r)
  end.
(** rig_data.h:303-352 (LocalTransformsForDebugging): the time since the start, and the bones. *)
Definition local_transforms (idx time : Z) (d : rig_data bone O) : option (Z * list (cell * mat4 * list (mtype * R))) :=
  until_end <- add_int (end_time d) (- time) ;;
  a <- current d ;;
  since_start <- add_int (ra_end a) (- until_end) ;;
  l <- local_loop 256 idx a d ;; Some (since_start, l).
End Report.
