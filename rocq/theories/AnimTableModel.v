(** Model of AnimTable (include/motive/anim_table.h, src/motive/anim_table.cpp).

    [F] are the RigAnimFb structures, [fb_name] their names ([None] is a null name) and
    [decode] is RigAnimFromFlatBuffers.  Strings are lists of numbers.  A RigAnim pointer is
    its position in anims_ (no animation is removed before the table is destroyed).
    name_map_ is a list of pairs with different names.  The calls of load_fn are recorded.
    [None] is a failed assert, a null pointer or an access out of range. *)
From Verif Require Import RBase RangeModel AngleModel MatrixModel RigModel.
Local Open Scope Z_scope.

(** anim_table.h:134 (AnimIndex is uint16_t), 137 (kInvalidAnimIndex) *)
Definition kInvalidAnimIndex : Z := 65535.
Definition to_anim_index (n : Z) : Z := n mod 65536.

(** Comparison of two MatrixOperationTypes. *)
Definition mtype_eq_dec (a b : mtype) : {a = b} + {a <> b}.
Proof. decide equality. Defined.
Definition mtype_eqb (a b : mtype) : bool := if mtype_eq_dec a b then true else false.
(** matrix_op.h:121-123 (RangeOfOp); range.h:525-527 (kAngleRange, kInvalidRange) *)
Definition range_of_op (op : mtype) : range := if rotate_op op then Rg (- PI) PI else range_default.

Section Defining.
Context {I S : Type} (spline_init : range -> I).
Local Notation rig := (rig_anim (opinit I S)).

(** anim_table.cpp:267-273: the loop over the animations from [i]; BoneIndex is uint8_t. *)
Fixpoint find_complete_loop (fuel : nat) (anims : list rig) (i max_bone_index : Z) : option Z :=
  match fuel with
  | 0%nat => Some max_bone_index
  | Datatypes.S f =>
      a <- getz anims i ;; m <- getz anims max_bone_index ;;
      find_complete_loop f anims (i + 1) (if num_bones m <? num_bones a then i mod 256 else max_bone_index)
  end.
(** anim_table.cpp:262-274 (FindCompleteRig) *)
Definition find_complete_rig (anims : list rig) : option rig :=
  assert (0 <? len anims) ;;
  i <- find_complete_loop (Z.to_nat (len anims - 1)) anims 1 0 ;; getz anims i.

(** anim_table.cpp:293-297 (OpRange, id_to_range), sorted by id; [None] is Range::Full(). *)
Definition id_map := list (Z * (mtype * option range)).
(** std::map::operator[]: the entry for [id]; a new entry is value-initialized (type 0 is
    kInvalidMatrixOperation; the range is default constructed, range.h:52). *)
Fixpoint map_get (id : Z) (m : id_map) : mtype * option range :=
  match m with
  | [] => (InvalidOp, Some range_default)
  | (k, e) :: m' => if k =? id then e else map_get id m'
  end.
Fixpoint map_set (id : Z) (e : mtype * option range) (m : id_map) : id_map :=
  match m with
  | [] => [(id, e)]
  | (k, e') :: m' => if k =? id then (k, e) :: m' else if id <? k then (id, e) :: (k, e') :: m' else (k, e') :: map_set id e m'
  end.
(** anim_table.cpp:303-318: one operation; initial_value is read only when it is in use. *)
Definition add_op (op_init : opinit I S) (m : id_map) : option id_map :=
  let '(op, r) := map_get (i_id op_init) m in
  assert (mtype_eqb op InvalidOp || mtype_eqb op (i_type op_init)) ;;
  r' <- match i_init op_init with
        | None => match i_union op_init with
                  | UValue v => Some (match r with Some r => Some (include r v) | None => None end)
                  | _ => None
                  end
        | Some _ => Some None
        end ;;
  Some (map_set (i_id op_init) (i_type op_init, r') m).
Fixpoint add_ops (ops : list (opinit I S)) (m : id_map) : option id_map :=
  match ops with [] => Some m | o :: ops' => m' <- add_op o m ;; add_ops ops' m' end.
(** anim_table.cpp:299-320: the loop over the animations, for bone [j]. *)
Fixpoint gather_ops (anims : list rig) (j : Z) (m : id_map) : option id_map :=
  match anims with
  | [] => Some m
  | a :: anims' =>
      if num_bones a <=? j then gather_ops anims' j m
      else ma <- anim_at a j ;; m' <- add_ops (ma_ops ma) m ;; gather_ops anims' j m'
  end.
(** anim_table.cpp:332-348: the operation made for one entry. *)
Definition defining_op (kv : Z * (mtype * option range)) : opinit I S :=
  let '(id, (op, r)) := kv in
  match r with
  | Some r => if Reqb (length_ r) 0 then OpInit None id op (UValue (start_ r)) else OpInit (Some (spline_init (range_of_op op))) id op UEmpty
  | None => OpInit (Some (spline_init (range_of_op op))) id op UEmpty
  end.
(** rig_anim.h:56-58 (BoneName) *)
Definition unknown_name : list Z := [117; 110; 107; 110; 111; 119; 110].
Definition bone_name (a : rig) (idx : Z) : list Z := match getz (ra_names a) idx with Some n => n | None => unknown_name end.
(** anim_table.cpp:285-350: the loop over the bones from [j].  The operations are added
    after those already in [def]. *)
Fixpoint defining_loop (fuel : nat) (anims : list rig) (complete : rig) (j : Z) (def : rig) : option rig :=
  match fuel with
  | 0%nat => Some def
  | Datatypes.S f =>
      parent <- getz (ra_parents complete) j ;;
      old <- anim_at def j ;;
      m <- gather_ops anims j [] ;;
      def' <- init_matrix_anim j parent (bone_name complete j) (MAnim (ma_sqt old) (ma_ops old ++ map defining_op m)) def ;;
      defining_loop f anims complete (j + 1) def'
  end.
(** anim_table.cpp:276-351 (CreateDefiningAnim) *)
Definition create_defining_anim (anims : list rig) (def : rig) : option rig :=
  complete <- find_complete_rig anims ;;
  def' <- ra_init (num_bones complete) true def ;;
  defining_loop (Z.to_nat (num_bones complete)) anims complete 0 def'.
End Defining.

Section Table.
Context {I S F : Type} (spline_init : range -> I) (fb_name : F -> option (list Z)) (decode : F -> option (rig_anim (opinit I S))).

(** anim_table.h:159-174 *)
Record table := Table { indices : list (list Z); defining_anims : list (rig_anim (opinit I S)); name_map : list (list Z * Z); anims : list (rig_anim (opinit I S)) }.
Definition table_empty : table := Table [] [] [] [].

(** What the describer returns for an entry, anim_table.cpp:23-32: an embedded animation,
    a file name, or neither (null pointers). *)
Inductive source := SNone | SFile (name : list Z) | SEmbedded (fb : F).

(** std::unordered_map::find *)
Fixpoint name_find (n : list Z) (m : list (list Z * Z)) : option Z :=
  match m with [] => None | (k, i) :: m' => if list_eq_dec Z.eq_dec k n then Some i else name_find n m' end.

(** The variables of the loops of Load. *)
Record loading := Loading { l_map : list (list Z * Z); l_anims : list (rig_anim (opinit I S)); l_success : bool; l_calls : list (list Z) }.
(** anim_table.cpp:244-252: [fb] was found (in the table or by load_fn). *)
Definition add_anim (name : list Z) (fb : F) (s : loading) : option (Z * loading) :=
  let new_idx := to_anim_index (len (l_anims s)) in
  a <- decode fb ;;
  Some (new_idx, Loading (l_map s ++ [(name, new_idx)]) (l_anims s ++ [a]) (l_success s) (l_calls s)).
(** anim_table.cpp:214-253: one entry of a list. *)
Definition load_entry (load_fn : list Z -> option F) (src : source) (s : loading) : option (Z * loading) :=
  name <- match src with
          | SEmbedded fb => n <- fb_name fb ;; Some (Some n)
          | SFile n => Some (Some n)
          | SNone => Some None
          end ;;
  match name with
  | None | Some [] => Some (kInvalidAnimIndex, s)
  | Some n =>
      match name_find n (l_map s) with
      | Some i => Some (i, s)
      | None =>
          match src with
          | SEmbedded fb => add_anim n fb s
          | _ =>
              match load_fn n with
              | None => Some (kInvalidAnimIndex, Loading (l_map s) (l_anims s) false (l_calls s ++ [n]))
              | Some fb => add_anim n fb (Loading (l_map s) (l_anims s) (l_success s) (l_calls s ++ [n]))
              end
          end
      end
  end.
(** anim_table.cpp:212-253: the entries of a list. *)
Fixpoint load_list (load_fn : list Z -> option F) (srcs : list source) (s : loading) : option (list Z * loading) :=
  match srcs with
  | [] => Some ([], s)
  | src :: srcs' => p <- load_entry load_fn src s ;; q <- load_list load_fn srcs' (snd p) ;; Some (fst p :: fst q, snd q)
  end.
(** anim_table.cpp:205-254: the objects. *)
Fixpoint load_lists (load_fn : list Z -> option F) (lists : list (list source)) (s : loading) : option (list (list Z) * loading) :=
  match lists with
  | [] => Some ([], s)
  | l :: lists' => p <- load_list load_fn l s ;; q <- load_lists load_fn lists' (snd p) ;; Some (fst p :: fst q, snd q)
  end.

(** anim_table.cpp:353-359 (MaxAnimIndex) *)
Fixpoint max_anim_index (l : list (list Z)) : Z := match l with [] => 0 | x :: l' => Z.max (len x) (max_anim_index l') end.
(** anim_table.cpp:361-369 (GatherObjectAnims) *)
Fixpoint gather_anims (all : list (rig_anim (opinit I S))) (l : list Z) : option (list (rig_anim (opinit I S))) :=
  match l with
  | [] => Some []
  | i :: l' =>
      if i =? kInvalidAnimIndex then gather_anims all l'
      else a <- getz all i ;; r <- gather_anims all l' ;; Some (a :: r)
  end.
(** anim_table.cpp:373-378: the loop over the objects. *)
Fixpoint calculate_loop (all : list (rig_anim (opinit I S))) (ids : list (list Z)) (defs : list (rig_anim (opinit I S))) : option (list (rig_anim (opinit I S))) :=
  match ids, defs with
  | [], _ => Some defs
  | l :: ids', d :: defs' =>
      gathered <- gather_anims all l ;;
      d' <- match gathered with [] => Some d | _ => create_defining_anim spline_init gathered d end ;;
      r <- calculate_loop all ids' defs' ;; Some (d' :: r)
  | _, [] => None
  end.
(** anim_table.cpp:371-379 (CalculateDefiningAnims); anims[0] is not an element of an empty
    vector. *)
Definition calculate_defining_anims (t : table) : option table :=
  assert (len (indices t) =? 0) || (0 <? max_anim_index (indices t)) ;;
  d <- calculate_loop (anims t) (indices t) (defining_anims t) ;;
  Some (Table (indices t) d (name_map t) (anims t)).

(** anim_table.cpp:196-260 (Load): the result, the table, and the calls of load_fn.  Every
    entry of indices_ is written by the loops. *)
Definition load (load_fn : list Z -> option F) (lists : list (list source)) (t : table) : option (bool * table * list (list Z)) :=
  p <- load_lists load_fn lists (Loading (name_map t) (anims t) true []) ;;
  let s := snd p in
  t' <- calculate_defining_anims (Table (fst p) (resize (defining_anims t) (len lists) ra_default) (l_map s) (l_anims s)) ;;
  Some (l_success s, t', l_calls s).

(** anim_table.h:151-157 (CalculateIndex), 103-106 (Query); a null pointer is [Some None]. *)
Definition query (t : table) (object anim_idx : Z) : option (option Z) :=
  l <- getz (indices t) object ;; i <- getz l anim_idx ;;
  if i =? kInvalidAnimIndex then Some None else a <- getz (anims t) i ;; Some (Some i).
(** anim_table.h:145-149 (QueryByName) *)
Definition query_by_name (t : table) (n : list Z) : option (option Z) :=
  match name_find n (name_map t) with
  | None => Some None
  | Some i => a <- getz (anims t) i ;; Some (Some i)
  end.
(** anim_table.h:115-117 (DefiningAnim) *)
Definition defining_anim (t : table) (object : Z) : option (rig_anim (opinit I S)) := getz (defining_anims t) object.
End Table.
