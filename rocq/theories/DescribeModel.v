(** Model of the descriptions of an AnimTable (src/motive/anim_table.cpp:25-163) and of the
    functions that load a table from one (165-194; include/motive/anim_table.h:68-88).

    A string is read up to its first zero.  [None] is a null pointer that is followed or an
    access out of range.  Load (AnimTableModel) reads the description while it loads; here
    the description is read first, which makes no difference because it never changes. *)
From Verif Require Import RBase RangeModel MatrixModel RigModel AnimTableModel.
Local Open Scope Z_scope.

Section Describers.
Context {I S F : Type} (spline_init : range -> I) (fb_name : F -> option (list Z)) (decode : F -> option (rig_anim (opinit I S))).

(** The characters of a string that are read through c_str(). *)
Fixpoint c_str (s : list Z) : list Z := match s with [] => [] | x :: s' => if x =? 0 then [] else x :: c_str s' end.

(** schemas/anim_list.fbs (AnimSource): no union, a file name or an embedded animation; each of
    these can be left out. *)
Inductive anim_source := NoSource | FileName (file_name : option (list Z)) | Embedded (embedded : option F).
(** schemas/anim_list.fbs (AnimListFb); each vector can be left out. *)
Record list_fb := ListFb { anim_files : option (list (list Z)); fb_anims : option (list anim_source) }.
(** schemas/anim_table.fbs (AnimTableFb) *)
Record table_fb := TableFb { fb_lists : option (list list_fb) }.

(** anim_table.cpp:34-45 (AnimListLen).  The list is never null: there are no objects when
    there are no lists. *)
Definition anim_list_len (l : list_fb) : Z :=
  match fb_anims l with
  | Some a => len a
  | None => match anim_files l with Some f => len f | None => 0 end
  end.
(** anim_table.cpp:47-65 (AnimListFileName) *)
Definition anim_list_file_name (l : list_fb) (i : Z) : option (option (list Z)) :=
  match fb_anims l with
  | Some a => s <- getz a i ;; match s with FileName n => n' <- n ;; Some (Some (c_str n')) | _ => Some None end
  | None => match anim_files l with Some f => n <- getz f i ;; Some (Some (c_str n)) | None => Some None end
  end.
(** anim_table.cpp:67-79 (AnimListRigAnimFb) *)
Definition anim_list_rig_anim (l : list_fb) (i : Z) : option (option F) :=
  match fb_anims l with
  | Some a => s <- getz a i ;; match s with Embedded fb => Some fb | _ => Some None end
  | None => Some None
  end.

(** anim_table.cpp:25-32 (TableDescriberInterface) *)
Record describer := Describer {
  num_objects : Z; num_anims : Z -> option Z;
  source_file_name : Z -> Z -> option (option (list Z)); source_rig_anim : Z -> Z -> option (option F) }.
(** anim_table.cpp:81-104 (AnimTableFbDescriber) *)
Definition table_fb_describer (t : table_fb) : describer :=
  let ls := match fb_lists t with Some ls => ls | None => [] end in
  Describer (len ls) (fun o => l <- getz ls o ;; Some (anim_list_len l))
    (fun o i => l <- getz ls o ;; anim_list_file_name l i) (fun o i => l <- getz ls o ;; anim_list_rig_anim l i).
(** anim_table.cpp:106-121 (AnimListFbDescriber) *)
Definition list_fb_describer (l : list_fb) : describer :=
  Describer (if anim_list_len l =? 0 then 0 else 1) (fun _ => Some (anim_list_len l))
    (fun _ i => anim_list_file_name l i) (fun _ i => anim_list_rig_anim l i).
(** anim_table.cpp:123-143 (TableFileNamesDescriber) *)
Definition table_names_describer (t : list (list (list Z))) : describer :=
  Describer (len t) (fun o => l <- getz t o ;; Some (len l))
    (fun o i => l <- getz t o ;; n <- getz l i ;; Some (Some (c_str n))) (fun _ _ => Some None).
(** anim_table.cpp:145-163 (ListFileNamesDescriber) *)
Definition list_names_describer (l : list (list Z)) : describer :=
  Describer (if len l =? 0 then 0 else 1) (fun _ => Some (len l))
    (fun _ i => n <- getz l i ;; Some (Some (c_str n))) (fun _ _ => Some None).

(** [n] results of [f], from argument [i]. *)
Fixpoint each {A} (f : Z -> option A) (i : Z) (n : nat) : option (list A) :=
  match n with 0%nat => Some [] | Datatypes.S n' => x <- f i ;; r <- each f (i + 1) n' ;; Some (x :: r) end.
(** anim_table.cpp:218-221: what Load reads for one entry. *)
Definition read_entry (d : describer) (object anim_idx : Z) : option source :=
  fb <- source_rig_anim d object anim_idx ;;
  match fb with
  | Some x => Some (SEmbedded x)
  | None => n <- source_file_name d object anim_idx ;; Some match n with Some x => SFile x | None => SNone end
  end.
(** anim_table.cpp:202-213: the loops over the objects and their animations. *)
Definition read_list (d : describer) (object : Z) : option (list source) :=
  n <- num_anims d object ;; each (read_entry d object) 0 (Z.to_nat n).
Definition read (d : describer) : option (list (list source)) := each (read_list d) 0 (Z.to_nat (num_objects d)).

(** anim_table.cpp:172-194: InitFromFlatBuffers and InitFromAnimFileNames are this, with the
    describers above. *)
Definition init_from (d : describer) (load_fn : list Z -> option F) (t : table) : option (bool * @table I S * list (list Z)) :=
  lists <- read d ;; load spline_init fb_name decode load_fn lists t.
End Describers.
