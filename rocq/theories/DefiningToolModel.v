(** Model of the program that writes a defining animation
    (src/anim_pipeline/defining_anim_pipeline.cpp:25-42, 96-131).

    A file system says what is in the file with a name, if it can be read, and which files
    can be written.  The FlatBuffers library is two functions: [parse] follows the offsets
    from the start of some bytes ([None]: it reads outside them; the program checks nothing),
    and [finish] is the bytes of a finished buffer.  What is printed is not modelled. *)
From Verif Require Import RBase RangeModel CompactSplineModel MatrixModel RigModel AnimTableModel DescribeModel FlatAnimModel.
Local Open Scope Z_scope.

Section Tool.
Context {I : Type} (spline_init : range -> I) (parse : list Z -> option fb_rig) (finish : fb_rig -> list Z).
Context (readable : list Z -> option (list Z)) (writable : list Z -> bool).

(** defining_anim_pipeline.cpp:25-35 (LoadFile), with a scratch buffer: a stream that was not
    opened has no characters, and the pointer to the buffer is never null. *)
Definition load_file (filename : list Z) : option (list Z) :=
  Some match readable filename with Some data => data | None => [] end.
(** defining_anim_pipeline.cpp:37-42 (SaveFile): the answer, and the file that is written. *)
Definition save_file (filename bytes : list Z) : bool * option (list Z * list Z) :=
  (true, if writable filename then Some (filename, bytes) else None).
(** anim_table.cpp:249-250 (GetRigAnimFb, RigAnimFromFlatBuffers) *)
Definition decode_file (data : list Z) : option (rig_anim (opinit I spline)) := f <- parse data ;; load_rig spline_init f.
(** anim_table.cpp:282 *)
Definition defining_name : list Z := [100; 101; 102; 105; 110; 105; 110; 103; 95; 97; 110; 105; 109].
(** defining_anim_pipeline.cpp:96-131 (main): what it returns, and the file that it writes.
    CreateRigAnimFbFromRigAnim answers false when [export_defining] is [None]: the bones that
    it reads are those that the animation has. *)
Definition defining_main (argv : list (list Z)) : option (Z * option (list Z * list Z)) :=
  if len argv <? 3 then Some (-1, None) else
  output_file <- getz argv 1 ;;
  let input_files := skipn 2 argv in
  r <- init_from spline_init (fun data => f <- parse data ;; Some (fr_name f)) decode_file (list_names_describer input_files) load_file table_empty ;;
  let '(ok, t, _) := r in
  if negb ok then Some (-1, None) else
  d <- defining_anim t 0 ;;
  match export_defining defining_name d with
  | None => Some (-1, None)
  | Some f =>
      let '(saved, file) := save_file output_file (finish f) in
      Some (if saved then 0 else -1, file)
  end.
End Tool.
