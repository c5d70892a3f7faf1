(** Model of who owns which CompactSpline in SplineMotiveProcessor,
    src/motive/processor/spline_processor.cpp:27-325.

    Only pointers and capacities are modelled: what the splines contain is the
    subject of CompactSplineModel.v, what the interpolator does with them that of
    EvaluatorModel.v.  A spline is an address, a position in the list [splines] of
    all splines ever created, by the processor or by the caller.

    Simplifications: splines are never destroyed (the processor destroys its own
    only in its destructor, spline_processor.cpp:29-33; a caller has to keep
    theirs alive while they are played); every AddNode call of SetTarget is
    counted as adding one node; [data_] and the interpolator's [sources_] are one
    array, as all callbacks treat them alike. *)
From Verif Require Import Base IndexAllocatorModel IndexAllocatorSpec.
Local Open Scope Z_scope.

(** compact_spline.h:79 (kDefaultMaxNodes) *)
Definition default_max_nodes : Z := 7.

(** One spline object: made by the processor (CompactSpline::Create called from
    spline_processor.cpp:278) or by the caller; max_nodes_ (compact_spline.h:579). *)
Record object := Obj { by_processor : bool; max_nodes : Z }.

(** spline_processor.cpp:320 (spline_pool_), and every spline there is. *)
Record heap := Heap { splines : list object; pool : list Z }.

(** One index: spline_data.h:24-29 (SplineData::local_spline) and the interpolator's
    bulk_spline_evaluator.h:316-324 (Source::spline). *)
Record pcell := PC { local : option Z; source : option Z }.
(** spline_data.h:25 (SplineData's constructor), and a fresh Source. *)
Definition no_cell : pcell := PC None None.

(** spline_processor.cpp:268-275: the position of the first spline in the pool with
    enough nodes. *)
Fixpoint pool_find (h : list object) (n : Z) (l : list Z) (pos : Z) : option (option Z) :=
  match l with
  | [] => Some None
  | a :: l' => o <- getz h a ;;
      if n <=? max_nodes o then Some (Some pos) else pool_find h n l' (pos + 1)
  end.

(** spline_processor.cpp:264-279 (AllocateSpline) *)
Definition allocate_spline (h : heap) (n : Z) : option (Z * heap) :=
  f <- pool_find (splines h) n (pool h) 0 ;;
  match f with
  | Some i =>
      a <- getz (pool h) i ;;
      back <- getz (pool h) (len (pool h) - 1) ;;
      p <- setz (pool h) i back ;;
      Some (a, Heap (splines h) (removelast p))
  | None => Some (len (splines h), Heap (splines h ++ [Obj true n]) (pool h))
  end.

(** spline_processor.cpp:287-291 (FreeSpline) *)
Definition free_spline (h : heap) (s : option Z) : heap :=
  match s with
  | None => h
  | Some a => Heap (splines h) (pool h ++ [a])
  end.

(** spline_processor.cpp:146-203 (SetTarget) for a target of [num] nodes whose first
    node is at time 0 or not. [None]: t.Node(0) (target.h:140-143) or the assert in
    AddNodeVerbatim (compact_spline.h:535) fails. *)
Definition cell_set_target (h : heap) (num : Z) (time0 : bool) (c : pcell) : option (heap * pcell) :=
  assert (0 <? num) ;;
  let override_current := time0 || match source c with None => true | Some _ => false end in
  r <- match local c with
       | Some a => Some (a, h)
       | None => allocate_spline h default_max_nodes
       end ;;
  let '(a, h') := r in
  o <- getz (splines h') a ;;
  assert (1 + (num - (if override_current then 1 else 0)) <=? max_nodes o) ;;
  Some (h', PC (Some a) (Some a)).

(** spline_processor.cpp:281-285 (FreeSplineForIndex), then the interpolator plays
    [s] (bulk_spline_evaluator.cpp:166-200, SetSplines; null clears the source). *)
Definition cell_set_spline (h : heap) (s : option Z) (c : pcell) : option (heap * pcell) :=
  Some (free_spline h (local c), PC None s).

(** spline_processor.cpp:93-95: the first loop of SetSplines. *)
Definition cell_free (h : heap) (_ : pcell) (c : pcell) : option (heap * pcell) :=
  Some (free_spline h (local c), PC None (source c)).
(** spline_processor.cpp:100: the call to the interpolator. *)
Definition cell_source (h : heap) (s : option Z) (c : pcell) : option (heap * pcell) :=
  Some (h, PC (local c) s).

(** spline_processor.cpp:219-224: the lambda of CloneIndices, [from] being the cell
    cloned. [None]: null is dereferenced. *)
Definition cell_clone (h : heap) (from c : pcell) : option (heap * pcell) :=
  a <- source from ;;
  o <- getz (splines h) a ;;
  r <- allocate_spline h (max_nodes o) ;;
  Some (snd r, PC (Some (fst r)) (Some (fst r))).

(** spline_processor.cpp:227-237: RemoveIndices, one index. *)
Definition cell_remove (h : heap) (_ : pcell) (c : pcell) : option (heap * pcell) :=
  Some (free_spline h (local c), no_cell).

(** A loop over the indices from [i] up, with one argument for each. *)
Fixpoint each {A} (f : heap -> A -> pcell -> option (heap * pcell)) (h : heap) (args : list A)
    (cells : list pcell) (i : Z) : option (heap * list pcell) :=
  match args with
  | [] => Some (h, cells)
  | a :: args' =>
      c <- getz cells i ;;
      r <- f h a c ;;
      cells' <- setz cells i (snd r) ;;
      each f (fst r) args' cells' (i + 1)
  end.

(** What SetSplinesAndTargets gets for one dimension. *)
Inductive assign := ATarget (num : Z) (time0 : bool) | ASpline (a : Z).
Definition cell_assign (h : heap) (x : assign) (c : pcell) : option (heap * pcell) :=
  match x with
  | ATarget num time0 => cell_set_target h num time0 c
  | ASpline a => cell_set_spline h (Some a) c
  end.

(** The processor with the motivators it has: (first index, dimensions). *)
Record pstate := PS { ps_alloc : alloc_state; ps_live : list (Z * Z); ps_cells : list pcell; ps_heap : heap }.
Definition ps_init : pstate := PS alloc_init [] [] (Heap [] []).

Inductive pop :=
| PUser (nodes : Z)                       (* the caller makes a spline with this capacity *)
| PInit (n : Z)                           (* InitializeMotivator, n dimensions *)
| PClone (i : Z)                          (* CloneMotivator *)
| PRemove (i : Z)                         (* RemoveMotivator *)
| PAssign (i : Z) (l : list assign)       (* SetTargets, SetSplinesAndTargets *)
| PSplines (i : Z) (l : option (list Z))  (* SetSplines; None for null *)
| PFrame.                                 (* AdvanceFrame, which defragments *)

(** The number of dimensions of the motivator at [i]. *)
Definition dims_of (live : list (Z * Z)) (i : Z) : option Z :=
  match find (fun b => fst b =? i) live with Some b => Some (snd b) | None => None end.

(** A spline the caller may pass: one of theirs. *)
Definition callers (h : heap) (a : Z) : bool :=
  match getz (splines h) a with Some o => negb (by_processor o) | None => false end.
Definition assign_ok (h : heap) (x : assign) : bool :=
  match x with ATarget num _ => (1 <=? num) && (num <=? 3) | ASpline a => callers h a end.

(** One call. Calls outside the contract (an index that is not a motivator's, a
    wrong number of splines, splines that are not the caller's, targets not of 1 to 3
    nodes) are skipped. [None]: the code fails. *)
Definition pstep (s : pstate) (o : pop) : option pstate :=
  let h := ps_heap s in
  match o with
  | PUser n => Some (PS (ps_alloc s) (ps_live s) (ps_cells s) (Heap (splines h ++ [Obj false n]) (pool h)))
  | PInit n =>
      if 0 <? n then
        (* processor.cpp:63-75; spline_processor.cpp:205-210 leaves the splines alone *)
        r <- alloc (ps_alloc s) n ;;
        let '(a, i, ev) := r in
        cells <- replay no_cell (ps_cells s) ev ;;
        Some (PS a ((i, n) :: ps_live s) cells h)
      else Some s
  | PClone src =>
      match dims_of (ps_live s) src with
      | None => Some s
      | Some n =>
          (* processor.cpp:77-93 *)
          r <- alloc (ps_alloc s) n ;;
          let '(a, i, ev) := r in
          cells <- replay no_cell (ps_cells s) ev ;;
          r <- each cell_clone h (slice cells src n) cells i ;;
          Some (PS a ((i, n) :: ps_live s) (snd r) (fst r))
      end
  | PRemove i =>
      match dims_of (ps_live s) i with
      | None => Some s
      | Some n =>
          (* processor.cpp:97-123 *)
          r <- each cell_remove h (slice (ps_cells s) i n) (ps_cells s) i ;;
          a <- free (ps_alloc s) i ;;
          Some (PS a (filter (fun b => negb (fst b =? i)) (ps_live s)) (snd r) (fst r))
      end
  | PAssign i l =>
      match dims_of (ps_live s) i with
      | None => Some s
      | Some n =>
          if (len l =? n) && forallb (assign_ok h) l then
            r <- each cell_assign h l (ps_cells s) i ;;
            Some (PS (ps_alloc s) (ps_live s) (snd r) (fst r))
          else Some s
      end
  | PSplines i l =>
      match dims_of (ps_live s) i with
      | None => Some s
      | Some n =>
          let l' := match l with Some l => map Some l | None => repeat None (Z.to_nat n) end in
          if (len l' =? n) && forallb (fun x => match x with Some a => callers h a | None => true end) l' then
            r <- each cell_free h (slice (ps_cells s) i n) (ps_cells s) i ;;
            r' <- each cell_source (fst r) l' (snd r) i ;;
            Some (PS (ps_alloc s) (ps_live s) (snd r') (fst r'))
          else Some s
      end
  | PFrame =>
      r <- defragment (ps_alloc s) ;;
      let '(a, ev) := r in
      cells <- replay no_cell (ps_cells s) ev ;;
      Some (PS a (map (fun b => (follow ev (fst b), snd b)) (ps_live s)) cells h)
  end.

Fixpoint prun (s : pstate) (ops : list pop) : option pstate :=
  match ops with [] => Some s | o :: ops' => s' <- pstep s o ;; prun s' ops' end.

(** The splines the indices own: every non-null local_spline in data_. *)
Definition locals (cells : list pcell) : list Z :=
  flat_map (fun c => match local c with Some a => [a] | None => [] end) cells.
