(** Model of MotiveProcessor (src/motive/processor.cpp, include/motive/processor.h)
    and of the motivator handles (include/motive/motivator.h,
    src/motive/motivator.cpp).

    Motivator objects are natural numbers, processors are natural numbers.  A
    motivator's (processor_, index_) pair is [option (nat * Z)]; (nullptr,
    kMotiveIndexInvalid) is [None].  All per-index data of a derived processor
    (data_, values_, ...) is one array of cells of an arbitrary type [D], whose
    default-constructed / reset value is [dflt].  Benchmarks and the engine
    pointer are left out. *)
From Verif Require Import Base IndexAllocatorModel IndexAllocatorSpec.

(** How a derived class implements MoveIndices:
    - [MvCopy] simple_processor_template.h:101-109, overshoot_processor.cpp:126-134,
      spline_processor.cpp:238-246: data_[new] = data_[old];
    - [MvSwap] matrix_processor.cpp:157-165, sqt_processor.cpp:155-163: swap;
    - [MvOwn]  rig_processor.cpp:148-156: data_[new] = data_[old]; data_[old] = null. *)
Inductive movekind := MvCopy | MvSwap | MvOwn.

(** The parts of a derived class visible to the base class; [k_clone] is
    SupportsCloning(), processor.h:192. *)
Record pclass := { k_move : movekind; k_clone : bool }.

Section Processor.
  Context {D : Type} (dflt : D).

  (** processor.h:274-287: index_allocator_, motivators_; and the cells. *)
  Record proc := { p_alloc : alloc_state; p_bp : list (option nat); p_cells : list D }.

  (** All motivators and all existing processors. *)
  Record sys := { mots : nat -> option (nat * Z); procs : nat -> option proc }.

  Definition upd {A} (f : nat -> A) (k : nat) (v : A) : nat -> A :=
    fun x => if Nat.eqb x k then v else f x.

  (** processor.h:58-64 (constructor). *)
  Definition proc_init : proc := {| p_alloc := alloc_init; p_bp := []; p_cells := [] |}.
  (** Nothing exists yet. *)
  Definition sys_init : sys := {| mots := fun _ => None; procs := fun _ => None |}.

  (** processor.h:158-160 (Dimensions). *)
  Definition dimensions (p : proc) (i : Z) : option Z := count_for_index (counts (p_alloc p)) i.

  (** processor.cpp:157-161 (ValidIndex); [None]: out-of-range vector access. *)
  Definition p_valid_index (m : nat -> option (nat * Z)) (pid : nat) (p : proc) (i : Z) : option bool :=
    if i <? num_indices (p_alloc p) then
      b <- getz (p_bp p) i ;;
      match b with
      | None => Some false
      | Some h => Some (match m h with Some (q, _) => Nat.eqb q pid | None => false end)
      end
    else Some false.

  (** processor.cpp:152-155 (IsMotivatorIndex). *)
  Definition is_motivator_index (p : proc) (i : Z) : option bool :=
    b <- getz (p_bp p) i ;;
    match b with
    | None => Some false
    | Some h => if i =? 0 then Some true
                else b' <- getz (p_bp p) (i - 1) ;;
                     Some (match b' with Some h' => negb (Nat.eqb h' h) | None => true end)
    end.

  (** processor.cpp:163-165 (ValidMotivatorIndex). *)
  Definition valid_motivator_index m pid p i : option bool :=
    v <- p_valid_index m pid p i ;; if (v : bool) then is_motivator_index p i else Some false.

  (** processor.h:133-135 (ValidMotivator), motivator.h:95-98 (Sane). *)
  Definition sane (s : sys) (h : nat) : option bool :=
    match mots s h with
    | None => Some true
    | Some (pid, i) =>
        p <- procs s pid ;;
        v <- p_valid_index (mots s) pid p i ;;
        b <- getz (p_bp p) i ;;
        Some (v && match b with Some h' => Nat.eqb h' h | None => false end)
    end.

  (** for (i = 0; i < n; ++i) v[index + i] = f(i). *)
  Fixpoint fill {A} (l : list A) (index : Z) (f : Z -> A) (n : nat) : option (list A) :=
    match n with
    | O => Some l
    | S n' => l' <- fill l index f n' ;; setz l' (index + Z.of_nat n') (f (Z.of_nat n'))
    end.

  (** The loop bodies of MoveIndices, ascending; see [movekind]. *)
  Fixpoint move_swap (l : list D) (t s : Z) (n : nat) : option (list D) :=
    match n with
    | O => Some l
    | S n' => l1 <- move_swap l t s n' ;;
              x <- getz l1 (s + Z.of_nat n') ;;
              y <- getz l1 (t + Z.of_nat n') ;;
              l2 <- setz l1 (t + Z.of_nat n') x ;;
              setz l2 (s + Z.of_nat n') y
    end.
  Fixpoint move_own (l : list D) (t s : Z) (n : nat) : option (list D) :=
    match n with
    | O => Some l
    | S n' => l1 <- move_own l t s n' ;;
              x <- getz l1 (s + Z.of_nat n') ;;
              l2 <- setz l1 (t + Z.of_nat n') x ;;
              setz l2 (s + Z.of_nat n') dflt
    end.
  Definition move_indices (k : pclass) (l : list D) (old new n : Z) : option (list D) :=
    match k_move k with
    | MvCopy => copy_ascending l new old (Z.to_nat n)
    | MvSwap => move_swap l new old (Z.to_nat n)
    | MvOwn => move_own l new old (Z.to_nat n)
    end.

  (** processor.cpp:205-207: re-Init every motivator in [i, stop). *)
  Fixpoint reinit_loop (fuel : nat) (m : nat -> option (nat * Z)) (pid : nat) (p : proc)
      (i stop diff : Z) : option (nat -> option (nat * Z)) :=
    if i <? stop then
      match fuel with
      | O => None
      | S fuel' =>
          b <- getz (p_bp p) i ;;
          h <- b ;;
          n <- dimensions p i ;;
          reinit_loop fuel' (upd m h (Some (pid, i + diff))) pid p (i + n) stop diff
      end
    else Some m.

  (** processor.cpp:213-219: move the back pointers, with the assert. *)
  Fixpoint move_bp (l : list (option nat)) (s diff : Z) (n : nat) : option (list (option nat)) :=
    match n with
    | O => Some l
    | S n' => l1 <- move_bp l s diff n' ;;
              let i := s + Z.of_nat n' in
              x <- getz l1 i ;;
              y <- getz l1 (i + diff) ;;
              h <- x ;;
              assert (match y with None => true | Some _ => false end) ;;
              l2 <- setz l1 (i + diff) (Some h) ;;
              setz l2 i None
    end.

  (** processor.cpp:200-220 (MoveIndexRangeBase). *)
  Definition move_index_range_base (k : pclass) (m : nat -> option (nat * Z)) (pid : nat) (p : proc)
      (s e t : Z) : option ((nat -> option (nat * Z)) * proc) :=
    let diff := t - s in
    m' <- reinit_loop (Z.to_nat (e - s)) m pid p s e diff ;;
    cells <- move_indices k (p_cells p) s t (e - s) ;;
    bp <- move_bp (p_bp p) s diff (Z.to_nat (e - s)) ;;
    Some (m', {| p_alloc := p_alloc p; p_bp := bp; p_cells := cells |}).

  (** processor.cpp:186-198 (SetNumIndicesBase) with the SetNumIndices overrides
      (simple_processor_template.h:111-114, matrix_processor.cpp:167-176,
      rig_processor.cpp:158-167): truncated cells are reset and dropped, new ones
      are default-constructed. *)
  Definition set_num_indices_base (p : proc) (n : Z) : proc :=
    {| p_alloc := p_alloc p; p_bp := resize (p_bp p) n None; p_cells := resize (p_cells p) n dflt |}.

  (** Callbacks issued by Alloc (only SetNumIndices is possible). *)
  Fixpoint alloc_callbacks (p : proc) (log : list event) : option proc :=
    match log with
    | [] => Some p
    | EvSetNum n :: log' => alloc_callbacks (set_num_indices_base p n) log'
    | EvMove _ _ _ :: _ => None
    end.

  Definition with_alloc (p : proc) (a : alloc_state) : proc :=
    {| p_alloc := a; p_bp := p_bp p; p_cells := p_cells p |}.

  (** processor.cpp:167-184 (AllocateMotivatorIndices). *)
  Definition allocate_indices m pid (p : proc) (h : nat) (dims : Z)
      : option ((nat -> option (nat * Z)) * proc * Z) :=
    r <- alloc (p_alloc p) dims ;;
    let '(a, index, log) := r in
    p1 <- alloc_callbacks (with_alloc p a) log ;;
    bp <- fill (p_bp p1) index (fun _ => Some h) (Z.to_nat dims) ;;
    Some (upd m h (Some (pid, index)),
          {| p_alloc := p_alloc p1; p_bp := bp; p_cells := p_cells p1 |}, index).

  (** Every index of [i, i+n) passes the assert in Data()
      (simple_processor_template.h:116-119 and the like). *)
  Fixpoint data_asserts m pid (p : proc) (i : Z) (n : nat) : option unit :=
    match n with
    | O => Some tt
    | S n' => _ <- data_asserts m pid p i n' ;;
              v <- p_valid_index m pid p (i + Z.of_nat n') ;;
              assert v ;; Some tt
    end.

  (** processor.cpp:63-75 (InitializeMotivator).  InitializeIndices of the derived
      class writes [init k] into the cell of dimension [k]
      (e.g. simple_processor_template.h:80-91). *)
  Definition initialize_motivator m pid (p : proc) (h : nat) (dims : Z) (init : Z -> D)
      : option ((nat -> option (nat * Z)) * proc) :=
    r <- allocate_indices m pid p h dims ;;
    let '(m', p', index) := r in
    _ <- data_asserts m' pid p' index (Z.to_nat dims) ;;
    cells <- fill (p_cells p') index init (Z.to_nat dims) ;;
    Some (m', {| p_alloc := p_alloc p'; p_bp := p_bp p'; p_cells := cells |}).

  (** CloneIndices (matrix_processor.cpp:138-144): cell by cell assignment. *)
  Fixpoint clone_cells (l : list D) (dst src : Z) (n : nat) : option (list D) :=
    match n with
    | O => Some l
    | S n' => l1 <- clone_cells l dst src n' ;;
              x <- getz l1 (src + Z.of_nat n') ;;
              setz l1 (dst + Z.of_nat n') x
    end.

  (** processor.cpp:77-93 (CloneMotivator). *)
  Definition clone_motivator (k : pclass) m pid (p : proc) (dst : nat) (src : Z)
      : option ((nat -> option (nat * Z)) * proc) :=
    if k_clone k then
      dims <- dimensions p src ;;
      r <- allocate_indices m pid p dst dims ;;
      let '(m', p', index) := r in
      _ <- data_asserts m' pid p' index (Z.to_nat dims) ;;
      _ <- data_asserts m' pid p' src (Z.to_nat dims) ;;
      cells <- clone_cells (p_cells p') index src (Z.to_nat dims) ;;
      Some (m', {| p_alloc := p_alloc p'; p_bp := p_bp p'; p_cells := cells |})
    else Some (m, p).

  (** processor.cpp:97-110 (RemoveMotivatorWithoutNotifying). *)
  Definition remove_without_notifying m (p : proc) (index : Z)
      : option ((nat -> option (nat * Z)) * proc) :=
    b <- getz (p_bp p) index ;;
    h <- b ;;
    dims <- dimensions p index ;;
    bp <- fill (p_bp p) index (fun _ => None) (Z.to_nat dims) ;;
    a <- free (p_alloc p) index ;;
    Some (upd m h None, {| p_alloc := a; p_bp := bp; p_cells := p_cells p |}).

  (** processor.cpp:112-123 (RemoveMotivator).  RemoveIndices resets the cells
      (simple_processor_template.h:93-98 and the like). *)
  Definition remove_motivator m pid (p : proc) (index : Z)
      : option ((nat -> option (nat * Z)) * proc) :=
    v <- valid_motivator_index m pid p index ;;
    assert v ;;
    dims <- dimensions p index ;;
    _ <- data_asserts m pid p index (Z.to_nat dims) ;;
    cells <- fill (p_cells p) index (fun _ => dflt) (Z.to_nat dims) ;;
    remove_without_notifying m {| p_alloc := p_alloc p; p_bp := p_bp p; p_cells := cells |} index.

  (** processor.cpp:125-144 (TransferMotivator). *)
  Definition transfer_motivator m pid (p : proc) (index : Z) (new : nat)
      : option ((nat -> option (nat * Z)) * proc) :=
    v <- valid_motivator_index m pid p index ;;
    assert v ;;
    b <- getz (p_bp p) index ;;
    old <- b ;;
    dims <- dimensions p index ;;
    bp <- fill (p_bp p) index (fun _ => Some new) (Z.to_nat dims) ;;
    Some (upd (upd m old None) new (Some (pid, index)),
          {| p_alloc := p_alloc p; p_bp := bp; p_cells := p_cells p |}).

  (** index_allocator.h:218-240 with the callbacks bound to this processor: the
      allocator functions of IndexAllocatorModel.v, each move callback run with
      the counts_ the allocator has at that moment (index_allocator.h:423-429). *)
  Fixpoint p_defrag_loop (fuel : nat) (k : pclass) m pid (p : proc)
      : option ((nat -> option (nat * Z)) * proc) :=
    match fuel with
    | O => None
    | S fuel' =>
        s1 <- consolidate (p_alloc p) ;;
        at_end <- (match unused s1 with
                   | [u] => n <- next_index (counts s1) u ;; Some (n =? num_indices s1)
                   | _ => Some false
                   end) ;;
        if (at_end : bool) then Some (m, with_alloc p s1)
        else
          r <- backfill_first_unused s1 ;;
          match snd r with
          | [EvMove s e t] =>
              mp <- move_index_range_base k m pid (with_alloc p s1) s e t ;;
              p_defrag_loop fuel' k (fst mp) pid (with_alloc (snd mp) (fst r))
          | _ => None
          end
    end.

  Definition p_defragment (k : pclass) m pid (p : proc)
      : option ((nat -> option (nat * Z)) * proc) :=
    match unused (p_alloc p) with
    | [] => Some (m, p)
    | _ =>
        let n := length (counts (p_alloc p)) in
        r <- p_defrag_loop (S (n * n)) k m pid p ;;
        let '(m', p') := r in
        u <- getz (unused (p_alloc p')) 0 ;;
        let c := fst (set_num_indices (counts (p_alloc p')) u) in
        let p2 := set_num_indices_base p' u in
        Some (m', with_alloc p2 {| counts := c; unused := [] |})
    end.

  (** AdvanceFrame of a derived class: Defragment, then update every cell on its
      own (e.g. matrix_processor.cpp:35-49, const_processor.cpp). *)
  Definition advance_frame (k : pclass) m pid (p : proc) (f : D -> D)
      : option ((nat -> option (nat * Z)) * proc) :=
    r <- p_defragment k m pid p ;;
    let '(m', p') := r in
    Some (m', {| p_alloc := p_alloc p'; p_bp := p_bp p'; p_cells := map f (p_cells p') |}).

  (** processor.cpp:21-33: the loop of the destructor. *)
  Fixpoint destroy_loop (fuel : nat) m (p : proc) (index : Z)
      : option ((nat -> option (nat * Z)) * proc) :=
    if index <? num_indices (p_alloc p) then
      match fuel with
      | O => None
      | S fuel' =>
          b <- getz (p_bp p) index ;;
          r <- (match b with None => Some (m, p) | Some _ => remove_without_notifying m p index end) ;;
          let '(m', p') := r in
          n <- dimensions p' index ;;
          destroy_loop fuel' m' p' (index + n)
      end
    else Some (m, p).

  (** processor.cpp:21-33 (~MotiveProcessor), with the final assert. *)
  Definition destroy_processor m (p : proc) : option (nat -> option (nat * Z)) :=
    r <- destroy_loop (length (counts (p_alloc p))) m p 0 ;;
    let '(m', p') := r in
    e <- alloc_empty (p_alloc p') ;;
    assert e ;; Some m'.

  (** ** Motivator operations *)
  Variable cls : nat -> pclass.

  Definition set_proc (s : sys) m pid p : sys := {| mots := m; procs := upd (procs s) pid (Some p) |}.

  (** motivator.h:82-86 (Invalidate), also the destructor, motivator.h:78. *)
  Definition invalidate (s : sys) (h : nat) : option sys :=
    match mots s h with
    | None => Some s
    | Some (pid, i) =>
        p <- procs s pid ;;
        r <- remove_motivator (mots s) pid p i ;;
        Some (set_proc s (fst r) pid (snd r))
    end.

  (** engine.cpp:51-71 (Processor): create the processor if it does not exist. *)
  Definition ensure (s : sys) (pid : nat) : proc :=
    match procs s pid with Some p => p | None => proc_init end.

  (** motivator.cpp:20-32 (InitializeWithDimension). *)
  Definition initialize (s : sys) (h pid : nat) (dims : Z) (init : Z -> D) : option sys :=
    s1 <- invalidate s h ;;
    r <- initialize_motivator (mots s1) pid (ensure s1 pid) h dims init ;;
    Some (set_proc s1 (fst r) pid (snd r)).

  Definition transfer (s : sys) (src dst : nat) : option sys :=
    match mots s src with
    | None => Some s
    | Some (pid, i) =>
        p <- procs s pid ;;
        r <- transfer_motivator (mots s) pid p i dst ;;
        Some (set_proc s (fst r) pid (snd r))
    end.

  (** motivator.h:53-60 (move constructor): [dst] is a new object. *)
  Definition move_construct (s : sys) (dst src : nat) : option sys := transfer s src dst.

  (** motivator.h:64-70 (move assignment). *)
  Definition move_assign (s : sys) (dst src : nat) : option sys :=
    s1 <- invalidate s dst ;; transfer s1 src dst.

  (** motivator.h:121-126 (CloneFrom) *)
  Definition clone_from (s : sys) (dst src : nat) : option sys :=
    s1 <- invalidate s dst ;;
    match mots s1 src with
    | None => Some s1
    | Some (pid, i) =>
        p <- procs s1 pid ;;
        r <- clone_motivator (cls pid) (mots s1) pid p dst i ;;
        Some (set_proc s1 (fst r) pid (snd r))
    end.

  (** engine.cpp:73-85 for one processor. *)
  Definition frame (s : sys) (pid : nat) (f : D -> D) : option sys :=
    match procs s pid with
    | None => Some s
    | Some p => r <- advance_frame (cls pid) (mots s) pid p f ;; Some (set_proc s (fst r) pid (snd r))
    end.

  (** Any call that writes dimension [k] of motivator [h] (SetTarget, SetValue...). *)
  Definition write (s : sys) (h : nat) (k : Z) (v : D) : option sys :=
    match mots s h with
    | None => Some s
    | Some (pid, i) =>
        p <- procs s pid ;;
        n <- dimensions p i ;;
        if (0 <=? k) && (k <? n) then
          cells <- setz (p_cells p) (i + k) v ;;
          Some (set_proc s (mots s) pid {| p_alloc := p_alloc p; p_bp := p_bp p; p_cells := cells |})
        else Some s
    end.

  (** engine.cpp:35-48 (Reset) for one processor. *)
  Definition destroy (s : sys) (pid : nat) : option sys :=
    match procs s pid with
    | None => Some s
    | Some p => m <- destroy_processor (mots s) p ;; Some {| mots := m; procs := upd (procs s) pid None |}
    end.

  Inductive mop :=
  | OInit (h pid : nat) (dims : Z) (init : Z -> D)
  | OInvalidate (h : nat)
  | OMoveConstruct (dst src : nat)
  | OMoveAssign (dst src : nat)
  | OClone (dst src : nat)
  | OFrame (pid : nat) (f : D -> D)
  | OWrite (h : nat) (k : Z) (v : D)
  | ODestroy (pid : nat).

  (** One call.  Calls outside the contract are skipped: initialising with a
      non-positive dimension, move-constructing into an object already in use or
      into the source itself. *)
  Definition mstep (s : sys) (o : mop) : option sys :=
    match o with
    | OInit h pid dims init => if 0 <? dims then initialize s h pid dims init else Some s
    | OInvalidate h => invalidate s h
    | OMoveConstruct dst src =>
        match mots s dst with None => move_construct s dst src | Some _ => Some s end
    | OMoveAssign dst src => move_assign s dst src
    | OClone dst src => clone_from s dst src
    | OFrame pid f => frame s pid f
    | OWrite h k v => write s h k v
    | ODestroy pid => destroy s pid
    end.

  Fixpoint mrun (s : sys) (ops : list mop) : option sys :=
    match ops with [] => Some s | o :: ops' => s' <- mstep s o ;; mrun s' ops' end.
End Processor.
Arguments proc D : clear implicits.
Arguments sys D : clear implicits.
Arguments mop D : clear implicits.
