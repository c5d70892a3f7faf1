(** Model of IndexAllocator<Index>, include/motive/util/index_allocator.h:70-511.

    Simplifications: [Index] (a signed machine integer) is unbounded Z, so
    overflow of num_indices is not modelled; callbacks are returned as a log of
    events in call order; [std::sort] on integers is insertion sort. *)
From Verif Require Import Base.

(** index_allocator.h:90-95 (CallbackInterface). [EvMove start end target]. *)
Inductive event := EvSetNum (n : Z) | EvMove (start stop target : Z).

(** index_allocator.h:503,510 (counts_, unused_indices_). *)
Record alloc_state := { counts : list Z; unused : list Z }.

(** index_allocator.h:99-103 (constructor). *)
Definition alloc_init : alloc_state := {| counts := []; unused := [] |}.

(** index_allocator.h:302 (num_indices). *)
Definition num_indices (s : alloc_state) : Z := len (counts s).

(** index_allocator.h:275-278 (CountForIndex), with its assert. *)
Definition count_for_index (c : list Z) (i : Z) : option Z :=
  n <- getz c i ;; assert (0 <? n) ;; Some n.

(** index_allocator.h:248-261 (ValidIndex). *)
Definition valid_index (s : alloc_state) (i : Z) : bool :=
  match getz (counts s) i with
  | None => false
  | Some n => negb (n =? 0) && negb (existsb (Z.eqb i) (unused s))
  end.

(** index_allocator.h:310-313 (NextIndex), with its assert. *)
Definition next_index (c : list Z) (i : Z) : option Z :=
  n <- getz c i ;; assert (0 <? n) ;; Some (i + n).

(** index_allocator.h:317-323 (PrevIndex), with its assert. *)
Definition prev_index (c : list Z) (i : Z) : option Z :=
  assert ((0 <? i) && (i <=? len c)) ;;
  p <- getz c (i - 1) ;;
  assert ((i =? len c) || (p =? 1) || (p <? 0)) ;;
  Some (if 0 <? p then i - 1 else i - 1 + p).

(** index_allocator.h:331-333: the loop of InitializeIndex, [n] iterations left. *)
Fixpoint init_rest (c : list Z) (index i : Z) (n : nat) : option (list Z) :=
  match n with
  | O => Some c
  | S n' => c' <- setz c (index + i) (- i) ;; init_rest c' index (i + 1) n'
  end.

(** index_allocator.h:328-334 (InitializeIndex). *)
Definition initialize_index (c : list Z) (index count : Z) : option (list Z) :=
  c' <- setz c index count ;; init_rest c' index 1 (Z.to_nat (count - 1)).

(** index_allocator.h:338-344 (SetNumIndices). *)
Definition set_num_indices (c : list Z) (n : Z) : list Z * event :=
  (resize c n 0, EvSetNum n).

(** index_allocator.h:116-135: the scan loop of Alloc. [pos] is the iterator
    position, [best] is (least_excess_it, least_excess); [None] for
    least_excess_it = end().  (least_excess starts at the maximum of Count; an
    excess equal to that maximum is not distinguished here.) *)
Inductive scan_result := ScanExact (pos : nat) (index : Z) | ScanBest (best : option (nat * Z)).

Fixpoint alloc_scan (c : list Z) (count : Z) (l : list Z) (pos : nat)
    (best : option (nat * Z)) : option scan_result :=
  match l with
  | [] => Some (ScanBest best)
  | u :: l' =>
      k <- count_for_index c u ;;
      let excess := k - count in
      if excess <? 0 then alloc_scan c count l' (S pos) best
      else if excess =? 0 then Some (ScanExact pos u)
      else
        let better := match best with None => true | Some (_, least) => excess <? least end in
        alloc_scan c count l' (S pos) (if better then Some (pos, excess) else best)
  end.

(** unused_indices_.erase(it). *)
Definition erase_at {A} (l : list A) (pos : nat) : list A := firstn pos l ++ skipn (S pos) l.

(** index_allocator.h:112-156 (Alloc). Returns new state, index, callbacks. *)
Definition alloc (s : alloc_state) (count : Z) : option (alloc_state * Z * list event) :=
  r <- alloc_scan (counts s) count (unused s) 0 None ;;
  match r with
  | ScanExact pos u =>
      Some ({| counts := counts s; unused := erase_at (unused s) pos |}, u, [])
  | ScanBest (Some (pos, least)) =>
      ex <- nth_error (unused s) pos ;;
      c1 <- initialize_index (counts s) ex count ;;
      let rem := ex + count in
      c2 <- initialize_index c1 rem least ;;
      un <- setz (unused s) (Z.of_nat pos) rem ;;
      Some ({| counts := c2; unused := un |}, ex, [])
  | ScanBest None =>
      let new_index := num_indices s in
      let '(c1, ev) := set_num_indices (counts s) (new_index + count) in
      c2 <- initialize_index c1 new_index count ;;
      Some ({| counts := c2; unused := unused s |}, new_index, [ev])
  end.

(** index_allocator.h:162-165 (Free). *)
Definition free (s : alloc_state) (i : Z) : option alloc_state :=
  assert (valid_index s i) ;;
  Some {| counts := counts s; unused := unused s ++ [i] |}.

(** std::sort(unused_indices_), index_allocator.h:349. *)
Fixpoint insertz (x : Z) (l : list Z) : list Z :=
  match l with [] => [x] | y :: l' => if x <=? y then x :: l else y :: insertz x l' end.
Fixpoint sortz (l : list Z) : list Z :=
  match l with [] => [] | x :: l' => insertz x (sortz l') end.

(** index_allocator.h:363-369: write the consolidated count of a group. *)
Definition consolidate_group (c : list Z) (start last : Z) (multi : bool) : option (list Z) :=
  if multi then e <- next_index c last ;; initialize_index c start (e - start)
  else Some c.

(** index_allocator.h:352-376: the two nested loops of ConsolidateUnusedIndices
    as one pass. [start] is unused_indices_[i], [last] is unused_indices_[j-1],
    [multi] is num_consecutive > 1, [l] the rest of the sorted array. *)
Fixpoint consolidate_loop (c : list Z) (start last : Z) (multi : bool) (l : list Z)
    : option (list Z * list Z) :=
  match l with
  | [] => c' <- consolidate_group c start last multi ;; Some (c', [start])
  | u :: l' =>
      e <- next_index c last ;;
      if u =? e then consolidate_loop c start u true l'
      else
        c' <- consolidate_group c start last multi ;;
        r <- consolidate_loop c' u u false l' ;;
        Some (fst r, start :: snd r)
  end.

(** index_allocator.h:347-381 (ConsolidateUnusedIndices). *)
Definition consolidate (s : alloc_state) : option alloc_state :=
  match sortz (unused s) with
  | [] => Some {| counts := counts s; unused := [] |}
  | u :: l =>
      r <- consolidate_loop (counts s) u u false l ;;
      Some {| counts := fst r; unused := snd r |}
  end.

(** index_allocator.h:473-478: the inner loop of LastIndexRangeSmallerThanHole.
    [None] also when fuel runs out. Returns [start]. *)
Fixpoint range_inner (fuel : nat) (c : list Z) (index count stop unused_start j start : Z)
    : option Z :=
  match fuel with
  | O => None
  | S fuel' =>
      if negb (index <? j) then Some start
      else if count <? stop - j then Some start
      else if j =? unused_start then Some start
      else j' <- prev_index c j ;;
           range_inner fuel' c index count stop unused_start j' j
  end.

(** index_allocator.h:462-485: the outer loop. [Some None] is the invalid range. *)
Fixpoint range_outer (fuel : nat) (s : alloc_state) (index count stop unused_i : Z)
    : option (option (Z * Z)) :=
  match fuel with
  | O => None
  | S fuel' =>
      if negb (index <? stop) then Some None
      else
        unused_start <- getz (unused s) unused_i ;;
        unused_end <- next_index (counts s) unused_start ;;
        assert (unused_end <=? stop) ;;
        if stop =? unused_end then
          stop' <- prev_index (counts s) stop ;;
          range_outer fuel' s index count stop' (unused_i - 1)
        else
          j <- prev_index (counts s) stop ;;
          start <- range_inner fuel' (counts s) index count stop unused_start j stop ;;
          if start <? stop then Some (Some (start, stop))
          else
            stop' <- prev_index (counts s) stop ;;
            range_outer fuel' s index count stop' unused_i
  end.

(** index_allocator.h:455-486 (LastIndexRangeSmallerThanHole). Each iteration
    lowers [end], so num_indices + 2 iterations suffice; running out is [None]. *)
Definition last_range_smaller_than_hole (s : alloc_state) (index : Z)
    : option (option (Z * Z)) :=
  count <- count_for_index (counts s) index ;;
  assert (0 <? len (unused s)) ;;
  range_outer (S (S (length (counts s)))) s index count (num_indices s) (len (unused s) - 1).

(** index_allocator.h:290-292: the inner loop of VerifyInternalState. *)
Fixpoint verify_inner (c : list Z) (i j : Z) (n : nat) : bool :=
  match n with
  | O => true
  | S n' => match getz c (i + j) with
            | Some v => (v =? - j) && verify_inner c i (j + 1) n'
            | None => false
            end
  end.

(** index_allocator.h:282-298 (VerifyInternalState); false = an assert fails. *)
Fixpoint verify_loop (fuel : nat) (c : list Z) (i : Z) : bool :=
  if len c <=? i then true
  else match fuel with
       | O => false
       | S fuel' =>
           match getz c i with
           | Some n => (0 <? n) && verify_inner c i 1 (Z.to_nat (n - 1))
                       && verify_loop fuel' c (i + n)
           | None => false
           end
       end.
Definition verify_internal_state (c : list Z) : bool := verify_loop (length c) c 0.

(** index_allocator.h:385-453 (BackfillFirstUnused). *)
Definition backfill_first_unused (s : alloc_state) : option (alloc_state * list event) :=
  match unused s with
  | [] => None
  | u0 :: urest =>
      k <- count_for_index (counts s) u0 ;;
      let unused_end := u0 + k in
      r <- last_range_smaller_than_hole s u0 ;;
      fr <- (match r with
             | Some fr => Some fr
             | None =>
                 let next_hole := match urest with u1 :: _ => u1 | [] => num_indices s end in
                 n <- next_index (counts s) u0 ;; Some (n, next_hole)
             end) ;;
      let '(fs, fe) := fr in
      let flen := fe - fs in
      c1 <- memmove (counts s) u0 fs flen ;;
      s' <- (match r with
             | Some _ =>
                 c2 <- initialize_index c1 fs flen ;;
                 let hole_start := u0 + flen in
                 let hole_len := unused_end - hole_start in
                 if 0 <? hole_len then
                   c3 <- initialize_index c2 hole_start hole_len ;;
                   Some {| counts := c3; unused := fs :: urest ++ [hole_start] |}
                 else Some {| counts := c2; unused := fs :: urest |}
             | None =>
                 let hole_start := u0 + flen in
                 c2 <- initialize_index c1 hole_start (fe - hole_start) ;;
                 Some {| counts := c2; unused := hole_start :: urest |}
             end) ;;
      assert (verify_internal_state (counts s')) ;;
      Some (s', [EvMove fs fe u0])
  end.

(** index_allocator.h:222-235: the for(;;) loop of Defragment. *)
Fixpoint defrag_loop (fuel : nat) (s : alloc_state) (log : list event)
    : option (alloc_state * list event) :=
  match fuel with
  | O => None
  | S fuel' =>
      s1 <- consolidate s ;;
      at_end <- (match unused s1 with
                 | [u] => n <- next_index (counts s1) u ;; Some (n =? num_indices s1)
                 | _ => Some false
                 end) ;;
      if (at_end : bool) then Some (s1, log)
      else r <- backfill_first_unused s1 ;;
           defrag_loop fuel' (fst r) (log ++ snd r)
  end.

(** index_allocator.h:218-240 (Defragment). Fuel: num_indices^2 + 1 rounds; that
    this always suffices is the termination theorem. *)
Definition defragment (s : alloc_state) : option (alloc_state * list event) :=
  match unused s with
  | [] => Some (s, [])
  | _ =>
      r <- defrag_loop (S (length (counts s) * length (counts s))) s [] ;;
      let '(s1, log) := r in
      u <- getz (unused s1) 0 ;;
      let '(c, ev) := set_num_indices (counts s1) u in
      Some ({| counts := c; unused := [] |}, log ++ [ev])
  end.

(** index_allocator.h:265-271 (NumUnusedIndices). *)
Fixpoint num_unused_loop (c l : list Z) (acc : Z) : option Z :=
  match l with
  | [] => Some acc
  | u :: l' => k <- count_for_index c u ;; num_unused_loop c l' (acc + k)
  end.
Definition num_unused_indices (s : alloc_state) : option Z :=
  num_unused_loop (counts s) (unused s) 0.

(** index_allocator.h:243-245 (Empty). *)
Definition alloc_empty (s : alloc_state) : option bool :=
  n <- num_unused_indices s ;; Some (num_indices s =? n).
