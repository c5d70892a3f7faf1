(** What a client of IndexAllocator sees.  Nothing here looks inside the
    allocator: the client records the blocks Alloc gave it, forgets those it
    frees, and follows the callbacks. *)
From Verif Require Import Base IndexAllocatorModel.

Section Client.
  Context {D : Type} (d : D).

  (** The client keeps one array element per index, resizing on SetNumIndices and
      moving elements on MoveIndexRange (index_allocator.h:90-95). [None]: the
      callback is out of the array's bounds, or does not move downwards. *)
  Definition replay_event (arr : list D) (e : event) : option (list D) :=
    match e with
    | EvSetNum n => if 0 <=? n then Some (resize arr n d) else None
    | EvMove s e t => if t <? s then memmove arr t s (e - s) else None
    end.

  Fixpoint replay (arr : list D) (log : list event) : option (list D) :=
    match log with
    | [] => Some arr
    | e :: log' => arr' <- replay_event arr e ;; replay arr' log'
    end.

  (** Moving elements one by one in ascending order, [n] of them from [s] to [t]. *)
  Fixpoint copy_ascending (arr : list D) (t s : Z) (n : nat) : option (list D) :=
    match n with
    | O => Some arr
    | S n' => arr' <- copy_ascending arr t s n' ;;
              x <- getz arr' (s + Z.of_nat n') ;;
              setz arr' (t + Z.of_nat n') x
    end.

  (** The elements of the block [i, i+n). *)
  Definition slice (arr : list D) (i n : Z) : list D :=
    firstn (Z.to_nat n) (skipn (Z.to_nat i) arr).
End Client.

(** Where a block start goes under the callbacks. *)
Definition move_start (e : event) (i : Z) : Z :=
  match e with
  | EvSetNum _ => i
  | EvMove s e t => if (s <=? i) && (i <? e) then i - s + t else i
  end.
Definition follow (log : list event) (i : Z) : Z := fold_left (fun i e => move_start e i) log i.

Inductive aop := AAlloc (n : Z) | AFree (i : Z) | ADefrag.

(** A client history: allocator, live blocks (start, size), all callbacks so far. *)
Record world := { w_alloc : alloc_state; w_live : list (Z * Z); w_log : list event }.
Definition world_init := {| w_alloc := alloc_init; w_live := []; w_log := [] |}.

Definition is_start (live : list (Z * Z)) (i : Z) : bool :=
  existsb (fun b => fst b =? i) live.

(** One client call. Calls that break the documented preconditions (allocating a
    non-positive count, freeing something that is not a live block) are skipped:
    a correct client does not make them. [None]: the allocator failed. *)
Definition wstep (w : world) (o : aop) : option world :=
  match o with
  | AAlloc n =>
      if 0 <? n then
        r <- alloc (w_alloc w) n ;;
        let '(s, i, ev) := r in
        Some {| w_alloc := s; w_live := (i, n) :: w_live w; w_log := w_log w ++ ev |}
      else Some w
  | AFree i =>
      if is_start (w_live w) i then
        s <- free (w_alloc w) i ;;
        Some {| w_alloc := s;
                w_live := filter (fun b => negb (fst b =? i)) (w_live w);
                w_log := w_log w |}
      else Some w
  | ADefrag =>
      r <- defragment (w_alloc w) ;;
      let '(s, ev) := r in
      Some {| w_alloc := s;
              w_live := map (fun b => (follow ev (fst b), snd b)) (w_live w);
              w_log := w_log w ++ ev |}
  end.

Fixpoint wrun (w : world) (ops : list aop) : option world :=
  match ops with [] => Some w | o :: ops' => w' <- wstep w o ;; wrun w' ops' end.

(** Reachable by some history of client calls. *)
Definition reachable (w : world) : Prop := exists ops, wrun world_init ops = Some w.

(** Total size of the live blocks. *)
Definition live_total (live : list (Z * Z)) : Z := fold_right (fun b a => snd b + a) 0 live.

(** Two blocks share no index. *)
Definition disjoint (a b : Z * Z) : Prop := fst a + snd a <= fst b \/ fst b + snd b <= fst a.

(** A hole: a freed block of [k] indices starting at [u]. *)
Definition hole (s : alloc_state) (u k : Z) : Prop :=
  In u (unused s) /\ count_for_index (counts s) u = Some k.

(** Block [b] is live as far as the allocator's query functions can tell:
    ValidIndex, CountForIndex and num_indices. *)
Definition present (s : alloc_state) (b : Z * Z) : Prop :=
  valid_index s (fst b) = true /\ count_for_index (counts s) (fst b) = Some (snd b) /\
  0 <= fst b /\ 0 < snd b /\ fst b + snd b <= num_indices s.
