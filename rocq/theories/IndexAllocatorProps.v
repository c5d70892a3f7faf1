(** Properties C01-C06 of the index allocator
    (include/motive/util/index_allocator.h).

    Vocabulary (IndexAllocatorSpec.v): [wrun] runs a client history of Alloc,
    Free and Defragment calls; [w_live] is the client's own record of the blocks
    it holds, relocated by following the MoveIndexRange callbacks; [replay] keeps a
    client array in step with the callbacks; [present] reads the allocator's query
    functions. *)
From Verif Require Import Base IndexAllocatorModel IndexAllocatorSpec IndexAllocatorLemmas.

(** C01: for every history of calls nothing fails, every live block is inside
    [0, num_indices) with the size it was requested with, and live blocks are
    pairwise disjoint. *)
Theorem C01_live_blocks_never_overlap : forall ops,
  exists w, wrun world_init ops = Some w /\
    Forall (present (w_alloc w)) (w_live w) /\ ForallOrdPairs disjoint (w_live w).
Proof. exact C01_proof. Qed.
Print Assumptions C01_live_blocks_never_overlap.

(** C02: Alloc hands out a fresh block of the requested size; other blocks keep
    start, size and (for any client array) contents. *)
Theorem C02_alloc_fresh_and_frames : forall (D : Type) (d : D) w n (arr : list D),
  reachable w -> 0 < n -> len arr = num_indices (w_alloc w) ->
  exists s i evs arr', alloc (w_alloc w) n = Some (s, i, evs) /\
    present s (i, n) /\ Forall (disjoint (i, n)) (w_live w) /\ Forall (present s) (w_live w) /\
    replay d arr evs = Some arr' /\ len arr' = num_indices s /\
    Forall (fun b => slice arr' (fst b) (snd b) = slice arr (fst b) (snd b)) (w_live w).
Proof. exact @alloc_frame. Qed.
Print Assumptions C02_alloc_fresh_and_frames.

(** C03: Alloc grows only if no hole is large enough, by exactly [n] at the end;
    otherwise it takes a hole of least sufficient size (an exact fit if any). *)
Theorem C03_alloc_recycles_best_fit : forall w n s i evs,
  reachable w -> 0 < n -> alloc (w_alloc w) n = Some (s, i, evs) ->
  ((exists u k, hole (w_alloc w) u k /\ n <= k) ->
      evs = [] /\ num_indices s = num_indices (w_alloc w) /\
      exists k, hole (w_alloc w) i k /\ n <= k /\
        forall u k', hole (w_alloc w) u k' -> n <= k' -> k <= k') /\
  ((forall u k, hole (w_alloc w) u k -> k < n) ->
      i = num_indices (w_alloc w) /\ num_indices s = num_indices (w_alloc w) + n /\
      evs = [EvSetNum (num_indices s)]).
Proof. exact C03_proof. Qed.
Print Assumptions C03_alloc_recycles_best_fit.

(** C04: Defragment terminates (the model's bound on its loop is never hit) and
    leaves exactly the live indices, each block keeping its size. *)
Theorem C04_defragment_terminates_dense : forall w, reachable w ->
  exists s log, defragment (w_alloc w) = Some (s, log) /\
    unused s = [] /\ num_indices s = live_total (w_live w) /\
    Forall (present s) (map (fun b => (follow log (fst b), snd b)) (w_live w)).
Proof.
  intros w H.
  destruct (defrag_all tt w (repeat tt (length (counts (w_alloc w)))) H) as (s & log & arr & E & H1 & H2 & H3 & _).
  - unfold num_indices, len. now rewrite repeat_length.
  - eauto 6.
Qed.
Print Assumptions C04_defragment_terminates_dense.

(** C05: the callbacks of Defragment move every live block's client data, in
    order, to the block's new place; new places are disjoint (one-to-one). *)
Theorem C05_defragment_carries_data : forall (D : Type) (d : D) w (arr : list D),
  reachable w -> len arr = num_indices (w_alloc w) ->
  exists s log arr', defragment (w_alloc w) = Some (s, log) /\
    replay d arr log = Some arr' /\ len arr' = num_indices s /\
    ForallOrdPairs disjoint (map (fun b => (follow log (fst b), snd b)) (w_live w)) /\
    Forall (fun b => slice arr' (follow log (fst b)) (snd b) = slice arr (fst b) (snd b)) (w_live w).
Proof.
  intros D d w arr H L. destruct (defrag_all d w arr H L) as (s & log & arr' & E & H1 & H2 & H3 & H4 & H5 & H6 & H7).
  eauto 10.
Qed.
Print Assumptions C05_defragment_carries_data.

(** C06: a client array driven by the callbacks alone always has num_indices
    elements; [replay] fails on a callback that is out of bounds or does not move
    downwards, so none ever is. *)
Theorem C06_client_array_in_step : forall (D : Type) (d : D) w, reachable w ->
  exists arr, replay d [] (w_log w) = Some arr /\ len arr = num_indices (w_alloc w).
Proof. exact @C06_proof. Qed.
Print Assumptions C06_client_array_in_step.

(** C06, second half: moving the elements one by one in ascending order has the
    same effect as the block move. *)
Theorem C06_ascending_moves_are_safe : forall (D : Type) (d : D) (arr arr' : list D) s e t,
  replay_event d arr (EvMove s e t) = Some arr' ->
  copy_ascending arr t s (Z.to_nat (e - s)) = Some arr'.
Proof. exact @replay_ascending. Qed.
Print Assumptions C06_ascending_moves_are_safe.

(** The hypotheses are met by fragmented states with several live blocks. *)
Definition demo_ops := [AAlloc 2; AAlloc 3; AAlloc 1; AAlloc 4; AFree 2; AAlloc 2; AFree 0].
Example demo_world : exists w, wrun world_init demo_ops = Some w /\ reachable w /\
  w_live w = [(2, 2); (6, 4); (5, 1)] /\ hole (w_alloc w) 4 1 /\ hole (w_alloc w) 0 2 /\
  num_indices (w_alloc w) = 10.
Proof.
  eexists. split; [vm_compute; reflexivity|].
  split; [exists demo_ops; vm_compute; reflexivity|].
  vm_compute. intuition.
Qed.
Example demo_defrag : forall w, wrun world_init demo_ops = Some w ->
  exists s, defragment (w_alloc w) = Some (s, [EvMove 5 6 0; EvMove 2 4 1; EvMove 6 10 3; EvSetNum 7]) /\
  replay 0 [10;11;12;13;14;15;16;17;18;19] [EvMove 5 6 0; EvMove 2 4 1; EvMove 6 10 3; EvSetNum 7]
    = Some [15; 12; 13; 16; 17; 18; 19].
Proof.
  intros w E. vm_compute in E. injection E as <-. eexists. split; vm_compute; reflexivity.
Qed.
