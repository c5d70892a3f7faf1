(** Properties C07-C13: motivators and their processors.

    [D] is the per-index data of the processors, [cls] says how each processor
    class moves and whether it clones.  [mrun] runs any sequence of calls from an
    empty engine; reaching [Some] means that no assert failed and no array was
    accessed out of bounds on the way. *)
From Verif Require Import Base IndexAllocatorModel IndexAllocatorSpec ProcessorModel ProcessorSpec ProcessorLemmas ProcessorOwn.
From Coq Require Import Permutation.

Section Props.
Context {D : Type} (dflt : D) (cls : nat -> pclass).
Notation run := (mrun dflt cls sys_init).
Notation step := (mstep dflt cls).

(** Every sequence of calls succeeds, and what the owners of motivators see is
    what the table of ProcessorSpec.v says. *)
Theorem motivators_refine_table : forall ops,
  exists S, run ops = Some S /\ forall h, view S h = arun cls (fun _ => None) ops h.
Proof. exact (refine_proof dflt cls). Qed.

(** C07: every motivator is sane (null, or known to its processor); the slots
    attributed to a valid motivator are exactly its Dimensions() consecutive
    slots; two motivators never share one. *)
Theorem C07_motivator_and_processor_agree : forall ops, exists S, run ops = Some S /\
  (forall h, sane S h = Some true) /\
  (forall h pid i, mots S h = Some (pid, i) -> exists p n,
     procs S pid = Some p /\ dimensions p i = Some n /\ 0 < n /\
     forall j, getz (p_bp p) j = Some (Some h) <-> i <= j < i + n) /\
  (forall h h' pid i i' p n n', h <> h' -> mots S h = Some (pid, i) -> mots S h' = Some (pid, i') ->
     procs S pid = Some p -> dimensions p i = Some n -> dimensions p i' = Some n' -> disjoint (i, n) (i', n')).
Proof. exact (C07_proof dflt cls). Qed.

(** C08: a call that does not name [h] does not change what [h] shows, except that
    a frame applies the per-cell update [f] to each cell of its own processor, and
    destroying its processor invalidates it.  With [f] the identity the frame is a
    pure Defragment. *)
Theorem C08_motivators_are_isolated : forall ops S o S' h,
  run ops = Some S -> step S o = Some S' -> ~ mentions o h ->
  view S' h = match o with
    | OFrame pid f => match view S h with
                      | Some (q, l) => Some (q, if Nat.eqb q pid then map f l else l)
                      | None => None end
    | ODestroy pid => match view S h with
                      | Some (q, l) => if Nat.eqb q pid then None else Some (q, l)
                      | None => None end
    | _ => view S h
    end.
Proof. exact (C08_proof dflt cls). Qed.

(** C09 *)
Theorem C09_move_transfers_identity : forall ops S dst src, run ops = Some S -> dst <> src ->
  exists S', step S (OMoveAssign dst src) = Some S' /\
    view S' dst = view S src /\ view S' src = None /\
    (forall h, h <> dst -> h <> src -> view S' h = view S h) /\
    (forall pid i p n j, mots S dst = Some (pid, i) -> procs S pid = Some p -> dimensions p i = Some n ->
       i <= j < i + n -> exists p', procs S' pid = Some p' /\ getz (p_bp p') j = Some None) /\
    (view S dst = None -> step S (OMoveConstruct dst src) = Some S').
Proof. exact (C09_proof dflt cls). Qed.

(** Assigning a motivator to itself invalidates it. *)
Theorem C09_self_move_invalidates : forall ops S h, run ops = Some S ->
  exists S', step S (OMoveAssign h h) = Some S' /\ view S' h = None /\
    forall h', h' <> h -> view S' h' = view S h'.
Proof. exact (C09_self_proof dflt cls). Qed.

(** C10 *)
Theorem C10_invalidate_is_clean_and_idempotent : forall ops S h, run ops = Some S ->
  exists S', step S (OInvalidate h) = Some S' /\ mots S' h = None /\
    step S' (OInvalidate h) = Some S' /\
    (forall h', h' <> h -> view S' h' = view S h') /\
    (forall pid p j, procs S' pid = Some p -> getz (p_bp p) j <> Some (Some h)) /\
    (forall pid i p, mots S h = Some (pid, i) -> procs S pid = Some p ->
       exists n p', dimensions p i = Some n /\ 0 < n /\ procs S' pid = Some p' /\ hole (p_alloc p') i n /\
         forall j, i <= j < i + n -> getz (p_bp p') j = Some None).
Proof. exact (C10_proof dflt cls). Qed.

(** C11 *)
Theorem C11_destroying_processor_resets_motivators : forall ops S pid, run ops = Some S ->
  exists S', step S (ODestroy pid) = Some S' /\ procs S' pid = None /\
    (forall h, mots S' h = match mots S h with
                           | Some (q, i) => if Nat.eqb q pid then None else Some (q, i)
                           | None => None end) /\
    (forall h q l, view S h = Some (q, l) -> q <> pid -> view S' h = Some (q, l)) /\
    (forall h i, mots S h = Some (pid, i) -> step S' (OInvalidate h) = Some S').
Proof. exact (C11_proof dflt cls). Qed.

(** C12: with C07 and C08 the clone lives in slots of its own and later calls on
    one do not affect the other. *)
Theorem C12_clones_are_equal_copies : forall ops S dst src, run ops = Some S ->
  exists S', step S (OClone dst src) = Some S' /\
    view S' dst = (if Nat.eqb dst src then None
                   else match view S src with
                        | Some (pid, l) => if k_clone (cls pid) then Some (pid, l) else None
                        | None => None end) /\
    forall h, h <> dst -> view S' h = view S h.
Proof. exact (C12_proof dflt cls). Qed.

(** C13: [hs] lists the live motivators of the processor, each once. *)
Theorem C13_frame_leaves_no_dead_slots : forall ops S pid f p, run ops = Some S -> procs S pid = Some p ->
  exists S' p' hs, step S (OFrame pid f) = Some S' /\ procs S' pid = Some p' /\
    NoDup hs /\ (forall h, In h hs <-> exists i, mots S' h = Some (pid, i)) /\
    num_indices (p_alloc p') = fold_right (fun h a => dims_of S' h + a) 0 hs.
Proof. exact (C13_proof dflt cls). Qed.

(** C76: a slot owned by a motivator holds exactly one cell of that motivator's
    data; for classes that swap or own their data every other slot is reset, and
    a frame neither drops nor duplicates any cell that is not reset ([kept]).  The last part speaks about the moment in Defragment when
    all moves are done and the array is not yet truncated: it is a permutation of
    the array before, so no datum sits in two slots (SetNumIndices of the derived
    classes compares against the already updated NumIndices() and so resets
    nothing itself). *)
Theorem C76_dead_slots_are_reset : forall ops S pid p, run ops = Some S -> procs S pid = Some p ->
  (forall j h, getz (p_bp p) j = Some (Some h) -> exists i l, mots S h = Some (pid, i) /\ view S h = Some (pid, l) /\
     getz (p_cells p) j = getz l (j - i) /\ getz l (j - i) <> None) /\
  (k_move (cls pid) <> MvCopy -> forall j, getz (p_bp p) j = Some None -> getz (p_cells p) j = Some dflt) /\
  (k_move (cls pid) <> MvCopy -> forall f, exists S' p' n kept,
     step S (OFrame pid f) = Some S' /\ procs S' pid = Some p' /\
     Permutation (p_cells p) (kept ++ repeat dflt n) /\ p_cells p' = map f kept) /\
  (k_move (cls pid) <> MvCopy -> forall fuel m1 p1, p_defrag_loop dflt fuel (cls pid) (mots S) pid p = Some (m1, p1) ->
     Permutation (p_cells p) (p_cells p1) /\ forall j, getz (p_bp p1) j = Some None -> getz (p_cells p1) j = Some dflt).
Proof. exact (C76_proof dflt cls). Qed.
End Props.

Print Assumptions motivators_refine_table.
Print Assumptions C07_motivator_and_processor_agree.
Print Assumptions C08_motivators_are_isolated.
Print Assumptions C09_move_transfers_identity.
Print Assumptions C09_self_move_invalidates.
Print Assumptions C10_invalidate_is_clean_and_idempotent.
Print Assumptions C11_destroying_processor_resets_motivators.
Print Assumptions C12_clones_are_equal_copies.
Print Assumptions C13_frame_leaves_no_dead_slots.
Print Assumptions C76_dead_slots_are_reset.

(** A concrete run: five motivators on two processors, with holes, a clone, a move
    and frames that have to move blocks. *)
Definition demo_cls (pid : nat) : pclass :=
  {| k_move := match pid with O => MvCopy | S O => MvSwap | _ => MvOwn end; k_clone := Nat.eqb pid 1 |}.
Definition demo_ops : list (mop Z) :=
  [ OInit 0 0 2 (fun k => 10 + k); OInit 1 0 3 (fun k => 20 + k); OInit 2 1 1 (fun k => 30 + k);
    OInit 3 1 2 (fun k => 40 + k); OClone 4 3; OInvalidate 0; OFrame 0 (fun x => x + 100);
    OMoveConstruct 0 1; OInvalidate 2; OWrite 3 1 7; OFrame 1 (fun x => x) ].
Example demo_runs : match mrun 0 demo_cls sys_init demo_ops with
  | Some s => (view s 0, view s 1, view s 2, view s 3, view s 4) =
     (Some (0%nat, [120; 121; 122]), None, None, Some (1%nat, [40; 7]), Some (1%nat, [40; 41]))
  | None => False end.
Proof. vm_compute. reflexivity. Qed.
(** The hypotheses of C09, C12 and C13 hold there with live motivators. *)
Example demo_hyps : match mrun 0 demo_cls sys_init demo_ops with
  | Some s => view s 3 <> None /\ view s 0 <> None /\ procs s 1 <> None
              /\ option_map (fun p => num_indices (p_alloc p)) (procs s 1) = Some 4
  | None => False end.
Proof. vm_compute. repeat split; discriminate. Qed.

(** C76: an owning processor with a live and two dead slots; the frame keeps the
    live cell and drops the two reset ones. *)
Definition own_ops : list (mop Z) := [ OInit 0 2 2 (fun k => 10 + k); OInit 1 2 1 (fun k => 20 + k); OInvalidate 0 ].
Example own_demo :
  match mrun 0 demo_cls sys_init own_ops with
  | Some s => option_map (fun p => (p_bp p, p_cells p)) (procs s 2) = Some ([None; None; Some 1%nat], [0; 0; 20])
  | None => False end /\
  match mrun 0 demo_cls sys_init (own_ops ++ [OFrame 2 (fun x => x)]) with
  | Some s => option_map (fun p => (p_bp p, p_cells p)) (procs s 2) = Some ([Some 1%nat], [20])
  | None => False end.
Proof. vm_compute. split; reflexivity. Qed.
Example own_demo_moves :
  match mrun 0 demo_cls sys_init own_ops with
  | Some s => match procs s 2 with
              | Some p => option_map (fun r => (p_bp (snd r), p_cells (snd r)))
                            (p_defrag_loop 0 9 (demo_cls 2) (mots s) 2 p) = Some ([Some 1%nat; None; None], [20; 0; 0])
              | None => False end
  | None => False end.
Proof. vm_compute. reflexivity. Qed.
