(** C43: ownership of the splines of the spline processor. *)
From Verif Require Import Base BaseFacts IndexAllocatorModel IndexAllocatorSpec SplinePoolModel SplinePoolProofs.
Local Open Scope Z_scope.

(** How often an address occurs as the spline owned by an index (any index, in use or
    not) or in the pool. *)
Definition owners (s : pstate) (a : Z) : nat :=
  count_occ Z.eq_dec (locals (ps_cells s) ++ pool (ps_heap s)) a.

(** After any history, every spline the processor ever created is owned by exactly one
    index or is in the pool once, not both, and a spline of the caller's is never owned
    by an index nor in the pool. *)
Theorem C43_ownership ops s a o : prun ps_init ops = Some s ->
  getz (splines (ps_heap s)) a = Some o ->
  owners s a = if by_processor o then 1%nat else 0%nat.
Proof.
  intros E Eo. destruct (prun_ok ops _ _ _ ps_init_ok E) as (bs & I & _).
  pose proof (pi_own _ _ I a) as H. unfold made in H. rewrite Eo in H. exact H.
Qed.

(** What an index plays is a spline that exists; if the processor made it, then it is
    that index's own spline, no other index's, and not in the pool. *)
Theorem C43_playing ops s i c a : prun ps_init ops = Some s ->
  getz (ps_cells s) i = Some c -> source c = Some a ->
  exists o, getz (splines (ps_heap s)) a = Some o /\
    (by_processor o = true -> local c = Some a /\ ~ In a (pool (ps_heap s)) /\
       forall j c', getz (ps_cells s) j = Some c' -> source c' = Some a -> j = i).
Proof.
  intros E Ec Es. destruct (prun_ok ops _ _ _ ps_init_ok E) as (bs & I & _).
  pose proof (pi_good _ _ I) as Hg.
  assert (Own : forall j c' a', getz (ps_cells s) j = Some c' -> source c' = Some a' ->
     exists o, getz (splines (ps_heap s)) a' = Some o /\ (by_processor o = true -> local c' = Some a')).
  { intros j c' a' Ej Es'. rewrite Forall_forall in Hg. apply (Hg c'); [|exact Es'].
    apply getz_split in Ej as (X & Y & -> & _). apply in_elt. }
  destruct (Own i c a Ec Es) as (o & Eo & Hl). exists o. split; [exact Eo|]. intros B. split; [auto|].
  pose proof (pi_own _ _ I a) as Hc. unfold made in Hc. rewrite Eo, B, cnt_app in Hc.
  apply getz_split in Ec as (X & Y & EX & LX).
  assert (Hsplit : cnt (locals (ps_cells s)) a = (1 + cnt (locals X) a + cnt (locals Y) a)%nat).
  { rewrite EX, locals_app, cnt_app. change (locals (c :: Y)) with (lo c ++ locals Y).
    rewrite cnt_app. unfold lo. rewrite (Hl B), cnt_cons, cnt_nil. destruct (Z.eq_dec a a); [lia|congruence]. }
  split.
  { intros Hp. apply cnt_in in Hp. lia. }
  intros j c' Ej Es'. destruct (Own j c' a Ej Es') as (o' & Eo' & Hl').
  rewrite Eo in Eo'. injection Eo' as <-. specialize (Hl' B).
  assert (Hin : forall l, In c' l -> (0 < cnt (locals l) a)%nat).
  { intros l Hi. apply cnt_in. unfold locals. apply in_flat_map. exists c'. rewrite Hl'. split; [exact Hi|now left]. }
  rewrite EX in Ej. destruct (Z_lt_ge_dec j (len X)) as [Lt|Ge].
  - rewrite getz_app1 in Ej by lia. apply getz_split in Ej as (X1 & Y1 & EX1 & _).
    assert (0 < cnt (locals X) a)%nat by (apply Hin; rewrite EX1; apply in_elt). lia.
  - rewrite getz_app2 in Ej by lia. destruct (Z.eq_dec j (len X)) as [->|N]; [exact LX|].
    replace (j - len X) with (1 + (j - len X - 1)) in Ej by lia.
    assert (Ej' : getz Y (j - len X - 1) = Some c').
    { change (c :: Y) with ([c] ++ Y) in Ej. rewrite getz_app2 in Ej by (change (len [c]) with 1; lia).
      change (len [c]) with 1 in Ej. rewrite <- Ej. f_equal. lia. }
    apply getz_split in Ej' as (X1 & Y1 & EX1 & _).
    assert (0 < cnt (locals Y) a)%nat by (apply Hin; rewrite EX1; apply in_elt). lia.
Qed.

(** Two indices never own the same spline. *)
Theorem C43_one_owner ops s i j ci cj a : prun ps_init ops = Some s ->
  getz (ps_cells s) i = Some ci -> getz (ps_cells s) j = Some cj ->
  local ci = Some a -> local cj = Some a -> i = j.
Proof.
  intros E Ei Ej Li Lj. destruct (prun_ok ops _ _ _ ps_init_ok E) as (bs & I & _).
  pose proof (pi_own _ _ I a) as Hc. rewrite cnt_app in Hc.
  assert (Hin : forall l c, In c l -> local c = Some a -> (0 < cnt (locals l) a)%nat).
  { intros l c Hi Hl. apply cnt_in. unfold locals. apply in_flat_map. exists c. rewrite Hl. split; [exact Hi|now left]. }
  assert (Hm : (made (ps_heap s) a <= 1)%nat).
  { unfold made. destruct (getz _ a) as [[[] ?]|]; cbn; lia. }
  assert (G : forall i' j' c c', i' < j' -> getz (ps_cells s) i' = Some c -> getz (ps_cells s) j' = Some c' ->
     local c = Some a -> local c' = Some a -> False).
  { intros i' j' c c' Lt E1 E2 L1 L2. pose proof (getz_Some _ _ _ E1).
    apply getz_split in E2 as (X & Y & EX & LX). rewrite EX in E1. rewrite getz_app1 in E1 by lia.
    apply getz_split in E1 as (X1 & Y1 & EX1 & _).
    assert (0 < cnt (locals X) a)%nat by (apply (Hin X c); [rewrite EX1; apply in_elt|exact L1]).
    assert (0 < cnt (locals (c' :: Y)) a)%nat by (apply (Hin (c' :: Y) c'); [now left|exact L2]).
    rewrite EX, locals_app, cnt_app in Hc. lia. }
  destruct (Z.lt_total i j) as [Lt|[->|Lt]]; [exfalso; eauto|reflexivity|exfalso; eauto].
Qed.

(** If every spline of the caller's has room for at least four nodes, no call ever
    fails except cloning a motivator with a dimension that has no spline.
    (Missing from "never fails": those two cases; both are refuted below.) *)
Theorem C43_no_failure_partial ops s o :
  (forall n, In (PUser n) ops -> 4 <= n) ->
  prun ps_init ops = Some s -> pstep s o = None ->
  exists i n, o = PClone i /\ In (i, n) (ps_live s) /\
    exists c, In c (slice (ps_cells s) i n) /\ source c = None.
Proof.
  intros Hu E En. destruct (prun_ok ops _ _ _ ps_init_ok E) as (bs & I & _ & C).
  apply (pstep_total s bs o I); [|exact En]. apply C; [lia| |constructor].
  apply Forall_forall. intros x Hx. destruct x; cbn; auto.
Qed.

(** Cloning a motivator that has never been given a spline or a target dereferences null. *)
Theorem C43_clone_without_spline_refuted :
  ~ (forall ops, (forall n, In (PUser n) ops -> 4 <= n) -> prun ps_init ops <> None).
Proof.
  intros H. apply (H [PInit 1; PClone 0]); [|reflexivity].
  intros n [X|[X|[]]]; discriminate.
Qed.

(** SetTarget on a clone overruns the clone's spline when the spline cloned was the
    caller's and had little room: the local spline is reused without checking its size.
    (Here: capacity two, as Finalize makes for a two-node spline, and a target of two
    nodes, both later than now.) *)
Theorem C44_target_on_clone_refuted :
  ~ (forall ops, (forall i, In (PClone i) ops -> exists l, In (PSplines i (Some l)) ops) ->
       prun ps_init ops <> None).
Proof.
  intros H. apply (H [PUser 2; PInit 1; PSplines 0 (Some [0]); PClone 0; PAssign 1 [ATarget 2 false]]); [|reflexivity].
  intros i [X|[X|[X|[X|[X|[]]]]]]; try discriminate. injection X as <-. exists [0]. cbn. auto.
Qed.

(** The destructor (spline_processor.cpp:29-33) destroys what is in the pool. Splines of
    motivators that still exist are not in it, and the base class's destructor removes
    those motivators without notifying the derived class (processor.cpp:97-110), so they
    are never destroyed. *)
Theorem C43_all_destroyed_refuted :
  ~ (forall ops s a o, prun ps_init ops = Some s -> getz (splines (ps_heap s)) a = Some o ->
       by_processor o = true -> In a (pool (ps_heap s))).
Proof.
  intros H. destruct (prun ps_init [PInit 1; PAssign 0 [ATarget 1 true]]) as [s|] eqn:E; [|discriminate].
  specialize (H _ s 0 (Obj true 7) E). vm_compute in E. injection E as <-.
  exact (H eq_refl eq_refl).
Qed.

(** A history with pooling, reuse, cloning and a move: three motivators, the caller's
    splines 0 and 1. *)
Definition pool_demo : list pop :=
  [PUser 9; PUser 4; PInit 2; PInit 1; PAssign 0 [ATarget 2 true; ASpline 1]; PAssign 2 [ATarget 3 false];
   PClone 0; PRemove 0; PFrame; PSplines 0 (Some [0])].
Example C43_case : exists s, prun ps_init pool_demo = Some s /\
  locals (ps_cells s) <> [] /\ pool (ps_heap s) <> [] /\ len (splines (ps_heap s)) = 6.
Proof.
  eexists. split; [vm_compute; reflexivity|]. repeat split; try discriminate.
Qed.

Print Assumptions C43_ownership.
Print Assumptions C43_playing.
Print Assumptions C43_no_failure_partial.
