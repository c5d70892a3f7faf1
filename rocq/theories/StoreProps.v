(** C91: the arrays of the simple, overshoot and spline processors follow the allocator.
    ProcessorModel.v has one cell per index; here the cells of the processors written on
    SimpleProcessorTemplate are the pairs (data_[i], values_[i]), and those of the spline
    evaluator its slots, and the callbacks they implement are the ones used there. *)
From Verif Require Import RBase BaseFacts IndexAllocatorModel IndexAllocatorSpec IndexAllocatorLemmas IndexAllocatorProps ProcessorModel RangeModel CurveModel CompactSplineModel OvershootModel SimpleModel.
From Verif Require EvaluatorModel.

Section Zip.
Context {A B : Type}.
Local Open Scope Z_scope.
Lemma getz_combine (a : list A) (b : list B) i : getz (combine a b) i = match getz a i, getz b i with Some x, Some y => Some (x, y) | _, _ => None end.
Proof.
  unfold getz. destruct (i <? 0); [reflexivity|]. generalize (Z.to_nat i). clear i. revert b. induction a as [|x a IH]; intros [|y b] [|n]; cbn; try reflexivity.
  - destruct (nth_error a n); reflexivity.
  - apply IH.
Qed.
Lemma len_combine (a : list A) (b : list B) : len a = len b -> len (combine a b) = len a.
Proof. unfold len. intros E. rewrite combine_length. lia. Qed.
Lemma setz_combine (a : list A) (b : list B) i x y : len a = len b ->
  setz (combine a b) i (x, y) = match setz a i x, setz b i y with Some a', Some b' => Some (combine a' b') | _, _ => None end.
Proof.
  intros L. destruct ((0 <=? i) && (i <? len a)) eqn:I.
  - destruct (setz_Some a i x) as [a' EA]; [lia|]. destruct (setz_Some b i y) as [b' EB]; [lia|]. destruct (setz_Some (combine a b) i (x, y)) as [c EC]; [rewrite len_combine; lia|].
    rewrite EA, EB, EC. f_equal. apply getz_ext. intros j. rewrite getz_combine. destruct (Z.eq_dec j i) as [->|N].
    + rewrite (getz_setz_eq _ _ _ _ EC), (getz_setz_eq _ _ _ _ EA), (getz_setz_eq _ _ _ _ EB). reflexivity.
    + rewrite (getz_setz_neq _ _ _ _ _ EC N), (getz_setz_neq _ _ _ _ _ EA N), (getz_setz_neq _ _ _ _ _ EB N). apply getz_combine.
  - unfold setz. rewrite I. replace (len (combine a b)) with (len a) by (symmetry; apply len_combine; exact L). rewrite I. reflexivity.
Qed.
Lemma resize_combine (a : list A) (b : list B) n x y : len a = len b -> combine (resize a n x) (resize b n y) = resize (combine a b) n (x, y).
Proof.
  intros L. assert (E : length a = length b) by (unfold len in L; lia). unfold resize. rewrite combine_length, <- E, Nat.min_id. generalize (Z.to_nat n). clear L n. revert b E.
  induction a as [|u a IH]; intros [|v b] E n; try discriminate; cbn [length Nat.sub firstn combine].
  - rewrite !firstn_nil. cbn [app]. generalize (n - 0)%nat. induction n0 as [|m IHm]; [reflexivity|]. cbn. now rewrite IHm.
  - destruct n as [|n]; [reflexivity|]. cbn [firstn app combine Nat.sub]. f_equal. apply IH. cbn in E. congruence.
Qed.
End Zip.

(** The copy of one element after the other, from the first on. *)
Lemma copy_first {D} : forall n (l : list D) t s, copy_ascending l t s (S n) = (x <- getz l s ;; l' <- setz l t x ;; copy_ascending l' (t + 1) (s + 1) n).
Proof.
  induction n as [|n IH]; intros l t s.
  - cbn [copy_ascending]. rewrite !Z.add_0_r. destruct (getz l s) as [x|]; [|reflexivity]. destruct (setz l t x); reflexivity.
  - change (copy_ascending l t s (S (S n))) with (l' <- copy_ascending l t s (S n) ;; x <- getz l' (s + Z.of_nat (S n)) ;; setz l' (t + Z.of_nat (S n)) x). rewrite IH. destruct (getz l s) as [x|]; [|reflexivity]. destruct (setz l t x) as [l'|]; [|reflexivity].
    cbn [copy_ascending]. destruct (copy_ascending l' (t + 1) (s + 1) n) as [l2|]; [|reflexivity]. replace (s + Z.of_nat (S n))%Z with (s + 1 + Z.of_nat n)%Z by lia. replace (t + Z.of_nat (S n))%Z with (t + 1 + Z.of_nat n)%Z by lia. reflexivity.
Qed.
Lemma fill_first {D} : forall n (l : list D) i f, fill l i f (S n) = (l' <- setz l i (f 0%Z) ;; fill l' (i + 1) (fun k => f (k + 1)%Z) n).
Proof.
  induction n as [|n IH]; intros l i f.
  - cbn [fill]. change (Z.of_nat 0) with 0%Z. rewrite Z.add_0_r. destruct (setz l i (f 0%Z)); reflexivity.
  - change (fill l i f (S (S n))) with (l' <- fill l i f (S n) ;; setz l' (i + Z.of_nat (S n)) (f (Z.of_nat (S n)))). rewrite IH. destruct (setz l i (f 0%Z)) as [l'|]; [|reflexivity].
    cbn [fill]. destruct (fill l' (i + 1) (fun k => f (k + 1)%Z) n) as [l2|]; [|reflexivity]. replace (i + Z.of_nat (S n))%Z with (i + 1 + Z.of_nat n)%Z by lia. replace (Z.of_nat n + 1)%Z with (Z.of_nat (S n)) by lia. reflexivity.
Qed.

Section Simple.
Context {T : Type} (k : simple_class T) (dflt : T) (make : simple_init -> Z -> option T).
Definition cells (p : sproc T) : list (T * R) := combine (data_ p) (values_ p).
Definition even (p : sproc T) : Prop := len (data_ p) = len (values_ p).
(** The outcome as cells, with the arrays still of one length. *)
Definition outcome (o : option (sproc T)) (c : option (list (T * R))) : Prop :=
  match o, c with Some p, Some l => cells p = l /\ even p | None, None => True | _, _ => False end.

Lemma write_cells p i d v : even p -> outcome (write_index p i d v) (setz (cells p) i (d, v)).
Proof.
  intros E. unfold write_index, cells. rewrite (setz_combine _ _ i d v E). unfold even in *. destruct (setz (data_ p) i d) as [ds|] eqn:ED; [|exact I].
  destruct (setz (values_ p) i v) as [vs|] eqn:EV; [|exact I]. cbn. split; [reflexivity|]. unfold even. cbn. rewrite (setz_len _ _ _ _ ED), (setz_len _ _ _ _ EV). exact E.
Qed.

(** MoveIndices, RemoveIndices and SetNumIndices act on the pairs as ProcessorModel.v says. *)
Theorem C91_move : forall n old new p, even p -> outcome (s_move old new n p) (copy_ascending (cells p) new old n).
Proof.
  intros n old new. assert (G : forall n (i : Z) p, even p -> outcome (for_dims (fun i p => d <- getz (data_ p) (old + i) ;; v <- getz (values_ p) (old + i) ;; write_index p (new + i) d v) i n p) (copy_ascending (cells p) (new + i) (old + i) n)).
  { induction n0 as [|m IH]; intros i p E; [cbn; split; [reflexivity|exact E]|]. cbn [for_dims]. rewrite copy_first. unfold cells at 1. rewrite getz_combine.
    destruct (getz (data_ p) (old + i)) as [d|]; [|exact I]. destruct (getz (values_ p) (old + i)) as [v|]; [|exact I]. pose proof (write_cells p (new + i) d v E) as W.
    destruct (write_index p (new + i) d v) as [p'|]; destruct (setz (cells p) (new + i) (d, v)) as [l|]; try contradiction; [|exact I]. destruct W as [<- E']. replace (new + i + 1)%Z with (new + (i + 1))%Z by lia. replace (old + i + 1)%Z with (old + (i + 1))%Z by lia. now apply IH. }
  intros p E. specialize (G n 0%Z p E). rewrite !Z.add_0_r in G. exact G.
Qed.
Theorem C91_remove : forall n index p, even p -> outcome (s_remove dflt index n p) (fill (cells p) index (fun _ => (dflt, 0)) n).
Proof.
  intros n index. assert (G : forall n (i : Z) p, even p -> outcome (for_dims (fun i p => write_index p (index + i) dflt 0) i n p) (fill (cells p) (index + i) (fun _ => (dflt, 0)) n)).
  { induction n0 as [|m IH]; intros i p E; [cbn; split; [reflexivity|exact E]|]. cbn [for_dims]. rewrite fill_first. pose proof (write_cells p (index + i) dflt 0 E) as W.
    destruct (write_index p (index + i) dflt 0) as [p'|]; destruct (setz (cells p) (index + i) (dflt, 0)) as [l|]; try contradiction; [|exact I]. destruct W as [<- E']. replace (index + i + 1)%Z with (index + (i + 1))%Z by lia. now apply IH. }
  intros p E. specialize (G n 0%Z p E). rewrite Z.add_0_r in G. exact G.
Qed.
Theorem C91_set_num_indices : forall p n, even p -> cells (s_set_num_indices dflt p n) = resize (cells p) n (dflt, 0) /\ even (s_set_num_indices dflt p n).
Proof.
  intros p n E. unfold cells, s_set_num_indices. cbn [data_ values_]. split; [now apply resize_combine|]. unfold even, resize, len in *. cbn [data_ values_]. rewrite !app_length, !firstn_length, !repeat_length. lia.
Qed.
(** InitializeIndices writes what the parameters say for dimension [j] into the index of
    dimension [j], and nothing else. *)
Theorem C91_initialize : forall init cell n index p, even p ->
  (forall j, (0 <= j < Z.of_nat n)%Z -> exists d v, make init j = Some d /\ deref (start_values init) j = Some v /\ cell j = (d, v)) ->
  outcome (s_initialize make init index n p) (fill (cells p) index cell n).
Proof.
  intros init cell n index. assert (G : forall m (i : Z) p, even p -> (forall j, (i <= j < i + Z.of_nat m)%Z -> exists d v, make init j = Some d /\ deref (start_values init) j = Some v /\ cell j = (d, v)) ->
    outcome (for_dims (fun i p => d <- make init i ;; v <- deref (start_values init) i ;; write_index p (i + index) d v) i m p) (fill (cells p) (i + index) (fun j => cell (j + i)%Z) m)).
  { induction m as [|m IH]; intros i p E H; [cbn; split; [reflexivity|exact E]|]. cbn [for_dims]. rewrite fill_first. destruct (H i ltac:(lia)) as (d & v & M & D & C). rewrite M, D. rewrite Z.add_0_l, C. pose proof (write_cells p (i + index) d v E) as W.
    destruct (write_index p (i + index) d v) as [p'|]; destruct (setz (cells p) (i + index) (d, v)) as [l|]; try contradiction; [|exact I]. destruct W as [<- E']. replace (i + index + 1)%Z with (i + 1 + index)%Z by lia.
    assert (FE : forall m (l : list (T * R)) j f g, (forall x, f x = g x) -> fill l j f m = fill l j g m) by (clear; induction m as [|m IH]; intros l j f g H; cbn [fill]; [reflexivity|rewrite (IH l j f g H), H; reflexivity]).
    rewrite (FE m (cells p') _ (fun k0 => cell (k0 + 1 + i)%Z) (fun j => cell (j + (i + 1))%Z)) by (intros x; f_equal; lia). apply IH; [exact E'|]. intros j J. apply H. lia. }
  intros p E H. specialize (G n 0%Z p E). cbn [Z.add] in G. assert (FE : forall m (l : list (T * R)) j f g, (forall x, f x = g x) -> fill l j f m = fill l j g m) by (clear; induction m as [|m IH]; intros l j f g H; cbn [fill]; [reflexivity|rewrite (IH l j f g H), H; reflexivity]).
  rewrite (FE n (cells p) index cell (fun j => cell (j + 0)%Z)) by (intros x; f_equal; lia). apply G. intros j J. apply H. lia.
Qed.

(** The callbacks of the allocator, as the processor executes them (processor.cpp:186-220
    calls SetNumIndices and MoveIndices). *)
Definition s_event (p : sproc T) (e : event) : option (sproc T) :=
  match e with EvSetNum n => Some (s_set_num_indices dflt p n) | EvMove s e t => s_move s t (Z.to_nat (e - s)) p end.
Fixpoint s_events (p : sproc T) (l : list event) : option (sproc T) :=
  match l with [] => Some p | e :: l' => p' <- s_event p e ;; s_events p' l' end.
Lemma events_replay : forall log p arr, even p -> replay (dflt, 0) (cells p) log = Some arr -> exists p', s_events p log = Some p' /\ even p' /\ cells p' = arr.
Proof.
  induction log as [|e log IH]; intros p arr E H; cbn [replay s_events] in *; [injection H as <-; eauto|].
  destruct (replay_event (dflt, 0) (cells p) e) as [a|] eqn:RE; [|discriminate]. destruct e as [n|s e t].
  - unfold replay_event in RE. destruct (0 <=? n)%Z in RE; [|discriminate]. injection RE as <-. destruct (C91_set_num_indices p n E) as [C E']. cbn [s_event]. apply IH; [exact E'|]. rewrite C. exact H.
  - pose proof (C06_ascending_moves_are_safe _ _ _ _ _ _ _ RE) as CA. pose proof (C91_move (Z.to_nat (e - s)) s t p E) as M. rewrite CA in M. cbn [s_event]. destruct (s_move s t (Z.to_nat (e - s)) p) as [p'|]; [|contradiction]. destruct M as [<- E']. now apply IH.
Qed.

(** Whatever was allocated and freed before, Defragment's callbacks succeed and every
    motivator's data and values are at its new index, in order, the arrays as long as the
    allocator says. *)
Theorem C91_defragment : forall w p, reachable w -> even p -> len (cells p) = num_indices (w_alloc w) ->
  exists s log p', defragment (w_alloc w) = Some (s, log) /\ s_events p log = Some p' /\ even p' /\ len (data_ p') = num_indices s /\
    Forall (fun b => slice (cells p') (follow log (fst b)) (snd b) = slice (cells p) (fst b) (snd b)) (w_live w).
Proof.
  intros w p RW E L. destruct (C05_defragment_carries_data _ (dflt, 0) w (cells p) RW L) as (s & log & arr & D & RP & LA & _ & F). destruct (events_replay log p arr E RP) as (p' & SE & E' & <-).
  exists s, log, p'. rewrite <- LA. repeat split; auto. symmetry. unfold cells. now apply len_combine.
Qed.
(** The same for a block that is allocated. *)
Theorem C91_allocate : forall w n p, reachable w -> (0 < n)%Z -> even p -> len (cells p) = num_indices (w_alloc w) ->
  exists s i log p', alloc (w_alloc w) n = Some (s, i, log) /\ s_events p log = Some p' /\ even p' /\ len (data_ p') = num_indices s /\
    Forall (fun b => slice (cells p') (fst b) (snd b) = slice (cells p) (fst b) (snd b)) (w_live w).
Proof.
  intros w n p RW N E L. destruct (C02_alloc_fresh_and_frames _ (dflt, 0) w n (cells p) RW N L) as (s & i & log & arr & D & _ & _ & _ & RP & LA & F). destruct (events_replay log p arr E RP) as (p' & SE & E' & <-).
  exists s, i, log, p'. rewrite <- LA. repeat split; auto. symmetry. unfold cells. now apply len_combine.
Qed.

(** What a motivator is told about itself depends on its own cells only. *)
Theorem C91_queries_own : forall p p' index index' n, even p -> even p' ->
  (forall i, (0 <= i < Z.of_nat n)%Z -> getz (cells p) (index + i) = getz (cells p') (index' + i)) ->
  (forall i, (0 <= i < Z.of_nat n)%Z -> s_values p index i = s_values p' index' i) /\
  s_velocities k p index n = s_velocities k p' index' n /\ s_target_values k p index n = s_target_values k p' index' n /\
  s_target_velocities k p index n = s_target_velocities k p' index' n /\ s_differences k p index n = s_differences k p' index' n /\
  s_target_time k p index n = s_target_time k p' index' n.
Proof.
  intros p p' index index' n E E' H.
  assert (C : forall p i, even p -> getz (data_ p) i = (c <- getz (cells p) i ;; Some (fst c)) /\ getz (values_ p) i = (c <- getz (cells p) i ;; Some (snd c))).
  { clear. intros p i E. unfold cells, even in *. rewrite getz_combine. destruct (Z_lt_dec i 0) as [N|N]; [rewrite !getz_None by lia; split; reflexivity|]. destruct (Z_lt_dec i (len (data_ p))) as [M|M].
    - destruct (getz_in_range (data_ p) i ltac:(lia)) as [x ->]. destruct (getz_in_range (values_ p) i ltac:(lia)) as [y ->]. split; reflexivity.
    - rewrite !getz_None by lia. split; reflexivity. }
  assert (G : forall A (f g : Z -> option A) m i, (forall j, (i <= j < i + Z.of_nat m)%Z -> f j = g j) -> gather f i m = gather g i m).
  { clear. induction m as [|m IH]; intros i H; [reflexivity|]. cbn [gather]. rewrite (H i) by lia. rewrite (IH (i + 1)%Z) by (intros; apply H; lia). reflexivity. }
  assert (F : forall f, gather_floats p index n f = gather_floats p' index' n f).
  { intros f. unfold gather_floats, data_at. apply G. intros j J. destruct (C p (index + j)%Z E) as [-> ->]. destruct (C p' (index' + j)%Z E') as [-> ->]. rewrite H by lia. reflexivity. }
  split; [|split; [apply F|split; [apply F|split; [apply F|split; [apply F|]]]]].
  - intros i I. unfold s_values. destruct (C p (index + i)%Z E) as [_ ->]. destruct (C p' (index' + i)%Z E') as [_ ->]. now rewrite H.
  - unfold s_target_time, data_at. rewrite (G _ _ (fun i => d <- getz (data_ p') (index' + i) ;; k_target_time k d)); [reflexivity|]. intros j J. destruct (C p (index + j)%Z E) as [-> _]. destruct (C p' (index' + j)%Z E') as [-> _]. rewrite H by lia. reflexivity.
Qed.
End Simple.
Print Assumptions C91_defragment.
Print Assumptions C91_allocate.
Print Assumptions C91_initialize.
Print Assumptions C91_remove.
Print Assumptions C91_queries_own.

(** The spline evaluator's MoveIndices and SetNumIndices are those of ProcessorModel.v too. *)
Theorem C91_evaluator : forall ev old new n,
  EvaluatorModel.move_indices ev old new n = copy_ascending ev new old n /\ forall m, EvaluatorModel.set_num_indices ev m = resize ev m EvaluatorModel.slot_default.
Proof.
  intros ev old new n. split; [|reflexivity]. revert ev old new. induction n as [|n IH]; intros ev old new; [reflexivity|]. rewrite copy_first. cbn [EvaluatorModel.move_indices].
  destruct (getz ev old) as [s|]; [|reflexivity]. destruct (setz ev new s) as [ev'|]; [|reflexivity]. apply IH.
Qed.
Print Assumptions C91_evaluator.

(** The hypotheses are met by the fragmented world of demo_world and ten indices of a const
    processor. *)
Example C91_case : exists w (p p' : sproc R), reachable w /\ even p /\ len (cells p) = num_indices (w_alloc w) /\ w_live w = [(2, 2); (6, 4); (5, 1)]%Z /\
  s_initialize const_make (SimpleInit (Some [7; 8]) (Some [1; 2])) 2 2 p = Some p' /\ slice (cells p') 2 2 = [(1, 7); (2, 8)].
Proof.
  destruct demo_world as (w & _ & RW & LV & _ & _ & N). exists w, (SP (repeat 0 10) (repeat 0 10)). eexists. rewrite N. do 4 (split; [assumption || reflexivity|]). split; reflexivity.
Qed.
