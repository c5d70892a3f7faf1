(** C40, C41, C42: calls on some indices leave the others alone; clearing; fresh
    indices. *)
From Verif Require Import RBase BaseFacts RangeModel RangeProofs CurveModel CurveProofs CompactSplineModel CompactSplineSpec CompactSplineProofs CompactSplineIndex CompactSplineEvalProps EvaluatorModel EvaluatorSpec EvaluatorProofs EvaluatorPlay EvaluatorProps.

(** The calls that change an evaluator. *)
Inductive op :=
| OpSetSplines (index : Z) (count : nat) (splines : option (list spline)) (p : playback)
| OpClearSplines (index : Z) (count : nat)
| OpSetXs (index : Z) (count : nat) (x : R)
| OpSetPlaybackRates (index : Z) (count : nat) (r : R)
| OpSetRepeating (index : Z) (count : nat) (b : bool)
| OpSetYRanges (index : Z) (count : nat) (r : range)
| OpMoveIndices (old_index new_index : Z) (count : nat)
| OpCopyIndices (dst src : Z) (count : nat) (alloc : Z -> option spline -> option spline)
| OpAdvanceFrame (delta : R).
Definition apply_op (ev : evaluator) (o : op) : option evaluator :=
  match o with
  | OpSetSplines i n s p => set_splines ev i n s p
  | OpClearSplines i n => clear_splines ev i n
  | OpSetXs i n x => set_xs ev i n x
  | OpSetPlaybackRates i n r => set_playback_rates ev i n r
  | OpSetRepeating i n b => set_repeating ev i n b
  | OpSetYRanges i n r => set_y_ranges ev i n r
  | OpMoveIndices o i n => move_indices ev o i n
  | OpCopyIndices d s n f => copy_indices ev d s n f
  | OpAdvanceFrame d => advance_frame d ev
  end.
Fixpoint apply_ops (ev : evaluator) (l : list op) : option evaluator :=
  match l with [] => Some ev | o :: l' => ev' <- apply_op ev o ;; apply_ops ev' l' end.
(** The indices that the call is about. *)
Definition touches (o : op) (j : Z) : Prop :=
  match o with
  | OpSetSplines i n _ _ | OpClearSplines i n | OpSetXs i n _ | OpSetPlaybackRates i n _ | OpSetRepeating i n _ | OpSetYRanges i n _
  | OpMoveIndices _ i n | OpCopyIndices i _ n _ => (i <= j < i + Z.of_nat n)%Z
  | OpAdvanceFrame _ => False
  end.
(** The frame times among the calls. *)
Fixpoint frame_times (l : list op) : list R :=
  match l with [] => [] | OpAdvanceFrame d :: l' => d :: frame_times l' | _ :: l' => frame_times l' end.

Lemma move_getz : forall count ev o i ev', move_indices ev o i count = Some ev' ->
  len ev' = len ev /\ forall j, ~ (i <= j < i + Z.of_nat count)%Z -> getz ev' j = getz ev j.
Proof.
  induction count as [|n IH]; intros ev o i ev' E; cbn [move_indices] in E; [injection E as <-; auto|].
  destruct (getz ev o) as [s|]; [|discriminate]. destruct (setz ev i s) as [ev1|] eqn:S; [|discriminate].
  destruct (IH _ _ _ _ E) as [L G]. split; [rewrite L; eapply setz_len; eauto|]. intros j J. rewrite G by lia. eapply getz_setz_neq; eauto. lia.
Qed.
Lemma copy_sources_getz alloc : forall count ev d s ev', copy_sources ev d s count alloc = Some ev' ->
  len ev' = len ev /\ forall j, ~ (d <= j < d + Z.of_nat count)%Z -> getz ev' j = getz ev j.
Proof.
  induction count as [|n IH]; intros ev d s ev' E; cbn [copy_sources] in E; [injection E as <-; auto|].
  destruct (getz ev s) as [t|]; [|discriminate]. destruct (modify ev d _) as [ev1|] eqn:S; [|discriminate]. destruct (modify_getz _ _ _ _ S) as (L1 & _ & G1).
  destruct (IH _ _ _ _ E) as [L G]. split; [lia|]. intros j J. rewrite G, G1 by lia. replace (j =? d)%Z with false by lia. reflexivity.
Qed.

Lemma apply_op_getz ev o ev' : apply_op ev o = Some ev' -> len ev' = len ev /\
  forall j, ~ touches o j -> getz ev' j = (s <- getz ev j ;; run_slot s (frame_times [o])).
Proof.
  intros E. assert (ID : forall j, getz ev j = (s <- getz ev j ;; Some s)) by (intros j; destruct (getz ev j); reflexivity).
  assert (MR : forall i n f ev', modify_range ev i n f = Some ev' -> len ev' = len ev /\ forall j, ~ (i <= j < i + Z.of_nat n)%Z -> getz ev' j = (s <- getz ev j ;; Some s)).
  { intros i n f ev1 M. destruct (modify_range_getz _ _ _ _ _ M) as (L & _ & G). split; [exact L|]. intros j J. rewrite G.
    replace ((i <=? j) && (j <? i + Z.of_nat n))%Z with false by lia. apply ID. }
  destruct o; cbn [apply_op touches frame_times run_slot] in *.
  - destruct splines as [l|]; cbn [set_splines] in E; [|eapply MR; exact E].
    destruct (set_each_getz _ _ _ _ _ _ E) as [L G]. split; [exact L|]. intros j J. rewrite G.
    replace ((index <=? j) && (j <? index + Z.of_nat count))%Z with false by lia. apply ID.
  - eapply MR; exact E.
  - eapply MR; exact E.
  - eapply MR; exact E.
  - eapply MR; exact E.
  - eapply MR; exact E.
  - destruct (move_getz _ _ _ _ _ E) as [L G]. split; [exact L|]. intros j J. rewrite G by exact J. apply ID.
  - unfold copy_indices in E. destruct (move_indices ev src dst count) as [ev1|] eqn:M; [|discriminate].
    destruct (move_getz _ _ _ _ _ M) as [L G]. destruct (copy_sources_getz _ _ _ _ _ _ E) as [L' G']. split; [lia|]. intros j J. rewrite G', G by exact J. apply ID.
  - destruct (advance_frame_getz _ _ _ E) as [L G]. split; [exact L|]. intros j _. rewrite G. destruct (getz ev j) as [s|]; [|reflexivity].
    destruct (advance_slot delta s); reflexivity.
Qed.
Lemma run_slot_app l : forall s l', run_slot s (l ++ l') = (t <- run_slot s l ;; run_slot t l').
Proof. induction l as [|d l IH]; intros s l'; cbn [app run_slot]; [reflexivity|]. destruct (advance_slot d s); [apply IH|reflexivity]. Qed.
Lemma frame_times_cons o l : frame_times (o :: l) = frame_times [o] ++ frame_times l.
Proof. destruct o; reflexivity. Qed.

(** After any sequence of calls an index that none of them is about is in the state
    it would be in after the AdvanceFrame calls alone, and the number of indices has
    not changed. *)
Theorem C40_independent : forall l ev ev' ev'' j, apply_ops ev l = Some ev' -> advance_frames ev (frame_times l) = Some ev'' ->
  (forall o, In o l -> ~ touches o j) -> getz ev' j = getz ev'' j /\ num_indices ev' = num_indices ev.
Proof.
  intros l ev ev' ev'' j E A T. destruct (advance_frames_getz _ _ _ A) as [_ G]. rewrite G. clear A G ev''. revert ev E.
  induction l as [|o l IH]; intros ev E; cbn [apply_ops] in E.
  - injection E as <-. split; [|reflexivity]. cbn. destruct (getz ev j); reflexivity.
  - destruct (apply_op ev o) as [ev1|] eqn:O; [|discriminate]. destruct (apply_op_getz _ _ _ O) as [L G].
    destruct (IH (fun o' I => T o' (or_intror I)) ev1 E) as [G' L']. split; [|unfold num_indices in *; lia].
    rewrite G', G by (apply T; left; reflexivity). rewrite (frame_times_cons o l). destruct (getz ev j) as [s|]; [|reflexivity].
    rewrite run_slot_app. destruct (run_slot s (frame_times [o])); reflexivity.
Qed.
Print Assumptions C40_independent.

(** AdvanceFrame on an index depends on that index only. *)
Theorem C40_advance : forall delta ev1 ev2 ev1' ev2' i j, advance_frame delta ev1 = Some ev1' -> advance_frame delta ev2 = Some ev2' ->
  getz ev1 i = getz ev2 j -> getz ev1' i = getz ev2' j.
Proof.
  intros delta ev1 ev2 ev1' ev2' i j A1 A2 G. destruct (advance_frame_getz _ _ _ A1) as [_ G1]. destruct (advance_frame_getz _ _ _ A2) as [_ G2].
  rewrite G1, G2, G. reflexivity.
Qed.
Print Assumptions C40_advance.

(** Moving takes along everything, if the ranges do not overlap or the move is
    downwards (as the index allocator does it). *)
Theorem C40_move : forall count ev o i ev' k, move_indices ev o i count = Some ev' -> (0 <= k < Z.of_nat count)%Z ->
  (i <= o \/ o + Z.of_nat count <= i)%Z -> getz ev' (i + k) = getz ev (o + k) /\ getz ev (o + k) <> None.
Proof.
  induction count as [|n IH]; intros ev o i ev' k E K D; [lia|]. cbn [move_indices] in E.
  destruct (getz ev o) as [s|] eqn:O; [|discriminate]. destruct (setz ev i s) as [ev1|] eqn:S; [|discriminate].
  destruct (Z.eq_dec k 0) as [->|N].
  - rewrite !Z.add_0_r, O. split; [|discriminate]. destruct (move_getz _ _ _ _ _ E) as [_ G]. rewrite G by lia. eapply getz_setz_eq; eauto.
  - destruct (IH _ _ _ _ (k - 1)%Z E ltac:(lia) ltac:(lia)) as [H1 H2]. replace (i + 1 + (k - 1))%Z with (i + k)%Z in H1 by lia.
    replace (o + 1 + (k - 1))%Z with (o + k)%Z in H1, H2 by lia.
    assert (Q : getz ev1 (o + k) = getz ev (o + k)) by (eapply getz_setz_neq; eauto; lia). rewrite Q in *. auto.
Qed.
Print Assumptions C40_move.

(** Moving up onto an overlapping range repeats the first slots. *)
Theorem C40_move_overlapping_refuted : exists ev ev', move_indices ev 0 1 2 = Some ev' /\ getz ev' 2 <> getz ev 1.
Proof.
  exists [slot_set_rate 5 slot_default; slot_set_rate 6 slot_default; slot_default]. eexists. split; [reflexivity|].
  cbn. intros H. injection H as H. lra.
Qed.
Print Assumptions C40_move_overlapping_refuted.

(** Growing and shrinking keep the indices that remain; new ones have no spline. *)
Theorem C40_set_num_indices : forall ev n i, (0 <= n)%Z -> num_indices (set_num_indices ev n) = n /\
  ((0 <= i < Z.min n (num_indices ev))%Z -> getz (set_num_indices ev n) i = getz ev i) /\
  ((num_indices ev <= i < n)%Z -> getz (set_num_indices ev n) i = Some slot_default).
Proof.
  intros ev n i N. unfold set_num_indices, num_indices, resize. split; [|split].
  - rewrite len_app, len_repeat. unfold len. rewrite firstn_length. lia.
  - intros I. rewrite getz_app1 by (unfold len in *; rewrite firstn_length; lia). rewrite getz_firstn. replace (i <? Z.of_nat (Z.to_nat n))%Z with true by lia. reflexivity.
  - intros I. rewrite getz_app2 by (unfold len in *; rewrite firstn_length; lia). unfold len in *. rewrite firstn_length.
    assert (R : forall m k, (0 <= k < Z.of_nat m)%Z -> getz (repeat slot_default m) k = Some slot_default).
    { intros m k K. unfold getz. replace (k <? 0)%Z with false by lia. apply nth_error_repeat. lia. }
    apply R. lia.
Qed.
Print Assumptions C40_set_num_indices.

(** * C41 *)
(** Right after ClearSplines the value is the same and the velocity zero. *)
Theorem C41_cleared_partial : forall ev index count ev' j s, clear_splines ev index count = Some ev' -> (index <= j < index + Z.of_nat count)%Z -> getz ev j = Some s ->
  valid_index ev' j = false /\ exists s', getz ev' j = Some s' /\ cur_y s' = cur_y s /\ slot_derivative s' = 0.
Proof.
  intros ev index count ev' j s E J S. destruct (modify_range_getz _ _ _ _ _ E) as (_ & _ & G). specialize (G j).
  replace ((index <=? j) && (j <? index + Z.of_nat count))%Z with true in G by lia. rewrite S in G. unfold valid_index. rewrite G. split; [reflexivity|].
  exists (clear_slot s). split; [reflexivity|]. split; [reflexivity|]. unfold slot_derivative, clear_slot, kderiv. cbn. ring.
Qed.
Print Assumptions C41_cleared_partial.

(** From the next frame on the value is the position that the index had in its cubic
    when it was cleared, whatever its value was. *)
Theorem C41_value_after_a_frame : forall ev index count ev1 d deltas ev2 j s,
  clear_splines ev index count = Some ev1 -> advance_frames ev1 (d :: deltas) = Some ev2 -> (index <= j < index + Z.of_nat count)%Z -> getz ev j = Some s ->
  exists s', getz ev2 j = Some s' /\ cur_y s' = cubic_x s /\ slot_derivative s' = 0.
Proof.
  intros ev index count ev1 d deltas ev2 j s E A J S. destruct (modify_range_getz _ _ _ _ _ E) as (_ & _ & G). specialize (G j).
  replace ((index <=? j) && (j <? index + Z.of_nat count))%Z with true in G by lia. rewrite S in G.
  destruct (advance_frames_getz _ _ _ A) as [_ G2]. specialize (G2 j). rewrite G in G2.
  assert (R : forall l t, cubic_x_end t = None -> curve t = Cubic 0 0 0 (cubic_x s) ->
    exists t', run_slot t l = Some t' /\ (l <> [] -> cur_y t' = cubic_x s) /\ curve t' = Cubic 0 0 0 (cubic_x s)).
  { induction l as [|e l IH]; intros t T C; cbn [run_slot]; [exists t; repeat split; auto; congruence|].
    unfold advance_slot, past_end. cbn [step_x cubic_x_end]. rewrite T.
    destruct (IH (evaluate_slot (step_x e t))) as (t' & R & Y & C'); [exact T|exact C|]. exists t'. split; [exact R|]. split; [|exact C']. intros _.
    destruct l as [|e' l]; [|apply Y; discriminate]. cbn in R. injection R as <-. cbn [evaluate_slot step_x cur_y curve cubic_x]. rewrite C. unfold keval. cbn. ring. }
  destruct (R (d :: deltas) (clear_slot s) eq_refl eq_refl) as (t' & R' & Y & C). exists t'. rewrite G2. split; [exact R'|]. split; [apply Y; discriminate|].
  unfold slot_derivative, kderiv. rewrite C. cbn. ring.
Qed.
Print Assumptions C41_value_after_a_frame.

(** The constant spline y = 1 on [0, 1]. *)
Definition ones : spline := Spline (Rg 0 1) 1 [Node 0 65535 0; Node 1 65535 0] 7.
Lemma ones_ok : spline_ok ones.
Proof. split; cbn; try lra; repeat constructor; cbn; lia. Qed.
Lemma ones_at x v d : -1/2 <= x -> spline_at ones x v d -> v = 1 /\ d = 0.
Proof.
  intros X SA. assert (Y1 : forall q, node_y (Node q 65535 0) (Rg 0 1) = 1) by (intros; apply peak_y1). destruct SA as [sx SX L V D|ex EX L V D|j a c A C L W SV].
  - unfold start_y in V. change (front ones) with (Some (Node 0 65535 0)) in V. cbn [y_range ones] in V. rewrite Y1 in V. split; [congruence|exact D].
  - unfold end_y in V. change (back ones) with (Some (Node 1 65535 0)) in V. cbn [y_range ones] in V. rewrite Y1 in V. split; [congruence|exact D].
  - pose proof (getz_Some _ _ _ C) as R. pose proof (getz_Some _ _ _ A) as R'. unfold len in R, R'. cbn in R, R'. assert (j = 0%Z) as -> by lia. cbn in A, C. injection A as <-. injection C as <-.
    unfold segment_value in SV. change (getz (nodes ones) 0) with (Some (Node 0 65535 0)) in SV. change (getz (nodes ones) (0 + 1)) with (Some (Node 1 65535 0)) in SV.
    cbn [y_range ones nx x_granularity] in SV. rewrite !Y1, !flat_slope in SV. change (1 - 0)%Z with 1%Z in SV. unfold cubic_init in SV. rewrite Rltb_t in SV by lra.
    unfold keval, kderiv, node_x in SV. cbn [k3 k2 k1 k0 nx] in SV. injection SV as <- <-. split; field.
Qed.
Lemma ones_start r : start_ok ones (Playback (1/4) 0 r 0 1 false).
Proof. split; [apply ones_ok|]. split; [intros; discriminate|]. cbn. lra. Qed.

(** From a fresh evaluator: play a spline whose value is 1 everywhere, clear it and
    advance; the value changes. *)
Theorem C41_clear_keeps_value_refuted : exists ev1 s1 ev2 ev3 s3,
  set_splines (set_num_indices [] 1) 0 1 (Some [ones]) (Playback (1/4) 0 1 0 1 false) = Some ev1 /\ getz ev1 0 = Some s1 /\ cur_y s1 = 1 /\
  clear_splines ev1 0 1 = Some ev2 /\ advance_frame 1 ev2 = Some ev3 /\ getz ev3 0 = Some s3 /\ cur_y s3 <> cur_y s1.
Proof.
  set (p := Playback (1/4) 0 1 0 1 false).
  destruct (C37_no_failure (set_num_indices [] 1) [ones] p [] eq_refl) as (ev1 & ev1' & E1 & _).
  { constructor; [split; [apply ones_start|constructor]|constructor]. }
  { repeat constructor. }
  destruct (C37_tracks _ _ _ _ _ [] ev1 0 ones E1 eq_refl eq_refl (ones_start 1)) as (s1 & x1 & G1 & PL & W); [constructor|right; cbn; lra|].
  cbn [wrapped repeat_ p start_at sum map] in W. subst x1. change (0 + 0)%Z with 0%Z in G1. destruct PL as (SO & SX & v & d & SA & Y & _ & _).
  destruct (fun B => ones_at _ _ _ B SA) as [-> ->]; [cbn; lra|]. cbn [y_scale y_offset p] in Y.
  assert (CX : cubic_x s1 = 1 / 4).
  { cbn [set_splines] in E1. destruct (set_each_getz _ _ _ _ _ _ E1) as [_ G]. specialize (G 0%Z). rewrite G1 in G. cbn [Z.leb Z.ltb Z.compare andb Z.add] in G.
    change ((0 <=? 0)%Z && (0 <? 0 + Z.of_nat (length [ones]))%Z) with true in G. cbv iota in G. change (getz (set_num_indices [] 1) 0) with (Some slot_default) in G.
    change (getz [ones] (0 - 0)) with (Some ones) in G. unfold set_spline in G. cbn [source slot_default] in G. unfold jump_to_spline, init_cubic in G.
    cbn [source x_index repeats p start_at repeat_ rate offset_y scale_y] in G. change ((kInvalidSplineIndex + 1) mod 65536)%Z with 0%Z in G.
    unfold index_for_x_allowing_repeat in G. assert (IX : index_for_x ones (1 / 4) 0 = Some 0%Z).
    { unfold index_for_x. cbn [x_granularity ones]. rewrite (peak_quantize (1 / 4) 0) by (try lia; lra).
      change (front ones) with (Some (Node 0 65535 0)). change (back ones) with (Some (Node 1 65535 0)). change (num_nodes ones) with 2%Z. cbn [nx].
      unfold width_x. cbn [x_granularity ones]. repeat (progress (cbn -[Rltb]; change (Pos.to_nat 1) with 1%nat; rewrite ?(Rltb_t 0 (1 * 1)) by lra)). reflexivity. }
    rewrite IX in G. cbn [negb orb] in G. change (range_x ones 0) with (Some (node_x (Node 0 65535 0) 1, Some (node_x (Node 1 65535 0) 1))) in G.
    change (create_cubic_init ones 0) with (Some (create_cubic_between ones (Node 0 65535 0) (Node 1 65535 0))) in G. cbn [fst] in G. injection G as ->.
    cbn [evaluate_slot cubic_x]. unfold node_x. cbn [nx]. lra. }
  destruct (modify_range_succeeds (fun s => Some (clear_slot s)) 1 ev1 0) as [ev2 E2].
  { intros _. pose proof (getz_Some _ _ _ G1). lia. } { discriminate. }
  assert (E2' : clear_splines ev1 0 1 = Some ev2) by exact E2.
  destruct (advance_frame_succeeds 1 ev2) as [ev3 E3].
  { intros i s G. destruct (modify_range_getz _ _ _ _ _ E2) as (L & _ & G2). destruct (set_each_getz _ _ _ _ _ _ E1) as [L1 _].
    pose proof (getz_Some _ _ _ G) as R. change (len (set_num_indices [] 1)) with 1%Z in L1. assert (i = 0%Z) as -> by lia. rewrite G2, G1 in G.
    change ((0 <=? 0) && (0 <? 0 + Z.of_nat 1))%Z with true in G. cbv iota in G. injection G as <-. discriminate. }
  assert (AF : advance_frames ev2 [1] = Some ev3) by (cbn [advance_frames]; now rewrite E3).
  destruct (C41_value_after_a_frame ev1 0 1 ev2 1 [] ev3 0 s1 E2' AF ltac:(lia) G1) as (s3 & G3 & Y3 & _).
  exists ev1, s1, ev2, ev3, s3. split; [exact E1|]. split; [exact G1|]. split; [lra|]. split; [exact E2'|]. split; [exact E3|]. split; [exact G3|]. lra.
Qed.
Print Assumptions C41_clear_keeps_value_refuted.

(** * C42 *)
(** An index without a spline survives frames that do not move its position forward. *)
Theorem C42_fresh_partial : forall n r deltas ev1, Forall (fun d => d <= 0) deltas -> set_y_ranges (set_num_indices [] n) 0 (Z.to_nat n) r = Some ev1 ->
  exists ev2, advance_frames ev1 deltas = Some ev2 /\ forall i s, getz ev2 i = Some s -> cur_y s = 0.
Proof.
  intros n r deltas ev1 F E.
  assert (IV : forall ev, Forall (fun s => rate s = 1 /\ cubic_x s <= 0 /\ cubic_x_end s = Some 0 /\ curve s = Cubic 0 0 0 0 /\ cur_y s = 0) ev ->
    exists ev2, advance_frames ev deltas = Some ev2 /\ forall i s, getz ev2 i = Some s -> cur_y s = 0).
  { clear E ev1. induction F as [|d l D F IH]; intros ev I.
    - exists ev. split; [reflexivity|]. intros i s G. apply getz_split in G. destruct G as (P & Q & -> & _). rewrite Forall_forall in I. apply I. apply in_elt.
    - cbn [advance_frames]. rewrite advance_frame_slots.
      assert (A : exists ev', all_some (map (advance_slot d) ev) = Some ev' /\ Forall (fun s => rate s = 1 /\ cubic_x s <= 0 /\ cubic_x_end s = Some 0 /\ curve s = Cubic 0 0 0 0 /\ cur_y s = 0) ev').
      { clear IH. induction I as [|s ev (S1 & S2 & S3 & S4 & S5) I IH]; [exists []; split; [reflexivity|constructor]|]. destruct IH as (ev' & E & H). cbn [map all_some].
        unfold advance_slot at 1, past_end. cbn [step_x cubic_x_end cubic_x]. rewrite S3, S1, Rltb_f by lra. rewrite E. eexists. split; [reflexivity|]. constructor; [|exact H].
        cbn [evaluate_slot step_x rate cubic_x cubic_x_end curve cur_y]. rewrite S4, S1. repeat split; auto; [lra|]. unfold keval. cbn. ring. }
      destruct A as (ev' & E & H). rewrite E. apply IH. exact H. }
  apply IV. apply Forall_forall. intros s I. apply In_nth_error in I. destruct I as [k K].
  destruct (modify_range_getz _ _ _ _ _ E) as (_ & _ & G). specialize (G (Z.of_nat k)).
  assert (GK : getz ev1 (Z.of_nat k) = Some s) by (unfold getz; replace (Z.of_nat k <? 0)%Z with false by lia; now rewrite Nat2Z.id). rewrite GK in G.
  assert (D : forall t, getz (set_num_indices [] n) (Z.of_nat k) = Some t -> t = slot_default).
  { intros t T. unfold set_num_indices, resize in T. rewrite firstn_nil in T. cbn [app] in T. apply getz_split in T. destruct T as (P & Q & T & _).
    eapply repeat_spec. rewrite T. apply in_elt. }
  destruct (getz (set_num_indices [] n) (Z.of_nat k)) as [t|]; [|destruct (_ && _)%Z; discriminate]. specialize (D t eq_refl). subst t.
  destruct ((0 <=? Z.of_nat k) && (Z.of_nat k <? 0 + Z.of_nat (Z.to_nat n)))%Z; injection G as ->; cbn; repeat split; lra.
Qed.
Print Assumptions C42_fresh_partial.

(** Any frame that moves time forward dereferences the missing spline of an index that
    was allocated and given its y-range, as SplineInit does, but has no target. *)
Theorem C42_fresh_index_refuted : forall n r delta ev1, (0 < n)%Z -> 0 < delta -> set_y_ranges (set_num_indices [] n) 0 (Z.to_nat n) r = Some ev1 ->
  advance_frame delta ev1 = None.
Proof.
  intros n r delta ev1 N D E. rewrite advance_frame_slots. destruct (modify_range_getz _ _ _ _ _ E) as (L & _ & G). specialize (G 0%Z).
  replace ((0 <=? 0) && (0 <? 0 + Z.of_nat (Z.to_nat n)))%Z with true in G by lia.
  destruct (C40_set_num_indices [] n 0 ltac:(lia)) as (_ & _ & GD). rewrite GD in G by (cbn; lia).
  destruct ev1 as [|s ev1]; [discriminate|]. cbn in G. injection G as ->. cbn [map all_some]. unfold advance_slot at 1, past_end. cbn [step_x slot_set_y_range slot_default cubic_x_end cubic_x rate].
  rewrite Rltb_t by lra. unfold reinit_slot, slot_x, cubic_start_x. cbn. reflexivity.
Qed.
Print Assumptions C42_fresh_index_refuted.

(** Non-trivial instances of the hypotheses above. *)
Example C40_case : exists ev', apply_ops [slot_default; slot_set_rate 2 slot_default; slot_default] [OpClearSplines 0 1; OpSetPlaybackRates 2 1 5; OpMoveIndices 2 0 1; OpAdvanceFrame 0] = Some ev' /\
  exists s, getz ev' 1 = Some s /\ rate s = 2.
Proof.
  assert (A : forall s, cubic_x_end s = Some 0 -> cubic_x s = 0 -> advance_slot 0 s = Some (evaluate_slot (step_x 0 s))).
  { intros s CE CX. unfold advance_slot, past_end. cbn [step_x cubic_x_end cubic_x]. rewrite CE, CX, Rltb_f by lra. reflexivity. }
  change (exists ev', (ev' <- advance_frame 0 [slot_set_rate 5 slot_default; slot_set_rate 2 slot_default; slot_set_rate 5 slot_default] ;; Some ev') = Some ev' /\
    exists s, getz ev' 1 = Some s /\ rate s = 2).
  rewrite advance_frame_slots. cbn [map all_some]. rewrite !A by reflexivity. eexists. split; [reflexivity|]. eexists. split; [reflexivity|]. reflexivity.
Qed.
