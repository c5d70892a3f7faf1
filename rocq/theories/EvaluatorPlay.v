(** Lemmas about one index playing a spline. *)
From Verif Require Import RBase BaseFacts RangeModel RangeProofs CurveModel CurveProofs CompactSplineModel CompactSplineSpec CompactSplineProofs CompactSplineIndex CompactSplineEvalProps EvaluatorModel EvaluatorSpec EvaluatorProofs.
From Coq Require Import Sorting.Sorted.

(** The stored segment is one the spline has at x. *)
Definition held_by (sp : spline) (i : Z) (x : R) : Prop :=
  let g := x_granularity sp in
  (i = kBeforeSplineIndex /\ exists sx, start_x sp = Some sx /\ x <= sx) \/
  (i = kAfterSplineIndex /\ exists ex, end_x sp = Some ex /\ (ex + g / 2 <= x \/ (num_nodes sp = 1%Z /\ ex - g / 2 <= x))) \/
  ((0 <= i < num_nodes sp - 1)%Z /\ exists a b, getz (nodes sp) i = Some a /\ getz (nodes sp) (i + 1) = Some b /\
     node_x a g - g / 2 <= x < node_x b g + g / 2 /\ ((nx a < nx b)%Z \/ i = (num_nodes sp - 2)%Z)).
Record placed (s : slot) (sp : spline) (p : playback) (x : R) : Prop := {
  pl_source : source s = Some sp; pl_rate : rate s = playback_rate p; pl_offset : offset_y s = y_offset p;
  pl_scale : scale_y s = y_scale p; pl_repeat : repeats s = repeat_ p; pl_x : - x_granularity sp / 2 <= x;
  pl_index : held_by sp (x_index s) x;
  pl_segment : exists c st e, range_x sp (x_index s) = Some (st, e) /\ node_x_at sp (x_index s) = Some st /\
    create_cubic_init sp (x_index s) = Some c /\ cubic_x s = x - st /\ cubic_x_end s = length_x (st, e) /\
    curve s = kshift_up (kscale_up (cubic_of c) (y_scale p)) (y_offset p)
}.
Lemma held_index_pos sp i x : held_by sp i x -> (0 <= i)%Z.
Proof. intros [[-> _]|[[-> _]|[H _]]]; unfold kBeforeSplineIndex, kAfterSplineIndex; lia. Qed.

(** The stored segment determines what the slot reports. *)
Lemma segment_data sp i x : spline_ok sp -> held_by sp i x -> exists c st e,
  range_x sp i = Some (st, e) /\ node_x_at sp i = Some st /\ create_cubic_init sp i = Some c /\
  spline_at sp x (keval (cubic_of c) (x - st)) (kderiv (cubic_of c) (x - st)) /\
  (match e with
   | Some e => (i <> kBeforeSplineIndex -> i <> kAfterSplineIndex -> exists b, getz (nodes sp) (i + 1) = Some b /\ e = node_x b (x_granularity sp)) /\
               (i = kBeforeSplineIndex -> start_x sp = Some e)
   | None => i = kAfterSplineIndex
   end).
Proof.
  intros O H. pose proof (ok_count sp O) as CN. assert (CONST : forall y x, keval (cubic_init y 0 y 0 1) x = y /\ kderiv (cubic_init y 0 y 0 1) x = 0).
  { intros y z. unfold cubic_init. rewrite Rltb_t by lra. unfold keval, kderiv. cbn [k3 k2 k1 k0]. split; field. }
  unfold held_by in H. cbv zeta in H. destruct H as [[-> (sx & SX & X)]|[[-> (ex & EX & X)]|(I & a & b & A & B & X & W)]].
  - unfold range_x, node_x_at, create_cubic_init. cbn -[front back start_x end_x node_y]. rewrite SX. unfold start_x in SX. destruct (front sp) as [f|] eqn:F; [|discriminate].
    do 3 eexists. split; [reflexivity|]. split; [reflexivity|]. split; [reflexivity|]. unfold cubic_of. cbn [ci_start_y ci_start_derivative ci_end_y ci_end_derivative ci_width_x].
    destruct (CONST (node_y f (y_range sp)) (x - 0)) as [-> ->]. split; [|split; [congruence|reflexivity]].
    eapply At_before; eauto; [unfold start_x; rewrite F; exact SX|unfold start_y; rewrite F; reflexivity].
  - unfold range_x, node_x_at, create_cubic_init. cbn -[front back start_x end_x node_y]. rewrite EX. pose proof EX as EX'. unfold end_x in EX'. destruct (back sp) as [f|] eqn:F; [|discriminate].
    do 3 eexists. split; [reflexivity|]. split; [reflexivity|]. split; [reflexivity|]. unfold cubic_of. cbn [ci_start_y ci_start_derivative ci_end_y ci_end_derivative ci_width_x].
    destruct (CONST (node_y f (y_range sp)) (x - ex)) as [-> ->]. split; [|reflexivity].
    eapply At_after; eauto. unfold end_y; rewrite F; reflexivity.
  - assert (NB : (i =? kBeforeSplineIndex)%Z = false) by (unfold kBeforeSplineIndex; lia). assert (NA : (i =? kAfterSplineIndex)%Z = false) by (unfold kAfterSplineIndex; lia).
    unfold range_x, node_x_at, create_cubic_init, outside_spline. rewrite NB, NA, A, B.
    replace (kAfterSplineIndex <=? i)%Z with false by (unfold kAfterSplineIndex; lia).
    do 3 eexists. split; [reflexivity|]. split; [reflexivity|]. split; [reflexivity|]. split.
    + eapply (At_segment _ _ _ _ i a b); eauto. unfold segment_value. rewrite A, B. reflexivity.
    + split; [intros _ _; exists b; auto|intros ->; discriminate].
Qed.

Lemma scaled_eval c k o x : keval (kshift_up (kscale_up c k) o) x = k * keval c x + o /\ kderiv (kshift_up (kscale_up c k) o) x = k * kderiv c x.
Proof. unfold keval, kderiv, kshift_up, kscale_up. cbn [k3 k2 k1 k0]. split; ring. Qed.

Lemma placed_plays s sp p x : spline_ok sp -> placed s sp p x -> plays (evaluate_slot s) sp p x.
Proof.
  intros O P. destruct (pl_segment _ _ _ _ P) as (c & st & e & RX & NX & CC & CX & CE & CV).
  destruct (segment_data sp (x_index s) x O (pl_index _ _ _ _ P)) as (c' & st' & e' & RX' & NX' & CC' & SA & _).
  rewrite CC in CC'. injection CC' as <-. rewrite NX in NX'. injection NX' as <-.
  unfold plays. cbn [evaluate_slot source]. split; [apply P|].
  unfold slot_x, cubic_start_x, slot_derivative, slot_derivative_without_playback. cbn [evaluate_slot source x_index cubic_x cur_y rate curve].
  rewrite (pl_source _ _ _ _ P), NX, CX, CV, (pl_rate _ _ _ _ P). split; [f_equal; ring|].
  exists (keval (cubic_of c) (x - st)), (kderiv (cubic_of c) (x - st)). split; [exact SA|].
  destruct (scaled_eval (cubic_of c) (y_scale p) (y_offset p) (x - st)) as [-> ->]. auto.
Qed.

Definition can_repeat (sp : spline) (b : bool) : Prop := b = true -> (2 <= num_nodes sp)%Z /\ exists ex, end_x sp = Some ex /\ 0 < ex.

Lemma end_x_bound sp ex : spline_ok sp -> end_x sp = Some ex -> 0 <= ex <= 65535 * x_granularity sp.
Proof.
  intros O E. unfold end_x in E. destruct (back sp) as [b|] eqn:B; [|discriminate]. injection E as <-.
  pose proof (fields_at sp _ b O B) as ((L & U) & _). apply IZR_le in L, U. pose proof (ok_granularity sp O). unfold node_x.
  split; [apply Rmult_le_pos; lra|apply Rmult_le_compat_r; lra].
Qed.
Lemma in_range_of sp x : spline_ok sp -> - x_granularity sp / 2 <= x <= 2147100000 * x_granularity sp -> in_int_range sp x.
Proof.
  intros O X. pose proof (ok_granularity sp O) as G. unfold in_int_range.
  assert (- (1 / 2) <= x / x_granularity sp).
  { apply Rmult_le_reg_r with (x_granularity sp); [lra|]. replace (x / x_granularity sp * x_granularity sp) with x by (field; lra). lra. }
  assert (x / x_granularity sp <= 2147100000).
  { apply Rmult_le_reg_r with (x_granularity sp); [lra|]. replace (x / x_granularity sp * x_granularity sp) with x by (field; lra). lra. }
  rabs; lra.
Qed.

(** Looking up a position, repeating or not. *)
Lemma lookup_held sp x guess b : spline_ok sp -> (0 <= guess)%Z -> can_repeat sp b -> - x_granularity sp / 2 <= x <= 2147100000 * x_granularity sp ->
  exists i x', index_for_x_allowing_repeat sp x guess b = Some (i, x') /\ held_by sp i x' /\ wrapped sp b x x' /\ - x_granularity sp / 2 <= x' <= Rmax x 0.
Proof.
  intros O G CR X. pose proof (ok_granularity sp O) as GP. pose proof (in_range_of sp x O X) as I.
  assert (HB : forall y gu i, - x_granularity sp / 2 <= y <= 2147100000 * x_granularity sp -> (0 <= gu)%Z -> index_for_x sp y gu = Some i -> held_by sp i y).
  { intros y gu i Y GU E. destruct (C32_lookup sp y gu O (in_range_of sp y O Y) GU ltac:(lra)) as (i' & sx & ex & E' & SX & EX & H).
    rewrite E in E'. injection E' as <-. unfold held_by. cbv zeta. destruct H as [[-> H]|[[-> H]|(H & a & c & A & C & AC & W)]].
    - left. split; [reflexivity|]. exists sx. split; [exact SX|lra].
    - right. left. split; [reflexivity|]. exists ex. auto.
    - right. right. split; [exact H|]. exists a, c. split; [exact A|]. split; [exact C|]. split; [exact AC|].
      destruct W as [W|[W _]]; [left|right; exact W]. unfold node_x in W. apply lt_IZR. apply Rmult_lt_reg_r with (x_granularity sp); lra. }
  destruct b.
  - destruct (CR eq_refl) as (N & ex & EX & EP). pose proof (end_x_bound sp ex O EX) as EB.
    destruct (C34_repeat sp x guess ex O I G N EX EP ltac:(lra)) as (i & x' & E & NA & [(H1 & -> & H2)|(H1 & H2 & (k & K) & H3)]).
    + exists i, x. split; [exact E|]. split; [eapply HB; eauto|]. split; [|split; [lra|apply Rmax_l]].
      exists ex, 0%Z. split; [exact EX|]. split; [rewrite Rmult_0_l; ring|lra].
    + exists i, x'. split; [exact E|]. split; [eapply (HB x' 0%Z); eauto; [lra|lia]|]. split; [|split; [lra|apply Rle_trans with x; [lra|apply Rmax_l]]].
      exists ex, k. split; [exact EX|]. split; [exact K|lra].
  - unfold index_for_x_allowing_repeat. destruct (C32_lookup sp x guess O I G ltac:(lra)) as (i & sx & ex & E & _). rewrite E. cbn [negb orb].
    exists i, x. split; [reflexivity|]. split; [eapply HB; eauto|]. split; [reflexivity|]. split; [lra|apply Rmax_l].
Qed.

Lemma init_placed s sp p x : spline_ok sp -> source s = Some sp -> rate s = playback_rate p -> offset_y s = y_offset p -> scale_y s = y_scale p ->
  repeats s = repeat_ p -> (0 <= x_index s)%Z -> can_repeat sp (repeat_ p) -> - x_granularity sp / 2 <= x <= 2147100000 * x_granularity sp ->
  exists s' x', init_cubic s x = Some s' /\ placed s' sp p x' /\ wrapped sp (repeat_ p) x x' /\ x' <= Rmax x 0.
Proof.
  intros O SO RA OF SC RE XI CR X. unfold init_cubic. rewrite SO, RE.
  destruct (lookup_held sp x ((x_index s + 1) mod 65536) (repeat_ p) O ltac:(lia) CR X) as (i & x' & E & H & W & B). rewrite E.
  destruct (segment_data sp i x' O H) as (c & st & e & RX & NX & CC & _). rewrite RX, CC. cbn [fst].
  eexists. exists x'. split; [reflexivity|]. split; [|split; [exact W|lra]].
  split; cbn [source rate offset_y scale_y repeats x_index cubic_x cubic_x_end curve]; auto; [lra|].
  exists c, st, e. rewrite SC, OF. repeat split; auto.
Qed.

Lemma placed_evaluate s sp p x : placed s sp p x -> placed (evaluate_slot s) sp p x.
Proof. intros [A B C D E F G H]. split; auto. Qed.

Lemma sorted_le_end sp i n ex : spline_ok sp -> getz (nodes sp) i = Some n -> end_x sp = Some ex -> node_x n (x_granularity sp) <= ex.
Proof.
  intros O N E. unfold end_x in E. destruct (back sp) as [b|] eqn:B; [|discriminate]. injection E as <-. unfold back in B.
  pose proof (getz_Some _ _ _ N). pose proof (sorted_getz _ (ok_sorted sp O) _ _ _ _ N B ltac:(unfold num_nodes; lia)) as L.
  apply (grain_le sp _ _ O L).
Qed.
Lemma start_le_end sp sx ex : spline_ok sp -> start_x sp = Some sx -> end_x sp = Some ex -> sx <= ex.
Proof.
  intros O S E. unfold start_x in S. destruct (front sp) as [f|] eqn:F; [|discriminate]. injection S as <-. eapply sorted_le_end; eauto.
Qed.
Lemma end_x_some sp : spline_ok sp -> exists ex, end_x sp = Some ex.
Proof. intros O. destruct (ok_back sp O) as [b B]. unfold end_x. rewrite B. eauto. Qed.

Lemma wrapped_add sp b x y d z : wrapped sp b x y -> wrapped sp b (y + d) z -> wrapped sp b (x + d) z.
Proof.
  unfold wrapped. destruct b; [|intros ->; auto].
  intros (ex & k & E & -> & B) (ex' & k' & E' & -> & B'). rewrite E in E'. injection E' as <-.
  exists ex, (k + k')%Z. split; [exact E|]. split; [|exact B']. rewrite plus_IZR. ring.
Qed.

Lemma step_placed s sp p x delta : spline_ok sp -> placed s sp p x -> can_repeat sp (repeat_ p) -> small_step sp (delta * playback_rate p) ->
  wrapped sp (repeat_ p) x x ->
  exists s' x', advance_slot delta s = Some s' /\ placed s' sp p x' /\ wrapped sp (repeat_ p) (x + delta * playback_rate p) x' /\
    cur_y s' = keval (curve s') (cubic_x s').
Proof.
  intros O P CR SS WX. set (d := delta * playback_rate p) in *. destruct SS as [D0 D1]. pose proof (ok_granularity sp O) as GP.
  destruct (pl_segment _ _ _ _ P) as (c & st & e & RX & NX & CC & CX & CE & CV).
  destruct (segment_data sp (x_index s) x O (pl_index _ _ _ _ P)) as (c' & st' & e' & RX' & NX' & CC' & _ & ED).
  rewrite CC in CC'. injection CC' as <-. rewrite RX in RX'. injection RX' as <- <-.
  destruct (end_x_some sp O) as [ex EX]. pose proof (end_x_bound sp ex O EX) as EB. pose proof (pl_x _ _ _ _ P) as PX.
  assert (NAFTER : e <> None -> x_index s <> kAfterSplineIndex).
  { intros N GI. rewrite GI in RX. unfold range_x in RX. cbn -[end_x] in RX. rewrite EX in RX. injection RX as _ RX. congruence. }
  assert (BOUND : forall en, e = Some en -> en <= ex /\ x < ex + x_granularity sp / 2).
  { intros en ->. destruct (pl_index _ _ _ _ P) as [[GI (sx & SX & X)]|[[GI _]|(I & a & b & GA & GB & X & W)]].
    - destruct ED as [_ ED]. specialize (ED GI). rewrite SX in ED. injection ED as <-. pose proof (start_le_end sp sx ex O SX EX). lra.
    - exfalso. now apply NAFTER.
    - pose proof (ok_count sp O). destruct ED as [ED _]. destruct ED as (b' & B' & EN); [unfold kBeforeSplineIndex; lia|unfold kAfterSplineIndex; lia|].
      rewrite GB in B'. injection B' as <-. pose proof (sorted_le_end sp _ b ex O GB EX). lra. }
  unfold advance_slot. cbv zeta.
  assert (PE : past_end (step_x delta s) = match e with Some en => Rltb (en - st) (x - st + d) | None => false end).
  { unfold past_end. cbn [step_x cubic_x_end cubic_x]. rewrite CE, CX, (pl_rate _ _ _ _ P). fold d. unfold length_x. cbn [fst snd]. destruct e; reflexivity. }
  destruct (past_end (step_x delta s)) eqn:PAST.
  - destruct e as [en|]; [|discriminate]. symmetry in PE. apply Rltb_true in PE. destruct (BOUND en eq_refl) as [B1 B2].
    assert (SX : slot_x (step_x delta s) = Some (x + d)).
    { unfold slot_x, cubic_start_x. cbn [step_x source x_index cubic_x]. rewrite (pl_source _ _ _ _ P), NX, CX, (pl_rate _ _ _ _ P). fold d. f_equal. ring. }
    unfold reinit_slot. rewrite SX.
    destruct (init_placed (step_x delta s) sp p (x + d)) as (s' & x' & IC & PL & W & _); try (cbn [step_x source rate offset_y scale_y repeats x_index]; apply P); auto.
    { cbn [step_x x_index]. eapply held_index_pos. apply P. }
    { lra. }
    rewrite IC. exists (evaluate_slot s'), x'. split; [reflexivity|]. split; [now apply placed_evaluate|]. split; [exact W|reflexivity].
  - exists (evaluate_slot (step_x delta s)), (x + d). split; [reflexivity|]. split; [|split; [|reflexivity]].
    + apply placed_evaluate. destruct P as [A B C D E F G H]. split; auto; [lra| |].
      * cbn [step_x x_index]. unfold held_by in *. cbv zeta in *. destruct G as [[GI (sx & SX & X)]|[[GI (ex' & EX' & X)]|(I & a & b & GA & GB & X & W)]].
        -- left. split; [exact GI|]. exists sx. split; [exact SX|]. destruct e as [en|]; [|rewrite GI in ED; discriminate].
           symmetry in PE. apply Rltb_false in PE. destruct ED as [_ ED]. specialize (ED GI). rewrite SX in ED. injection ED as <-. lra.
        -- right. left. split; [exact GI|]. exists ex'. split; [exact EX'|]. destruct X as [X|[N X]]; [left; lra|right; split; [exact N|lra]].
        -- right. right. split; [exact I|]. exists a, b. split; [exact GA|]. split; [exact GB|]. split; [|exact W].
           pose proof (ok_count sp O). destruct e as [en|]; [|exfalso; unfold kAfterSplineIndex in ED; lia].
           symmetry in PE. apply Rltb_false in PE. destruct ED as [ED _]. destruct ED as (b' & B' & EN); [unfold kBeforeSplineIndex; lia|unfold kAfterSplineIndex; lia|].
           rewrite GB in B'. injection B' as <-. lra.
      * cbn [step_x x_index cubic_x cubic_x_end curve]. exists c, st, e. rewrite B. fold d. rewrite CX. repeat split; auto. ring.
    + unfold wrapped in *. destruct (repeat_ p) eqn:RP; [|reflexivity]. destruct WX as (ex' & k & EX' & _ & WB). rewrite EX in EX'. injection EX' as <-.
      exists ex, 0%Z. split; [exact EX|]. split; [rewrite Rmult_0_l; ring|].
      destruct (pl_index _ _ _ _ P) as [[GI (sx & SX & X)]|[[GI (ex' & EX' & X)]|(I & a & b & GA & GB & X & W)]].
      * destruct e as [en|]; [|rewrite GI in ED; discriminate]. symmetry in PE. apply Rltb_false in PE. destruct (BOUND en eq_refl). lra.
      * exfalso. rewrite EX in EX'. injection EX' as <-. destruct (CR eq_refl) as (N2 & _). destruct X as [X|[N X]]; [lra|lia].
      * pose proof (ok_count sp O). destruct e as [en|]; [|exfalso; unfold kAfterSplineIndex in ED; lia].
        symmetry in PE. apply Rltb_false in PE. destruct (BOUND en eq_refl). lra.
Qed.
