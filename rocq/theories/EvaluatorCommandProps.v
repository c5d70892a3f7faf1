(** C89: seeking, changing the rate and switching repetition while a spline plays. *)
From Verif Require Import RBase BaseFacts RangeModel RangeProofs CurveModel CurveProofs CompactSplineModel CompactSplineSpec CompactSplineProofs CompactSplineIndex CompactSplineEvalProps EvaluatorModel EvaluatorSpec EvaluatorProofs EvaluatorPlay EvaluatorProps EvaluatorOpProps EvaluatorUpdateProps.

Definition with_rate (p : playback) (r : R) : playback := Playback (start_at p) (blend_x p) r (y_offset p) (y_scale p) (repeat_ p).
Definition with_repeat (p : playback) (b : bool) : playback := Playback (start_at p) (blend_x p) (playback_rate p) (y_offset p) (y_scale p) b.

(** Where the calls take index [j], which is at [x] of spline [sp] with parameters [p]:
    a frame adds its length times the rate to x; SetXs puts it at the x given; the rate and
    the repetition can be changed at any time (switched on only before the end).  Positions
    wrap around the end while repeating.  [Q] is said of where it ends up. *)
Fixpoint course (sp : spline) (j : Z) (x : R) (p : playback) (l : list op) (Q : R -> playback -> Prop) : Prop :=
  match l with
  | [] => Q x p
  | OpAdvanceFrame d :: l' => small_step sp (d * playback_rate p) ->
      exists x', wrapped sp (repeat_ p) (x + d * playback_rate p) x' /\ course sp j x' p l' Q
  | OpSetXs i n t :: l' =>
      if ((i <=? j) && (j <? i + Z.of_nat n))%Z then - x_granularity sp / 2 <= t <= 2147000000 * x_granularity sp ->
        exists x', wrapped sp (repeat_ p) t x' /\ course sp j x' p l' Q
      else course sp j x p l' Q
  | OpSetPlaybackRates i n r :: l' => course sp j x (if ((i <=? j) && (j <? i + Z.of_nat n))%Z then with_rate p r else p) l' Q
  | OpSetRepeating i n b :: l' =>
      if ((i <=? j) && (j <? i + Z.of_nat n))%Z then
        (b = true -> can_repeat sp true /\ forall ex, end_x sp = Some ex -> x < ex + x_granularity sp / 2) -> course sp j x (with_repeat p b) l' Q
      else course sp j x p l' Q
  | o :: l' => ~ touches o j -> course sp j x p l' Q
  end.

Lemma course_run sp j : spline_ok sp -> forall l ev ev' s x p, apply_ops ev l = Some ev' -> getz ev j = Some s -> placed s sp p x -> cur_y s = keval (curve s) (cubic_x s) ->
  can_repeat sp (repeat_ p) -> wrapped sp (repeat_ p) x x ->
  course sp j x p l (fun x' p' => exists s', getz ev' j = Some s' /\ plays s' sp p' x').
Proof.
  intros O. induction l as [|o l IH]; intros ev ev' s x p E G P Y CR W; cbn [apply_ops] in E.
  - injection E as <-. cbn [course]. exists s. split; [exact G|]. rewrite <- (evaluated_same s Y). now apply placed_plays.
  - destruct (apply_op ev o) as [ev1|] eqn:A; [|discriminate]. destruct (apply_op_getz _ _ _ A) as [_ NT].
    assert (KEEP : ~ touches o j -> frame_times [o] = [] -> course sp j x p l (fun x' p' => exists s', getz ev' j = Some s' /\ plays s' sp p' x')).
    { intros T F. specialize (NT j T). rewrite G, F in NT. cbn [run_slot] in NT. eapply IH; eauto. }
    destruct o; cbn [course]; try (intros T; apply KEEP; [exact T|reflexivity]); cbn [touches frame_times] in *.
    + destruct ((index <=? j) && (j <? index + Z.of_nat count))%Z eqn:B; [|apply KEEP; [lia|reflexivity]]. intros X.
      cbn [apply_op] in A. unfold set_xs in A. destruct (modify_range_getz _ _ _ _ _ A) as (_ & _ & GM). specialize (GM j). rewrite B, G in GM.
      pose proof (ok_granularity sp O). destruct (init_placed s sp p x0 O) as (s1 & x1 & I & P1 & W1 & _); try apply P; auto.
      { eapply held_index_pos. apply P. } { lra. }
      rewrite I in GM. exists x1. split; [exact W1|]. eapply IH; eauto; [now apply placed_evaluate|eapply wrapped_refl_of; eauto].
    + destruct ((index <=? j) && (j <? index + Z.of_nat count))%Z eqn:B; [|apply KEEP; [lia|reflexivity]].
      cbn [apply_op] in A. unfold set_playback_rates in A. destruct (modify_range_getz _ _ _ _ _ A) as (_ & _ & GM). specialize (GM j). rewrite B, G in GM.
      eapply IH; eauto. destruct P as [P1 P2 P3 P4 P5 P6 P7 P8]. split; auto.
    + destruct ((index <=? j) && (j <? index + Z.of_nat count))%Z eqn:B; [|apply KEEP; [lia|reflexivity]]. intros RP.
      cbn [apply_op] in A. unfold set_repeating in A. destruct (modify_range_getz _ _ _ _ _ A) as (_ & _ & GM). specialize (GM j). rewrite B, G in GM.
      eapply IH; eauto.
      * destruct P as [P1 P2 P3 P4 P5 P6 P7 P8]. split; auto.
      * cbn [with_repeat repeat_]. intros ->. now apply RP.
      * cbn [with_repeat repeat_]. unfold wrapped. destruct b; [|reflexivity]. destruct (RP eq_refl) as [_ XB]. destruct (end_x_some sp O) as [ex EX]. exists ex, 0%Z. split; [exact EX|]. split; [ring|split; [exact (pl_x _ _ _ _ P)|now apply XB]].
    + intros SM. cbn [apply_op] in A. destruct (advance_frame_getz _ _ _ A) as [_ GA]. specialize (GA j). rewrite G in GA.
      destruct (step_placed s sp p x delta O P CR SM W) as (s1 & x1 & A1 & P1 & W1 & Y1). rewrite A1 in GA. exists x1. split; [exact W1|]. eapply IH; eauto. eapply wrapped_refl_of; eauto.
Qed.

(** After SetSplines (without a blend) and any calls, also on other indices, the index is
    where the calls have taken it and reports the value and derivative of its spline there,
    the derivative times the rate that was set last. *)
Theorem C89_follows : forall ev index l p ev1 ops ev2 k sp,
  set_splines ev index (length l) (Some l) p = Some ev1 -> apply_ops ev1 ops = Some ev2 -> getz l k = Some sp -> start_ok sp p ->
  (forall s, getz ev (index + k) = Some s -> source s = None \/ blend_x p <= 0) ->
  exists x, wrapped sp (repeat_ p) (start_at p) x /\
    course sp (index + k) x p ops (fun x' p' => exists s, getz ev2 (index + k) = Some s /\ plays s sp p' x').
Proof.
  intros ev index l p ev1 ops ev2 k sp SS AO K OK J. cbn [set_splines] in SS.
  destruct (set_each_getz _ _ _ _ _ _ SS) as [L1 G1]. pose proof (getz_Some _ _ _ K) as KR. specialize (G1 (index + k)%Z). unfold len in KR.
  replace ((index <=? index + k) && (index + k <? index + Z.of_nat (length l)))%Z with true in G1 by lia.
  replace (index + k - index)%Z with k in G1 by lia. rewrite K in G1.
  assert (RG : forall (n : nat) ev i l', set_each_spline ev i n l' p = Some ev1 -> forall j, (i <= j < i + Z.of_nat n)%Z -> exists s, getz ev j = Some s).
  { clear. intros n. induction n as [|n IH]; intros ev i l' E j J; [lia|]. cbn [set_each_spline] in E. destruct l' as [|sp l']; [discriminate|].
    destruct (modify ev i (set_spline sp p)) as [ev'|] eqn:M; [|discriminate]. destruct (modify_getz _ _ _ _ M) as (L & R & G).
    destruct (Z.eq_dec j i) as [->|N]; [now apply getz_in_range|]. destruct (IH _ _ _ E j ltac:(lia)) as [s S]. rewrite G in S. replace (j =? i)%Z with false in S by lia. eauto. }
  destruct (RG _ _ _ _ SS (index + k)%Z ltac:(lia)) as [s0 S0]. rewrite S0 in G1.
  destruct (set_spline_jump s0 sp p OK (J s0 S0)) as (s1 & x1 & E1 & P1 & Y1 & W1). rewrite E1 in G1. destruct OK as (O & CR & _).
  exists x1. split; [exact W1|]. eapply course_run; eauto. eapply wrapped_refl_of; eauto.
Qed.
Print Assumptions C89_follows.

(** Beyond the end: the stored segment has no end, so it is never looked up again. *)
Lemma after_end_runs sp s : source s = Some sp -> x_index s = kAfterSplineIndex -> cubic_x_end s = None -> k3 (curve s) = 0 -> k2 (curve s) = 0 -> k1 (curve s) = 0 -> cur_y s = k0 (curve s) ->
  forall l t t2 y, run_slot t l = Some t2 -> rate t = rate s -> source t = Some sp -> x_index t = kAfterSplineIndex -> cubic_x_end t = None -> curve t = curve s -> cur_y t = cur_y s -> slot_x t = Some y ->
    repeats t2 = repeats t /\ slot_x t2 = Some (y + rate s * sum l) /\ cur_y t2 = cur_y s.
Proof.
  intros SO XI CE K3 K2 K1 CY. induction l as [|d l IH]; intros t t2 y R A2 A3 A4 A5 A6 A7 A8; cbn [run_slot sum] in *.
  - injection R as <-. rewrite Rmult_0_r, Rplus_0_r. auto.
  - unfold advance_slot in R. cbv zeta in R. unfold past_end in R at 1. cbn [step_x cubic_x_end] in R. rewrite A5 in R.
    edestruct (IH _ _ (y + d * rate s) R) as (B1 & B2 & B3); cbn [evaluate_slot step_x repeats rate source x_index cubic_x_end curve cur_y]; auto.
    + rewrite A6. unfold keval. rewrite K3, K2, K1, CY. ring.
    + unfold slot_x, cubic_start_x in *. cbn [evaluate_slot step_x source x_index cubic_x]. rewrite A3, A4 in *. destruct (node_x_at sp kAfterSplineIndex); [|discriminate]. injection A8 as <-. f_equal. rewrite A2. ring.
    + cbn [evaluate_slot step_x repeats] in B1. split; [exact B1|]. split; [|exact B3]. rewrite B2. f_equal. ring.
Qed.

(** Switched on after the end, repetition does nothing: x goes on beyond the end, and the
    value stays where it is, whatever the frames (SetSplineRepeating looks as if ignored). *)
Theorem C89_repeat_after_end_refuted : forall ev i sp p ev1 before ev2 ev3 after ev4 s4 ex ey,
  set_splines ev i 1 (Some [sp]) p = Some ev1 -> start_ok sp p -> repeat_ p = false -> (forall s, getz ev i = Some s -> source s = None \/ blend_x p <= 0) ->
  advance_frames ev1 before = Some ev2 -> Forall (fun d => small_step sp (d * playback_rate p)) before ->
  end_x sp = Some ex -> end_y sp = Some ey -> let x := start_at p + sum (map (fun d => d * playback_rate p) before) in ex + x_granularity sp / 2 <= x ->
  set_repeating ev2 i 1 true = Some ev3 -> advance_frames ev3 after = Some ev4 -> getz ev4 i = Some s4 ->
  repeats s4 = true /\ slot_x s4 = Some (x + playback_rate p * sum after) /\ cur_y s4 = y_scale p * ey + y_offset p.
Proof.
  intros ev i sp p ev1 before ev2 ev3 after ev4 s4 ex ey SS OK RP J AF SM EX EY x X SR AF' G4. pose proof OK as (O & CR & _).
  cbn [set_splines] in SS. destruct (set_each_getz _ _ _ _ _ _ SS) as [_ G1]. specialize (G1 i). replace ((i <=? i) && (i <? i + Z.of_nat 1))%Z with true in G1 by lia. rewrite Z.sub_diag in G1. cbn [getz Z.ltb Z.compare Z.to_nat nth_error] in G1.
  assert (exists s0, getz ev i = Some s0) as [s0 S0].
  { cbn [set_each_spline] in SS. destruct (modify ev i (set_spline sp p)) as [ev'|] eqn:M; [|discriminate]. destruct (modify_getz _ _ _ _ M) as (_ & R & _). now apply getz_in_range. }
  rewrite S0 in G1. destruct (set_spline_jump s0 sp p OK (J s0 S0)) as (s1 & x1 & E1 & P1 & Y1 & W1). change (getz [sp] 0) with (Some sp) in G1. rewrite E1 in G1.
  destruct (run_placed sp p O CR before s1 x1 P1 Y1 (wrapped_refl_of _ _ _ _ W1) SM) as (s2 & x2 & R2 & P2 & Y2 & W2). destruct (advance_frames_getz _ _ _ AF) as [_ GA]. specialize (GA i). rewrite G1 in GA.
  rewrite R2 in GA. rewrite RP in W1, W2. cbn [wrapped] in W1, W2. subst x1. fold x in W2. subst x2.
  unfold set_repeating in SR. destruct (modify_range_getz _ _ _ _ _ SR) as (_ & _ & GM). specialize (GM i). replace ((i <=? i) && (i <? i + Z.of_nat 1))%Z with true in GM by lia. rewrite GA in GM.
  destruct (advance_frames_getz _ _ _ AF') as [_ GB]. specialize (GB i). rewrite GM, G4 in GB.
  assert (XI : x_index s2 = kAfterSplineIndex).
  { pose proof (ok_granularity sp O). destruct (pl_index _ _ _ _ P2) as [[_ (sx & SX & XL)]|[[GI _]|(I & a & b & GA' & GB' & XL & _)]]; [|exact GI|].
    - pose proof (start_le_end sp sx ex O SX EX). lra.
    - pose proof (sorted_le_end sp _ b ex O GB' EX). lra. }
  destruct (pl_segment _ _ _ _ P2) as (c & st & e & RX & NX & CC & CX & CE & CV). rewrite XI in RX, NX, CC.
  unfold range_x in RX. cbn -[end_x] in RX. rewrite EX in RX. injection RX as <- <-. unfold length_x in CE. cbn [fst snd] in CE.
  unfold create_cubic_init in CC. cbn -[front back node_y] in CC. unfold end_y in EY. destruct (back sp) as [f|]; [|discriminate]. injection EY as <-. injection CC as <-.
  assert (CV' : k3 (curve s2) = 0 /\ k2 (curve s2) = 0 /\ k1 (curve s2) = 0 /\ k0 (curve s2) = y_scale p * node_y f (y_range sp) + y_offset p).
  { rewrite CV. unfold cubic_of. cbn [ci_start_y ci_start_derivative ci_end_y ci_end_derivative ci_width_x]. unfold cubic_init. rewrite Rltb_t by lra. unfold kshift_up, kscale_up. cbn [k3 k2 k1 k0]. repeat split; field. }
  destruct CV' as (K3 & K2 & K1 & K0).
  assert (CY : cur_y s2 = k0 (curve s2)) by (rewrite Y2; unfold keval; rewrite K3, K2, K1; ring).
  assert (SX : slot_x s2 = Some x) by (unfold slot_x, cubic_start_x; rewrite (pl_source _ _ _ _ P2), XI, NX, CX; f_equal; ring).
  destruct (after_end_runs sp s2 (pl_source _ _ _ _ P2) XI CE K3 K2 K1 CY after (slot_set_repeat true s2) s4 x) as (B1 & B2 & B3); auto; [apply P2|].
  split; [exact B1|]. split; [rewrite B2, (pl_rate _ _ _ _ P2); reflexivity|]. rewrite B3, CY, K0. reflexivity.
Qed.
Print Assumptions C89_repeat_after_end_refuted.

(** Nothing fails on an evaluator with the one index. *)
Fixpoint acceptable (sp : spline) (x : R) (p : playback) (l : list op) : Prop :=
  match l with
  | [] => True
  | OpAdvanceFrame d :: l' => small_step sp (d * playback_rate p) /\ forall x', wrapped sp (repeat_ p) (x + d * playback_rate p) x' -> acceptable sp x' p l'
  | OpSetXs 0 1 t :: l' => - x_granularity sp / 2 <= t <= 2147000000 * x_granularity sp /\ forall x', wrapped sp (repeat_ p) t x' -> acceptable sp x' p l'
  | OpSetPlaybackRates 0 1 r :: l' => acceptable sp x (with_rate p r) l'
  | OpSetRepeating 0 1 b :: l' => (b = true -> can_repeat sp true /\ forall ex, end_x sp = Some ex -> x < ex + x_granularity sp / 2) /\ acceptable sp x (with_repeat p b) l'
  | _ => False
  end.
Lemma acceptable_runs sp : spline_ok sp -> forall l s x p, placed s sp p x -> can_repeat sp (repeat_ p) -> wrapped sp (repeat_ p) x x -> acceptable sp x p l -> exists ev', apply_ops [s] l = Some ev'.
Proof.
  intros O. induction l as [|o l IH]; intros s x p P CR W A; cbn [apply_ops]; [eauto|].
  destruct o; cbn [acceptable] in A; try contradiction.
  - destruct index; try contradiction. destruct count as [|[|?]]; try contradiction. destruct A as [X A]. pose proof (ok_granularity sp O).
    destruct (init_placed s sp p x0 O) as (s1 & x1 & I & P1 & W1 & _); try apply P; auto. { eapply held_index_pos. apply P. } { lra. }
    replace (apply_op [s] (OpSetXs 0 1 x0)) with (Some [evaluate_slot s1]) by (cbn [apply_op set_xs modify_range]; unfold set_xs; cbn [modify_range]; unfold modify; change (getz [s] 0) with (Some s); cbv beta iota; rewrite I; reflexivity).
    eapply IH; [apply placed_evaluate; exact P1|exact CR|eapply wrapped_refl_of; exact W1|now apply A].
  - destruct index; try contradiction. destruct count as [|[|?]]; try contradiction. cbn [apply_op]. change (set_playback_rates [s] 0 1 r) with (Some [slot_set_rate r s]). cbv beta iota. apply (IH _ x (with_rate p r)); auto. destruct P as [P1 P2 P3 P4 P5 P6 P7 P8]. split; auto.
  - destruct index; try contradiction. destruct count as [|[|?]]; try contradiction. destruct A as [RP A]. cbn [apply_op]. change (set_repeating [s] 0 1 b) with (Some [slot_set_repeat b s]). cbv beta iota. apply (IH _ x (with_repeat p b)); auto.
    + destruct P as [P1 P2 P3 P4 P5 P6 P7 P8]. split; auto.
    + cbn [with_repeat repeat_]. intros ->. now apply RP.
    + cbn [with_repeat repeat_]. unfold wrapped. destruct b; [|reflexivity]. destruct (RP eq_refl) as [_ XB]. destruct (end_x_some sp O) as [ex EX]. exists ex, 0%Z. split; [exact EX|]. split; [ring|split; [exact (pl_x _ _ _ _ P)|now apply XB]].
  - destruct A as [SM A]. destruct (step_placed s sp p x delta O P CR SM W) as (s1 & x1 & A1 & P1 & W1 & Y1).
    destruct (advance_frame_succeeds delta [s]) as [ev1 F]; [intros i t G; destruct (Z.eq_dec i 0) as [->|N]; [cbn in G; injection G as <-; congruence|apply getz_Some in G; cbn in G; lia]|].
    cbn [apply_op]. rewrite F. destruct (advance_frame_getz _ _ _ F) as [L G]. specialize (G 0%Z). change (getz [s] 0) with (Some s) in G. cbv iota in G. rewrite A1 in G. destruct ev1 as [|t [|? ?]]; try (unfold len in L; cbn in L; lia). cbn in G. injection G as ->.
    eapply IH; [exact P1|exact CR|eapply wrapped_refl_of; exact W1|now apply A].
Qed.
Theorem C89_succeeds : forall s0 sp p ops, start_ok sp p -> source s0 = None \/ blend_x p <= 0 -> (forall x, wrapped sp (repeat_ p) (start_at p) x -> acceptable sp x p ops) ->
  exists ev1 ev2, set_splines [s0] 0 1 (Some [sp]) p = Some ev1 /\ apply_ops ev1 ops = Some ev2.
Proof.
  intros s0 sp p ops OK J A. destruct (set_spline_jump s0 sp p OK J) as (s1 & x1 & E1 & P1 & _ & W1). destruct OK as (O & CR & _).
  destruct (acceptable_runs sp O ops s1 x1 p P1 CR (wrapped_refl_of _ _ _ _ W1) (A _ W1)) as [ev2 E2]. exists [s1], ev2. split; [|exact E2].
  cbn [set_splines set_each_spline]. unfold modify. change (getz [s0] 0) with (Some s0). cbv beta iota. rewrite E1. reflexivity.
Qed.
Print Assumptions C89_succeeds.

(** A case: half a unit at rate 1, half a unit at rate 2, back to 1/4, then a quarter more at
    rate 2: that is 3/4. *)
Definition calls_case : list op := [OpAdvanceFrame (1 / 2); OpSetPlaybackRates 0 1 2; OpAdvanceFrame (1 / 2); OpSetXs 0 1 (1 / 4); OpAdvanceFrame (1 / 4)].
Example C89_case : exists ev1 ev2 s, set_splines [slot_default] 0 1 (Some [peak]) (playback_from 0) = Some ev1 /\ apply_ops ev1 calls_case = Some ev2 /\
  getz ev2 0 = Some s /\ plays s peak (with_rate (playback_from 0) 2) (3 / 4).
Proof.
  assert (OK : start_ok peak (playback_from 0)). { split; [apply peak_ok|]. split; [intros; discriminate|]. cbn. lra. }
  destruct (C89_succeeds slot_default peak (playback_from 0) calls_case OK (or_introl eq_refl)) as (ev1 & ev2 & E1 & E2).
  { intros x W. cbn in W. subst x. cbn. unfold small_step. cbn. split; [lra|]. intros x1 ->. split; [lra|]. intros x2 ->. split; [lra|]. intros x3 ->. split; [lra|]. intros x4 _. exact I. }
  exists ev1, ev2. destruct (C89_follows [slot_default] 0 [peak] (playback_from 0) ev1 calls_case ev2 0 peak E1 E2 eq_refl OK) as (x & W & C); [intros s G; cbn in G; injection G as <-; left; reflexivity|].
  cbn in W. subst x. cbn in C. unfold small_step in C. cbn in C.
  destruct C as (x1 & -> & C); [lra|]. destruct C as (x2 & -> & C); [lra|]. destruct C as (x3 & -> & C); [lra|]. destruct C as (x4 & -> & C); [lra|]. destruct C as (s & G & PL).
  exists s. split; [exact E1|]. split; [exact E2|]. split; [exact G|]. replace (3 / 4) with (1 / 4 + 1 / 4 * 2) by lra. exact PL.
Qed.
