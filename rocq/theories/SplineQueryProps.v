(** C90: TargetValue, TargetVelocity, Difference and TargetTime of spline motivators. *)
From Verif Require Import RBase BaseFacts RangeModel RangeProofs CurveModel CurveProofs CompactSplineModel CompactSplineSpec CompactSplineProofs CompactSplineIndex CompactSplineEvalProps EvaluatorModel EvaluatorSpec EvaluatorProofs EvaluatorPlay EvaluatorProps EvaluatorOpProps EvaluatorUpdateProps EvaluatorCommandProps SplineQueryModel.

Lemma advance_frames_app : forall l l' ev, advance_frames ev (l ++ l') = (ev1 <- advance_frames ev l ;; advance_frames ev1 l').
Proof. induction l as [|d l IH]; intros l' ev; cbn [app advance_frames]; [reflexivity|]. destruct (advance_frame d ev); [apply IH|reflexivity]. Qed.
Lemma sum_app l l' : sum (l ++ l') = sum l + sum l'.
Proof. induction l as [|x l IH]; cbn [app sum]; [ring|rewrite IH; ring]. Qed.
Lemma collect_getz {A} (f : slot -> option A) : forall n ev i l, collect f ev i n = Some l -> len l = Z.of_nat n /\
  forall k, (0 <= k < Z.of_nat n)%Z -> exists s a, getz ev (i + k) = Some s /\ f s = Some a /\ getz l k = Some a.
Proof.
  induction n as [|n IH]; intros ev i l E; cbn [collect] in E.
  - injection E as <-. split; [reflexivity|]. intros k K. lia.
  - destruct (getz ev i) as [s|] eqn:G; [|discriminate]. destruct (f s) as [a|] eqn:F; [|discriminate]. destruct (collect f ev (i + 1) n) as [l'|] eqn:C; [|discriminate]. injection E as <-.
    destruct (IH _ _ _ C) as [L H]. split; [rewrite len_cons; lia|]. intros k K. destruct (Z.eq_dec k 0) as [->|N].
    + exists s, a. rewrite Z.add_0_r. auto.
    + destruct (H (k - 1)%Z ltac:(lia)) as (s' & a' & G' & F' & L'). exists s', a'. replace (i + 1 + (k - 1))%Z with (i + k)%Z in G' by lia. split; [exact G'|]. split; [exact F'|].
      change (a :: l') with ([a] ++ l'). rewrite getz_app2 by (change (len [a]) with 1%Z; lia). exact L'.
Qed.

(** After the end of a spline, and on its last node, its value is that of the last node. *)
Lemma at_end sp ex ey x v d : spline_ok sp -> end_x sp = Some ex -> end_y sp = Some ey -> spline_at sp x v d -> ex + x_granularity sp / 2 <= x -> v = ey.
Proof.
  intros O EX EY SA X. pose proof (ok_granularity sp O) as GP. destruct SA as [sx SX LE SY D|ex' EX' LE EY' D|j a b J J' R _ SV].
  - pose proof (start_le_end sp sx ex O SX EX). lra.
  - congruence.
  - pose proof (sorted_le_end sp _ b ex O J' EX). lra.
Qed.

Lemma to_int_bounds x z : to_int x = Some z -> (0 <= x -> IZR z <= x < IZR z + 1) /\ (x <= 0 -> x <= IZR z < x + 1).
Proof. unfold to_int. intros E. cbv zeta in E. destruct (_ && _)%bool in E; [|discriminate]. injection E as <-. apply Rtrunc_bounds. Qed.

(** C37_tracks, and the rate. *)
Lemma tracks_rate : forall ev index l p ev1 deltas ev2 k sp,
  set_splines ev index (length l) (Some l) p = Some ev1 -> advance_frames ev1 deltas = Some ev2 ->
  getz l k = Some sp -> start_ok sp p -> Forall (fun d => small_step sp (d * playback_rate p)) deltas ->
  (forall s, getz ev (index + k) = Some s -> source s = None \/ blend_x p <= 0) ->
  exists s x, getz ev2 (index + k) = Some s /\ plays s sp p x /\ rate s = playback_rate p /\
    wrapped sp (repeat_ p) (start_at p + sum (map (fun d => d * playback_rate p) deltas)) x.
Proof.
  intros ev index l p ev1 deltas ev2 k sp SS AF K OK F J. cbn [set_splines] in SS.
  destruct (set_each_getz _ _ _ _ _ _ SS) as [L1 G1]. destruct (advance_frames_getz _ _ _ AF) as [L2 G2].
  pose proof (getz_Some _ _ _ K) as KR. specialize (G1 (index + k)%Z). unfold len in KR.
  replace ((index <=? index + k) && (index + k <? index + Z.of_nat (length l)))%Z with true in G1 by lia.
  replace (index + k - index)%Z with k in G1 by lia. rewrite K in G1.
  assert (RG : forall (n : nat) ev i l', set_each_spline ev i n l' p = Some ev1 -> forall j, (i <= j < i + Z.of_nat n)%Z -> exists s, getz ev j = Some s).
  { clear. intros n. induction n as [|n IH]; intros ev i l' E j J; [lia|]. cbn [set_each_spline] in E. destruct l' as [|sp l']; [discriminate|].
    destruct (modify ev i (set_spline sp p)) as [ev'|] eqn:M; [|discriminate]. destruct (modify_getz _ _ _ _ M) as (L & R & G).
    destruct (Z.eq_dec j i) as [->|N]; [now apply getz_in_range|]. destruct (IH _ _ _ E j ltac:(lia)) as [s S]. rewrite G in S. replace (j =? i)%Z with false in S by lia. eauto. }
  destruct (RG _ _ _ _ SS (index + k)%Z ltac:(lia)) as [s0 S0]. rewrite S0 in G1.
  destruct (set_spline_jump s0 sp p OK (J s0 S0)) as (s1 & x1 & E1 & P1 & Y1 & W1). rewrite E1 in G1.
  destruct OK as (O & CR & _).
  destruct (run_placed sp p O CR deltas s1 x1 P1 Y1 (wrapped_refl_of _ _ _ _ W1) F) as (s2 & x2 & R & P2 & Y2 & W2).
  exists s2, x2. split; [rewrite G2, G1; exact R|]. split; [|split; [apply P2|eapply wrapped_add; eauto]].
  rewrite <- (evaluated_same s2 Y2). now apply placed_plays.
Qed.

Section Playing.
(** Splines [l] set from [index] on, then frames; the motivator is asked after the frames
    [before], and the frames [after] follow. *)
Variables (ev : evaluator) (index : Z) (l : list spline) (p : playback) (ev1 : evaluator) (before : list R) (ev2 : evaluator) (after : list R) (ev3 : evaluator).
Definition asked : Prop :=
  set_splines ev index (length l) (Some l) p = Some ev1 /\ advance_frames ev1 before = Some ev2 /\ advance_frames ev2 after = Some ev3 /\
  repeat_ p = false /\
  forall k sp, getz l k = Some sp -> start_ok sp p /\ Forall (fun d => small_step sp (d * playback_rate p)) (before ++ after) /\
    forall s, getz ev (index + k) = Some s -> source s = None \/ blend_x p <= 0.

Lemma asked_plays : asked -> forall k sp, getz l k = Some sp ->
  let x2 := start_at p + sum (map (fun d => d * playback_rate p) before) in
  exists s2 s3, getz ev2 (index + k) = Some s2 /\ getz ev3 (index + k) = Some s3 /\ plays s2 sp p x2 /\ rate s2 = playback_rate p /\
    plays s3 sp p (x2 + sum (map (fun d => d * playback_rate p) after)).
Proof.
  intros (SS & A2 & A3 & RP & H) k sp K. cbv zeta. destruct (H k sp K) as (OK & SM & J). pose proof SM as SM'. apply Forall_app in SM'. destruct SM' as [SB SA].
  destruct (tracks_rate _ _ _ _ _ before _ _ _ SS A2 K OK SB J) as (s2 & x & G2 & P2 & RT & W2).
  assert (AA : advance_frames ev1 (before ++ after) = Some ev3) by (rewrite advance_frames_app, A2; exact A3).
  destruct (tracks_rate _ _ _ _ _ _ _ _ _ SS AA K OK SM J) as (s3 & x' & G3 & P3 & _ & W3).
  rewrite RP in W2, W3. cbn [wrapped] in W2, W3. subst x x'. rewrite map_app, sum_app, <- Rplus_assoc in P3. eauto 8.
Qed.

(** The target values, scaled and shifted as the motivator was told to, are the values it
    has once its splines have ended. *)
Theorem C90_target_values_partial : asked -> forall targets,
  target_values ev2 index (length l) = Some targets -> forall k sp ex, getz l k = Some sp -> end_x sp = Some ex ->
  ex + x_granularity sp / 2 <= start_at p + sum (map (fun d => d * playback_rate p) (before ++ after)) ->
  exists s3 v, getz ev3 (index + k) = Some s3 /\ getz targets k = Some v /\ cur_y s3 = y_scale p * v + y_offset p.
Proof.
  intros A targets T k sp ex K EX X. destruct (asked_plays A k sp K) as (s2 & s3 & G2 & G3 & P2 & RT & P3). rewrite map_app, sum_app, <- Rplus_assoc in X.
  destruct A as (_ & _ & _ & _ & H). destruct (H k sp K) as ((O & _) & _). destruct (collect_getz _ _ _ _ _ T) as [LT GT]. pose proof (getz_Some _ _ _ K) as KR. unfold len in KR.
  destruct (GT k KR) as (s & v & G & F & L). rewrite G2 in G. injection G as <-. exists s3, v. split; [exact G3|]. split; [exact L|].
  unfold slot_end_y in F. destruct P2 as (S2 & _). rewrite S2 in F. destruct P3 as (_ & _ & y & d & SA & CY & _). rewrite CY, (at_end sp ex v _ y d O EX F SA X). reflexivity.
Qed.

(** TargetTime is how far the last of the splines is from its end, in units of the spline's
    x, in whole units rounded towards zero.  At rate 1 these are ticks: each of the splines
    has ended one tick (and half a grain) later, and one of them does not end before. *)
Theorem C90_target_time_partial : asked -> forall t,
  target_time ev2 index (length l) = Some t ->
  (forall k sp ey, getz l k = Some sp -> end_y sp = Some ey -> IZR t + 1 + x_granularity sp / 2 <= playback_rate p * sum after ->
     exists s3, getz ev3 (index + k) = Some s3 /\ cur_y s3 = y_scale p * ey + y_offset p) /\
  ((0 < t)%Z -> exists k sp ex s2 x, getz l k = Some sp /\ end_x sp = Some ex /\ getz ev2 (index + k) = Some s2 /\ slot_x s2 = Some x /\ IZR t <= ex - x < IZR t + 1).
Proof.
  intros A t T. assert (MAPS : forall m, sum (map (fun d => d * playback_rate p) m) = playback_rate p * sum m) by (induction m as [|d m IH]; cbn [map sum]; [ring|rewrite IH; ring]).
  assert (LOOP : forall n i g t, target_time_loop ev2 i n g = Some t -> (g <= t)%Z /\
     (forall j s e x z, (i <= j < i + Z.of_nat n)%Z -> getz ev2 j = Some s -> slot_end_x s = Some e -> slot_x s = Some x -> to_int (e - x) = Some z -> (z <= t)%Z) /\
     (forall j, (i <= j < i + Z.of_nat n)%Z -> exists s e x z, getz ev2 j = Some s /\ slot_end_x s = Some e /\ slot_x s = Some x /\ to_int (e - x) = Some z) /\
     (t = g \/ exists j s e x, (i <= j < i + Z.of_nat n)%Z /\ getz ev2 j = Some s /\ slot_end_x s = Some e /\ slot_x s = Some x /\ to_int (e - x) = Some t)).
  { induction n as [|n IH]; intros i g t' E; cbn [target_time_loop] in E.
    - injection E as <-. split; [lia|]. split; [intros; lia|]. split; [intros; lia|left; reflexivity].
    - destruct (getz ev2 i) as [s|] eqn:G; [|discriminate]. destruct (slot_end_x s) as [e|] eqn:EX; [|discriminate]. destruct (slot_x s) as [x|] eqn:SX; [|discriminate]. destruct (to_int (e - x)) as [z|] eqn:TI; [|discriminate].
      destruct (IH _ _ _ E) as (L & B & D & W). split; [lia|]. split; [|split].
      + intros j s' e' x' z' J G' E' X' T'. destruct (Z.eq_dec j i) as [->|N]; [|eapply B; eauto; lia]. rewrite G in G'. injection G' as <-. rewrite EX in E'. injection E' as <-. rewrite SX in X'. injection X' as <-. rewrite TI in T'. injection T' as <-. lia.
      + intros j J. destruct (Z.eq_dec j i) as [->|N]; [eauto 8|apply D; lia].
      + destruct W as [->|(j & s' & e' & x' & J & W)].
        * destruct (Z.max_spec g z) as [[_ ->]|[_ ->]]; [right; exists i, s, e, x; repeat split; auto; lia|left; reflexivity].
        * right. exists j, s', e', x'. split; [lia|exact W]. }
  destruct (LOOP _ _ _ _ T) as (_ & B & D & W). split.
  - intros k sp ey K EY X. destruct (asked_plays A k sp K) as (s2 & s3 & G2 & G3 & P2 & _ & P3). rewrite !MAPS in *. destruct A as (_ & _ & _ & _ & H). destruct (H k sp K) as ((O & _) & _).
    pose proof (getz_Some _ _ _ K) as KR. unfold len in KR. destruct (D (index + k)%Z ltac:(lia)) as (s & e & x & z & G & EX & SX & TI). rewrite G2 in G. injection G as <-.
    assert (ZT : (z <= t)%Z) by (apply (B (index + k)%Z s2 e x z); auto; lia). destruct P2 as (S2 & X2 & _). rewrite X2 in SX. injection SX as <-. unfold slot_end_x in EX. rewrite S2 in EX.
    exists s3. split; [exact G3|]. destruct P3 as (_ & _ & y & d & SA & CY & _). rewrite CY. f_equal. f_equal. eapply at_end; eauto.
    assert (e - (start_at p + playback_rate p * sum before) < IZR z + 1).
    { pose proof (to_int_bounds _ _ TI) as [T1 T2]. destruct (Rle_dec 0 (e - (start_at p + playback_rate p * sum before))) as [P|P]; [specialize (T1 P); lra|specialize (T2 ltac:(lra)); lra]. }
    apply IZR_le in ZT. lra.
  - intros TP. destruct W as [W|(j & s & e & x & J & G & EX & SX & TI)]; [lia|].
    destruct (getz_in_range l (j - index)) as [sp K]; [unfold len; lia|]. destruct (asked_plays A _ sp K) as (s2 & s3 & G2 & _ & P2 & _). replace (index + (j - index))%Z with j in G2 by lia. rewrite G in G2. injection G2 as <-.
    exists (j - index)%Z, sp, e, s, x. replace (index + (j - index))%Z with j by lia. split; [exact K|]. destruct P2 as (S2 & X2 & _). unfold slot_end_x in EX. rewrite S2 in EX. do 3 (split; [assumption|]).
    pose proof (to_int_bounds _ _ TI) as [T1 T2]. assert (1 <= IZR t) by (apply IZR_le; lia). destruct (Rle_dec 0 (e - x)) as [P|P]; [specialize (T1 P); lra|specialize (T2 ltac:(lra)); lra].
Qed.

(** On the last node of a spline its velocity is the target velocity times the y scale. *)
Theorem C90_target_velocities_partial : asked -> forall velocities,
  target_velocities ev2 index (length l) = Some velocities -> forall k sp a b, getz l k = Some sp ->
  getz (nodes sp) (num_nodes sp - 2) = Some a -> getz (nodes sp) (num_nodes sp - 1) = Some b -> (nx a < nx b)%Z ->
  start_at p + sum (map (fun d => d * playback_rate p) (before ++ after)) = node_x b (x_granularity sp) ->
  exists s3 v, getz ev3 (index + k) = Some s3 /\ getz velocities k = Some v /\ slot_derivative s3 = y_scale p * v.
Proof.
  intros A vs V k sp a b K GA GB AB X. destruct (asked_plays A k sp K) as (s2 & s3 & G2 & G3 & P2 & RT & P3). rewrite map_app, sum_app, <- Rplus_assoc in X. rewrite X in P3.
  destruct A as (_ & _ & _ & _ & H). destruct (H k sp K) as ((O & _) & _). destruct (collect_getz _ _ _ _ _ V) as [_ GT]. pose proof (getz_Some _ _ _ K) as KR. unfold len in KR.
  destruct (GT k KR) as (s & v & G & F & L). rewrite G2 in G. injection G as <-. exists s3, v. split; [exact G3|]. split; [exact L|].
  pose proof (ok_granularity sp O) as GP. unfold slot_end_derivative in F. destruct P2 as (S2 & _). rewrite S2, RT in F. unfold end_derivative, back in F. fold (num_nodes sp) in F. rewrite GB in F. injection F as <-.
  destruct P3 as (_ & _ & y & d & SA & _ & _ & ->). match goal with |- ?r * (?c * _) = _ => transitivity (c * (r * d)); [ring|] end. f_equal. f_equal. pose proof (getz_Some _ _ _ GA) as RA. fold (num_nodes sp) in RA.
  assert (IA : IZR (nx a) + 1 <= IZR (nx b)) by (rewrite <- plus_IZR; apply IZR_le; lia). destruct SA as [sx SX LE SY D|ex' EX' LE EY' D|j a' b' J J' R _ SV].
  - unfold start_x, front in SX. destruct (getz (nodes sp) 0) as [f|] eqn:GF; [|discriminate]. injection SX as <-. pose proof (sorted_getz _ (ok_sorted sp O) _ _ _ _ GF GA ltac:(lia)) as Q. apply IZR_le in Q. unfold node_x in LE. nra.
  - unfold end_x, back in EX'. fold (num_nodes sp) in EX'. rewrite GB in EX'. injection EX' as <-. destruct LE as [LE|[LE _]]; [lra|lia].
  - assert (j = num_nodes sp - 2)%Z.
    { pose proof (getz_Some _ _ _ J') as RJ. fold (num_nodes sp) in RJ. destruct (Z.eq_dec j (num_nodes sp - 2)) as [|N]; [assumption|]. pose proof (sorted_getz _ (ok_sorted sp O) _ _ _ _ J' GA ltac:(lia)) as Q. apply IZR_le in Q. unfold node_x in R. nra. }
    subst j. replace (num_nodes sp - 2 + 1)%Z with (num_nodes sp - 1)%Z in J' by lia. destruct (C33_segments_join sp (num_nodes sp - 2) a b O GA) as [_ E]; [replace (num_nodes sp - 2 + 1)%Z with (num_nodes sp - 1)%Z by lia; exact GB|exact AB|]. congruence.
Qed.

(** The difference leads from the value shown to the target value: exactly, or up to whole
    turns and within the range if the motivator is modular. *)
Theorem C90_differences : asked -> forall targets diffs,
  target_values ev2 index (length l) = Some targets -> differences ev2 index (length l) = Some diffs -> forall k, (0 <= k < len l)%Z ->
  exists s v d, getz ev2 (index + k) = Some s /\ getz targets k = Some v /\ getz diffs k = Some d /\
    (valid (modular_range s) = false -> cur_y s + d = v) /\
    (start_ (modular_range s) < end_ (modular_range s) -> exists n : Z, cur_y s + d = v + IZR n * (end_ (modular_range s) - start_ (modular_range s)) /\
       start_ (modular_range s) < d <= end_ (modular_range s)).
Proof.
  intros A targets diffs T D k K. destruct (collect_getz _ _ _ _ _ T) as [_ GT]. destruct (collect_getz _ _ _ _ _ D) as [_ GD]. unfold len in K.
  destruct (GT k K) as (s & v & G & F & L). destruct (GD k K) as (s' & d & G' & F' & L'). rewrite G in G'. injection G' as <-. exists s, v, d. do 3 (split; [assumption|]).
  unfold slot_y_difference_to_end in F'. rewrite F in F'. unfold slot_normalize_y in F'. split.
  - intros V. rewrite V in F'. injection F' as <-. ring.
  - intros V. replace (valid (modular_range s)) with true in F' by (symmetry; unfold valid; apply Rleb_t; lra).
    destruct (C17_proof _ (v - cur_y s) V) as [(y & _ & B & (n & N) & C & _) _]. rewrite C in F'. injection F' as ->. exists n. split; [lra|exact B].
Qed.
End Playing.
Print Assumptions C90_target_values_partial.
Print Assumptions C90_target_velocities_partial.
Print Assumptions C90_target_time_partial.
Print Assumptions C90_differences.

(** SplineTime is where the first of the splines is, in whole units. *)
Theorem C90_spline_time : forall ev index t, spline_time ev index = Some t ->
  exists s x, getz ev index = Some s /\ slot_x s = Some x /\ (0 <= x -> IZR t <= x < IZR t + 1).
Proof.
  intros ev index t E. unfold spline_time in E. destruct (getz ev index) as [s|]; [|discriminate]. destruct (slot_x s) as [x|] eqn:SX; [|discriminate].
  exists s, x. split; [reflexivity|]. split; [exact SX|]. apply (to_int_bounds _ _ E).
Qed.
Print Assumptions C90_spline_time.

(** Shifted by 5 the target value is 0 although the motivator will be, and stay, at 5; at
    rate 2 the target time is 2 although the spline ends after 1. *)
Definition shifted : playback := Playback 0 0 2 5 1 false.
Theorem C90_shift_and_rate_refuted : exists ev1 ev2 s, set_splines [slot_default] 0 1 (Some [peak]) shifted = Some ev1 /\
  target_values ev1 0 1 = Some [0] /\ target_time ev1 0 1 = Some 2%Z /\
  advance_frames ev1 [5 / 4] = Some ev2 /\ getz ev2 0 = Some s /\ cur_y s = 5.
Proof.
  assert (OK : start_ok peak shifted). { split; [apply peak_ok|]. split; [intros; discriminate|]. cbn. lra. }
  destruct (C89_succeeds slot_default peak shifted [OpAdvanceFrame (5 / 4)] OK (or_introl eq_refl)) as (ev1 & ev2 & E1 & E2).
  { intros x W. cbn in W. subst x. cbn. unfold small_step. cbn. split; [lra|]. intros; exact I. }
  assert (AF : advance_frames ev1 [5 / 4] = Some ev2). { cbn [apply_ops apply_op] in E2. cbn [advance_frames]. destruct (advance_frame (5 / 4) ev1); exact E2. }
  assert (J : forall s, getz [slot_default] (0 + 0) = Some s -> source s = None \/ blend_x shifted <= 0) by (intros s G; injection G as <-; now left).
  destruct (tracks_rate [slot_default] 0 [peak] shifted ev1 [] ev1 0 peak E1 eq_refl eq_refl OK (Forall_nil _) J) as (s1 & x1 & G1 & (S1 & X1 & _) & _ & W1).
  destruct (tracks_rate [slot_default] 0 [peak] shifted ev1 [5 / 4] ev2 0 peak E1 AF eq_refl OK) as (s2 & x2 & G2 & (_ & _ & y & d & SA & CY & _) & _ & W2);
    [apply Forall_cons; [unfold small_step; cbn; lra|apply Forall_nil]|exact J|].
  cbn in W1, W2. subst x1 x2. exists ev1, ev2, s2. split; [exact E1|]. change (0 + 0)%Z with 0%Z in G1, G2.
  assert (EY : end_y peak = Some 0) by (change (end_y peak) with (Some (node_y (Node 2 0 0) (Rg 0 1))); rewrite peak_y0; reflexivity).
  assert (EX : end_x peak = Some 2) by (change (end_x peak) with (Some (node_x (Node 2 0 0) 1)); unfold node_x; cbn [nx]; f_equal; ring).
  split; [|split; [|split; [exact AF|split; [exact G2|]]]].
  - unfold target_values. cbn [collect]. rewrite G1. unfold slot_end_y. rewrite S1, EY. reflexivity.
  - unfold target_time. cbn [target_time_loop]. rewrite G1. unfold slot_end_x. rewrite S1, EX, X1. unfold to_int. rewrite (Rtrunc_IZR 2) by (try lia; lra). reflexivity.
  - rewrite CY, (at_end peak 2 0 _ y d peak_ok EX EY SA) by (cbn; lra). cbn. ring.
Qed.
Print Assumptions C90_shift_and_rate_refuted.

(** The same motivator meets the hypotheses of the theorems above. *)
Example C90_case : exists ev1 ev2, asked [slot_default] 0 [peak] shifted ev1 [] ev1 [5 / 4] ev2 /\
  target_values ev1 0 1 = Some [0] /\ 2 + x_granularity peak / 2 <= start_at shifted + sum (map (fun d => d * playback_rate shifted) ([] ++ [5 / 4])).
Proof.
  destruct C90_shift_and_rate_refuted as (ev1 & ev2 & s & E1 & T & _ & AF & _). exists ev1, ev2. split; [|split; [exact T|cbn; lra]].
  split; [exact E1|]. split; [reflexivity|]. split; [exact AF|]. split; [reflexivity|]. intros k sp K. assert (k = 0)%Z by (apply getz_Some in K; change (len [peak]) with 1%Z in K; lia). subst k. injection K as <-.
  split; [|split]. { split; [apply peak_ok|]. split; [intros; discriminate|]. cbn. lra. } { apply Forall_cons; [unfold small_step; cbn; lra|apply Forall_nil]. } intros s' G. injection G as <-. now left.
Qed.
