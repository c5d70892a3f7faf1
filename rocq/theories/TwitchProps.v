(** C128: Settled and Twitch.  Overshoot motivators are boosted and come to rest at the target
    they had; the motivators of other processors are not boosted. *)
From Verif Require Import RBase Base BaseFacts RangeModel CurveModel CompactSplineModel CompactSplineSpec EvaluatorModel EvaluatorSpec EvaluatorProofs SplineTargetModel SplineTargetProofs SplineTargetProps SplineClassModel TargetModel SplineQueryModel VectorMotivatorModel OvershootModel OvershootProps TwitchModel.
Local Open Scope R_scope.

(** The specification of "at the target and stopped". *)
Definition at_rest (s : settled) (difference velocity : R) : Prop := Rabs difference <= max_difference s /\ Rabs velocity <= settled_velocity s.
Lemma is_settled_iff s d v : is_settled s d v = true <-> at_rest s d v.
Proof.
  unfold is_settled, at_rest. rewrite andb_true_iff. split; intros [A B]; split.
  - destruct (Rleb_spec (Rabs d) (max_difference s)); [assumption|discriminate].
  - destruct (Rleb_spec (Rabs v) (settled_velocity s)); [assumption|discriminate].
  - now apply Rleb_t.
  - now apply Rleb_t.
Qed.

(** ** Settled *)
Lemma all_settled_iff s : forall ds vs, len ds = len vs -> (all_settled s ds vs = true <-> forall k d v, getz ds k = Some d -> getz vs k = Some v -> at_rest s d v).
Proof.
  induction ds as [|d ds IH]; intros [|v vs] L; rewrite ?len_cons in L; try (pose proof (len_nonneg ds)); try (pose proof (len_nonneg vs)); cbn [all_settled].
  - split; [intros _ k d v G; apply getz_Some in G; cbn in G; lia|reflexivity].
  - change (len (@nil R)) with 0%Z in L. pose proof (len_nonneg vs). lia.
  - change (len (@nil R)) with 0%Z in L. pose proof (len_nonneg ds). lia.
  - destruct (is_settled s d v) eqn:E.
    + rewrite IH by lia. apply is_settled_iff in E. split.
      * intros A k d' v' G G'. destruct (Z.eq_dec k 0) as [-> |N]; [cbn in G, G'; injection G as <-; injection G' as <-; exact E|]. pose proof (getz_Some _ _ _ G). apply (A (k - 1)%Z).
        { change (d :: ds) with ([d] ++ ds) in G. rewrite getz_app2 in G by (cbn; lia). exact G. }
        { change (v :: vs) with ([v] ++ vs) in G'. rewrite getz_app2 in G' by (cbn; lia). exact G'. }
      * intros A k d' v' G G'. pose proof (getz_Some _ _ _ G). apply (A (k + 1)%Z).
        { change (d :: ds) with ([d] ++ ds). rewrite getz_app2 by (cbn; lia). change (len [d]) with 1%Z. now replace (k + 1 - 1)%Z with k by lia. }
        { change (v :: vs) with ([v] ++ vs). rewrite getz_app2 by (cbn; lia). change (len [v]) with 1%Z. now replace (k + 1 - 1)%Z with k by lia. }
    + split; [discriminate|]. intros A. specialize (A 0%Z d v eq_refl eq_refl). apply is_settled_iff in A. congruence.
Qed.
(** An overshoot motivator is settled if every dimension is at its target and stopped (for the
    motivator at index 0: see C128_index_refuted). *)
Theorem C128_settled_partial : forall s st n b, overshoot_settled s st 0 n = Some b ->
  (b = true <-> forall k d y diff, (0 <= k < Z.of_nat n)%Z -> getz st k = Some (d, y) -> normalize_diff d (target_value d - y) = Some diff -> at_rest s diff (OvershootModel.velocity d)).
Proof.
  intros s st n b. unfold overshoot_settled. destruct (OvershootModel.differences st 0 n) as [ds|] eqn:D; [|discriminate]. destruct (OvershootModel.velocities st 0 n) as [vs|] eqn:V; [|discriminate]. intros H. injection H as <-.
  pose proof (C47_overshoot_difference_partial _ _ _ D) as CD. destruct (gather_getz _ _ _ _ D) as [LD _]. destruct (gather_getz _ _ _ _ V) as [LV GV]. rewrite all_settled_iff by lia. split.
  - intros A k d y diff K G N. destruct (CD k K) as (d' & y' & G' & E). rewrite G in G'. injection G' as <- <-. apply (A k); [congruence|]. rewrite GV by exact K. rewrite !Z.add_0_l, G. reflexivity.
  - intros A k d v G G'. pose proof (getz_Some _ _ _ G) as K. destruct (CD k ltac:(lia)) as (d' & y' & GG & E). rewrite G in E. rewrite GV, !Z.add_0_l, GG in G' by lia. injection G' as <-. apply (A k d' y' d); [lia|exact GG|now symmetry].
Qed.
Print Assumptions C128_settled_partial.

(** ** Twitch of an overshoot motivator *)
(** The motivator at index 0 gets the velocity, in the direction asked for, if and only if it
    is settled; its value and its target stay, and so does every other motivator. *)
Theorem C128_twitch_partial : forall dir v s st d y diff, getz st 0 = Some (d, y) -> normalize_diff d (target_value d - y) = Some diff ->
  exists st', overshoot_twitch dir v s 0 st = Some st' /\ len st' = len st /\ (forall j, j <> 0%Z -> getz st' j = getz st j) /\
    ((dir = TwitchNone \/ ~ at_rest s diff (OvershootModel.velocity d)) -> st' = st) /\
    (dir <> TwitchNone -> at_rest s diff (OvershootModel.velocity d) ->
      getz st' 0 = Some (OData (match dir with TwitchNegative => - v | _ => v end) (target_value d) (init_of d), y)).
Proof.
  intros dir v s st d y diff G N. assert (SE : overshoot_settled s st 0 1 = Some (is_settled s diff (OvershootModel.velocity d))).
  { unfold overshoot_settled, OvershootModel.differences, OvershootModel.velocities. cbn [gather]. rewrite Z.add_0_l, G. cbn [fst snd]. rewrite N. cbn [all_settled]. destruct (is_settled _ _ _); reflexivity. }
  unfold overshoot_twitch. rewrite SE. destruct dir.
  - exists st. repeat split; try reflexivity. congruence.
  - destruct (is_settled s diff (OvershootModel.velocity d)) eqn:E.
    + unfold OvershootModel.values. rewrite G. cbn [fst snd set_target_index]. change (0 =? 0)%Z with true. cbv iota. destruct (setz_Some st 0 (OData (twitch_velocity TwitchPositive v) (target_value d) (init_of d), y) (getz_Some _ _ _ G)) as [st' S]. rewrite S. exists st'.
      split; [reflexivity|]. split; [now apply setz_len in S|]. split; [intros j J; apply (getz_setz_neq _ _ _ _ _ S); congruence|]. apply is_settled_iff in E. split; [tauto + (intros [X|X]; [discriminate|contradiction])|]. intros _ _. exact (getz_setz_eq _ _ _ _ S).
    + exists st. repeat split; try reflexivity. intros _ A. apply is_settled_iff in A. congruence.
  - destruct (is_settled s diff (OvershootModel.velocity d)) eqn:E.
    + unfold OvershootModel.values. rewrite G. cbn [fst snd set_target_index]. change (0 =? 0)%Z with true. cbv iota. destruct (setz_Some st 0 (OData (twitch_velocity TwitchNegative v) (target_value d) (init_of d), y) (getz_Some _ _ _ G)) as [st' S]. rewrite S. exists st'.
      split; [reflexivity|]. split; [now apply setz_len in S|]. split; [intros j J; apply (getz_setz_neq _ _ _ _ _ S); congruence|]. apply is_settled_iff in E. split; [intros [X|X]; [discriminate|contradiction]|]. intros _ _. exact (getz_setz_eq _ _ _ _ S).
    + exists st. repeat split; try reflexivity. intros _ A. apply is_settled_iff in A. congruence.
Qed.
Print Assumptions C128_twitch_partial.
(** At another index Difference uses the value of the motivator at index 0.  So a motivator
    that is at its target and stopped is not boosted, whatever the thresholds below 5... *)
Theorem C128_index_refuted : exists st d y, getz st 1 = Some (d, y) /\ target_value d = y /\ OvershootModel.velocity d = 0 /\
  forall dir v s, max_difference s < 5 -> overshoot_twitch dir v s 1 st = Some st.
Proof.
  exists [(OData 0 0 demo_init, 0); (OData 0 5 demo_init, 5)], (OData 0 5 demo_init), 5. do 3 (split; [reflexivity|]). intros dir v s M. unfold overshoot_twitch.
  assert (E : overshoot_settled s [(OData 0 0 demo_init, 0); (OData 0 5 demo_init, 5)] 1 1 = Some false); [|rewrite E; destruct dir; reflexivity]. transitivity (Some (all_settled s [5 - 0] [0])); [reflexivity|]. cbn [all_settled]. unfold is_settled. rewrite (Rleb_f (Rabs (5 - 0))); [reflexivity|]. replace (5 - 0) with 5 by ring. rewrite Rabs_pos_eq by lra. lra.
Qed.
Print Assumptions C128_index_refuted.
(** ... and one that is 5 away from its target is. *)
Theorem C128_far_refuted : exists st d y, getz st 1 = Some (d, y) /\ target_value d - y = 5 /\
  forall s, 0 <= max_difference s -> 0 <= settled_velocity s -> exists st', overshoot_twitch TwitchPositive 3 s 1 st = Some st' /\ getz st' 1 = Some (OData 3 (target_value d) (init_of d), y).
Proof.
  exists [(OData 0 5 demo_init, 5); (OData 0 5 demo_init, 0)], (OData 0 5 demo_init), 0. split; [reflexivity|]. split; [cbn; ring|]. intros s A B. unfold overshoot_twitch.
  assert (E : overshoot_settled s [(OData 0 5 demo_init, 5); (OData 0 5 demo_init, 0)] 1 1 = Some true); [|rewrite E; eexists; split; reflexivity]. transitivity (Some (all_settled s [5 - 5] [0])); [reflexivity|]. cbn [all_settled]. unfold is_settled. rewrite !Rleb_t; [reflexivity| |]; [rewrite Rabs_R0; exact B|]. replace (5 - 5) with 0 by ring. rewrite Rabs_R0. exact A.
Qed.
Print Assumptions C128_far_refuted.

(** ** After the boost *)
(** Steps and frames of any lengths. *)
Fixpoint frames (fuel : nat) (dts : list Z) (x : odata * R) : option (odata * R) :=
  match dts with [] => Some x | dt :: l => x' <- advance_index fuel dt x ;; frames fuel l x' end.
Lemma advance_index_keeps fuel : forall dt x x', advance_index fuel dt x = Some x' -> target_value (fst x') = target_value (fst x) /\ init_of (fst x') = init_of (fst x) /\
  (x' = x \/ (OvershootModel.velocity (fst x') = 0 -> snd x' = target_value (fst x))).
Proof.
  induction fuel as [|fuel IH]; intros dt x x'; cbn [advance_index]; (destruct (Z.ltb_spec 0 dt) as [P|P]; [|intros H; injection H as <-; auto]); [discriminate|].
  set (d := Z.min _ _). destruct (step d x) as [x1|] eqn:S; [|discriminate]. intros H. apply step_keeps in S. destruct S as (I & T & _ & V). destruct (IH _ _ _ H) as (T' & I' & R). split; [congruence|]. split; [congruence|]. right. destruct R as [-> |R].
  - intros Z. unfold calculate_value in V. rewrite Reqb_t in V by exact Z. injection V as <-. exact T.
  - rewrite <- T. exact R.
Qed.
(** Whatever frames follow a boost, the target is the one from before; and when the motivator
    has stopped after a frame, it is exactly at that target. *)
Theorem C128_returns : forall fuel dts x x', frames fuel dts x = Some x' -> target_value (fst x') = target_value (fst x) /\
  (OvershootModel.velocity (fst x) <> 0 -> OvershootModel.velocity (fst x') = 0 -> snd x' = target_value (fst x)).
Proof.
  intros fuel. induction dts as [|dt dts IH]; intros x x' H; cbn [frames] in H.
  - injection H as <-. split; [reflexivity|]. intros A B. contradiction.
  - destruct (advance_index fuel dt x) as [x1|] eqn:E; [|discriminate]. destruct (advance_index_keeps _ _ _ _ E) as (T & I & R). destruct (IH _ _ H) as [T' R']. split; [congruence|]. intros A B. destruct (Req_dec (OvershootModel.velocity (fst x1)) 0) as [Z|NZ].
    + assert (Y1 : snd x1 = target_value (fst x1)) by (destruct R as [-> |R]; [contradiction|rewrite T; now apply R]). rewrite <- T. clear - H B Z Y1.
      assert (G : forall dts x, snd x = target_value (fst x) \/ OvershootModel.velocity (fst x) <> 0 -> forall x', frames fuel dts x = Some x' -> OvershootModel.velocity (fst x') = 0 -> snd x' = target_value (fst x)).
      { clear. induction dts as [|dt dts IH]; intros x C x' H B; cbn [frames] in H; [injection H as <-; destruct C; [assumption|contradiction]|]. destruct (advance_index fuel dt x) as [x1|] eqn:E; [|discriminate]. destruct (advance_index_keeps _ _ _ _ E) as (T & I & R). rewrite <- T. apply (IH x1); [|exact H|exact B].
        destruct R as [-> |R]; [exact C|]. destruct (Req_dec (OvershootModel.velocity (fst x1)) 0) as [Z|NZ]; [left; rewrite T; now apply R|now right]. }
      exact (G dts x1 (or_introl Y1) x' H B).
    + rewrite <- T. now apply R'.
Qed.
Print Assumptions C128_returns.
(** The first step after the boost of a motivator at its target: it moves in the direction
    asked for, unless the boost is below the motivator's own thresholds; then nothing moves. *)
Theorem C128_boost : forall dt b target i m, (0 < dt)%Z -> o_modular i = false -> o_max_delta i = Some m -> 0 < m -> 0 < o_max_velocity i -> b <> 0 ->
  0 <= max_difference (o_at_target i) -> (forall r, o_range i = Some r -> start_ r < target < end_ r) ->
  exists d y, step dt (OData b target i, target) = Some (d, y) /\ target_value d = target /\
    (Rmin (Rabs b) (o_max_velocity i) <= settled_velocity (o_at_target i) -> OvershootModel.velocity d = 0 /\ y = target) /\
    (settled_velocity (o_at_target i) < Rmin (Rabs b) (o_max_velocity i) -> 0 < (y - target) * b /\ Rabs (y - target) <= m).
Proof.
  intros dt b t i m P NM MD M MV B MX RG. unfold step, calculate_velocity, normalize_diff. cbn [fst snd init_of target_value OvershootModel.velocity]. rewrite NM. replace (t - t) with 0 by ring. rewrite Rmult_0_r, (Rltb_f 0 0) by lra. cbv zeta.
  replace (b + IZR dt * (0 * o_accel_per_difference i * 1)) with b by ring. set (v := clamp_velocity i b). assert (AV : Rabs v = Rmin (Rabs b) (o_max_velocity i)) by (unfold v, clamp_velocity, clamp_between; rabs; minmax; lra).
  assert (SG : 0 < v * b) by (unfold v, clamp_velocity, clamp_between; destruct (Rlt_dec 0 b); minmax; nra). apply IZR_lt in P.
  unfold at_target, is_settled. rewrite Rabs_R0, (Rleb_t 0 _ MX). cbn [andb]. destruct (Rleb_spec (Rabs v) (settled_velocity (o_at_target i))) as [L|L].
  - unfold calculate_value. cbn [OvershootModel.velocity target_value]. rewrite Reqb_t by reflexivity. do 2 eexists. split; [reflexivity|]. split; [reflexivity|]. split; [split; reflexivity|]. intros X. lra.
  - assert (NZ : v <> 0) by (intros Z; rewrite Z in SG; lra). unfold calculate_value, clamp_delta, normalize_diff. cbn [OvershootModel.velocity target_value init_of]. rewrite Reqb_f by exact NZ. rewrite MD, NM. do 2 eexists. split; [reflexivity|]. split; [reflexivity|]. split; [intros X; lra|]. intros _. unfold clamp_range.
    set (q := clamp_between (IZR dt * v) (- m) m). assert (Q : 0 < q * b /\ Rabs q <= m).
    { split; [|apply clamp_between_bound; lra]. assert (0 < (IZR dt * v) * b) by (rewrite Rmult_assoc; apply Rmult_lt_0_compat; lra). unfold q, clamp_between. destruct (Rlt_dec 0 b) as [PB|NB].
      - assert (0 < IZR dt * v) by nra. minmax; nra.
      - assert (IZR dt * v < 0) by nra. minmax; nra. }
    destruct Q as [Q1 Q2]. destruct (o_range i) as [r|].
    + specialize (RG r eq_refl). unfold clamp. destruct (Rlt_dec 0 b) as [PB|NB].
      * assert (0 < q) by nra. revert Q2. rabs; minmax; intros; split; nra.
      * assert (q < 0) by nra. revert Q2. rabs; minmax; intros; split; nra.
    + replace (t + q - t) with q by ring. split; assumption.
Qed.
Print Assumptions C128_boost.
(** "A slight boost that then settles back": not always.  With an acceleration of 2, no extra
    damping and frames of one, a boosted motivator swings around its target for ever. *)
Theorem C128_settles_refuted : exists i, o_modular i = false /\ max_difference (o_at_target i) = 1 / 2 /\ settled_velocity (o_at_target i) = 1 / 2 /\
  forall n, exists x, frames 1 (repeat 1%Z n) (OData 1 0 i, 0) = Some x /\ OvershootModel.velocity (fst x) <> 0 /\ (snd x = 0 \/ Rabs (snd x) = 1).
Proof.
  set (i := OInit None false 10 (Some 10) (SettledAt (1 / 2) (1 / 2)) 2 1 1). exists i. do 3 (split; [reflexivity|]).
  assert (ST : forall v x, (v = 1 \/ v = -1) -> x = 0 -> advance_index 1 1 (OData v 0 i, x) = Some (OData v 0 i, v)).
  { intros v x V ->. cbn [advance_index]. change (0 <? 1)%Z with true. cbn [fst init_of i o_max_delta_time]. fold i. change (Z.min 1 1) with 1%Z. replace (step 1 (OData v 0 i, 0)) with (Some (OData v 0 i, v)); [reflexivity|].
    unfold step, calculate_velocity, normalize_diff. cbn [i fst snd init_of target_value OvershootModel.velocity o_modular]. fold i. replace (clamp_velocity i _) with v by (unfold clamp_velocity, clamp_between, i; cbn [o_max_velocity o_accel_per_difference]; destruct V as [-> | ->]; minmax; lra).
    unfold at_target, is_settled. cbn [i o_at_target settled_velocity max_difference]. rewrite (Rleb_f (Rabs v)) by (destruct V as [-> | ->]; rabs; lra). rewrite andb_false_r. unfold calculate_value, clamp_delta, normalize_diff, clamp_range. cbn [i OvershootModel.velocity init_of o_max_delta o_modular o_range]. rewrite Reqb_f by (destruct V; lra).
    cbn [i o_max_delta o_modular o_range]. replace (0 + clamp_between (1 * v) (- (10)) 10) with v; [reflexivity|]. unfold clamp_between. destruct V as [-> | ->]; minmax; lra. }
  assert (BK : forall v, (v = 1 \/ v = -1) -> advance_index 1 1 (OData v 0 i, v) = Some (OData (- v) 0 i, 0)).
  { intros v V. cbn [advance_index]. change (0 <? 1)%Z with true. cbn [fst init_of i o_max_delta_time]. fold i. change (Z.min 1 1) with 1%Z. replace (step 1 (OData v 0 i, v)) with (Some (OData (- v) 0 i, 0)); [reflexivity|].
    unfold step, calculate_velocity, normalize_diff. cbn [i fst snd init_of target_value OvershootModel.velocity o_modular]. fold i. rewrite (Rltb_t (v * (0 - v))) by (destruct V as [-> | ->]; lra). replace (clamp_velocity i _) with (- v) by (unfold clamp_velocity, clamp_between, i; cbn [o_max_velocity o_accel_per_difference o_wrong_direction_multiplier]; destruct V as [-> | ->]; minmax; lra).
    unfold at_target, is_settled. cbn [i o_at_target settled_velocity max_difference]. rewrite (Rleb_f (Rabs (- v))) by (destruct V as [-> | ->]; rabs; lra). rewrite andb_false_r. unfold calculate_value, clamp_delta, normalize_diff, clamp_range. cbn [i OvershootModel.velocity init_of o_max_delta o_modular o_range]. rewrite Reqb_f by (destruct V; lra).
    cbn [i o_max_delta o_modular o_range]. replace (v + clamp_between (1 * - v) (- (10)) 10) with 0; [reflexivity|]. unfold clamp_between. destruct V as [-> | ->]; minmax; lra. }
  assert (G : forall n v x, (v = 1 \/ v = -1) -> (x = 0 \/ x = v) -> exists y, frames 1 (repeat 1%Z n) (OData v 0 i, x) = Some y /\ OvershootModel.velocity (fst y) <> 0 /\ (snd y = 0 \/ Rabs (snd y) = 1)).
  { induction n as [|n IH]; intros v x V X; cbn [repeat frames].
    - eexists. split; [reflexivity|]. cbn. split; [destruct V; lra|]. destruct X as [-> | ->]; [now left|right; destruct V as [-> | ->]; rabs; lra].
    - destruct X as [-> | ->]; [rewrite ST by auto; apply IH; auto|]. rewrite BK by exact V. apply IH; [destruct V as [-> | ->]; [right|left]; lra|now left]. }
  intros n. apply G; [now left|now left].
Qed.
Print Assumptions C128_settles_refuted.

(** ** Twitch of a spline motivator *)
(** A settled spline motivator gets no boost at all: it shows the value that it had, for all
    frames that follow, with a velocity of 0. *)
Theorem C128_spline_refuted : forall dir v st index ev s, dir <> TwitchNone -> getz ev index = Some s -> valid (modular_range s) = false -> spline_settled st ev index 1 = Some true ->
  exists ev1, spline_twitch dir v st index ev = Some ev1 /\
  forall deltas ev2 s2, Forall (fun d => 0 <= d <= 2147000000) deltas -> advance_frames ev1 deltas = Some ev2 -> getz ev2 index = Some s2 ->
    cur_y s2 = cur_y s /\ slot_derivative s2 = 0.
Proof.
  intros dir v st index ev s ND G NM SE. set (b := twitch_velocity dir v). set (t := tar_current (cur_y s) b).
  assert (TW : spline_twitch dir v st index ev = (q <- set_target ev index new_local t ;; Some (snd q))).
  { unfold spline_twitch. rewrite SE. replace (value ev index 1) with (Some [cur_y s]) by (unfold value; cbn [collect]; rewrite G; reflexivity). change (getz [cur_y s] 0) with (Some (cur_y s)). unfold t, b. destruct dir; [contradiction| |]; cbn [set_targets]; destruct (set_target _ _ _ _); reflexivity. }
  assert (OV : override_current s t = true) by reflexivity. assert (WP : waypoints s t = []) by reflexivity. assert (AP : apart s t) by (unfold apart; rewrite WP; constructor).
  destruct (C44_succeeds ev index new_local t s G NM) as (sp & ev1 & E); [discriminate|cbn; lia|exact AP|]. exists ev1. rewrite TW, E. split; [reflexivity|]. intros deltas ev2 s2 F AF G2.
  assert (RM : room new_local) by (unfold room; cbn; lia). pose proof (apart_built _ _ _ _ _ _ _ G E RM AP) as B. pose proof (built_grain _ _ _ _ B) as GR.
  assert (X1 : x_granularity sp = 1). { rewrite GR. unfold grain. cbn. unfold recommend_x_granularity. rewrite Rleb_t by lra. reflexivity. }
  destruct (run_target ev index new_local t sp ev1 s deltas ev2 s2 G E B AF) as (d & SA & SD); [|exact G2|].
  { rewrite Forall_forall in *. intros x I. specialize (F x I). unfold small_step. rewrite X1. lra. }
  destruct (bt_start _ _ _ _ B) as (y & d0 & last & ys & m & made & SV & _ & L & EY & YR & _ & MK & FM & N & X0 & _).
  rewrite WP in FM. unfold calls_of in FM. cbn [combine map] in FM. inversion FM; subst made. clear FM.
  assert (Y : y = cur_y s). { unfold start_value in SV. change (getz t 0) with (Some (MNode (cur_y s) b 0 Closest)) in SV. cbn [mn_value] in SV. rewrite OV in SV. unfold slot_node_value in SV. rewrite NM in SV. congruence. } subst y.
  assert (NY : node_y m (y_range sp) = cur_y s).
  { rewrite YR. unfold calculate_y_range. rewrite NM. unfold value_range, t, tar_current, target_of1. cbn [fold_left mn_value start_ end_]. unfold node_y, lerp, lengthen, length_. cbn [start_ end_]. rewrite (Rmin_left (cur_y s) (cur_y s)), (Rmax_left (cur_y s) (cur_y s)) by lra. field. }
  destruct SA as [sx A1 A2 A3 A4|ex A1 A2 A3 A4|j a c J J'].
  - unfold start_y, front in A3. rewrite N in A3. change (Some (node_y m (y_range sp)) = Some (cur_y s2)) in A3. split; [congruence|congruence].
  - unfold end_y, back, num_nodes in A3. rewrite N in A3. change (Some (node_y m (y_range sp)) = Some (cur_y s2)) in A3. split; [congruence|congruence].
  - rewrite N in J, J'. apply getz_Some in J. apply getz_Some in J'. cbn in J, J'. lia.
Qed.
Print Assumptions C128_spline_refuted.

(** ** Cases *)
(** Two motivators at rest; the first is boosted downwards and then moves. *)
Example C128_case : exists st, overshoot_twitch TwitchNegative 2 (SettledAt 1 1) 0 [(OData 0 10 demo_init, 10); (OData 1 0 demo_init, 7)] = Some st /\ getz st 0 = Some (OData (-2) 10 demo_init, 10) /\ getz st 1 = Some (OData 1 0 demo_init, 7) /\ step 1 (OData (-2) 10 demo_init, 10) = Some (OData (-2) 10 demo_init, 8).
Proof.
  destruct (C128_twitch_partial TwitchNegative 2 (SettledAt 1 1) [(OData 0 10 demo_init, 10); (OData 1 0 demo_init, 7)] (OData 0 10 demo_init) 10 0) as (st & E & L & O & _ & B); [reflexivity|cbn; f_equal; ring|].
  exists st. split; [exact E|]. split; [apply B; [discriminate|]; split; cbn; rewrite Rabs_R0; lra|]. split; [rewrite O by lia; reflexivity|].
  unfold step, calculate_velocity, normalize_diff. cbn [demo_init fst snd init_of target_value OvershootModel.velocity o_modular]. fold demo_init. replace (clamp_velocity demo_init _) with (-2) by (unfold clamp_velocity, clamp_between, demo_init; cbn [o_max_velocity o_accel_per_difference]; rewrite Rltb_f by lra; minmax; lra).
  unfold at_target, is_settled. cbn [demo_init o_at_target settled_velocity max_difference]. rewrite (Rleb_f (Rabs (-2))) by (rabs; lra). rewrite andb_false_r. unfold calculate_value, clamp_delta, normalize_diff, clamp_range. cbn [OvershootModel.velocity init_of demo_init o_max_delta o_modular o_range]. rewrite Reqb_f by lra.
  cbn [demo_init o_max_delta o_modular o_range]. repeat f_equal. unfold clamp, clamp_between. cbn [start_ end_]. minmax; lra.
Qed.
(** A spline motivator that has reached its target, 3, at the end of a spline of one node: it
    is settled with the thresholds 0, and a boost of 5 leaves it at 3 for good. *)
Definition held : slot := Slot 1 0 1 (Some (Spline (Rg 3 3) 1 [Node 0 0 0] 1)) kInvalidSplineIndex false range_default 0 (Some 0) (Cubic 0 0 0 3) 3.
Example C128_spline_case : spline_settled (SettledAt 0 0) [held] 0 1 = Some true /\
  exists ev1, spline_twitch TwitchPositive 5 (SettledAt 0 0) 0 [held] = Some ev1 /\
  forall deltas ev2 s2, Forall (fun d => 0 <= d <= 2147000000) deltas -> advance_frames ev1 deltas = Some ev2 -> getz ev2 0 = Some s2 -> cur_y s2 = 3 /\ slot_derivative s2 = 0.
Proof.
  assert (NM : valid range_default = false) by (unfold valid, range_default; cbn [start_ end_]; rewrite Rleb_f by lra; reflexivity).
  assert (S : spline_settled (SettledAt 0 0) [held] 0 1 = Some true).
  { assert (D : slot_y_difference_to_end held = Some 0).
    { transitivity (slot_normalize_y held (node_y (Node 0 0 0) (Rg 3 3) - 3)); [reflexivity|]. unfold slot_normalize_y. cbn [held modular_range]. rewrite NM. f_equal. unfold node_y, lerp. cbn [start_ end_]. ring. }
    assert (V : slot_derivative held = 0) by (unfold slot_derivative, kderiv, held; cbn [rate curve cubic_x k3 k2 k1 k0]; ring).
    assert (DS : difference [held] 0 1 = Some [0]). { change (difference [held] 0 1) with (collect slot_y_difference_to_end [held] 0 1). unfold collect. change (getz [held] 0) with (Some held). cbv beta iota. rewrite D. reflexivity. }
    unfold spline_settled. rewrite DS. change (Some (all_settled (SettledAt 0 0) [0] [slot_derivative held]) = Some true). rewrite V.
    cbn [all_settled]. unfold is_settled. cbn [settled_velocity max_difference]. rewrite Rabs_R0, Rleb_t by lra. reflexivity. }
  split; [exact S|]. exact (C128_spline_refuted TwitchPositive 5 (SettledAt 0 0) 0 [held] held ltac:(discriminate) eq_refl NM S).
Qed.
(** A boost below the motivator's own thresholds: it stops in the frame that follows, at its target. *)
Example C128_boost_case : exists x, frames 1 [1%Z] (OData (1 / 2) 10 demo_init, 10) = Some x /\ OvershootModel.velocity (fst x) = 0 /\ snd x = 10.
Proof.
  destruct (C128_boost 1 (1 / 2) 10 demo_init 2) as (d & y & E & T & S & _); [lia|reflexivity|reflexivity|lra|cbn; lra|lra|cbn; lra| |].
  { intros r R. injection R as <-. cbn. lra. }
  destruct S as [V Y]. { rewrite (Rabs_pos_eq (1 / 2)) by lra. cbn. minmax; lra. }
  exists (d, y). split; [|split; [exact V|exact Y]]. cbn [frames advance_index]. change (0 <? 1)%Z with true. cbn [fst init_of]. change (Z.min 1 (o_max_delta_time demo_init)) with 1%Z. rewrite E. reflexivity.
Qed.
