(** C45, C46 and the overshoot part of C47. *)
From Verif Require Import RBase BaseFacts RangeModel RangeProofs OvershootModel.

(** The steps that a frame is cut into. *)
Fixpoint steps (dts : list Z) (x : odata * R) : option (odata * R) :=
  match dts with [] => Some x | dt :: l => x' <- step dt x ;; steps l x' end.
Fixpoint total (l : list Z) : Z := match l with [] => 0 | x :: l' => (x + total l')%Z end.

Lemma step_keeps dt x x' : step dt x = Some x' -> init_of (fst x') = init_of (fst x) /\ target_value (fst x') = target_value (fst x) /\
  calculate_velocity dt (fst x) (snd x) = Some (velocity (fst x')) /\ calculate_value dt (fst x') (snd x) = Some (snd x').
Proof.
  unfold step. destruct (calculate_velocity dt (fst x) (snd x)) as [v|]; [|discriminate]. destruct (calculate_value _ _ _) as [y|] eqn:E; [|discriminate].
  intros H. injection H as <-. auto.
Qed.

(** ** C46 *)
(** With a positive maximal step, a frame is done after finitely many steps: positive ones
    that are no longer than the maximum and add up to exactly the frame time. *)
Theorem C46_consumes_partial : forall delta_time x, (0 < o_max_delta_time (init_of (fst x)))%Z ->
  exists dts, total dts = Z.max 0 delta_time /\ Forall (fun dt => 0 < dt <= o_max_delta_time (init_of (fst x)))%Z dts /\
    forall fuel, (Z.to_nat delta_time <= fuel)%nat -> advance_index fuel delta_time x = steps dts x.
Proof.
  intros delta_time x M. remember (Z.to_nat delta_time) as n eqn:N. revert delta_time N. induction n as [n IH] using lt_wf_ind. intros delta_time N.
  destruct (Z.ltb_spec 0 delta_time) as [P|P].
  - set (dt := Z.min delta_time (o_max_delta_time (init_of (fst x)))) in *.
    assert (H : exists dts, total dts = Z.max 0 (delta_time - dt) /\ Forall (fun dt => 0 < dt <= o_max_delta_time (init_of (fst x)))%Z dts /\
      forall x', init_of (fst x') = init_of (fst x) -> forall fuel, (Z.to_nat (delta_time - dt) <= fuel)%nat -> advance_index fuel (delta_time - dt) x' = steps dts x').
    { clear IH. generalize (delta_time - dt)%Z as r. intros r. clear - M. remember (Z.to_nat r) as n eqn:N. revert r N.
      induction n as [n IH] using lt_wf_ind. intros r N. destruct (Z.ltb_spec 0 r) as [P|P].
      - set (dt := Z.min r (o_max_delta_time (init_of (fst x)))) in *. destruct (IH (Z.to_nat (r - dt)) ltac:(lia) (r - dt)%Z eq_refl) as (dts & T & F & A).
        exists (dt :: dts). split; [cbn [total]; lia|]. split; [constructor; [lia|exact F]|]. intros x' E fuel L. destruct fuel as [|fuel]; [lia|]. cbn [advance_index steps].
        destruct (Z.ltb_spec 0 r) as [_|?]; [|lia]. rewrite E. fold dt. destruct (step dt x') as [x''|] eqn:S; [|reflexivity].
        apply step_keeps in S. apply A; [destruct S; congruence|lia].
      - exists []. split; [cbn; lia|]. split; [constructor|]. intros x' _ fuel _. destruct fuel; cbn [advance_index steps]; (destruct (Z.ltb_spec 0 r); [lia|reflexivity]). }
    destruct H as (dts & T & F & A). exists (dt :: dts). split; [cbn [total]; lia|]. split; [constructor; [lia|exact F]|].
    intros fuel L. destruct fuel as [|fuel]; [lia|]. cbn [advance_index steps]. destruct (Z.ltb_spec 0 delta_time) as [_|?]; [|lia]. fold dt.
    destruct (step dt x) as [x'|] eqn:S; [|reflexivity]. apply step_keeps in S. apply A; [tauto|lia].
  - exists []. split; [cbn; lia|]. split; [constructor|]. intros fuel _. destruct fuel; cbn [advance_index steps]; (destruct (Z.ltb_spec 0 delta_time); [lia|reflexivity]).
Qed.
Print Assumptions C46_consumes_partial.

(** With the default maximal step, zero, no frame with a positive time ever ends, although
    no single step fails.  (set_max_delta is called here, the rest is the default.) *)
Theorem C46_terminates_refuted : exists i, i = OInit None false 0 (Some 1) (SettledAt 0 0) 0 0 (o_max_delta_time oinit_default) /\
  (forall x dt, init_of (fst x) = i -> step dt x <> None) /\
  forall x delta_time fuel, init_of (fst x) = i -> (0 < delta_time)%Z -> advance_index fuel delta_time x = None.
Proof.
  eexists. split; [reflexivity|]. set (i := OInit _ _ _ _ _ _ _ _). assert (ST : forall x dt, init_of (fst x) = i -> step dt x <> None).
  { intros [[v t j] y] dt. cbn [fst init_of]. intros ->. unfold step, calculate_velocity, calculate_value, normalize_diff, clamp_delta. cbn [fst snd init_of i o_modular o_max_delta].
    destruct (Reqb _ 0); discriminate. }
  split; [exact ST|]. intros x delta_time fuel. revert x. induction fuel as [|fuel IH]; intros x E P; cbn [advance_index]; (destruct (Z.ltb_spec 0 delta_time) as [_|?]; [|lia]); [reflexivity|].
  rewrite E. cbn [i o_max_delta_time oinit_default]. rewrite Z.min_r by lia. rewrite Z.sub_0_r. destruct (step 0 x) as [x'|] eqn:S; [|reflexivity].
  apply step_keeps in S. apply IH; [destruct S; congruence|exact P].
Qed.
Print Assumptions C46_terminates_refuted.

(** A whole frame: every index gets its own frame, whatever the others are. *)
Theorem C46_frame : forall fuel delta_time st st', advance_frame fuel delta_time st = Some st' ->
  len st' = len st /\ forall i x, getz st i = Some x -> exists x', advance_index fuel delta_time x = Some x' /\ getz st' i = Some x'.
Proof.
  intros fuel delta_time. induction st as [|x st IH]; intros st' H; cbn [advance_frame] in H.
  - injection H as <-. split; [reflexivity|]. intros i y G. apply getz_Some in G. cbn in G. lia.
  - destruct (advance_index fuel delta_time x) as [x'|] eqn:E; [|discriminate]. destruct (advance_frame fuel delta_time st) as [r|]; [|discriminate].
    injection H as <-. destruct (IH r eq_refl) as [L A]. rewrite !len_cons. split; [lia|]. intros i y G. pose proof (getz_Some _ _ _ G) as R.
    destruct (Z.eq_dec i 0) as [->|NZ]; [cbn in G; injection G as <-; exists x'; auto|].
    change (x :: st) with ([x] ++ st) in G. change (x' :: r) with ([x'] ++ r). rewrite getz_app2 in G by (change (len [x]) with 1%Z; lia).
    destruct (A _ _ G) as (y' & Ey & Gy). exists y'. split; [exact Ey|]. rewrite getz_app2 by (change (len [x']) with 1%Z; lia). exact Gy.
Qed.

(** ** C45 *)
(** Everything that holds after a step from any state holds after a frame of positive time. *)
Lemma frame_ends_with_step fuel : forall delta_time x x', (0 < delta_time)%Z -> advance_index fuel delta_time x = Some x' ->
  exists dt y, step dt y = Some x' /\ init_of (fst y) = init_of (fst x) /\ target_value (fst y) = target_value (fst x).
Proof.
  induction fuel as [|fuel IH]; intros delta_time x x' P; cbn [advance_index]; (destruct (Z.ltb_spec 0 delta_time) as [_|?]; [|lia]); [discriminate|].
  set (dt := Z.min _ _). destruct (step dt x) as [x1|] eqn:S; [|discriminate]. intros H. pose proof (step_keeps _ _ _ S) as (K1 & K2 & _).
  destruct (Z.ltb_spec 0 (delta_time - dt)) as [P'|P'].
  - destruct (IH _ _ _ P' H) as (dt' & y & A & B & C). exists dt', y. split; [exact A|]. split; congruence.
  - destruct fuel; cbn [advance_index] in H; (destruct (Z.ltb_spec 0 (delta_time - dt)); [lia|]); injection H as <-; exists dt, x; auto.
Qed.

Lemma clamp_between_bound x m : 0 <= m -> Rabs (clamp_between x (- m) m) <= m.
Proof. intros M. unfold clamp_between. apply Rabs_le. minmax; lra. Qed.

Theorem C45_velocity : forall fuel delta_time x x', (0 < delta_time)%Z -> 0 <= o_max_velocity (init_of (fst x)) ->
  advance_index fuel delta_time x = Some x' -> Rabs (velocity (fst x')) <= o_max_velocity (init_of (fst x)).
Proof.
  intros fuel delta_time x x' P M H. destruct (frame_ends_with_step _ _ _ _ P H) as (dt & y & S & I & _). apply step_keeps in S. destruct S as (_ & _ & V & _).
  rewrite <- I in *. revert V. unfold calculate_velocity. destruct (normalize_diff _ _) as [diff|]; [|discriminate]. cbv zeta. intros V. injection V as <-.
  destruct (at_target _ _ _); [rewrite Rabs_R0; exact M|]. unfold clamp_velocity. now apply clamp_between_bound.
Qed.
Print Assumptions C45_velocity.

(** A moving non-modular value that is inside its range moves by no more than max_delta. *)
Theorem C45_max_delta_partial : forall dt x x' m, o_modular (init_of (fst x)) = false -> o_max_delta (init_of (fst x)) = Some m -> 0 <= m ->
  (forall r, o_range (init_of (fst x)) = Some r -> start_ r <= snd x <= end_ r) ->
  step dt x = Some x' -> velocity (fst x') <> 0 -> Rabs (snd x' - snd x) <= m.
Proof.
  intros dt x x' m NM MD M RG S NZ. apply step_keeps in S. destruct S as (I & _ & _ & V). unfold calculate_value in V. rewrite Reqb_f in V by exact NZ.
  unfold clamp_delta, normalize_diff, clamp_range in V. rewrite I, MD, NM in V. injection V as <-. set (delta := IZR dt * velocity (fst x')).
  pose proof (clamp_between_bound delta m M) as B. destruct (o_range (init_of (fst x))) as [r|]; [|replace (snd x + clamp_between delta (- m) m - snd x) with (clamp_between delta (- m) m) by ring; exact B].
  specialize (RG r eq_refl). set (q := clamp_between delta (- m) m) in *. revert B. unfold clamp. rabs; minmax; lra.
Qed.
Print Assumptions C45_max_delta_partial.

(** The value stays inside the range when the target is inside it. *)
Theorem C45_range_partial : forall fuel delta_time x x' r, (0 < delta_time)%Z -> o_range (init_of (fst x)) = Some r -> start_ r <= end_ r ->
  start_ r <= target_value (fst x) <= end_ r -> advance_index fuel delta_time x = Some x' -> start_ r <= snd x' <= end_ r.
Proof.
  intros fuel delta_time x x' r P RG L T H. destruct (frame_ends_with_step _ _ _ _ P H) as (dt & y & S & I & TE). apply step_keeps in S. destruct S as (I' & T' & _ & V).
  unfold calculate_value in V. destruct (Reqb (velocity (fst x')) 0); [injection V as <-; rewrite T', TE; exact T|].
  destruct (clamp_delta _ _); [|discriminate]. destruct (normalize_diff _ _) as [z|]; [|discriminate]. injection V as <-. unfold clamp_range. rewrite I', I, RG.
  unfold clamp. minmax; lra.
Qed.
Print Assumptions C45_range_partial.

(** Once within the tolerance it is exactly at the target and at rest. *)
Theorem C45_arrives : forall dt x x' diff, step dt x = Some x' -> normalize_diff (fst x) (target_value (fst x) - snd x) = Some diff ->
  Rabs diff <= max_difference (o_at_target (init_of (fst x))) ->
  (let accelerated := velocity (fst x) + IZR dt * (diff * o_accel_per_difference (init_of (fst x)) *
     (if Rltb (velocity (fst x) * diff) 0 then o_wrong_direction_multiplier (init_of (fst x)) else 1)) in
   Rabs accelerated <= settled_velocity (o_at_target (init_of (fst x))) \/ o_max_velocity (init_of (fst x)) <= settled_velocity (o_at_target (init_of (fst x)))) ->
  0 <= o_max_velocity (init_of (fst x)) ->
  velocity (fst x') = 0 /\ snd x' = target_value (fst x).
Proof.
  intros dt x x' diff S D W A M. cbv zeta in A. apply step_keeps in S. destruct S as (I & T & V & Y). unfold calculate_velocity in V. rewrite D in V. cbv zeta in V.
  set (acc := velocity (fst x) + _) in A, V.
  assert (B : Rabs (clamp_velocity (init_of (fst x)) acc) <= settled_velocity (o_at_target (init_of (fst x)))).
  { pose proof (clamp_between_bound acc _ M). unfold clamp_velocity in *. destruct A as [A|A]; [|lra]. revert A. unfold clamp_between. rabs; minmax; lra. }
  unfold at_target, is_settled in V. rewrite !Rleb_t in V by assumption. cbn [andb] in V. injection V as V. split; [now symmetry|].
  unfold calculate_value in Y. rewrite <- V, Reqb_t in Y by reflexivity. rewrite T in Y. congruence.
Qed.
Print Assumptions C45_arrives.

(** And there it stays, for every sequence of steps. *)
Theorem C45_rests : forall dts x, velocity (fst x) = 0 -> snd x = target_value (fst x) ->
  (o_modular (init_of (fst x)) = true -> forall r, o_range (init_of (fst x)) = Some r -> start_ r < 0 <= end_ r) -> 0 <= o_max_velocity (init_of (fst x)) ->
  steps dts x = Some x.
Proof.
  intros dts [[v t i] y]. cbn [fst snd velocity target_value init_of]. intros -> -> N M. induction dts as [|dt dts IH]; [reflexivity|]. cbn [steps].
  replace (step dt _) with (Some (OData 0 t i, t)); [exact IH|]. unfold step, calculate_velocity. cbn [fst snd velocity target_value init_of].
  assert (D : normalize_diff (OData 0 t i) (t - t) = Some 0).
  { replace (t - t) with 0 by ring. unfold normalize_diff, normalize_range. cbn [init_of]. destruct (o_modular i); [|reflexivity]. destruct (o_range i) as [r|]; [|reflexivity].
    specialize (N eq_refl r eq_refl). unfold normalize, modular_adjustment, contains_excl_start. rewrite (Rleb_f 0 (start_ r)), (Rltb_f (end_ r) 0) by lra.
    rewrite Rplus_0_r, (Rltb_t (start_ r) 0), (Rleb_t 0 (end_ r)) by lra. reflexivity. }
  rewrite D. cbv zeta. replace (clamp_velocity i _) with 0.
  - replace (if at_target i 0 0 then 0 else 0) with 0 by (destruct (at_target i 0 0); reflexivity). unfold calculate_value. cbn [velocity]. rewrite Reqb_t by reflexivity. reflexivity.
  - replace (0 + _) with 0 by ring. unfold clamp_velocity, clamp_between. minmax; lra.
Qed.
Print Assumptions C45_rests.

(** A case: from 0 to 10. *)
Definition demo_init : oinit := OInit (Some (Rg (-20) 20)) false 3 (Some 2) (SettledAt 1 1) (1 / 10) 2 10.
Example C45_case : step 1 (OData 0 10 demo_init, 0) = Some (OData 1 10 demo_init, 1).
Proof.
  unfold step, calculate_velocity, normalize_diff, at_target, is_settled. cbn [demo_init fst snd velocity target_value init_of o_modular o_at_target max_difference settled_velocity o_accel_per_difference].
  rewrite (Rltb_f (0 * (10 - 0))) by lra. replace (clamp_velocity _ _) with 1 by (unfold clamp_velocity, clamp_between; cbn; minmax; lra).
  replace (Rabs (10 - 0)) with 10 by (rabs; lra). rewrite (Rleb_f 10 1) by lra. cbn [andb]. unfold calculate_value, clamp_delta, normalize_diff, clamp_range.
  cbn [velocity target_value init_of o_max_delta o_modular o_range demo_init]. rewrite Reqb_f by lra. fold demo_init.
  replace (clamp_between (1 * 1) (- (2)) 2) with 1 by (unfold clamp_between; minmax; lra).
  replace (clamp (Rg (-20) 20) (0 + 1)) with 1; [reflexivity|]. unfold clamp. cbn [start_ end_]. minmax; lra.
Qed.
Example C45_arrives_case : step 1 (OData (1 / 2) 10 demo_init, 9) = Some (OData 0 10 demo_init, 10).
Proof.
  assert (S : exists x', step 1 (OData (1 / 2) 10 demo_init, 9) = Some x').
  { unfold step, calculate_velocity, normalize_diff. cbn [demo_init fst snd velocity target_value init_of o_modular]. unfold calculate_value, clamp_delta, normalize_diff.
    cbn [velocity target_value init_of o_modular o_max_delta]. destruct (Reqb _ 0); eexists; reflexivity. }
  destruct S as [x' S]. destruct (C45_arrives 1 _ x' 1 S) as [V Y]; cbn [demo_init fst snd velocity target_value init_of o_at_target max_difference settled_velocity o_accel_per_difference o_wrong_direction_multiplier o_max_velocity].
  - unfold normalize_diff. cbn. f_equal. ring.
  - rabs; lra.
  - left. rewrite Rltb_f by lra. rabs; lra.
  - lra.
  - rewrite S. apply step_keeps in S. destruct S as (I & T & _). destruct x' as [[v t i] y]. cbn in *. subst. reflexivity.
Qed.

(** A velocity that happens to be zero makes the value jump to the target from any
    distance: here the value is 0, max_delta 1, the tolerance 1, and the value moves by
    10 in one step, because the acceleration has just cancelled the velocity of -1. *)
Theorem C45_max_delta_refuted : exists x x', o_modular (init_of (fst x)) = false /\ o_max_delta (init_of (fst x)) = Some 1 /\
  max_difference (o_at_target (init_of (fst x))) = 1 /\ snd x = 0 /\ target_value (fst x) = 10 /\
  step 1 x = Some x' /\ snd x' = 10.
Proof.
  set (i := OInit None false 3 (Some 1) (SettledAt 1 1) (1 / 20) 2 10). exists (OData (-1) 10 i, 0), (OData 0 10 i, 10). do 5 (split; [reflexivity|]). split; [|reflexivity].
  unfold step. replace (calculate_velocity _ _ _) with (Some 0).
  - unfold calculate_value. cbn [velocity]. rewrite Reqb_t by reflexivity. reflexivity.
  - unfold calculate_velocity, normalize_diff. cbn [i fst snd init_of o_modular target_value velocity]. rewrite (Rltb_t (-1 * (10 - 0))) by lra.
    cbn [o_accel_per_difference o_wrong_direction_multiplier]. replace (clamp_velocity _ _) with 0; [destruct (at_target _ _ _); reflexivity|].
    unfold clamp_velocity, clamp_between, i. cbn [o_max_velocity o_accel_per_difference o_wrong_direction_multiplier]. minmax; lra.
Qed.

(** A target outside the range is reached: nothing clamps the snapped value. *)
Theorem C45_range_refuted : exists x x' r, o_range (init_of (fst x)) = Some r /\ start_ r <= snd x <= end_ r /\
  step 1 x = Some x' /\ ~ (start_ r <= snd x' <= end_ r).
Proof.
  set (i := OInit (Some (Rg 0 1)) false 3 (Some 1) (SettledAt 1 1) (1 / 20) 2 10). exists (OData 0 (3 / 2) i, 1), (OData 0 (3 / 2) i, 3 / 2), (Rg 0 1).
  split; [reflexivity|]. split; [cbn; lra|]. split; [|cbn; lra]. unfold step. replace (calculate_velocity _ _ _) with (Some 0).
  - unfold calculate_value. cbn [velocity]. rewrite Reqb_t by reflexivity. reflexivity.
  - unfold calculate_velocity, normalize_diff. cbn [i fst snd init_of o_modular target_value velocity]. rewrite (Rltb_f (0 * _)) by lra.
    cbn [o_accel_per_difference]. replace (clamp_velocity _ _) with (1 / 40).
    + unfold at_target, is_settled, i. cbn [o_at_target max_difference settled_velocity]. rewrite !Rleb_t by (rabs; lra). reflexivity.
    + unfold clamp_velocity, clamp_between, i. cbn [o_max_velocity o_accel_per_difference o_wrong_direction_multiplier]. minmax; lra.
Qed.

(** overshoot_init.h:108-110 says that max_delta limits the change on a single call of
    AdvanceFrame; it limits each step of it, and here a frame of two steps moves by 2. *)
Theorem C45_max_delta_per_frame_refuted : exists x x', o_max_delta (init_of (fst x)) = Some 1 /\ snd x = 0 /\
  advance_index 2 2 x = Some x' /\ velocity (fst x') <> 0 /\ snd x' = 2.
Proof.
  set (i := OInit None false 3 (Some 1) (SettledAt 0 0) 0 1 1). exists (OData 3 10 i, 0), (OData 3 10 i, 2). split; [reflexivity|]. split; [reflexivity|].
  assert (S : forall y, y <> 10 -> step 1 (OData 3 10 i, y) = Some (OData 3 10 i, y + 1)).
  { intros y Y. unfold step, calculate_velocity, normalize_diff. cbn [i fst snd velocity target_value init_of o_modular]. fold i.
    replace (clamp_velocity i _) with 3 by (unfold clamp_velocity, clamp_between, i; cbn [o_max_velocity o_accel_per_difference]; minmax; lra).
    unfold at_target, is_settled. cbn [i o_at_target max_difference settled_velocity]. rewrite (Rleb_f (Rabs 3)) by (rabs; lra). rewrite andb_false_r.
    unfold calculate_value, clamp_delta, normalize_diff, clamp_range. cbn [velocity init_of o_max_delta o_modular o_range target_value]. rewrite Reqb_f by lra.
    unfold i. cbn [o_max_delta o_modular o_range]. replace (clamp_between (1 * 3) (- (1)) 1) with 1 by (unfold clamp_between; minmax; lra). reflexivity. }
  split; [|cbn; split; lra]. cbn [advance_index]. change (0 <? 2)%Z with true. cbn [fst init_of i o_max_delta_time]. fold i. change (Z.min 2 1) with 1%Z. rewrite S by lra.
  change (0 <? 2 - 1)%Z with true. cbn [fst init_of i o_max_delta_time]. fold i. change (Z.min (2 - 1) 1) with 1%Z. rewrite S by lra. cbn. repeat f_equal. lra.
Qed.

(** max_delta_ has no initial value: with every other setter called, the first step of a
    moving motivator reads it uninitialised. *)
Theorem C45_uninitialised_refuted : exists i, o_max_delta i = o_max_delta oinit_default /\ step 1 (OData 0 10 i, 0) = None.
Proof.
  exists (OInit (Some (Rg (-20) 20)) false 3 None (SettledAt 1 1) (1 / 10) 2 10). split; [reflexivity|].
  unfold step, calculate_velocity, normalize_diff, at_target, is_settled. cbn [fst snd velocity target_value init_of o_modular o_at_target max_difference settled_velocity o_accel_per_difference].
  rewrite (Rltb_f (0 * (10 - 0))) by lra. replace (clamp_velocity _ _) with 1 by (unfold clamp_velocity, clamp_between; cbn; minmax; lra).
  replace (Rabs (10 - 0)) with 10 by (rabs; lra). rewrite (Rleb_f 10 1) by lra. cbn [andb]. unfold calculate_value. cbn [velocity]. rewrite Reqb_f by lra. reflexivity.
Qed.

(** ** C47 for the overshoot processor *)
Lemma gather_getz {A} (f : Z -> option A) n : forall i l, gather f i n = Some l -> len l = Z.of_nat n /\ forall k, (0 <= k < Z.of_nat n)%Z -> getz l k = f (i + k)%Z.
Proof.
  induction n as [|n IH]; intros i l H; cbn [gather] in H; [injection H as <-; split; [reflexivity|lia]|].
  destruct (f i) as [x|] eqn:E; [|discriminate]. destruct (gather f (i + 1) n) as [r|] eqn:G; [|discriminate]. injection H as <-.
  destruct (IH _ _ G) as [L A']. rewrite len_cons. split; [lia|]. intros k K. destruct (Z.eq_dec k 0) as [->|NZ]; [rewrite Z.add_0_r, E; reflexivity|].
  change (x :: r) with ([x] ++ r). rewrite getz_app2 by (change (len [x]) with 1%Z; lia). change (len [x]) with 1%Z. rewrite A' by lia. f_equal. lia.
Qed.

(** Values, velocities and target values are those of the indices asked for. *)
Theorem C47_overshoot : forall st index n vs ts, velocities st index n = Some vs -> target_values st index n = Some ts ->
  forall k, (0 <= k < Z.of_nat n)%Z -> exists d y, getz st (index + k) = Some (d, y) /\
    getz vs k = Some (velocity d) /\ getz ts k = Some (target_value d) /\ values st (index + k) = Some y.
Proof.
  intros st index n vs ts V T k K. destruct (gather_getz _ _ _ _ V) as [LV GV]. destruct (gather_getz _ _ _ _ T) as [LT GT]. specialize (GV k K). specialize (GT k K).
  rewrite Z.add_0_l in GV, GT. destruct (getz st (index + k)) as [[d y]|] eqn:E.
  - exists d, y. unfold values. rewrite E. auto.
  - exfalso. destruct (getz_in_range vs k) as [x X]; [lia|]. congruence.
Qed.
Print Assumptions C47_overshoot.

(** Differences are right for the motivator at index zero... *)
Theorem C47_overshoot_difference_partial : forall st n ds, differences st 0 n = Some ds ->
  forall k, (0 <= k < Z.of_nat n)%Z -> exists d y, getz st k = Some (d, y) /\ getz ds k = normalize_diff d (target_value d - y).
Proof.
  intros st n ds D k K. destruct (gather_getz _ _ _ _ D) as [L G]. specialize (G k K). rewrite !Z.add_0_l in G. destruct (getz st k) as [[d y]|] eqn:E.
  - exists d, y. auto.
  - exfalso. destruct (getz_in_range ds k) as [x X]; [lia|]. congruence.
Qed.
Print Assumptions C47_overshoot_difference_partial.

(** ... and wrong for others: the motivator at index 1 is at its target 5, and its
    difference is reported as 5 because the value of index 0 is used. *)
Theorem C47_overshoot_difference_refuted : exists st d y ds, getz st 1 = Some (d, y) /\ target_value d = y /\ o_modular (init_of d) = false /\
  differences st 1 1 = Some ds /\ getz ds 0 = Some 5.
Proof.
  exists [(OData 0 0 demo_init, 0); (OData 0 5 demo_init, 5)], (OData 0 5 demo_init), 5, [5 - 0]. do 3 (split; [reflexivity|]). split; [reflexivity|].
  cbn. f_equal. lra.
Qed.
