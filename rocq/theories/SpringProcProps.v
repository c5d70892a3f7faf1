(** C50: the spring processor. *)
From Verif Require Import RBase BaseFacts RangeModel RangeProofs FloatModel CurveModel CurveUtilModel Glue SpringProofs SpringProps OvershootModel SimpleModel EaseProcProps.
From Coq Require Import Lia.
Local Open Scope R_scope.

(** ** The damped oscillation as one function of time *)
(** The number of the portion that contains [x]. *)
Definition portion_index (s : spring) (x : R) : Z :=
  let n := Rfloor (ln (1 - x / r_ s) * (1 / ln (sqrt_b s))) in
  if Rltb x (zero_pos s n) then (2 * n)%Z else (2 * n + 1)%Z.
(** Value and slope at time [t] after the start. *)
Definition oscillation (s : spring) (t : R) : R :=
  let x := t + start_x s in target s + portion_value (portion s (portion_index s x)) x.
Definition oscillation_slope (s : spring) (t : R) : R :=
  let x := t + start_x s in portion_slope (portion s (portion_index s x)) x.

Section Curve.
Variable s : spring.
Hypothesis A : alive s.
Hypothesis RP : 0 < r_ s.

Lemma portion_index_ok x : x < r_ s -> pos s (portion_index s x) <= x < pos s (portion_index s x + 1).
Proof.
  intros L. assert (0 < 1 - x / r_ s). { assert (x / r_ s < 1) by (apply (Rmult_lt_reg_r (r_ s)); [assumption|]; unfold Rdiv; rewrite Rmult_assoc, Rinv_l by lra; lra). lra. }
  pose proof (iteration_contains s A x H) as I. cbv zeta in I. unfold portion_index. set (n := Rfloor _) in *.
  destruct (portion_double s n) as (_ & _ & P1 & P2 & P3). destruct (Rltb_spec x (zero_pos s n)); rewrite ?P1, ?P2, ?P3; lra.
Qed.
Lemma portion_index_unique x k : x < r_ s -> pos s k <= x < pos s (k + 1) -> portion_index s x = k.
Proof.
  intros L B. pose proof (portion_index_ok x L) as B'. 
  pose proof (pos_order s k (portion_index s x) x x A ltac:(lra) ltac:(lra) ltac:(lra)). pose proof (pos_order s (portion_index s x) k x x A ltac:(lra) ltac:(lra) ltac:(lra)). lia.
Qed.
Lemma pos_lt_r k : pos s k < r_ s.
Proof.
  assert (P : forall n, peak_pos s n < r_ s). { intros n. unfold peak_pos. pose proof (S_pow s A n). nra. }
  destruct (half_cases k) as (n & [(-> & _)|(-> & _)]); destruct (portion_double s n) as (_ & _ & P1 & P2 & P3); rewrite ?P1, ?P2; [apply P|].
  pose proof (zero_gt s A n). pose proof (P (n + 1)%Z). lra.
Qed.

(** On any portion the oscillation has that portion's value and slope, ends included. *)
Lemma oscillation_on k t : pos s k <= t + start_x s <= pos s (k + 1) ->
  oscillation s t = target s + portion_value (portion s k) (t + start_x s) /\ oscillation_slope s t = portion_slope (portion s k) (t + start_x s).
Proof.
  intros B. unfold oscillation, oscillation_slope. pose proof (pos_lt_r (k + 1)).
  destruct (portion_value_unique s k (portion_index s (t + start_x s)) (t + start_x s) A B) as [V D]; [apply portion_index_ok; lra|]. rewrite V, D. auto.
Qed.

Lemma portion_derivable c x : derivable_pt_lim (portion_value c) x (portion_slope c x).
Proof.
  intros eps He. destruct (Req_dec (coeff c) 0) as [E|E].
  - exists (mkposreal 1 ltac:(lra)). intros h Hh _. unfold portion_value, portion_slope. rewrite E. replace (_ - _) with 0 by (field; assumption). now rewrite Rabs_R0.
  - assert (P : 0 < eps / Rabs (coeff c)) by (apply Rdiv_lt_0_compat; [lra|now apply Rabs_pos_lt]).
    exists (mkposreal _ P). cbn [RIneq.pos]. intros h Hh Hd. unfold portion_value, portion_slope.
    replace (_ - _) with (coeff c * h) by (field; assumption). rewrite Rabs_mult. pose proof (Rabs_pos_lt _ E).
    apply Rle_lt_trans with (Rabs (coeff c) * Rabs h); [lra|]. replace eps with (Rabs (coeff c) * (eps / Rabs (coeff c))) by (field; lra). now apply Rmult_lt_compat_l.
Qed.
End Curve.

Lemma derivable_local f g x l a b : a < x < b -> (forall y, a < y < b -> f y = g y) -> derivable_pt_lim g x l -> derivable_pt_lim f x l.
Proof.
  intros B E D eps He. destruct (D eps He) as [d Hd]. assert (P : 0 < Rmin d (Rmin (x - a) (b - x))) by (repeat apply Rmin_glb_lt; try lra; apply cond_pos).
  exists (mkposreal _ P). cbn [RIneq.pos]. intros h Hh Hl. pose proof (Rmin_l d (Rmin (x - a) (b - x))). pose proof (Rmin_r d (Rmin (x - a) (b - x))).
  pose proof (Rmin_l (x - a) (b - x)). pose proof (Rmin_r (x - a) (b - x)). rewrite (E x B). rewrite (E (x + h)); [apply Hd; [assumption|lra]|].
  revert Hl. rabs; lra.
Qed.

(** The slope is the derivative of the value, up to the end of the oscillation, and is
    itself continuous: the motion has no jumps and no kinks. *)
Theorem C50_oscillation_smooth : forall s t, alive s -> 0 < r_ s -> t + start_x s < r_ s ->
  derivable_pt_lim (oscillation s) t (oscillation_slope s t) /\ continuity_pt (oscillation_slope s) t.
Proof.
  intros s t A RP L. pose proof (portion_index_ok s A RP _ L) as B. set (k := portion_index s (t + start_x s)) in *.
  destruct (portion_ok s (k - 1) A) as (Bd & En & _ & Ee & Lt1). replace (k - 1 + 1)%Z with k in * by lia.
  destruct (next_ok s _ (proj1 A) Bd) as (c' & E' & _ & (J1 & J2 & J3) & _). rewrite En in E'. injection E' as <-.
  destruct (portion_ok s k A) as (_ & _ & Es & _ & Lt2). rewrite Es in J1, J2, J3.
  set (f := portion_value (portion s (k - 1))) in *. set (g := portion_value (portion s k)) in *.
  set (f' := portion_slope (portion s (k - 1))) in *. set (g' := portion_slope (portion s k)) in *.
  assert (G : forall y, pos s (k - 1) < y + start_x s < pos s (k + 1) ->
    oscillation s y = target s + glue f g (pos s k) (y + start_x s) /\ oscillation_slope s y = glue f' g' (pos s k) (y + start_x s)).
  { intros y Y. unfold glue. destruct (Rleb_spec (y + start_x s) (pos s k)) as [C|C].
    - apply (oscillation_on s A RP (k - 1) y). replace (k - 1 + 1)%Z with k by lia. lra.
    - apply (oscillation_on s A RP k y). lra. }
  assert (BT : pos s (k - 1) - start_x s < t < pos s (k + 1) - start_x s) by lra. split.
  - apply (derivable_local _ (fun y => target s + glue f g (pos s k) (y + start_x s)) t _ (pos s (k - 1) - start_x s) (pos s (k + 1) - start_x s) BT).
    + intros y Y. apply G. lra.
    + rewrite (proj2 (G t ltac:(lra))). 
      pose proof (glue_derivable f g f' g' (pos s k) J2 J3 (fun x => portion_derivable _ x) (fun x => portion_derivable _ x) (t + start_x s)) as D.
      intros eps He. destruct (D eps He) as [d Hd]. exists d. intros h Hh Hl. specialize (Hd h Hh Hl). replace (t + h + start_x s) with (t + start_x s + h) by ring.
      replace (target s + glue f g (pos s k) (t + start_x s + h) - (target s + glue f g (pos s k) (t + start_x s))) with (glue f g (pos s k) (t + start_x s + h) - glue f g (pos s k) (t + start_x s)) by ring. exact Hd.
  - assert (C : continuity (glue f' g' (pos s k))) by (apply glue_continuous; [assumption| |]; unfold f', g', portion_slope; reg).
    intros eps He. destruct (C (t + start_x s) eps He) as (d & P & H).
    exists (Rmin d (Rmin (t - (pos s (k - 1) - start_x s)) (pos s (k + 1) - start_x s - t))). split; [repeat apply Rmin_glb_lt; lra|].
    intros y [Dy Ry]. simpl in Ry. unfold R_dist in Ry.
    pose proof (Rmin_l d (Rmin (t - (pos s (k - 1) - start_x s)) (pos s (k + 1) - start_x s - t))). pose proof (Rmin_r d (Rmin (t - (pos s (k - 1) - start_x s)) (pos s (k + 1) - start_x s - t))).
    pose proof (Rmin_l (t - (pos s (k - 1) - start_x s)) (pos s (k + 1) - start_x s - t)). pose proof (Rmin_r (t - (pos s (k - 1) - start_x s)) (pos s (k + 1) - start_x s - t)).
    rewrite (proj2 (G t ltac:(lra))). rewrite (proj2 (G y ltac:(revert Ry; rabs; lra))).
    apply (H (y + start_x s)). split; [split; [exact I|]|].
    + destruct Dy as [_ N]. lra.
    + simpl. unfold R_dist. replace (y + start_x s - (t + start_x s)) with (y - t) by ring. lra.
Qed.
Print Assumptions C50_oscillation_smooth.

(** ** The processor *)
(** The context kept for time [t]: either the portion of the oscillation that contains it,
    or, late in the oscillation, rest at the target. *)
Definition tracks (s : spring) (t : R) (c : context) : Prop :=
  (exists k, c = portion s k /\ pos s k <= t + start_x s <= pos s (k + 1)) \/
  (exists x, c = at_end x) /\ 99 / 100 * r_ s <= t + start_x s.

Lemma calculate_tracks s t : alive s -> 0 < r_ s -> exists c, calculate_context s t = Some c /\ tracks s t c /\ valid_x s t c = true.
Proof.
  intros A RP. destruct (Rlt_dec (1 / 100) (1 - to_internal_x s t / r_ s)) as [L|L].
  - destruct (jump_ok s t A L) as (k & E & B). exists (portion s k). split; [exact E|]. split.
    + left. exists k. split; [reflexivity|]. unfold to_internal_x in B. lra.
    + apply portion_valid; [assumption|lra].
  - exists (at_end (to_internal_x s t)). split.
    + unfold calculate_context. rewrite Reqb_f by apply A. rewrite Reqb_f by lra. rewrite Rleb_t by lra. reflexivity.
    + split; [|reflexivity]. right. split; [eauto|]. unfold to_internal_x in L.
      assert (E : t + start_x s = r_ s * ((t + start_x s) / r_ s)) by (field; lra). rewrite E. nra.
Qed.

Lemma increment_tracks s t1 t2 c : alive s -> 0 < r_ s -> t1 <= t2 -> tracks s t1 c ->
  exists c', increment_context s t2 c = Some c' /\ tracks s t2 c' /\ valid_x s t2 c' = true.
Proof.
  intros A RP O [(k & -> & B)|((x & ->) & B)].
  - unfold increment_context. unfold to_internal_x. set (x := t2 + start_x s). destruct (portion_ok s k A) as (_ & En & _ & Ee & _).
    unfold after_end at 1. rewrite Ee. destruct (Rltb_spec (pos s (k + 1)) x) as [G|G].
    + unfold increment_internal. rewrite En. destruct (portion_ok s (k + 1) A) as (_ & _ & _ & Ee' & _). unfold after_end. rewrite Ee'.
      destruct (Rltb_spec (pos s (k + 1 + 1)) x) as [G'|G'].
      * replace (to_external_x s x) with t2 by (unfold to_external_x, x; ring). destruct (calculate_tracks s t2 A RP) as (c & E & T & V). rewrite E, V. exists c. auto.
      * rewrite portion_valid by (unfold to_internal_x; fold x; (assumption || lra)). eexists. split; [reflexivity|]. split; [left; exists (k + 1)%Z; split; [reflexivity|fold x; lra]|].
        apply portion_valid; [assumption|]. unfold to_internal_x. fold x. lra.
    + rewrite portion_valid by (unfold to_internal_x; fold x; (assumption || (unfold x in *; lra))). eexists. split; [reflexivity|]. split; [left; exists k; split; [reflexivity|fold x; unfold x in *; lra]|].
      apply portion_valid; [assumption|]. unfold to_internal_x. fold x. unfold x in *. lra.
  - unfold increment_context, after_end, at_end, valid_x. cbn [valid_end]. exists (at_end x). split; [reflexivity|]. split; [|reflexivity]. right. split; [exists x; reflexivity|lra].
Qed.

(** What a motivator shows at time [t] after its target was set. *)
Definition shows (s : spring) (t : R) (x : sdata * R) : Prop :=
  (t + start_x s < r_ s /\ snd x = oscillation s t /\ spring_velocity (fst x) = Some (oscillation_slope s t)) \/
  (99 / 100 * r_ s <= t + start_x s /\ snd x = target s /\ spring_velocity (fst x) = Some 0).

Lemma tracks_shows s t c tt : alive s -> 0 < r_ s -> tracks s t c -> valid_x s t c = true ->
  exists v, s_eval_with s t c = Some v /\ shows s t (SData s c t tt, v).
Proof.
  intros A RP T V. unfold s_eval_with. rewrite V. eexists. split; [reflexivity|]. unfold shows. cbn [fst snd]. unfold spring_velocity. cbn [s_q s_c s_elapsed]. unfold s_deriv_with. rewrite V.
  unfold quadratic_x, to_internal_x. destruct T as [(k & -> & B)|((x & ->) & B)].
  - left. pose proof (pos_lt_r s A RP (k + 1)). destruct (oscillation_on s A RP k t B) as [-> ->]. split; [lra|]. unfold portion_value, portion_slope. split; [ring|f_equal; ring].
  - right. cbn [coeff peak peak_x at_end]. split; [assumption|]. split; [ring|f_equal; ring].
Qed.

Lemma frames_show s : alive s -> 0 < r_ s -> forall dts t c tt v, tracks s t c -> shows s t (SData s c t tt, v) -> Forall (fun dt => 0 <= dt)%Z dts ->
  exists x, spring_frames dts (SData s c t tt, v) = Some x /\ s_q (fst x) = s /\ s_target_time_ (fst x) = tt /\ shows s (t + total_time dts) x.
Proof.
  intros A RP. induction dts as [|dt dts IH]; intros t c tt v T Sh F; cbn [spring_frames].
  - eexists. split; [reflexivity|]. cbn [fst total_time fold_right]. rewrite Rplus_0_r. auto.
  - inversion F as [|? ? H0 H1]; subst. apply IZR_le in H0. unfold spring_frame. cbn [fst s_q s_c s_elapsed s_target_time_].
    destruct (increment_tracks s t (t + IZR dt) c A RP ltac:(lra) T) as (c' & E & T' & V'). rewrite E.
    destruct (tracks_shows s (t + IZR dt) c' tt A RP T' V') as (v' & E' & Sh'). rewrite E'.
    destruct (IH _ _ _ _ T' Sh' H1) as (x & Ex & Q & TT & Sx). exists x. split; [exact Ex|]. split; [exact Q|]. split; [exact TT|].
    cbn [total_time fold_right]. fold (total_time dts). now rewrite <- Rplus_assoc.
Qed.

Lemma r_pos s : alive s -> bias_ s < 1 -> 0 < r_ s.
Proof.
  intros A B. rewrite (r_eq s A). pose proof (S_pos s A). pose proof (SS s A). pose proof (d_pos s A). pose proof (b_pos s A).
  assert (sqrt_b s < 1) by nra. apply Rdiv_lt_0_compat; apply Rmult_lt_0_compat; lra.
Qed.

(** After SetTargetWithShape a motivator keeps its value and velocity and aims at the target;
    after any sequence of frames no assert has failed and it shows the oscillation at the
    time passed, or, within the last hundredth of the oscillation, rest at the target.
    Partial: a damped spring (bias between 1/10000 and 1), not started on its target with a
    downward or zero velocity. *)
Theorem C50_trajectory_partial : forall x v d t shape, snd x = v -> spring_velocity (fst x) = Some d ->
  0 < typical_delta_value shape -> typical_total_time shape <> 0 -> 1 / 10000 <= shape_bias shape < 1 -> v <> t \/ 0 < d ->
  exists x0 s, spring_set_target t shape x = Some x0 /\ s_q (fst x0) = s /\ alive s /\ 0 < r_ s /\ target s = t /\
    snd x0 = v /\ spring_velocity (fst x0) = Some d /\
    forall dts, Forall (fun dt => 0 <= dt)%Z dts ->
    exists x1, spring_frames dts x0 = Some x1 /\ shows s (total_time dts) x1.
Proof.
  intros x v d t shape Ev Ed Hdv Hdx Hb Hs. destruct (C28_start_partial v d t _ _ (shape_bias shape) Hdv Hdx ltac:(lra) Hs) as (s & E & V & D).
  destruct (start_spring v d t _ _ (shape_bias shape) Hdv Hdx ltac:(lra) Hs s E ltac:(lra)) as (A & _ & BE & _ & _ & ET & _).
  assert (RP : 0 < r_ s). { apply r_pos; [assumption|]. rewrite BE. unfold spring_bias. rcases; minmax; lra. }
  destruct (calculate_tracks s 0 A RP) as (c & Ec & T & Vx).
  unfold spring_set_target. rewrite Ed, Ev, E, Ec. eexists. exists s. split; [reflexivity|]. split; [reflexivity|]. split; [exact A|]. split; [exact RP|]. split; [exact ET|]. split; [reflexivity|].
  unfold s_eval in V. unfold s_deriv in D. rewrite Ec in V, D. split; [exact D|].
  intros dts F. destruct (tracks_shows s 0 c (s_target_time_ (fst x)) A RP T Vx) as (v' & E' & Sh). rewrite V in E'. injection E' as <-.
  destruct (frames_show s A RP dts 0 c _ v T Sh F) as (x1 & E1 & _ & _ & S1). exists x1. rewrite Rplus_0_l in S1. auto.
Qed.
Print Assumptions C50_trajectory_partial.

(** The oscillation begins at the value and velocity of the moment the target was set. *)
Theorem C50_start : forall v d t dv dx bias s, spring_init v d t dv dx bias = Some s -> 0 < dv -> dx <> 0 -> 1 / 10000 <= bias < 1 -> v <> t \/ 0 < d ->
  oscillation s 0 = v /\ oscillation_slope s 0 = d \/ 99 / 100 * r_ s <= start_x s.
Proof.
  intros v d t dv dx bias s E Hdv Hdx Hb Hs. destruct (C28_start_partial v d t dv dx bias Hdv Hdx ltac:(lra) Hs) as (s' & E' & V & D). rewrite E in E'. injection E' as <-.
  destruct (start_spring v d t dv dx bias Hdv Hdx ltac:(lra) Hs s E ltac:(lra)) as (A & _ & BE & _).
  assert (RP : 0 < r_ s). { apply r_pos; [assumption|]. rewrite BE. unfold spring_bias. rcases; minmax; lra. }
  destruct (calculate_tracks s 0 A RP) as (c & Ec & T & Vx). unfold s_eval in V. unfold s_deriv in D. rewrite Ec in V, D.
  destruct (tracks_shows s 0 c 0 A RP T Vx) as (v' & E' & Sh). rewrite V in E'. injection E' as <-. unfold shows in Sh. cbn [fst snd] in Sh.
  unfold spring_velocity in Sh. cbn [s_q s_c s_elapsed] in Sh. rewrite D in Sh. destruct Sh as [(_ & -> & [= ->])|(L & _)]; [now left|right; lra].
Qed.
Print Assumptions C50_start.

(** A motivator at 0 asked to go to 4 with bias 1/4 meets the hypotheses. *)
Definition demo_spring : curve_shape := Shape 1 1 (1 / 4).
Definition fresh_spring : sdata := SData (spring_constant 0) context_default 0 0.
Lemma fresh_velocity : spring_velocity fresh_spring = Some 0.
Proof.
  unfold spring_velocity, s_deriv_with, fresh_spring, valid_x, context_default, contains_with_tolerance, length_, to_internal_x, quadratic_x. cbn [s_q s_c s_elapsed valid_end valid_start start_ end_ start_x spring_constant coeff].
  rewrite !Rleb_t by lra. cbn [andb]. f_equal. ring.
Qed.
Example C50_case : snd (fresh_spring, 0) = 0 /\ spring_velocity fresh_spring = Some 0 /\ 0 < typical_delta_value demo_spring /\ typical_total_time demo_spring <> 0 /\
  1 / 10000 <= shape_bias demo_spring < 1 /\ (0 <> 4 \/ 0 < 0).
Proof. split; [reflexivity|]. split; [apply fresh_velocity|]. cbn. repeat split; lra. Qed.

(** The target time is that of the constant curve of initialisation: zero.  The documented
    four iterations end after 75/16. *)
Theorem C50_target_time_refuted : exists x0 x1, spring_make (SimpleInit (Some [0]) (Some [0])) 0 = Some x0 /\ spring_set_target 4 demo_spring (x0, 0) = Some x1 /\
  k_target_time spring_class (fst x1) = Some 0%Z /\ iteration_x (s_q (fst x1)) kNumSpringIterations = 75 / 16.
Proof.
  assert (IT : iteration_x (spring_constant 0) kNumSpringIterations = 0).
  { unfold iteration_x, to_external_x, spring_constant. cbn [bias_ r_ sqrt_b start_x]. rewrite Reqb_f by lra. ring. }
  assert (EB : spring_bias (1 / 4) = 1 / 4) by (unfold spring_bias; rcases; minmax; lra).
  destruct (init_facts 0 0 4 1 1 (1 / 4)) as (_ & _ & _ & E); try lra. cbv zeta in E. rewrite EB in E. unfold direction in E. rewrite Rltb_f, Rleb_t, Reqb_f in E by lra.
  assert (Q2 : sqrt (1 / 4) = 1 / 2) by (apply sqrt_unique; lra). rewrite Q2 in E.
  replace (- (4 - 0 + 1 * (1 / (1 * 1)) * (1 / 2 * 0 / (1 * (1 / (1 * 1)))) * (1 / 2 * 0 / (1 * (1 / (1 * 1)))))) with (- (4)) in E by field.
  replace (sqrt (Rabs (- (4)) / (1 / (1 * 1) / (1 / 4)))) with 1 in E by (symmetry; apply sqrt_unique; [lra|]; rewrite Rabs_Ropp, Rabs_pos_eq by lra; field).
  set (s := Spring _ _ _ _ _ _ _) in E.
  assert (Es : s = Spring 4 (- (4)) 0 4 (1 / 4) 5 (1 / 2)) by (unfold s; f_equal; field).
  destruct (start_spring 0 0 4 1 1 (1 / 4) ltac:(lra) ltac:(lra) ltac:(lra) ltac:(left; lra) s E ltac:(lra)) as (A & _).
  assert (RP : 0 < r_ s) by (rewrite Es; cbn; lra).
  destruct (calculate_tracks s 0 A RP) as (c & Ec & _).
  exists fresh_spring. eexists. split. { transitivity (Some (SData (spring_constant 0) context_default 0 (iteration_x (spring_constant 0) kNumSpringIterations))); [reflexivity|]. now rewrite IT. }
  split. { unfold spring_set_target. cbn [fst snd]. rewrite fresh_velocity. cbn [typical_delta_value typical_total_time shape_bias demo_spring]. rewrite E, Ec. reflexivity. }
  cbn [fst s_q s_target_time_ s_elapsed k_target_time spring_class fresh_spring]. split.
  - rewrite Rminus_0_r. unfold to_motive_time. rewrite Rleb_t by lra. replace (Rfloor 0) with 0%Z by (symmetry; apply Rfloor_unique; lra). reflexivity.
  - rewrite Es. unfold iteration_x, to_external_x, kNumSpringIterations. cbn [bias_ r_ sqrt_b start_x]. rewrite Reqb_f by lra. unfold powerRZ. replace (Pos.to_nat 4) with 4%nat by reflexivity. cbn [pow]. lra.
Qed.
Print Assumptions C50_target_time_refuted.

(** A motivator that was never given a target divides zero by zero in its first frame. *)
Theorem C50_fresh_refuted : exists x0, spring_make (SimpleInit (Some [0]) (Some [0])) 0 = Some x0 /\ spring_frame 1 (x0, 0) = None.
Proof.
  eexists. split; [reflexivity|]. unfold spring_frame. cbn [fst s_q s_c s_elapsed]. unfold increment_context, after_end, context_default. cbn [valid_end]. unfold to_internal_x, spring_constant. cbn [start_x].
  rewrite Rltb_t by lra. unfold increment_internal, next_context. cbn [valid_end peak_x coeff bias_]. rewrite Reqb_t by lra. cbn [orb]. rewrite Reqb_t by ring. reflexivity.
Qed.
Print Assumptions C50_fresh_refuted.
