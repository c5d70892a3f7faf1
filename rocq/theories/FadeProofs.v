(** Spline motivators that are sent to a target or blended to a spline, and the frames that follow: lemmas for C111. *)
From Verif Require Import RBase BaseFacts RangeModel RangeProofs CurveModel CurveProofs MathfuModel CompactSplineModel CompactSplineSpec CompactSplineProofs CompactSplineAdd CompactSplineProps CompactSplineIndex CompactSplineEvalProps EvaluatorModel EvaluatorSpec EvaluatorProofs EvaluatorPlay EvaluatorProps EvaluatorOpProps EvaluatorBlendProps SplineTargetModel SplineTargetProofs SplineTargetProps SplineQueryProps SimpleModel MatrixModel MatrixProps CloneModel SplineClassModel.
From Coq Require Import Lia.
Local Open Scope R_scope.

(** ** The modular range stays *)
Lemma init_cubic_range s x s' : init_cubic s x = Some s' -> modular_range s' = modular_range s.
Proof.
  unfold init_cubic. destruct (source s) as [sp|]; [|congruence]. destruct (index_for_x_allowing_repeat _ _ _ _) as [[i nx]|]; [|discriminate]. destruct (range_x sp i) as [r|]; [|discriminate].
  destruct (create_cubic_init sp i); [|discriminate]. intros [= <-]. reflexivity.
Qed.
Lemma set_spline_range sp p s s' : set_spline sp p s = Some s' -> modular_range s' = modular_range s /\ source s' = Some sp.
Proof.
  assert (J : forall s1, jump_to_spline sp p s = Some s1 -> modular_range s1 = modular_range s /\ source s1 = Some sp).
  { intros s1 E. unfold jump_to_spline in E. pose proof (init_cubic_range _ _ _ E) as R1. cbn [modular_range] in R1. split; [exact R1|]. unfold init_cubic in E. cbn [source] in E.
    destruct (index_for_x_allowing_repeat _ _ _ _) as [[i nx]|]; [|discriminate]. destruct (range_x sp i) as [r|]; [|discriminate]. destruct (create_cubic_init sp i); [|discriminate]. injection E as <-. reflexivity. }
  assert (B : forall s1, blend_to_spline sp p s = Some s1 -> modular_range s1 = modular_range s /\ source s1 = Some sp).
  { intros s1 E. unfold blend_to_spline in E. destruct (calculate_blend_init s sp p); [|discriminate]. destruct (index_for_x_allowing_repeat _ _ _ _) as [[i nx]|]; [|discriminate].
    destruct (node_x_at sp i); [|discriminate]. injection E as <-. split; reflexivity. }
  unfold set_spline. intros E. destruct (match source s with Some _ => _ | None => _ end) as [s1|] eqn:M; [|discriminate]. injection E as <-. cbn [evaluate_slot modular_range source].
  destruct (source s); [destruct (Rltb 0 (blend_x p))|]; auto.
Qed.
Lemma set_target_range t s s' : slot_set_target t s = Some s' -> modular_range s' = modular_range s /\ source s' <> None.
Proof.
  unfold slot_set_target. destruct (build_target new_local s t) as [sp|]; [|discriminate]. intros E. destruct (set_spline_range _ _ _ _ E) as [-> ->]. split; [reflexivity|discriminate].
Qed.
Lemma init_cubic_source s x s' : init_cubic s x = Some s' -> source s' = source s.
Proof.
  unfold init_cubic. destruct (source s) as [sp|] eqn:S; [|intros [= <-]; exact S]. destruct (index_for_x_allowing_repeat _ _ _ _) as [[i nx]|]; [|discriminate]. destruct (range_x sp i) as [r|]; [|discriminate].
  destruct (create_cubic_init sp i); [|discriminate]. intros [= <-]. reflexivity.
Qed.
Lemma advance_range d s s' : advance_slot d s = Some s' -> modular_range s' = modular_range s /\ source s' = source s.
Proof.
  unfold advance_slot. cbv zeta. destruct (past_end (step_x d s)).
  - unfold reinit_slot. destruct (slot_x (step_x d s)) as [x|]; [|discriminate]. destruct (init_cubic (step_x d s) x) as [t|] eqn:E; [|discriminate]. intros [= <-]. cbn [evaluate_slot modular_range source].
    rewrite (init_cubic_range _ _ _ E), (init_cubic_source _ _ _ E). split; reflexivity.
  - intros [= <-]. split; reflexivity.
Qed.
Lemma run_range : forall l s s', run_slot s l = Some s' -> modular_range s' = modular_range s /\ source s' = source s.
Proof.
  induction l as [|d l IH]; intros s s' E; cbn [run_slot] in E; [injection E as <-; auto|]. destruct (advance_slot d s) as [s1|] eqn:A; [|discriminate]. destruct (advance_range _ _ _ A) as [<- <-]. now apply IH.
Qed.

(** ** Being sent to a value *)
(** A motivator that follows a spline; it is not modular, or modular about zero. *)
Definition lively (s : slot) : Prop := source s <> None /\ (valid (modular_range s) = false \/ exists h, 0 < h /\ modular_range s = Rg (- h) h).
Lemma lively_usual s : lively s -> usual_range (modular_range s).
Proof. intros [_ [V|(h & H & ->)]]; [now left|right; cbn; lra]. Qed.
(** [v] is [u], up to the rung of a spline that leads there from [from]; in a modular range, up to whole turns too. *)
Definition near (r : range) (u from v : R) : Prop :=
  if valid r then exists k : Z, Rabs (v - (u + IZR k * (end_ r - start_ r))) <= 2 * (end_ r - start_ r) / 65535
  else Rabs (v - u) <= 22 / 10 * Rabs (u - from) / 65535.
Lemma near_refl r u from : near r u from u.
Proof.
  unfold near. destruct (valid r) eqn:V; [exists 0%Z; replace (u - _) with 0 by ring; rewrite Rabs_R0; unfold valid in V; apply Rleb_true in V; lra|].
  replace (u - u) with 0 by ring. rewrite Rabs_R0. pose proof (Rabs_pos (u - from)). lra.
Qed.

Lemma one_waypoint s u t : source s <> None -> (0 < t)%Z -> override_current s [MNode u 0 t Closest] = false /\ waypoints s [MNode u 0 t Closest] = [MNode u 0 t Closest] /\ apart s [MNode u 0 t Closest].
Proof.
  intros SRC T. assert (O : override_current s [MNode u 0 t Closest] = false) by (cbn [override_current mn_time]; destruct (source s); [|congruence]; destruct (Z.eqb_spec t 0); [lia|reflexivity]).
  assert (W : waypoints s [MNode u 0 t Closest] = [MNode u 0 t Closest]) by (unfold waypoints; now rewrite O). split; [exact O|]. split; [exact W|]. unfold apart, grain. rewrite W.
  change (getz _ (len _ - 1)) with (Some (MNode u 0 t Closest)). cbn [spaced mn_time]. split; [exact T|]. split; [|exact Logic.I]. apply IZR_lt in T. unfold recommend_x_granularity, kMaxX. rewrite Rleb_f by lra. lra.
Qed.
Lemma sent_ok s u t : lively s -> (0 < t)%Z -> exists s1 sp ey, slot_set_target [MNode u 0 t Closest] s = Some s1 /\ placed s1 sp (playback_from 0) 0 /\ cur_y s1 = keval (curve s1) (cubic_x s1) /\
  spline_ok sp /\ x_granularity sp = IZR t / 65535 /\ end_x sp = Some (IZR t) /\ end_y sp = Some ey /\ near (modular_range s) u (cur_y s) ey /\
  near (modular_range s) (cur_y s) u (cur_y s1) /\ modular_range s1 = modular_range s.
Proof.
  intros [SRC LV] T. destruct (one_waypoint s u t SRC T) as (OC & W & AP). set (tg := [MNode u 0 t Closest]) in *.
  assert (ST : exists sp ev1, set_target [s] 0 new_local tg = Some (sp, ev1)).
  { destruct LV as [V|(h & H & M)]; [apply (C44_succeeds [s] 0%Z new_local tg s eq_refl V); [discriminate|cbn; lia|exact AP]|].
    apply (C44_modular_succeeds_partial [s] 0%Z new_local tg s h eq_refl M H); [discriminate|cbn; lia|exact AP|rewrite W; cbn; lia|repeat constructor]. }
  destruct ST as (sp & ev1 & ST). assert (RM : SplineTargetProps.room new_local) by (unfold SplineTargetProps.room; cbn; lia).
  pose proof (apart_built [s] 0%Z new_local tg sp ev1 s eq_refl ST RM AP) as B. destruct (set_target_inv [s] 0%Z new_local tg sp ev1 s eq_refl ST) as [BT SS].
  destruct (set_spline_jump s sp (playback_from 0) (start_ok_built _ _ _ _ B) (or_intror (Rle_refl 0))) as (s1 & x & E1 & P1 & Y1 & W1). cbn in W1. subst x.
  pose proof (bt_ok _ _ _ _ B) as O. pose proof (ok_granularity sp O) as GP. pose proof (built_grain _ _ _ _ B) as GE.
  destruct (bt_start _ _ _ _ B) as (y & d & last & ys & m & made & SV & SD & LA & EY & YR & XG & MK & FM & N & X0 & SO). rewrite W in EY, FM.
  change (getz tg (len tg - 1)) with (Some (MNode u 0 t Closest)) in LA. injection LA as <-. cbn [mn_time] in XG. apply IZR_lt in T as T'. unfold recommend_x_granularity, kMaxX in XG. rewrite Rleb_f in XG by lra.
  assert (T0 : getz tg 0 = Some (MNode u 0 t Closest)) by reflexivity. destruct (ys_stand _ _ _ _ EY 0%Z _ T0) as (z & Z & SZ). cbn [mn_value] in SZ.
  destruct (SplineTargetProofs.Forall2_getz _ _ _ FM 0%Z _ (calls_getz _ _ _ _ _ T0 Z)) as (q & Q & MQ). unfold makes in MQ. cbn [waypoint_call c_x c_y c_derivative mn_time] in MQ.
  assert (made = [q]) as ->.
  { destruct ys as [|z' ys]; [apply getz_Some in Z; cbn in Z; lia|]. unfold calls_of, tg in FM. cbn [combine map] in FM. inversion FM as [|a b l1 l2 F1 F2]; subst. inversion F2; subst. cbn in Q. congruence. }
  exists s1, sp, (node_y q (y_range sp)). assert (TS : slot_set_target tg s = Some s1) by (unfold slot_set_target; rewrite BT; exact E1).
  assert (BK : back sp = Some q) by (unfold back, num_nodes; rewrite N; reflexivity).
  destruct (C44_precision [s] 0%Z new_local tg sp ev1 s eq_refl ST RM AP) as [PM PN].
  assert (YM : valid (modular_range s) = false -> length_ (y_range sp) <= 22 / 10 * Rabs (u - cur_y s)).
  { intros V. assert (A : length_ (y_range sp) <= 22 / 10 * (Rmax u (cur_y s) - Rmin u (cur_y s))).
    { apply PN; [exact V| |intros _; split; [apply Rmin_r|apply Rmax_r]]. constructor; [|constructor]. cbn [mn_value]. split; [apply Rmin_l|apply Rmax_l]. }
    revert A. rabs; unfold Rmax, Rmin; destruct (Rle_dec u (cur_y s)); lra. }
  assert (RUNG : forall a b v, stands_for (modular_range s) a b -> 0 <= b - v <= length_ (y_range sp) / 65535 -> forall from, (valid (modular_range s) = false -> Rabs (u - cur_y s) = Rabs (a - from)) -> near (modular_range s) a from v).
  { intros a b v SB RB from FR. unfold near. unfold stands_for in SB. destruct (valid (modular_range s)) eqn:V.
    - destruct SB as [k SB]. exists k. unfold length_ in SB. rewrite <- SB. rewrite (PM eq_refl) in RB. change (IZR (len tg)) with 1 in RB. unfold length_ in RB. rabs; lra.
    - subst b. specialize (YM eq_refl). rewrite <- (FR eq_refl). revert RB YM. rabs; lra. }
  split; [exact TS|]. split; [exact P1|]. split; [exact Y1|]. split; [exact O|]. split; [exact XG|]. split; [|split; [|split; [|split]]].
  - unfold end_x. rewrite BK. f_equal. apply (C31_exact _ _ _ _ _ _ GP MQ) with (k := 65535%Z); [lia|]. rewrite XG. field.
  - unfold end_y. rewrite BK. reflexivity.
  - apply C31_y_error in MQ. apply (RUNG u z); [exact SZ|exact MQ|reflexivity].
  - assert (G1 : getz ev1 0 = Some s1).
    { assert (Q1 : EvaluatorModel.set_splines [s] 0 1 (Some [sp]) (playback_from 0) = Some [s1]) by (unfold EvaluatorModel.set_splines, set_each_spline, modify; change (getz [s] 0) with (Some s); cbv iota beta; rewrite E1; reflexivity). rewrite Q1 in SS. now injection SS as <-. }
    destruct (C44_start [s] 0%Z new_local tg sp ev1 s s1 (MNode u 0 t Closest) eq_refl ST G1 eq_refl RM AP) as ((y0 & S0 & _ & B0) & _). rewrite OC in S0.
    apply (RUNG (cur_y s) y0); [exact S0|exact B0|]. intros _. apply Rabs_minus_sym.
  - exact (proj1 (set_target_range _ _ _ TS)).
Qed.
(** It runs over any frames; once they have passed its time, and a little more, it is there. *)
Lemma sent_run s u t l : lively s -> (0 < t)%Z -> Forall (fun d => 0 <= d <= 32000) l -> exists s1 s2, slot_set_target [MNode u 0 t Closest] s = Some s1 /\ run_slot s1 l = Some s2 /\
  lively s1 /\ lively s2 /\ near (modular_range s) (cur_y s) u (cur_y s1) /\ (IZR t * (100001 / 100000) <= sum l -> near (modular_range s) u (cur_y s) (cur_y s2)).
Proof.
  intros LV T F. destruct (sent_ok s u t LV T) as (s1 & sp & ey & E & P & Y & O & XG & EX & EY & NE & NS & MR). exists s1. pose proof (IZR_lt _ _ T) as T0. assert (1 <= IZR t) by (apply (IZR_le 1); lia).
  assert (SM : Forall (fun d => small_step sp (d * playback_rate (playback_from 0))) l).
  { eapply Forall_impl; [|exact F]. intros d D. unfold small_step. cbn [playback_from playback_rate]. rewrite XG. lra. }
  destruct (run_placed sp (playback_from 0) O ltac:(intros Q; discriminate Q) l s1 0 P Y eq_refl SM) as (s2 & x2 & R2 & P2 & Y2 & W2). exists s2. destruct (run_range _ _ _ R2) as [M2 S2].
  destruct (set_target_range _ _ _ E) as [M1 S1]. destruct LV as [SRC LV].
  split; [exact E|]. split; [exact R2|]. split; [split; [exact S1|rewrite M1; exact LV]|]. split; [split; [congruence|rewrite M2, M1; exact LV]|]. split; [exact NS|]. intros TT. cbn [playback_from repeat_ wrapped] in W2.
  assert (X2 : x2 = sum l) by (rewrite W2, Rplus_0_l; f_equal; cbn [playback_from playback_rate]; rewrite <- (map_id l) at 2; apply map_ext; intros; ring).
  destruct (placed_plays _ _ _ _ O P2) as (_ & _ & v & d & SA & CY & _). rewrite (evaluated_same s2 Y2) in CY. cbn [playback_from y_scale y_offset] in CY.
  rewrite (at_end sp (IZR t) ey x2 v d O EX EY SA) in CY by (rewrite XG, X2; lra). rewrite CY. replace (1 * ey + 0) with ey by ring. exact NE.
Qed.

(** ** Blending to a spline *)
Lemma fade_run s sp p l : lively s -> blend_ok sp p -> Forall (fun d => small_step sp (d * playback_rate p)) l -> exists s1 s2, set_spline sp p s = Some s1 /\ run_slot s1 l = Some s2 /\
  lively s1 /\ lively s2 /\ same_angle (modular_range s) (cur_y s) (cur_y s1) /\ slot_derivative s1 = playback_rate p * slot_derivative s /\
  (blend_x p < sum l -> exists x, placed s2 sp p x /\ cur_y s2 = keval (curve s2) (cubic_x s2) /\ wrapped sp (repeat_ p) (start_at p + sum (map (fun d => d * playback_rate p) l)) x).
Proof.
  intros LV OK SM. pose proof (lively_usual s LV) as UR. pose proof OK as (O & CR & _ & BX & PR & _). destruct LV as [SRC LV].
  destruct (blend_starts s sp p OK UR) as (s' & x0 & E & BL). assert (E1 : set_spline sp p s = Some (evaluate_slot s')) by (unfold set_spline; destruct (source s); [|congruence]; rewrite Rltb_t by lra; now rewrite E).
  destruct (run_blending sp p (modular_range s) OK l _ x0 0 BL SM) as (s2 & R2 & H). cbv zeta in H. rewrite Rplus_0_l in H. exists (evaluate_slot s'), s2. destruct (set_spline_range _ _ _ _ E1) as [M1 S1]. destruct (run_range _ _ _ R2) as [M2 S2].
  split; [exact E1|]. split; [exact R2|]. split; [split; [congruence|rewrite M1; exact LV]|]. split; [split; [congruence|rewrite M2, M1; exact LV]|].
  destruct (C39_start [s] 0%Z [sp] p [evaluate_slot s'] 0%Z sp s) as (s1' & G1 & SA & SD & _); auto.
  { unfold EvaluatorModel.set_splines, set_each_spline, modify, length. change (getz [s] 0) with (Some s). cbv iota beta. rewrite E1. reflexivity. }
  cbn in G1. injection G1 as <-. split; [exact SA|]. split; [exact SD|]. intros TT.
  assert (SU : forall l, sum (map (fun d => d * playback_rate p) l) = sum l * playback_rate p) by (clear; induction l as [|a l IH]; cbn [map sum]; [ring|rewrite IH; ring]).
  assert (TW : blend_x p * playback_rate p < sum (map (fun d => d * playback_rate p) l)) by (rewrite SU; apply Rmult_lt_compat_r; lra).
  destruct H as [[T _]|[_ (x & PX & YX & WX)]]; [lra|]. exists x. auto.
Qed.
(** A new motivator that is given a value. *)
Definition about_zero (r : range) : Prop := valid r = false \/ exists h, 0 < h /\ r = Rg (- h) h.
Lemma current_any s v d : about_zero (modular_range s) -> exists s1, slot_set_target (current1f v d) s = Some s1 /\ lively s1 /\ modular_range s1 = modular_range s /\ near (modular_range s) v v (cur_y s1) /\ slot_derivative s1 = 0.
Proof.
  intros H. set (tg := current1f v d). assert (OC : override_current s tg = true) by reflexivity. assert (W : waypoints s tg = []) by reflexivity.
  assert (AP : apart s tg) by (unfold apart; rewrite W; exact Logic.I).
  assert (ST : exists sp ev1, set_target [s] 0 new_local tg = Some (sp, ev1)).
  { destruct H as [V|(h & H & M)]; [apply (C44_succeeds [s] 0%Z new_local tg s eq_refl V); [discriminate|cbn; lia|exact AP]|].
    apply (C44_modular_succeeds_partial [s] 0%Z new_local tg s h eq_refl M H); [discriminate|cbn; lia|exact AP|rewrite W; cbn; lia|repeat constructor]. }
  destruct ST as (sp & ev1 & ST). assert (RM : SplineTargetProps.room new_local) by (unfold SplineTargetProps.room; cbn; lia).
  destruct (set_target_inv [s] 0%Z new_local tg sp ev1 s eq_refl ST) as [BT SS]. pose proof (apart_built [s] 0%Z new_local tg sp ev1 s eq_refl ST RM AP) as B.
  destruct (set_spline_jump s sp (playback_from 0) (start_ok_built _ _ _ _ B) (or_intror (Rle_refl 0))) as (s1 & x & E1 & _).
  assert (TS : slot_set_target tg s = Some s1) by (unfold slot_set_target; rewrite BT; exact E1). exists s1. split; [exact TS|]. destruct (set_target_range _ _ _ TS) as [M1 S1].
  split; [split; [exact S1|rewrite M1; exact H]|]. split; [exact M1|].
  assert (G1 : getz ev1 0 = Some s1).
  { assert (Q1 : EvaluatorModel.set_splines [s] 0 1 (Some [sp]) (playback_from 0) = Some [s1]) by (unfold EvaluatorModel.set_splines, set_each_spline, modify; change (getz [s] 0) with (Some s); cbv iota beta; rewrite E1; reflexivity). rewrite Q1 in SS. now injection SS as <-. }
  destruct (C44_start [s] 0%Z new_local tg sp ev1 s s1 (MNode v d 0 Closest) eq_refl ST G1 eq_refl RM AP) as ((y0 & S0 & _ & B0) & _ & D0). rewrite OC in S0. cbn [mn_value] in S0. split; [|exact (D0 W)].
  destruct (C44_precision [s] 0%Z new_local tg sp ev1 s eq_refl ST RM AP) as [PM PN]. unfold near, stands_for in *. destruct (valid (modular_range s)) eqn:V.
  - destruct S0 as [k S0]. exists k. unfold length_ in S0. rewrite <- S0. rewrite (PM eq_refl) in B0. change (IZR (len tg)) with 1 in B0. unfold length_ in B0. rabs; lra.
  - subst y0. assert (L : length_ (y_range sp) <= 22 / 10 * (v - v)) by (apply PN; [reflexivity|constructor; [cbn; lra|constructor]|rewrite OC; discriminate]). replace (v - v) with 0 by ring. rewrite Rabs_R0. revert B0. rabs; lra.
Qed.
Lemma current_ok r v : about_zero r -> exists s1, slot_set_target (current1f v 0) (slot_set_y_range r slot_default) = Some s1 /\ lively s1 /\ modular_range s1 = r /\ near r v v (cur_y s1) /\ slot_derivative s1 = 0.
Proof. exact (current_any (slot_set_y_range r slot_default) v 0). Qed.
Lemma near_angle r a u b c : near r a u b -> same_angle r b c -> near r a u c.
Proof.
  unfold near, same_angle. destruct (valid r); [|now intros ? <-]. intros [k N] [j ->]. exists (k + j)%Z. rewrite plus_IZR. replace (b + IZR j * (end_ r - start_ r) - _) with (b - (a + IZR k * (end_ r - start_ r))) by ring. exact N.
Qed.
