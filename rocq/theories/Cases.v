(** Cases that meet the hypotheses of theorems in files without their own: C19, C24, C33,
    C34, C35, C37, C39, C41, C42, C46, C49, C57, C77, C79, C93 and C96. *)
From Verif Require Import RBase Base BaseFacts RangeModel RangeProofs RangeProps AngleProofs CurveModel CurveProofs CurveProps CurveUtilModel EaseProofs EaseProps OvershootModel OvershootProps SimpleModel EaseProcProps.
From Verif Require Import CompactSplineModel CompactSplineSpec CompactSplineProofs CompactSplineIndex CompactSplineEvalProps EvaluatorModel EvaluatorSpec EvaluatorProps EvaluatorOpProps EvaluatorBlendProps.
From Coq Require Import Lia.
Local Open Scope R_scope.

(** ** C19 *)
(** Two ranges apart: the inverse of their intersection is the gap between them. *)
Example C19_case : valid (intersect (Rg 0 1) (Rg 3 5)) = false /\ invert (intersect (Rg 0 1) (Rg 3 5)) = Rg 1 3 /\ length_ (Rg 3 5) <> 0 /\
  (forall r, In r [Rg 0 1; Rg 3 5] -> start_ r <= end_ r) /\ clamp_to_closest (5 / 2) [Rg 0 1; Rg 3 5] = 3.
Proof.
  assert (V : valid (intersect (Rg 0 1) (Rg 3 5)) = false) by (unfold valid, intersect; cbn [start_ end_]; rewrite Rmax_right, Rmin_left by lra; rewrite Rleb_f by lra; reflexivity).
  split; [exact V|]. destruct (C19_intersect (Rg 0 1) (Rg 3 5)) as (_ & _ & Q). cbn [start_ end_] in Q. destruct (Q ltac:(lra) ltac:(lra) V) as [E _]. rewrite Rltb_t in E by lra. split; [exact E|].
  split; [unfold length_; cbn; lra|]. assert (F : forall r, In r [Rg 0 1; Rg 3 5] -> start_ r <= end_ r) by (intros r [<- |[<- |[]]]; cbn; lra). split; [exact F|].
  destruct (C19_clamp_to_closest (5 / 2) _ F) as [_ N]. destruct (N ltac:(discriminate)) as [(r & I & B) M]. specialize (M (Rg 3 5) 3 ltac:(right; left; reflexivity) ltac:(cbn; lra)).
  revert B M. destruct I as [<- |[<- |[]]]; cbn [start_ end_]; intros B M; revert M; rabs; lra.
Qed.

(** ** C24 *)
Example C24_case : 2 <> 0 /\ qeval (qscale_in_x (Quad 1 0 0) 2) 4 = 4.
Proof. split; [lra|]. unfold qeval, qscale_in_x, qscale_in_x_by_reciprocal. cbn. field. Qed.

(** ** C33, C34, C35, C37: the spline [peak] rises from 0 at x = 0 to 1 at x = 1 and falls to 0 at x = 2. *)
Definition flat_spline : spline := Spline (Rg 0 1) 1 [Node 3 65535 0] 7.
Lemma flat_ok : spline_ok flat_spline.
Proof. split; cbn; try lra; repeat constructor; cbn; lia. Qed.
Example C33_case : spline_ok peak /\ getz (nodes peak) 0 = Some (Node 0 0 0) /\ getz (nodes peak) 1 = Some (Node 1 65535 0) /\ (nx (Node 0 0 0) < nx (Node 1 65535 0))%Z /\
  in_int_range peak 3 /\ start_x peak = Some 0 /\ end_x peak = Some 2 /\ 2 + x_granularity peak / 2 <= 3 /\ spline_ok flat_spline /\ in_int_range flat_spline 3 /\ nodes flat_spline = [Node 3 65535 0].
Proof.
  assert (E0 : start_x peak = Some 0) by (unfold start_x; change (front peak) with (Some (Node 0 0 0)); unfold node_x; cbn [nx x_granularity peak]; apply f_equal; lra). assert (E2 : end_x peak = Some 2) by (unfold end_x; change (back peak) with (Some (Node 2 0 0)); unfold node_x; cbn [nx x_granularity peak]; apply f_equal; lra).
  split; [apply peak_ok|]. do 3 (split; [reflexivity|]). unfold in_int_range. cbn [x_granularity peak flat_spline].
  split; [rabs; lra|]. split; [exact E0|]. split; [exact E2|]. split; [lra|]. split; [apply flat_ok|]. split; [rabs; lra|reflexivity].
Qed.
(** Past its end by 1/2, [peak] repeats from 1/2 or from its first node. *)
Example C34_case : exists i x', index_for_x_allowing_repeat peak (5 / 2) 0 true = Some (i, x') /\ 0 < x' <= 2 /\ exists k : Z, x' = 5 / 2 + IZR k * 2.
Proof.
  destruct C33_case as (_ & _ & _ & _ & _ & _ & E2 & _).
  destruct (C34_repeat peak (5 / 2) 0 2 peak_ok) as (i & x' & E & _ & D); try assumption; try (cbn; lra); try lia.
  - unfold in_int_range. cbn [x_granularity peak]. rabs; lra.
  - cbn. lia.
  - exists i, x'. split; [exact E|]. cbn [x_granularity peak] in D. destruct D as [(L & _)|(_ & B & K & _)]; [lra|]. auto.
Qed.
Example C35_case : exists rows, bulk_ys 5 [peak; flat_spline] 0 (1 / 2) 5 = Some rows /\ len rows = 5%Z.
Proof.
  destruct (C35_bulk [peak; flat_spline] 0 (1 / 2) 5 ltac:(lia)) as (rows & E & L & _); [|exists rows; auto].
  unfold small_step. repeat apply Forall_cons; try apply Forall_nil; (split; [apply peak_ok || apply flat_ok|]); cbn [x_granularity peak flat_spline]; lra.
Qed.
Definition at_once : playback := Playback 0 0 1 0 1 false.
Lemma at_once_ok : Forall (fun sp => start_ok sp at_once /\ Forall (fun d => small_step sp (d * playback_rate at_once)) [1 / 2; 1 / 3]) [peak].
Proof.
  apply Forall_cons; [|apply Forall_nil]. split.
  - split; [apply peak_ok|]. split; [intros D; discriminate|]. cbn. lra.
  - unfold small_step. cbn [playback_rate at_once x_granularity peak]. repeat apply Forall_cons; try apply Forall_nil; lra.
Qed.
Example C37_case : exists ev1 ev2 s x, set_splines [slot_default] 0 1 (Some [peak]) at_once = Some ev1 /\ advance_frames ev1 [1 / 2; 1 / 3] = Some ev2 /\ getz ev2 0 = Some s /\ plays s peak at_once x /\ x = 5 / 6.
Proof.
  destruct (C37_no_failure [slot_default] [peak] at_once [1 / 2; 1 / 3] eq_refl at_once_ok) as (ev1 & ev2 & E1 & E2); [apply Forall_cons; [now left|apply Forall_nil]|].
  pose proof at_once_ok as A. inversion A as [|? ? [A1 A2] _]; subst.
  destruct (C37_tracks [slot_default] 0 [peak] at_once ev1 [1 / 2; 1 / 3] ev2 0 peak E1 E2 eq_refl A1 A2) as (s & x & G & P & W).
  { intros s S. injection S as <-. now left. }
  exists ev1, ev2, s, x. do 4 (split; [assumption|]). clear - W. unfold wrapped in W. cbn [repeat_ at_once start_at playback_rate map sum] in W. lra.
Qed.

(** ** C39: [peak] is playing at a quarter and is blended into the flat spline. *)
Definition blends : playback := Playback 0 2 1 0 1 false.
Example C39_case : exists ev1 s1 ev2 ev3, set_splines (set_num_indices [] 1) 0 1 (Some [peak]) quarter = Some ev1 /\ getz ev1 0 = Some s1 /\ source s1 <> None /\ usual_range (modular_range s1) /\
  set_splines ev1 0 1 (Some [flat_spline]) blends = Some ev2 /\ advance_frames ev2 [1; 1 / 2] = Some ev3 /\ blend_ok flat_spline blends /\ Forall (fun d => small_step flat_spline (d * playback_rate blends)) [1; 1 / 2].
Proof.
  destruct playing_quarter as (ev1 & s1 & E1 & G1 & L1 & SO & _ & _ & M).
  assert (B : blend_ok flat_spline blends). { split; [apply flat_ok|]. split; [intros D; discriminate|]. cbn. lra. }
  assert (SS : Forall (fun d => small_step flat_spline (d * playback_rate blends)) [1; 1 / 2]).
  { unfold small_step. cbn [playback_rate blends x_granularity flat_spline]. repeat apply Forall_cons; try apply Forall_nil; lra. }
  assert (UR : usual_range (modular_range s1)) by (left; rewrite M; unfold valid, range_default; cbn; apply Rleb_f; lra).
  destruct ev1 as [|t [|t' ev1]]; [discriminate| |cbn in L1; lia]. cbn in G1. injection G1 as ->.
  destruct (C39_no_failure [s1] [flat_spline] blends [1; 1 / 2] eq_refl) as (ev2 & ev3 & E2 & E3); [apply Forall_cons; [auto|apply Forall_nil]|apply Forall_cons; [exact UR|apply Forall_nil]|].
  exists [s1], s1, ev2, ev3. split; [exact E1|]. split; [reflexivity|]. split; [congruence|]. auto.
Qed.

(** ** C41, C42 *)
(** The index that plays [peak] is cleared and two frames follow. *)
Example C41_case : exists ev1 s1 ev2 ev3, set_splines (set_num_indices [] 1) 0 1 (Some [peak]) quarter = Some ev1 /\ getz ev1 0 = Some s1 /\ cur_y s1 = 5 / 32 /\
  clear_splines ev1 0 1 = Some ev2 /\ advance_frames ev2 [1; 2] = Some ev3.
Proof.
  destruct playing_quarter as (ev1 & s1 & E1 & G1 & L1 & SO & Y & _ & M). destruct ev1 as [|t [|t' ev1]]; [discriminate| |cbn in L1; lia]. cbn in G1. injection G1 as ->.
  exists [s1], s1. do 2 eexists. split; [exact E1|]. split; [reflexivity|]. split; [exact Y|]. split; reflexivity.
Qed.
(** Two fresh indices with a range, and frames of time 0. *)
Example C42_case : exists ev1 ev2, set_y_ranges (set_num_indices [] 2) 0 2 (Rg (-3) 3) = Some ev1 /\ Forall (fun d => d <= 0) [0; 0] /\ advance_frames ev1 [0; 0] = Some ev2 /\ len ev2 = 2%Z.
Proof.
  assert (F : Forall (fun d => d <= 0) [0; 0]) by (repeat apply Forall_cons; try apply Forall_nil; lra). eexists.
  destruct (C42_fresh_partial 2 (Rg (-3) 3) [0; 0] _ F eq_refl) as (ev2 & E & _). exists ev2. split; [reflexivity|]. split; [exact F|]. split; [exact E|].
  destruct (advance_frames_getz _ _ _ E) as [L _]. rewrite L. reflexivity.
Qed.

(** ** C46: 25 units of time in steps of at most 10 *)
Example C46_case : (0 < o_max_delta_time (init_of (fst (OData 0 10 demo_init, 0))))%Z /\
  exists dts, total dts = 25%Z /\ Forall (fun dt => 0 < dt <= 10)%Z dts /\ (2 < length dts)%nat /\ OvershootModel.advance_index 25 25 (OData 0 10 demo_init, 0) = steps dts (OData 0 10 demo_init, 0).
Proof.
  split; [reflexivity|]. destruct (C46_consumes_partial 25 (OData 0 10 demo_init, 0) eq_refl) as (dts & T & F & E). exists dts. split; [exact T|]. split; [exact F|]. split; [|apply E; cbn; lia].
  clear E. cbn in F. destruct F as [|a l A F]; [discriminate|]. destruct F as [|b l B F]; [cbn in T; lia|]. destruct F as [|c l C F]; [cbn in T; lia|]. cbn. lia.
Qed.

(** ** C49: from rest at 0 to rest at 1/2, with a shape that takes one unit of time *)
Example C49_case : exists d x' e, ease_make (SimpleInit (Some [0]) (Some [0])) 0 = Some d /\ ease_set_target (1 / 2) 0 (Shape (1 / 2) 1 (1 / 2)) (d, 0) = Some x' /\ e_q (fst x') = Curve e /\
  smooth_path e 0 0 (1 / 2) /\ 0 < total_x e /\ e_deriv e (total_x e) = 0.
Proof.
  eexists (EData (Curve (eieo_single (quad_with_origin 0 0 0) 0)) (Shape 0 0 0) 0 0 0). set (x := (_, _) : edata * R).
  assert (V0 : ease_velocity (fst x) = 0) by (unfold ease_velocity, ec_deriv, e_deriv, e_curve, eieo_single, quad_with_origin, qderiv; cbn; destruct (Rleb _ _); cbn; lra).
  assert (F : ease_in 0 0 (1 / 2) 2 = Quad 1 0 0) by (unfold ease_in, start_sign, fly_sign; rewrite ?Reqb_f, Rleb_t by lra; f_equal; lra).
  assert (G : ease_out 0 0 (1 / 2) 0 2 = Quad (- (1)) 0 (1 / 2)) by (unfold ease_out, start_sign, fly_sign; rewrite ?Reqb_f, Rleb_t by lra; f_equal; lra).
  destruct (C49_start_partial (Shape (1 / 2) 1 (1 / 2)) 2 2 (1 / 2) 0 x) as (e & x' & E & Q & P & _ & _ & _ & D).
  all: change (snd x) with 0 in *; rewrite ?V0 in *; cbn [typical_delta_value typical_total_time shape_bias] in *; rewrite ?F, ?G in *; try lra.
  - unfold second_derivatives_from_typical. rewrite !Rleb_t, !Rltb_t by lra. cbn [andb]. rewrite !Reqb_f by lra. repeat f_equal; field.
  - right. pose proof eps_scale_lt1. rabs; lra.
  - apply moderate_well_conditioned. unfold s_quadratic, qsub. cbn [q2 q1 q0]. unfold moderate, discriminant. cbn [q2 q1 q0]. repeat split.
    + intros c [-> | [-> | ->]]; [right|left; lra|right]; unfold Rabs; destruct (Rcase_abs _); lra.
    + left. lra.
    + right. unfold Rabs; destruct (Rcase_abs _); lra.
  - unfold fly_sign. rewrite Rleb_t by lra. rewrite Rmax_left by lra. apply moderate_well_conditioned. unfold moderate, discriminant. cbn [q2 q1 q0]. repeat split.
    + intros c [-> | [-> | ->]]; [right|left; lra|right]; unfold Rabs; destruct (Rcase_abs _); lra.
    + left. lra.
    + right. unfold Rabs; destruct (Rcase_abs _); lra.
  - intros u s T. unfold tangent, qeval, qderiv in T. cbn [q2 q1 q0] in T. destruct T as [T1 T2]. right. assert (s = 2 * u) by lra. subst s. assert (u * u = 1 / 4) by lra. rabs; nra.
  - exists x', e. split; [reflexivity|]. split; [exact E|]. split; [exact Q|]. split; [exact P|]. split.
    + destruct P as (I & P0 & _ & P1 & _). destruct (Rlt_dec 0 (total_x e)) as [L|L]; [exact L|]. replace (total_x e) with 0 in P1 by lra. lra.
    + destruct D as [[D _]|[_ D]]; [exact D|]. exfalso. apply (D (1 / 2) 1); [unfold tangent, qeval, qderiv; cbn [q2 q1 q0]; lra| |lra].
      intros u' s' T. unfold tangent, qeval, qderiv in T. cbn [q2 q1 q0] in T. destruct T as [T1 T2]. assert (s' = 2 * u') by lra. subst s'. assert (u' * u' = 1 / 4) by lra. nra.
Qed.
