(** C49: the ease-in-ease-out processor. *)
From Verif Require Import RBase BaseFacts RangeModel FloatModel FloatProofs CurveModel CurveProofs CurveUtilModel Glue EaseProofs EaseProps OvershootModel SimpleModel.
From Coq Require Import Lia.
Local Open Scope R_scope.

(** The values and slopes after a target is set: along the curve, then at rest at its end. *)
Definition path (e : eieo) (t : R) : R := if Rltb t (total_x e) then e_eval e t else e_eval e (total_x e).
Definition path_slope (e : eieo) (t : R) : R := if Rltb t (total_x e) then e_deriv e t else 0.

(** The time of a sequence of frames. *)
Definition total_time (dts : list Z) : R := fold_right (fun dt t => IZR dt + t) 0 dts.

Lemma total_time_nonneg dts : Forall (fun dt => 0 <= dt)%Z dts -> 0 <= total_time dts.
Proof. induction 1; cbn [total_time fold_right]; [lra|]. apply IZR_le in H. fold (total_time l). lra. Qed.

(** The data once the flat line has been reached. *)
Lemma flat_frames dts : forall d v y, e_q d = Flat v -> Forall (fun dt => 0 <= dt)%Z dts -> y = v ->
  exists x', ease_frames dts (d, y) = Some x' /\ e_q (fst x') = Flat v /\ snd x' = v.
Proof.
  induction dts as [|dt dts IH]; intros d v y Q F ->; [eexists; split; [reflexivity|auto]|]. inversion F as [|? ? H0 H1]; subst. cbn [ease_frames]. unfold ease_frame. cbn [fst snd].
  rewrite Q. cbn [ec_total ec_eval]. apply IH; [reflexivity|assumption|reflexivity].
Qed.

Definition on_curve (e : eieo) (t : R) (d : edata) : Prop := e_q d = Curve e /\ q_start_time d = 0 /\ e_elapsed d = t /\ e_target_time d = total_x e.

Lemma curve_frames e : Rabs (e_deriv e (total_x e)) <= kDerivativeEpsilon ->
  forall dts t d y, on_curve e t d -> 0 <= t < total_x e \/ (t = total_x e /\ dts <> []) -> y = path e t -> Forall (fun dt => 0 <= dt)%Z dts ->
  exists x', ease_frames dts (d, y) = Some x' /\ snd x' = path e (t + total_time dts) /\ ease_velocity (fst x') = path_slope e (t + total_time dts).
Proof.
  intros HD. induction dts as [|dt dts IH]; intros t d y (Q & S & E & TT) HT -> F.
  - destruct HT as [HT|[_ N]]; [|congruence]. cbn [ease_frames total_time fold_right]. eexists. split; [reflexivity|]. cbn [fst snd]. rewrite Rplus_0_r. split; [reflexivity|].
    unfold ease_velocity, path_slope. rewrite Q, E, Rltb_t by lra. reflexivity.
  - inversion F as [|? ? H0 H1]; subst. cbn [ease_frames]. unfold ease_frame. cbn [fst]. rewrite Q, S. cbn [ec_total ec_eval ec_deriv]. rewrite Rminus_0_r.
    pose proof (IZR_le _ _ H0) as H0'. pose proof (total_time_nonneg _ H1) as TN. cbn [total_time fold_right]. fold (total_time dts).
    destruct (Rleb_spec (total_x e) (e_elapsed d + IZR dt)) as [G|G].
    + rewrite Rltb_f by lra. cbn [ec_eval].
      destruct (flat_frames dts (EData (Flat (e_eval e (total_x e))) (e_shape d) (0 + total_x e) (e_target_time d) (e_elapsed d + IZR dt)) (e_eval e (total_x e)) (e_eval e (total_x e)))
        as (x' & E' & Q' & V'); [reflexivity|assumption|reflexivity|].
      exists x'. split; [exact E'|]. unfold path, path_slope. rewrite Rltb_f by lra. split; [exact V'|]. unfold ease_velocity. rewrite Q'. reflexivity.
    + set (d1 := EData _ _ _ _ _). destruct (IH (e_elapsed d + IZR dt) d1 (e_eval e (e_elapsed d + IZR dt))) as (x' & E' & V' & D').
      * repeat split; try reflexivity. exact TT.
      * left. split; [|lra]. destruct HT as [HT|[HT _]]; lra.
      * unfold path. rewrite Rltb_t by lra. reflexivity.
      * assumption.
      * exists x'. rewrite Rplus_assoc in V', D'. auto.
Qed.

(** SetTargetWithShape starts from the current value and velocity, and aims at the target;
    partial: for the shapes for which the curve is found (C27). *)
Theorem C49_start_partial : forall shape s2 e2 v1 d1 x,
  let v0 := snd x in let d0 := ease_velocity (fst x) in
  let dv := typical_delta_value shape in let tx := typical_total_time shape in
  second_derivatives_from_typical dv tx (shape_bias shape) = Some (Some s2, Some e2) ->
  0 < s2 -> 0 < e2 -> 0 < dv -> 0 < tx ->
  v1 = v0 \/ kEpsilonScale * dv < Rabs (v1 - v0) ->
  ~ (v1 = v0 /\ Rabs (d1 - d0) <= kEpsilonScale * (dv / tx)) ->
  let f := ease_in v0 d0 v1 s2 in let g := ease_out v0 d0 v1 d1 e2 in
  well_conditioned (normalized (s_quadratic f g)) ->
  well_conditioned (normalized (Quad (1 / 2 * (fly_sign v0 v1 * Rmax s2 e2)) d0 (v0 - v1))) ->
  (forall u s, tangent f g u s -> u = 0 \/ tx / 10000 <= Rabs u) ->
  exists e x', ease_set_target v1 d1 shape x = Some x' /\ e_q (fst x') = Curve e /\ smooth_path e v0 d0 v1 /\
    snd x' = v0 /\ ease_velocity (fst x') = d0 /\ ease_target_value (fst x') = v1 /\
    (e_deriv e (total_x e) = d1 /\ ease_target_velocity (fst x') = d1 \/
     in_curve e = out_curve e /\
     forall u s, tangent f g u s -> (forall u' s', tangent f g u' s' -> s' <= s) -> ~ 0 <= u <= s).
Proof.
  intros shape s2 e2 v1 d1 x v0 d0 dv tx ET H1 H2 H3 H4 HV HD f g W1 W2 NC.
  destruct (C27_ease_in_ease_out_partial v0 d0 s2 v1 d1 e2 dv tx H1 H2 H3 H4 HV HD W1 W2 NC) as (e & E & P & D).
  exists e. unfold ease_set_target, shape_curve. fold dv tx. rewrite ET. cbn [fst snd]. fold v0 d0. rewrite E. eexists. split; [reflexivity|].
  pose proof P as (I & P0 & P1 & P2 & _). unfold ease_velocity, ease_target_value, ease_target_velocity. cbn [fst snd e_q e_elapsed e_target_time q_start_time ec_eval ec_deriv].
  rewrite Rminus_0_r, Rmax_right by lra. split; [reflexivity|]. split; [exact P|]. split; [reflexivity|]. split; [exact P1|]. split; [exact P2|].
  destruct D as [D|D]; [left; auto|now right].
Qed.
Print Assumptions C49_start_partial.

(** From there on, for every sequence of frames: the value follows the curve and then stays
    at the target, and Velocity is the slope, when the curve ends at rest. *)
Theorem C49_trajectory_partial : forall e shape v0 d0 v1 y, smooth_path e v0 d0 v1 ->
  Rabs (e_deriv e (total_x e)) <= kDerivativeEpsilon -> y = v0 ->
  forall dts, dts <> [] -> Forall (fun dt => 0 <= dt)%Z dts ->
  exists x, ease_frames dts (EData (Curve e) shape 0 (total_x e) 0, y) = Some x /\
    snd x = path e (total_time dts) /\ ease_velocity (fst x) = path_slope e (total_time dts).
Proof.
  intros e shape v0 d0 v1 y (I & P0 & P1 & P2 & _) HD -> dts N F.
  destruct (curve_frames e HD dts 0 (EData (Curve e) shape 0 (total_x e) 0) v0) as (x & E & V & D).
  - repeat split.
  - destruct (Rlt_dec 0 (total_x e)); [left; lra|right; split; [lra|assumption]].
  - unfold path. destruct (Rltb_spec 0 (total_x e)); [now rewrite P0|]. replace (total_x e) with 0 by lra. now rewrite P0.
  - assumption.
  - exists x. rewrite Rplus_0_l in V, D. auto.
Qed.
Print Assumptions C49_trajectory_partial.

(** The path begins at the old value and slope; its slope is its derivative, and it is at
    the target, at rest, from the target time on. *)
Theorem C49_path : forall e v0 d0 v1, smooth_path e v0 d0 v1 -> 0 < total_x e -> e_deriv e (total_x e) = 0 ->
  path e 0 = v0 /\ path_slope e 0 = d0 /\
  (forall t, derivable_pt_lim (path e) t (path_slope e t)) /\
  (forall t, total_x e <= t -> path e t = v1 /\ path_slope e t = 0).
Proof.
  intros e v0 d0 v1 (I & P0 & P1 & P2 & DE & CE) T D. unfold path, path_slope. rewrite !Rltb_t by lra. split; [exact P0|]. split; [exact P1|]. split.
  - intros t. pose proof (glue_derivable (e_eval e) (fun _ => e_eval e (total_x e)) (e_deriv e) (fun _ => 0) (total_x e) eq_refl D DE (fun x => derivable_pt_lim_const _ x) t) as G.
    assert (E1 : forall z, glue (e_eval e) (fun _ => e_eval e (total_x e)) (total_x e) z = if Rltb z (total_x e) then e_eval e z else e_eval e (total_x e)).
    { intros z. unfold glue. destruct (Rleb_spec z (total_x e)), (Rltb_spec z (total_x e)); try lra; try reflexivity. now replace z with (total_x e) by lra. }
    assert (E2 : glue (e_deriv e) (fun _ => 0) (total_x e) t = if Rltb t (total_x e) then e_deriv e t else 0).
    { unfold glue. destruct (Rleb_spec t (total_x e)), (Rltb_spec t (total_x e)); try lra; try reflexivity. now replace t with (total_x e) by lra. }
    rewrite E2 in G. eapply lim_ext; [exact E1|exact G].
  - intros t Ht. rewrite !Rltb_f by lra. auto.
Qed.
Print Assumptions C49_path.

(** The reported target time is the end of the path, rounded down: after more frame time
    than it reports, the motivator is at the end. *)
Theorem C49_target_time : forall e shape t n, 0 <= total_x e -> (0 <= n)%Z ->
  k_target_time ease_class (EData (Curve e) shape 0 (total_x e) 0) = Some t -> (t < n)%Z -> total_x e <= IZR n.
Proof.
  intros e shape t n T N H L. cbn in H. rewrite Rminus_0_r in H. unfold to_motive_time in H. rewrite Rleb_t in H by lra.
  destruct (_ && _)%bool; [|discriminate]. injection H as <-. pose proof (Rfloor_bounds (total_x e)) as B. apply Z.le_succ_l, IZR_le in L. rewrite succ_IZR in L. lra.
Qed.
Print Assumptions C49_target_time.

(** ** When the curve does not end at rest *)
Lemma ease_known v0 d0 s2 v1 d1 e2 dv tx u s : 0 < s2 -> 0 < e2 -> 0 < dv -> 0 < tx ->
  (v1 = v0 /\ kEpsilonScale * (dv / tx) < Rabs (d1 - d0)) \/ kEpsilonScale * dv < Rabs (v1 - v0) ->
  let f := ease_in v0 d0 v1 s2 in let g := ease_out v0 d0 v1 d1 e2 in
  well_conditioned (normalized (s_quadratic f g)) -> tangent f g u s ->
  (forall s', qeval (s_quadratic f g) s' = 0 -> s' <= s) -> tx / 10000 <= Rabs u ->
  ease_in_ease_out v0 d0 (Some s2) v1 d1 (Some e2) dv tx =
  if Rltb s u || Rltb u 0 then fly_out v0 v1 d0 (Rmax s2 e2) else Some (EIEO f (qshift_right g s) u s).
Proof.
  intros H1 H2 H3 H4 HV f g W T MX U. pose proof eps_scale_pos as EP.
  assert (SG : start_sign v0 v1 d0 = 1 \/ start_sign v0 v1 d0 = -1).
  { unfold start_sign, fly_sign. destruct (Reqb v0 v1); [destruct (Rltb d0 0); auto|destruct (Rleb v0 v1); auto]. }
  assert (P : q2 f - q2 g <> 0) by (unfold f, g, ease_in, ease_out; cbn [q2]; destruct SG as [-> | ->]; lra).
  pose proof (proj1 (tangent_iff _ _ _ _ P) T) as [Q UU].
  destruct (shift_ok f g tx H4 P W (ex_intro _ s Q)) as (u' & s' & T' & MX' & ES).
  pose proof (proj1 (tangent_iff _ _ _ _ P) T') as [Q' UU'].
  assert (E : s' = s). { apply Rle_antisym; [now apply MX|]. now apply (MX' u). } subst s'. rewrite <- UU in UU'. subst u'.
  rewrite Rltb_f in ES by (unfold kEpsilonXPercent; lra).
  unfold ease_in_ease_out. rewrite (Rltb_t 0 s2), (Rltb_t 0 e2), (Rltb_t 0 dv), (Rltb_t 0 tx) by assumption. cbn [andb].
  assert (C : (if Rleb (Rabs (v1 - v0)) (kEpsilonScale * dv) then if Rltb d0 0 then 1 else -1 else if Rleb v0 v1 then 1 else -1) = start_sign v0 v1 d0 /\
    (Rleb (Rabs (v1 - v0)) (kEpsilonScale * dv) && Rleb (Rabs (d1 - d0)) (kEpsilonScale * (dv / tx)) = false)%bool).
  { unfold start_sign, fly_sign. destruct HV as [[-> L]|L].
    - rewrite (Rleb_f (Rabs (d1 - d0))) by assumption. rewrite Rminus_diag, Rabs_R0, (Rleb_t 0), Reqb_t by (try reflexivity; nra). auto.
    - rewrite Rleb_f by assumption. rewrite Reqb_f by (intros ->; rewrite Rminus_diag, Rabs_R0 in L; nra). auto. }
  destruct C as [C1 C2]. rewrite C1, C2. 
  replace (quad_with_origin v0 d0 (start_sign v0 v1 d0 * s2)) with f by reflexivity. replace (quad_with_origin v1 d1 (- start_sign v0 v1 d0 * e2)) with g by reflexivity.
  rewrite ES. reflexivity.
Qed.

Definition demo_shape : curve_shape := Shape (27 / 10) 5 (9 / 25).
Lemma demo_derivatives : second_derivatives_from_typical (27 / 10) 5 (9 / 25) = Some (Some (3 / 5), Some (27 / 80)).
Proof.
  unfold second_derivatives_from_typical. rewrite (Rleb_t 0), (Rleb_t (9 / 25) 1), !Rltb_t by lra. cbn [andb]. rewrite Rleb_f by lra. rewrite !Reqb_f by lra. apply f_equal, f_equal2; apply f_equal; lra.
Qed.
Lemma eps_small : kEpsilonScale < 1 / 1000.
Proof. unfold kEpsilonScale. replace (1 / 1000) with (/ 1000) by field. apply Rinv_lt_contravar; [pose proof (pow2_pos 22); lra|]. unfold pow2, powerRZ. rewrite <- (Rmult_1_r 1000). replace (Pos.to_nat 22) with 22%nat by reflexivity. cbn [pow]. lra. Qed.

(** Moving at 9/5 towards a target 21/10 away, to arrive at rest: the curve speeds up and
    passes the target with speed 12/5. *)
Lemma demo_first : shape_curve demo_shape 0 (9 / 5) (21 / 10) 0 = Some (eieo_single (Quad (3 / 10) (9 / 5) 0) 1).
Proof.
  unfold shape_curve, demo_shape. cbn [typical_delta_value typical_total_time shape_bias]. rewrite demo_derivatives. cbn [fst snd]. pose proof eps_small.
  assert (EF : ease_in 0 (9 / 5) (21 / 10) (3 / 5) = Quad (3 / 10) (9 / 5) 0) by (unfold ease_in, start_sign, fly_sign; rewrite Reqb_f, Rleb_t by lra; f_equal; lra).
  assert (EG : ease_out 0 (9 / 5) (21 / 10) 0 (27 / 80) = Quad (- (27 / 160)) 0 (21 / 10)) by (unfold ease_out, start_sign, fly_sign; rewrite Reqb_f, Rleb_t by lra; f_equal; lra).
  rewrite (ease_known 0 (9 / 5) (3 / 5) (21 / 10) 0 (27 / 80) (27 / 10) 5 (- (3 / 5)) (11 / 3)); try lra.
  - rewrite (Rltb_t (- (3 / 5)) 0) by lra. rewrite Bool.orb_true_r. rewrite Rmax_left by lra.
    destruct (fly_out_ok 0 (21 / 10) (9 / 5) (3 / 5)) as (x & E & X & V); try lra.
    + apply moderate_well_conditioned. unfold moderate, discriminant, fly_sign. rewrite Rleb_t by lra. cbn [q2 q1 q0]. split; [|split].
      * intros c [-> | [-> | ->]]; right; rabs; lra.
      * left. lra.
      * right. rabs; lra.
    + rewrite E. unfold fly_sign, quad_with_origin, qeval in *. rewrite Rleb_t in * by lra. cbn [q2 q1 q0] in V.
      assert (x = 1) as -> by nra. f_equal. f_equal. f_equal; lra.
  - right. rabs; lra.
  - rewrite EF, EG. apply moderate_well_conditioned. unfold moderate, discriminant, s_quadratic, qsub. cbn [q2 q1 q0]. split; [|split].
    + intros c [-> | [-> | ->]]; right; rabs; lra.
    + left. lra.
    + right. rabs; lra.
  - rewrite EF, EG. unfold tangent, qeval, qderiv. cbn [q2 q1 q0]. split; lra.
  - rewrite EF, EG. unfold s_quadratic, qsub, qeval. cbn [q2 q1 q0]. intros s' Hs. nra.
  - rabs; lra.
Qed.

(** The curve that brings it back. *)
Lemma demo_second : exists g, shape_curve demo_shape (21 / 10) (12 / 5) (21 / 10) 0 = Some (EIEO (Quad (- (3 / 10)) (12 / 5) (21 / 10)) g (32 / 5) (32 / 3)).
Proof.
  unfold shape_curve, demo_shape. cbn [typical_delta_value typical_total_time shape_bias]. rewrite demo_derivatives. cbn [fst snd]. pose proof eps_small.
  assert (EF : ease_in (21 / 10) (12 / 5) (21 / 10) (3 / 5) = Quad (- (3 / 10)) (12 / 5) (21 / 10)) by (unfold ease_in, start_sign; rewrite Reqb_t, Rltb_f by lra; f_equal; lra).
  assert (EG : ease_out (21 / 10) (12 / 5) (21 / 10) 0 (27 / 80) = Quad (27 / 160) 0 (21 / 10)) by (unfold ease_out, start_sign; rewrite Reqb_t, Rltb_f by lra; f_equal; lra).
  rewrite (ease_known (21 / 10) (12 / 5) (3 / 5) (21 / 10) 0 (27 / 80) (27 / 10) 5 (32 / 5) (32 / 3)); try lra.
  - rewrite EF, !Rltb_f by lra. cbn [orb]. eexists. reflexivity.
  - left. split; [reflexivity|]. rabs; lra.
  - rewrite EF, EG. apply moderate_well_conditioned. unfold moderate, discriminant, s_quadratic, qsub. cbn [q2 q1 q0]. split; [|split].
    + intros c [-> | [-> | ->]]; right; rabs; lra.
    + left. lra.
    + right. rabs; lra.
  - rewrite EF, EG. unfold tangent, qeval, qderiv. cbn [q2 q1 q0]. split; lra.
  - rewrite EF, EG. unfold s_quadratic, qsub, qeval. cbn [q2 q1 q0]. intros s' Hs. nra.
  - rabs; lra.
Qed.

(** A motivator at 0 moving at 9/5 is asked to be at 21/10, at rest; it reports a target time
    of 1.  One time unit after that it is at 21/5 and moving away, and the velocity it
    reports, 6/5, is not the slope of its value there, which is 9/5. *)
Theorem C49_at_rest_refuted : exists x0 x1 x2 x3, ease_make (SimpleInit (Some [0]) (Some [9 / 5])) 0 = Some (fst x0) /\ snd x0 = 0 /\
  ease_set_target (21 / 10) 0 demo_shape x0 = Some x1 /\ k_target_time ease_class (fst x1) = Some 1%Z /\
  ease_frames [1%Z] x1 = Some x2 /\ snd x2 = 21 / 10 /\
  ease_frames [1%Z; 1%Z] x1 = Some x3 /\ snd x3 = 42 / 10 /\ ease_velocity (fst x3) = 12 / 10 /\
  exists q, e_q (fst x3) = q /\ q_start_time (fst x3) = 1 /\ ec_eval q (2 - 1) = 42 / 10 /\ ec_deriv q (2 - 1) = 18 / 10.
Proof.
  destruct demo_second as [g DS]. eexists (_, 0). cbn [fst snd]. eexists. eexists. eexists. split; [reflexivity|]. split; [reflexivity|].
  unfold ease_set_target. cbn [fst snd].
  replace (ease_velocity _) with (9 / 5) by (unfold ease_velocity, ec_deriv, e_deriv, e_curve, eieo_single, quad_with_origin, qderiv; cbn; rewrite Rleb_t by lra; cbn; lra).
  rewrite demo_first. split; [reflexivity|]. cbn [fst snd total_x eieo_single].
  assert (FL : Rfloor 1 = 1%Z) by (apply Rfloor_unique; lra).
  split. { cbn [k_target_time ease_class e_target_time e_elapsed]. rewrite Rminus_0_r. unfold to_motive_time. rewrite Rleb_t, FL by lra. reflexivity. }
  assert (F1 : ease_frame 1 (EData (Curve (eieo_single (Quad (3 / 10) (9 / 5) 0) 1)) demo_shape 0 1 0, 0) =
    Some (EData (Curve (EIEO (Quad (- (3 / 10)) (12 / 5) (21 / 10)) g (32 / 5) (32 / 3))) demo_shape 1 1 1, 21 / 10)).
  { unfold ease_frame. cbn [fst snd e_q e_shape q_start_time e_target_time e_elapsed ec_total total_x eieo_single ec_eval ec_deriv].
    cbv zeta. rewrite Rleb_t by lra.
    replace (e_deriv (eieo_single (Quad (3 / 10) (9 / 5) 0) 1) 1) with (12 / 5) by (unfold e_deriv, e_curve, eieo_single, qderiv; cbn [intersection_x in_curve]; rewrite Rleb_t by lra; cbn; lra).
    replace (e_eval (eieo_single (Quad (3 / 10) (9 / 5) 0) 1) 1) with (21 / 10) by (unfold e_eval, e_curve, eieo_single, qeval; cbn [intersection_x in_curve]; rewrite Rleb_t by lra; cbn; lra).
    rewrite Rltb_t by (unfold kDerivativeEpsilon; rabs; lra). rewrite DS. cbn [ec_eval]. replace (0 + 1) with 1 by ring. f_equal. f_equal.
    unfold e_eval, e_curve. cbn [intersection_x in_curve]. rewrite Rleb_t by lra. unfold qeval. cbn. lra. }
  cbn [ease_frames]. rewrite F1. split; [reflexivity|]. split; [reflexivity|].
  unfold ease_frame. cbn [fst snd e_q e_shape q_start_time e_target_time e_elapsed ec_total total_x ec_eval ec_deriv].
  rewrite (Rleb_f (32 / 3)) by lra. split; [reflexivity|]. cbn [fst snd].
  unfold ease_velocity. cbn [e_q e_elapsed ec_deriv q_start_time]. unfold e_eval at 1, e_deriv at 1, e_curve. cbn [intersection_x in_curve]. rewrite !Rleb_t by lra. unfold qeval at 1, qderiv at 1. cbn [q2 q1 q0].
  split; [lra|]. split; [lra|]. eexists. split; [reflexivity|]. split; [reflexivity|]. cbn [ec_eval ec_deriv]. unfold e_eval, e_deriv, e_curve. cbn [intersection_x in_curve]. rewrite !Rleb_t by lra. unfold qeval, qderiv. cbn [q2 q1 q0]. split; lra.
Qed.
Print Assumptions C49_at_rest_refuted.

(** A motivator initialised with a velocity and not given a target fails an assert in its
    first frame: the shape is still unset. *)
Theorem C49_moving_start_refuted : exists d, ease_make (SimpleInit (Some [0]) (Some [1])) 0 = Some d /\ ease_frame 1 (d, 0) = None.
Proof.
  eexists. split; [reflexivity|]. unfold ease_frame. cbn [fst snd e_q e_shape q_start_time e_target_time e_elapsed ec_total total_x eieo_single ec_eval ec_deriv].
  cbv zeta. rewrite Rleb_t by lra.
  replace (e_deriv (eieo_single (quad_with_origin 0 1 0) 0) 0) with 1 by (unfold e_deriv, e_curve, eieo_single, qderiv; cbn [intersection_x in_curve]; rewrite Rleb_t by lra; cbn; lra).
  rewrite Rltb_t by (unfold kDerivativeEpsilon; rabs; lra). unfold shape_curve, second_derivatives_from_typical. cbn [typical_delta_value typical_total_time shape_bias].
  rewrite (Rltb_f 0 0) by lra. rewrite !Bool.andb_false_r. reflexivity.
Qed.
Print Assumptions C49_moving_start_refuted.
