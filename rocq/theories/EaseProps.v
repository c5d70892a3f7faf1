(** Property C27: ease-in-ease-out curves. *)
From Verif Require Import RBase RangeModel FloatModel CurveModel CurveProofs CurveUtilModel Glue EaseProofs.

(** From value [v0] with slope [d0] to value [v1], continuously differentiable. *)
Definition smooth_path (e : eieo) (v0 d0 v1 : R) : Prop :=
  0 <= intersection_x e <= total_x e /\
  e_eval e 0 = v0 /\ e_deriv e 0 = d0 /\ e_eval e (total_x e) = v1 /\
  (forall x, derivable_pt_lim (e_eval e) x (e_deriv e x)) /\ continuity (e_deriv e).

Lemma Rminus_diag x : x - x = 0.
Proof. ring. Qed.
Lemma e_eval_glue e x : e_eval e x = glue (qeval (in_curve e)) (qeval (out_curve e)) (intersection_x e) x.
Proof. unfold e_eval, e_curve, glue. now destruct (Rleb _ _). Qed.
Lemma e_deriv_glue e x : e_deriv e x = glue (qderiv (in_curve e)) (qderiv (out_curve e)) (intersection_x e) x.
Proof. unfold e_deriv, e_curve, glue. now destruct (Rleb _ _). Qed.
Lemma qderiv_cont q : continuity (qderiv q).
Proof. unfold qderiv. reg. Qed.
Lemma lim_ext f g x l : (forall y, f y = g y) -> derivable_pt_lim f x l -> derivable_pt_lim g x l.
Proof. intros E H eps He. destruct (H eps He) as [d Hd]. exists d. intros. rewrite <- !E. now apply Hd. Qed.
Lemma cont_ext f g : (forall y, f y = g y) -> continuity f -> continuity g.
Proof. intros E H x eps He. destruct (H x eps He) as (d & P & Hd). exists d. split; [assumption|]. intros. rewrite <- !E. now apply Hd. Qed.

Lemma smooth_join e : qeval (in_curve e) (intersection_x e) = qeval (out_curve e) (intersection_x e) ->
  qderiv (in_curve e) (intersection_x e) = qderiv (out_curve e) (intersection_x e) ->
  (forall x, derivable_pt_lim (e_eval e) x (e_deriv e x)) /\ continuity (e_deriv e).
Proof.
  intros V D. split.
  - intros x. rewrite e_deriv_glue. eapply lim_ext; [intros; symmetry; apply e_eval_glue|].
    apply glue_derivable; auto using qderiv_ok.
  - eapply cont_ext; [intros; symmetry; apply e_deriv_glue|]. apply glue_continuous; auto using qderiv_cont.
Qed.
Lemma smooth_single c x v0 d0 v1 : 0 <= x -> qeval c 0 = v0 -> qderiv c 0 = d0 -> qeval c x = v1 ->
  smooth_path (eieo_single c x) v0 d0 v1.
Proof.
  intros Hx E0 D0 E1. unfold smooth_path, eieo_single. cbn [intersection_x total_x].
  split; [lra|]. unfold e_eval at 1 2, e_deriv at 1, e_curve. cbn [intersection_x in_curve]. rewrite !Rleb_t by lra.
  split; [assumption|]. split; [assumption|]. split; [assumption|]. now apply smooth_join.
Qed.
Lemma shift_right_eval q s x : qeval (qshift_right q s) x = qeval q (x - s) /\ qderiv (qshift_right q s) x = qderiv q (x - s).
Proof.
  unfold qshift_right, qshift_left. destruct (Reqb_spec (- s) 0) as [E|_].
  - replace s with 0 by lra. rewrite Rminus_0_r. auto.
  - unfold qeval, qderiv. cbn [q2 q1 q0]. split; ring.
Qed.

(** Fly-out: the given start value and slope, to the end value. *)
Theorem C27_fly_out_partial : forall v0 v1 d0 acc, 0 < acc ->
  well_conditioned (normalized (Quad (1 / 2 * (fly_sign v0 v1 * acc)) d0 (v0 - v1))) ->
  exists e, fly_out v0 v1 d0 acc = Some e /\ smooth_path e v0 d0 v1 /\
    forall x, Rabs (e_deriv2 e x) = acc.
Proof.
  intros v0 v1 d0 acc Ha W. destruct (fly_out_ok v0 v1 d0 acc Ha W) as (x & E & Hx & V).
  eexists. split; [exact E|]. split.
  - apply smooth_single; try assumption; unfold qeval, qderiv, quad_with_origin; cbn [q2 q1 q0]; ring.
  - intros y. unfold e_deriv2, e_curve, eieo_single. cbn [in_curve out_curve]. destruct (Rleb _ _);
      unfold qderiv2, quad_with_origin; cbn [q2]; destruct (fly_sign_ok v0 v1) as [[-> | ->] _]; unfold Rabs; destruct (Rcase_abs _); lra.
Qed.

(** Fly-in: the given start value, to the end value with the given end slope. *)
Theorem C27_fly_in_partial : forall v0 v1 d1 acc, 0 < acc ->
  well_conditioned (normalized (Quad (1 / 2 * (fly_sign v1 v0 * acc)) d1 (v1 - v0))) ->
  exists e, fly_in v0 v1 d1 acc = Some e /\ smooth_path e v0 (e_deriv e 0) v1 /\
    e_deriv e (total_x e) = d1 /\ forall x, Rabs (e_deriv2 e x) = acc.
Proof.
  intros v0 v1 d1 acc Ha W. destruct (fly_in_ok v0 v1 d1 acc Ha W) as (x & E & Hx & V).
  eexists. split; [exact E|]. split; [|split].
  - apply smooth_single; [assumption| | |].
    + rewrite (proj1 (shift_right_eval _ _ _)). rewrite Rminus_0_l. assumption.
    + unfold e_deriv, e_curve, eieo_single. cbn [in_curve intersection_x]. now rewrite Rleb_t.
    + rewrite (proj1 (shift_right_eval _ _ _)). rewrite Rminus_diag. unfold qeval, quad_with_origin. cbn. ring.
  - unfold e_deriv, e_curve, eieo_single. cbn [in_curve intersection_x total_x]. rewrite Rleb_t by lra.
    rewrite (proj2 (shift_right_eval _ _ _)), Rminus_diag. unfold qderiv, quad_with_origin. cbn. ring.
  - intros y. unfold e_deriv2, e_curve, eieo_single. cbn [in_curve out_curve].
    assert (forall q s z, qderiv2 (qshift_right q s) z = 2 * q2 q).
    { intros. unfold qderiv2, qshift_right, qshift_left. now destruct (Reqb _ _). }
    destruct (Rleb _ _); rewrite H; unfold quad_with_origin; cbn [q2]; destruct (fly_sign_ok v1 v0) as [[-> | ->] _]; unfold Rabs; destruct (Rcase_abs _); lra.
Qed.

(** The direction the curve starts to bend in. *)
Definition start_sign (v0 v1 d0 : R) : R :=
  if Reqb v0 v1 then (if Rltb d0 0 then 1 else -1) else fly_sign v0 v1.
Definition ease_in (v0 d0 v1 s2 : R) : quad := Quad (1 / 2 * (start_sign v0 v1 d0 * s2)) d0 v0.
Definition ease_out (v0 d0 v1 d1 e2 : R) : quad := Quad (1 / 2 * (- start_sign v0 v1 d0 * e2)) d1 v1.

(** The curve reaches the end value smoothly; it also reaches the end slope, or else
    it is a single parabola and no ease-out parabola fits after the start.
    Partial: the shift and the single parabola must be well-conditioned, the values
    equal or farther apart than the tolerance, and the join not within the tolerance
    of the start (there the code moves it onto the start). *)
Theorem C27_ease_in_ease_out_partial : forall v0 d0 s2 v1 d1 e2 dv tx,
  0 < s2 -> 0 < e2 -> 0 < dv -> 0 < tx ->
  v1 = v0 \/ kEpsilonScale * dv < Rabs (v1 - v0) ->
  ~ (v1 = v0 /\ Rabs (d1 - d0) <= kEpsilonScale * (dv / tx)) ->
  let f := ease_in v0 d0 v1 s2 in let g := ease_out v0 d0 v1 d1 e2 in
  well_conditioned (normalized (s_quadratic f g)) ->
  well_conditioned (normalized (Quad (1 / 2 * (fly_sign v0 v1 * Rmax s2 e2)) d0 (v0 - v1))) ->
  (forall u s, tangent f g u s -> u = 0 \/ tx / 10000 <= Rabs u) ->
  exists e, ease_in_ease_out v0 d0 (Some s2) v1 d1 (Some e2) dv tx = Some e /\ smooth_path e v0 d0 v1 /\
    (e_deriv e (total_x e) = d1 \/
     in_curve e = out_curve e /\
     forall u s, tangent f g u s -> (forall u' s', tangent f g u' s' -> s' <= s) -> ~ 0 <= u <= s).
Proof.
  intros v0 d0 s2 v1 d1 e2 dv tx Hs2 He2 Hdv Htx HV HD f g W1 W2 NC.
  pose proof eps_scale_pos as EP. assert (VE : 0 < kEpsilonScale * dv) by nra.
  set (sg := start_sign v0 v1 d0) in *.
  assert (SG : sg = 1 \/ sg = -1) by (unfold sg, start_sign, fly_sign; destruct (Reqb v0 v1), (Rltb d0 0), (Rleb v0 v1); auto).
  assert (SV : 0 <= sg * (v1 - v0)).
  { unfold sg, start_sign. destruct (Reqb_spec v0 v1) as [->|]; [rewrite Rminus_diag; lra|]. apply fly_sign_ok. }
  assert (P : q2 f - q2 g <> 0) by (unfold f, g, ease_in, ease_out; cbn [q2]; fold sg; destruct SG as [-> | ->]; lra).
  assert (EX : exists s, qeval (s_quadratic f g) s = 0).
  { apply shift_exists; fold sg.
    - assert (Q1 := Rle_0_sqr d1). assert (Q0 := Rle_0_sqr d0). unfold Rsqr in *.
      assert (SS : sg * sg = 1) by (destruct SG as [-> | ->]; ring).
      replace ((1 / 2 * (sg * s2) - 1 / 2 * (- sg * e2)) * (1 / 2 * (sg * s2) * d1 * d1 - 1 / 2 * (- sg * e2) * d0 * d0 + 4 * (1 / 2 * (- sg * e2)) * (1 / 2 * (sg * s2)) * (v0 - v1)))
        with (1 / 4 * (sg * sg) * (s2 + e2) * (s2 * (d1 * d1) + e2 * (d0 * d0)) + 1 / 2 * (sg * sg) * (s2 + e2) * (s2 * e2) * (sg * (v1 - v0))) by field.
      rewrite SS. assert (0 < s2 * e2) by nra. assert (0 < s2 + e2) by lra.
      assert (0 <= s2 * (d1 * d1)) by nra. assert (0 <= e2 * (d0 * d0)) by nra.
      assert (0 <= (s2 + e2) * (s2 * (d1 * d1) + e2 * (d0 * d0))) by (apply Rmult_le_pos; lra).
      assert (0 <= (s2 + e2) * (s2 * e2) * (sg * (v1 - v0))) by (apply Rmult_le_pos; [nra|assumption]). lra.
    - assert (0 < s2 * e2) by nra. destruct SG as [-> | ->]; nra. }
  destruct (shift_ok f g tx Htx P W1 EX) as (u & s & T & MX & ES).
  assert (UC : (if Rltb (Rabs u) (tx * kEpsilonXPercent) then 0 else u) = u).
  { destruct (NC u s T) as [-> | B]; [now destruct (Rltb _ _)|]. rewrite Rltb_f; [reflexivity|]. unfold kEpsilonXPercent. lra. }
  rewrite UC in ES.
  assert (CUR : forall dflt : bool,
    (if Rleb (Rabs (v1 - v0)) (kEpsilonScale * dv) then (if Rltb d0 0 then 1 else -1) else (if Rleb v0 v1 then 1 else -1)) = sg).
  { intros _. unfold sg, start_sign. destruct HV as [-> | B].
    - rewrite Rminus_diag, Rabs_R0, Rleb_t by lra. now rewrite Reqb_t.
    - rewrite Rleb_f by assumption. rewrite Reqb_f; [reflexivity|]. intros ->. rewrite Rminus_diag, Rabs_R0 in B. lra. }
  unfold ease_in_ease_out. rewrite !Rltb_t by assumption. cbn [andb].
  replace (Rleb (Rabs (v1 - v0)) (kEpsilonScale * dv) && Rleb (Rabs (d1 - d0)) (kEpsilonScale * (dv / tx))) with false.
  2:{ symmetry. apply andb_false_iff. destruct HV as [E | B]; [|left; now apply Rleb_f]. right. apply Rleb_false.
      apply Rnot_le_lt. intros G. apply HD. auto. }
  rewrite (CUR true). change (quad_with_origin v0 d0 (sg * s2)) with f. change (quad_with_origin v1 d1 (- sg * e2)) with g.
  rewrite ES.
  destruct (Rltb_spec s u) as [LT|GE]; [|destruct (Rltb_spec u 0) as [LT|GE']]; cbn [orb].
  - destruct (C27_fly_out_partial v0 v1 d0 (Rmax s2 e2) ltac:(minmax; lra) W2) as (e & E & SM & _).
    destruct (fly_out_ok v0 v1 d0 (Rmax s2 e2) ltac:(minmax; lra) W2) as (x & E' & _).
    exists e. split; [exact E|]. split; [exact SM|]. right. split; [rewrite E in E'; injection E' as ->; reflexivity|].
    intros u' s' T' M' B. pose proof (MX u' s' T'). pose proof (M' u s T). assert (s' = s) as -> by lra.
    apply (tangent_iff _ _ _ _ P) in T. apply (tangent_iff _ _ _ _ P) in T'. destruct T as [_ ->], T' as [_ ->]. lra.
  - destruct (C27_fly_out_partial v0 v1 d0 (Rmax s2 e2) ltac:(minmax; lra) W2) as (e & E & SM & _).
    destruct (fly_out_ok v0 v1 d0 (Rmax s2 e2) ltac:(minmax; lra) W2) as (x & E' & _).
    exists e. split; [exact E|]. split; [exact SM|]. right. split; [rewrite E in E'; injection E' as ->; reflexivity|].
    intros u' s' T' M' B. pose proof (MX u' s' T'). pose proof (M' u s T). assert (s' = s) as -> by lra.
    apply (tangent_iff _ _ _ _ P) in T. apply (tangent_iff _ _ _ _ P) in T'. destruct T as [_ ->], T' as [_ ->]. lra.
  - destruct T as [TV TD]. destruct (shift_right_eval g s u) as [SE SD]. destruct (shift_right_eval g s s) as [SE1 SD1].
    rewrite Rminus_diag in SE1, SD1.
    assert (G0 : qeval g 0 = v1) by (unfold qeval, g, ease_out; cbn; ring).
    assert (G1 : qderiv g 0 = d1) by (unfold qderiv, g, ease_out; cbn; ring).
    eexists. split; [reflexivity|]. split.
    + unfold smooth_path. cbn [intersection_x total_x]. split; [lra|].
      unfold e_eval at 1 2, e_deriv at 1, e_curve. cbn [intersection_x in_curve out_curve]. rewrite (Rleb_t 0 u) by lra.
      split; [unfold qeval, f, ease_in; cbn; ring|]. split; [unfold qderiv, f, ease_in; cbn; ring|]. split.
      * destruct (Rleb_spec s u); [|congruence]. replace s with u by lra. rewrite TV. replace (u - s) with 0 by lra. assumption.
      * apply smooth_join; cbn [intersection_x in_curve out_curve]; congruence.
    + left. unfold e_deriv, e_curve. cbn [intersection_x total_x in_curve out_curve].
      destruct (Rleb_spec s u); [|congruence]. replace s with u by lra. rewrite TD. replace (u - s) with 0 by lra. assumption.
Qed.

(** Already there: nothing to do (value and slope within the tolerance). *)
Theorem C27_already_there : forall v0 d0 s2 v1 d1 e2 dv tx,
  0 < s2 -> 0 < e2 -> 0 < dv -> 0 < tx ->
  Rabs (v1 - v0) <= kEpsilonScale * dv -> Rabs (d1 - d0) <= kEpsilonScale * (dv / tx) ->
  exists e, ease_in_ease_out v0 d0 (Some s2) v1 d1 (Some e2) dv tx = Some e /\ smooth_path e v0 d0 v0 /\ total_x e = 0.
Proof.
  intros v0 d0 s2 v1 d1 e2 dv tx H1 H2 H3 H4 HV HD. unfold ease_in_ease_out. rewrite !Rltb_t, !Rleb_t by assumption. cbn [andb].
  eexists. split; [reflexivity|]. split; [|reflexivity]. apply smooth_single; [lra| | |];
    unfold qeval, qderiv, quad_with_origin; cbn [q2 q1 q0]; ring.
Qed.

(** The second derivatives chosen for a typical curve make it take the typical time
    and bend at the bias. *)
Theorem C27_typical_curve_partial : forall v d u bias s2 e2, 0 < d -> 0 < u -> 1 / 10000 <= bias < 1 ->
  second_derivatives_from_typical d u bias = Some (Some s2, Some e2) ->
  kEpsilonScale < 1 ->
  well_conditioned (normalized (s_quadratic (ease_in v 0 (v + d) s2) (ease_out v 0 (v + d) 0 e2))) ->
  exists e, ease_in_ease_out v 0 (Some s2) (v + d) 0 (Some e2) d u = Some e /\
    total_x e = u /\ intersection_x e = bias * u /\ e_eval e u = v + d /\ e_deriv e u = 0.
Proof.
  intros v d u bias s2 e2 Hd Hu Hb ET HE W. pose proof eps_scale_pos as EP.
  assert (U2 : 0 < u * u) by nra.
  assert (S2 : s2 = 2 * d / (bias * (u * u)) /\ e2 = 2 * d / ((1 - bias) * (u * u))).
  { unfold second_derivatives_from_typical in ET. rewrite !Rleb_t, !Rltb_t in ET by lra. cbn [andb] in ET.
    destruct (Rleb_spec (1 / 2) bias).
    - rewrite !Reqb_f in ET by nra. injection ET as <- <-. auto.
    - rewrite !Reqb_f in ET by nra. injection ET as <- <-. replace (1 - (1 - bias)) with bias by ring. auto. }
  destruct S2 as [-> ->]. set (s2 := 2 * d / (bias * (u * u))) in *. set (e2 := 2 * d / ((1 - bias) * (u * u))) in *.
  assert (B1 : 0 < bias * (u * u)) by nra. assert (B2 : 0 < (1 - bias) * (u * u)) by nra.
  assert (P1 : 0 < s2) by (unfold s2; apply Rdiv_lt_0_compat; lra). assert (P2 : 0 < e2) by (unfold e2; apply Rdiv_lt_0_compat; lra).
  assert (SG : start_sign v (v + d) 0 = 1) by (unfold start_sign, fly_sign; rewrite Reqb_f, Rleb_t by lra; reflexivity).
  set (f := ease_in v 0 (v + d) s2) in *. set (g := ease_out v 0 (v + d) 0 e2) in *.
  assert (EF : f = Quad (1 / 2 * s2) 0 v) by (unfold f, ease_in; rewrite SG; f_equal; ring).
  assert (EG : g = Quad (- (1 / 2) * e2) 0 (v + d)) by (unfold g, ease_out; rewrite SG; f_equal; ring).
  assert (P : q2 f - q2 g <> 0) by (rewrite EF, EG; cbn; lra).
  assert (QF : forall s, qeval (s_quadratic f g) s = 0 <-> s * s = u * u).
  { intros s. rewrite EF, EG. unfold s_quadratic, qsub, qeval. cbn [q2 q1 q0].
    assert (E : s2 * e2 * (s * s - u * u) = s2 * e2 * (s * s) - 2 * (s2 + e2) * d).
    { unfold s2, e2. field. repeat split; lra. }
    assert (N : s2 * e2 <> 0) by nra. split; intros H.
    - apply (Rmult_eq_reg_l (s2 * e2)); [|assumption]. lra.
    - assert (s2 * e2 * (s * s) = s2 * e2 * (u * u)) by now rewrite H. lra. }
  destruct (shift_ok f g u Hu P W) as (x & s & T & MX & ES). { exists u. now apply QF. }
  assert (US : forall y, tangent f g y s -> y = bias * s).
  { intros y Ty. apply (tangent_iff _ _ _ _ P) in Ty. destruct Ty as [_ ->]. rewrite EF, EG. cbn [q2 q1 q0]. unfold s2, e2. field. repeat split; try lra; nra. }
  assert (Es : s = u).
  { pose proof (proj1 (tangent_iff _ _ _ _ P) T) as [Q _]. apply QF in Q.
    assert (u <= s) by (apply (MX (- ((q1 f - q1 g) + 2 * q2 g * u) / (2 * (q2 f - q2 g)))); apply tangent_iff; [assumption|split; [now apply QF|reflexivity]]).
    nra. }
  pose proof (US x T) as EX. subst s. 
  assert (XP : u * kEpsilonXPercent <= Rabs x) by (rewrite EX, Rabs_pos_eq; unfold kEpsilonXPercent; nra).
  rewrite Rltb_f in ES by assumption.
  unfold ease_in_ease_out. rewrite (Rltb_t 0 s2), (Rltb_t 0 e2), (Rltb_t 0 d), (Rltb_t 0 u) by assumption. cbn [andb].
  replace (v + d - v) with d by ring. rewrite (Rabs_pos_eq d) by lra. rewrite (Rleb_f d (kEpsilonScale * d)) by nra. cbn [andb].
  rewrite (Rleb_t v (v + d)) by lra.
  replace (quad_with_origin v 0 (1 * s2)) with f by (rewrite EF; unfold quad_with_origin; f_equal; ring).
  replace (quad_with_origin (v + d) 0 (- (1) * e2)) with g by (rewrite EG; unfold quad_with_origin; f_equal; ring).
  rewrite ES. rewrite (Rltb_f u x), (Rltb_f x 0) by (rewrite EX; nra). cbn [orb].
  eexists. split; [reflexivity|]. cbn [total_x intersection_x]. split; [reflexivity|]. split; [exact EX|].
  unfold e_eval, e_deriv, e_curve. cbn [intersection_x out_curve]. rewrite Rleb_f by (rewrite EX; nra).
  destruct (shift_right_eval g u u) as [A B]. rewrite A, B, Rminus_diag, EG. unfold qeval, qderiv. cbn [q2 q1 q0]. split; ring.
Qed.

(** Travel 1/2 in one unit of time with bias 1/2: the hypotheses hold. *)
Example C27_case : exists e, ease_in_ease_out 0 0 (Some 2) (1 / 2) 0 (Some 2) (1 / 2) 1 = Some e /\
  total_x e = 1 /\ intersection_x e = 1 / 2 /\ e_eval e 1 = 1 / 2.
Proof.
  destruct (C27_typical_curve_partial 0 (1 / 2) 1 (1 / 2) 2 2) as (e & E & T & I & V & _); try lra.
  - unfold second_derivatives_from_typical. rewrite !Rleb_t, !Rltb_t by lra. cbn [andb]. rewrite !Reqb_f by lra. repeat f_equal; field.
  - apply eps_scale_lt1.
  - apply moderate_well_conditioned. unfold ease_in, ease_out, s_quadratic, qsub, start_sign, fly_sign.
    rewrite Reqb_f, Rleb_t by lra. cbn [q2 q1 q0]. unfold moderate, discriminant. cbn [q2 q1 q0]. repeat split.
    + intros c [-> | [-> | ->]]; [right|left; lra|right]; unfold Rabs; destruct (Rcase_abs _); lra.
    + left. lra.
    + right. unfold Rabs; destruct (Rcase_abs _); lra.
  - rewrite Rplus_0_l in *. exists e. split; [exact E|]. split; [exact T|]. split; [rewrite I; lra|exact V].
Qed.

(** In general the end slope is not reached: from 0 with slope 2 to 1 with slope 0, the
    parabolas touch before the start, and the single parabola taken instead speeds up all
    the way. *)
Theorem C27_end_slope_refuted : exists e, ease_in_ease_out 0 2 (Some 1) 1 0 (Some 1) 1 1 = Some e /\
  smooth_path e 0 2 1 /\ 2 < e_deriv e (total_x e).
Proof.
  assert (SS : start_sign 0 1 2 = 1) by (unfold start_sign, fly_sign; rewrite Reqb_f, Rleb_t by lra; reflexivity).
  assert (FS : fly_sign 0 1 = 1) by (unfold fly_sign; rewrite Rleb_t by lra; reflexivity).
  assert (M1 : Rmax 1 1 = 1) by (apply Rmax_left; lra).
  set (f := Quad (1 / 2) 2 0). set (g := Quad (- (1 / 2)) 0 1).
  assert (P : q2 f - q2 g <> 0) by (cbn; lra).
  assert (SQ : s_quadratic f g = Quad (-1) (-4) 8) by (unfold s_quadratic, qsub, f, g; cbn [q2 q1 q0]; f_equal; field).
  assert (W1 : well_conditioned (normalized (s_quadratic f g))).
  { rewrite SQ. apply moderate_well_conditioned. unfold moderate, discriminant. cbn [q2 q1 q0]. split; [|split].
    - intros c [-> | [-> | ->]]; right; rabs; lra.
    - left. lra.
    - right. rabs; lra. }
  assert (W2 : well_conditioned (normalized (Quad (1 / 2 * (fly_sign 0 1 * 1)) 2 (0 - 1)))).
  { rewrite FS. apply moderate_well_conditioned. unfold moderate, discriminant. cbn [q2 q1 q0]. split; [|split].
    - intros c [-> | [-> | ->]]; right; rabs; lra.
    - left. lra.
    - right. rabs; lra. }
  assert (R12 : sqrt 12 * sqrt 12 = 12) by (apply sqrt_sqrt; lra). assert (RP : 0 <= sqrt 12) by apply sqrt_pos.
  assert (RB : 3 < sqrt 12 < 7 / 2) by (split; nra).
  destruct (shift_ok f g 1 ltac:(lra) P W1) as (u & s & T & MX & ES).
  { exists (-2 + sqrt 12). rewrite SQ. unfold qeval. cbn [q2 q1 q0]. nra. }
  apply (tangent_iff _ _ _ _ P) in T. destruct T as [TS TU]. rewrite SQ in TS. unfold qeval in TS. cbn [q2 q1 q0 f g] in TS, TU.
  assert (S2 : s < 3 / 2).
  { destruct (Rlt_le_dec s (3 / 2)) as [L|L]; [assumption|]. pose proof (Rmult_le_compat (3 / 2) s (3 / 2) s ltac:(lra) ltac:(lra) L L). lra. }
  assert (U : u < - (1 / 8)) by (replace u with ((s - 2) / 2) by (rewrite TU; unfold f, g; cbn [q2 q1 q0]; field); lra).
  destruct (fly_out_ok 0 1 2 1 ltac:(lra) W2) as (x & FO & X0 & V). rewrite FS in FO, V.
  assert (XP : 0 < x). { destruct (Rle_lt_or_eq_dec 0 x X0) as [L|<-]; [assumption|]. exfalso. revert V. unfold qeval, quad_with_origin. cbn [q2 q1 q0]. lra. }
  eexists. split; [|split].
  - unfold ease_in_ease_out. rewrite !(Rltb_t 0 1) by lra. cbn [andb].
    pose proof eps_scale_lt1 as EL. replace (1 - 0) with 1 by ring. rewrite Rabs_R1, (Rleb_f 1 (kEpsilonScale * 1)) by lra. cbn [andb].
    rewrite (Rleb_t 0 1) by lra.
    replace (quad_with_origin 0 2 (1 * 1)) with f by (unfold f, quad_with_origin; f_equal; ring).
    replace (quad_with_origin 1 0 (- (1) * 1)) with g by (unfold g, quad_with_origin; f_equal; field).
    rewrite ES. rewrite (Rltb_f (Rabs u)) by (unfold kEpsilonXPercent; rabs; lra).
    rewrite (Rltb_t u 0), orb_true_r by lra. rewrite M1. exact FO.
  - apply smooth_single; try assumption; unfold qeval, qderiv, quad_with_origin; cbn [q2 q1 q0]; ring.
  - unfold e_deriv, e_curve, eieo_single. cbn [in_curve intersection_x total_x]. rewrite Rleb_t by lra.
    unfold qderiv, quad_with_origin. cbn [q2 q1]. lra.
Qed.
Print Assumptions C27_end_slope_refuted.

(** Nor is the curve always continuous: when the parabolas touch within the tolerance of
    the start, here at 1/20000, the join is moved onto the start and the curve jumps. *)
Theorem C27_join_refuted : exists v1 e, ease_in_ease_out 0 1 (Some 1) v1 0 (Some 1) 1 1 = Some e /\
  intersection_x e = 0 /\ 0 < total_x e /\ ~ continuity_pt (e_eval e) 0.
Proof.
  set (h := 1 / 20000). set (v1 := 1 / 2 + 2 * h + h * h). exists v1.
  assert (V1 : 1 / 2 < v1 < 1) by (unfold v1, h; lra).
  set (f := Quad (1 / 2) 1 0). set (g := Quad (- (1 / 2)) 0 v1).
  assert (P : q2 f - q2 g <> 0) by (cbn; lra).
  assert (SQ : s_quadratic f g = Quad (-1) (-2) (1 + 4 * v1)) by (unfold s_quadratic, qsub, f, g; cbn [q2 q1 q0]; f_equal; field).
  assert (W1 : well_conditioned (normalized (s_quadratic f g))).
  { rewrite SQ. apply moderate_well_conditioned. unfold moderate, discriminant. cbn [q2 q1 q0]. split; [|split].
    - intros c [-> | [-> | ->]]; right; rabs; lra.
    - left. lra.
    - right. rabs; lra. }
  assert (RT : forall s, qeval (s_quadratic f g) s = 0 <-> (s - (1 + 2 * h)) * (s + (3 + 2 * h)) = 0).
  { intros s. rewrite SQ. unfold qeval. cbn [q2 q1 q0]. unfold v1. split; lra. }
  destruct (shift_ok f g 1 ltac:(lra) P W1) as (u & s & T & MX & ES).
  { exists (1 + 2 * h). apply RT. ring. }
  apply (tangent_iff _ _ _ _ P) in T. destruct T as [TS TU]. apply RT in TS.
  assert (SB : 1 + 2 * h <= s). { eapply MX. apply (tangent_iff _ _ _ _ P). split; [apply RT; ring|reflexivity]. }
  assert (S1 : s = 1 + 2 * h). { apply Rmult_integral in TS. assert (0 < h) by (unfold h; lra). destruct TS; lra. }
  assert (U : u = h) by (rewrite TU, S1; unfold f, g; cbn [q2 q1 q0]; field).
  assert (UC : Rltb (Rabs u) (1 * kEpsilonXPercent) = true) by (apply Rltb_t; rewrite U; unfold kEpsilonXPercent, h; rabs; lra).
  rewrite UC in ES.
  exists (EIEO f (qshift_right g s) 0 s). cbn [intersection_x total_x]. split; [|split; [reflexivity|split; [unfold h in *; lra|]]].
  - unfold ease_in_ease_out. rewrite !(Rltb_t 0 1) by lra. cbn [andb].
    assert (EL : kEpsilonScale < 1 / 2) by (unfold kEpsilonScale; replace (1 / 2) with (/ 2) by lra; pose proof (pow2_big 22 ltac:(lia)); apply Rinv_lt_contravar; lra). rewrite (Rleb_f (Rabs (v1 - 0))) by (rabs; lra). cbn [andb].
    rewrite (Rleb_t 0 v1) by lra.
    replace (quad_with_origin 0 1 (1 * 1)) with f by (unfold f, quad_with_origin; f_equal; ring).
    replace (quad_with_origin v1 0 (- (1) * 1)) with g by (unfold g, quad_with_origin; f_equal; field).
    rewrite ES. rewrite (Rltb_f s 0), (Rltb_f 0 0) by (unfold h in *; lra). reflexivity.
  - intros C. set (o := qeval (qshift_right g s)).
    assert (O0 : o 0 = - (h * h)) by (unfold o; rewrite (proj1 (shift_right_eval g s 0)), S1; unfold qeval, g, v1; cbn [q2 q1 q0]; field).
    assert (CO : continuity_pt o 0) by (unfold o, qeval; reg).
    assert (E0 : e_eval (EIEO f (qshift_right g s) 0 s) 0 = 0).
    { unfold e_eval, e_curve. cbn [intersection_x in_curve]. rewrite Rleb_t by lra. unfold qeval, f. cbn [q2 q1 q0]. ring. }
    assert (HP : 0 < h * h / 2) by (unfold h; lra).
    destruct (C (h * h / 2) HP) as (a & A & CA). destruct (CO (h * h / 2) HP) as (b & B & CB).
    set (x := Rmin a b / 2). assert (X : 0 < x < a /\ x < b) by (unfold x; minmax; lra).
    assert (D : D_x no_cond 0 x) by (split; [exact Logic.I|lra]).
    assert (DX : R_dist x 0 = x) by (unfold R_dist; rewrite Rminus_0_r; apply Rabs_pos_eq; lra).
    specialize (CA x). specialize (CB x). cbn in CA, CB. rewrite DX in CA, CB.
    specialize (CA (conj D (proj2 (proj1 X)))). specialize (CB (conj D (proj2 X))). rewrite E0 in CA. rewrite O0 in CB.
    assert (EX : e_eval (EIEO f (qshift_right g s) 0 s) x = o x).
    { unfold e_eval, e_curve. cbn [intersection_x out_curve]. rewrite Rleb_f by lra. reflexivity. }
    rewrite EX in CA. unfold R_dist in CA, CB. clear - CA CB HP. apply Rabs_def2 in CA, CB. lra.
Qed.
Print Assumptions C27_join_refuted.
Print Assumptions C27_fly_out_partial.
Print Assumptions C27_fly_in_partial.
Print Assumptions C27_ease_in_ease_out_partial.
Print Assumptions C27_already_there.
Print Assumptions C27_typical_curve_partial.
