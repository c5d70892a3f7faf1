(** Limits and defaults of C26, C28, C29, C50, C75 and C90 that the other theorems leave open. *)
From Verif Require Import RBase Base BaseFacts RangeModel RangeProofs FloatModel FloatProofs CurveModel CurveProofs DualCubicModel CurveUtilModel SpringProofs SimpleModel CompactSplineModel CompactSplineSpec CompactSplineProofs CompactSplineEvalProps EvaluatorModel SplineQueryModel.
From Coq Require Import Lia.
Local Open Scope R_scope.

(** ** C26 *)
(** The debug assert on the scaled quotient holds whenever the linear coefficient is at
    least as large as the constant one and the coefficients are of moderate size. *)
Theorem C26_scaling_check : forall a b c, Rabs c <= Rabs b -> 0 < Rabs b < pow2 63 ->
  pow2 (-63) <= Rabs a / Rabs b <= pow2 126 -> x_scale_sane (Quad a b c) = true.
Proof.
  intros a b c CB [B0 B1] [Q0 Q1]. set (t := Rabs a / Rabs b) in *.
  assert (T0 : 0 < t) by (pose proof (pow2_pos (-63)); lra).
  assert (L63 : pow2 (-126) <= pow2 (-63)) by (apply pow2_le; lia).
  assert (L127 : pow2 126 < pow2 128) by (apply pow2_lt; lia).
  assert (AT : Rabs t = t) by (apply Rabs_pos_eq; lra).
  destruct (r_exponent_exists t) as (k & K & KE & Kt). { rewrite AT. lra. }
  rewrite AT in Kt.
  assert (K63 : (-63 <= k)%Z).
  { destruct (Z.le_gt_cases (-63) k) as [|N]; [assumption|exfalso]. assert (pow2 (k + 1) <= pow2 (-63)) by (apply pow2_le; lia). lra. }
  assert (K126 : (k <= 126)%Z).
  { destruct (Z.le_gt_cases k 126) as [|N]; [assumption|exfalso]. assert (pow2 126 < pow2 k) by (apply pow2_lt; lia). lra. }
  assert (EB : (r_exponent (Rabs b) <= 62)%Z).
  { apply r_exponent_le; [lia|]. rewrite Rabs_Rabsolu. exact B1. }
  pose proof (r_exponent_range (Rabs b)) as EB2.
  assert (X : x_scale_reciprocal (Quad a b c) = pow2 (- k)).
  { unfold x_scale_reciprocal, qabs. cbn [q2 q1 q0]. rewrite (Rmax_left (Rabs b)) by assumption. fold t. rewrite Reqb_f by lra.
    unfold contains, kInvertablePowerOf2Range, kMinInvertableExponent, kMaxInvertableExponent. cbn [start_ end_].
    rewrite (Rleb_t (pow2 (-126)) t), (Rleb_t t (pow2 126)), (Rleb_t (Rabs c)) by lra. cbn [andb orb negb].
    unfold r_reciprocal_exponent, r_max_power_of_2_scale, r_exponent_from_int, kZeroExponent, kMaxFloatExponent. rewrite KE.
    destruct (Z.eqb_spec (- k) (-127)); [lia|]. destruct (Z.eqb_spec (Z.min 127 (126 - r_exponent (Rabs b))) (-127)); [lia|].
    apply Rmin_left. apply pow2_le. lia. }
  unfold x_scale_sane. rewrite X. unfold qabs, qscale_in_x_by_reciprocal. cbn [q2 q1 q0].
  rewrite (Rmax_left (Rabs b)) by assumption. fold t. rewrite Reqb_f by lra.
  unfold contains, kInvertablePowerOf2Range, kMinInvertableExponent, kMaxInvertableExponent. cbn [start_ end_].
  rewrite (Rleb_t (pow2 (-126)) t), (Rleb_t t (pow2 126)), (Rleb_t (Rabs c)) by lra. cbn [andb orb negb].
  pose proof (pow2_pos (- k)) as PK. pose proof (pow2_pos k) as PK2.
  assert (E : Rabs (a * pow2 (- k) * pow2 (- k)) / Rabs (b * pow2 (- k)) = t * pow2 (- k)).
  { rewrite !Rabs_mult, (Rabs_pos_eq (pow2 (- k))) by lra. unfold t. field. split; lra. }
  rewrite E. rewrite pow2_neg. rewrite pow2_succ in Kt.
  assert (G1 : 1 <= t * / pow2 k) by (apply Rmult_le_reg_r with (pow2 k); [assumption|]; rewrite Rmult_assoc, Rinv_l by lra; lra).
  assert (G2 : t * / pow2 k < 2) by (apply Rmult_lt_reg_r with (pow2 k); [assumption|]; rewrite Rmult_assoc, Rinv_l by lra; lra).
  rewrite !Rleb_t by lra. reflexivity.
Qed.
Print Assumptions C26_scaling_check.
(** 3 x^2 + 2 x + 1: the scaled quotient is 3/2. *)
Example C26_scaling_case : Rabs 1 <= Rabs 2 /\ 0 < Rabs 2 < pow2 63 /\ pow2 (-63) <= Rabs 3 / Rabs 2 <= pow2 126.
Proof.
  rewrite Rabs_R1, (Rabs_pos_eq 2), (Rabs_pos_eq 3) by lra. assert (pow2 (-63) <= pow2 0) by (apply pow2_le; lia). assert (pow2 2 <= pow2 63) by (apply pow2_le; lia).
  assert (pow2 2 <= pow2 126) by (apply pow2_le; lia). assert (pow2 2 = 4) by (rewrite pow2_IZR by lia; reflexivity). rewrite pow2_0 in *. lra.
Qed.

(** ** C28 *)
(** Evaluating a spring in a portion is accepted from one hundredth of the portion before
    its start until one hundredth after its end, and asserts elsewhere.  The last portion
    of a spring that came to rest accepts every time. *)
Theorem C28_accepted : forall s x c,
  (forall e, valid_end c = Some e -> forall w, w = (e - valid_start c) / 100 ->
     (s_eval_with s x c <> None <-> valid_start c - w <= x + CurveUtilModel.start_x s <= e + w)) /\
  (valid_end c = None -> s_eval_with s x c <> None).
Proof.
  intros s x c. unfold s_eval_with, valid_x, contains_with_tolerance, to_internal_x, length_. split.
  - intros e -> w ->. cbn [start_ end_].
    destruct (Rleb_spec (valid_start c - (e - valid_start c) * (1 / 100)) (x + CurveUtilModel.start_x s)); destruct (Rleb_spec (x + CurveUtilModel.start_x s) (e + (e - valid_start c) * (1 / 100))); cbn [andb];
      (split; [intros H; try (now destruct H); try lra|intros H; try discriminate; exfalso; lra]).
  - intros ->. discriminate.
Qed.
Print Assumptions C28_accepted.
Example C28_accepted_case : exists v, s_eval_with (Spring 4 (-4) 0 4 (1 / 4) 5 (1 / 2)) (20 / 10 - 1 / 100) (Ctx (-4) 1 1 0 (Some (198 / 100))) = Some v.
Proof.
  unfold s_eval_with, valid_x, contains_with_tolerance, to_internal_x, length_. cbn [valid_end valid_start start_ end_ CurveUtilModel.start_x]. rewrite !Rleb_t by lra. eexists. reflexivity.
Qed.

(** ** C29 *)
(** How far the mid node of a dual cubic is moved away from the middle: by the difference
    in powers of two between how steep the ends are compared with the straight line, up to
    four powers of two, towards the steeper end. *)
Lemma steepness_pow2 k d : (0 <= k)%Z -> Rabs d = pow2 k -> steepness d = IZR k.
Proof.
  intros K E. unfold steepness. rewrite E. destruct (Rleb_spec (pow2 k) 1) as [L|L].
  - destruct (Z.eq_dec k 0) as [-> | N]; [reflexivity|]. assert (pow2 0 < pow2 k) by (apply pow2_lt; lia). rewrite pow2_0 in *. lra.
  - unfold pow2. rewrite <- (Z2Nat.id k K) at 1. rewrite <- pow_powerRZ, ln_pow by lra. rewrite INR_IZR_INZ, Z2Nat.id by assumption. field. rewrite <- ln_1. apply Rgt_not_eq, ln_increasing; lra.
Qed.
Theorem C29_mid_percent : forall s e h j k, h = Rmax (Rabs (cy e - cy s)) (1 / 10) -> (0 <= j)%Z -> (0 <= k)%Z ->
  Rabs (cd s) = pow2 j * h -> Rabs (cd e) = pow2 k * h ->
  fst (approximate_mid_percent s e) = 1 / 2 - IZR (Z.max (-4) (Z.min (j - k) 4)) / 10.
Proof.
  intros s e h j k H J K S1 E1. unfold approximate_mid_percent, kMinYDiff. cbv zeta. rewrite <- H.
  assert (HP : 0 < h) by (rewrite H; pose proof (Rmax_r (Rabs (cy e - cy s)) (1 / 10)); lra).
  assert (IA : Rabs (1 / h) = / h) by (rewrite Rabs_pos_eq; [field; lra|]; unfold Rdiv; rewrite Rmult_1_l; left; now apply Rinv_0_lt_compat).
  rewrite (steepness_pow2 j (cd s * (1 / h))), (steepness_pow2 k (cd e * (1 / h))) by (try assumption; rewrite Rabs_mult, IA, ?S1, ?E1; field; lra).
  unfold kMaxSteepness, kMaxMidPercent, kMinMidPercent, mlerp. cbn [fst]. rewrite <- minus_IZR, <- abs_IZR.
  destruct (Rleb_spec (IZR k) (IZR j)) as [L|L].
  - apply le_IZR in L. rewrite Z.abs_eq by lia. destruct (Z.le_gt_cases (j - k) 4) as [M|M].
    + rewrite Rmin_left by (apply IZR_le in M; lra). rewrite Z.min_l, Z.max_r by lia. lra.
    + rewrite Rmin_right by (apply Z.lt_le_incl, IZR_le in M; lra). rewrite Z.min_r, Z.max_r by lia. lra.
  - apply Rnot_le_lt, lt_IZR in L. rewrite Z.abs_neq by lia. rewrite opp_IZR. destruct (Z.le_gt_cases (-4) (j - k)) as [M|M].
    + rewrite Rmin_left by (apply IZR_le in M; lra). rewrite Z.min_l, Z.max_r by lia. lra.
    + rewrite Rmin_right by (apply Z.lt_le_incl, IZR_le in M; lra). rewrite Z.min_l, Z.max_l by lia. lra.
Qed.
Print Assumptions C29_mid_percent.
(** From 0 with slope 2 to 1 with slope -1: the mid node is tried at two fifths. *)
Example C29_percent_case : fst (approximate_mid_percent (CNode 0 0 2 0) (CNode 1 1 (-1) 0)) = 2 / 5.
Proof.
  rewrite (C29_mid_percent _ _ 1 1 0); try lia; cbn [cy cd].
  - change (Z.max (-4) (Z.min (1 - 0) 4)) with 1%Z. lra.
  - rewrite Rminus_0_r, Rabs_R1, Rmax_left; lra.
  - rewrite pow2_1, Rabs_pos_eq; lra.
  - rewrite pow2_0, Rabs_left; lra.
Qed.

(** ** C50 *)
(** A new spring motivator: its target is the start value, its velocity zero. *)
Theorem C50_new : forall init l i v d, start_values init = Some l -> getz l i = Some v -> spring_make init i = Some d ->
  k_target_value spring_class d v = Some v /\ k_difference spring_class d v = Some 0 /\ k_velocity spring_class d v = Some 0 /\ s_eval_with (s_q d) 0 (s_c d) = Some v.
Proof.
  intros init l i v d L G M. unfold spring_make, deref in M. rewrite L, G in M. injection M as <-.
  assert (V : valid_x (spring_constant v) 0 context_default = true).
  { unfold valid_x, context_default, contains_with_tolerance, length_, to_internal_x, spring_constant. cbn [valid_end valid_start start_ end_ CurveUtilModel.start_x]. rewrite !Rleb_t by lra. reflexivity. }
  cbn [k_target_value k_difference k_velocity spring_class s_q s_c]. unfold spring_velocity, s_deriv_with, s_eval_with. cbn [s_q s_c s_elapsed]. rewrite V.
  cbn [target spring_constant context_default CurveUtilModel.peak coeff]. split; [reflexivity|]. split; [f_equal; ring|]. split; f_equal; ring.
Qed.
Print Assumptions C50_new.
Example C50_new_case : exists d, spring_make (SimpleInit (Some [3; 7]) None) 1 = Some d.
Proof. eexists. reflexivity. Qed.

(** ** C75 *)
(** On real numbers as on bits: the reciprocal of a power of two too large to invert is zero. *)
Theorem C75_reciprocal_of_largest : forall x, pow2 127 <= Rabs x < pow2 128 -> r_reciprocal_exponent x = 0.
Proof. intros x H. unfold r_reciprocal_exponent. rewrite (r_exponent_unique x 127) by (try lia; exact H). reflexivity. Qed.
Print Assumptions C75_reciprocal_of_largest.
Example C75_largest_case : pow2 127 <= Rabs (pow2 127) < pow2 128.
Proof. rewrite Rabs_pos_eq by (left; apply pow2_pos). split; [lra|apply pow2_lt; lia]. Qed.

(** ** C90 *)
(** The slope at the end of the spline a motivator follows is that of the spline's last
    segment at its last node, however fast the spline is played; played, it is multiplied
    by the rate. *)
Theorem C90_end_derivatives : forall s sp a b, source s = Some sp -> spline_ok sp ->
  getz (nodes sp) (num_nodes sp - 2) = Some a -> getz (nodes sp) (num_nodes sp - 1) = Some b -> (nx a < nx b)%Z ->
  exists x y w, slot_end_x s = Some x /\ slot_end_y s = Some y /\ segment_value sp (num_nodes sp - 2) x = Some (y, w) /\
    slot_end_derivative_without_playback s = Some w /\ slot_end_derivative s = Some (rate s * w).
Proof.
  intros s sp a b S1 O A B L. exists (node_x b (x_granularity sp)), (node_y b (y_range sp)), (node_derivative b).
  unfold slot_end_x, slot_end_y, slot_end_derivative_without_playback, slot_end_derivative, end_x, end_y, end_derivative, back. fold (num_nodes sp). rewrite S1, B.
  destruct (C33_segments_join sp (num_nodes sp - 2) a b O A) as [_ J]; [replace (num_nodes sp - 2 + 1)%Z with (num_nodes sp - 1)%Z by lia; exact B|exact L|]. auto.
Qed.
Print Assumptions C90_end_derivatives.
Example C90_end_case : spline_ok peak /\ source (Slot 1 0 1 (Some peak) 0 false (Rg 0 1) 0 (Some 1) (Cubic 0 0 0 0) 0) = Some peak /\
  getz (nodes peak) (num_nodes peak - 2) = Some (Node 1 65535 0) /\ getz (nodes peak) (num_nodes peak - 1) = Some (Node 2 0 0) /\ (nx (Node 1 65535 0) < nx (Node 2 0 0))%Z.
Proof. split; [apply peak_ok|]. repeat split. Qed.
