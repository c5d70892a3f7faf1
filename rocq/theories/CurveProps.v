(** Properties C23-C26: the quadratic and cubic curves of curve.h, over the reals. *)
From Verif Require Import RBase RangeModel RangeProofs FloatModel FloatProofs CurveModel CurveProofs.
From Coq Require Import Sorted.

(** ** C23 *)
Theorem C23_cubic_end_conditions : forall y0 d0 y1 d1 w, 0 < w ->
  let c := cubic_init y0 d0 y1 d1 w in
  keval c 0 = y0 /\ keval c w = y1 /\
  derivable_pt_lim (keval c) 0 d0 /\ derivable_pt_lim (keval c) w d1.
Proof.
  intros y0 d0 y1 d1 w Hw c.
  assert (E : c = Cubic (2 * (1 / w * (1 / w) * (1 / w)) * (y0 - y1) + 1 / w * (1 / w) * (d1 + d0))
    (3 * (1 / w * (1 / w)) * (y1 - y0) - 1 / w * (d1 + 2 * d0)) d0 y0).
  { unfold c, cubic_init. rewrite Rltb_t by assumption. reflexivity. }
  assert (D0 : kderiv c 0 = d0) by (rewrite E; unfold kderiv; cbn [k3 k2 k1]; ring).
  assert (D1 : kderiv c w = d1) by (rewrite E; unfold kderiv; cbn [k3 k2 k1]; field; lra).
  repeat split.
  - rewrite E. unfold keval. cbn [k3 k2 k1 k0]. ring.
  - rewrite E. unfold keval. cbn [k3 k2 k1 k0]. field. lra.
  - pose proof (kderiv_ok c 0) as H. rewrite D0 in H. exact H.
  - pose proof (kderiv_ok c w) as H. rewrite D1 in H. exact H.
Qed.
(** For a non-positive width only the start value is kept: the curve is computed
    as if the width were 1 with the linear term dropped. *)
Theorem C23_non_positive_width_partial : forall y0 d0 y1 d1 w, w <= 0 ->
  keval (cubic_init y0 d0 y1 d1 w) 0 = y0 /\ derivable_pt_lim (keval (cubic_init y0 d0 y1 d1 w)) 0 0.
Proof.
  intros. set (c := cubic_init _ _ _ _ _). assert (K1 : k1 c = 0) by (unfold c, cubic_init; rewrite Rltb_f by assumption; reflexivity).
  split; [unfold keval, c, cubic_init; cbn [k3 k2 k1 k0]; ring|].
  pose proof (kderiv_ok c 0) as H0. replace (kderiv c 0) with 0 in H0 by (unfold kderiv; rewrite K1; ring). exact H0.
Qed.
Theorem C23_constant_for_no_width_refuted : exists y0 d0 y1 d1 w x, w <= 0 /\ keval (cubic_init y0 d0 y1 d1 w) x <> y0.
Proof.
  exists 0, 0, 1, 0, 0, 1. split; [lra|]. unfold cubic_init. rewrite Rltb_f by lra. unfold keval. cbn [k3 k2 k1 k0]. lra.
Qed.

(** ** C24 *)
Theorem C24_quadratic : forall q s x,
  qeval (qshift_left q s) x = qeval q (x + s) /\ qeval (qshift_right q s) x = qeval q (x - s) /\
  qeval (qshift_up q s) x = qeval q x + s /\ qeval (qscale_up q s) x = s * qeval q x /\
  qeval (qscale_in_y q s) x = s * qeval q x /\ (s <> 0 -> qeval (qscale_in_x q s) x = qeval q (x / s)) /\
  qeval (qscale_in_x_by_reciprocal q s) x = qeval q (x * s).
Proof.
  intros q s x.
  assert (L : forall t, qeval (qshift_left q t) x = qeval q (x + t)).
  { intros t. unfold qshift_left. destruct (Reqb_spec t 0) as [->|_]; [now rewrite Rplus_0_r|]. unfold qeval, qderiv. cbn [q2 q1 q0]. ring. }
  split; [apply L|]. split; [apply L|].
  unfold qeval, qshift_up, qscale_up, qscale_in_y, qscale_in_x, qscale_in_x_by_reciprocal. cbn [q2 q1 q0].
  repeat split; try ring. intros. field. assumption.
Qed.
Theorem C24_quadratic_sum : forall a b x, qeval (qadd a b) x = qeval a x + qeval b x /\ qeval (qsub a b) x = qeval a x - qeval b x.
Proof. intros. unfold qeval, qadd, qsub. cbn [q2 q1 q0]. split; ring. Qed.
Theorem C24_quadratic_derivatives : forall q x,
  derivable_pt_lim (qeval q) x (qderiv q x) /\ derivable_pt_lim (qderiv q) x (qderiv2 q x) /\
  derivable_pt_lim (qderiv2 q) x (qderiv3 q x).
Proof. intros. split; [apply qderiv_ok|]. split; [apply qderiv2_ok|apply qderiv3_ok]. Qed.
Theorem C24_quadratic_init : forall y d dd e x,
  (let q := quad_with_start_derivative y d e in qeval q 0 = y /\ qderiv q 0 = d /\ qeval q 1 = e) /\
  (let q := quad_with_origin y d dd in qeval q 0 = y /\ qderiv q 0 = d /\ qderiv2 q 0 = dd) /\
  (let q := quad_with_point x y d dd in qeval q x = y /\ qderiv q x = d /\ qderiv2 q x = dd).
Proof.
  intros. unfold qeval, qderiv, qderiv2, quad_with_start_derivative, quad_with_origin, quad_with_point. cbn [q2 q1 q0].
  repeat split; field.
Qed.
Theorem C24_cubic : forall c s x,
  keval (kshift_left c s) x = keval c (x + s) /\ keval (kshift_right c s) x = keval c (x - s) /\
  keval (kshift_up c s) x = keval c x + s /\ keval (kscale_up c s) x = s * keval c x.
Proof.
  intros c s x.
  assert (L : forall t, keval (kshift_left c t) x = keval c (x + t)).
  { intros t. unfold kshift_left. destruct (Reqb_spec t 0) as [->|_]; [now rewrite Rplus_0_r|]. unfold keval, kderiv, kderiv2. cbn [k3 k2 k1 k0]. field. }
  split; [apply L|]. split; [apply L|]. unfold keval, kshift_up, kscale_up. cbn [k3 k2 k1 k0]. split; ring.
Qed.
Theorem C24_cubic_derivatives : forall c x,
  derivable_pt_lim (keval c) x (kderiv c x) /\ derivable_pt_lim (kderiv c) x (kderiv2 c x) /\
  derivable_pt_lim (kderiv2 c) x (kderiv3 c x).
Proof. intros. split; [apply kderiv_ok|]. split; [apply kderiv2_ok|apply kderiv3_ok]. Qed.

(** ** C25 *)
(** f has one sign on [r]: nowhere both strictly positive and strictly negative. *)
Definition one_sign_on (f : R -> R) (r : range) : Prop :=
  forall x y, start_ r <= x <= end_ r -> start_ r <= y <= end_ r -> 0 <= f x * f y.

Theorem C25_uniform_curvature_complete : forall c r, start_ r <= end_ r ->
  one_sign_on (kderiv2 c) r -> uniform_curvature c r = true.
Proof.
  intros c r Hr H. specialize (H (start_ r) (end_ r) ltac:(lra) ltac:(lra)).
  unfold uniform_curvature, clamp_near_zero. apply Rleb_true. destruct (Rleb _ _), (Rleb _ _); lra.
Qed.
(** Sound when neither end's second derivative is a non-zero number that the code
    rounds to zero. *)
Theorem C25_uniform_curvature_partial : forall c r, start_ r <= end_ r ->
  (forall x, x = start_ r \/ x = end_ r -> kderiv2 c x = 0 \/ kepsilon c < Rabs (kderiv2 c x)) ->
  (uniform_curvature c r = true <-> one_sign_on (kderiv2 c) r).
Proof.
  intros c r Hr N. split; [|now apply C25_uniform_curvature_complete].
  assert (Z : forall x, x = start_ r \/ x = end_ r -> clamp_near_zero (kderiv2 c x) (kepsilon c) = kderiv2 c x).
  { intros x Hx. unfold clamp_near_zero. destruct (N x Hx) as [->|G]; [now destruct (Rleb _ _)|now rewrite Rleb_f]. }
  unfold uniform_curvature. rewrite !Z by auto. intros E. apply Rleb_true in E. intros x y Hx Hy.
  (* the second derivative is affine *)
  set (a := start_ r) in *. set (b := end_ r) in *.
  destruct (Req_dec a b) as [Eab|Nab].
  { replace x with a by lra. replace y with a by lra. pose proof (Rle_0_sqr (kderiv2 c a)) as S. unfold Rsqr in S. lra. }
  assert (AF : forall t, a <= t <= b -> exists u v, 0 <= u /\ 0 <= v /\ kderiv2 c t = u * kderiv2 c a + v * kderiv2 c b).
  { intros t Ht. assert (P : 0 < / (b - a)) by (apply Rinv_0_lt_compat; lra).
    exists ((b - t) * / (b - a)), ((t - a) * / (b - a)). split; [nra|]. split; [nra|]. unfold kderiv2. field. lra. }
  destruct (AF x Hx) as (u & v & Hu & Hv & ->). destruct (AF y Hy) as (u' & v' & Hu' & Hv' & ->).
  set (A := kderiv2 c a) in *. set (B := kderiv2 c b) in *.
  assert (0 <= u * u' * (A * A)) by (apply Rmult_le_pos; [nra|apply Rle_0_sqr]).
  assert (0 <= v * v' * (B * B)) by (apply Rmult_le_pos; [nra|apply Rle_0_sqr]).
  assert (0 <= (u * v' + v * u') * (A * B)) by (apply Rmult_le_pos; nra). lra.
Qed.
(** x^3 near 0: the second derivative changes sign but is below the tolerance. *)
Theorem C25_small_curvature_refuted : exists c r, start_ r < end_ r /\ uniform_curvature c r = true /\
  kderiv2 c (start_ r) * kderiv2 c (end_ r) < 0.
Proof.
  exists (Cubic 1 0 0 0), (Rg (- / pow2 30) (/ pow2 30)). cbn [start_ end_].
  assert (P : 0 < / pow2 30) by (apply Rinv_0_lt_compat, pow2_pos).
  split; [lra|]. split; [|unfold kderiv2; cbn [k3 k2]; nra].
  assert (K : kepsilon (Cubic 1 0 0 0) = kEpsilonScale).
  { unfold kepsilon. cbn [k3 k2 k1 k0]. rewrite Rabs_R1, Rabs_R0. repeat rewrite (Rmax_left 1 0) by lra. ring. }
  assert (S : 6 * / pow2 30 <= kEpsilonScale).
  { unfold kEpsilonScale. rewrite <- !pow2_neg. replace (- (22))%Z with (- (30) + 8)%Z by lia. rewrite pow2_add.
    pose proof (pow2_pos (- (30))). replace (pow2 8) with 256 by (rewrite pow2_IZR by lia; reflexivity). lra. }
  unfold uniform_curvature. rewrite K. unfold kderiv2, clamp_near_zero. cbn [start_ end_ k3 k2].
  apply Rleb_true. rewrite !Rleb_t; [lra| |]; unfold Rabs; destruct (Rcase_abs _); lra.
Qed.

(** ** C26 *)
(** Exactly the roots, ascending, whenever no coefficient or discriminant of the
    scaled curve is a non-zero number below the code's tolerance
    ([well_conditioned], CurveProofs.v). *)
Theorem C26_roots_partial : forall q, well_conditioned (normalized q) ->
  exists l, roots q = Some l /\ Sorted Rlt l /\ forall x, In x l <-> qeval q x = 0.
Proof. intros q W. destruct (roots_ok q W) as (l & E & S & _ & H). eauto. Qed.
Theorem C26_roots_without_normalizing_partial : forall q, well_conditioned q ->
  exists l, roots_without_normalizing q = Some l /\ Sorted Rlt l /\ forall x, In x l <-> qeval q x = 0.
Proof. intros q W. destruct (rwn_ok q W) as (l & E & S & _ & H). eauto. Qed.

(** In terms of the curve alone ([moderate], CurveProofs.v): coefficients zero or
    between 1/8 and 8 in size, discriminant zero or at least 1/128. *)
Theorem C26_roots_moderate_partial : forall q, moderate q ->
  exists l, roots q = Some l /\ Sorted Rlt l /\ forall x, In x l <-> qeval q x = 0.
Proof. intros q M. apply C26_roots_partial. now apply moderate_well_conditioned. Qed.
(** XsForValue: exactly the points where the curve has the value. *)
Theorem C26_xs_for_value_partial : forall q v, well_conditioned (normalized (Quad (q2 q) (q1 q) (q0 q - v))) ->
  exists l, xs_for_value q v = Some l /\ Sorted Rlt l /\ forall x, In x l <-> qeval q x = v.
Proof.
  intros q v W. destruct (roots_ok _ W) as (l & E & S & _ & H). exists l. split; [exact E|]. split; [exact S|].
  intros x. rewrite H. unfold qeval. cbn [q2 q1 q0]. split; intros; lra.
Qed.
(** RootsInRange: every root in the range is returned, and everything returned is in
    the range and within the tolerance of a root. *)
Theorem C26_roots_in_range_partial : forall q r, well_conditioned (normalized q) -> start_ r <= end_ r ->
  exists l, roots_in_range q r = Some l /\
    (forall x, start_ r <= x <= end_ r -> qeval q x = 0 -> In x l) /\
    (forall x, In x l -> start_ r <= x <= end_ r /\ exists z, qeval q z = 0 /\ Rabs (z - x) <= (end_ r - start_ r) * kEpsilonScale).
Proof.
  intros q r W Hr. destruct (roots_ok q W) as (l & E & S & L & H). rewrite (roots_in_range_eq q r l Hr E).
  eexists. split; [reflexivity|]. split.
  - intros x Hx E0. apply in_map_iff. exists x. split; [now apply clamp_in|]. apply filter_In. split; [now apply H|].
    apply Rleb_true. rewrite clamp_in by assumption. replace (x - x) with 0 by ring. rewrite Rabs_R0. unfold length_.
    pose proof eps_scale_pos. nra.
  - intros x Hx. apply in_map_iff in Hx. destruct Hx as (z & <- & Hz). apply filter_In in Hz. destruct Hz as [Hz Hd].
    apply Rleb_true in Hd. split; [unfold clamp; minmax; lra|]. exists z. split; [now apply H|]. exact Hd.
Qed.
(** Exactly the roots in the range when none lies just outside it. *)
Theorem C26_roots_in_range_exact_partial : forall q r, well_conditioned (normalized q) -> start_ r <= end_ r ->
  (forall z, qeval q z = 0 -> start_ r <= z <= end_ r \/ (end_ r - start_ r) * kEpsilonScale < Rabs (z - clamp r z)) ->
  exists l, roots_in_range q r = Some l /\ Sorted Rlt l /\ forall x, In x l <-> qeval q x = 0 /\ start_ r <= x <= end_ r.
Proof. intros q r W Hr F. destruct (rir_exact q r W Hr F) as (l & E & S & _ & H). eauto. Qed.
(** RangesMatchingSign: sub-ranges of the limits whose union is where the curve has the
    sign, when the curve is not zero at the limits. *)
Theorem C26_ranges_matching_sign_partial : forall q r sign, well_conditioned (normalized q) -> start_ r < end_ r -> sign <> 0 ->
  qeval q (start_ r) <> 0 -> qeval q (end_ r) <> 0 ->
  (forall z, qeval q z = 0 -> start_ r <= z <= end_ r \/ (end_ r - start_ r) * kEpsilonScale < Rabs (z - clamp r z)) ->
  exists l, ranges_matching_sign q r sign = Some l /\ (length l <= 2)%nat /\
    (forall m, In m l -> start_ r <= start_ m <= end_ m /\ end_ m <= end_ r) /\
    forall x, start_ r <= x <= end_ r -> (0 <= sign * qeval q x <-> exists m, In m l /\ start_ m <= x <= end_ m).
Proof. exact rms_ok. Qed.

(** The critical point is where the derivative vanishes. *)
Theorem C26_critical_point : forall q x, critical_point q = Some x -> qderiv q x = 0.
Proof.
  intros q x. unfold critical_point. destruct (Rleb _ _); [|discriminate]. destruct (Reqb_spec (q2 q) 0); [discriminate|].
  cbn [negb]. intros E. injection E as <-. unfold qderiv. field. assumption.
Qed.

(** *** Where the full claim is false *)
Lemma exp_at x k : (-126 <= k <= 127)%Z -> pow2 k <= x < pow2 (k + 1) -> r_exponent x = k.
Proof. intros K H. apply r_exponent_unique; [assumption|]. pose proof (pow2_pos k). rewrite Rabs_pos_eq; lra. Qed.
Lemma exp_1 : r_exponent 1 = 0%Z.
Proof. apply exp_at; [lia|]. change (0 + 1)%Z with 1%Z. rewrite pow2_0, pow2_1. lra. Qed.
Lemma Rabs_m1 : Rabs (-1) = 1. Proof. unfold Rabs. destruct (Rcase_abs _); lra. Qed.
Lemma pow2_23 : pow2 23 = 8388608. Proof. rewrite pow2_IZR by lia. reflexivity. Qed.

(** The zero curve divides 0 by 0. *)
Theorem C26_zero_curve_refuted : roots (Quad 0 0 0) = None.
Proof.
  unfold roots. assert (E : normalized (Quad 0 0 0) = Quad 0 0 0).
  { unfold normalized, qscale_in_y, qscale_in_x_by_reciprocal. cbn [q2 q1 q0]. f_equal; ring. }
  rewrite E. unfold roots_without_normalizing, qepsilon, max_coeff, reliable_discriminant, clamp_near_zero, discriminant. cbn [q2 q1 q0].
  rewrite Rabs_R0. repeat rewrite (Rmax_left 0 0) by lra. rewrite Rmult_0_l, Rltb_f by lra.
  replace (0 * 0 - 4 * 0 * 0) with 0 by ring. rewrite Rabs_R0, Rleb_t, Rltb_f, Reqb_t by lra. reflexivity.
Qed.

(** 2^23 x^2 + x - 1 has two real roots, none of which is found: scaling the linear
    coefficient makes the constant one so large that the quadratic one counts as 0. *)
Theorem C26_lost_roots_refuted : exists q x, roots q = Some [] /\ qeval q x = 0.
Proof.
  set (q := Quad (pow2 23) 1 (-1)).
  exists q, ((-1 + sqrt (1 + 4 * pow2 23)) / (2 * pow2 23)). pose proof pow2_23 as P23. split.
  2:{ pose proof (sqrt_sqrt (1 + 4 * pow2 23) ltac:(lra)) as S. set (t := sqrt (1 + 4 * pow2 23)) in *.
      unfold qeval, q. cbn [q2 q1 q0]. field_simplify; [|lra]. replace (t ^ 2) with (t * t) by ring. rewrite S. field. lra. }
  assert (B23 : pow2 23 / 1 = pow2 23) by field.
  assert (X : x_scale_reciprocal q = / pow2 23).
  { unfold x_scale_reciprocal, qabs, q. cbn [q2 q1 q0]. rewrite Rabs_m1, Rabs_R1, (Rabs_pos_eq (pow2 23)) by lra.
    rewrite Rmax_left by lra. rewrite B23. rewrite Reqb_f by lra.
    unfold contains, kInvertablePowerOf2Range, kMinInvertableExponent, kMaxInvertableExponent. cbn [start_ end_].
    rewrite !Rleb_t by (try lra; try (left; apply pow2_lt; lia)). cbn [andb orb negb].
    unfold r_reciprocal_exponent, r_max_power_of_2_scale, r_exponent_from_int.
    rewrite (exp_at (pow2 23) 23), exp_1 by (try lia; rewrite pow2_succ; lra).
    cbn [Z.opp Z.sub Z.min Z.eqb Z.compare Pos.compare Pos.compare_cont Z.add kMaxFloatExponent kZeroExponent Pos.eqb].
    rewrite Rmin_left by (apply pow2_le; lia). change (-23)%Z with (-(23))%Z. apply pow2_neg. }
  assert (Ex : qscale_in_x_by_reciprocal q (x_scale_reciprocal q) = Quad (/ pow2 23) (/ pow2 23) (-1)).
  { rewrite X. unfold qscale_in_x_by_reciprocal, q. cbn [q2 q1 q0]. f_equal; field; lra. }
  assert (IP : 0 < / pow2 23) by (apply Rinv_0_lt_compat; lra).
  assert (Y : y_scale (Quad (/ pow2 23) (/ pow2 23) (-1)) = pow2 23).
  { unfold y_scale, qabs. cbn [q2 q1 q0]. rewrite Rabs_m1, !(Rabs_pos_eq (/ pow2 23)) by lra.
    rewrite clamp_in; [|unfold kInvertablePowerOf2Range, kMinInvertableExponent, kMaxInvertableExponent; cbn [start_ end_]; rewrite <- pow2_neg; split; apply pow2_le; lia].
    unfold r_reciprocal_exponent, r_max_power_of_2_scale, r_exponent_from_int.
    rewrite (exp_at (/ pow2 23) (-23)), exp_1 by (try lia; rewrite pow2_succ; change (-23)%Z with (-(23))%Z; rewrite pow2_neg; lra).
    cbn [Z.opp Z.sub Z.min Z.eqb Z.compare Pos.compare Pos.compare_cont Z.add kMaxFloatExponent kZeroExponent Pos.eqb kMaxInvertableExponent].
    cbn. apply Rmin_right. apply Rmin_glb; [apply (pow2_le 23 125)|apply (pow2_le 23 127)]; lia. }
  unfold roots, normalized. rewrite Ex, Y. unfold qscale_in_y. cbn [q2 q1 q0].
  replace (pow2 23 * / pow2 23) with 1 by (field; lra).
  unfold roots_without_normalizing, qepsilon, max_coeff. cbn [q2 q1 q0]. rewrite Rabs_R1.
  replace (pow2 23 * -1) with (- pow2 23) by ring. rewrite Rabs_Ropp, (Rabs_pos_eq (pow2 23)) by lra.
  rewrite !Rmax_right by (try lra; rewrite Rmax_left; lra).
  assert (E2 : pow2 23 * kEpsilonScale = 2) by (unfold kEpsilonScale; rewrite !pow2_IZR by lia; change (2 ^ 23)%Z with 8388608%Z; change (2 ^ 22)%Z with 4194304%Z; lra).
  rewrite E2, Rltb_t by lra. reflexivity.
Qed.

(** The debug assert on the scaled quotient fails for 15 x^2 + 1. *)
Theorem C26_scaling_check_refuted : x_scale_sane (Quad 15 0 1) = false.
Proof.
  assert (P3 : pow2 3 = 8) by (rewrite pow2_IZR by lia; reflexivity).
  assert (P4 : pow2 4 = 16) by (rewrite pow2_IZR by lia; reflexivity).
  assert (P14 : pow2 (-126) < 15 < pow2 126).
  { split; [apply Rlt_trans with (pow2 0); [apply pow2_lt; lia|rewrite pow2_0; lra]|].
    apply Rlt_trans with (pow2 4); [lra|apply pow2_lt; lia]. }
  assert (X : x_scale_reciprocal (Quad 15 0 1) = / 2).
  { unfold x_scale_reciprocal, qabs. cbn [q2 q1 q0]. rewrite Rabs_R0, Rabs_R1, (Rabs_pos_eq 15), Rmax_right by lra.
    replace (15 / 1) with 15 by field. rewrite Reqb_f by lra. unfold contains, kInvertablePowerOf2Range, kMinInvertableExponent, kMaxInvertableExponent.
    cbn [start_ end_]. rewrite (Rleb_t (pow2 (-126)) 15), (Rleb_t 15 (pow2 126)), (Rleb_f 1 0) by lra. cbn [andb orb negb].
    unfold r_sqrt_reciprocal_exponent, r_max_power_of_2_scale, r_exponent_from_int.
    rewrite (exp_at 15 3) by (try lia; change (3 + 1)%Z with 4%Z; lra).
    assert (E0 : r_exponent 0 = (-127)%Z) by (unfold r_exponent; rewrite Rabs_R0, Rltb_t by apply pow2_pos; reflexivity).
    rewrite E0. change (Rmin (pow2 (-1)) (pow2 127) = / 2). rewrite Rmin_left by (apply pow2_le; lia). change (-1)%Z with (-(1))%Z. now rewrite pow2_neg, pow2_1. }
  unfold x_scale_sane. rewrite X. unfold qabs, qscale_in_x_by_reciprocal. cbn [q2 q1 q0].
  rewrite Rabs_R0, Rabs_R1, (Rabs_pos_eq 15), Rmax_right by lra. replace (15 / 1) with 15 by field.
  unfold contains, kInvertablePowerOf2Range, kMinInvertableExponent, kMaxInvertableExponent. cbn [start_ end_].
  rewrite (Rleb_t (pow2 (-126)) 15), (Rleb_t 15 (pow2 126)), (Rleb_f 1 0), Reqb_f by lra. cbn [andb orb negb].
  rewrite Rabs_pos_eq by lra. apply andb_false_iff. right. apply Rleb_f. lra.
Qed.

(** x (x - 1) touches zero at both limits of [0, 1]: it is negative in between, yet the
    ranges returned for the negative sign are the two end points. *)
Lemma moderate_parabola : moderate (Quad 1 (-1) 0).
Proof.
  split; [|split].
  - cbn [q2 q1 q0]. intros c [ -> | [ -> | -> ] ]; [right|right|now left]; unfold Rabs; destruct (Rcase_abs _); lra.
  - left. cbn. lra.
  - right. unfold discriminant. cbn [q2 q1 q0]. unfold Rabs; destruct (Rcase_abs _); lra.
Qed.
Lemma parabola_roots r : start_ r <= 0 -> 1 <= end_ r -> roots_in_range (Quad 1 (-1) 0) r = Some [0; 1].
Proof.
  intros H0 H1. assert (Z : forall z, qeval (Quad 1 (-1) 0) z = 0 <-> z = 0 \/ z = 1).
  { intros z. unfold qeval. cbn [q2 q1 q0]. split; [intros E|intros [->| ->]; ring].
    assert (F : z * (z - 1) = 0) by lra. apply Rmult_integral in F. destruct F; [left|right]; lra. }
  destruct (rir_exact (Quad 1 (-1) 0) r (moderate_well_conditioned _ moderate_parabola) ltac:(lra)) as (l & E & S & L & H).
  { intros z Hz. left. apply Z in Hz. destruct Hz; lra. }
  rewrite E. f_equal. assert (I0 : In 0 l) by (apply H; rewrite Z; lra). assert (I1 : In 1 l) by (apply H; rewrite Z; lra).
  destruct (sorted_cases l S L) as [->|[(t & ->)|(t & u & -> & Htu)]]; [easy| |].
  - destruct I0 as [|[]], I1 as [|[]]; lra.
  - destruct I0 as [|[|[]]], I1 as [|[|[]]]; subst; try lra; reflexivity.
Qed.
Theorem C26_sign_zero_at_limits_refuted :
  ranges_matching_sign (Quad 1 (-1) 0) (Rg 0 1) (-1) = Some [Rg 0 0; Rg 1 1] /\
  0 < -1 * qeval (Quad 1 (-1) 0) (1 / 2) /\
  ranges_matching_sign (Quad 1 (-1) 0) (Rg 0 2) (-1) = None.
Proof.
  unfold ranges_matching_sign. rewrite !parabola_roots by (cbn; lra). unfold qeval. cbn [q2 q1 q0 start_ end_].
  rewrite !(Rleb_t 0 (-1 * ((1 * 0 + -1) * 0 + 0))) by lra. rewrite (Rleb_t 0 (-1 * ((1 * 1 + -1) * 1 + 0))) by lra.
  rewrite (Rleb_f 0 (-1 * ((1 * 2 + -1) * 2 + 0))) by lra. split; [reflexivity|]. split; [lra|reflexivity].
Qed.

(** x^2 - x on [-1, 3/2]: two roots inside, both signs found, hypotheses met. *)
Example C26_case : exists l, ranges_matching_sign (Quad 1 (-1) 0) (Rg (-1) (3 / 2)) 1 = Some l /\
  (exists m, In m l /\ start_ m <= 5 / 4 <= end_ m) /\ ~ exists m, In m l /\ start_ m <= 1 / 2 <= end_ m.
Proof.
  destruct (C26_ranges_matching_sign_partial (Quad 1 (-1) 0) (Rg (-1) (3 / 2)) 1) as (l & E & _ & _ & H); cbn [start_ end_] in *.
  - apply moderate_well_conditioned, moderate_parabola.
  - lra.
  - lra.
  - unfold qeval. cbn. lra.
  - unfold qeval. cbn. lra.
  - intros z. unfold qeval. cbn [q2 q1 q0]. intros E. left.
    assert (F : z * (z - 1) = 0) by lra. apply Rmult_integral in F. destruct F; lra.
  - exists l. split; [assumption|]. rewrite <- !H by lra. unfold qeval. cbn [q2 q1 q0]. split; lra.
Qed.
Example C23_case : keval (cubic_init 1 2 3 4 2) 2 = 3.
Proof. apply (C23_cubic_end_conditions 1 2 3 4 2 ltac:(lra)). Qed.
Example C25_case : uniform_curvature (Cubic 1 0 0 0) (Rg (-1) 1) = false /\ uniform_curvature (Cubic 1 0 0 0) (Rg 1 2) = true.
Proof.
  assert (K : kepsilon (Cubic 1 0 0 0) = kEpsilonScale).
  { unfold kepsilon. cbn [k3 k2 k1 k0]. rewrite Rabs_R1, Rabs_R0. repeat rewrite (Rmax_left 1 0) by lra. ring. }
  pose proof eps_scale_lt1. unfold uniform_curvature, kderiv2, clamp_near_zero. rewrite K. cbn [start_ end_ k3 k2].
  split; [apply Rleb_f|apply Rleb_t]; rewrite !Rleb_f; try lra; unfold Rabs; destruct (Rcase_abs _); lra.
Qed.

Print Assumptions C23_cubic_end_conditions.
Print Assumptions C23_non_positive_width_partial.
Print Assumptions C23_constant_for_no_width_refuted.
Print Assumptions C24_quadratic.
Print Assumptions C24_quadratic_sum.
Print Assumptions C24_quadratic_derivatives.
Print Assumptions C24_quadratic_init.
Print Assumptions C24_cubic.
Print Assumptions C24_cubic_derivatives.
Print Assumptions C25_uniform_curvature_complete.
Print Assumptions C25_uniform_curvature_partial.
Print Assumptions C25_small_curvature_refuted.
Print Assumptions C26_roots_partial.
Print Assumptions C26_roots_without_normalizing_partial.
Print Assumptions C26_roots_moderate_partial.
Print Assumptions C26_xs_for_value_partial.
Print Assumptions C26_roots_in_range_partial.
Print Assumptions C26_roots_in_range_exact_partial.
Print Assumptions C26_ranges_matching_sign_partial.
Print Assumptions C26_critical_point.
Print Assumptions C26_zero_curve_refuted.
Print Assumptions C26_lost_roots_refuted.
Print Assumptions C26_scaling_check_refuted.
Print Assumptions C26_sign_zero_at_limits_refuted.
