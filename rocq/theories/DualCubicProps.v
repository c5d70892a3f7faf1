(** Property C29: the dual cubic mid node. *)
From Verif Require Import RBase RangeModel RangeProofs FloatModel FloatProofs CurveModel CurveProofs CurveProps DualCubicModel.

(** The two cubics the mid node splits the curve into, over [0, k] and [k, 1]. *)
Definition first_half (s m : control_node) (k : R) : cubic := cubic_init (cy s) (cd s) (cy m) (cd m) k.
Definition second_half (m e : control_node) (k : R) : cubic := cubic_init (cy m) (cd m) (cy e) (cd e) (1 - k).

(** The requested second derivatives at the outer ends; equal value and slope at the
    mid node; the ends are untouched. *)
Theorem C29_mid_node_partial : forall s e k, 0 < k < 1 ->
  let m := mid_node s e k in
  let a := first_half s m k in let b := second_half m e k in
  kderiv2 a 0 = cdd s /\ kderiv2 b (1 - k) = cdd e /\
  keval a k = keval b 0 /\ kderiv a k = kderiv b 0 /\
  keval a 0 = cy s /\ kderiv a 0 = cd s /\ keval b (1 - k) = cy e /\ kderiv b (1 - k) = cd e /\
  cx m = cx s + (cx e - cx s) * k.
Proof.
  intros s e k Hk m a b. subst a b m. unfold first_half, second_half, cubic_init. rewrite !Rltb_t by lra.
  unfold keval, kderiv, kderiv2, mid_node, mlerp. cbn [k3 k2 k1 k0 cx cy cd cdd].
  repeat split; try ring; field; lra.
Qed.

(** The full claim also asks for equal second derivatives where the halves meet. *)
Theorem C29_second_derivative_continuous_refuted : exists s e k, 0 < k < 1 /\
  kderiv2 (first_half s (mid_node s e k) k) k <> kderiv2 (second_half (mid_node s e k) e k) 0.
Proof.
  exists (CNode 0 0 0 0), (CNode 1 1 0 0), (1 / 2). split; [lra|].
  unfold first_half, second_half, cubic_init. rewrite !Rltb_t by lra. unfold kderiv2, mid_node, mlerp. cbn [k3 k2 k1 k0 cx cy cd cdd]. lra.
Qed.

(** The quadratics whose sign decides where the mid node may go are the second
    derivatives of the halves at the mid node, times the half's width. *)
Theorem C29_mid_range_splines : forall s e k, 0 < k < 1 ->
  qeval (mid_range_spline_for_start s e) k = k * kderiv2 (first_half s (mid_node s e k) k) k /\
  qeval (mid_range_spline_for_end s e) k = (1 - k) * kderiv2 (second_half (mid_node s e k) e k) 0.
Proof.
  intros s e k Hk. unfold first_half, second_half, cubic_init. rewrite !Rltb_t by lra.
  unfold qeval, mid_range_spline_for_start, mid_range_spline_for_end, kderiv2, mid_node, mlerp. cbn [k3 k2 k1 k0 q2 q1 q0 cx cy cd cdd].
  split; field; lra.
Qed.

Lemma affine_one_sign c w : 0 <= w -> 0 <= kderiv2 c 0 * kderiv2 c w -> one_sign_on (kderiv2 c) (Rg 0 w).
Proof.
  intros Hw E x y Hx Hy. cbn [start_ end_] in *. destruct (Req_dec w 0) as [->|Nw].
  { replace x with 0 by lra. replace y with 0 by lra. assumption. }
  assert (AF : forall t, 0 <= t <= w -> exists u v, 0 <= u /\ 0 <= v /\ kderiv2 c t = u * kderiv2 c 0 + v * kderiv2 c w).
  { intros t Ht. assert (P : 0 < / w) by (apply Rinv_0_lt_compat; lra).
    exists ((w - t) * / w), (t * / w). split; [nra|]. split; [nra|]. unfold kderiv2. field. lra. }
  destruct (AF x Hx) as (u & v & Hu & Hv & ->). destruct (AF y Hy) as (u' & v' & Hu' & Hv' & ->).
  set (A := kderiv2 c 0) in *. set (B := kderiv2 c w) in *.
  assert (0 <= u * u' * (A * A)) by (apply Rmult_le_pos; [nra|apply Rle_0_sqr]).
  assert (0 <= v * v' * (B * B)) by (apply Rmult_le_pos; [nra|apply Rle_0_sqr]).
  assert (0 <= (u * v' + v * u') * (A * B)) by (apply Rmult_le_pos; nra). lra.
Qed.

(** So a mid node where both quadratics match the sign of the outer second
    derivatives gives two halves of uniform curvature. *)
Theorem C29_uniform_halves : forall s e k, 0 < k < 1 ->
  0 <= cdd s * qeval (mid_range_spline_for_start s e) k ->
  0 <= cdd e * qeval (mid_range_spline_for_end s e) k ->
  one_sign_on (kderiv2 (first_half s (mid_node s e k) k)) (Rg 0 k) /\
  one_sign_on (kderiv2 (second_half (mid_node s e k) e k)) (Rg 0 (1 - k)).
Proof.
  intros s e k Hk Hs He. destruct (C29_mid_range_splines s e k Hk) as [E1 E2]. rewrite E1 in Hs. rewrite E2 in He.
  destruct (C29_mid_node_partial s e k Hk) as (D0 & D1 & _). cbn zeta in D0, D1.
  split; apply affine_one_sign; try lra; rewrite ?D0, ?D1; nra.
Qed.

(** With the extreme second derivatives both halves are straight at the mid node. *)
Theorem C29_extreme_second_derivatives : forall s e k, 0 < k < 1 ->
  let s' := CNode (cx s) (cy s) (cd s) (extreme_second_for_start s e k) in
  let e' := CNode (cx e) (cy e) (cd e) (extreme_second_for_end s e k) in
  let m := mid_node s' e' k in
  kderiv2 (first_half s' m k) k = 0 /\ kderiv2 (second_half m e' k) 0 = 0.
Proof.
  intros s e k Hk s' e' m. subst s' e' m. unfold first_half, second_half, cubic_init. rewrite !Rltb_t by lra.
  unfold kderiv2, mid_node, mlerp, extreme_second_for_start, extreme_second_for_end. cbn [k3 k2 k1 k0 cx cy cd cdd].
  split; field; lra.
Qed.

Lemma steepness_nonneg d : 0 <= steepness d.
Proof.
  unfold steepness. destruct (Rleb_spec (Rabs d) 1); [lra|]. assert (0 < ln (Rabs d)) by (rewrite <- ln_1; apply ln_increasing; lra).
  pose proof ln2_pos. apply Rmult_le_pos; [lra|]. left. now apply Rinv_0_lt_compat.
Qed.

Lemma approximate_ok s e : let '(a, (p, q)) := approximate_mid_percent s e in
  1 / 10 <= a <= 9 / 10 /\ 0 <= p <= 1 /\ 0 <= q <= 1 /\ p + q = 1.
Proof.
  unfold approximate_mid_percent. cbv zeta. set (pe := Rmin _ 1).
  assert (P : 0 <= pe <= 1).
  { unfold pe, kMaxSteepness. split; [apply Rmin_glb; [|lra]|apply Rmin_r]. pose proof (Rabs_pos (steepness (cd s * (1 / Rmax (Rabs (cy e - cy s)) kMinYDiff)) - steepness (cd e * (1 / Rmax (Rabs (cy e - cy s)) kMinYDiff)))). lra. }
  unfold mlerp, kMaxMidPercent, kMinMidPercent. destruct (Rleb _ _); repeat split; lra.
Qed.

(** The whole calculation, for a curve of positive width [w]: the mid node is well
    inside the curve, and the second derivatives at its ends are the two shares
    [p] and [1 - p] of the extreme ones. *)
Theorem C29_dual_cubic_mid_node : forall y0 d0 y1 d1 w x y d, 0 < w ->
  dual_cubic_mid_node y0 d0 y1 d1 w = Some (x, (y, d)) ->
  w / 10 <= x <= 9 * w / 10 /\
  let a := cubic_init y0 d0 y d x in let b := cubic_init y d y1 d1 (w - x) in
  exists k p, 1 / 10 <= k <= 9 / 10 /\ 0 <= p <= 1 /\
    w * w * kderiv2 a 0 = p * ((d1 - d0) * w + 1 / k * (3 * (y1 - y0) - 2 * d0 * w - d1 * w)) /\
    w * w * kderiv2 b (w - x) = (1 - p) * (1 / (k - 1) * ((d1 - d0) * w * k + 3 * (y1 - y0) - 3 * d1 * w)).
Proof.
  intros y0 d0 y1 d1 w x y d Hw. unfold dual_cubic_mid_node.
  set (s := CNode 0 y0 (d0 * w) 0). set (e := CNode 1 y1 (d1 * w) 0).
  pose proof (approximate_ok s e) as AP. destruct (approximate_mid_percent s e) as [k0 [p q]]. destruct AP as (HK & Hp & Hq & Hpq).
  set (s2 := CNode 0 y0 (d0 * w) (mlerp 0 (extreme_second_for_start s e k0) p)).
  set (e2 := CNode 1 y1 (d1 * w) (mlerp 0 (extreme_second_for_end s e k0) q)).
  destruct (mid_percent s2 e2) as [k|] eqn:EK; [|discriminate].
  destruct (negb (Reqb w 0)); [|discriminate]. remember (mid_node s2 e2 k) as m eqn:Em. intros E. injection E as Ex Ey Ed.
  assert (Hk : 1 / 10 <= k <= 9 / 10).
  { unfold mid_percent in EK. destruct (valid_mid_range s2 e2); [|discriminate]. injection EK as <-.
    unfold kMaxMidPercent, kMinMidPercent. minmax; lra. }
  assert (X : x = k * w) by (rewrite <- Ex, Em; unfold mid_node, mlerp, s2, e2; cbn [cx]; ring).
  split; [rewrite X; nra|].
  destruct (C29_mid_node_partial s2 e2 k ltac:(lra)) as (A & B & _). cbn zeta in A, B. rewrite <- Em in A, B.
  exists k0, p. split; [assumption|]. split; [assumption|].
  assert (KW : 0 < k * w) by nra. assert (JW : 0 < (1 - k) * w) by nra.
  assert (DW : cd m = d * w) by (rewrite <- Ed; field; lra).
  unfold first_half in A. unfold second_half in B. rewrite DW, Ey in A, B.
  split.
  - transitivity (kderiv2 (cubic_init (cy s2) (cd s2) y (d * w) k) 0).
    + rewrite X. unfold cubic_init. rewrite !Rltb_t by lra. unfold kderiv2, s2. cbn [k3 k2 cy cd]. field. lra.
    + rewrite A. unfold s2, mlerp, extreme_second_for_start, s, e. cbn [cdd cd cy]. ring.
  - transitivity (kderiv2 (cubic_init y (d * w) (cy e2) (cd e2) (1 - k)) (1 - k)).
    + replace (w - x) with ((1 - k) * w) by (rewrite X; ring). unfold cubic_init. rewrite !Rltb_t by lra. unfold kderiv2, e2. cbn [k3 k2 cy cd]. field. lra.
    + rewrite B. unfold e2, mlerp, extreme_second_for_end, s, e. cbn [cdd cd cy]. replace q with (1 - p) by lra. ring.
Qed.

(** A steep start (slope 8 over a unit step) split in the middle. *)
Example C29_case :
  let s := CNode 0 0 8 (-3) in let e := CNode 1 1 0 2 in
  kderiv2 (first_half s (mid_node s e (1 / 2)) (1 / 2)) 0 = -3 /\
  one_sign_on (kderiv2 (first_half s (mid_node s e (1 / 2)) (1 / 2))) (Rg 0 (1 / 2)).
Proof.
  intros s e. destruct (C29_mid_node_partial s e (1 / 2) ltac:(lra)) as (A & _). cbn zeta in A.
  split; [exact A|]. apply (C29_uniform_halves s e (1 / 2)); [lra| |];
    unfold qeval, mid_range_spline_for_start, mid_range_spline_for_end, s, e; cbn [q2 q1 q0 cd cdd cy]; lra.
Qed.

Print Assumptions C29_mid_node_partial.
Print Assumptions C29_second_derivative_continuous_refuted.
Print Assumptions C29_mid_range_splines.
Print Assumptions C29_uniform_halves.
Print Assumptions C29_extreme_second_derivatives.
Print Assumptions C29_dual_cubic_mid_node.
