From Verif Require Import RBase BaseFacts RangeModel RangeProofs CurveModel CurveProofs DualCubicModel DualCubicProps CompactSplineModel CompactSplineSpec.
From Coq Require Import Sorting.Sorted.

Lemma Rtrunc_bounds x : (0 <= x -> IZR (Rtrunc x) <= x < IZR (Rtrunc x) + 1) /\ (x <= 0 -> x <= IZR (Rtrunc x) < x + 1).
Proof.
  unfold Rtrunc. split; intros H.
  - rewrite Rleb_t by lra. apply Rfloor_bounds.
  - rcase1.
    + assert (x = 0) by lra. subst x. replace (Rfloor 0) with 0%Z by (symmetry; apply Rfloor_unique; lra). lra.
    + rewrite opp_IZR. pose proof (Rfloor_bounds (- x)). lra.
Qed.
Lemma Rtrunc_nonneg x : 0 <= x -> (0 <= Rtrunc x)%Z.
Proof.
  intros H. destruct (proj1 (Rtrunc_bounds x) H).
  assert (-1 < Rtrunc x)%Z by (apply lt_IZR; lra). lia.
Qed.
Lemma Rtrunc_IZR k x : (0 <= k)%Z -> IZR k <= x < IZR k + 1 -> Rtrunc x = k.
Proof.
  intros H A. pose proof (IZR_le _ _ H). unfold Rtrunc. rewrite Rleb_t by lra. now apply Rfloor_unique.
Qed.
Lemma Rtrunc_near x : x - 1 < IZR (Rtrunc x) < x + 1.
Proof. destruct (Rtrunc_bounds x) as [A B]. destruct (Rle_dec 0 x); [specialize (A ltac:(lra))|specialize (B ltac:(lra))]; lra. Qed.
Lemma Rtrunc_mono x y : x <= y -> (Rtrunc x <= Rtrunc y)%Z.
Proof.
  intros H. destruct (Rtrunc_bounds x) as [A B], (Rtrunc_bounds y) as [C D].
  destruct (Rle_dec 0 x), (Rle_dec 0 y); try lra.
  - assert (Rtrunc x < Rtrunc y + 1)%Z by (apply lt_IZR; rewrite plus_IZR; specialize (A ltac:(lra)); specialize (C ltac:(lra)); lra). lia.
  - specialize (B ltac:(lra)). specialize (C ltac:(lra)).
    assert (Rtrunc x < 1)%Z by (apply lt_IZR; lra). pose proof (Rtrunc_nonneg y ltac:(lra)). lia.
  - assert (Rtrunc x < Rtrunc y + 1)%Z by (apply lt_IZR; rewrite plus_IZR; specialize (B ltac:(lra)); specialize (D ltac:(lra)); lra). lia.
Qed.

Lemma quantize_ok s x : spline_ok s -> in_int_range s x -> quantize_x x (x_granularity s) = Some (grains s x).
Proof.
  intros O I. pose proof (ok_granularity s O). unfold quantize_x, to_int, in_int_range, grains in *.
  rewrite Reqb_f by lra. cbn [negb].
  pose proof (Rtrunc_near (x / x_granularity s + 1 / 2)) as N. set (z := Rtrunc _) in *.
  assert (-2147483647 < x / x_granularity s < 2147483647) by (revert I; rabs; lra).
  assert (-2147483648 <= z < 2147483648)%Z.
  { split; [assert (-2147483649 < z)%Z by (apply lt_IZR; lra); lia|].
    assert (z < 2147483649)%Z by (apply lt_IZR; lra).
    destruct (Z.eq_dec z 2147483648) as [E|]; [exfalso|lia].
    destruct (Rtrunc_bounds (x / x_granularity s + 1 / 2)) as [P _]. fold z in P. rewrite E in *. specialize (P ltac:(lra)). lra. }
  destruct (_ && _)%Z eqn:E; [reflexivity|lia].
Qed.

Lemma compact_x_inv x g q : 0 < g -> compact_x x g = Some q ->
  (0 <= q <= 65535)%Z /\ q = Rtrunc (x / g + 1 / 2).
Proof.
  unfold compact_x, quantize_x, to_int, kMaxX. intros G. rewrite Reqb_f by lra. cbn [negb].
  destruct (_ && _)%Z; [|discriminate]. destruct (_ && _)%Z eqn:E; [|discriminate].
  intros H. injection H as <-. split; [lia|reflexivity].
Qed.

Lemma grain_error x g : 0 < g -> - g / 2 <= x ->
  IZR (Rtrunc (x / g + 1 / 2)) * g - g / 2 <= x < IZR (Rtrunc (x / g + 1 / 2)) * g + g / 2.
Proof.
  intros G X. assert (E : 0 <= x / g + 1 / 2).
  { replace (x / g + 1 / 2) with ((x + g / 2) / g) by (field; lra). apply Rmult_le_pos; [lra|]. left. now apply Rinv_0_lt_compat. }
  destruct (Rtrunc_bounds (x / g + 1 / 2)) as [P _]. specialize (P E). set (k := Rtrunc _) in *.
  assert (V : x = x / g * g) by (field; lra). set (v := x / g) in *. split.
  - rewrite V. replace (IZR k * g - g / 2) with ((IZR k - 1 / 2) * g) by field. apply Rmult_le_compat_r; lra.
  - rewrite V. replace (IZR k * g + g / 2) with ((IZR k + 1 / 2) * g) by field. apply Rmult_lt_compat_r; lra.
Qed.

Lemma compact_y_inv y r k : compact_y y r = Some k ->
  start_ r <= y <= end_ r /\ (0 <= k <= 65535)%Z /\
  0 <= y - lerp r (IZR k * kYScale) /\ (y - lerp r (IZR k * kYScale)) * 65535 <= end_ r - start_ r.
Proof.
  unfold compact_y. destruct (contains r y) eqn:C; [|discriminate]. apply contains_iff in C.
  intros H. injection H as H. split; [exact C|]. unfold kMaxY, length_ in H.
  destruct (Reqb_spec (end_ r - start_ r) 0) as [E|E].
  - subst k. unfold lerp, kYScale, kMaxY. split; [lia|]. replace (0 * (1 / 65535)) with 0 by ring. lra.
  - set (L := end_ r - start_ r) in *. assert (0 < L) by (unfold L in *; lra).
    assert (P : percent r y = (y - start_ r) / L) by reflexivity.
    assert (0 <= (y - start_ r) / L <= 1).
    { split; [apply Rmult_le_pos; [lra|left; now apply Rinv_0_lt_compat]|].
      apply Rmult_le_reg_r with L; [lra|]. unfold Rdiv. rewrite Rmult_assoc, Rinv_l by lra. unfold L; lra. }
    unfold percent_clamped in H. rewrite P, clamp_in in H by (cbn; lra).
    destruct (Rtrunc_bounds (65535 * ((y - start_ r) / L))) as [B _]. specialize (B ltac:(lra)).
    pose proof (Rtrunc_nonneg (65535 * ((y - start_ r) / L)) ltac:(lra)) as N. rewrite H in *.
    assert (k < 65536)%Z by (apply lt_IZR; lra). split; [lia|].
    assert (Y : y = start_ r + (y - start_ r) / L * L) by (field; lra). set (p := (y - start_ r) / L) in *.
    assert (E' : y - lerp r (IZR k * kYScale) = (65535 * p - IZR k) / 65535 * L).
    { rewrite Y at 1. unfold lerp, kYScale, kMaxY, L. field. }
    rewrite E'. split.
    + apply Rmult_le_pos; [apply Rmult_le_pos; lra|lra].
    + replace ((65535 * p - IZR k) / 65535 * L * 65535) with ((65535 * p - IZR k) * L) by field.
      rewrite <- (Rmult_1_l L) at 2. apply Rmult_le_compat_r; lra.
Qed.

Lemma kAngleScale_pos : 0 < kAngleScale.
Proof. unfold kAngleScale. pose proof PI_RGT_0. lra. Qed.
Lemma compact_derivative_ok d : (-16384 < compact_derivative d < 16384)%Z /\
  Rabs (IZR (compact_derivative d) * kAngleScale) <= Rabs (atan d) /\
  Rabs (atan d - IZR (compact_derivative d) * kAngleScale) < kAngleScale.
Proof.
  unfold compact_derivative. pose proof kAngleScale_pos as K. pose proof (atan_bound d) as B.
  set (v := atan d / kAngleScale). assert (V : atan d = v * kAngleScale) by (unfold v; field; lra).
  assert (-16384 < v < 16384).
  { unfold kAngleScale in *. split; (apply Rmult_lt_reg_r with (PI / 32768); [lra|]); rewrite <- V; lra. }
  destruct (Rtrunc_bounds v) as [P Q]. set (k := Rtrunc v) in *. rewrite V.
  destruct (Rle_dec 0 v) as [S|S].
  - specialize (P S). pose proof (Rtrunc_nonneg v S) as N. fold k in N. pose proof (IZR_le _ _ N).
    split; [split; [lia|apply lt_IZR; lra]|].
    assert (0 <= IZR k * kAngleScale) by (apply Rmult_le_pos; lra).
    assert (IZR k * kAngleScale <= v * kAngleScale) by (apply Rmult_le_compat_r; lra).
    assert (v * kAngleScale < (IZR k + 1) * kAngleScale) by (apply Rmult_lt_compat_r; lra).
    rewrite !Rabs_pos_eq by lra. lra.
  - specialize (Q ltac:(lra)). assert (k < 1)%Z by (apply lt_IZR; lra). assert (IZR k <= 0) by (apply IZR_le; lia).
    split; [split; [apply lt_IZR; lra|lia]|].
    assert (0 <= (- IZR k) * kAngleScale) by (apply Rmult_le_pos; lra).
    assert (v * kAngleScale <= IZR k * kAngleScale) by (apply Rmult_le_compat_r; lra).
    assert (IZR k * kAngleScale < (v + 1) * kAngleScale) by (apply Rmult_lt_compat_r; lra).
    split; rabs; lra.
Qed.
Lemma angle_of_derivative n : (-16384 < nangle n < 16384)%Z -> atan (node_derivative n) = IZR (nangle n) * kAngleScale.
Proof.
  intros [A B]. apply IZR_lt in A, B. unfold node_derivative. pose proof kAngleScale_pos. pose proof PI_RGT_0.
  apply atan_tan. unfold kAngleScale in *.
  assert (-16384 * (PI / 32768) < IZR (nangle n) * (PI / 32768)) by (apply Rmult_lt_compat_r; lra).
  assert (IZR (nangle n) * (PI / 32768) < 16384 * (PI / 32768)) by (apply Rmult_lt_compat_r; lra). lra.
Qed.
