(** Property C75: the exponent helpers of float.h, on 32-bit patterns.
    [normal] and [float_value] (FloatProofs.v) are the IEEE 754 reading of a
    pattern. *)
From Verif Require Import RBase FloatModel FloatProofs.

Theorem C75_exponent_as_int : forall bits, normal bits ->
  pow2 (exponent_as_int bits) <= Rabs (float_value bits) < pow2 (exponent_as_int bits + 1) /\
  (-126 <= exponent_as_int bits <= 127)%Z.
Proof. intros bits N. split; [now apply value_bounds|now apply exponent_range]. Qed.

(** The largest power of two not exceeding |x|. *)
Theorem C75_power_of_two_below : forall bits, normal bits ->
  let p := exponent_from_int (exponent_as_int bits) in
  normal p /\ float_value p <= Rabs (float_value bits) /\
  (exists k, float_value p = pow2 k) /\
  (forall k, pow2 k <= Rabs (float_value bits) -> pow2 k <= float_value p).
Proof.
  intros bits N p. destruct (from_int_value _ (exponent_range bits N)) as [Np Vp]. fold p in Np, Vp.
  destruct (value_bounds bits N) as [L U]. rewrite Vp. split; [assumption|]. split; [assumption|].
  split; [now eexists|]. intros k Hk. apply pow2_le.
  destruct (Z.lt_ge_cases (exponent_as_int bits) k) as [H|]; [|lia].
  pose proof (pow2_le (exponent_as_int bits + 1) k ltac:(lia)). lra.
Qed.

Theorem C75_exponent_from_int : forall i,
  ((-126 <= i <= 127)%Z -> normal (exponent_from_int i) /\ float_value (exponent_from_int i) = pow2 i) /\
  exponent_from_int kZeroExponent = 0%Z /\ exponent_from_int kInfinityExponent = (255 * 2 ^ 23)%Z.
Proof. intros i. split; [apply from_int_value|]. split; reflexivity. Qed.

Theorem C75_reciprocal_exponent : forall bits, normal bits -> (exponent_as_int bits <= 126)%Z ->
  normal (reciprocal_exponent bits) /\
  1 <= float_value (reciprocal_exponent bits) * Rabs (float_value bits) < 2.
Proof.
  intros bits N H. pose proof (exponent_range bits N). unfold reciprocal_exponent.
  destruct (from_int_value (- exponent_as_int bits) ltac:(lia)) as [Np Vp]. split; [assumption|]. rewrite Vp.
  destruct (value_bounds bits N) as [L U]. rewrite pow2_succ in U. rewrite pow2_neg.
  set (p := pow2 (exponent_as_int bits)) in *. assert (P : 0 < p) by apply pow2_pos.
  replace 1 with (/ p * p) at 1 by (field; lra). replace 2 with (/ p * (2 * p)) by (field; lra).
  pose proof (Rinv_0_lt_compat _ P). split; [apply Rmult_le_compat_l|apply Rmult_lt_compat_l]; lra.
Qed.

(** For exponent 127 the reciprocal is flushed to zero. *)
Theorem C75_reciprocal_of_largest_refuted : exists bits, normal bits /\ reciprocal_exponent bits = 0%Z.
Proof. exists (254 * 2 ^ 23)%Z. split; [|reflexivity]. split; [lia|]. vm_compute. split; discriminate. Qed.

(** SqrtReciprocalExponent: its square times |x| lies in [1/2, 4). *)
Theorem C75_sqrt_reciprocal_partial : forall bits, normal bits ->
  let s := float_value (sqrt_reciprocal_exponent bits) in
  1 / 2 <= s * s * Rabs (float_value bits) < 4.
Proof.
  intros bits N. pose proof (exponent_range bits N) as R. unfold sqrt_reciprocal_exponent.
  set (e := exponent_as_int bits) in *. set (h := Z.quot (- e) 2).
  assert (Hh : (-1 <= 2 * h + e <= 1)%Z).
  { pose proof (Z.quot_rem' (- e) 2). pose proof (Z.rem_bound_abs (- e) 2 ltac:(lia)). fold h in H. lia. }
  destruct (from_int_value h ltac:(lia)) as [_ V]. cbn zeta. rewrite V.
  destruct (value_bounds bits N) as [L U]. fold e in L, U. rewrite pow2_succ in U.
  rewrite <- pow2_add. assert (P : pow2 (h + h) * pow2 e = pow2 (2 * h + e)) by (rewrite <- pow2_add; f_equal; lia).
  pose proof (pow2_pos (h + h)) as Ph.
  assert (pow2 (-1) <= pow2 (2 * h + e) <= pow2 1) by (split; apply pow2_le; lia).
  assert (P1 : pow2 (-1) = / 2) by (change (-1)%Z with (- (1))%Z; rewrite pow2_neg, pow2_1; reflexivity).
  rewrite pow2_1, P1 in *. nra.
Qed.
(** "rounded down to the nearest power of 2" (float.h:90-91) is false at 8: the
    result 1/2 is larger than sqrt(1/8). *)
Theorem C75_sqrt_rounded_down_refuted : exists bits, normal bits /\ float_value bits = 8 /\
  / float_value bits < float_value (sqrt_reciprocal_exponent bits) * float_value (sqrt_reciprocal_exponent bits).
Proof.
  exists (exponent_from_int 3). destruct (from_int_value 3 ltac:(lia)) as [N V].
  replace (pow2 3) with 8 in V by (unfold pow2; simpl; ring).
  split; [assumption|]. split; [assumption|]. rewrite V.
  replace (sqrt_reciprocal_exponent (exponent_from_int 3)) with (exponent_from_int (-1)) by reflexivity.
  destruct (from_int_value (-1) ltac:(lia)) as [_ V']. rewrite V'. change (-1)%Z with (- (1))%Z. rewrite pow2_neg, pow2_1. lra.
Qed.

Theorem C75_max_power_of_2_scale : forall bits m, normal bits -> (exponent_as_int bits - 126 <= m)%Z ->
  let s := max_power_of_2_scale bits m in
  normal s /\ float_value s * Rabs (float_value bits) < pow2 (m + 1) /\
  ((m - exponent_as_int bits <= 127)%Z -> pow2 m <= float_value s * Rabs (float_value bits)).
Proof.
  intros bits m N H s. pose proof (exponent_range bits N) as R.
  unfold s, max_power_of_2_scale, kMaxFloatExponent. set (e := exponent_as_int bits) in *.
  destruct (from_int_value (Z.min 127 (m - e)) ltac:(lia)) as [Np V]. split; [assumption|]. rewrite V.
  destruct (value_bounds bits N) as [L U]. fold e in L, U.
  set (k := Z.min 127 (m - e)) in *. pose proof (pow2_pos k) as Pk. split.
  - apply Rlt_le_trans with (pow2 k * pow2 (e + 1)); [apply Rmult_lt_compat_l; assumption|].
    rewrite <- pow2_add. apply pow2_le. lia.
  - intros M. replace (pow2 m) with (pow2 k * pow2 e); [apply Rmult_le_compat_l; lra|].
    rewrite <- pow2_add. f_equal. lia.
Qed.

(** 6.5 = 0x40D00000: exponent 2, reciprocal exponent 1/4. *)
Example C75_case : normal 1087373312 /\ exponent_as_int 1087373312 = 2%Z /\
  reciprocal_exponent 1087373312 = exponent_from_int (-2) /\ float_value 1087373312 = 13 / 2.
Proof.
  split; [split; [lia|vm_compute; split; discriminate]|]. split; [reflexivity|]. split; [reflexivity|].
  unfold float_value. replace (sign_bit 1087373312) with 0%Z by reflexivity.
  replace (fraction_bits 1087373312) with 5242880%Z by reflexivity.
  replace (exponent_bits 1087373312 - 127)%Z with 2%Z by reflexivity. cbn [Z.eqb].
  replace (2 ^ 23)%Z with 8388608%Z by reflexivity. simpl. field.
Qed.

Print Assumptions C75_exponent_as_int.
Print Assumptions C75_power_of_two_below.
Print Assumptions C75_exponent_from_int.
Print Assumptions C75_reciprocal_exponent.
Print Assumptions C75_reciprocal_of_largest_refuted.
Print Assumptions C75_sqrt_reciprocal_partial.
Print Assumptions C75_sqrt_rounded_down_refuted.
Print Assumptions C75_max_power_of_2_scale.
