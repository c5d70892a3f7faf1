From Verif Require Import RBase FloatModel.

(** The value of a normal single-precision pattern (IEEE 754): sign bit 31,
    exponent bits 23-30, fraction bits 0-22. *)
Definition sign_bit (bits : Z) : Z := (bits / 2 ^ 31)%Z.
Definition exponent_bits (bits : Z) : Z := ((bits / 2 ^ 23) mod 256)%Z.
Definition fraction_bits (bits : Z) : Z := (bits mod 2 ^ 23)%Z.
Definition normal (bits : Z) : Prop := (0 <= bits < 2 ^ 32 /\ 1 <= exponent_bits bits <= 254)%Z.
Definition float_value (bits : Z) : R :=
  (if (sign_bit bits =? 0)%Z then 1 else -1) *
  (1 + IZR (fraction_bits bits) / IZR (2 ^ 23)) * powerRZ 2 (exponent_bits bits - 127).

Lemma pow2_pos k : 0 < pow2 k.
Proof. apply powerRZ_lt. lra. Qed.
Lemma pow2_add a b : pow2 (a + b) = pow2 a * pow2 b.
Proof. apply powerRZ_add. lra. Qed.
Lemma pow2_succ a : pow2 (a + 1) = 2 * pow2 a.
Proof. rewrite pow2_add. unfold pow2. simpl. ring. Qed.
Lemma pow2_0 : pow2 0 = 1. Proof. reflexivity. Qed.
Lemma pow2_1 : pow2 1 = 2. Proof. unfold pow2. simpl. ring. Qed.
Lemma pow2_neg a : pow2 (- a) = / pow2 a.
Proof. unfold pow2. apply powerRZ_neg'. Qed.
Lemma pow2_lt a b : (a < b)%Z -> pow2 a < pow2 b.
Proof.
  intros H. replace b with (a + (b - a))%Z by lia. rewrite pow2_add. pose proof (pow2_pos a).
  assert (1 < pow2 (b - a)).
  { unfold pow2. replace (b - a)%Z with (Z.of_nat (Z.to_nat (b - a))) by lia. rewrite <- pow_powerRZ.
    apply Rlt_pow_R1; [lra|lia]. }
  nra.
Qed.
Lemma pow2_le a b : (a <= b)%Z -> pow2 a <= pow2 b.
Proof. intros H. destruct (Z.eq_dec a b) as [->|]; [lra|]. apply Rlt_le, pow2_lt. lia. Qed.
Lemma pow2_IZR k : (0 <= k)%Z -> pow2 k = IZR (2 ^ k).
Proof.
  intros H. unfold pow2. replace k with (Z.of_nat (Z.to_nat k)) by lia. rewrite <- pow_powerRZ, pow_IZR. reflexivity.
Qed.

Lemma exponent_as_int_eq bits : exponent_as_int bits = (exponent_bits bits - 127)%Z.
Proof.
  unfold exponent_as_int, exponent_bits, kExponentMask, kExponentShift, kExponentOffset.
  rewrite Z.shiftr_div_pow2 by lia. change 255%Z with (Z.ones 8). now rewrite Z.land_ones by lia.
Qed.

Lemma exponent_from_int_eq i : exponent_from_int i = (((i + 127) mod 256) * 2 ^ 23)%Z.
Proof.
  unfold exponent_from_int, kExponentMask, kExponentShift, kExponentOffset.
  rewrite Z.shiftl_mul_pow2 by lia. change 255%Z with (Z.ones 8). now rewrite Z.land_ones by lia.
Qed.

Lemma exponent_range bits : normal bits -> (-126 <= exponent_as_int bits <= 127)%Z.
Proof. intros [_ H]. rewrite exponent_as_int_eq. lia. Qed.

Lemma from_int_value i : (-126 <= i <= 127)%Z ->
  normal (exponent_from_int i) /\ float_value (exponent_from_int i) = pow2 i.
Proof.
  intros H. rewrite exponent_from_int_eq. rewrite (Z.mod_small (i + 127)) by lia.
  assert (E : exponent_bits ((i + 127) * 2 ^ 23) = (i + 127)%Z).
  { unfold exponent_bits. rewrite Z.div_mul by lia. apply Z.mod_small. lia. }
  split; [unfold normal; rewrite E; split; lia|]. unfold float_value. rewrite E.
  unfold sign_bit, fraction_bits. rewrite Z.mod_mul by lia. rewrite Z.div_small by lia. cbn [Z.eqb].
  replace (i + 127 - 127)%Z with i by lia. unfold pow2. field. apply IZR_neq. lia.
Qed.

Lemma value_bounds bits : normal bits ->
  pow2 (exponent_as_int bits) <= Rabs (float_value bits) < pow2 (exponent_as_int bits + 1).
Proof.
  intros [Hb He]. rewrite exponent_as_int_eq. unfold float_value.
  set (f := IZR (fraction_bits bits) / IZR (2 ^ 23)).
  assert (F : 0 <= f < 1).
  { unfold f, fraction_bits. pose proof (Z.mod_pos_bound bits (2 ^ 23) ltac:(lia)) as [A B].
    apply IZR_le in A. apply IZR_lt in B. set (m := IZR (bits mod 2 ^ 23)) in *. set (d := IZR (2 ^ 23)) in *.
    assert (0 < d) by (apply IZR_lt; lia). unfold Rdiv. split.
    - apply Rmult_le_pos; [lra|]. apply Rlt_le, Rinv_0_lt_compat; lra.
    - apply (Rmult_lt_reg_r d); [lra|]. rewrite Rmult_assoc, Rinv_l by lra. lra. }
  fold (pow2 (exponent_bits bits - 127)). rewrite pow2_succ. pose proof (pow2_pos (exponent_bits bits - 127)) as P.
  rewrite !Rabs_mult. replace (Rabs (if (sign_bit bits =? 0)%Z then 1 else -1)) with 1.
  2:{ destruct (sign_bit bits =? 0)%Z; rewrite ?Rabs_R1; [reflexivity|]. rewrite Rabs_left; lra. }
  rewrite (Rabs_pos_eq (1 + f)), (Rabs_pos_eq (pow2 _)) by lra. nra.
Qed.

(** floor(log2 x) on reals. *)
Lemma ln2_pos : 0 < ln 2. Proof. rewrite <- ln_1. apply ln_increasing; lra. Qed.
Lemma ln_pow2 k : ln (pow2 k) = IZR k * ln 2.
Proof.
  assert (P : forall n : nat, ln (2 ^ n) = INR n * ln 2) by (intros; apply ln_pow; lra).
  destruct (Z.lt_ge_cases k 0) as [H|H].
  - replace k with (- Z.of_nat (Z.to_nat (- k)))%Z by lia. rewrite pow2_neg. unfold pow2 at 1. rewrite <- pow_powerRZ.
    rewrite ln_Rinv by (apply pow_lt; lra). rewrite P, INR_IZR_INZ, opp_IZR. ring.
  - replace k with (Z.of_nat (Z.to_nat k)) by lia. unfold pow2. rewrite <- pow_powerRZ, P, INR_IZR_INZ. reflexivity.
Qed.

Lemma r_exponent_unique x k : (-126 <= k <= 127)%Z -> pow2 k <= Rabs x < pow2 (k + 1) -> r_exponent x = k.
Proof.
  intros K [A B]. unfold r_exponent. pose proof (pow2_le (-126) k ltac:(lia)). pose proof (pow2_le (k + 1) 128 ltac:(lia)).
  rewrite Rltb_f by lra. rewrite Rleb_f by lra. apply Rfloor_unique. pose proof ln2_pos as L. pose proof (pow2_pos k) as Pk.
  assert (X : 0 < Rabs x) by lra.
  assert (E : forall y, y = y / ln 2 * ln 2) by (intros; field; lra). split.
  - apply (Rmult_le_reg_r (ln 2)); [assumption|]. rewrite <- E, <- ln_pow2.
    destruct A as [A|A]; [left; now apply ln_increasing|rewrite A; lra].
  - apply (Rmult_lt_reg_r (ln 2)); [assumption|]. rewrite <- E. replace (IZR k + 1) with (IZR (k + 1)) by (rewrite plus_IZR; ring).
    rewrite <- ln_pow2. now apply ln_increasing.
Qed.

Lemma r_exponent_exists x : pow2 (-126) <= Rabs x < pow2 128 ->
  exists k, (-126 <= k <= 127)%Z /\ r_exponent x = k /\ pow2 k <= Rabs x < pow2 (k + 1).
Proof.
  intros [A B]. unfold r_exponent. rewrite Rltb_f, Rleb_f by lra. pose proof ln2_pos as L. pose proof (pow2_pos (-126)).
  set (k := Rfloor (ln (Rabs x) / ln 2)). destruct (Rfloor_bounds (ln (Rabs x) / ln 2)) as [F G]. fold k in F, G.
  assert (E : ln (Rabs x) = ln (Rabs x) / ln 2 * ln 2) by (field; lra).
  assert (F' : IZR k * ln 2 <= ln (Rabs x)) by (rewrite E; apply Rmult_le_compat_r; lra).
  assert (G' : ln (Rabs x) < IZR (k + 1) * ln 2) by (rewrite E, plus_IZR; apply Rmult_lt_compat_r; lra).
  rewrite <- ln_pow2 in F', G'.
  assert (H1 : pow2 k <= Rabs x).
  { destruct (Rle_or_lt (pow2 k) (Rabs x)) as [|N]; [assumption|]. apply ln_increasing in N; lra. }
  assert (H2 : Rabs x < pow2 (k + 1)).
  { apply ln_lt_inv; [lra|apply pow2_pos|assumption]. }
  exists k. split; [|split; [reflexivity|split; assumption]].
  split.
  - destruct (Z.lt_ge_cases k (-126)) as [N|]; [|assumption]. pose proof (pow2_le (k + 1) (-126) ltac:(lia)). lra.
  - destruct (Z.lt_ge_cases 127 k) as [N|]; [|assumption]. pose proof (pow2_le 128 k ltac:(lia)). lra.
Qed.

(** The real-number helpers agree with the bit-level ones. *)
Lemma r_exponent_float bits : normal bits -> r_exponent (float_value bits) = exponent_as_int bits.
Proof. intros N. apply r_exponent_unique; [now apply exponent_range|now apply value_bounds]. Qed.

Lemma r_exponent_range x : (-127 <= r_exponent x <= 128)%Z.
Proof.
  destruct (Rlt_or_le (Rabs x) (pow2 (-126))) as [A|A].
  - unfold r_exponent. rewrite Rltb_t by assumption. unfold kZeroExponent. lia.
  - destruct (Rlt_or_le (Rabs x) (pow2 128)) as [B|B].
    + destruct (r_exponent_exists x (conj A B)) as (k & K & -> & _). lia.
    + unfold r_exponent. rewrite Rltb_f, Rleb_t by assumption. unfold kInfinityExponent. lia.
Qed.

Lemma r_from_int_pos i : i <> (-127)%Z -> 0 < r_exponent_from_int i.
Proof. intros H. unfold r_exponent_from_int, kZeroExponent. destruct (Z.eqb_spec i (-127)); [contradiction|apply pow2_pos]. Qed.

Lemma r_max_scale_pos x m : (120 <= m)%Z -> 0 < r_max_power_of_2_scale x m.
Proof. intros H. apply r_from_int_pos. pose proof (r_exponent_range x). unfold kMaxFloatExponent. lia. Qed.

Lemma r_exponent_le x k : (-127 <= k <= 127)%Z -> Rabs x < pow2 (k + 1) -> (r_exponent x <= k)%Z.
Proof.
  intros K B. destruct (Rlt_or_le (Rabs x) (pow2 (-126))) as [A|A].
  - unfold r_exponent. rewrite Rltb_t by assumption. unfold kZeroExponent. lia.
  - pose proof (pow2_le (k + 1) 128 ltac:(lia)).
    destruct (r_exponent_exists x ltac:(lra)) as (j & J & -> & J1 & J2).
    destruct (Z.lt_ge_cases k j) as [N|]; [|lia]. pose proof (pow2_le (k + 1) j ltac:(lia)). lra.
Qed.

Lemma r_reciprocal_pos x : Rabs x < pow2 127 -> 0 < r_reciprocal_exponent x.
Proof. intros H. apply r_from_int_pos. pose proof (r_exponent_le x 126 ltac:(lia) H). lia. Qed.
Lemma r_sqrt_reciprocal_pos x : 0 < r_sqrt_reciprocal_exponent x.
Proof.
  apply r_from_int_pos. pose proof (r_exponent_range x) as B. intros E.
  pose proof (Z.quot_rem' (- r_exponent x) 2). pose proof (Z.rem_bound_abs (- r_exponent x) 2 ltac:(lia)). lia.
Qed.
