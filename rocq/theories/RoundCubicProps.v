(** Cubic curves in single precision (C118). *)
From Verif Require Import RBase CurveModel RoundModel RoundProofs RoundCubicModel.

(** The size of what the curve is made of: its values, and its slopes over its width. *)
Definition size (y0 d0 y1 d1 w : R) : R := Rabs y0 + Rabs y1 + w * (Rabs d0 + Rabs d1).

Lemma P24 : (0 < 24)%Z. Proof. lia. Qed.

Section Errors.
Variable rnd : R -> R.
Hypothesis H : rounds single rnd.
Let u := pow2 (-24).

Lemma u_val : u = / 16777216.
Proof. unfold u. change (-24)%Z with (- (24))%Z. rewrite pow2_inv, pow2_IZR by lia. reflexivity. Qed.

Section Scale.
Variable M : R.
Hypothesis HM : pow2 (-20) <= M.
Lemma M_pos : 0 < M. Proof. pose proof (pow2_pos (-20)). lra. Qed.

(** Rounding once, seen in units of [u * M]. *)
Lemma step z s a A e : 0 < s <= pow2 60 -> Rabs (z * s - a) <= e * (u * M) -> Rabs a <= A * M -> 0 <= e <= 1000 ->
  Rabs (rnd z * s - a) <= (e + A + 1 / 100) * (u * M).
Proof.
  intros S Z B E. pose proof M_pos as MP. pose proof u_val as U.
  pose proof (rnd_rel 24 (-149) P24 rnd H z) as Q. change (- (24))%Z with (-24)%Z in Q. fold u in Q. change (-149 - 1)%Z with (-150)%Z in Q.
  set (t := pow2 (-150)) in Q. assert (T : 0 < t) by apply pow2_pos.
  assert (TS : t * s <= u * M / 200).
  { apply Rle_trans with (t * pow2 60); [apply Rmult_le_compat_l; lra|]. unfold t. rewrite <- pow2_add. change (-150 + 60)%Z with (-90)%Z.
    apply Rle_trans with (u * pow2 (-20) * pow2 (-8)).
    - unfold u. rewrite <- !pow2_add. apply pow2_le. lia.
    - change (-8)%Z with (- (8))%Z. rewrite (pow2_inv 8), (pow2_IZR 8) by lia. change (2 ^ 8)%Z with 256%Z.
      assert (u * pow2 (-20) <= u * M) by (apply Rmult_le_compat_l; [rewrite U; lra|easy]). 
      pose proof (pow2_pos (-20)) as P20. assert (0 < u * pow2 (-20)) by (apply Rmult_lt_0_compat; [rewrite U; lra|easy]). lra. }
  assert (D : Rabs (rnd z * s - z * s) <= Rabs (z * s) * u + t * s).
  { rewrite <- Rmult_minus_distr_r, Rabs_mult, (Rabs_mult z s), (Rabs_pos_eq s) by lra.
    replace (Rabs z * s * u + t * s) with ((Rabs z * u + t) * s) by ring. apply Rmult_le_compat_r; [lra|exact Q]. }
  assert (ZS : Rabs (z * s) <= A * M + e * (u * M)) by (clear - Z B; revert Z B; rabs; lra).
  assert (UP : 0 < u) by (rewrite U; lra).
  assert (ZU : Rabs (z * s) * u <= A * (u * M) + e * u * (u * M)).
  { replace (A * (u * M) + e * u * (u * M)) with ((A * M + e * (u * M)) * u) by ring. apply Rmult_le_compat_r; lra. }
  assert (UM : 0 < u * M) by (apply Rmult_lt_0_compat; lra).
  assert (EU : e * u * (u * M) <= 1 / 200 * (u * M)) by (apply Rmult_le_compat_r; [lra|rewrite U; lra]).
  replace (rnd z * s - a) with ((rnd z * s - z * s) + (z * s - a)) by ring.
  pose proof (Rabs_triang (rnd z * s - z * s) (z * s - a)).
  replace ((e + A + 1 / 100) * (u * M)) with (e * (u * M) + A * (u * M) + (1 / 200 + 1 / 200) * (u * M)) by field. lra.
Qed.
(** Multiplying a factor [p] known up to [ep * u] with a value known up to [ev * u * M]. *)
Lemma prod p p0 P ep v v0 V ev : Rabs (p - p0) <= ep * u -> Rabs p0 <= P -> Rabs (v - v0) <= ev * (u * M) -> Rabs v0 <= V * M ->
  0 <= ep <= 100 -> 0 <= ev <= 100 -> Rabs (p * v - p0 * v0) <= (P * ev + V * ep + 1 / 100) * (u * M).
Proof.
  intros A1 A2 B1 B2 E1 E2. pose proof M_pos as MP. pose proof u_val as U. assert (UP : 0 < u) by (rewrite U; lra).
  assert (UM : 0 < u * M) by (apply Rmult_lt_0_compat; lra).
  replace (p * v - p0 * v0) with ((p - p0) * v0 + p0 * (v - v0) + (p - p0) * (v - v0)) by ring.
  assert (T1 : Rabs ((p - p0) * v0) <= V * ep * (u * M)).
  { rewrite Rabs_mult. replace (V * ep * (u * M)) with (ep * u * (V * M)) by ring. apply Rmult_le_compat; auto using Rabs_pos. }
  assert (T2 : Rabs (p0 * (v - v0)) <= P * ev * (u * M)).
  { rewrite Rabs_mult. replace (P * ev * (u * M)) with (P * (ev * (u * M))) by ring. apply Rmult_le_compat; auto using Rabs_pos. }
  assert (T3 : Rabs ((p - p0) * (v - v0)) <= 1 / 100 * (u * M)).
  { rewrite Rabs_mult. apply Rle_trans with (ep * u * (ev * (u * M))); [apply Rmult_le_compat; auto using Rabs_pos|].
    replace (ep * u * (ev * (u * M))) with (ep * ev * u * (u * M)) by ring. apply Rmult_le_compat_r; [lra|].
    assert (ep * ev <= 100 * 100) by (apply Rmult_le_compat; lra). rewrite U. lra. }
  pose proof (Rabs_triang ((p - p0) * v0 + p0 * (v - v0)) ((p - p0) * (v - v0))). pose proof (Rabs_triang ((p - p0) * v0) (p0 * (v - v0))). lra.
Qed.
(** Multiplying by a number between -1 and 1. *)
Lemma part t v v0 e : -1 <= t <= 1 -> Rabs (v - v0) <= e -> Rabs (v * t - v0 * t) <= e.
Proof.
  intros T E. replace (v * t - v0 * t) with ((v - v0) * t) by ring. rewrite Rabs_mult.
  assert (Rabs t <= 1) by (apply Rabs_le; lra). pose proof (Rabs_pos (v - v0)). apply Rle_trans with (Rabs (v - v0) * 1); [apply Rmult_le_compat_l; lra|lra].
Qed.
Lemma part0 t v e : -1 <= t <= 1 -> Rabs v <= e -> Rabs (v * t) <= e.
Proof. intros T E. pose proof (part t v 0 e T). replace (v * t) with (v * t - 0 * t) by ring. apply H0. replace (v - 0) with v by ring. easy. Qed.
End Scale.

Section Widths.
Variable w : R.
Hypothesis W : pow2 (-20) <= w <= pow2 20.
Lemma w_pos : 0 < w. Proof. pose proof (pow2_pos (-20)). lra. Qed.
Lemma w1_le : 0 < w <= pow2 60.
Proof. split; [apply w_pos|]. apply Rle_trans with (pow2 20); [easy|]. apply pow2_le. lia. Qed.
Lemma w2_le : 0 < w * w <= pow2 60.
Proof.
  pose proof w_pos. split; [apply Rmult_lt_0_compat; easy|]. apply Rle_trans with (pow2 20 * pow2 20).
  - apply Rmult_le_compat; lra.
  - rewrite <- pow2_add. apply pow2_le. lia.
Qed.
Lemma w3_le : 0 < w * w * w <= pow2 60.
Proof.
  pose proof w_pos. pose proof w2_le as W2. split; [apply Rmult_lt_0_compat; easy|]. apply Rle_trans with (pow2 20 * pow2 20 * pow2 20).
  - apply Rmult_le_compat; try lra. apply Rmult_le_compat; lra.
  - rewrite <- !pow2_add. apply pow2_le. lia.
Qed.
Lemma one_le : 0 < 1 <= pow2 60.
Proof. rewrite pow2_IZR by lia. change (2 ^ 60)%Z with 1152921504606846976%Z. lra. Qed.
Lemma one_M : pow2 (-20) <= 1.
Proof. rewrite <- pow2_0. apply pow2_le. lia. Qed.

End Widths.

Section Units.
Variable M : R.
Hypothesis HM : pow2 (-20) <= M.
Lemma UM_pos : 0 < u * M.
Proof. pose proof (M_pos M HM). apply Rmult_lt_0_compat; [rewrite u_val; lra|easy]. Qed.
Ltac by_size := pose proof UM_pos; lra.
Lemma scale_le a b : a <= b -> a * (u * M) <= b * (u * M).
Proof. intros. apply Rmult_le_compat_r; [by_size|easy]. Qed.

End Units.

(** Evaluating a cubic whose coefficients are known up to some error. *)
Section Horner.
Variables M w t : R.
Hypothesis HM : pow2 (-20) <= M.
Hypothesis W : pow2 (-20) <= w <= pow2 20.
Hypothesis T : -1 <= t <= 1.
Variables (c : cubic) (A3 A2 A1 A0 : R).
Hypothesis E3 : Rabs (k3 c * (w * w * w) - A3) <= 27 * (u * M).
Hypothesis E2 : Rabs (k2 c * (w * w) - A2) <= 34 * (u * M).
Hypothesis E1 : Rabs (k1 c * w - A1) <= 2 * (u * M).
Hypothesis E0 : Rabs (k0 c - A0) <= 3 * (u * M).
Hypothesis S3 : Rabs A3 <= 2 * M.
Hypothesis S2 : Rabs A2 <= 3 * M.
Hypothesis S1 : Rabs A1 <= M.
Hypothesis S0 : Rabs A0 <= M.
Ltac le3 := eapply Rle_trans; [apply Rabs_triang|].

Lemma value_err : Rabs (f_keval rnd c (t * w) - (((A3 * t + A2) * t + A1) * t + A0)) <= 100 * (u * M).
Proof.
  pose proof (UM_pos M HM) as UP. pose proof (scale_le M HM) as SL. pose proof (w1_le w W) as W1. pose proof (w2_le w W) as W2. pose proof one_le as W0.
  unfold f_keval. set (c3 := k3 c) in *. set (c2 := k2 c) in *. set (c1 := k1 c) in *. set (c0 := k0 c) in *.
  assert (R1 : Rabs (rnd (c3 * (t * w)) * (w * w) - A3 * t) <= 2902 / 100 * (u * M)).
  { eapply Rle_trans; [apply (step M HM _ _ _ 2 27 W2)|apply SL; lra]; [|apply part0; lra|lra].
    replace (c3 * (t * w) * (w * w)) with (c3 * (w * w * w) * t) by ring. apply part; lra. }
  assert (B1 : Rabs (A3 * t) <= 2 * M) by (apply part0; lra).
  set (r1 := rnd (c3 * (t * w))) in *.
  assert (B2 : Rabs (A3 * t + A2) <= 5 * M) by (le3; lra).
  assert (R2 : Rabs (rnd (r1 + c2) * (w * w) - (A3 * t + A2)) <= 6804 / 100 * (u * M)).
  { eapply Rle_trans; [apply (step M HM _ _ _ 5 (6302 / 100) W2)|apply SL; lra]; [|lra|lra].
    replace ((r1 + c2) * (w * w) - (A3 * t + A2)) with ((r1 * (w * w) - A3 * t) + (c2 * (w * w) - A2)) by ring. le3; lra. }
  set (r2 := rnd (r1 + c2)) in *.
  assert (R3 : Rabs (rnd (r2 * (t * w)) * w - (A3 * t + A2) * t) <= 7306 / 100 * (u * M)).
  { eapply Rle_trans; [apply (step M HM _ _ _ 5 (6804 / 100) W1)|apply SL; lra]; [|apply part0; lra|lra].
    replace (r2 * (t * w) * w) with (r2 * (w * w) * t) by ring. apply part; lra. }
  set (r3 := rnd (r2 * (t * w))) in *.
  assert (B3 : Rabs ((A3 * t + A2) * t) <= 5 * M) by (apply part0; lra).
  assert (B4 : Rabs ((A3 * t + A2) * t + A1) <= 6 * M) by (le3; lra).
  assert (R4 : Rabs (rnd (r3 + c1) * w - ((A3 * t + A2) * t + A1)) <= 8108 / 100 * (u * M)).
  { eapply Rle_trans; [apply (step M HM _ _ _ 6 (7506 / 100) W1)|apply SL; lra]; [|lra|lra].
    replace ((r3 + c1) * w - ((A3 * t + A2) * t + A1)) with ((r3 * w - (A3 * t + A2) * t) + (c1 * w - A1)) by ring. le3; lra. }
  set (r4 := rnd (r3 + c1)) in *.
  assert (R5 : Rabs (rnd (r4 * (t * w)) * 1 - ((A3 * t + A2) * t + A1) * t) <= 8710 / 100 * (u * M)).
  { eapply Rle_trans; [apply (step M HM _ _ _ 6 (8108 / 100) W0)|apply SL; lra]; [|apply part0; lra|lra].
    replace (r4 * (t * w) * 1) with (r4 * w * t) by ring. apply part; lra. }
  set (r5 := rnd (r4 * (t * w))) in *.
  assert (B5 : Rabs (((A3 * t + A2) * t + A1) * t) <= 6 * M) by (apply part0; lra).
  assert (B6 : Rabs (((A3 * t + A2) * t + A1) * t + A0) <= 7 * M) by (le3; lra).
  rewrite <- (Rmult_1_r (rnd (r5 + c0))).
  eapply Rle_trans; [apply (step M HM _ _ _ 7 (9010 / 100) W0)|apply SL; lra]; [|lra|lra].
  replace ((r5 + c0) * 1 - (((A3 * t + A2) * t + A1) * t + A0)) with ((r5 * 1 - ((A3 * t + A2) * t + A1) * t) + (c0 - A0)) by ring. le3; lra.
Qed.
Lemma slope_err : Rabs (f_kderiv rnd c (t * w) * w - ((3 * A3 * t + 2 * A2) * t + A1)) <= 220 * (u * M).
Proof.
  pose proof (UM_pos M HM) as UP. pose proof (scale_le M HM) as SL. pose proof (w1_le w W) as W1. pose proof (w2_le w W) as W2. pose proof (w3_le w W) as W3.
  unfold f_kderiv. set (c3 := k3 c) in *. set (c2 := k2 c) in *. set (c1 := k1 c) in *.
  assert (B0 : Rabs (3 * A3) <= 6 * M) by (rewrite Rabs_mult, Rabs_pos_eq; lra).
  assert (B0' : Rabs (2 * A2) <= 6 * M) by (rewrite Rabs_mult, Rabs_pos_eq; lra).
  assert (R0 : Rabs (rnd (3 * c3) * (w * w * w) - 3 * A3) <= 8702 / 100 * (u * M)).
  { eapply Rle_trans; [apply (step M HM _ _ _ 6 81 W3)|apply SL; lra]; [|lra|lra].
    replace (3 * c3 * (w * w * w) - 3 * A3) with (3 * (c3 * (w * w * w) - A3)) by ring. rewrite Rabs_mult, Rabs_pos_eq; lra. }
  set (r0 := rnd (3 * c3)) in *.
  assert (R1 : Rabs (rnd (r0 * (t * w)) * (w * w) - 3 * A3 * t) <= 9304 / 100 * (u * M)).
  { eapply Rle_trans; [apply (step M HM _ _ _ 6 (8702 / 100) W2)|apply SL; lra]; [|apply part0; lra|lra].
    replace (r0 * (t * w) * (w * w)) with (r0 * (w * w * w) * t) by ring. apply part; lra. }
  assert (B1 : Rabs (3 * A3 * t) <= 6 * M) by (apply part0; lra).
  set (r1 := rnd (r0 * (t * w))) in *.
  assert (R1' : Rabs (rnd (2 * c2) * (w * w) - 2 * A2) <= 7402 / 100 * (u * M)).
  { eapply Rle_trans; [apply (step M HM _ _ _ 6 68 W2)|apply SL; lra]; [|lra|lra].
    replace (2 * c2 * (w * w) - 2 * A2) with (2 * (c2 * (w * w) - A2)) by ring. rewrite Rabs_mult, Rabs_pos_eq; lra. }
  set (r1' := rnd (2 * c2)) in *.
  assert (B2 : Rabs (3 * A3 * t + 2 * A2) <= 12 * M) by (le3; lra).
  assert (R2 : Rabs (rnd (r1 + r1') * (w * w) - (3 * A3 * t + 2 * A2)) <= 17908 / 100 * (u * M)).
  { eapply Rle_trans; [apply (step M HM _ _ _ 12 (16706 / 100) W2)|apply SL; lra]; [|lra|lra].
    replace ((r1 + r1') * (w * w) - (3 * A3 * t + 2 * A2)) with ((r1 * (w * w) - 3 * A3 * t) + (r1' * (w * w) - 2 * A2)) by ring. le3; lra. }
  set (r2 := rnd (r1 + r1')) in *.
  assert (R3 : Rabs (rnd (r2 * (t * w)) * w - (3 * A3 * t + 2 * A2) * t) <= 19110 / 100 * (u * M)).
  { eapply Rle_trans; [apply (step M HM _ _ _ 12 (17908 / 100) W1)|apply SL; lra]; [|apply part0; lra|lra].
    replace (r2 * (t * w) * w) with (r2 * (w * w) * t) by ring. apply part; lra. }
  set (r3 := rnd (r2 * (t * w))) in *.
  assert (B3 : Rabs ((3 * A3 * t + 2 * A2) * t) <= 12 * M) by (apply part0; lra).
  assert (B4 : Rabs ((3 * A3 * t + 2 * A2) * t + A1) <= 13 * M) by (le3; lra).
  eapply Rle_trans; [apply (step M HM _ _ _ 13 (19310 / 100) W1)|apply SL; lra]; [|lra|lra].
  replace ((r3 + c1) * w - ((3 * A3 * t + 2 * A2) * t + A1)) with ((r3 * w - (3 * A3 * t + 2 * A2) * t) + (c1 * w - A1)) by ring. le3; lra.
Qed.
End Horner.

(** The scaled coefficients of the exact curve. *)
Section Coefficients.
Variables y0 d0 y1 d1 w : R.
Hypothesis W : pow2 (-20) <= w <= pow2 20.
Variable M : R.
Hypothesis SZ : size y0 d0 y1 d1 w <= M.
Hypothesis HM : pow2 (-20) <= M.
Let A3 := 2 * (y0 - y1) + w * (d1 + d0).
Let A2 := 3 * (y1 - y0) - w * (d1 + 2 * d0).
Let A1 := w * d0.
Let F := f_cubic_init rnd y0 d0 y1 d1 w.

Lemma sizes : Rabs (y0 - y1) <= M /\ Rabs (y1 - y0) <= M /\ Rabs (w * (d1 + d0)) <= M /\ Rabs (w * (2 * d0)) <= 2 * M /\ Rabs (w * (d1 + 2 * d0)) <= 2 * M /\
  Rabs A3 <= 2 * M /\ Rabs A2 <= 3 * M /\ Rabs A1 <= M /\ Rabs y0 <= M.
Proof.
  unfold A3, A2, A1. unfold size in SZ. pose proof (w_pos w W) as WP. clear - WP SZ. revert SZ.
  assert (E0 : Rabs (w * d0) = w * Rabs d0) by (rewrite Rabs_mult, (Rabs_pos_eq w) by lra; reflexivity).
  assert (E1 : Rabs (w * d1) = w * Rabs d1) by (rewrite Rabs_mult, (Rabs_pos_eq w) by lra; reflexivity).
  rewrite !Rmult_plus_distr_l, <- E0, <- E1. replace (w * (2 * d0)) with (2 * (w * d0)) by ring.
  generalize (w * d0) (w * d1). clear. intros p q SZ. repeat apply conj; revert SZ; rabs; lra.
Qed.

Let o := rnd (1 / w).
Let o2 := rnd (o * o).
Let o3 := rnd (o2 * o).
Lemma o_err : Rabs (o * w - 1) <= 102 / 100 * (u * 1).
Proof.
  pose proof (w_pos w W). pose proof (step 1 one_M (1 / w) w 1 1 0 (w1_le w W)) as S. replace (0 + 1 + 1 / 100) with (101 / 100) in S by lra.
  apply Rle_trans with (101 / 100 * (u * 1)); [apply S|rewrite u_val; lra].
  - replace (1 / w * w - 1) with 0 by (field; lra). rewrite Rabs_R0. lra.
  - rewrite Rabs_R1. lra.
  - lra.
Qed.
Lemma o2_err : Rabs (o2 * (w * w) - 1) <= 310 / 100 * (u * 1).
Proof.
  pose proof u_val as U. pose proof o_err as E.
  assert (P : Rabs (o * w * (o * w) - 1 * 1) <= (1 * (102 / 100) + 1 * (102 / 100) + 1 / 100) * (u * 1)).
  { apply prod; try lra; try apply one_M; rewrite ?Rabs_R1; lra. }
  pose proof (step 1 one_M (o * o) (w * w) 1 1 (206 / 100) (w2_le w W)) as S. fold o2 in S.
  eapply Rle_trans; [apply S|rewrite U; lra].
  - replace (o * o * (w * w) - 1) with (o * w * (o * w) - 1 * 1) by ring. eapply Rle_trans; [exact P|rewrite U; lra].
  - rewrite Rabs_R1. lra.
  - lra.
Qed.
Lemma o3_err : Rabs (o3 * (w * w * w) - 1) <= 520 / 100 * (u * 1).
Proof.
  pose proof u_val as U. pose proof o_err as E. pose proof o2_err as E2.
  assert (P : Rabs (o2 * (w * w) * (o * w) - 1 * 1) <= (1 * (102 / 100) + 1 * (310 / 100) + 1 / 100) * (u * 1)).
  { apply prod; try lra; try apply one_M; rewrite ?Rabs_R1; lra. }
  pose proof (step 1 one_M (o2 * o) (w * w * w) 1 1 (414 / 100) (w3_le w W)) as S. fold o3 in S.
  eapply Rle_trans; [apply S|rewrite U; lra].
  - replace (o2 * o * (w * w * w) - 1) with (o2 * (w * w) * (o * w) - 1 * 1) by ring. eapply Rle_trans; [exact P|rewrite U; lra].
  - rewrite Rabs_R1. lra.
  - lra.
Qed.
Lemma k3_err : Rabs (k3 F * (w * w * w) - A3) <= 24 * (u * M).
Proof.
  unfold F, f_cubic_init. rewrite (Rltb_t _ _ (w_pos w W)). cbn [k3]. fold o. fold o2. fold o3.
  destruct sizes as (S1 & S2 & S3 & S4 & S5 & S6 & S7 & S8 & S9). pose proof u_val as U. pose proof (UM_pos M HM) as UP.
  pose proof (step 1 one_M (2 * o3) (w * w * w) 2 2 (1040 / 100) (w3_le w W)) as Q1.
  assert (P1 : Rabs (rnd (2 * o3) * (w * w * w) - 2) <= 125 / 10 * u).
  { eapply Rle_trans; [apply Q1|rewrite U; lra]; [|rewrite Rabs_pos_eq; lra|lra].
    replace (2 * o3 * (w * w * w) - 2) with (2 * (o3 * (w * w * w) - 1)) by ring. rewrite Rabs_mult, Rabs_pos_eq by lra. pose proof o3_err. lra. }
  pose proof (step M HM (y0 - y1) 1 (y0 - y1) 1 0 one_le) as Q2.
  assert (P2 : Rabs (rnd (y0 - y1) - (y0 - y1)) <= 102 / 100 * (u * M)).
  { rewrite !Rmult_1_r in Q2. eapply Rle_trans; [apply Q2|apply (scale_le M HM); lra]; [|lra|lra]. rewrite Rminus_eq_0, Rabs_R0. lra. }
  pose proof (prod M HM _ _ 2 _ _ _ 1 _ P1 ltac:(rewrite Rabs_pos_eq; lra) P2 ltac:(lra) ltac:(lra) ltac:(lra)) as Q3.
  pose proof (step M HM (rnd (2 * o3) * rnd (y0 - y1)) (w * w * w) (2 * (y0 - y1)) 2 (146 / 10) (w3_le w W)) as Q4.
  set (T1 := rnd (rnd (2 * o3) * rnd (y0 - y1))) in *.
  assert (P4 : Rabs (T1 * (w * w * w) - 2 * (y0 - y1)) <= 1662 / 100 * (u * M)).
  { eapply Rle_trans; [apply Q4|apply (scale_le M HM); lra]; [|rewrite Rabs_mult, Rabs_pos_eq; lra|lra].
    replace (rnd (2 * o3) * rnd (y0 - y1) * (w * w * w)) with (rnd (2 * o3) * (w * w * w) * rnd (y0 - y1)) by ring.
    eapply Rle_trans; [exact Q3|apply (scale_le M HM); lra]. }
  pose proof (step M HM (d1 + d0) w (w * (d1 + d0)) 1 0 (w1_le w W)) as Q5.
  assert (P5 : Rabs (rnd (d1 + d0) * w - w * (d1 + d0)) <= 102 / 100 * (u * M)).
  { eapply Rle_trans; [apply Q5|apply (scale_le M HM); lra]; [|lra|lra]. rewrite (Rmult_comm w), Rminus_eq_0, Rabs_R0. lra. }
  assert (P6 : Rabs (o2 * (w * w) - 1) <= 310 / 100 * u) by (pose proof o2_err; lra).
  pose proof (prod M HM _ _ 1 _ _ _ 1 _ P6 ltac:(rewrite Rabs_R1; lra) P5 ltac:(lra) ltac:(lra) ltac:(lra)) as Q6.
  pose proof (step M HM (o2 * rnd (d1 + d0)) (w * w * w) (w * (d1 + d0)) 1 (414 / 100) (w3_le w W)) as Q7.
  set (T2 := rnd (o2 * rnd (d1 + d0))) in *.
  assert (P7 : Rabs (T2 * (w * w * w) - w * (d1 + d0)) <= 516 / 100 * (u * M)).
  { eapply Rle_trans; [apply Q7|apply (scale_le M HM); lra]; [|lra|lra].
    replace (o2 * rnd (d1 + d0) * (w * w * w) - w * (d1 + d0)) with (o2 * (w * w) * (rnd (d1 + d0) * w) - 1 * (w * (d1 + d0))) by ring.
    eapply Rle_trans; [exact Q6|apply (scale_le M HM); lra]. }
  pose proof (step M HM (T1 + T2) (w * w * w) A3 2 (2178 / 100) (w3_le w W)) as Q8.
  eapply Rle_trans; [apply Q8|apply (scale_le M HM); lra]; [|lra|lra].
  unfold A3. replace ((T1 + T2) * (w * w * w) - (2 * (y0 - y1) + w * (d1 + d0))) with ((T1 * (w * w * w) - 2 * (y0 - y1)) + (T2 * (w * w * w) - w * (d1 + d0))) by ring.
  eapply Rle_trans; [apply Rabs_triang|lra].
Qed.
Lemma k2_err : Rabs (k2 F * (w * w) - A2) <= 30 * (u * M).
Proof.
  unfold F, f_cubic_init. rewrite (Rltb_t _ _ (w_pos w W)). cbn [k2]. fold o. fold o2.
  destruct sizes as (S1 & S2 & S3 & S4 & S5 & S6 & S7 & S8 & S9). pose proof u_val as U. pose proof (UM_pos M HM) as UP.
  pose proof (step 1 one_M (3 * o2) (w * w) 3 3 (930 / 100) (w2_le w W)) as Q1.
  assert (P1 : Rabs (rnd (3 * o2) * (w * w) - 3) <= 1232 / 100 * u).
  { eapply Rle_trans; [apply Q1|rewrite U; lra]; [|rewrite Rabs_pos_eq; lra|lra].
    replace (3 * o2 * (w * w) - 3) with (3 * (o2 * (w * w) - 1)) by ring. rewrite Rabs_mult, Rabs_pos_eq by lra. pose proof o2_err. lra. }
  pose proof (step M HM (y1 - y0) 1 (y1 - y0) 1 0 one_le) as Q2.
  assert (P2 : Rabs (rnd (y1 - y0) - (y1 - y0)) <= 102 / 100 * (u * M)).
  { rewrite !Rmult_1_r in Q2. eapply Rle_trans; [apply Q2|apply (scale_le M HM); lra]; [|lra|lra]. rewrite Rminus_eq_0, Rabs_R0. lra. }
  pose proof (prod M HM _ _ 3 _ _ _ 1 _ P1 ltac:(rewrite Rabs_pos_eq; lra) P2 ltac:(lra) ltac:(lra) ltac:(lra)) as Q3.
  pose proof (step M HM (rnd (3 * o2) * rnd (y1 - y0)) (w * w) (3 * (y1 - y0)) 3 (1540 / 100) (w2_le w W)) as Q4.
  set (T1 := rnd (rnd (3 * o2) * rnd (y1 - y0))) in *.
  assert (P4 : Rabs (T1 * (w * w) - 3 * (y1 - y0)) <= 1842 / 100 * (u * M)).
  { eapply Rle_trans; [apply Q4|apply (scale_le M HM); lra]; [|rewrite Rabs_mult, Rabs_pos_eq; lra|lra].
    replace (rnd (3 * o2) * rnd (y1 - y0) * (w * w)) with (rnd (3 * o2) * (w * w) * rnd (y1 - y0)) by ring.
    eapply Rle_trans; [exact Q3|apply (scale_le M HM); lra]. }
  pose proof (step M HM (2 * d0) w (w * (2 * d0)) 2 0 (w1_le w W)) as Q5.
  assert (P5 : Rabs (rnd (2 * d0) * w - w * (2 * d0)) <= 202 / 100 * (u * M)).
  { eapply Rle_trans; [apply Q5|apply (scale_le M HM); lra]; [|lra|lra]. rewrite (Rmult_comm w), Rminus_eq_0, Rabs_R0. lra. }
  pose proof (step M HM (d1 + rnd (2 * d0)) w (w * (d1 + 2 * d0)) 2 (202 / 100) (w1_le w W)) as Q6.
  set (ds := rnd (d1 + rnd (2 * d0))) in *.
  assert (P6 : Rabs (ds * w - w * (d1 + 2 * d0)) <= 404 / 100 * (u * M)).
  { eapply Rle_trans; [apply Q6|apply (scale_le M HM); lra]; [|lra|lra].
    replace ((d1 + rnd (2 * d0)) * w - w * (d1 + 2 * d0)) with (rnd (2 * d0) * w - w * (2 * d0)) by ring. lra. }
  assert (P7 : Rabs (o * w - 1) <= 102 / 100 * u) by (pose proof o_err; lra).
  pose proof (prod M HM _ _ 1 _ _ _ 2 _ P7 ltac:(rewrite Rabs_R1; lra) P6 ltac:(lra) ltac:(lra) ltac:(lra)) as Q7.
  pose proof (step M HM (o * ds) (w * w) (w * (d1 + 2 * d0)) 2 (610 / 100) (w2_le w W)) as Q8.
  set (T2 := rnd (o * ds)) in *.
  assert (P8 : Rabs (T2 * (w * w) - w * (d1 + 2 * d0)) <= 812 / 100 * (u * M)).
  { eapply Rle_trans; [apply Q8|apply (scale_le M HM); lra]; [|lra|lra].
    replace (o * ds * (w * w) - w * (d1 + 2 * d0)) with (o * w * (ds * w) - 1 * (w * (d1 + 2 * d0))) by ring.
    eapply Rle_trans; [exact Q7|apply (scale_le M HM); lra]. }
  pose proof (step M HM (T1 - T2) (w * w) A2 3 (2654 / 100) (w2_le w W)) as Q9.
  eapply Rle_trans; [apply Q9|apply (scale_le M HM); lra]; [|lra|lra].
  unfold A2. replace ((T1 - T2) * (w * w) - (3 * (y1 - y0) - w * (d1 + 2 * d0))) with ((T1 * (w * w) - 3 * (y1 - y0)) + - (T2 * (w * w) - w * (d1 + 2 * d0))) by ring.
  eapply Rle_trans; [apply Rabs_triang|rewrite Rabs_Ropp; lra].
Qed.
Lemma k1_is : k1 F * w = A1. Proof. unfold F, f_cubic_init. rewrite (Rltb_t _ _ (w_pos w W)). cbn [k1]. unfold A1. ring. Qed.
Lemma k0_is : k0 F = y0. Proof. reflexivity. Qed.


End Coefficients.
End Errors.

(** * The theorems *)

Lemma pow2_17 u' : 0 <= u' -> 100 * (pow2 (-24) * u') <= pow2 (-17) * u'.
Proof.
  intros. change (-17)%Z with (-24 + 7)%Z. rewrite pow2_add, (pow2_IZR 7) by lia. change (2 ^ 7)%Z with 128%Z.
  pose proof (pow2_pos (-24)). assert (0 <= pow2 (-24) * u') by (apply Rmult_le_pos; lra). lra.
Qed.
Lemma pow2_16 u' : 0 <= u' -> 220 * (pow2 (-24) * u') <= pow2 (-16) * u'.
Proof.
  intros. change (-16)%Z with (-24 + 8)%Z. rewrite pow2_add, (pow2_IZR 8) by lia. change (2 ^ 8)%Z with 256%Z.
  pose proof (pow2_pos (-24)). assert (0 <= pow2 (-24) * u') by (apply Rmult_le_pos; lra). lra.
Qed.
Lemma within w x : 0 < w -> 0 <= x <= w -> exists t, x = t * w /\ -1 <= t <= 1.
Proof.
  intros W X. exists (x / w). split; [field; lra|]. split; [assert (0 <= x / w); [apply Rmult_le_pos; [lra|left; apply Rinv_0_lt_compat; lra]|lra]|].
  apply Rmult_le_reg_r with w; [easy|]. replace (x / w * w) with x by (field; lra). lra.
Qed.
Lemma exact_value y0 d0 y1 d1 w t : 0 < w ->
  keval (cubic_init y0 d0 y1 d1 w) (t * w) =
  (((2 * (y0 - y1) + w * (d1 + d0)) * t + (3 * (y1 - y0) - w * (d1 + 2 * d0))) * t + w * d0) * t + y0.
Proof. intros W. unfold keval, cubic_init. rewrite (Rltb_t _ _ W). cbn [k3 k2 k1 k0]. field. lra. Qed.
Lemma exact_slope y0 d0 y1 d1 w t : 0 < w ->
  kderiv (cubic_init y0 d0 y1 d1 w) (t * w) * w =
  (3 * (2 * (y0 - y1) + w * (d1 + d0)) * t + 2 * (3 * (y1 - y0) - w * (d1 + 2 * d0))) * t + w * d0.
Proof. intros W. unfold kderiv, cubic_init. rewrite (Rltb_t _ _ W). cbn [k3 k2 k1 k0]. field. lra. Qed.

(** The size that the bounds are relative to; below 2^-20, where single precision underflows,
    they are absolute. *)
Definition at_least (m : R) : R := Rmax m (pow2 (-20)).
Lemma at_least_ok m : m <= at_least m /\ pow2 (-20) <= at_least m.
Proof. unfold at_least. split; [apply Rmax_l|apply Rmax_r]. Qed.

(** C118: over the whole of its width, the curve that is computed in single precision is
    within 2^-17 of the size of its data from the exact curve. *)
Theorem C118_value : forall rnd y0 d0 y1 d1 w x, rounds single rnd ->
  pow2 (-20) <= w <= pow2 20 -> 0 <= x <= w ->
  Rabs (f_keval rnd (f_cubic_init rnd y0 d0 y1 d1 w) x - keval (cubic_init y0 d0 y1 d1 w) x) <= pow2 (-17) * at_least (size y0 d0 y1 d1 w).
Proof.
  intros rnd y0 d0 y1 d1 w x H W X. destruct (at_least_ok (size y0 d0 y1 d1 w)) as [SZ HM]. pose proof (w_pos w W) as WP. destruct (within w x WP X) as (t & -> & T).
  pose proof (M_pos _ HM) as MP. rewrite exact_value by easy.
  destruct (sizes y0 d0 y1 d1 w W _ SZ) as (_ & _ & _ & _ & _ & S6 & S7 & S8 & S9). pose proof (UM_pos _ HM) as UP.
  pose proof (k3_err rnd H y0 d0 y1 d1 w W _ SZ HM). pose proof (k2_err rnd H y0 d0 y1 d1 w W _ SZ HM). pose proof (k1_is rnd y0 d0 y1 d1 w W).
  eapply Rle_trans; [apply (value_err rnd H (at_least (size y0 d0 y1 d1 w)) w t HM W T)|apply pow2_17; lra]; try easy; try lra.
  - rewrite H2, Rminus_eq_0, Rabs_R0. lra.
  - rewrite k0_is, Rminus_eq_0, Rabs_R0. lra.
Qed.
(** The same for its slope: 2^-16 of the size over the width. *)
Theorem C118_slope : forall rnd y0 d0 y1 d1 w x, rounds single rnd ->
  pow2 (-20) <= w <= pow2 20 -> 0 <= x <= w ->
  Rabs (f_kderiv rnd (f_cubic_init rnd y0 d0 y1 d1 w) x - kderiv (cubic_init y0 d0 y1 d1 w) x) <= pow2 (-16) * at_least (size y0 d0 y1 d1 w) / w.
Proof.
  intros rnd y0 d0 y1 d1 w x H W X. destruct (at_least_ok (size y0 d0 y1 d1 w)) as [SZ HM]. pose proof (w_pos w W) as WP. destruct (within w x WP X) as (t & -> & T).
  pose proof (M_pos _ HM) as MP. pose proof (exact_slope y0 d0 y1 d1 w t WP) as EX.
  destruct (sizes y0 d0 y1 d1 w W _ SZ) as (_ & _ & _ & _ & _ & S6 & S7 & S8 & S9). pose proof (UM_pos _ HM) as UP.
  pose proof (k3_err rnd H y0 d0 y1 d1 w W _ SZ HM). pose proof (k2_err rnd H y0 d0 y1 d1 w W _ SZ HM). pose proof (k1_is rnd y0 d0 y1 d1 w W).
  apply Rmult_le_reg_r with w; [easy|]. replace (pow2 (-16) * at_least (size y0 d0 y1 d1 w) / w * w) with (pow2 (-16) * at_least (size y0 d0 y1 d1 w)) by (field; lra).
  rewrite <- (Rabs_pos_eq w) at 5 by lra. rewrite <- Rabs_mult, Rmult_minus_distr_r, EX.
  eapply Rle_trans; [eapply (slope_err rnd H (at_least (size y0 d0 y1 d1 w)) w t HM W T)|apply pow2_16; lra]; try easy; try lra.
  rewrite H2, Rminus_eq_0, Rabs_R0. lra.
Qed.

(** The curve starts exactly where it should, with exactly the slope it should have. *)
Theorem C118_start : forall rnd y0 d0 y1 d1 w, rounds single rnd -> single y0 -> single d0 ->
  f_keval rnd (f_cubic_init rnd y0 d0 y1 d1 w) 0 = y0 /\
  (0 < w -> f_kderiv rnd (f_cubic_init rnd y0 d0 y1 d1 w) 0 = d0).
Proof.
  intros rnd y0 d0 y1 d1 w H S0 S1. assert (Z : rnd 0 = 0) by (apply (rnd_id _ _ _ H); apply fmt_0; lia). split.
  - unfold f_keval. rewrite !Rmult_0_r, !Z, Rplus_0_l. apply (rnd_id _ _ _ H). exact S0.
  - intros W. unfold f_kderiv. rewrite !Rmult_0_r, !Z, !Rplus_0_l. unfold f_cubic_init. rewrite (Rltb_t _ _ W). apply (rnd_id _ _ _ H). exact S1.
Qed.
(** It ends within those bounds of the value and the slope that it was given. *)
Theorem C118_end : forall rnd y0 d0 y1 d1 w, rounds single rnd ->
  pow2 (-20) <= w <= pow2 20 ->
  Rabs (f_keval rnd (f_cubic_init rnd y0 d0 y1 d1 w) w - y1) <= pow2 (-17) * at_least (size y0 d0 y1 d1 w) /\
  Rabs (f_kderiv rnd (f_cubic_init rnd y0 d0 y1 d1 w) w - d1) <= pow2 (-16) * at_least (size y0 d0 y1 d1 w) / w.
Proof.
  intros rnd y0 d0 y1 d1 w H W. pose proof (w_pos w W) as WP. split.
  - pose proof (C118_value rnd y0 d0 y1 d1 w w H W ltac:(lra)) as V.
    replace (keval (cubic_init y0 d0 y1 d1 w) w) with y1 in V; [easy|].
    pose proof (exact_value y0 d0 y1 d1 w 1 WP) as E. rewrite Rmult_1_l in E. rewrite E. ring.
  - pose proof (C118_slope rnd y0 d0 y1 d1 w w H W ltac:(lra)) as V.
    replace (kderiv (cubic_init y0 d0 y1 d1 w) w) with d1 in V; [easy|].
    pose proof (exact_slope y0 d0 y1 d1 w 1 WP) as E. rewrite Rmult_1_l in E. apply Rmult_eq_reg_r with w; [|lra]. rewrite E. ring.
Qed.
(** Where one segment of a spline hands over to the next, the value jumps by at most that much. *)
Theorem C118_join : forall rnd y0 d0 y1 d1 w y2 d2 w', rounds single rnd -> single y1 -> single d1 ->
  pow2 (-20) <= w <= pow2 20 ->
  Rabs (f_keval rnd (f_cubic_init rnd y1 d1 y2 d2 w') 0 - f_keval rnd (f_cubic_init rnd y0 d0 y1 d1 w) w) <= pow2 (-17) * at_least (size y0 d0 y1 d1 w) /\
  (0 < w' -> Rabs (f_kderiv rnd (f_cubic_init rnd y1 d1 y2 d2 w') 0 - f_kderiv rnd (f_cubic_init rnd y0 d0 y1 d1 w) w) <= pow2 (-16) * at_least (size y0 d0 y1 d1 w) / w).
Proof.
  intros rnd y0 d0 y1 d1 w y2 d2 w' H S1 S2 W. destruct (C118_start rnd y1 d1 y2 d2 w' H S1 S2) as [A B]. destruct (C118_end rnd y0 d0 y1 d1 w H W) as [C D].
  split; [|intros W'; rewrite (B W')]; [rewrite A|]; rewrite Rabs_minus_sym; easy.
Qed.
(** A curve between two equal values with no slope is exactly constant, everywhere. *)
Theorem C118_constant : forall rnd y w x, rounds single rnd -> single y ->
  f_keval rnd (f_cubic_init rnd y 0 y 0 w) x = y /\ f_kderiv rnd (f_cubic_init rnd y 0 y 0 w) x = 0.
Proof.
  intros rnd y w x H S. assert (Z : rnd 0 = 0) by (apply (rnd_id _ _ _ H); apply fmt_0; lia).
  assert (C : f_cubic_init rnd y 0 y 0 w = Cubic 0 0 0 y).
  { unfold f_cubic_init. rewrite !Rminus_eq_0, !Rplus_0_l, !Rmult_0_r, !Z, !Rmult_0_r, !Z, ?Rmult_0_r, ?Z, ?Rplus_0_l, ?Rminus_0_r, ?Rmult_0_r, ?Z, ?Rplus_0_l, ?Rminus_0_r, ?Z.
    destruct (Rltb 0 w); reflexivity. }
  rewrite C. unfold f_keval, f_kderiv. cbn [k3 k2 k1 k0]. split.
  - rewrite !Rmult_0_l, !Z, !Rplus_0_l, !Z, !Rmult_0_l, !Z, ?Rplus_0_l, ?Z, ?Rmult_0_l, ?Z, ?Rplus_0_l. apply (rnd_id _ _ _ H). exact S.
  - rewrite !Rmult_0_r, !Z, !Rmult_0_l, !Z, !Rplus_0_l, !Z, !Rmult_0_l, !Z, ?Rplus_0_l, ?Z. reflexivity.
Qed.

(** The coefficients of a curve that has been scaled and shifted. *)
Lemma placed_coefficients rnd y0 d0 y1 d1 w s f : rounds single rnd -> pow2 (-20) <= w <= pow2 20 ->
  let c := f_kshift_up rnd (f_kscale_up rnd (f_cubic_init rnd y0 d0 y1 d1 w) s) f in
  let m := at_least (Rabs s * at_least (size y0 d0 y1 d1 w) + Rabs f) in
  let A3 := 2 * (y0 - y1) + w * (d1 + d0) in let A2 := 3 * (y1 - y0) - w * (d1 + 2 * d0) in let A1 := w * d0 in
  (Rabs (k3 c * (w * w * w) - s * A3) <= 27 * (pow2 (-24) * m) /\ Rabs (k2 c * (w * w) - s * A2) <= 34 * (pow2 (-24) * m) /\
   Rabs (k1 c * w - s * A1) <= 2 * (pow2 (-24) * m) /\ Rabs (k0 c - (s * y0 + f)) <= 3 * (pow2 (-24) * m)) /\
  (Rabs (s * A3) <= 2 * m /\ Rabs (s * A2) <= 3 * m /\ Rabs (s * A1) <= m /\ Rabs (s * y0 + f) <= m) /\ pow2 (-20) <= m.
Proof.
  intros H W c m A3 A2 A1. destruct (at_least_ok (size y0 d0 y1 d1 w)) as [SZ HM].
  set (M := at_least (size y0 d0 y1 d1 w)) in *. destruct (at_least_ok (Rabs s * M + Rabs f)) as [SZ' HM']. fold m in SZ', HM'. pose proof (w_pos w W) as WP.
  pose proof (M_pos _ HM) as MP. pose proof (M_pos _ HM') as MP'. 
  destruct (sizes y0 d0 y1 d1 w W _ SZ) as (_ & _ & _ & _ & _ & S6 & S7 & S8 & S9). pose proof (UM_pos _ HM) as UP. pose proof (UM_pos _ HM') as UP'.
  pose proof (k3_err rnd H y0 d0 y1 d1 w W _ SZ HM) as E3. pose proof (k2_err rnd H y0 d0 y1 d1 w W _ SZ HM) as E2. pose proof (k1_is rnd y0 d0 y1 d1 w W) as E1.
  set (F := f_cubic_init rnd y0 d0 y1 d1 w) in *.
  fold A3 in S6, E3. fold A2 in S7, E2. fold A1 in S8, E1.
  pose proof (Rabs_pos s) as SP. pose proof (Rabs_pos f) as FP.
  assert (SM : Rabs s * M <= m) by lra.
  assert (SU : forall e, 0 <= e -> Rabs s * (e * (pow2 (-24) * M)) <= e * (pow2 (-24) * m)).
  { intros e E. replace (Rabs s * (e * (pow2 (-24) * M))) with (e * (pow2 (-24) * (Rabs s * M))) by ring.
    apply Rmult_le_compat_l; [easy|]. apply Rmult_le_compat_l; [left; apply pow2_pos|easy]. }
  assert (SA : forall a k, 0 <= k -> Rabs a <= k * M -> Rabs (s * a) <= k * m).
  { intros a k K A. rewrite Rabs_mult. apply Rle_trans with (Rabs s * (k * M)); [apply Rmult_le_compat_l; easy|].
    replace (Rabs s * (k * M)) with (k * (Rabs s * M)) by ring. apply Rmult_le_compat_l; easy. }
  assert (SE : forall z a g e, 0 <= e -> Rabs (z * g - a) <= e * (pow2 (-24) * M) -> Rabs (z * s * g - s * a) <= e * (pow2 (-24) * m)).
  { intros z a g e E Z. replace (z * s * g - s * a) with (s * (z * g - a)) by ring. rewrite Rabs_mult.
    eapply Rle_trans; [apply Rmult_le_compat_l; [easy|exact Z]|]. apply SU. easy. }
  assert (B3 : Rabs (s * A3) <= 2 * m) by (apply SA; [lra|easy]).
  assert (B2 : Rabs (s * A2) <= 3 * m) by (apply SA; [lra|easy]).
  assert (B1 : Rabs (s * A1) <= m) by (rewrite <- (Rmult_1_l m); apply SA; lra).
  assert (B0 : Rabs (s * y0 + f) <= m).
  { eapply Rle_trans; [apply Rabs_triang|]. rewrite Rabs_mult. apply Rle_trans with (Rabs s * M + Rabs f); [|easy]. apply Rplus_le_compat_r. apply Rmult_le_compat_l; easy. }
  assert (B0' : Rabs (s * y0) <= m) by (rewrite <- (Rmult_1_l m); apply SA; lra).
  assert (C3 : Rabs (k3 c * (w * w * w) - s * A3) <= 27 * (pow2 (-24) * m)).
  { eapply Rle_trans; [apply (step rnd H m HM' (k3 F * s) _ _ 2 24 (w3_le w W))|apply (scale_le m HM'); lra]; [apply SE; [lra|easy]|easy|lra]. }
  assert (C2 : Rabs (k2 c * (w * w) - s * A2) <= 34 * (pow2 (-24) * m)).
  { eapply Rle_trans; [apply (step rnd H m HM' (k2 F * s) _ _ 3 30 (w2_le w W))|apply (scale_le m HM'); lra]; [apply SE; [lra|easy]|easy|lra]. }
  assert (C1 : Rabs (k1 c * w - s * A1) <= 2 * (pow2 (-24) * m)).
  { eapply Rle_trans; [apply (step rnd H m HM' (k1 F * s) _ _ 1 0 (w1_le w W))|apply (scale_le m HM'); lra]; [|lra|lra].
    apply SE; [lra|]. rewrite E1, Rminus_eq_0, Rabs_R0. lra. }
  assert (C0' : Rabs (rnd (k0 F * s) * 1 - s * y0) <= 101 / 100 * (pow2 (-24) * m)).
  { eapply Rle_trans; [apply (step rnd H m HM' (k0 F * s) _ _ 1 0 one_le)|apply (scale_le m HM'); lra]; [|lra|lra].
    replace (k0 F * s * 1 - s * y0) with 0 by (change (k0 F) with y0; ring). rewrite Rabs_R0. lra. }
  assert (C0 : Rabs (k0 c - (s * y0 + f)) <= 3 * (pow2 (-24) * m)).
  { rewrite <- (Rmult_1_r (k0 c)). eapply Rle_trans; [apply (step rnd H m HM' (rnd (k0 F * s) + f) 1 _ 1 (101 / 100) one_le)|apply (scale_le m HM'); lra]; [|lra|lra].
    replace ((rnd (k0 F * s) + f) * 1 - (s * y0 + f)) with (rnd (k0 F * s) * 1 - s * y0) by ring. easy. }
  repeat apply conj; easy.
Qed.
(** The evaluator plays a curve that has been scaled and shifted; its size is scaled and
    shifted with it. *)
Theorem C118_placed : forall rnd y0 d0 y1 d1 w scale offset x, rounds single rnd ->
  pow2 (-20) <= w <= pow2 20 ->
  0 <= x <= w ->
  let c := f_kshift_up rnd (f_kscale_up rnd (f_cubic_init rnd y0 d0 y1 d1 w) scale) offset in
  let m := at_least (Rabs scale * at_least (size y0 d0 y1 d1 w) + Rabs offset) in
  Rabs (f_keval rnd c x - (scale * keval (cubic_init y0 d0 y1 d1 w) x + offset)) <= pow2 (-17) * m /\
  Rabs (f_kderiv rnd c x - scale * kderiv (cubic_init y0 d0 y1 d1 w) x) <= pow2 (-16) * m / w.
Proof.
  intros rnd y0 d0 y1 d1 w s f x H W X c m. destruct (placed_coefficients rnd y0 d0 y1 d1 w s f H W) as ((C3 & C2 & C1 & C0) & (B3 & B2 & B1 & B0) & HM'). fold c in C3, C2, C1, C0. fold m in C3, C2, C1, C0, B3, B2, B1, B0, HM'.
  pose proof (w_pos w W) as WP. destruct (within w x WP X) as (t & -> & T). pose proof (M_pos _ HM') as MP'. pose proof (exact_slope y0 d0 y1 d1 w t WP) as EX. rewrite exact_value by easy.
  set (A3 := 2 * (y0 - y1) + w * (d1 + d0)) in *. set (A2 := 3 * (y1 - y0) - w * (d1 + 2 * d0)) in *. set (A1 := w * d0) in *.
  split.
  - replace (s * (((A3 * t + A2) * t + A1) * t + y0) + f) with (((s * A3 * t + s * A2) * t + s * A1) * t + (s * y0 + f)) by ring.
    eapply Rle_trans; [apply (value_err rnd H m w t HM' W T)|apply pow2_17; lra]; easy.
  - apply Rmult_le_reg_r with w; [easy|]. replace (pow2 (-16) * m / w * w) with (pow2 (-16) * m) by (field; lra).
    assert (AW : forall a, Rabs a * w = Rabs (a * w)) by (intros; rewrite Rabs_mult, (Rabs_pos_eq w) by lra; reflexivity). rewrite AW.
    replace ((f_kderiv rnd c (t * w) - s * kderiv (cubic_init y0 d0 y1 d1 w) (t * w)) * w) with (f_kderiv rnd c (t * w) * w - ((3 * (s * A3) * t + 2 * (s * A2)) * t + s * A1)) by (rewrite Rmult_minus_distr_r, (Rmult_assoc s), EX; ring).
    eapply Rle_trans; [eapply (slope_err rnd H m w t HM' W T)|apply pow2_16; lra]; easy.
Qed.

(** A little beyond its width, where IndexForX still finds a segment, the curve is evaluated
    too: up to twice the width away from its start, within eight times those bounds. *)
Theorem C118_beyond : forall rnd y0 d0 y1 d1 w scale offset x, rounds single rnd ->
  pow2 (-20) <= w <= pow2 19 ->
  Rabs x <= 2 * w ->
  let c := f_kshift_up rnd (f_kscale_up rnd (f_cubic_init rnd y0 d0 y1 d1 w) scale) offset in
  let m := at_least (Rabs scale * at_least (size y0 d0 y1 d1 w) + Rabs offset) in
  Rabs (f_keval rnd c x - (scale * keval (cubic_init y0 d0 y1 d1 w) x + offset)) <= pow2 (-14) * m /\
  Rabs (f_kderiv rnd c x - scale * kderiv (cubic_init y0 d0 y1 d1 w) x) <= pow2 (-14) * m / w.
Proof.
  intros rnd y0 d0 y1 d1 w s f x H W X c m. assert (W' : pow2 (-20) <= w <= pow2 20) by (pose proof (pow2_le 19 20 ltac:(lia)); lra).
  destruct (placed_coefficients rnd y0 d0 y1 d1 w s f H W') as ((C3 & C2 & C1 & C0) & (B3 & B2 & B1 & B0) & HM'). fold c in C3, C2, C1, C0. fold m in C3, C2, C1, C0, B3, B2, B1, B0, HM'.
  pose proof (w_pos w W') as WP. pose proof (M_pos _ HM') as MP'.
  assert (T : exists t, x = t * (2 * w) /\ -1 <= t <= 1).
  { exists (x / (2 * w)). split; [field; lra|]. assert (X2 : - (2 * w) <= x <= 2 * w) by (clear - X; revert X; rabs; lra). split; apply Rmult_le_reg_r with (2 * w); try lra; replace (x / (2 * w) * (2 * w)) with x by (field; lra); lra. }
  destruct T as (t & -> & T). assert (W2 : pow2 (-20) <= 2 * w <= pow2 20) by (pose proof (pow2_succ 19) as P20; change (19 + 1)%Z with 20%Z in P20; pose proof (pow2_pos (-20)); lra).
  assert (HM8 : pow2 (-20) <= 8 * m) by lra. pose proof (UM_pos _ HM') as UP.
  assert (AK : forall k a, 0 <= k -> Rabs (k * a) = k * Rabs a) by (intros k a K; rewrite Rabs_mult, (Rabs_pos_eq k) by lra; reflexivity).
  set (A3 := 2 * (y0 - y1) + w * (d1 + d0)) in *. set (A2 := 3 * (y1 - y0) - w * (d1 + 2 * d0)) in *. set (A1 := w * d0) in *.
  assert (D3 : Rabs (k3 c * (2 * w * (2 * w) * (2 * w)) - 8 * (s * A3)) <= 27 * (pow2 (-24) * (8 * m))).
  { replace (k3 c * (2 * w * (2 * w) * (2 * w)) - 8 * (s * A3)) with (8 * (k3 c * (w * w * w) - s * A3)) by ring. rewrite AK by lra. lra. }
  assert (D2 : Rabs (k2 c * (2 * w * (2 * w)) - 4 * (s * A2)) <= 34 * (pow2 (-24) * (8 * m))).
  { replace (k2 c * (2 * w * (2 * w)) - 4 * (s * A2)) with (4 * (k2 c * (w * w) - s * A2)) by ring. rewrite AK by lra. lra. }
  assert (D1 : Rabs (k1 c * (2 * w) - 2 * (s * A1)) <= 2 * (pow2 (-24) * (8 * m))).
  { replace (k1 c * (2 * w) - 2 * (s * A1)) with (2 * (k1 c * w - s * A1)) by ring. rewrite AK by lra. lra. }
  assert (D0 : Rabs (k0 c - (s * y0 + f)) <= 3 * (pow2 (-24) * (8 * m))) by lra.
  assert (F3 : Rabs (8 * (s * A3)) <= 2 * (8 * m)) by (rewrite AK; lra). assert (F2 : Rabs (4 * (s * A2)) <= 3 * (8 * m)) by (rewrite AK; lra).
  assert (F1 : Rabs (2 * (s * A1)) <= 8 * m) by (rewrite AK; lra). assert (F0 : Rabs (s * y0 + f) <= 8 * m) by lra.
  replace (t * (2 * w)) with (2 * t * w) at 2 4 by ring. pose proof (exact_slope y0 d0 y1 d1 w (2 * t) WP) as EX. rewrite exact_value by easy. fold A3 A2 A1 in EX. fold A3 A2 A1.
  assert (P8 : forall k, pow2 (k + 3) = 8 * pow2 k) by (intros k; rewrite pow2_add, (pow2_IZR 3) by lia; change (2 ^ 3)%Z with 8%Z; ring).
  split.
  - replace (s * (((A3 * (2 * t) + A2) * (2 * t) + A1) * (2 * t) + y0) + f) with (((8 * (s * A3) * t + 4 * (s * A2)) * t + 2 * (s * A1)) * t + (s * y0 + f)) by ring.
    change (-14)%Z with (-17 + 3)%Z. rewrite P8. replace (8 * pow2 (-17) * m) with (pow2 (-17) * (8 * m)) by ring.
    eapply Rle_trans; [apply (value_err rnd H (8 * m) (2 * w) t HM8 W2 T)|apply pow2_17; lra]; easy.
  - apply Rmult_le_reg_r with (2 * w); [lra|]. replace (pow2 (-14) * m / w * (2 * w)) with (2 * pow2 (-14) * m) by (field; lra).
    assert (AW : forall a, Rabs a * (2 * w) = Rabs (a * (2 * w))) by (intros; rewrite Rabs_mult, (Rabs_pos_eq (2 * w)) by lra; reflexivity). rewrite AW.
    replace ((f_kderiv rnd c (t * (2 * w)) - s * kderiv (cubic_init y0 d0 y1 d1 w) (2 * t * w)) * (2 * w)) with (f_kderiv rnd c (t * (2 * w)) * (2 * w) - ((3 * (8 * (s * A3)) * t + 2 * (4 * (s * A2))) * t + 2 * (s * A1)))
      by (rewrite Rmult_minus_distr_r; replace (s * kderiv (cubic_init y0 d0 y1 d1 w) (2 * t * w) * (2 * w)) with (2 * s * (kderiv (cubic_init y0 d0 y1 d1 w) (2 * t * w) * w)) by ring; rewrite EX; ring).
    change (-14)%Z with (-16 + 1 + 1)%Z. rewrite !pow2_succ. replace (2 * (2 * (2 * pow2 (-16))) * m) with (pow2 (-16) * (8 * m)) by ring.
    eapply Rle_trans; [eapply (slope_err rnd H (8 * m) (2 * w) t HM8 W2 T)|apply pow2_16; lra]; easy.
Qed.

(** Exactly meeting the end is not to be had: whatever way halfway cases are rounded, the
    flat curve from 0 to 1 over a width of 13 ends above 1, where the next segment starts at 1. *)
Lemma rnd_lit rnd x n e : rounds single rnd -> (0 < e <= 149)%Z ->
  IZR (2 ^ 23) <= Rabs x * IZR (2 ^ e) <= IZR (2 ^ 24) -> Rabs (x * IZR (2 ^ e) - IZR n) < 1 / 2 -> rnd x = IZR n / IZR (2 ^ e).
Proof.
  intros H E [L U] N. pose proof (pow2_pos (- e)) as P. pose proof (pow2_opp e) as PO. pose proof (pow2_IZR e ltac:(lia)) as PE. rewrite <- PE in *.
  pose proof (pow2_pos e) as P'. pose proof (pow2_IZR 23 ltac:(lia)) as P23. pose proof (pow2_IZR 24 ltac:(lia)) as P24'. rewrite <- P23 in *. rewrite <- P24' in *.
  assert (X : forall y, y = y * pow2 e * pow2 (- e)) by (intros; rewrite Rmult_assoc, (Rmult_comm (pow2 e)), PO; ring).
  rewrite (rnd_at 24 (-149) P24 rnd H x (24 - e) n).
  - replace (24 - e - 24)%Z with (- e)%Z by lia. rewrite pow2_inv. reflexivity.
  - replace (24 - e - 1)%Z with (23 + - e)%Z by lia. replace (24 - e)%Z with (24 + - e)%Z by lia. rewrite !pow2_add, (X (Rabs x)).
    split; apply Rmult_le_compat_r; lra.
  - lia.
  - replace (24 - e - 24)%Z with (- e)%Z by lia. replace (- e - 1)%Z with (-1 + - e)%Z by lia. rewrite pow2_add.
    rewrite (X x), <- Rmult_minus_distr_r, Rabs_mult, (Rabs_pos_eq (pow2 (- e))) by lra. apply Rmult_lt_compat_r; [easy|].
    change (-1)%Z with (- (1))%Z. rewrite pow2_inv, pow2_1. lra.
Qed.
Ltac at_ H n e := match goal with |- context [?r ?x] => match type of H with rounds _ r => rewrite (rnd_lit r x n e H ltac:(lia)) by
  (change (2 ^ 23)%Z with 8388608%Z; change (2 ^ 24)%Z with 16777216%Z; let v := eval vm_compute in (2 ^ e)%Z in change (2 ^ e)%Z with v; clear; rabs; lra);
  let v := eval vm_compute in (2 ^ e)%Z in change (2 ^ e)%Z with v end end.
Theorem C118_end_refuted : forall rnd, rounds single rnd ->
  f_keval rnd (f_cubic_init rnd 0 0 1 0 13) 13 = 1 + pow2 (-23) /\ f_keval rnd (f_cubic_init rnd 1 0 1 0 13) 0 = 1 /\
  keval (cubic_init 0 0 1 0 13) 13 = 1.
Proof.
  intros rnd H. assert (Z : rnd 0 = 0) by (apply (rnd_id _ _ _ H); apply fmt_0; lia). 
  assert (E1 : rnd (1 / 13) = 10324441 / 134217728) by (at_ H 10324441%Z 27%Z; lra).
  assert (E2 : rnd (10324441 / 134217728 * (10324441 / 134217728)) = 12707005 / 2147483648) by (at_ H 12707005%Z 31%Z; lra).
  assert (E3 : rnd (12707005 / 2147483648 * (10324441 / 134217728)) = 15639391 / 34359738368) by (at_ H 15639391%Z 35%Z; lra).
  assert (E4 : rnd (2 * (15639391 / 34359738368)) = 15639391 / 17179869184) by (at_ H 15639391%Z 34%Z; lra).
  assert (E5 : rnd (0 - 1) = -1) by (at_ H (-8388608)%Z 23%Z; lra).
  assert (E6 : rnd (1 - 0) = 1) by (at_ H 8388608%Z 23%Z; lra).
  assert (E7 : rnd (15639391 / 17179869184 * -1) = - (15639391 / 17179869184)) by (at_ H (-15639391)%Z 34%Z; lra).
  assert (E8 : rnd (- (15639391 / 17179869184) + 0) = - (15639391 / 17179869184)) by (at_ H (-15639391)%Z 34%Z; lra).
  assert (E9 : rnd (3 * (12707005 / 2147483648)) = 9530254 / 536870912) by (at_ H 9530254%Z 29%Z; lra).
  assert (E10 : rnd (9530254 / 536870912 * 1) = 9530254 / 536870912) by (at_ H 9530254%Z 29%Z; lra).
  assert (E11 : rnd (9530254 / 536870912 - 0) = 9530254 / 536870912) by (at_ H 9530254%Z 29%Z; lra).
  assert (E12 : rnd (- (15639391 / 17179869184) * 13) = - (12707005 / 1073741824)) by (at_ H (-12707005)%Z 30%Z; lra).
  assert (E13 : rnd (- (12707005 / 1073741824) + 9530254 / 536870912) = 12707006 / 2147483648) by (at_ H 12707006%Z 31%Z; lra).
  assert (E14 : rnd (12707006 / 2147483648 * 13) = 10324442 / 134217728) by (at_ H 10324442%Z 27%Z; lra).
  assert (E15 : rnd (10324442 / 134217728 + 0) = 10324442 / 134217728) by (at_ H 10324442%Z 27%Z; lra).
  assert (E16 : rnd (10324442 / 134217728 * 13) = 8388609 / 8388608) by (at_ H 8388609%Z 23%Z; lra).
  assert (E17 : rnd (8388609 / 8388608 + 0) = 8388609 / 8388608) by (at_ H 8388609%Z 23%Z; lra).
  assert (R1 : rnd 1 = 1) by (at_ H 8388608%Z 23%Z; lra).
  split; [|split].
  - unfold f_cubic_init. rewrite (Rltb_t 0 13) by lra. rewrite E1, E2, E3, E4, E5, E6, E7, !Rplus_0_l, !Rmult_0_r, !Z, ?Rplus_0_l, ?Rmult_0_r, ?Z, E8, E9, E10, E11.
    unfold f_keval. cbn [k3 k2 k1 k0]. rewrite E12, E13, E14, E15, E16, E17.
    change (-23)%Z with (- (23))%Z. rewrite pow2_inv, (pow2_IZR 23) by lia. change (2 ^ 23)%Z with 8388608%Z. lra.
  - apply C118_start; [easy| |apply fmt_0; lia]. rewrite <- R1. apply (rnd_fmt _ _ _ H).
  - pose proof (exact_value 0 0 1 0 13 1 ltac:(lra)) as E. rewrite Rmult_1_l in E. rewrite E. ring.
Qed.

(** A curve between the hypotheses: from 1 down to -2 over 100 ticks, with slopes. *)
Example C118_case : pow2 (-20) <= 100 <= pow2 20 /\ at_least (size 1 (1 / 2) (-2) (-1 / 4) 100) = 78 /\ single 1 /\ single (1 / 2).
Proof.
  assert (P : pow2 (-20) <= 1) by apply one_M.
  split; [split; [lra|rewrite pow2_IZR by lia; change (2 ^ 20)%Z with 1048576%Z; lra]|].
  split; [unfold at_least; rewrite Rmax_left; unfold size; rabs; lra|split].
  - replace 1 with (IZR 1 * pow2 0) by (rewrite pow2_0; lra). apply fmt_grid_in; lia.
  - replace (1 / 2) with (IZR 1 * pow2 (- (1))) by (rewrite pow2_inv, pow2_1; lra). apply fmt_grid_in; lia.
Qed.

Print Assumptions C118_value.
Print Assumptions C118_slope.
Print Assumptions C118_start.
Print Assumptions C118_end.
Print Assumptions C118_join.
Print Assumptions C118_constant.
Print Assumptions C118_placed.
Print Assumptions C118_beyond.
Print Assumptions C118_end_refuted.
