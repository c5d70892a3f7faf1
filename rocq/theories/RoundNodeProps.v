(** Quantisation of spline nodes in single precision (C116). *)
From Verif Require Import RBase RoundModel RoundProofs CompactSplineModel RoundNodeModel.

Lemma P24 : (0 < 24)%Z. Proof. lia. Qed.
Lemma Rtrunc_is x k : 0 <= x -> IZR k <= x < IZR k + 1 -> Rtrunc x = k.
Proof. intros A B. unfold Rtrunc. rewrite (Rleb_t 0 x) by lra. now apply Rfloor_unique. Qed.

Section S.
Variable rnd : R -> R.
Hypothesis H : rounds single rnd.
Lemma rel1 v : Rabs (rnd v - v) <= Rabs v / 16777216 + pow2 (-150).
Proof.
  eapply Rle_trans; [apply (rnd_rel 24 (-149) P24 rnd H)|]. change (-24)%Z with (- (24))%Z. rewrite (pow2_inv 24), (pow2_IZR 24) by lia.
  change (-149 - 1)%Z with (-150)%Z. change (2 ^ 24)%Z with 16777216%Z. lra.
Qed.
Lemma tiny150 : pow2 (-150) <= / 1099511627776.
Proof. replace (/ 1099511627776) with (pow2 (- (40))) by (rewrite pow2_inv, pow2_IZR by lia; reflexivity). apply pow2_le. lia. Qed.
Lemma rel2 v : Rabs (rnd v - v) <= Rabs v / 16777216 + / 1099511627776.
Proof. eapply Rle_trans; [apply rel1|]. pose proof tiny150. lra. Qed.
Lemma rel_scaled h v : pow2 (-100) <= h -> Rabs (rnd (v * h) / h - v) <= Rabs v / 16777216 + / 1099511627776.
Proof.
  intros B. pose proof (pow2_pos (-100)) as P. assert (H0 : 0 < h) by lra.
  assert (T : pow2 (-150) <= h * / 1099511627776).
  { assert (E : pow2 (-150) <= pow2 (-100) * pow2 (- (40))) by (rewrite <- pow2_add; apply pow2_le; lia).
    rewrite (pow2_inv 40), (pow2_IZR 40) in E by lia. change (2 ^ 40)%Z with 1099511627776%Z in E. lra. }
  apply Rmult_le_reg_r with h; [easy|].
  rewrite <- (Rabs_pos_eq h) at 3 by lra. rewrite <- Rabs_mult.
  replace ((rnd (v * h) / h - v) * h) with (rnd (v * h) - v * h) by (field; lra).
  eapply Rle_trans; [apply rel1|]. rewrite Rabs_mult, (Rabs_pos_eq h) by lra. lra.
Qed.

(** Quantising [v] granularities. *)
Lemma quantize_ok g v : pow2 (-100) <= g -> - (1 / 4) <= v <= 65535 + 1 / 4 ->
  exists i, f_compact_x rnd (v * g) g = Some i /\ Rabs (v - IZR i) <= 1 / 2 + / 100.
Proof.
  intros B V. pose proof (pow2_pos (-100)) as P. assert (G : 0 < g) by lra.
  unfold f_compact_x, f_quantize_x. rewrite (Reqb_f g 0) by lra. cbn [negb].
  replace (v * g / g) with v by (field; lra).
  pose proof (rel2 v) as R1. set (q := rnd v) in *. pose proof (rel2 (q + 1 / 2)) as R2. set (t := rnd (q + 1 / 2)) in *.
  assert (Q : Rabs (q - v) <= / 255) by (clear - R1 V; rabs; lra).
  assert (T : Rabs (t - (q + 1 / 2)) <= / 255) by (clear - R2 Q V; rabs; lra).
  clear R1 R2. assert (T0 : 0 <= t) by (clear - Q T V; rabs; lra).
  destruct (Rfloor_bounds t) as [F1 F2]. set (i := Rfloor t) in *.
  assert (I0 : (0 <= i)%Z). { apply le_IZR. assert (-1 < i)%Z; [apply lt_IZR; lra|]. apply IZR_le. lia. }
  assert (I1 : (i <= 65535)%Z). { assert (i < 65536)%Z; [|lia]. apply lt_IZR. clear - Q T V F1. rabs; lra. }
  exists i. unfold to_int, Rtrunc. rewrite (Rleb_t 0 t) by lra. fold i.
  rewrite (proj2 (Z.leb_le (-2147483648) i)), (proj2 (Z.ltb_lt i 2147483648)) by lia. cbn [andb].
  unfold kMaxX. rewrite (proj2 (Z.leb_le 0 i)), (proj2 (Z.leb_le i 65535)) by lia. split; [easy|].
  clear - Q T F1 F2. clearbody i. rabs; lra.
Qed.
End S.

(** A node's x survives any number of round trips through X(). *)
Theorem C116_x_round_trip : forall rnd g i, rounds single rnd -> single g -> pow2 (-100) <= g -> (0 <= i <= 65535)%Z ->
  f_compact_x rnd (f_x rnd i g) g = Some i.
Proof.
  intros rnd g i H S B I. pose proof (pow2_pos (-100)) as P. assert (G : 0 < g) by lra.
  unfold f_x. pose proof (rel_scaled rnd H g (IZR i) B) as E. set (x := rnd (IZR i * g)) in *.
  assert (I' : 0 <= IZR i <= 65535) by (split; apply IZR_le; lia).
  assert (V : Rabs (x / g - IZR i) <= / 250) by (clear - E I'; rabs; lra).
  destruct (quantize_ok rnd H g (x / g) B) as (j & C & D); [clear - V I'; rabs; lra|].
  replace (x / g * g) with x in C by (field; lra). rewrite C. f_equal.
  assert (Rabs (IZR i - IZR j) < 1) by (clear - V D; rabs; lra).
  rewrite <- minus_IZR, <- abs_IZR in H0. apply lt_IZR in H0. lia.
Qed.
Print Assumptions C116_x_round_trip.

(** Any x up to 65535 granularities is stored to within half a granularity and 2^-6. *)
Theorem C116_x_error : forall rnd g x, rounds single rnd -> single g -> pow2 (-100) <= g -> single x -> 0 <= x <= 65535 * g ->
  exists i, f_compact_x rnd x g = Some i /\ Rabs (f_x rnd i g - x) <= (1 / 2 + / 64) * g.
Proof.
  intros rnd g x H S B X Q. pose proof (pow2_pos (-100)) as P. assert (G : 0 < g) by lra.
  set (v := x / g). assert (EX : x = v * g) by (unfold v; field; lra).
  assert (V : 0 <= v <= 65535). { rewrite EX in Q. split; apply Rmult_le_reg_r with g; lra. }
  destruct (quantize_ok rnd H g v B) as (i & C & D); [lra|]. rewrite <- EX in C.
  exists i. split; [easy|]. unfold f_x.
  pose proof (rel_scaled rnd H g (IZR i) B) as E. set (y := rnd (IZR i * g)) in *.
  assert (W : Rabs (y / g - v) <= 1 / 2 + / 64) by (clear - V D E; rabs; lra).
  replace (y - x) with ((y / g - v) * g) by (rewrite EX; field; lra).
  rewrite Rabs_mult, (Rabs_pos_eq g) by lra. now apply Rmult_le_compat_r; [lra|].
Qed.
Print Assumptions C116_x_error.

(** kYScale is 2^-16 + 2^-32, whatever the rounding. *)
Lemma y_scale rnd : rounds single rnd -> f_y_scale rnd = 65537 / 4294967296.
Proof.
  intros H. unfold f_y_scale, kMaxY. rewrite (rnd_at 24 (-149) P24 rnd H _ (-15) 8388736).
  - change (-15 - 24)%Z with (- (39))%Z. rewrite pow2_inv, pow2_IZR by lia. change (2 ^ 39)%Z with 549755813888%Z. lra.
  - change (-15 - 1)%Z with (- (16))%Z. change (-15)%Z with (- (15))%Z. rewrite !pow2_inv, !pow2_IZR by lia. cbn. rabs; lra.
  - lia.
  - change (-15 - 24)%Z with (- (39))%Z. change (- (39) - 1)%Z with (- (40))%Z. rewrite !pow2_inv, !pow2_IZR by lia.
    change (2 ^ 39)%Z with 549755813888%Z. change (2 ^ 40)%Z with 1099511627776%Z. rabs; lra.
Qed.

(** On a range (0, h) a node's y is one that CompactY accepts, and becomes the same rung
    or the one below. *)
Theorem C116_y_round_trip_partial : forall rnd h k, rounds single rnd -> single h -> pow2 (-100) <= h -> (0 <= k <= 65535)%Z ->
  exists j, f_compact_y rnd (f_y rnd k 0 h) 0 h = Some j /\ (k - 1 <= j <= k)%Z.
Proof.
  intros rnd h k H S B K. pose proof (pow2_pos (-100)) as P. assert (G : 0 < h) by lra.
  assert (S0 : single 0) by (apply fmt_0; lia). assert (S1 : single 1) by (exists 1%Z, 0%Z; rewrite pow2_0; split; [cbn; lia|split; [lia|lra]]).
  assert (K' : 0 <= IZR k <= 65535) by (split; apply IZR_le; lia).
  unfold f_compact_y, f_y, f_y_percent. rewrite (y_scale rnd H). set (w := IZR k * (65537 / 4294967296)).
  assert (W : 0 <= w <= 1) by (unfold w; lra). pose proof (rel2 rnd H w) as R1.
  assert (P0 : 0 <= rnd w) by (apply (rnd_ge_fmt _ _ _ H); [easy|lra]).
  assert (P1 : rnd w <= 1) by (apply (rnd_le_fmt _ _ _ H); [easy|lra]). set (p := rnd w) in *.
  cbv zeta. rewrite Rmult_0_l, (rnd_id _ _ _ H 0 S0), Rplus_0_l, (rnd_id _ _ _ H (rnd (h * p))) by apply (rnd_fmt _ _ _ H).
  rewrite (Rmult_comm h p). pose proof (rel_scaled rnd H h p B) as R2.
  assert (Y0 : 0 <= rnd (p * h)) by (apply (rnd_ge_fmt _ _ _ H); [easy|nra]).
  assert (Y1 : rnd (p * h) <= h) by (apply (rnd_le_fmt _ _ _ H); [easy|nra]). 
  assert (SY : single (rnd (p * h))) by apply (rnd_fmt _ _ _ H).
  set (y := rnd (p * h)) in *. rewrite !Rminus_0_r, (rnd_id _ _ _ H h S), (rnd_id _ _ _ H y SY).
  rewrite (Rleb_t 0 y), (Rleb_t y h) by easy. cbn [andb]. rewrite (Reqb_f h 0) by lra.
  assert (Y2 : 0 <= y / h <= 1). { split; apply Rmult_le_reg_r with h; try easy; unfold Rdiv; rewrite Rmult_assoc, Rinv_l; lra. }
  pose proof (rel2 rnd H (y / h)) as R3.
  assert (C0 : 0 <= rnd (y / h)) by (apply (rnd_ge_fmt _ _ _ H); [easy|lra]).
  assert (C1 : rnd (y / h) <= 1) by (apply (rnd_le_fmt _ _ _ H); [easy|lra]). set (c := rnd (y / h)) in *.
  replace (Rmax 0 (Rmin c 1)) with c by (minmax; lra). unfold kMaxY.
  pose proof (rel2 rnd H (65535 * c)) as R4.
  set (u := y / h) in *. clearbody u.
  assert (U : Rabs (u - w) <= / 5000000) by (clear - R1 R2 W P0 P1; rabs; lra).
  assert (C : Rabs (c - w) <= / 3000000) by (clear - U R3 W Y2; rabs; lra).
  assert (WK : Rabs (65535 * w - IZR k) <= / 60000) by (clear - K'; unfold w; rabs; lra).
  assert (N : Rabs (rnd (65535 * c) - IZR k) <= 1 / 30) by (clear - C WK R4 C0 C1; rabs; lra).
  assert (Z0 : 0 <= rnd (65535 * c)) by (apply (rnd_ge_fmt _ _ _ H); [easy|lra]).
  eexists. split; [reflexivity|]. unfold Rtrunc. rewrite (Rleb_t 0) by easy.
  destruct (Rfloor_bounds (rnd (65535 * c))) as [F1 F2]. set (j := Rfloor _) in *.
  assert (k - 2 < j)%Z by (apply lt_IZR; rewrite minus_IZR; clear - F2 N; clearbody j; rabs; lra).
  assert (j < k + 1)%Z by (apply lt_IZR; rewrite plus_IZR; clear - F1 N; clearbody j; rabs; lra). lia.
Qed.
Print Assumptions C116_y_round_trip_partial.

(** The rung below does happen: CompactY truncates, so that on [0, 1] rung 257 becomes 256. *)
Theorem C116_y_round_trip_refuted : f_compact_y round_single (f_y round_single 257 0 1) 0 1 = Some 256%Z.
Proof.
  assert (H : rounds single round_single) by (apply round_even_rounds; lia).
  assert (S0 : single 0) by (apply fmt_0; lia). assert (S1 : single 1) by (exists 1%Z, 0%Z; rewrite pow2_0; split; [cbn; lia|split; [lia|lra]]).
  unfold f_y, f_y_percent. rewrite (y_scale _ H). 
  assert (P : round_single (257 * (65537 / 4294967296)) = 8421504 / 2147483648).
  { unfold round_single. rewrite (round_even_at 24 (-149) _ (-7) 8421504).
    - change (-7 - 24)%Z with (- (31))%Z. rewrite pow2_inv, pow2_IZR by lia. change (2 ^ 31)%Z with 2147483648%Z. lra.
    - lia.
    - change (-7 - 1)%Z with (- (8))%Z. change (-7)%Z with (- (7))%Z. rewrite !pow2_inv, !pow2_IZR by lia. cbn. rabs; lra.
    - right. split; [|reflexivity]. change (-7 - 24)%Z with (- (31))%Z. change (- (31) - 1)%Z with (- (32))%Z. rewrite !pow2_inv, !pow2_IZR by lia.
      change (2 ^ 31)%Z with 2147483648%Z. change (2 ^ 32)%Z with 4294967296%Z. rabs; lra. }
  rewrite P. set (p := 8421504 / 2147483648) in *.
  assert (SP : single p).
  { exists 8421504%Z, (- (31))%Z. rewrite pow2_inv, pow2_IZR by lia. change (2 ^ 31)%Z with 2147483648%Z. split; [cbn; lia|split; [lia|unfold p; lra]]. }
  cbv zeta. rewrite Rmult_0_l, (rnd_id _ _ _ H 0 S0), Rmult_1_l, (rnd_id _ _ _ H p SP), Rplus_0_l, (rnd_id _ _ _ H p SP).
  unfold f_compact_y. rewrite !Rminus_0_r, (rnd_id _ _ _ H p SP), (rnd_id _ _ _ H 1 S1).
  rewrite !Rleb_t by (unfold p; lra). cbn [andb]. rewrite (Reqb_f 1 0) by lra.
  replace (p / 1) with p by field. rewrite (rnd_id _ _ _ H p SP).
  replace (Rmax 0 (Rmin p 1)) with p by (unfold p; minmax; lra).
  f_equal. unfold kMaxY.
  rewrite (rnd_at 24 (-149) P24 _ H _ 9 8421375).
  - change (9 - 24)%Z with (- (15))%Z. rewrite pow2_inv, pow2_IZR by lia. change (2 ^ 15)%Z with 32768%Z.
    apply Rtrunc_is; lra.
  - rewrite !pow2_IZR by lia. cbn. unfold p. rabs; lra.
  - lia.
  - change (9 - 24)%Z with (- (15))%Z. change (- (15) - 1)%Z with (- (16))%Z. rewrite !pow2_inv, !pow2_IZR by lia.
    change (2 ^ 15)%Z with 32768%Z. change (2 ^ 16)%Z with 65536%Z. unfold p. rabs; lra.
Qed.
Print Assumptions C116_y_round_trip_refuted.

(** The hypotheses can be met: a granularity and a height of a third, rounded. *)
Example C116_case : rounds single round_single /\ single (11184811 / 33554432) /\ pow2 (-100) <= 11184811 / 33554432 /\
  single 100 /\ 0 <= 100 <= 65535 * (11184811 / 33554432).
Proof.
  split; [apply round_even_rounds; lia|].
  split; [exists 11184811%Z, (- (25))%Z; rewrite pow2_inv, pow2_IZR by lia; split; [cbn; lia|split; [lia|cbn; lra]]|].
  split; [|split; [exists 100%Z, 0%Z; rewrite pow2_0; split; [cbn; lia|split; [lia|lra]]|lra]].
  apply Rle_trans with (pow2 (- (10))); [apply pow2_le; lia|]. rewrite pow2_inv, pow2_IZR by lia. cbn. lra.
Qed.
