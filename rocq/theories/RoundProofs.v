(** Facts about rounding to nearest. *)
From Verif Require Import RBase RoundModel.

(** * Powers of two *)
Lemma pow2_pos e : 0 < pow2 e.
Proof. apply powerRZ_lt. lra. Qed.
Lemma pow2_add a b : pow2 (a + b) = pow2 a * pow2 b.
Proof. apply powerRZ_add. lra. Qed.
Lemma pow2_0 : pow2 0 = 1. Proof. reflexivity. Qed.
Lemma pow2_1 : pow2 1 = 2. Proof. apply powerRZ_1. Qed.
Lemma pow2_opp a : pow2 (- a) * pow2 a = 1.
Proof. rewrite <- pow2_add. replace (- a + a)%Z with 0%Z by lia. reflexivity. Qed.
Lemma pow2_inv a : pow2 (- a) = / pow2 a.
Proof. apply Rmult_eq_reg_r with (pow2 a); [|pose proof (pow2_pos a); lra].
  rewrite pow2_opp. rewrite Rinv_l; [easy|pose proof (pow2_pos a); lra]. Qed.
Lemma pow2_IZR k : (0 <= k)%Z -> pow2 k = IZR (2 ^ k).
Proof.
  intros H. unfold pow2. rewrite <- (Z2Nat.id k H) at 1. rewrite <- pow_powerRZ.
  rewrite pow_IZR. now rewrite Z2Nat.id.
Qed.
Lemma pow2_succ e : pow2 (e + 1) = 2 * pow2 e.
Proof. rewrite pow2_add, pow2_1. lra. Qed.
Lemma pow2_le a b : (a <= b)%Z -> pow2 a <= pow2 b.
Proof.
  intros H. replace b with (a + (b - a))%Z by lia. rewrite pow2_add.
  rewrite (pow2_IZR (b - a)) by lia. pose proof (pow2_pos a).
  assert (1 <= IZR (2 ^ (b - a))). { apply IZR_le. assert (0 < 2 ^ (b - a))%Z by (apply Z.pow_pos_nonneg; lia). lia. }
  nra.
Qed.
Lemma pow2_lt_inv a b : pow2 a < pow2 b -> (a < b)%Z.
Proof. intros H. destruct (Z_lt_le_dec a b); [easy|]. apply pow2_le in l. lra. Qed.

Lemma mag_exists x : 0 < x -> let k := (Rfloor (ln x / ln 2) + 1)%Z in pow2 (k - 1) <= x < pow2 k.
Proof.
  intros H k. assert (L2 : 0 < ln 2) by (rewrite <- ln_1; apply ln_increasing; lra).
  destruct (Rfloor_bounds (ln x / ln 2)) as [A B]. set (n := Rfloor (ln x / ln 2)) in *.
  replace (k - 1)%Z with n by lia. assert (E : ln x = (ln x / ln 2) * ln 2) by (field; lra).
  unfold pow2. rewrite !powerRZ_Rpower by lra. unfold Rpower.
  pose proof (exp_ln x H) as X. split.
  - rewrite <- X. destruct (Req_dec (IZR n * ln 2) (ln x)) as [->|Q]; [lra|]. apply Rlt_le, exp_increasing. nra.
  - rewrite <- X at 1. apply exp_increasing. unfold k. rewrite plus_IZR. rewrite E. apply Rmult_lt_compat_r; [easy|lra].
Qed.

(** * Formats *)
Lemma fmt_opp p emin x : fmt p emin x -> fmt p emin (- x).
Proof. intros (m & e & A & B & ->). exists (- m)%Z, e. rewrite opp_IZR. repeat split; [lia|easy|lra]. Qed.
Lemma fmt_abs p emin x : fmt p emin x -> fmt p emin (Rabs x).
Proof. intros H. destruct (Rabs_cases x) as [[_ ->]|[_ ->]]; [easy|now apply fmt_opp]. Qed.

Lemma fmt_grid_in p emin n e : (0 < p)%Z -> (Z.abs n <= 2 ^ p)%Z -> (emin <= e)%Z -> fmt p emin (IZR n * pow2 e).
Proof.
  intros P A B. destruct (Z.eq_dec (Z.abs n) (2 ^ p)) as [Q|Q].
  - assert (S2 : (2 ^ p = 2 * 2 ^ (p - 1))%Z).
    { replace p with (1 + (p - 1))%Z at 1 by lia. rewrite Z.pow_add_r; lia. }
    assert (0 < 2 ^ (p - 1))%Z by (apply Z.pow_pos_nonneg; lia).
    exists (Z.sgn n * 2 ^ (p - 1))%Z, (e + 1)%Z. rewrite pow2_succ. repeat split; [|lia|].
    + destruct (Z.sgn_spec n) as [[? ->]|[[? ->]|[? ->]]]; lia.
    + assert (N : (n = Z.sgn n * 2 ^ (p - 1) * 2)%Z).
      { destruct (Z.sgn_spec n) as [[? ->]|[[? ->]|[? ->]]]; lia. }
      rewrite N at 1. rewrite !mult_IZR. lra.
  - exists n, e. repeat split; [lia|easy].
Qed.
Lemma fmt_0 p emin : (0 <= p)%Z -> fmt p emin 0.
Proof. intros P. exists 0%Z, emin. assert (0 < 2 ^ p)%Z by (apply Z.pow_pos_nonneg; lia). repeat split; [lia|lia|lra]. Qed.

(** Away from zero the numbers of a format lie on a grid. *)
Lemma fmt_grid p emin x k : (0 < p)%Z -> fmt p emin x -> pow2 k <= Rabs x -> exists n, x = IZR n * pow2 (k + 1 - p).
Proof.
  intros P (m & e & A & B & ->) H.
  assert (k + 1 - p <= e)%Z.
  { assert (M : Rabs (IZR m * pow2 e) < pow2 (p + e)).
    { rewrite Rabs_mult, (Rabs_pos_eq (pow2 e)) by (apply Rlt_le, pow2_pos). rewrite pow2_add.
      rewrite (pow2_IZR p) by lia. rewrite <- abs_IZR. apply Rmult_lt_compat_r; [apply pow2_pos|]. now apply IZR_lt. }
    assert (k < p + e)%Z by (apply pow2_lt_inv; lra). lia. }
  exists (m * 2 ^ (e - (k + 1 - p)))%Z. rewrite mult_IZR, <- pow2_IZR by lia.
  rewrite Rmult_assoc, <- pow2_add. f_equal. f_equal. lia.
Qed.
Lemma fmt_grid0 p emin x : fmt p emin x -> exists n, x = IZR n * pow2 emin.
Proof.
  intros (m & e & A & B & ->). exists (m * 2 ^ (e - emin))%Z. rewrite mult_IZR, <- pow2_IZR by lia.
  rewrite Rmult_assoc, <- pow2_add. f_equal. f_equal. lia.
Qed.
(** A number on a grid, not too big, is in the format. *)
Lemma fmt_of_grid p emin n e : (0 < p)%Z -> (emin <= e)%Z -> Rabs (IZR n * pow2 e) <= pow2 (p + e) -> fmt p emin (IZR n * pow2 e).
Proof.
  intros P E H. apply fmt_grid_in; [easy| |easy].
  rewrite Rabs_mult, (Rabs_pos_eq (pow2 e)) in H by (apply Rlt_le, pow2_pos). rewrite pow2_add in H.
  apply Rmult_le_reg_r in H; [|apply pow2_pos]. rewrite (pow2_IZR p) in H by lia. rewrite <- abs_IZR in H. now apply le_IZR.
Qed.

(** * Rounding *)
Lemma int_even_near y : Rabs (IZR (int_even y) - y) <= 1 / 2.
Proof.
  unfold int_even. destruct (Rfloor_bounds y) as [A B]. set (n := Rfloor y) in *.
  rcases; [| |destruct (Z.even n)]; rewrite ?plus_IZR; rabs; lra.
Qed.
Lemma int_even_nearest y n : Rabs (IZR (int_even y) - y) <= Rabs (IZR n - y).
Proof.
  pose proof (int_even_near y) as H. destruct (Z.eq_dec n (int_even y)) as [->|Q]; [lra|].
  assert (1 <= Rabs (IZR (int_even y) - IZR n)).
  { rewrite <- minus_IZR, <- abs_IZR. apply IZR_le. lia. }
  revert H H0. generalize (IZR n), (IZR (int_even y)). intros. rabs; lra.
Qed.

Section Rounding.
Variables p emin : Z.
Hypothesis P : (0 < p)%Z.

Lemma round_even_rounds : rounds (fmt p emin) (round_even p emin).
Proof.
  intros x. unfold round_even. destruct (Reqb_spec x 0) as [->|X].
  { split; [apply fmt_0; lia|]. intros f _. replace (0 - 0) with 0 by lra. rewrite Rabs_R0. apply Rabs_pos. }
  assert (AX : 0 < Rabs x) by now apply Rabs_pos_lt.
  pose proof (mag_exists _ AX) as M. cbn zeta in M.
  unfold last_bit. set (k := (Rfloor (ln (Rabs x) / ln 2) + 1)%Z) in *.
  set (e := Z.max emin (k - p)). destruct M as [M1 M2].
  set (n := int_even (x * pow2 (- e))). pose proof (pow2_pos e) as E0.
  assert (S1 : pow2 (- e) * pow2 e = 1) by apply pow2_opp.
  assert (XE : x = x * pow2 (- e) * pow2 e) by (rewrite Rmult_assoc, S1; lra).
  assert (G : forall g, Rabs (IZR n * pow2 e - x) <= Rabs (IZR g * pow2 e - x)).
  { intros g. rewrite XE. rewrite <- !Rmult_minus_distr_r, !Rabs_mult.
    apply Rmult_le_compat_r; [apply Rabs_pos|]. apply int_even_nearest. }
  assert (XB : Rabs x < pow2 (p + e)) by (eapply Rlt_le_trans; [exact M2|]; apply pow2_le; lia).
  split.
  - apply fmt_grid_in; [easy| |lia].
    assert (N : Rabs (IZR n - x * pow2 (- e)) <= 1 / 2) by apply int_even_near.
    assert (Rabs (x * pow2 (- e)) < IZR (2 ^ p)).
    { rewrite <- pow2_IZR by lia. rewrite Rabs_mult, (Rabs_pos_eq (pow2 (- e))) by (apply Rlt_le, pow2_pos).
      rewrite pow2_add in XB. apply Rmult_lt_reg_r with (pow2 e); [easy|]. rewrite Rmult_assoc, S1. lra. }
    assert (IZR (Z.abs n) < IZR (2 ^ p + 1)). { rewrite abs_IZR, plus_IZR. revert N H. generalize (IZR n). intros. rabs; lra. }
    apply lt_IZR in H0. lia.
  - intros f F. destruct (Z_le_gt_dec e (k - p)) as [C|C].
    + (* a normal number *)
      assert (EK : e = (k - 1 + 1 - p)%Z) by lia.
      destruct (Rle_lt_dec (pow2 (k - 1)) (Rabs f)) as [D|D].
      * destruct (fmt_grid p emin f (k - 1) P F D) as [g ->]. rewrite <- EK. apply G.
      * assert (S2 : IZR (2 ^ (p - 1)) * pow2 e = pow2 (k - 1)).
        { rewrite <- pow2_IZR by lia. rewrite <- pow2_add. f_equal. lia. }
        destruct (Rle_lt_dec 0 x).
        -- specialize (G (2 ^ (p - 1))%Z). rewrite S2 in G. eapply Rle_trans; [exact G|].
           revert M1 D. rabs; lra.
        -- specialize (G (- 2 ^ (p - 1))%Z). rewrite opp_IZR, Ropp_mult_distr_l_reverse, S2 in G. eapply Rle_trans; [exact G|].
           revert M1 D. rabs; lra.
    + assert (EK : e = emin) by lia. destruct (fmt_grid0 p emin f F) as [g ->]. rewrite <- EK. apply G.
Qed.

Variable rnd : R -> R.
Hypothesis H : rounds (fmt p emin) rnd.

Lemma rnd_fmt x : fmt p emin (rnd x). Proof. apply H. Qed.
Lemma rnd_id x : fmt p emin x -> rnd x = x.
Proof.
  intros F. destruct (H x) as [_ B]. specialize (B x F). replace (x - x) with 0 in B by lra.
  rewrite Rabs_R0 in B. pose proof (Rabs_pos (rnd x - x)). assert (Rabs (rnd x - x) = 0) by lra.
  destruct (Req_dec (rnd x - x) 0) as [Q|Q]; [lra|]. now apply Rabs_no_R0 in Q.
Qed.
Lemma rnd_mono x y : x <= y -> rnd x <= rnd y.
Proof.
  intros L. destruct (Req_dec x y) as [->|Q]; [lra|].
  destruct (Rle_lt_dec (rnd x) (rnd y)) as [|C]; [easy|]. exfalso.
  destruct (H x) as [A1 A2], (H y) as [B1 B2]. specialize (A2 _ B1). specialize (B2 _ A1).
  revert A2 B2. rabs; lra.
Qed.
Lemma rnd_le_fmt x f : fmt p emin f -> x <= f -> rnd x <= f.
Proof. intros F L. rewrite <- (rnd_id f F). now apply rnd_mono. Qed.
Lemma rnd_ge_fmt x f : fmt p emin f -> f <= x -> f <= rnd x.
Proof. intros F L. rewrite <- (rnd_id f F). now apply rnd_mono. Qed.
(** The rounding error is at most half a unit in the last place. *)
Lemma rnd_err x k : (emin <= k - p)%Z -> Rabs x <= pow2 k -> Rabs (rnd x - x) <= pow2 (k - p - 1).
Proof.
  intros K L. set (e := (k - p)%Z). set (n := int_even (x * pow2 (- e))).
  pose proof (int_even_near (x * pow2 (- e))) as N. fold n in N. pose proof (pow2_pos e) as E0.
  assert (S1 : pow2 (- e) * pow2 e = 1) by apply pow2_opp.
  assert (F : fmt p emin (IZR n * pow2 e)).
  { apply fmt_grid_in; [easy| |lia].
    assert (Rabs (x * pow2 (- e)) <= IZR (2 ^ p)).
    { rewrite <- pow2_IZR by lia. rewrite Rabs_mult, (Rabs_pos_eq (pow2 (- e))) by (apply Rlt_le, pow2_pos).
      apply Rmult_le_reg_r with (pow2 e); [easy|]. rewrite Rmult_assoc, S1, <- pow2_add.
      replace (p + e)%Z with k by lia. lra. }
    assert (IZR (Z.abs n) < IZR (2 ^ p + 1)). { rewrite abs_IZR, plus_IZR. revert N H0. generalize (IZR n). intros. rabs; lra. }
    apply lt_IZR in H1. lia. }
  destruct (H x) as [_ B]. specialize (B _ F). eapply Rle_trans; [exact B|].
  assert (XE : x = x * pow2 (- e) * pow2 e) by (rewrite Rmult_assoc, S1; lra).
  rewrite XE at 1. rewrite <- Rmult_minus_distr_r, Rabs_mult, (Rabs_pos_eq (pow2 e)) by lra.
  assert (Q : pow2 (e - 1) * 2 = pow2 e). { rewrite Rmult_comm, <- pow2_succ. f_equal. lia. }
  change (k - p - 1)%Z with (e - 1)%Z. nra.
Qed.
Lemma rnd_rel x : Rabs (rnd x - x) <= Rabs x * pow2 (- p) + pow2 (emin - 1).
Proof.
  pose proof (pow2_pos (emin - 1)). pose proof (pow2_pos (- p)). pose proof (Rabs_pos x).
  destruct (Rle_lt_dec (Rabs x) (pow2 (emin + p))) as [C|C].
  - eapply Rle_trans; [apply (rnd_err x (emin + p)); [lia|easy]|].
    replace (emin + p - p - 1)%Z with (emin - 1)%Z by lia. nra.
  - pose proof (pow2_pos (emin + p)). assert (AX : 0 < Rabs x) by lra. pose proof (mag_exists _ AX) as [M1 M2]. cbn zeta in *.
    set (k := (Rfloor (ln (Rabs x) / ln 2) + 1)%Z) in *.
    eapply Rle_trans; [apply (rnd_err x k); [|lra]|].
    + assert (emin + p < k)%Z by (apply pow2_lt_inv; lra). lia.
    + replace (k - p - 1)%Z with (k - 1 + - p)%Z by lia. rewrite pow2_add. nra.
Qed.
(** Rounding in a known binade, away from ties. *)
Lemma rnd_at x k n : pow2 (k - 1) <= Rabs x <= pow2 k -> (emin <= k - p)%Z ->
  Rabs (x - IZR n * pow2 (k - p)) < pow2 (k - p - 1) -> rnd x = IZR n * pow2 (k - p).
Proof.
  intros [M1 M2] K N. destruct (H x) as [F B]. set (e := (k - p)%Z) in *. pose proof (pow2_pos e) as E0.
  assert (Q : 2 * pow2 (e - 1) = pow2 e). { rewrite <- pow2_succ. f_equal. lia. }
  assert (U : forall a, Rabs (x - IZR a * pow2 e) < pow2 (e - 1) -> a = n).
  { intros a A. assert (D : Rabs (IZR a - IZR n) < 1).
    { apply Rmult_lt_reg_r with (pow2 e); [easy|]. rewrite <- (Rabs_pos_eq (pow2 e)) at 1 by lra.
      rewrite <- Rabs_mult, Rmult_minus_distr_r. rewrite Rmult_1_l. clear - A N Q. revert A N.
      generalize (IZR a * pow2 e), (IZR n * pow2 e). intros. rabs; lra. }
    rewrite <- minus_IZR, <- abs_IZR in D. apply lt_IZR in D. lia. }
  assert (FN : fmt p emin (IZR n * pow2 e)).
  { apply fmt_grid_in; [easy| |easy].
    assert (D : Rabs (IZR n) < IZR (2 ^ p) + 1).
    { apply Rmult_lt_reg_r with (pow2 e); [easy|]. rewrite <- (Rabs_pos_eq (pow2 e)) at 1 by lra. rewrite <- Rabs_mult.
      rewrite Rmult_plus_distr_r, <- pow2_IZR, <- pow2_add by lia. replace (p + e)%Z with k by lia.
      revert N M2. generalize (IZR n * pow2 e). intros. rabs; lra. }
    rewrite <- abs_IZR, <- plus_IZR in D. apply lt_IZR in D. lia. }
  specialize (B _ FN). rewrite Rabs_minus_sym in N.
  destruct (Rle_lt_dec (pow2 (k - 1)) (Rabs (rnd x))) as [C|C].
  - destruct (fmt_grid p emin _ (k - 1) P F C) as [g G]. replace (k - 1 + 1 - p)%Z with e in G by lia.
    rewrite G in *. assert (g = n) as ->; [|easy]. apply U. rewrite Rabs_minus_sym. lra.
  - assert (S2 : IZR (2 ^ (p - 1)) * pow2 e = pow2 (k - 1)).
    { rewrite <- pow2_IZR by lia. rewrite <- pow2_add. f_equal. lia. }
    exfalso. destruct (Rle_lt_dec 0 x).
    + assert ((2 ^ (p - 1))%Z = n) as <-; [|rewrite S2 in *; revert B C M1; rabs; lra].
      apply U. rewrite S2. revert B C M1 N. generalize (IZR n * pow2 e). intros. rabs; lra.
    + assert ((- 2 ^ (p - 1))%Z = n) as <-; [|rewrite opp_IZR, Ropp_mult_distr_l_reverse, S2 in *; revert B C M1; rabs; lra].
      apply U. rewrite opp_IZR, Ropp_mult_distr_l_reverse, S2. revert B C M1 N. generalize (IZR n * pow2 e). intros. rabs; lra.
Qed.
End Rounding.

(** Sterbenz: the difference of two numbers within a factor of two is exact. *)
Lemma sterbenz p emin x y : (0 < p)%Z -> fmt p emin x -> fmt p emin y -> 0 <= y -> y <= 2 * x -> x <= 2 * y ->
  fmt p emin (x - y).
Proof.
  intros P X Y Y0 A B.
  assert (G : forall u v, fmt p emin u -> fmt p emin v -> 0 <= u <= v -> v <= 2 * u -> fmt p emin (v - u)).
  { clear. intros u v (m & e & A & B & ->) (m' & e' & A' & B' & ->) [U1 U2] V.
    set (d := Z.min e e').
    assert (X1 : IZR m * pow2 e = IZR (m * 2 ^ (e - d)) * pow2 d).
    { rewrite mult_IZR, <- pow2_IZR by lia. rewrite Rmult_assoc, <- pow2_add. f_equal. f_equal. lia. }
    assert (X2 : IZR m' * pow2 e' = IZR (m' * 2 ^ (e' - d)) * pow2 d).
    { rewrite mult_IZR, <- pow2_IZR by lia. rewrite Rmult_assoc, <- pow2_add. f_equal. f_equal. lia. }
    exists (m' * 2 ^ (e' - d) - m * 2 ^ (e - d))%Z, d. pose proof (pow2_pos d) as D0.
    split; [|split; [lia|rewrite X1, X2, minus_IZR; ring]].
    rewrite X1, X2 in *. apply Rmult_le_reg_r in U2; [|easy]. apply le_IZR in U2.
    assert (V' : (m' * 2 ^ (e' - d) <= 2 * (m * 2 ^ (e - d)))%Z).
    { apply le_IZR. rewrite (mult_IZR 2). apply Rmult_le_reg_r with (pow2 d); [easy|]. lra. }
    assert (U1' : (0 <= m * 2 ^ (e - d))%Z).
    { apply le_IZR. apply Rmult_le_reg_r with (pow2 d); [easy|]. lra. }
    destruct (Z.le_gt_cases e e').
    + replace (e - d)%Z with 0%Z in * by lia. rewrite Z.pow_0_r, Z.mul_1_r in *. lia.
    + replace (e' - d)%Z with 0%Z in * by lia. rewrite Z.pow_0_r, Z.mul_1_r in *. lia. }
  destruct (Rle_lt_dec x y) as [C|C].
  - replace (x - y) with (- (y - x)) by lra. apply fmt_opp, G; try easy. lra.
  - apply G; try easy; lra.
Qed.

(** A wider format contains a narrower one. *)
Lemma fmt_wider p emin p' emin' x : (0 <= p <= p')%Z -> (emin' <= emin)%Z -> fmt p emin x -> fmt p' emin' x.
Proof.
  intros A B (m & e & C & D & ->). exists m, e. repeat split; [|lia].
  eapply Z.lt_le_trans; [exact C|]. apply Z.pow_le_mono_r; lia.
Qed.
(** Rounding in a known binade. *)
Lemma int_even_is y n : Rabs (y - IZR n) < 1 / 2 \/ (Rabs (y - IZR n) <= 1 / 2 /\ Z.even n = true) -> int_even y = n.
Proof.
  intros H. unfold int_even. destruct (Rfloor_bounds y) as [A B]. set (k := Rfloor y) in *.
  assert (L : Rabs (y - IZR n) <= 1 / 2) by (destruct H as [H|[H _]]; lra).
  assert (C : (n = k \/ n = k + 1)%Z).
  { assert (k - 1 < n)%Z by (apply lt_IZR; rewrite minus_IZR; revert L; rabs; lra).
    assert (n < k + 2)%Z by (apply lt_IZR; rewrite plus_IZR; revert L; rabs; lra). lia. }
  destruct C as [-> | ->].
  - rcases; [easy|revert L; rabs; lra|]. destruct H as [H|[_ ->]]; [|easy]. revert H. rabs; lra.
  - rewrite plus_IZR in *. rcases; [revert L; rabs; lra|easy|].
    destruct H as [H|[_ H]]; [revert H; rabs; lra|].
    rewrite Z.add_1_r, Z.even_succ in H. rewrite <- Z.negb_odd, H. easy.
Qed.
Lemma round_even_at p emin x k n : (emin <= k - p)%Z -> pow2 (k - 1) <= Rabs x < pow2 k ->
  Rabs (x - IZR n * pow2 (k - p)) < pow2 (k - p - 1) \/
  (Rabs (x - IZR n * pow2 (k - p)) <= pow2 (k - p - 1) /\ Z.even n = true) ->
  round_even p emin x = IZR n * pow2 (k - p).
Proof.
  intros K [M1 M2] N. pose proof (pow2_pos (k - 1)). unfold round_even.
  destruct (Reqb_spec x 0) as [->|X]; [rewrite Rabs_R0 in M1; lra|].
  assert (AX : 0 < Rabs x) by lra. pose proof (mag_exists _ AX) as [L1 L2]. cbn zeta in *.
  unfold last_bit. set (j := (Rfloor (ln (Rabs x) / ln 2) + 1)%Z) in *.
  assert (j = k). { assert (j - 1 < k)%Z by (apply pow2_lt_inv; lra). assert (k - 1 < j)%Z by (apply pow2_lt_inv; lra). lia. }
  subst j. rewrite H0. replace (Z.max emin (k - p)) with (k - p)%Z by lia. set (e := (k - p)%Z) in *.
  f_equal. f_equal. apply int_even_is.
  assert (S1 : pow2 (- e) * pow2 e = 1) by apply pow2_opp. pose proof (pow2_pos e) as E0.
  assert (Q : pow2 (e - 1) = 1 / 2 * pow2 e). { replace e with (e - 1 + 1)%Z at 2 by lia. rewrite pow2_succ. lra. }
  assert (Y : Rabs (x - IZR n * pow2 e) = Rabs (x * pow2 (- e) - IZR n) * pow2 e).
  { rewrite <- (Rabs_pos_eq (pow2 e)) at 2 by lra. rewrite <- Rabs_mult. f_equal.
    replace ((x * pow2 (- e) - IZR n) * pow2 e) with (x * (pow2 (- e) * pow2 e) - IZR n * pow2 e) by ring. rewrite S1. lra. }
  rewrite Y, Q in N. destruct N as [N|[N E]]; [left|right; split; [|easy]].
  - now apply Rmult_lt_reg_r in N.
  - now apply Rmult_le_reg_r in N.
Qed.
