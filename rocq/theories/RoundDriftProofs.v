(** Playing any spline in single precision: lemmas for C120.

    Off the grid of C119 positions are rounded.  What is kept from frame to frame is the
    place [st + cubic_x], a real number, and that the segment is near it; every rounding
    moves the place by at most [err]. *)
From Verif Require Import RBase BaseFacts RangeModel CurveModel CompactSplineModel CompactSplineSpec CompactSplineProofs CompactSplineIndex CompactSplineEvalProps EvaluatorModel EvaluatorSpec EvaluatorProofs EvaluatorPlay EvaluatorProps RoundModel RoundProofs RoundRangeModel RoundNodeModel RoundCubicModel RoundCubicProps RoundEvaluatorModel RoundEvaluatorProofs.

Section Drift.
Variable rnd : R -> R.
Hypothesis H : rounds single rnd.
Variable tangent : Z -> R.
Variable sp : spline.
Hypothesis O : spline_ok sp.
Variable k : Z.
Hypothesis K : (-100 <= k <= 100)%Z.
Notation g := (x_granularity sp).
Hypothesis G1 : pow2 (k - 21) <= g.
Hypothesis G2 : forall n i, getz (nodes sp) i = Some n -> IZR (nx n) * g <= pow2 (k - 1).
Notation err := (pow2 (k - 25)).
Notation top := (pow2 k).

Lemma top_err : top = 33554432 * err.
Proof. replace k with (25 + (k - 25))%Z at 1 by lia. rewrite pow2_add, (pow2_IZR 25) by lia. reflexivity. Qed.
Lemma g_err : 16 * err <= g.
Proof. replace (k - 21)%Z with (4 + (k - 25))%Z in G1 by lia. rewrite pow2_add, (pow2_IZR 4) in G1 by lia. exact G1. Qed.
Lemma half_top : pow2 (k - 1) = top / 2.
Proof. replace k with (k - 1 + 1)%Z at 2 by lia. rewrite pow2_succ. lra. Qed.
Lemma top_g : top <= 2097152 * g.
Proof. replace k with (21 + (k - 21))%Z at 1 by lia. rewrite pow2_add, (pow2_IZR 21) by lia. change (2 ^ 21)%Z with 2097152%Z. lra. Qed.
Lemma err_pos : 0 < err. Proof. apply pow2_pos. Qed.
Lemma g_pos : 0 < g. Proof. pose proof g_err. pose proof err_pos. lra. Qed.
Lemma rnd_0 : rnd 0 = 0. Proof. apply (rnd_id _ _ _ H). apply fmt_0. lia. Qed.
Lemma rnd_pos z : 0 <= z -> 0 <= rnd z. Proof. intros Z. rewrite <- rnd_0. now apply (rnd_mono _ _ _ H). Qed.
Lemma rnd_neg z : z <= 0 -> rnd z <= 0. Proof. intros Z. rewrite <- rnd_0. now apply (rnd_mono _ _ _ H). Qed.
Lemma near_rnd z : Rabs z <= top -> rnd z - err <= z <= rnd z + err.
Proof.
  intros Z. pose proof (rnd_err 24 (-149) P24 rnd H z k ltac:(lia) Z) as E. replace (k - 24 - 1)%Z with (k - 25)%Z in E by lia.
  clear - E. revert E. rabs; lra.
Qed.
Lemma near_rnd' z : - top <= z <= top -> rnd z - err <= z <= rnd z + err.
Proof. intros Z. apply near_rnd. apply Rabs_le. lra. Qed.

(** * Nodes *)
Lemma node_near n i : getz (nodes sp) i = Some n -> (0 <= nx n <= 65535)%Z /\ 0 <= f_node_x rnd sp n /\
  f_node_x rnd sp n - g / 32 <= IZR (nx n) * g <= f_node_x rnd sp n + g / 32 /\ single (f_node_x rnd sp n) /\ f_node_x rnd sp n <= top / 2.
Proof.
  intros N. destruct (fields_at sp i n O N) as (B & _). split; [exact B|]. pose proof g_pos as GP. pose proof err_pos as EP. pose proof g_err as GE.
  assert (B1 : 0 <= IZR (nx n) <= 65535) by (split; apply IZR_le; lia).
  assert (L : 0 <= IZR (nx n) * g) by (apply Rmult_le_pos; lra). pose proof (G2 n i N) as U.
  unfold f_node_x, f_x. split; [apply rnd_pos; exact L|].
  assert (E : rnd (IZR (nx n) * g) - g / 32 <= IZR (nx n) * g <= rnd (IZR (nx n) * g) + g / 32).
  { pose proof (rnd_err 24 (-149) P24 rnd H (IZR (nx n) * g) (k - 1) ltac:(lia) ltac:(rewrite Rabs_pos_eq; lra)) as E. replace (k - 1 - 24 - 1)%Z with (k - 26)%Z in E by lia.
    assert (E8 : err = 2 * pow2 (k - 26)) by (replace (k - 25)%Z with (k - 26 + 1)%Z by lia; apply pow2_succ).
    revert E. generalize (rnd (IZR (nx n) * g)). intros r E. clear - E E8 GE. revert E. rabs; lra. }
  split; [exact E|]. split; [apply (rnd_fmt _ _ _ H)|]. rewrite <- half_top. apply (rnd_le_fmt _ _ _ H); [|exact U]. rewrite <- (Rmult_1_l (pow2 (k - 1))). apply fmt_grid_in; lia.
Qed.
Lemma node_mono a b : (nx a <= nx b)%Z -> f_node_x rnd sp a <= f_node_x rnd sp b.
Proof. intros L. unfold f_node_x, f_x. apply (rnd_mono _ _ _ H). apply Rmult_le_compat_r; [left; apply g_pos|apply IZR_le; lia]. Qed.

(** * Finding a segment *)
Lemma quantize_near x : 0 <= x <= top -> exists q, f_quantize_x rnd x g = Some q /\ (0 <= q <= 2097153)%Z /\ IZR q * g - 11 / 16 * g <= x <= IZR q * g + 11 / 16 * g.
Proof.
  intros X. pose proof g_pos as GP. pose proof top_g as TG. unfold f_quantize_x. unfold Reqb. destruct (Req_EM_T g 0); [lra|]. cbn [negb].
  set (z := x / g). assert (Z : z * g = x) by (unfold z; field; lra).
  assert (Z0 : 0 <= z). { apply Rmult_le_reg_r with g; [easy|]. lra. }
  assert (Z1 : z <= 2097152). { apply Rmult_le_reg_r with g; [easy|]. lra. }
  assert (P21 : pow2 21 = 2097152) by (rewrite pow2_IZR by lia; reflexivity). assert (P22 : pow2 22 = 4194304) by (rewrite pow2_IZR by lia; reflexivity).
  assert (P4' : pow2 (21 - 24 - 1) = / 16) by (change (21 - 24 - 1)%Z with (- (4))%Z; rewrite pow2_inv, pow2_IZR by lia; reflexivity).
  assert (P3' : pow2 (22 - 24 - 1) = / 8) by (change (22 - 24 - 1)%Z with (- (3))%Z; rewrite pow2_inv, pow2_IZR by lia; reflexivity).
  pose proof (rnd_err 24 (-149) P24 rnd H z 21 ltac:(lia) ltac:(rewrite Rabs_pos_eq, P21; lra)) as E1. rewrite P4' in E1. pose proof (rnd_pos z Z0) as R0.
  set (r := rnd z) in *. assert (R1 : r - / 16 <= z <= r + / 16) by (clear - E1; revert E1; rabs; lra).
  pose proof (rnd_err 24 (-149) P24 rnd H (r + 1 / 2) 22 ltac:(lia) ltac:(rewrite Rabs_pos_eq, P22; lra)) as E2. rewrite P3' in E2. pose proof (rnd_pos (r + 1 / 2) ltac:(lra)) as S0.
  set (s := rnd (r + 1 / 2)) in *. assert (S1 : s - / 8 <= r + 1 / 2 <= s + / 8) by (clear - E2; revert E2; rabs; lra).
  destruct (Rtrunc_bounds s) as [T _]. specialize (T S0). set (q := Rtrunc s) in *.
  assert (Q0 : (0 <= q)%Z) by (apply Rtrunc_nonneg; exact S0).
  assert (Q1 : (q < 2097154)%Z) by (apply lt_IZR; lra).
  exists q. unfold to_int. fold q. cbv zeta. replace ((-2147483648 <=? q) && (q <? 2147483648))%Z with true by lia. split; [reflexivity|]. split; [lia|].
  rewrite <- Z. replace (IZR q * g - 11 / 16 * g) with ((IZR q - 11 / 16) * g) by ring. replace (IZR q * g + 11 / 16 * g) with ((IZR q + 11 / 16) * g) by ring.
  split; apply Rmult_le_compat_r; lra.
Qed.
Lemma exact_quantize q : (0 <= q <= 2097153)%Z -> quantize_x (IZR q * g) g = Some q.
Proof.
  intros Q. pose proof g_pos as GP. unfold quantize_x, Reqb. destruct (Req_EM_T g 0); [lra|]. cbn [negb]. replace (IZR q * g / g) with (IZR q) by (field; lra).
  unfold to_int. rewrite (Rtrunc_IZR q) by (lia || lra). cbv zeta. replace ((-2147483648 <=? q) && (q <? 2147483648))%Z with true by lia. reflexivity.
Qed.
Lemma width_same a b : Rltb 0 (f_width_x rnd sp a b) = Rltb 0 (width_x sp a b).
Proof.
  pose proof g_pos as GP. unfold f_width_x, width_x. destruct (Z_lt_le_dec (nx a) (nx b)) as [L|L].
  - assert (1 * g <= IZR (nx b - nx a) * g) by (apply Rmult_le_compat_r; [lra|apply IZR_le; lia]). rewrite !Rltb_t; [reflexivity|lra|].
    apply Rlt_le_trans with (pow2 (k - 21)); [apply pow2_pos|]. apply (rnd_ge_fmt _ _ _ H); [|lra]. rewrite <- (Rmult_1_l (pow2 (k - 21))). apply fmt_grid_in; lia.
  - assert (L0 : IZR (nx b - nx a) * g <= 0). { assert (IZR (nx b - nx a) <= 0) by (apply IZR_le; lia). assert (IZR (nx b - nx a) * g <= 0 * g) by (apply Rmult_le_compat_r; lra). lra. }
    rewrite !Rltb_f; [reflexivity|lra|]. now apply rnd_neg.
Qed.
Lemma index_same x q guess : f_quantize_x rnd x g = Some q -> (0 <= q <= 2097153)%Z -> f_index_for_x rnd sp x guess = index_for_x sp (IZR q * g) guess.
Proof.
  intros F Q. unfold f_index_for_x, index_for_x. rewrite F, (exact_quantize q Q). destruct (front sp); [|reflexivity]. destruct (back sp); [|reflexivity].
  repeat (match goal with |- (if ?b then _ else _) = _ => destruct b; [reflexivity|] end).
  destruct (index_contains_x sp q guess) as [[|]|]; [|reflexivity|reflexivity]. destruct (getz (nodes sp) guess) as [a|]; [|reflexivity]. destruct (getz (nodes sp) (guess + 1)) as [b|]; [|reflexivity].
  rewrite width_same. reflexivity.
Qed.

(** The segment [i] is near [x]. *)
Definition near (i : Z) (x : R) : Prop :=
  (i = kBeforeSplineIndex /\ exists n, front sp = Some n /\ x <= f_node_x rnd sp n + 13 / 16 * g) \/
  (i = kAfterSplineIndex /\ exists n, back sp = Some n /\ f_node_x rnd sp n - 13 / 16 * g <= x) \/
  ((0 <= i < num_nodes sp - 1)%Z /\ exists a b, getz (nodes sp) i = Some a /\ getz (nodes sp) (i + 1) = Some b /\
     f_node_x rnd sp a - 13 / 16 * g <= x <= f_node_x rnd sp b + 13 / 16 * g /\ ((nx a < nx b)%Z \/ i = (num_nodes sp - 2)%Z)).

Lemma index_near x guess : 0 <= x <= top -> (0 <= guess)%Z ->
  exists i, f_index_for_x rnd sp x guess = Some i /\ (0 <= i)%Z /\ (forall y, x - err <= y <= x + err -> near i y) /\
    (i = kAfterSplineIndex -> (2 <= num_nodes sp)%Z -> exists b, back sp = Some b /\ f_node_x rnd sp b < x).
Proof.
  intros X GU. pose proof g_pos as GP. pose proof g_err as GE. pose proof top_g as TG. destruct (quantize_near x X) as (q & FQ & Q & N). rewrite (index_same x q guess FQ Q).
  destruct (lookup_held sp (IZR q * g) guess false O GU) as (i & x' & IX & HB & W & _); [intros F; discriminate| |].
  { assert (0 <= IZR q <= 2097153) by (split; apply IZR_le; lia). assert (0 <= IZR q * g) by (apply Rmult_le_pos; lra). assert (IZR q * g <= 2097153 * g) by (apply Rmult_le_compat_r; lra). lra. }
  unfold index_for_x_allowing_repeat in IX. destruct (index_for_x sp (IZR q * g) guess) as [j|]; [|discriminate]. cbn in IX. injection IX as <- <-. clear W.
  exists j. split; [reflexivity|]. split; [eapply held_index_pos; eauto|].
  assert (LE : forall a b, IZR a * g - g / 2 <= IZR b * g -> IZR a * g <= IZR b * g).
  { intros a b L. apply Rmult_le_compat_r; [lra|]. apply IZR_le. apply Z.lt_succ_r. apply lt_IZR. unfold Z.succ. rewrite plus_IZR. apply Rmult_lt_reg_r with g; [easy|]. lra. }
  split.
  - intros y Y. destruct HB as [[-> (sx & SX & L)]|[[-> (ex & EX & L)]|(I & a & b & GA & GB & [L1 L2] & W)]].
    + left. split; [reflexivity|]. unfold start_x in SX. destruct (front sp) as [n|] eqn:F; [|discriminate]. injection SX as <-. exists n. split; [reflexivity|].
      destruct (node_near n _ F) as (_ & _ & B & _). unfold node_x in L. lra.
    + right. left. split; [reflexivity|]. unfold end_x in EX. destruct (back sp) as [n|] eqn:F; [|discriminate]. injection EX as <-. exists n. split; [reflexivity|].
      destruct (node_near n _ F) as (_ & _ & B & _). unfold node_x in L. pose proof (LE (nx n) q) as L'. destruct L as [L|[_ L]]; specialize (L' ltac:(lra)); lra.
    + right. right. split; [exact I|]. exists a, b. split; [exact GA|]. split; [exact GB|]. split; [|exact W].
      destruct (node_near a _ GA) as (_ & _ & B & _). destruct (node_near b _ GB) as (_ & _ & B' & _). unfold node_x in L1, L2.
      pose proof (LE (nx a) q L1). pose proof (LE q (nx b) ltac:(lra)). lra.
  - intros -> N2. destruct HB as [[D _]|[[_ (ex & EX & L)]|((D & D') & _)]]; [discriminate| |].
    + unfold end_x in EX. destruct (back sp) as [n|] eqn:F; [|discriminate]. injection EX as <-. exists n. split; [reflexivity|]. destruct L as [L|[L _]]; [|lia].
      apply Rnot_le_lt. intros LX. destruct (node_near n _ F) as (B0 & _ & B & _). unfold node_x in L.
      assert (QN : (nx n + 1 <= q)%Z). { apply Zlt_le_succ. apply lt_IZR. apply Rmult_lt_reg_r with g; lra. }
      unfold f_quantize_x in FQ. unfold Reqb in FQ. destruct (Req_EM_T g 0); [lra|]. cbn [negb] in FQ. unfold to_int in FQ. cbv zeta in FQ.
      match type of FQ with (if ?b then _ else _) = _ => destruct b; [|discriminate] end. injection FQ as FQ.
      assert (R1 : rnd (x / g) <= IZR (4 * nx n + 1) * pow2 (-2)).
      { apply (rnd_le_fmt _ _ _ H); [apply fmt_grid_in; lia|]. change (-2)%Z with (- (2))%Z. rewrite pow2_inv, pow2_IZR by lia. change (2 ^ 2)%Z with 4%Z. rewrite plus_IZR, mult_IZR.
        apply Rmult_le_reg_r with g; [easy|]. replace (x / g * g) with x by (field; lra). lra. }
      assert (R2 : rnd (rnd (x / g) + 1 / 2) <= IZR (4 * nx n + 3) * pow2 (-2)).
      { apply (rnd_le_fmt _ _ _ H); [apply fmt_grid_in; lia|]. revert R1. change (-2)%Z with (- (2))%Z. rewrite pow2_inv, pow2_IZR by lia. change (2 ^ 2)%Z with 4%Z. rewrite !plus_IZR, !mult_IZR. lra. }
      revert R2. change (-2)%Z with (- (2))%Z. rewrite pow2_inv, pow2_IZR by lia. change (2 ^ 2)%Z with 4%Z. rewrite plus_IZR, mult_IZR. intros R2.
      apply Rtrunc_mono in R2. rewrite FQ in R2. rewrite (Rtrunc_IZR (nx n)) in R2; [lia|lia|lra].
    + pose proof (ok_count sp O). unfold kAfterSplineIndex in D'. lia.
Qed.

(** * The end, and repeating *)
Definition fe : R := match back sp with Some b => f_node_x rnd sp b | None => 0 end.
Lemma fe_is : exists b, back sp = Some b /\ f_end_x rnd sp = Some fe /\ fe = f_node_x rnd sp b /\ single fe /\ 0 <= fe <= top / 2.
Proof.
  destruct (ok_back sp O) as [b B]. exists b. destruct (node_near b _ B) as (_ & P & _ & S & U). unfold f_end_x, fe. rewrite B. auto 10.
Qed.
Lemma near_top i x : near i x -> i <> kAfterSplineIndex -> x <= fe + 13 / 16 * g.
Proof.
  intros N A. destruct fe_is as (z & Z & _ & FE & _).
  assert (MX : forall n j, getz (nodes sp) j = Some n -> f_node_x rnd sp n <= fe).
  { intros n j J. rewrite FE. apply node_mono. unfold back, num_nodes in Z. pose proof (getz_Some _ _ _ J) as JB.
    apply (sorted_getz (nodes sp) (ok_sorted sp O) j (len (nodes sp) - 1)%Z n z J Z). lia. }
  destruct N as [(_ & n & F & L)|[(E & _)|(_ & a & b & GA & GB & L & _)]].
  - pose proof (MX n _ F). lra.
  - easy.
  - pose proof (MX b _ GB). lra.
Qed.
Lemma close_run : 0 < fe -> 8 * fe <= top -> forall j fuel n x, (1 <= j <= fuel)%nat -> (0 <= n)%Z -> (n + Z.of_nat j <= 5)%Z -> fe < x <= (INR j + 1) * fe - (INR j - 1) * err ->
  exists m y, f_close_loop rnd 0 fe fuel false x n = Some y /\ 0 <= y <= fe /\ - (INR j * err) <= y - (x - IZR m * fe) <= INR j * err.
Proof.
  intros FP FT. destruct fe_is as (b & _ & _ & _ & SF & FB). pose proof err_pos as EP.
  assert (LEN : f_length rnd 0 fe = fe) by (unfold f_length; rewrite Rminus_0_r; apply (rnd_id _ _ _ H); exact SF).
  induction j as [|j IH]; intros fuel n x J N NJ X; [lia|]. destruct fuel as [|fuel]; [lia|]. cbn [f_close_loop]. rewrite LEN. replace (4 <? n)%Z with false by lia.
  rewrite S_INR in *. pose proof (pos_INR j) as JP. assert (J4 : INR j <= 4). { replace 4 with (INR 4) by (cbn; lra). apply le_INR. lia. }
  assert (XE : x <= 6 * fe).
  { assert ((INR j + 1 + 1) * fe <= 6 * fe) by (apply Rmult_le_compat_r; lra). assert (0 <= (INR j + 1 - 1) * err) by (apply Rmult_le_pos; lra). lra. }
  pose proof (near_rnd' (x - fe) ltac:(lra)) as NR. pose proof (rnd_pos (x - fe) ltac:(lra)) as RP. set (x' := rnd (x - fe)) in *.
  destruct (Rltb fe x') eqn:L.
  - apply Rltb_true in L. destruct j as [|j].
    + exfalso. cbn in X. assert (x' <= fe); [|lra]. unfold x'. apply (rnd_le_fmt _ _ _ H); [exact SF|lra].
    + destruct (IH fuel (n + 1)%Z x' ltac:(lia) ltac:(lia) ltac:(lia)) as (m & y & E & Y & B).
      { split; [exact L|]. lra. }
      exists (m + 1)%Z, y. split; [exact E|]. split; [exact Y|]. rewrite plus_IZR. lra.
  - apply Rltb_false in L. exists 1%Z, x'. split; [reflexivity|]. split; [lra|].
    assert (0 <= INR j * err) by (apply Rmult_le_pos; lra). lra.
Qed.

(** * Places *)
(** [y] is [x], or [x] some repeats earlier or later, but for [n] roundings. *)
Definition moved (repeat : bool) (n x y : R) : Prop :=
  if repeat then exists m, - (n * err) <= y - (x - IZR m * fe) <= n * err else - (n * err) <= y - x <= n * err.
Lemma moved_refl b x : moved b 0 x x.
Proof. unfold moved. destruct b; [exists 0%Z|]; lra. Qed.
Lemma moved_trans b n m x y z : moved b n x y -> moved b m y z -> moved b (n + m) x z.
Proof.
  unfold moved. destruct b.
  - intros (i & I) (j & J). exists (i + j)%Z. rewrite plus_IZR. lra.
  - lra.
Qed.
Lemma moved_add b n x y d : moved b n x y -> moved b n (x + d) (y + d).
Proof. unfold moved. destruct b; [intros (i & I); exists i|]; lra. Qed.
Lemma moved_le b n m x y : n <= m -> moved b n x y -> moved b m x y.
Proof.
  intros L. pose proof err_pos. assert (n * err <= m * err) by (apply Rmult_le_compat_r; lra). unfold moved. destruct b; [intros (i & I); exists i|]; lra.
Qed.
Lemma moved_near b n x y : - (n * err) <= y - x <= n * err -> moved b n x y.
Proof. unfold moved. destruct b; [exists 0%Z|]; lra. Qed.

Record drifting (f : slot) (p : playback) (x : R) : Prop := {
  dr_source : source f = Some sp;
  dr_rate : rate f = playback_rate p;
  dr_offset : offset_y f = y_offset p;
  dr_scale : scale_y f = y_scale p;
  dr_repeat : repeats f = repeat_ p;
  dr_after : repeat_ p = true -> x_index f <> kAfterSplineIndex;
  dr_index : (0 <= x_index f)%Z;
  dr_near : near (x_index f) x;
  dr_pos : 0 <= x;
  dr_single : single (cubic_x f);
  dr_curve : has_curve rnd tangent sp f;
  dr_place : exists st en, f_range_x rnd sp (x_index f) = Some (st, en) /\ f_node_x_at rnd sp (x_index f) = Some st /\
    cubic_x_end f = f_length_x rnd (st, en) /\ x = st + cubic_x f /\ 0 <= st <= top / 2 /\ single st
}.

Lemma range_near i x : near i x -> exists st en c, f_range_x rnd sp i = Some (st, en) /\ f_node_x_at rnd sp i = Some st /\ f_create_cubic_init rnd tangent sp i = Some c /\
  0 <= st <= top / 2 /\ single st.
Proof.
  intros N. pose proof g_pos as GP. pose proof (pow2_pos k) as TP. pose proof (ok_count sp O) as CN. destruct N as [(-> & n & F & L)|[(-> & n & F & L)|(I & a & b & GA & GB & L & _)]].
  - unfold f_range_x, f_node_x_at, f_create_cubic_init, f_start_x. cbn -[front]. rewrite F. do 3 eexists. do 3 (split; [reflexivity|]). split; [lra|apply fmt_0; lia].
  - destruct (node_near n _ F) as (_ & P & _ & S & U). unfold f_range_x, f_node_x_at, f_create_cubic_init, f_end_x. cbn -[back]. rewrite F. do 3 eexists. do 3 (split; [reflexivity|]). split; [lra|exact S].
  - destruct (node_near a _ GA) as (_ & P & _ & S & U).
    assert (X1 : (i =? kBeforeSplineIndex)%Z = false) by (unfold kBeforeSplineIndex; lia). assert (X2 : (i =? kAfterSplineIndex)%Z = false) by (unfold kAfterSplineIndex; lia).
    assert (X3 : outside_spline i = false) by (unfold outside_spline, kAfterSplineIndex; lia).
    unfold f_range_x, f_node_x_at, f_create_cubic_init. rewrite X1, X2, X3, GA, GB. do 3 eexists. do 3 (split; [reflexivity|]). split; [lra|exact S].
Qed.

(** What a spline needs so that it can repeat. *)
Definition repeatable (b : bool) : Prop := b = true -> (2 <= num_nodes sp)%Z /\ 0 < fe /\ 8 * fe <= top.

Lemma repeat_near x0 guess b : 0 <= x0 <= top -> (0 <= guess)%Z -> repeatable b -> (b = true -> x0 <= 6 * fe - 4 * err) ->
  exists i y, f_index_for_x_allowing_repeat rnd sp x0 guess b = Some (i, y) /\ (0 <= i)%Z /\ 0 <= y <= top /\ (forall z, y - err <= z <= y + err -> near i z) /\
    (b = true -> i <> kAfterSplineIndex) /\ moved b 5 x0 y.
Proof.
  intros X GU RP XB. pose proof err_pos as EP. destruct (index_near x0 guess X GU) as (i & IX & IP & NR & AF). unfold f_index_for_x_allowing_repeat. rewrite IX.
  destruct b; cbn [negb orb].
  - destruct (RP eq_refl) as (N2 & FP & FT). destruct (Z.eqb_spec i kAfterSplineIndex) as [->|NE]; cbn [negb orb].
    + destruct (AF eq_refl N2) as (z & BK & L). destruct fe_is as (z' & BK' & FX & FE & SF & FB). rewrite BK in BK'. injection BK' as <-. rewrite <- FE in L. rewrite FX.
      unfold f_normalize_close. rewrite (Rleb_f x0 0), (Rltb_t fe x0) by lra. cbn [negb andb].
      destruct (close_run FP FT 5 6 0 x0 ltac:(lia) ltac:(lia) ltac:(lia)) as (m & y & CL & Y & B). { cbn [INR]. specialize (XB eq_refl). lra. }
      rewrite CL. pose proof g_pos. destruct (index_near y 0 ltac:(lra) ltac:(lia)) as (j & JX & JP & NJ & AJ). rewrite JX. exists j, y. split; [reflexivity|]. split; [exact JP|]. split; [lra|]. split; [exact NJ|]. split.
      * intros _ ->. destruct (AJ eq_refl N2) as (z2 & BK2 & L2). rewrite BK in BK2. injection BK2 as <-. lra.
      * exists m. cbn [INR] in B. lra.
    + exists i, x0. split; [reflexivity|]. split; [exact IP|]. split; [exact X|]. split; [exact NR|]. split; [easy|]. apply moved_near. lra.
  - exists i, x0. split; [reflexivity|]. split; [exact IP|]. split; [exact X|]. split; [exact NR|]. split; [discriminate|]. apply moved_near. lra.
Qed.

Lemma init_drifting f p x0 : source f = Some sp -> rate f = playback_rate p -> offset_y f = y_offset p -> scale_y f = y_scale p -> repeats f = repeat_ p ->
  0 <= x0 <= top -> repeatable (repeat_ p) -> (repeat_ p = true -> x0 <= 6 * fe - 4 * err) ->
  exists f' x', f_init_cubic rnd tangent f x0 = Some f' /\ drifting f' p x' /\ moved (repeat_ p) 6 x0 x' /\ (repeat_ p = false -> moved false 1 x0 x').
Proof.
  intros SO RA OF SC RE X RP XB. pose proof err_pos as EP. pose proof g_pos as GP. unfold f_init_cubic. rewrite SO, RE.
  assert (GU : (0 <= (x_index f + 1) mod 65536)%Z) by (apply Z.mod_pos_bound; lia).
  destruct (repeat_near x0 _ (repeat_ p) X GU RP XB) as (i & y & IX & IP & Y & NR & AF & MV). rewrite IX.
  destruct (range_near i y (NR y ltac:(lra))) as (st & en & c & RX & NX & CC & SB & SS). rewrite RX, CC. cbn [fst].
  pose proof (near_rnd' (y - st) ltac:(lra)) as E.
  assert (LO : - st <= rnd (y - st)). { apply (rnd_ge_fmt _ _ _ H); [apply fmt_opp; exact SS|lra]. }
  eexists _, (st + rnd (y - st)). split; [reflexivity|]. split; [split; cbn; auto|split].
  - apply NR. lra.
  - lra.
  - apply (rnd_fmt _ _ _ H).
  - exists c. split; [exact CC|reflexivity].
  - exists st, en. auto 10.
  - replace 6 with (5 + 1) by lra. eapply moved_trans; [exact MV|]. apply moved_near. lra.
  - intros RF. rewrite RF in *. unfold f_index_for_x_allowing_repeat in IX. destruct (f_index_for_x rnd sp x0 _); [|discriminate]. cbn in IX. injection IX as _ <-. apply moved_near. lra.
Qed.
Lemma evaluate_drifting f p x : drifting f p x -> drifting (f_evaluate_slot rnd f) p x.
Proof. intros []. split; auto. Qed.

Lemma step_drifting f p x delta : drifting f p x -> repeatable (repeat_ p) -> 0 <= delta * playback_rate p -> x + delta * playback_rate p + 2 * err <= top ->
  (repeat_ p = true -> delta * playback_rate p <= 3 * fe) ->
  exists f' x', f_advance_slot rnd tangent delta f = Some f' /\ drifting f' p x' /\ cur_y f' = f_keval rnd (curve f') (cubic_x f') /\
    moved (repeat_ p) 9 (x + delta * playback_rate p) x' /\ (repeat_ p = false -> moved false 4 (x + delta * playback_rate p) x').
Proof.
  intros D RP DP XT DB. pose proof err_pos as EP. pose proof g_err as GE. pose proof g_pos as GP. pose proof (dr_pos _ _ _ D) as XP.
  destruct (dr_place _ _ _ D) as (st & en & RX & NX & CE & XE & SB & SS). set (d := delta * playback_rate p) in *.
  pose proof (near_rnd' d ltac:(lra)) as E1. pose proof (rnd_pos d DP) as D0. set (d' := rnd d) in *.
  assert (CB : - top <= cubic_x f + d' <= top) by lra.
  pose proof (near_rnd' _ CB) as E2.
  assert (MONO : cubic_x f <= rnd (cubic_x f + d')). { apply (rnd_ge_fmt _ _ _ H); [apply D|lra]. }
  set (c := rnd (cubic_x f + d')) in *.
  unfold f_advance_slot. cbv zeta. assert (SX : cubic_x (f_step_x rnd delta f) = c) by (cbn; rewrite (dr_rate _ _ _ D); reflexivity).
  destruct (past_end (f_step_x rnd delta f)) eqn:PE.
  - assert (FX : f_slot_x rnd (f_step_x rnd delta f) = Some (rnd (st + c))).
    { unfold f_slot_x. rewrite SX. cbn [f_step_x source x_index]. rewrite (dr_source _ _ _ D), NX. reflexivity. }
    rewrite FX. pose proof (near_rnd' (st + c) ltac:(lra)) as E3. pose proof (rnd_pos (st + c) ltac:(lra)) as P3. set (x1 := rnd (st + c)) in *.
    assert (X1 : x1 <= top). { unfold x1. apply (rnd_le_fmt _ _ _ H); [rewrite <- (Rmult_1_l (pow2 k)); apply fmt_grid_in; lia|lra]. }
    destruct (init_drifting (f_step_x rnd delta f) p x1) as (f' & x' & FI & DF & MV & MF); [apply D|apply D|apply D|apply D|apply D|lra|exact RP| |].
    { intros RT. destruct (RP RT) as (_ & FP & FT). specialize (DB RT). pose proof (near_top _ _ (dr_near _ _ _ D) (dr_after _ _ _ D RT)) as NT.
      assert (GF : g - g / 32 <= fe).
      { destruct fe_is as (b & BK & _ & FE & _). destruct (node_near b _ BK) as (NB & _ & B & _). rewrite <- FE in B.
        assert (1 <= nx b)%Z. { destruct (Z_lt_le_dec 0 (nx b)) as [L|L]; [lia|]. exfalso. assert (Z0 : nx b = 0%Z) by lia. rewrite FE in FP. unfold f_node_x, f_x in FP. rewrite Z0, Rmult_0_l, rnd_0 in FP. lra. }
        assert (1 * g <= IZR (nx b) * g) by (apply Rmult_le_compat_r; [lra|apply IZR_le; lia]). lra. }
      lra. }
    rewrite FI. exists (f_evaluate_slot rnd f'), x'. split; [reflexivity|]. split; [now apply evaluate_drifting|]. split; [reflexivity|]. split.
    + replace 9 with (3 + 6) by lra. eapply moved_trans; [|exact MV]. apply moved_near. lra.
    + intros RF. specialize (MF RF). replace 4 with (3 + 1) by lra. eapply moved_trans; [|exact MF]. apply moved_near. lra.
  - exists (f_evaluate_slot rnd (f_step_x rnd delta f)), (st + c). split; [reflexivity|]. split; [apply evaluate_drifting|].
    + destruct D as [D1 D2 D3 D4 D5 D6 D7 D8 D9 D10 D11 D12]. split; auto.
      * cbn [f_step_x x_index]. unfold past_end in PE. cbn [f_step_x cubic_x_end] in PE. rewrite SX, CE in PE. unfold f_length_x in PE. cbn [fst snd] in PE.
        destruct D8 as [(I & n & F & L)|[(I & n & F & L)|(I & a & b & GA & GB & L & W)]].
        -- left. split; [exact I|]. exists n. split; [exact F|]. rewrite I in RX. unfold f_range_x, f_start_x in RX. cbn -[front] in RX. rewrite F in RX. injection RX as <- <-. apply Rltb_false in PE.
           destruct (node_near n _ F) as (_ & _ & _ & S & _). rewrite Rminus_0_r, (rnd_id _ _ _ H _ S) in PE. lra.
        -- right. left. split; [exact I|]. exists n. split; [exact F|]. lra.
        -- right. right. split; [exact I|]. exists a, b. split; [exact GA|]. split; [exact GB|]. split; [|exact W]. pose proof (ok_count sp O) as CN.
           unfold f_range_x in RX. replace (x_index f =? kBeforeSplineIndex)%Z with false in RX by (unfold kBeforeSplineIndex; lia). replace (x_index f =? kAfterSplineIndex)%Z with false in RX by (unfold kAfterSplineIndex; lia).
           rewrite GA, GB in RX. injection RX as <- <-. apply Rltb_false in PE. destruct (node_near a _ GA) as (_ & A0 & _ & _ & A1). destruct (node_near b _ GB) as (_ & B0 & _ & _ & B1).
           pose proof (near_rnd' (f_node_x rnd sp b - f_node_x rnd sp a) ltac:(lra)) as E3. lra.
      * lra.
      * rewrite SX. apply (rnd_fmt _ _ _ H).
      * exists st, en. split; [exact RX|]. split; [exact NX|]. split; [exact CE|]. rewrite SX. auto.
    + split; [reflexivity|]. split; [|intros _]; apply moved_near; lra.
Qed.
End Drift.
