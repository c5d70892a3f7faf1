(** Property C28: the quadratic spring. *)
From Verif Require Import RBase RangeModel RangeProofs FloatModel CurveModel CurveUtilModel SpringProofs.
From Coq Require Import Lia.

(** Stepping never fails and keeps value and slope, however many steps were taken. *)
Theorem C28_stepping_smooth : forall s c n, 0 < bias_ s -> bends_to_target c ->
  exists c1 c2, step_n s n c = Some c1 /\ next_context s c1 = Some c2 /\ joined c1 c2.
Proof.
  intros s c n Hb B. destruct (step_n_ok s c n Hb B) as (c1 & E & B1). destruct (next_ok s c1 Hb B1) as (c2 & E2 & _ & J & _).
  now exists c1, c2.
Qed.

(** Every second portion has a new peak: minus the bias times the one before. *)
Theorem C28_peaks : forall s c n, 0 < bias_ s -> bends_to_target c ->
  exists c', step_n s (2 * n) c = Some c' /\ peak c' = (- bias_ s) ^ n * peak c.
Proof. intros s c n Hb B. destruct (step_n_peaks s c n Hb B) as (c' & E & _ & P). now exists c'. Qed.

(** Jumping to a later time finds the portion that stepping reaches. *)
Theorem C28_jump_is_stepping : forall s x1 x2, alive s -> x1 <= x2 ->
  1 / 100 < 1 - to_internal_x s x1 / r_ s -> 1 / 100 < 1 - to_internal_x s x2 / r_ s ->
  exists c1 c2 n, calculate_context s x1 = Some c1 /\ calculate_context s x2 = Some c2 /\
    bends_to_target c1 /\ step_n s n c1 = Some c2 /\ valid_x s x2 c2 = true.
Proof.
  intros s x1 x2 A H L1 L2. destruct (jump_ok s x1 A L1) as (j & E1 & B1). destruct (jump_ok s x2 A L2) as (k & E2 & B2).
  assert (O : (j <= k)%Z) by (apply (pos_order s j k (to_internal_x s x1) (to_internal_x s x2) A); unfold to_internal_x in *; lra).
  exists (portion s j), (portion s k), (Z.to_nat (k - j)). split; [assumption|]. split; [assumption|].
  split; [now apply portion_ok|]. split; [rewrite step_n_portion by assumption; do 2 f_equal; lia|].
  apply portion_valid; [assumption|lra].
Qed.

(** Keeping a context up to date evaluates the same as starting afresh. *)
Theorem C28_increment_context : forall s x1 x2 c, alive s -> x1 <= x2 ->
  1 / 100 < 1 - to_internal_x s x1 / r_ s -> 1 / 100 < 1 - to_internal_x s x2 / r_ s ->
  calculate_context s x1 = Some c ->
  exists c' v d, increment_context s x2 c = Some c' /\ s_eval s x2 = Some v /\ s_eval_with s x2 c' = Some v /\
    s_deriv s x2 = Some d /\ s_deriv_with s x2 c' = Some d.
Proof.
  intros s x1 x2 c A H L1 L2 Ec. destruct (jump_ok s x1 A L1) as (j & E1 & B1). destruct (jump_ok s x2 A L2) as (k & E2 & B2).
  rewrite Ec in E1. injection E1 as ->. set (x := to_internal_x s x2) in *.
  assert (LE : to_internal_x s x1 <= x) by (unfold x, to_internal_x; lra).
  assert (K : exists i, increment_context s x2 (portion s j) = Some (portion s i) /\ pos s i <= x <= pos s (i + 1)).
  { unfold increment_context. fold x. destruct (portion_ok s j A) as (_ & En & _ & Ee & _).
    unfold after_end at 1. rewrite Ee. destruct (Rltb_spec (pos s (j + 1)) x) as [G|G].
    - unfold increment_internal. rewrite En. destruct (portion_ok s (j + 1) A) as (_ & _ & _ & Ee' & _). unfold after_end. rewrite Ee'.
      destruct (Rltb_spec (pos s (j + 1 + 1)) x) as [G'|G'].
      + replace (to_external_x s x) with x2 by (unfold to_external_x, x, to_internal_x; ring). rewrite E2.
        rewrite portion_valid by (fold x; (assumption || lra)). exists k. split; [reflexivity|lra].
      + rewrite portion_valid by (fold x; (assumption || lra)). exists (j + 1)%Z. split; [reflexivity|lra].
    - rewrite portion_valid by (fold x; (assumption || lra)). exists j. split; [reflexivity|lra]. }
  destruct K as (i & Ei & Bi). destruct (portion_value_unique s i k x A Bi B2) as [V D].
  exists (portion s i), (target s + portion_value (portion s k) x), (portion_slope (portion s k) x). split; [assumption|].
  unfold s_eval, s_deriv, s_eval_with, s_deriv_with. rewrite E2. rewrite !portion_valid by (fold x; (assumption || lra)).
  unfold quadratic_x. fold x. rewrite <- V at 2. rewrite <- D at 2. unfold portion_value, portion_slope. repeat split; f_equal; ring.
Qed.

(** ** The start of the curve *)
Definition direction (v t : R) : R := if Rltb (t - v) 0 then -1 else 1.
Lemma direction_ok v t : (direction v t = 1 \/ direction v t = -1) /\ 0 <= direction v t * (t - v).
Proof. unfold direction. destruct (Rltb_spec (t - v) 0); split; auto; lra. Qed.

Lemma spring_bias_pos b : 0 < b -> 0 < spring_bias b.
Proof. unfold spring_bias. intros. destruct (Reqb _ _); [lra|]. destruct (Rltb _ _); minmax; lra. Qed.
Lemma spring_bias_bounds b : 1 / 10000 <= b <= 9801 -> 1 / 10000 <= spring_bias b <= 9801.
Proof. unfold spring_bias. intros. destruct (Reqb _ _); [lra|]. destruct (Rltb _ _); minmax; lra. Qed.
Lemma spring_bias_1 b : spring_bias b = 1 <-> b = 1.
Proof. unfold spring_bias. rcases; minmax; split; lra. Qed.

Lemma init_facts v d t dv dx bias : 0 < dv -> dx <> 0 -> 0 < bias ->
  let T := dv / (dx * dx) in let b := spring_bias bias in let sg := direction v t in
  let k := sg * (if Rleb 0 ((t - v) * d) then T else T / b) in
  let px := 1 / 2 * d / k in let pk := - ((t - v) + k * px * px) in
  0 < T /\ 0 < b /\ 0 < sg * k /\
  spring_init v d t dv dx bias = Some (Spring (sg * (T / b)) pk px t b
    (if Reqb b 1 then 2 * sqrt (Rabs pk / (T / b)) else sqrt (Rabs pk / (T / b)) * (1 + b) / (sqrt b - b)) (sqrt b)).
Proof.
  intros Hdv Hdx Hb. cbv zeta. pose proof (spring_bias_pos bias Hb) as B. set (b := spring_bias bias) in *.
  assert (DX : 0 < dx * dx) by nra. assert (HT : 0 < dv / (dx * dx)) by now apply Rdiv_lt_0_compat.
  set (T := dv / (dx * dx)) in *. assert (HA : 0 < T / b) by now apply Rdiv_lt_0_compat.
  destruct (direction_ok v t) as [SG _].
  split; [assumption|]. split; [assumption|]. split; [destruct (Rleb _ _), SG as [-> | ->]; lra|].
  unfold spring_init. fold b. rewrite Reqb_f by assumption. cbn [negb]. fold T.
  rewrite (Rltb_t 0 b) by assumption. rewrite (Rltb_t 0 (T / b)) by assumption.
  unfold direction. destruct (Rltb (t - v) 0).
  - replace (- (if Rleb 0 ((t - v) * d) then T else T / b)) with (-1 * (if Rleb 0 ((t - v) * d) then T else T / b)) by ring.
    rewrite Reqb_f by (destruct (Rleb _ _); lra). cbn [negb]. replace (- (T / b)) with (-1 * (T / b)) by ring. reflexivity.
  - rewrite (Rmult_1_l (if Rleb 0 ((t - v) * d) then T else T / b)). rewrite Reqb_f by (destruct (Rleb _ _); lra). cbn [negb]. rewrite (Rmult_1_l (T / b)). reflexivity.
Qed.

Lemma sq_le_abs x y : 0 <= y -> x * x <= y * y -> - y <= x <= y.
Proof. intros. split; nra. Qed.

Section Start.
Variables v d t dv dx bias : R.
Hypothesis Hdv : 0 < dv.
Hypothesis Hdx : dx <> 0.
Hypothesis Hb : 0 < bias.
(** Not on the target already, or moving up through it. *)
Hypothesis Hstart : v <> t \/ 0 < d.
Let T := dv / (dx * dx).
Let b := spring_bias bias.
Let sg := direction v t.
Let tow := Rleb 0 ((t - v) * d).
Let k := sg * (if tow then T else T / b).
Let px := 1 / 2 * d / k.
Let pk := - ((t - v) + k * px * px).
Let w := sqrt (Rabs pk / (T / b)).

Lemma start_facts : 0 < T /\ 0 < b /\ (sg = 1 \/ sg = -1) /\ 0 < sg * k /\ sg * pk < 0 /\ 0 < w /\ w * w * T = b * - (sg * pk) /\
  2 * k * px = d /\ v = t + pk + k * px * px.
Proof.
  destruct (init_facts v d t dv dx bias Hdv Hdx Hb) as (HT & HB & HK & _). fold T b sg tow in HT, HB, HK. fold k in HK.
  destruct (direction_ok v t) as [SG SD]. fold sg in SG, SD.
  assert (K0 : k <> 0) by nra. assert (PX : 2 * k * px = d) by (unfold px; field; assumption).
  assert (NP : sg * pk < 0).
  { assert (E : sg * pk = - (sg * (t - v) + sg * k * (px * px))) by (unfold pk; ring). rewrite E.
    assert (0 <= px * px) by nra. assert (0 <= sg * k * (px * px)) by (apply Rmult_le_pos; lra).
    destruct Hstart as [N|N].
    - assert (0 < sg * (t - v)) by (destruct SG as [S1|S1]; rewrite S1 in *; lra). lra.
    - assert (px <> 0) by (intros Q; rewrite Q in PX; lra). assert (0 < px * px) by nra. assert (0 < sg * k * (px * px)) by (now apply Rmult_lt_0_compat). lra. }
  assert (AB : Rabs pk = - (sg * pk)) by (destruct SG as [S1|S1]; rewrite S1 in *; [rewrite Rabs_left by lra|rewrite Rabs_pos_eq by lra]; ring).
  assert (0 < T / b) by now apply Rdiv_lt_0_compat.
  assert (WP : 0 < Rabs pk / (T / b)) by (apply Rdiv_lt_0_compat; [rewrite AB; lra|assumption]).
  repeat split; try assumption.
  - now apply sqrt_lt_R0.
  - unfold w. rewrite sqrt_sqrt by lra. rewrite AB. field. split; lra.
  - unfold pk. ring.
Qed.

Lemma toward_start : (if tow then 0 <= px /\ px * px * T <= - (sg * pk) else px < 0 /\ px * px * (T / b) <= - (sg * pk)).
Proof.
  destruct start_facts as (HT & HB & SG & HK & NP & _ & _ & PX & _). destruct (direction_ok v t) as [_ SD]. fold sg in SD.
  assert (E : - (sg * pk) = sg * (t - v) + sg * k * (px * px)) by (unfold pk; ring).
  assert (SK : sg * k = if tow then T else T / b) by (unfold k; destruct SG as [-> | ->]; ring).
  unfold tow in *. destruct (Rleb_spec 0 ((t - v) * d)) as [G|G].
  - split.
    + destruct (Req_dec v t) as [Q|Q].
      * assert (sg = 1) as S1 by (unfold sg, direction; rewrite Rltb_f by lra; reflexivity). destruct Hstart; [contradiction|]. rewrite S1, Rmult_1_l in HK. nra.
      * assert (0 < sg * (t - v)) by (destruct SG as [S1|S1]; rewrite S1 in *; lra).
        assert (0 <= sg * d) by (destruct SG as [S1|S1]; rewrite S1 in *; nra). rewrite <- PX in H0.
        assert (0 <= sg * k * px) by lra. nra.
    + rewrite E, SK. lra.
  - split.
    + assert (0 < sg * (t - v)) by (destruct SG as [S1|S1]; rewrite S1 in *; nra).
      assert (sg * d < 0) by (destruct SG as [S1|S1]; rewrite S1 in *; nra). rewrite <- PX in H0. assert (sg * k * px < 0) by lra. nra.
    + rewrite E, SK. lra.
Qed.

Lemma start_spring s : spring_init v d t dv dx bias = Some s -> bias <> 1 ->
  alive s /\ width s = w /\ bias_ s = b /\ start_x s = px /\ start_peak s = pk /\ target s = t /\ start_away_coeff s = sg * (T / b).
Proof.
  intros E N1. destruct (init_facts v d t dv dx bias Hdv Hdx Hb) as (HT & HB & HK & E'). rewrite E in E'. injection E' as ->.
  fold T b in HT, HB. fold T b sg tow. fold k. fold px. fold pk. fold w. assert (NB : b <> 1) by (unfold b; rewrite spring_bias_1; assumption).
  rewrite Reqb_f by assumption.
  destruct start_facts as (_ & _ & SG & _ & NP & WP & WW & PX & _).
  assert (TB : 0 < T / b) by now apply Rdiv_lt_0_compat.
  assert (EW : - pk / (sg * (T / b)) = Rabs pk / (T / b)).
  { destruct SG as [S1|S1]; rewrite S1 in *; [rewrite Rabs_left by lra|rewrite Rabs_pos_eq by lra]; field; split; lra. }
  unfold alive, width. cbn [bias_ sqrt_b start_away_coeff start_peak r_ start_x target]. fold T b. rewrite EW. repeat split; try assumption.
  destruct SG as [S1|S1]; rewrite S1 in *; nra.
Qed.
End Start.

(** The curve starts with the given value and derivative.
    Partial: the bias is neither tiny nor huge, and the start is not on the target
    with a downward slope (see the refutations). *)
Theorem C28_start_partial : forall v d t dv dx bias, 0 < dv -> dx <> 0 -> 1 / 10000 <= bias <= 9801 ->
  v <> t \/ 0 < d ->
  exists s, spring_init v d t dv dx bias = Some s /\ s_eval s 0 = Some v /\ s_deriv s 0 = Some d.
Proof.
  intros v d t dv dx bias Hdv Hdx Hbb Hs. assert (Hb : 0 < bias) by lra.
  pose proof (init_facts v d t dv dx bias Hdv Hdx Hb) as (_ & _ & _ & E). eexists. split; [exact E|].
  remember (Spring _ _ _ _ _ _ _) as s eqn:Es. clear Es.
  pose proof (start_facts v d t dv dx bias Hdv Hdx Hb Hs) as (HT & HB & SG & HK & NP & WP & WW & PX & EV).
  pose proof (toward_start v d t dv dx bias Hdv Hdx Hb Hs) as TS.
  pose proof (spring_bias_bounds bias Hbb) as BB.
  set (T := dv / (dx * dx)) in *. set (b := spring_bias bias) in *. set (sg := direction v t) in *.
  set (tow := Rleb 0 ((t - v) * d)) in *. set (k := sg * (if tow then T else T / b)) in *. set (px := 1 / 2 * d / k) in *.
  set (pk := - ((t - v) + k * px * px)) in *. set (w := sqrt (Rabs pk / (T / b))) in *.
  destruct (Req_dec bias 1) as [E1|E1].
  { (* bias 1 *)
    assert (EB : b = 1) by (unfold b; now apply spring_bias_1).
    pose proof (init_facts v d t dv dx bias Hdv Hdx Hb) as (_ & _ & _ & E'). fold T b sg tow in E'. fold k in E'. fold px in E'. fold pk in E'. fold w in E'.
    rewrite E in E'. injection E' as ->. rewrite Reqb_t by assumption. fold w.
    assert (KT : k = sg * (T / b)) by (unfold k; rewrite EB; destruct tow; f_equal; field).
    assert (W2 : px * px <= w * w).
    { rewrite EB in WW, TS. destruct tow; destruct TS as [_ TS]; apply (Rmult_le_reg_r T); try assumption; rewrite WW; unfold Rdiv in TS; try rewrite Rinv_1 in TS; lra. }
    assert (PB : - w <= px <= w) by (apply sq_le_abs; lra).
    unfold s_eval, s_deriv, calculate_context. unfold to_internal_x. cbn [bias_ start_x]. rewrite Rplus_0_l. rewrite Reqb_t by assumption.
    unfold context_bias_1. cbn [r_ start_away_coeff start_peak]. rewrite Reqb_f by lra.
    assert (FL : let n := Rfloor (px / (2 * w) + 1 / 2) in n = 0%Z \/ (n = 1%Z /\ px = w)).
    { assert (Q1 : - (1 / 2) <= px / (2 * w) <= 1 / 2).
      { split; apply (Rmult_le_reg_r (2 * w)); try lra; unfold Rdiv; rewrite (Rmult_assoc px), Rinv_l by lra; lra. }
      destruct (Req_dec px w) as [Q|Q].
      - right. split; [|assumption]. apply Rfloor_unique. rewrite Q. replace (w / (2 * w)) with (1 / 2) by (field; lra). lra.
      - left. apply Rfloor_unique. split; [lra|]. cbn. assert (px / (2 * w) < 1 / 2); [|lra].
        apply (Rmult_lt_reg_r (2 * w)); try lra; unfold Rdiv; rewrite (Rmult_assoc px), Rinv_l by lra. lra. }
    cbv zeta in FL. set (n := Rfloor _) in *.
    unfold s_eval_with, s_deriv_with, valid_x, to_internal_x, quadratic_x. unfold contains_with_tolerance, length_. cbn [valid_end valid_start start_ end_ start_x target peak coeff peak_x to_internal_x].
    destruct FL as [-> | [-> Q]]; cbn [Z.rem Z.eqb negb Z.quotrem Z.pos_div_eucl]; change (Z.rem 0 2 =? 0)%Z with true; change (Z.rem 1 2 =? 0)%Z with false; cbn [negb]; unfold to_internal_x; cbn [start_x];
      rewrite !Rleb_t by lra; cbn [andb]; rewrite <- KT.
    - split; f_equal; [transitivity (t + pk + k * px * px); [ring|symmetry; exact EV]|transitivity (2 * k * px); [ring|exact PX]].
    - assert (EP : pk = - k * w * w).
      { rewrite EB in WW, KT. destruct SG as [S1|S1]; rewrite S1 in *; unfold Rdiv in KT; rewrite Rinv_1 in KT; rewrite KT; lra. }
      rewrite Q in PX, EV |- *. split; f_equal; [transitivity (t + pk + k * w * w); [rewrite EP; ring|symmetry; exact EV]|transitivity (2 * k * w); [ring|exact PX]]. }
  destruct (start_spring v d t dv dx bias Hdv Hdx Hb Hs s E E1) as (A & EW & EB & EX & EPK & ET & EA).
  fold T b sg tow in EW, EB, EX, EPK, EA. fold k in EW, EX, EPK. fold px in EW, EX, EPK. fold pk in EW, EPK. fold w in EW.
  pose proof (S_pos s A) as SP. pose proof (SS s A) as SB. pose proof (S_ne1 s A) as SN. pose proof (r_eq s A) as RE. cbv zeta in *.
  rewrite EB in SB, RE. rewrite EW in RE. set (S := sqrt_b s) in *.
  assert (SBD : 1 / 100 <= S <= 99) by (split; nra).
  assert (SB' : b = S * S) by (symmetry; exact SB).
  assert (Z0 : zero_pos s 0 = w / S) by (unfold zero_pos, peak_pos; rewrite EW; fold S; cbn [powerRZ]; ring).
  assert (P0 : peak_pos s 0 = 0) by (unfold peak_pos; cbn [powerRZ]; ring).
  assert (Zm : zero_pos s (-1) = - w).
  { pose proof (peak_pos_succ s A (-1)) as Q. cbv zeta in Q. change (-1 + 1)%Z with 0%Z in Q. rewrite P0, EW in Q. fold S in Q.
    change (powerRZ S (-1)) with (/ S ^ 1) in Q. rewrite pow_1 in Q. replace (/ S * (w * S)) with w in Q by (field; lra). lra. }
  assert (DS : 0 < w / S) by now apply Rdiv_lt_0_compat.
  assert (RNG : exists j, pos s j <= px <= pos s (j + 1) /\ coeff (portion s j) = k /\ peak (portion s j) = pk /\ peak_x (portion s j) = 0 /\
    (0 <= px <= w / S \/ - w <= px <= 0)).
  { destruct tow eqn:Etow.
    - destruct TS as [TS1 TS2]. assert (PB : px <= w / S).
      { apply sq_le_abs; [lra|]. apply (Rmult_le_reg_r T); [assumption|]. replace (w / S * (w / S) * T) with (w * w * T / (S * S)) by (field; lra). rewrite WW, <- SB'. replace (b * - (sg * pk) / b) with (- (sg * pk)) by (field; lra). lra. }
      exists 0%Z. pose proof (portion_double s 0) as (Q1 & _ & Q3 & Q4 & _). change (2 * 0)%Z with 0%Z in *. rewrite Q1, Q3, Q4, Z0, P0.
      split; [lra|]. unfold toward_portion. cbn [coeff peak peak_x]. rewrite P0, EPK, EA, EB. unfold sign. cbn [Z.even powerRZ].
      split; [unfold k; field; lra|]. split; [ring|]. split; [reflexivity|]. left. lra.
    - destruct TS as [TS1 TS2]. assert (PB : - w <= px).
      { apply (sq_le_abs px w); [lra|]. apply (Rmult_le_reg_r (T / b)); [now apply Rdiv_lt_0_compat|]. replace (w * w * (T / b)) with (w * w * T / b) by (field; lra). rewrite WW. replace (b * - (sg * pk) / b) with (- (sg * pk)) by (field; lra). lra. }
      exists (-1)%Z. pose proof (portion_double s (-1)) as (_ & Q2 & _ & Q4 & Q5). change (2 * -1 + 1)%Z with (-1)%Z in *. change (-1 + 1)%Z with 0%Z in *. rewrite Q2, Q4, Q5, Zm, P0.
      split; [lra|]. unfold away_portion. cbn [coeff peak peak_x]. change (-1 + 1)%Z with 0%Z. rewrite P0, EPK, EA. unfold sign. cbn [Z.even powerRZ].
      split; [unfold k; ring|]. split; [ring|]. split; [reflexivity|]. right. lra. }
  destruct RNG as (j & BJ & Kc & Kp & Kx & BX).
  assert (IX : to_internal_x s 0 = px) by (unfold to_internal_x; rewrite EX; ring).
  assert (L : 1 / 100 < 1 - to_internal_x s 0 / r_ s).
  { rewrite IX, RE. assert (W1 : 0 < w * (1 + b)) by (apply Rmult_lt_0_compat; lra).
    replace (px / (w * (1 + b) / (S * (1 - S)))) with (px * (S * (1 - S)) / (w * (1 + b))) by (field; repeat split; lra).
    assert (G : px * (S * (1 - S)) < 99 / 100 * (w * (1 + b))).
    { destruct (Rlt_dec S 1) as [S1|S1].
      - assert (S1b : 0 < S * (1 - S)) by nra. destruct BX as [BX|BX]; [|nra].
        assert (px * (S * (1 - S)) <= w / S * (S * (1 - S))) by (apply Rmult_le_compat_r; lra).
        replace (w / S * (S * (1 - S))) with (w * (1 - S)) in H by (field; lra). rewrite SB'. nra.
      - assert (S1b : S * (1 - S) < 0) by nra. destruct BX as [BX|BX]; [nra|].
        assert (px * (S * (1 - S)) <= - w * (S * (1 - S))) by nra. rewrite SB'.
        assert (- w * (S * (1 - S)) < 99 / 100 * (w * (1 + S * S))); [|lra].
        replace (- w * (S * (1 - S))) with (w * (S * S - S)) by ring. replace (99 / 100 * (w * (1 + S * S))) with (w * (99 / 100 * (1 + S * S))) by ring.
        apply Rmult_lt_compat_l; [assumption|nra]. }
    assert (px * (S * (1 - S)) / (w * (1 + b)) < 99 / 100); [|lra].
    apply (Rmult_lt_reg_r (w * (1 + b))); [assumption|]. unfold Rdiv. rewrite Rmult_assoc, Rinv_l by lra. lra. }
  destruct (jump_ok s 0 A L) as (i & Ei & Bi). rewrite IX in Bi.
  destruct (portion_value_unique s j i px A BJ Bi) as [V D].
  unfold s_eval, s_deriv, s_eval_with, s_deriv_with. rewrite Ei. rewrite !portion_valid by (rewrite ?IX; (assumption || lra)).
  unfold quadratic_x. rewrite IX.
  unfold portion_value in V. unfold portion_slope in D. rewrite Kc, Kp, Kx in V. rewrite Kc, Kx in D. rewrite ET.
  split; f_equal.
  - rewrite Rplus_assoc, <- V. transitivity (t + pk + k * px * px); [ring|symmetry; exact EV].
  - rewrite <- D. transitivity (2 * k * px); [ring|exact PX].
Qed.

(** At the target and at rest the spring stays there. *)
Theorem C28_at_rest : forall t dv dx bias, 0 < dv -> dx <> 0 -> 0 < bias -> bias <> 1 ->
  exists s, spring_init t 0 t dv dx bias = Some s /\ forall x, 0 <= x -> s_eval s x = Some t /\ s_deriv s x = Some 0.
Proof.
  intros t dv dx bias Hdv Hdx Hb N1. pose proof (init_facts t 0 t dv dx bias Hdv Hdx Hb) as (HT & HB & HK & E). eexists. split; [exact E|].
  set (T := dv / (dx * dx)) in *. set (b := spring_bias bias) in *. 
  intros x Hx. clear E. cbv zeta in *. set (k := direction t t * (if Rleb 0 ((t - t) * 0) then T else T / b)) in *. assert (K0 : k <> 0) by nra.
  assert (EX : 1 / 2 * 0 / k = 0) by (field; assumption). rewrite EX. rewrite Rmult_0_r, Rminus_diag_eq, Rplus_0_r, Ropp_0 by reflexivity.
  rewrite Rabs_R0. replace (0 / (T / b)) with 0 by (unfold Rdiv; ring). rewrite sqrt_0. assert (NB : b <> 1) by (unfold b; rewrite spring_bias_1; assumption). rewrite Reqb_f by assumption.
  unfold s_eval, s_deriv, calculate_context, to_internal_x. cbn [bias_ start_x r_]. rewrite Reqb_f by assumption.
  rewrite Reqb_t by (unfold Rdiv; ring). rewrite Rleb_t by lra.
  unfold s_eval_with, s_deriv_with, valid_x, at_end. cbn [valid_end target peak coeff]. split; f_equal; ring.
Qed.

(** The reported time of the n-th peak is one: the slope there is zero. *)
Theorem C28_iteration_x : forall s n, alive s -> 1 / 100 < 1 - to_internal_x s (iteration_x s n) / r_ s ->
  s_deriv s (iteration_x s n) = Some 0.
Proof.
  intros s n A L. destruct (jump_ok s (iteration_x s n) A L) as (k & E & B). revert B.
  assert (EX : to_internal_x s (iteration_x s n) = peak_pos s n).
  { unfold iteration_x. rewrite Reqb_f by apply A. unfold to_internal_x, to_external_x, peak_pos. ring. }
  rewrite EX. intros B.
  destruct (portion_double s n) as (E1 & _ & P1 & P2 & _).
  pose proof (portion_ok s (2 * n) A) as (_ & _ & _ & _ & O).
  destruct (portion_value_unique s (2 * n) k (peak_pos s n) A ltac:(rewrite P1 in *; lra) B) as [_ D].
  unfold s_deriv, s_deriv_with. rewrite E. rewrite portion_valid by (rewrite ?EX; (assumption || lra)).
  unfold quadratic_x. rewrite EX. f_equal. unfold portion_slope in D. rewrite <- D, E1. unfold toward_portion. cbn [coeff peak_x]. ring.
Qed.

(** A spring that starts on its target moving down starts with the wrong value. *)
Theorem C28_start_on_target_refuted :
  exists v d t dv dx bias s, 0 < dv /\ 0 < dx /\ 1 / 10000 <= bias < 1 /\
    spring_init v d t dv dx bias = Some s /\ exists v', s_eval s 0 = Some v' /\ v' <> v.
Proof.
  exists 0, (-1), 0, 1, 1, (1 / 4). eexists. split; [lra|]. split; [lra|]. split; [lra|].
  assert (EB : spring_bias (1 / 4) = 1 / 4) by (unfold spring_bias; rcases; minmax; lra).
  destruct (init_facts 0 (-1) 0 1 1 (1 / 4)) as (_ & _ & _ & E); try lra. split; [exact E|]. clear E. cbv zeta. rewrite EB.
  unfold direction. rewrite Rltb_f, Rleb_t, Reqb_f by lra.
  set (s := Spring _ _ _ _ _ _ _).
  assert (Q2 : sqrt (1 / 4) = 1 / 2) by (apply sqrt_unique; lra).
  assert (Es : s = Spring 4 (- (1 / 4)) (- (1 / 2)) 0 (1 / 4) (5 / 4) (1 / 2)).
  { unfold s. rewrite Q2. replace (- (0 - 0 + 1 * (1 / (1 * 1)) * (1 / 2 * -1 / (1 * (1 / (1 * 1)))) * (1 / 2 * -1 / (1 * (1 / (1 * 1)))))) with (- (1 / 4)) by field.
    replace (sqrt (Rabs (- (1 / 4)) / (1 / (1 * 1) / (1 / 4)))) with (1 / 4).
    - f_equal; field.
    - symmetry. apply sqrt_unique; [lra|]. rewrite Rabs_Ropp, Rabs_pos_eq by lra. field. }
  rewrite Es. clear Es s. set (s := Spring 4 _ _ _ _ _ _).
  assert (W : width s = 1 / 4) by (unfold width; cbn; apply sqrt_unique; lra).
  assert (A : alive s).
  { unfold alive. change (sqrt (- start_peak s / start_away_coeff s)) with (width s). rewrite W. cbn. rewrite Q2. repeat split; lra. }
  assert (P1 : powerRZ (1 / 2) (-1) = 2) by (change (powerRZ (1 / 2) (-1)) with (/ (1 / 2) ^ 1); rewrite pow_1; field).
  assert (IX : to_internal_x s 0 = - (1 / 2)) by (unfold to_internal_x; cbn; ring).
  destruct (jump_ok s 0 A) as (k & Ek & Bk). { rewrite IX. cbn. lra. }
  rewrite IX in Bk.
  destruct (portion_double s (-1)) as (E1 & _ & B1 & B2 & _). change (2 * -1)%Z with (-2)%Z in *. change (-2 + 1)%Z with (-1)%Z in *.
  assert (PP : peak_pos s (-1) = - (5 / 4)) by (unfold peak_pos; cbn [r_ sqrt_b s]; rewrite P1; lra).
  assert (ZP : zero_pos s (-1) = - (1 / 4)) by (unfold zero_pos; rewrite PP, W; cbn [sqrt_b s]; rewrite P1; lra).
  destruct (portion_value_unique s (-2) k (- (1 / 2)) A) as [V _]; [change (-2 + 1)%Z with (-1)%Z; lra|lra|].
  exists (7 / 16). split; [|lra]. unfold s_eval, s_eval_with. rewrite Ek, portion_valid by (rewrite ?IX; (assumption || lra)).
  unfold quadratic_x. rewrite IX. f_equal. unfold portion_value in V. rewrite Rplus_assoc, <- V, E1. unfold toward_portion. cbn [coeff peak peak_x]. rewrite PP.
  cbn [target start_away_coeff start_peak bias_ s]. unfold sign. cbn [Z.even]. replace (powerRZ (1 / 4) (-1)) with 4 by (change (powerRZ (1 / 4) (-1)) with (/ (1 / 4) ^ 1); rewrite pow_1; field). lra.
Qed.

(** With bias one the reported time of a peak is not one unless the spring starts at rest. *)
Theorem C28_iteration_x_bias_one_refuted :
  exists v d t dv dx s, 0 < dv /\ 0 < dx /\ spring_init v d t dv dx 1 = Some s /\
    exists d', s_deriv s (iteration_x s 1) = Some d' /\ d' <> 0.
Proof.
  exists 0, 2, 3, 1, 1. eexists. split; [lra|]. split; [lra|].
  destruct (init_facts 0 2 3 1 1 1) as (_ & _ & _ & E); try lra. split; [exact E|]. clear E. cbv zeta.
  assert (EB : spring_bias 1 = 1) by now apply spring_bias_1. rewrite EB.
  unfold direction. rewrite Rltb_f, Rleb_t, Reqb_t by lra.
  set (s := Spring _ _ _ _ _ _ _).
  assert (Es : s = Spring 1 (- 4) 1 3 1 4 1).
  { unfold s. rewrite sqrt_1. replace (- (3 - 0 + 1 * (1 / (1 * 1)) * (1 / 2 * 2 / (1 * (1 / (1 * 1)))) * (1 / 2 * 2 / (1 * (1 / (1 * 1)))))) with (- 4) by field.
    replace (sqrt (Rabs (- 4) / (1 / (1 * 1) / 1))) with 2.
    - f_equal; field.
    - symmetry. apply sqrt_unique; [lra|]. rewrite Rabs_left by lra. field. }
  rewrite Es. exists (- 2). split; [|lra].
  unfold s_deriv, iteration_x, calculate_context. cbn [bias_ r_]. rewrite !Reqb_t by reflexivity. unfold context_bias_1, to_internal_x. cbn [r_ start_x start_away_coeff start_peak].
  rewrite Reqb_f by lra. replace (Rfloor ((4 * 1 + 1) / 4 + 1 / 2)) with 1%Z by (symmetry; apply Rfloor_unique; lra).
  change (Z.rem 1 2 =? 0)%Z with false. cbn [negb].
  unfold s_deriv_with, valid_x, quadratic_x, to_internal_x, contains_with_tolerance, length_. cbn [valid_end valid_start start_ end_ start_x coeff peak_x].
  rewrite !Rleb_t by lra. cbn [andb]. f_equal. lra.
Qed.

(** With a tiny bias a spring that starts on its target stops there at once. *)
Theorem C28_tiny_bias_refuted :
  exists v d t dv dx bias s, 0 < dv /\ 0 < dx /\ 0 < bias < 1 /\
    spring_init v d t dv dx bias = Some s /\ exists d', s_deriv s 0 = Some d' /\ d' <> d.
Proof.
  exists 0, 2, 0, 1, 1, (1 / 1000000). eexists. split; [lra|]. split; [lra|]. split; [lra|].
  destruct (init_facts 0 2 0 1 1 (1 / 1000000)) as (_ & _ & _ & E); try lra. split; [exact E|]. clear E. cbv zeta.
  assert (EB : spring_bias (1 / 1000000) = 1 / 1000000) by (unfold spring_bias; rcases; minmax; lra). rewrite EB.
  unfold direction. rewrite Rltb_f, Rleb_t, Reqb_f by lra.
  set (s := Spring _ _ _ _ _ _ _).
  assert (Q2 : sqrt (1 / 1000000) = 1 / 1000) by (apply sqrt_unique; lra).
  assert (Es : s = Spring 1000000 (- (1)) 1 0 (1 / 1000000) (1000001 / 999000) (1 / 1000)).
  { unfold s. rewrite Q2. replace (- (0 - 0 + 1 * (1 / (1 * 1)) * (1 / 2 * 2 / (1 * (1 / (1 * 1)))) * (1 / 2 * 2 / (1 * (1 / (1 * 1)))))) with (- (1)) by field.
    replace (sqrt (Rabs (- (1)) / (1 / (1 * 1) / (1 / 1000000)))) with (1 / 1000).
    - f_equal; field.
    - symmetry. apply sqrt_unique; [lra|]. rewrite Rabs_Ropp, Rabs_pos_eq by lra. field. }
  rewrite Es. exists 0. split; [|lra].
  unfold s_deriv, calculate_context, to_internal_x. cbn [bias_ r_ start_x]. rewrite Reqb_f, Reqb_f, Rleb_t by lra.
  unfold s_deriv_with, valid_x, at_end. cbn [valid_end coeff]. f_equal. ring.
Qed.

(** A spring at rest 3 below its target. *)
Example C28_case : exists s, spring_init 0 0 3 1 1 (1 / 4) = Some s /\ s_eval s 0 = Some 0 /\ s_deriv s 0 = Some 0 /\
  alive s /\ exists c, calculate_context s 0 = Some c /\ bends_to_target c.
Proof.
  destruct (C28_start_partial 0 0 3 1 1 (1 / 4)) as (s & E & V & D); try lra. exists s. repeat (split; [assumption|]).
  destruct (start_spring 0 0 3 1 1 (1 / 4) ltac:(lra) ltac:(lra) ltac:(lra) ltac:(lra) s E ltac:(lra)) as (A & _ & _ & X & _).
  split; [assumption|]. destruct (jump_ok s 0 A) as (k & Ek & _); [|exists (portion s k); split; [assumption|now apply portion_ok]].
  replace (to_internal_x s 0 / r_ s) with 0; [lra|]. unfold to_internal_x. rewrite X. unfold Rdiv. rewrite Rmult_0_r, Rmult_0_l, Rplus_0_l, Rmult_0_l. reflexivity.
Qed.

Print Assumptions C28_stepping_smooth.
Print Assumptions C28_peaks.
Print Assumptions C28_jump_is_stepping.
Print Assumptions C28_increment_context.
Print Assumptions C28_start_partial.
Print Assumptions C28_at_rest.
Print Assumptions C28_iteration_x.
Print Assumptions C28_start_on_target_refuted.
Print Assumptions C28_iteration_x_bias_one_refuted.
Print Assumptions C28_tiny_bias_refuted.
