(** Blending from one spline to another in single precision (C123). *)
From Verif Require Import RBase BaseFacts RangeModel CurveModel CompactSplineModel EvaluatorModel RoundModel RoundProofs RoundRangeModel RoundNodeModel RoundCubicModel RoundCubicProps RoundEvaluatorModel RoundBlendModel.

(** * A cubic that is moved along x and evaluated *)
Section Shift.
Variable rnd : R -> R.
Hypothesis H : rounds single rnd.
Let u := pow2 (-24).
Variables M w t t' : R.
Hypothesis HM : pow2 (-20) <= M.
Hypothesis W : pow2 (-20) <= w <= pow2 20.
Hypothesis T : -1 <= t <= 1.
Hypothesis T' : -1 <= t' <= 1.
Variables (c : cubic) (A3 A2 A1 A0 : R).
Hypothesis E3 : Rabs (k3 c * (w * w * w) - A3) <= 27 * (u * M).
Hypothesis E2 : Rabs (k2 c * (w * w) - A2) <= 34 * (u * M).
Hypothesis E1 : Rabs (k1 c * w - A1) <= 2 * (u * M).
Hypothesis E0 : Rabs (k0 c - A0) <= 3 * (u * M).
Hypothesis S3 : Rabs A3 <= 2 * M.
Hypothesis S2 : Rabs A2 <= 3 * M.
Hypothesis S1 : Rabs A1 <= M.
Hypothesis S0 : Rabs A0 <= M.
Ltac le3 := eapply Rle_trans; [apply Rabs_triang|].

Lemma bend_err : Rabs (rnd (f_kderiv2 rnd c (t * w) * (1 / 2)) * (w * w) - (3 * A3 * t + A2)) <= 149 * (u * M).
Proof.
  pose proof (UM_pos M HM) as UP. fold u in UP. pose proof (scale_le M HM) as SL. fold u in SL. pose proof (w1_le w W) as W1. pose proof (w2_le w W) as W2. pose proof (w3_le w W) as W3.
  unfold f_kderiv2. set (c3 := k3 c) in *. set (c2 := k2 c) in *.
  assert (B0 : Rabs (6 * A3) <= 12 * M) by (rewrite Rabs_mult, Rabs_pos_eq; lra).
  assert (B0' : Rabs (2 * A2) <= 6 * M) by (rewrite Rabs_mult, Rabs_pos_eq; lra).
  assert (R0 : Rabs (rnd (6 * c3) * (w * w * w) - 6 * A3) <= 17401 / 100 * (u * M)).
  { eapply Rle_trans; [apply (step rnd H M HM _ _ _ 12 162 W3)|apply SL; lra]; [|lra|lra].
    replace (6 * c3 * (w * w * w) - 6 * A3) with (6 * (c3 * (w * w * w) - A3)) by ring. rewrite Rabs_mult, Rabs_pos_eq; fold u; lra. }
  set (r0 := rnd (6 * c3)) in *.
  assert (R1 : Rabs (rnd (r0 * (t * w)) * (w * w) - 6 * A3 * t) <= 18602 / 100 * (u * M)).
  { eapply Rle_trans; [apply (step rnd H M HM _ _ _ 12 (17401 / 100) W2)|apply SL; lra]; [|apply part0; lra|lra].
    replace (r0 * (t * w) * (w * w)) with (r0 * (w * w * w) * t) by ring. apply part; fold u; lra. }
  assert (B1 : Rabs (6 * A3 * t) <= 12 * M) by (apply part0; lra).
  set (r1 := rnd (r0 * (t * w))) in *.
  assert (R1' : Rabs (rnd (2 * c2) * (w * w) - 2 * A2) <= 7401 / 100 * (u * M)).
  { eapply Rle_trans; [apply (step rnd H M HM _ _ _ 6 68 W2)|apply SL; lra]; [|lra|lra].
    replace (2 * c2 * (w * w) - 2 * A2) with (2 * (c2 * (w * w) - A2)) by ring. rewrite Rabs_mult, Rabs_pos_eq; fold u; lra. }
  set (r1' := rnd (2 * c2)) in *.
  assert (B2 : Rabs (6 * A3 * t + 2 * A2) <= 18 * M) by (le3; lra).
  assert (R2 : Rabs (rnd (r1 + r1') * (w * w) - (6 * A3 * t + 2 * A2)) <= 27804 / 100 * (u * M)).
  { eapply Rle_trans; [apply (step rnd H M HM _ _ _ 18 (26003 / 100) W2)|apply SL; lra]; [|lra|lra].
    replace ((r1 + r1') * (w * w) - (6 * A3 * t + 2 * A2)) with ((r1 * (w * w) - 6 * A3 * t) + (r1' * (w * w) - 2 * A2)) by ring. le3; fold u; lra. }
  set (r2 := rnd (r1 + r1')) in *.
  assert (HA : forall a, Rabs (a * (1 / 2)) = Rabs a / 2) by (intros a; rewrite Rabs_mult, (Rabs_pos_eq (1 / 2)) by lra; lra).
  assert (B3 : Rabs (3 * A3 * t + A2) <= 9 * M) by (replace (3 * A3 * t + A2) with ((6 * A3 * t + 2 * A2) * (1 / 2)) by field; rewrite HA; lra).
  eapply Rle_trans; [apply (step rnd H M HM _ _ _ 9 (13902 / 100) W2)|apply SL; lra]; [|lra|lra].
  replace (r2 * (1 / 2) * (w * w) - (3 * A3 * t + A2)) with ((r2 * (w * w) - (6 * A3 * t + 2 * A2)) * (1 / 2)) by field. rewrite HA. fold u. lra.
Qed.
(** The curve moved by [- t * w], at [t' * w]. *)
Lemma moved_err : let c' := Cubic (k3 c) (rnd (f_kderiv2 rnd c (t * w) * (1 / 2))) (f_kderiv rnd c (t * w)) (f_keval rnd c (t * w)) in
  Rabs (f_keval rnd c' (t' * w) - (((A3 * (t + t') + A2) * (t + t') + A1) * (t + t') + A0)) <= 600 * (u * M).
Proof.
  intros c'. pose proof (UM_pos M HM) as UP. fold u in UP. pose proof (scale_le M HM) as SL. fold u in SL. pose proof (w1_le w W) as W1. pose proof (w2_le w W) as W2. pose proof one_le as W0. pose proof (M_pos M HM) as MP.
  pose proof bend_err as F2. pose proof (slope_err rnd H M w t HM W T c A3 A2 A1 E3 E2 E1 S3 S2 S1) as F1. pose proof (value_err rnd H M w t HM W T c A3 A2 A1 A0 E3 E2 E1 E0 S3 S2 S1 S0) as F0. fold u in F1, F0.
  set (B2 := 3 * A3 * t + A2) in *. set (B1 := (3 * A3 * t + 2 * A2) * t + A1) in *. set (B0 := ((A3 * t + A2) * t + A1) * t + A0) in *.
  assert (P3 : Rabs (3 * A3 * t) <= 6 * M) by (apply part0; [lra|]; rewrite Rabs_mult, Rabs_pos_eq; lra). assert (P2 : Rabs (2 * A2) <= 6 * M) by (rewrite Rabs_mult, Rabs_pos_eq; lra).
  assert (N2 : Rabs B2 <= 9 * M) by (unfold B2; le3; lra).
  assert (N1 : Rabs B1 <= 13 * M). { unfold B1. le3. assert (Rabs ((3 * A3 * t + 2 * A2) * t) <= 12 * M) by (apply part0; [lra|]; le3; lra). lra. }
  assert (N0 : Rabs B0 <= 7 * M).
  { unfold B0. le3. assert (Q1 : Rabs (A3 * t) <= 2 * M) by (apply part0; lra). assert (Q2 : Rabs ((A3 * t + A2) * t) <= 5 * M) by (apply part0; [lra|]; le3; lra).
    assert (Rabs (((A3 * t + A2) * t + A1) * t) <= 6 * M) by (apply part0; [lra|]; le3; lra). lra. }
  replace (((A3 * (t + t') + A2) * (t + t') + A1) * (t + t') + A0) with (((A3 * t' + B2) * t' + B1) * t' + B0) by (unfold B2, B1, B0; ring).
  unfold f_keval at 1. subst c'. cbn [k3 k2 k1 k0]. set (c3 := k3 c) in *. set (c2 := rnd (f_kderiv2 rnd c (t * w) * (1 / 2))) in *. set (c1 := f_kderiv rnd c (t * w)) in *. set (c0 := f_keval rnd c (t * w)) in *. clearbody c3 c2 c1 c0 B2 B1 B0.
  assert (R1 : Rabs (rnd (c3 * (t' * w)) * (w * w) - A3 * t') <= 2901 / 100 * (u * M)).
  { eapply Rle_trans; [apply (step rnd H M HM _ _ _ 2 27 W2)|apply SL; lra]; [|apply part0; lra|lra].
    replace (c3 * (t' * w) * (w * w)) with (c3 * (w * w * w) * t') by ring. apply part; fold u; lra. }
  assert (G1 : Rabs (A3 * t') <= 2 * M) by (apply part0; lra).
  set (r1 := rnd (c3 * (t' * w))) in *.
  assert (G2 : Rabs (A3 * t' + B2) <= 11 * M) by (le3; lra).
  assert (R2 : Rabs (rnd (r1 + c2) * (w * w) - (A3 * t' + B2)) <= 18902 / 100 * (u * M)).
  { eapply Rle_trans; [apply (step rnd H M HM _ _ _ 11 (17801 / 100) W2)|apply SL; lra]; [|lra|lra].
    replace ((r1 + c2) * (w * w) - (A3 * t' + B2)) with ((r1 * (w * w) - A3 * t') + (c2 * (w * w) - B2)) by ring. le3; fold u; lra. }
  set (r2 := rnd (r1 + c2)) in *.
  assert (R3 : Rabs (rnd (r2 * (t' * w)) * w - (A3 * t' + B2) * t') <= 20003 / 100 * (u * M)).
  { eapply Rle_trans; [apply (step rnd H M HM _ _ _ 11 (18902 / 100) W1)|apply SL; lra]; [|apply part0; lra|lra].
    replace (r2 * (t' * w) * w) with (r2 * (w * w) * t') by ring. apply part; fold u; lra. }
  set (r3 := rnd (r2 * (t' * w))) in *.
  assert (G3 : Rabs ((A3 * t' + B2) * t') <= 11 * M) by (apply part0; lra).
  assert (G4 : Rabs ((A3 * t' + B2) * t' + B1) <= 24 * M) by (le3; lra).
  assert (R4 : Rabs (rnd (r3 + c1) * w - ((A3 * t' + B2) * t' + B1)) <= 44404 / 100 * (u * M)).
  { eapply Rle_trans; [apply (step rnd H M HM _ _ _ 24 (42003 / 100) W1)|apply SL; lra]; [|lra|lra].
    replace ((r3 + c1) * w - ((A3 * t' + B2) * t' + B1)) with ((r3 * w - (A3 * t' + B2) * t') + (c1 * w - B1)) by ring. le3; fold u; lra. }
  set (r4 := rnd (r3 + c1)) in *.
  assert (R5 : Rabs (rnd (r4 * (t' * w)) * 1 - ((A3 * t' + B2) * t' + B1) * t') <= 46805 / 100 * (u * M)).
  { eapply Rle_trans; [apply (step rnd H M HM _ _ _ 24 (44404 / 100) W0)|apply SL; lra]; [|apply part0; lra|lra].
    replace (r4 * (t' * w) * 1) with (r4 * w * t') by ring. apply part; fold u; lra. }
  set (r5 := rnd (r4 * (t' * w))) in *.
  assert (G5 : Rabs (((A3 * t' + B2) * t' + B1) * t') <= 24 * M) by (apply part0; lra).
  assert (G6 : Rabs (((A3 * t' + B2) * t' + B1) * t' + B0) <= 31 * M) by (le3; lra).
  rewrite <- (Rmult_1_r (rnd (r5 + c0))).
  eapply Rle_trans; [apply (step rnd H M HM _ _ _ 31 (56805 / 100) W0)|apply SL; lra]; [|lra|lra].
  replace ((r5 + c0) * 1 - (((A3 * t' + B2) * t' + B1) * t' + B0)) with ((r5 * 1 - ((A3 * t' + B2) * t' + B1) * t') + (c0 - B0)) by ring. le3; fold u; lra.
Qed.
End Shift.

(** C123: the curve between two values and slopes, moved right by [s] as a blend that starts
    in the middle of a segment does, stays within 2^-14 (1 + s / w)^3 of the size of its
    data. *)
Theorem C123_moved : forall rnd y0 d0 y1 d1 w s x, rounds single rnd ->
  pow2 (-20) <= w -> 0 <= s -> s + w <= pow2 20 -> s <= x <= s + w ->
  Rabs (f_keval rnd (f_kshift_right rnd (f_cubic_init rnd y0 d0 y1 d1 w) s) x - keval (cubic_init y0 d0 y1 d1 w) (x - s)) <=
  pow2 (-14) * (1 + s / w) ^ 3 * at_least (size y0 d0 y1 d1 w).
Proof.
  intros rnd y0 d0 y1 d1 w s x H W0 S W1 X. assert (W : pow2 (-20) <= w <= pow2 20) by lra. pose proof (w_pos w W) as WP.
  destruct (at_least_ok (size y0 d0 y1 d1 w)) as [SZ HM]. set (M := at_least (size y0 d0 y1 d1 w)) in *. pose proof (M_pos _ HM) as MP.
  set (r := 1 + s / w). assert (Q : 0 <= s / w) by (apply Rmult_le_pos; [lra|left; apply Rinv_0_lt_compat; lra]).
  assert (R1 : 1 <= r) by (unfold r; lra). assert (R2 : 1 <= r * r) by nra. assert (R3 : r * r <= r * r * r) by nra. assert (R3' : r <= r * r * r) by nra. assert (R3'' : 1 <= r * r * r) by nra.
  unfold f_kshift_right, f_kshift_left. rcase1.
  - assert (s = 0) by lra. subst s. rewrite Rminus_0_r.
    eapply Rle_trans; [apply C118_value; [exact H|exact W|lra]|]. fold M.
    assert (P : 0 < pow2 (-17) <= pow2 (-14)) by (split; [apply pow2_pos|apply pow2_le; lia]). replace (r ^ 3) with (r * r * r) by ring. rewrite Rmult_assoc.
    assert (M <= r * r * r * M) by nra. apply Rmult_le_compat; lra.
  - set (L := s + w). assert (LP : 0 < L) by (unfold L; lra). assert (LW : L = r * w) by (unfold L, r; field; lra). assert (WL : pow2 (-20) <= L <= pow2 20) by (unfold L; lra).
    set (M' := r * r * r * M). assert (MM : M <= M') by (unfold M'; nra). assert (HM' : pow2 (-20) <= M') by lra. pose proof (UM_pos _ HM) as UP. 
    destruct (sizes y0 d0 y1 d1 w W _ SZ) as (_ & _ & _ & _ & _ & S6 & S7 & S8 & S9).
    pose proof (k3_err rnd H y0 d0 y1 d1 w W _ SZ HM) as K3. pose proof (k2_err rnd H y0 d0 y1 d1 w W _ SZ HM) as K2. pose proof (k1_is rnd y0 d0 y1 d1 w W) as K1. pose proof (k0_is rnd y0 d0 y1 d1 w) as K0.
    set (c := f_cubic_init rnd y0 d0 y1 d1 w) in *. set (A3 := 2 * (y0 - y1) + w * (d1 + d0)) in *. set (A2 := 3 * (y1 - y0) - w * (d1 + 2 * d0)) in *. set (A1 := w * d0) in *.
    assert (UM : pow2 (-24) * M' = r * r * r * (pow2 (-24) * M)) by (unfold M'; ring).
    assert (T1 : forall z, - L <= z <= L -> -1 <= z / L <= 1).
    { intros z Z. assert (z / L * L = z) by (field; lra). split; apply Rmult_le_reg_r with L; lra. }
    assert (HA : forall k a, 0 <= k -> Rabs (k * a) = k * Rabs a) by (intros; rewrite Rabs_mult, Rabs_pos_eq; easy).
    pose proof (moved_err rnd H M' L (- s / L) (x / L) HM' WL (T1 (- s) ltac:(unfold L; lra)) (T1 x ltac:(unfold L; lra)) c (r * r * r * A3) (r * r * A2) (r * A1) y0) as V.
    cbv zeta in V. replace (- s / L * L) with (- s) in V by (field; lra). replace (x / L * L) with x in V by (field; lra).
    assert (EX : ((r * r * r * A3 * (- s / L + x / L) + r * r * A2) * (- s / L + x / L) + r * A1) * (- s / L + x / L) + y0 = keval (cubic_init y0 d0 y1 d1 w) (x - s)).
    { pose proof (exact_value y0 d0 y1 d1 w ((x - s) / w) WP) as E. replace ((x - s) / w * w) with (x - s) in E by (field; lra). rewrite E. fold A3 A2 A1.
      replace (- s / L + x / L) with ((x - s) / w / r) by (rewrite LW; field; lra). field. lra. }
    rewrite EX in V.
    assert (B : 600 * (pow2 (-24) * M') <= pow2 (-14) * r ^ 3 * M).
    { change (-14)%Z with (-24 + 10)%Z. rewrite pow2_add, (pow2_IZR 10) by lia. change (2 ^ 10)%Z with 1024%Z.
      replace (pow2 (-24) * 1024 * r ^ 3 * M) with (1024 * (pow2 (-24) * M')) by (unfold M'; ring).
      pose proof (UM_pos _ HM'). lra. }
    eapply Rle_trans; [apply V|exact B].
    + replace (k3 c * (L * L * L) - r * r * r * A3) with (r * r * r * (k3 c * (w * w * w) - A3)) by (rewrite LW; ring). rewrite HA by lra. rewrite UM.
      replace (27 * (r * r * r * (pow2 (-24) * M))) with (r * r * r * (27 * (pow2 (-24) * M))) by ring. apply Rmult_le_compat_l; lra.
    + replace (k2 c * (L * L) - r * r * A2) with (r * r * (k2 c * (w * w) - A2)) by (rewrite LW; ring). rewrite HA by lra. rewrite UM.
      replace (34 * (r * r * r * (pow2 (-24) * M))) with (r * r * r * (34 * (pow2 (-24) * M))) by ring. apply Rmult_le_compat; try lra. apply Rabs_pos.
    + replace (k1 c * L - r * A1) with 0 by (rewrite LW, <- K1; ring). rewrite Rabs_R0. pose proof (UM_pos _ HM'). lra.
    + rewrite K0, Rminus_eq_0, Rabs_R0. pose proof (UM_pos _ HM'). lra.
    + rewrite HA by lra. unfold M'. replace (2 * (r * r * r * M)) with (r * r * r * (2 * M)) by ring. apply Rmult_le_compat_l; lra.
    + rewrite HA by lra. unfold M'. replace (3 * (r * r * r * M)) with (r * r * r * (3 * M)) by ring. apply Rmult_le_compat; try lra. apply Rabs_pos.
    + rewrite HA by lra. unfold M'. apply Rmult_le_compat; try lra. apply Rabs_pos.
    + lra.
Qed.

(** What the new spline shows where the blend ends: the value or, outside of the spline, the
    nearest node; then scaled and offset. *)
Definition ends_at (rnd : R -> R) (tangent : Z -> R) (sp : spline) (p : playback) (y1 d1 : R) : Prop :=
  exists i x y, f_index_for_x_allowing_repeat rnd sp (rnd (start_at p + rnd (blend_x p * playback_rate p))) kInvalidSplineIndex (repeat_ p) = Some (i, x) /\
    y1 = rnd (rnd (y * y_scale p) + y_offset p) /\
    ((outside_spline i = true /\ d1 = 0 /\ f_node_y_at rnd sp i = Some y) \/
     (exists a b, getz (nodes sp) i = Some a /\ getz (nodes sp) (i + 1)%Z = Some b /\
        let c := f_cubic_init rnd (f_node_y rnd sp a) (tangent (nangle a)) (f_node_y rnd sp b) (tangent (nangle b)) (f_width_x rnd sp a b) in
        let at_x := rnd (x - f_node_x rnd sp a) in y = f_keval rnd c at_x /\ d1 = f_kderiv rnd c at_x)).

Section Facts.
Variable rnd : R -> R.
Variable tangent : Z -> R.
Hypothesis H : rounds single rnd.

Lemma blend_init_ends s sp p c : valid (modular_range s) = false -> f_calculate_blend_init rnd tangent s sp p = Some c ->
  exists y1 d1, ends_at rnd tangent sp p y1 d1 /\ c = CInit (cur_y s) (f_slot_derivative rnd s) y1 d1 (rnd (blend_x p * playback_rate p)).
Proof.
  intros V E. unfold f_calculate_blend_init in E. rewrite V in E.
  destruct (f_index_for_x_allowing_repeat rnd sp _ _ _) as [[i x]|] eqn:Q; [|discriminate]. cbv iota beta in E.
  destruct (outside_spline i) eqn:O.
  - destruct (f_node_y_at rnd sp i) as [y|] eqn:Y; [|discriminate]. cbn [fst snd] in E. injection E as <-.
    eexists _, _. split; [|reflexivity]. exists i, x, y. split; [exact Q|]. split; [reflexivity|].
    left. easy.
  - destruct (f_node_x_at rnd sp i) as [a|] eqn:A; [|discriminate]. cbv iota beta in E. unfold f_create_cubic_init in E. rewrite O in E.
    destruct (getz (nodes sp) i) as [na|] eqn:NA; [|discriminate]. destruct (getz (nodes sp) (i + 1)%Z) as [nb|] eqn:NB; [|discriminate]. cbn [fst snd] in E. injection E as <-.
    eexists _, _. split; [|reflexivity]. exists i, x. eexists. split; [exact Q|]. split; [reflexivity|]. right. exists na, nb. split; [exact NA|]. split; [exact NB|].
    unfold f_node_x_at in A. unfold outside_spline in O. destruct (i =? kAfterSplineIndex)%Z eqn:AA; [unfold kAfterSplineIndex in *; lia|]. destruct (i =? kBeforeSplineIndex)%Z eqn:BB; [unfold kAfterSplineIndex, kBeforeSplineIndex in *; lia|].
    rewrite NA in A. injection A as <-. split; reflexivity.
Qed.

(** Frames that stay on the blend's curve. *)
Lemma frames_on_curve : forall deltas s e, cubic_x_end s = Some e -> single (cubic_x s) -> 0 <= rate s -> Forall (fun d => 0 <= d) deltas ->
  cur_y s = f_keval rnd (curve s) (cubic_x s) ->
  let X := fold_left (fun x d => rnd (x + rnd (d * rate s))) deltas (cubic_x s) in
  X <= e ->
  cubic_x s <= X /\ single X /\
  exists s2, f_frames rnd tangent s deltas = Some s2 /\ cubic_x s2 = X /\ cur_y s2 = f_keval rnd (curve s) X /\ x_index s2 = x_index s.
Proof.
  induction deltas as [|d l IH]; intros s e E S RT D Y X LE.
  - cbn in X. split; [unfold X; lra|]. split; [exact S|]. exists s. cbn. rewrite Y. easy.
  - inversion D as [|? ? D0 D']; subst.
    set (s' := f_evaluate_slot rnd (f_step_x rnd d s)).
    assert (Z : rnd 0 = 0) by (apply (rnd_id _ _ _ H); apply fmt_0; lia).
    assert (UP : cubic_x s <= cubic_x s').
    { cbn. rewrite <- (rnd_id _ _ _ H (cubic_x s) S) at 1. apply (rnd_mono _ _ _ H).
      assert (0 <= rnd (d * rate s)); [rewrite <- Z; apply (rnd_mono _ _ _ H); apply Rmult_le_pos; easy|lra]. }
    destruct (IH s' e) as (U & SX & s2 & F & A & B & C); try easy.
    { cbn. apply (rnd_fmt _ _ _ H). }
    change (fold_left (fun x d0 => rnd (x + rnd (d0 * rate s'))) l (cubic_x s')) with X in *.
    split; [lra|]. split; [exact SX|]. exists s2. split; [|easy].
    cbn [f_frames]. unfold f_advance_slot.
    replace (past_end (f_step_x rnd d s)) with false.
    + exact F.
    + symmetry. unfold past_end. change (cubic_x_end (f_step_x rnd d s)) with (cubic_x_end s). rewrite E. apply Rltb_f. change (cubic_x (f_step_x rnd d s)) with (cubic_x s'). lra.
Qed.
End Facts.

(** C123: SetSplines with a blend, then any frames that stay within the blend.  What is shown
    follows the cubic from the value and slope shown before to those of the new spline, up to
    2^-14 (1 + from / w)^3 of the size of the data, where [from] is how far into its segment
    the new spline is started and [w] how long the blend is. *)
Theorem C123_blend : forall rnd tangent sp p s s' deltas, rounds single rnd ->
  source s <> None -> 0 < blend_x p -> 0 <= playback_rate p -> valid (modular_range s) = false ->
  f_set_spline rnd tangent sp p s = Some s' ->
  let w := rnd (blend_x p * playback_rate p) in
  let from := cubic_x s' in
  let X := fold_left (fun x d => rnd (x + rnd (d * playback_rate p))) deltas from in
  pow2 (-20) <= w -> 0 <= from -> from + w <= pow2 20 ->
  Forall (fun d => 0 <= d) deltas -> X <= from + w ->
  exists y1 d1 s2, ends_at rnd tangent sp p y1 d1 /\ f_frames rnd tangent s' deltas = Some s2 /\
    Rabs (cur_y s2 - keval (cubic_init (cur_y s) (f_slot_derivative rnd s) y1 d1 w) (X - from)) <=
      pow2 (-14) * (1 + from / w) ^ 3 * at_least (size (cur_y s) (f_slot_derivative rnd s) y1 d1 w).
Proof.
  intros rnd tangent sp p s s' deltas H SRC B RT V E w from X W FR LW D XE.
  unfold f_set_spline in E. destruct (source s); [|easy]. rewrite (Rltb_t _ _ B) in E. unfold f_blend_to_spline in E.
  destruct (f_calculate_blend_init rnd tangent s sp p) as [c|] eqn:C; [|discriminate]. destruct (blend_init_ends rnd tangent s sp p c V C) as (y1 & d1 & EN & ->).
  destruct (f_index_for_x_allowing_repeat rnd sp (start_at p) _ _) as [[i x]|]; [|discriminate]. destruct (f_node_x_at rnd sp i) as [a|]; [|discriminate].
  injection E as E. fold w in E. subst s'. cbn [cubic_x f_evaluate_slot] in from. subst X.
  set (s' := f_evaluate_slot rnd _). change (cubic_x s') with from in *.
  assert (SF : single from) by (unfold from; apply (rnd_fmt _ _ _ H)).
  pose proof (fun e Q LE => frames_on_curve rnd tangent H deltas s' e Q SF RT D eq_refl LE) as F. change (rate s') with (playback_rate p) in F. change (cubic_x s') with from in F.
  set (X := fold_left _ deltas from) in *.
  assert (SX : single X).
  { unfold X. clearbody from. clear - SF H. revert from SF. induction deltas as [|d l IH]; intros; [exact SF|]. cbn. apply IH. apply (rnd_fmt _ _ _ H). }
  destruct (F (rnd (from + w)) eq_refl) as (U & _ & s2 & FS & _ & Y & _).
  { rewrite <- (rnd_id _ _ _ H X SX). apply (rnd_mono _ _ _ H). exact XE. }
  exists y1, d1, s2. split; [exact EN|]. split; [exact FS|]. rewrite Y.
  exact (C123_moved rnd (cur_y s) (f_slot_derivative rnd s) y1 d1 w from X H W FR LW (conj U XE)).
Qed.

(** When the new spline is started at one of its nodes, the value does not change at all, and
    the slope is the one shown before, times the new playback rate. *)
Theorem C123_at_node : forall rnd tangent sp p s s', rounds single rnd ->
  source s <> None -> 0 < blend_x p -> valid (modular_range s) = false -> single (cur_y s) ->
  f_set_spline rnd tangent sp p s = Some s' -> cubic_x s' = 0 ->
  cur_y s' = cur_y s /\
  (0 < rnd (blend_x p * playback_rate p) -> f_slot_derivative rnd s' = rnd (playback_rate p * f_slot_derivative rnd s)).
Proof.
  intros rnd tangent sp p s s' H SRC B V SY E X0.
  unfold f_set_spline in E. destruct (source s); [|easy]. rewrite (Rltb_t _ _ B) in E. unfold f_blend_to_spline in E.
  destruct (f_calculate_blend_init rnd tangent s sp p) as [c|] eqn:C; [|discriminate]. destruct (blend_init_ends rnd tangent s sp p c V C) as (y1 & d1 & _ & ->).
  destruct (f_index_for_x_allowing_repeat rnd sp (start_at p) _ _) as [[i x]|]; [|discriminate]. destruct (f_node_x_at rnd sp i) as [a|]; [|discriminate].
  injection E as E. subst s'. cbn [cubic_x f_evaluate_slot] in X0. rewrite X0.
  assert (SD : single (f_slot_derivative rnd s)) by apply (rnd_fmt _ _ _ H).
  pose proof (C118_start rnd (cur_y s) (f_slot_derivative rnd s) y1 d1 (rnd (blend_x p * playback_rate p)) H SY SD) as [P Q].
  set (d0 := f_slot_derivative rnd s) in *. clearbody d0. unfold f_slot_derivative. cbn [cur_y f_evaluate_slot curve cubic_x rate]. unfold f_kshift_right, f_kshift_left. rewrite Ropp_0.
  replace (Reqb 0 0) with true by (symmetry; rcase1; auto; lra). unfold f_cubic_of. cbn [ci_start_y ci_start_derivative ci_end_y ci_end_derivative ci_width_x].
  split; [exact P|]. intros W. rewrite (Q W). reflexivity.
Qed.

Lemma rnd_up rnd x n e : rounds single rnd -> (0 <= e <= 60)%Z ->
  IZR (2 ^ 23) * IZR (2 ^ e) <= Rabs x <= IZR (2 ^ 24) * IZR (2 ^ e) -> Rabs (x - IZR n * IZR (2 ^ e)) < IZR (2 ^ e) / 2 -> rnd x = IZR n * IZR (2 ^ e).
Proof.
  intros H E [L U] N. pose proof (pow2_IZR e ltac:(lia)) as PE. rewrite <- PE in *. pose proof (pow2_IZR 23 ltac:(lia)) as P23. pose proof (pow2_IZR 24 ltac:(lia)) as P24'. rewrite <- P23, <- pow2_add in L. rewrite <- P24', <- pow2_add in U.
  rewrite (rnd_at 24 (-149) P24 rnd H x (24 + e) n).
  - do 2 f_equal. lia.
  - replace (24 + e - 1)%Z with (23 + e)%Z by lia. easy.
  - lia.
  - replace (24 + e - 24)%Z with e by lia. assert (2 * pow2 (e - 1) = pow2 e) by (rewrite <- pow2_succ; f_equal; lia). lra.
Qed.
Ltac up_ H n e := match goal with |- context [?r ?x] => match type of H with rounds _ r => rewrite (rnd_up r x n e H ltac:(lia)) by
  (change (2 ^ 23)%Z with 8388608%Z; change (2 ^ 24)%Z with 16777216%Z; let v := eval vm_compute in (2 ^ e)%Z in change (2 ^ e)%Z with v; clear; rabs; lra);
  let v := eval vm_compute in (2 ^ e)%Z in change (2 ^ e)%Z with v end end.

(** From 0 to 1 in 128 ticks, 65000 ticks into a segment. *)
Lemma far_blend rnd : rounds single rnd ->
  f_keval rnd (f_kshift_right rnd (f_cubic_init rnd 0 0 1 0 128) 65000) 65000 = - (32).
Proof.
  intros H. assert (Z : rnd 0 = 0) by (apply (rnd_id _ _ _ H); apply fmt_0; lia).
  assert (E1 : rnd (1 / 128) = (1 / 128)) by (at_ H (8388608)%Z 30%Z; lra).
  assert (E2 : rnd ((1 / 128) * (1 / 128)) = (1 / 16384)) by (at_ H (8388608)%Z 37%Z; lra).
  assert (E3 : rnd ((1 / 16384) * (1 / 128)) = (1 / 2097152)) by (at_ H (8388608)%Z 44%Z; lra).
  assert (E4 : rnd (2 * (1 / 2097152)) = (1 / 1048576)) by (at_ H (8388608)%Z 43%Z; lra).
  assert (E5 : rnd (0 - 1) = (- (1))) by (at_ H (-8388608)%Z 23%Z; lra).
  assert (E6 : rnd ((1 / 1048576) * (- (1))) = (- (1 / 1048576))) by (at_ H (-8388608)%Z 43%Z; lra).
  assert (E7 : rnd ((- (1 / 1048576)) + 0) = (- (1 / 1048576))) by (at_ H (-8388608)%Z 43%Z; lra).
  assert (E8 : rnd (3 * (1 / 16384)) = (3 / 16384)) by (at_ H (12582912)%Z 36%Z; lra).
  assert (E9 : rnd (1 - 0) = 1) by (at_ H (8388608)%Z 23%Z; lra).
  assert (E10 : rnd ((3 / 16384) * 1) = (3 / 16384)) by (at_ H (12582912)%Z 36%Z; lra).
  assert (E11 : rnd ((3 / 16384) - 0) = (3 / 16384)) by (at_ H (12582912)%Z 36%Z; lra).
  assert (E12 : rnd (6 * (- (1 / 1048576))) = (- (3 / 524288))) by (at_ H (-12582912)%Z 41%Z; lra).
  assert (E13 : rnd ((- (3 / 524288)) * (- (65000))) = (24375 / 65536)) by (at_ H (12480000)%Z 25%Z; lra).
  assert (E14 : rnd (2 * (3 / 16384)) = (3 / 8192)) by (at_ H (12582912)%Z 35%Z; lra).
  assert (E15 : rnd ((24375 / 65536) + (3 / 8192)) = (24399 / 65536)) by (at_ H (12492288)%Z 25%Z; lra).
  assert (E16 : rnd ((24399 / 65536) * (1 / 2)) = (24399 / 131072)) by (at_ H (12492288)%Z 26%Z; lra).
  assert (E17 : rnd (3 * (- (1 / 1048576))) = (- (3 / 1048576))) by (at_ H (-12582912)%Z 42%Z; lra).
  assert (E18 : rnd ((- (3 / 1048576)) * (- (65000))) = (24375 / 131072)) by (at_ H (12480000)%Z 26%Z; lra).
  assert (E19 : rnd (2 * (3 / 16384)) = (3 / 8192)) by (at_ H (12582912)%Z 35%Z; lra).
  assert (E20 : rnd ((24375 / 131072) + (3 / 8192)) = (24423 / 131072)) by (at_ H (12504576)%Z 26%Z; lra).
  assert (E21 : rnd ((24423 / 131072) * (- (65000))) = (- (12402305 / 1024))) by (at_ H (-12402305)%Z 10%Z; lra).
  assert (E22 : rnd ((- (12402305 / 1024)) + 0) = (- (12402305 / 1024))) by (at_ H (-12402305)%Z 10%Z; lra).
  assert (E23 : rnd ((- (1 / 1048576)) * (- (65000))) = (8125 / 131072)) by (at_ H (16640000)%Z 28%Z; lra).
  assert (E24 : rnd ((8125 / 131072) + (3 / 16384)) = (8149 / 131072)) by (at_ H (16689152)%Z 28%Z; lra).
  assert (E25 : rnd ((8149 / 131072) * (- (65000))) = (- (1034541 / 256))) by (at_ H (-16552656)%Z 12%Z; lra).
  assert (E26 : rnd ((- (1034541 / 256)) + 0) = (- (1034541 / 256))) by (at_ H (-16552656)%Z 12%Z; lra).
  assert (E27 : rnd ((- (1034541 / 256)) * (- (65000))) = 262676432) by (up_ H (16417277)%Z (4)%Z; lra).
  assert (E28 : rnd (262676432 + 0) = 262676432) by (up_ H (16417277)%Z (4)%Z; lra).
  assert (E29 : rnd ((- (1 / 1048576)) * 65000) = (- (8125 / 131072))) by (at_ H (-16640000)%Z 28%Z; lra).
  assert (E30 : rnd ((- (8125 / 131072)) + (24399 / 131072)) = (8137 / 65536)) by (at_ H (16664576)%Z 27%Z; lra).
  assert (E31 : rnd ((8137 / 65536) * 65000) = (16528281 / 2048)) by (at_ H (16528281)%Z 11%Z; lra).
  assert (E32 : rnd ((16528281 / 2048) + (- (12402305 / 1024))) = (- (8276329 / 2048))) by (at_ H (-16552658)%Z 12%Z; lra).
  assert (E33 : rnd ((- (8276329 / 2048)) * 65000) = (- (262676464))) by (up_ H (-16417279)%Z (4)%Z; lra).
  assert (E34 : rnd ((- (262676464)) + 262676432) = (- (32))) by (at_ H (-8388608)%Z 18%Z; lra).
  assert (C : f_cubic_init rnd 0 0 1 0 128 = Cubic (- (1 / 1048576)) (3 / 16384) 0 0).
  { unfold f_cubic_init. rewrite (Rltb_t 0 128) by lra. rewrite E1, E2, E3, E4, E5, E6, !Rplus_0_l, !Rmult_0_r, !Z, ?Rplus_0_l, ?Rmult_0_r, ?Z, E7, E8, E9, E10, E11. reflexivity. }
  rewrite C. unfold f_kshift_right, f_kshift_left. replace (Reqb (- (65000)) 0) with false by (symmetry; rcase1; auto; lra).
  cbn [k3 k2 k1 k0]. unfold f_kderiv2, f_kderiv, f_keval. cbn [k3 k2 k1 k0].
  rewrite E12, E13, E14, E15, E16, E17, E18, E20, E21, E22, E23, E24, E25, E26, E27, E28, E29, E30, E31, E32, E33, E34. reflexivity.
Qed.

(** A spline of one value, 65535 ticks long. *)
Definition flat (from to : R) : spline := Spline (Rg from to) 1 [Node 0 0 0; Node 65535 0 0] 2.
Lemma flat_index rnd from to n guess : rounds single rnd -> (0 <= n <= 65134)%Z -> (guess = 0 \/ guess = kInvalidSplineIndex)%Z ->
  f_index_for_x_allowing_repeat rnd (flat from to) (IZR n) guess false = Some (0%Z, IZR n).
Proof.
  intros H N G. unfold f_index_for_x_allowing_repeat, f_index_for_x. cbn [x_granularity flat].
  assert (Q : f_quantize_x rnd (IZR n) 1 = Some n).
  { unfold f_quantize_x. replace (Reqb 1 0) with false by (symmetry; rcase1; auto; lra). cbn [negb].
    assert (S1 : rnd (IZR n / 1) = IZR n). { replace (IZR n / 1) with (IZR n * pow2 0) by (rewrite pow2_0; field). rewrite (rnd_id _ _ _ H); [rewrite pow2_0; ring|]. apply fmt_grid_in; lia. }
    rewrite S1. assert (S2 : rnd (IZR n + 1 / 2) = IZR n + 1 / 2).
    { replace (IZR n + 1 / 2) with (IZR (2 * n + 1) * pow2 (- (1))) by (rewrite pow2_inv, pow2_1, plus_IZR, mult_IZR; field). apply (rnd_id _ _ _ H). apply fmt_grid_in; lia. }
    assert (0 <= IZR n) by (apply IZR_le; lia).
    rewrite S2. unfold to_int, Rtrunc. rewrite (Rleb_t 0) by lra. rewrite (Rfloor_unique _ n) by lra. replace ((-2147483648 <=? n) && (n <? 2147483648))%Z with true by lia. reflexivity. }
  rewrite Q. change (front (flat from to)) with (Some (Node 0 0 0)). change (back (flat from to)) with (Some (Node 65535 0 0)).
  cbv iota beta. cbn [nx]. replace (n <? 0)%Z with false by lia. replace (n =? 65535)%Z with false by lia. replace (65535 <=? n)%Z with false by lia. cbn [andb].
  assert (W : Rltb 0 (f_width_x rnd (flat from to) (Node 0 0 0) (Node 65535 0 0)) = true).
  { apply Rltb_t. unfold f_width_x. cbn [nx x_granularity flat]. change (65535 - 0)%Z with 65535%Z. replace (65535 * 1) with (IZR 65535 * pow2 0) by (rewrite pow2_0; lra). rewrite (rnd_id _ _ _ H); [rewrite pow2_0; lra|]. apply fmt_grid_in; lia. }
  assert (C0 : index_contains_x (flat from to) n 0 = Some true).
  { change (Some ((0 <=? n) && (n <=? 65535))%Z = Some true). f_equal. lia. }
  assert (B0 : binary_search_index (flat from to) n = Some 0%Z).
  { unfold binary_search_index. cbn [nodes flat upper_bound nx]. replace (n <? 0)%Z with false by lia. replace (n <? 65535)%Z with true by lia. reflexivity. }
  destruct G as [-> | ->].
  - rewrite C0. change (getz (nodes (flat from to)) 0) with (Some (Node 0 0 0)). change (getz (nodes (flat from to)) (0 + 1)) with (Some (Node 65535 0 0)). cbv iota beta. rewrite W. reflexivity.
  - change (index_contains_x (flat from to) n kInvalidSplineIndex) with (Some false). cbv iota beta. rewrite B0. cbv iota beta. rewrite C0. reflexivity.
Qed.
(** Blending from 0 to 1, started [n] ticks into the segment. *)
Lemma flat_blend rnd tangent s0 n : rounds single rnd -> tangent 0%Z = 0 -> valid (modular_range s0) = false -> (0 <= n <= 65000)%Z ->
  let low := flat 0 1 in let high := flat 1 2 in
  (forall n, In n (nodes low) -> f_node_y rnd low n = 0) /\ (forall n, In n (nodes high) -> f_node_y rnd high n = 1) /\
  exists s1 s2, f_start_spline rnd tangent low (Playback 0 0 1 0 1 false) s0 = Some s1 /\ cur_y s1 = 0 /\ f_slot_derivative rnd s1 = 0 /\ source s1 = Some low /\ modular_range s1 = modular_range s0 /\
    f_set_spline rnd tangent high (Playback (IZR n) 128 1 0 1 false) s1 = Some s2 /\ cubic_x s2 = IZR n /\
    cur_y s2 = f_keval rnd (f_kshift_right rnd (f_cubic_init rnd 0 0 1 0 128) (IZR n)) (IZR n).
Proof.
  intros H T V N low high. assert (Z : rnd 0 = 0) by (apply (rnd_id _ _ _ H); apply fmt_0; lia).
  assert (IN : forall n, (0 <= n <= 65535)%Z -> rnd (IZR n) = IZR n).
  { clear n N. intros n N. replace (IZR n) with (IZR n * pow2 0) by (rewrite pow2_0; ring). apply (rnd_id _ _ _ H). apply fmt_grid_in; lia. }
  pose proof (IN 1%Z ltac:(lia)) as O1. pose proof (IN n ltac:(lia)) as O65. pose proof (IN 128%Z ltac:(lia)) as O128. pose proof (IN (n + 128)%Z ltac:(lia)) as O651.
  assert (S1 : single 1) by (rewrite <- O1; apply (rnd_fmt _ _ _ H)). assert (S0 : single 0) by (apply fmt_0; lia).
  assert (YL : forall a b, f_node_y rnd (flat 0 1) (Node a 0 b) = 0).
  { intros. unfold f_node_y, f_y, f_y_percent. cbn [ny y_range start_ end_ flat]. repeat first [rewrite Rmult_0_l | rewrite Rmult_0_r | rewrite Z | rewrite Rplus_0_l | rewrite Rplus_0_r | rewrite Rminus_0_r | rewrite O1 | rewrite Rmult_1_l]. reflexivity. }
  assert (YH : forall a b, f_node_y rnd (flat 1 2) (Node a 0 b) = 1).
  { intros. unfold f_node_y, f_y, f_y_percent. cbn [ny y_range start_ end_ flat]. repeat first [rewrite Rmult_0_l | rewrite Rmult_0_r | rewrite Z | rewrite Rplus_0_l | rewrite Rplus_0_r | rewrite Rminus_0_r | rewrite O1 | rewrite Rmult_1_l]. reflexivity. }
  split; [intros n0 [<- | [<- | []]]; apply YL|]. split; [intros n0 [<- | [<- | []]]; apply YH|].
  assert (ST : exists s1, f_start_spline rnd tangent low (Playback 0 0 1 0 1 false) s0 = Some s1 /\ cur_y s1 = 0 /\ f_slot_derivative rnd s1 = 0 /\ source s1 = Some low /\ modular_range s1 = modular_range s0).
  { unfold f_start_spline, f_init_cubic. cbn [source start_at playback_rate y_offset y_scale repeat_ x_index repeats].
    change ((kInvalidSplineIndex + 1) mod 65536)%Z with 0%Z. unfold low. rewrite (flat_index rnd 0 1 0 0 H) by (auto; lia).
    cbv iota beta. change (f_range_x rnd (flat 0 1) 0) with (Some (f_node_x rnd (flat 0 1) (Node 0 0 0), Some (f_node_x rnd (flat 0 1) (Node 65535 0 0)))).
    change (f_create_cubic_init rnd tangent (flat 0 1) 0) with (Some (CInit (f_node_y rnd (flat 0 1) (Node 0 0 0)) (tangent 0%Z) (f_node_y rnd (flat 0 1) (Node 65535 0 0)) (tangent 0%Z) (f_width_x rnd (flat 0 1) (Node 0 0 0) (Node 65535 0 0)))).
    cbv iota beta. rewrite !YL, T. unfold f_cubic_of. cbn [ci_start_y ci_start_derivative ci_end_y ci_end_derivative ci_width_x].
    assert (CC : f_cubic_init rnd 0 0 0 0 (f_width_x rnd (flat 0 1) (Node 0 0 0) (Node 65535 0 0)) = Cubic 0 0 0 0).
    { unfold f_cubic_init. repeat first [rewrite Rmult_0_l | rewrite Rmult_0_r | rewrite Z | rewrite Rplus_0_l | rewrite Rplus_0_r | rewrite Rminus_0_r | rewrite O1 | rewrite Rmult_1_l]. destruct (Rltb _ _); reflexivity. }
    rewrite CC. unfold f_kscale_up, f_kshift_up. cbn [k3 k2 k1 k0 scale_y offset_y]. rewrite !Rmult_0_l, !Rplus_0_r, !Z.
    eexists. split; [reflexivity|]. unfold f_slot_derivative, f_evaluate_slot, f_keval, f_kderiv. cbn [cur_y curve cubic_x rate source modular_range k3 k2 k1 k0].
    repeat first [rewrite Rmult_0_l | rewrite Rmult_0_r | rewrite Z | rewrite Rplus_0_l | rewrite Rplus_0_r | rewrite Rminus_0_r | rewrite O1 | rewrite Rmult_1_l]. auto 10. }
  destruct ST as (s1 & E1 & Y1 & D1 & SO & MR). exists s1.
  assert (CI : f_calculate_blend_init rnd tangent s1 high (Playback (IZR n) 128 1 0 1 false) = Some (CInit 0 0 1 0 128)).
  { unfold f_calculate_blend_init. cbn [blend_x playback_rate start_at repeat_ y_scale y_offset]. rewrite Rmult_1_r, O128. replace (IZR n + 128) with (IZR (n + 128)) by (rewrite plus_IZR; lra). rewrite O651.
    unfold high. rewrite (flat_index rnd 1 2 (n + 128) _ H) by (auto; lia). cbv iota beta. change (outside_spline 0) with false. cbv iota.
    change (f_node_x_at rnd (flat 1 2) 0) with (Some (f_node_x rnd (flat 1 2) (Node 0 0 0))).
    change (f_create_cubic_init rnd tangent (flat 1 2) 0) with (Some (CInit (f_node_y rnd (flat 1 2) (Node 0 0 0)) (tangent 0%Z) (f_node_y rnd (flat 1 2) (Node 65535 0 0)) (tangent 0%Z) (f_width_x rnd (flat 1 2) (Node 0 0 0) (Node 65535 0 0)))).
    cbv iota beta. rewrite !YH, T. unfold f_cubic_of. cbn [ci_start_y ci_start_derivative ci_end_y ci_end_derivative ci_width_x fst snd].
    match goal with |- context [f_kderiv rnd (f_cubic_init rnd 1 0 1 0 ?w) ?x] => destruct (C118_constant rnd 1 w x H S1) as [-> ->] end.
    rewrite MR, V. cbn [fst snd]. rewrite Rmult_1_r, O1, Rplus_0_r, O1, Y1, D1. reflexivity. }
  unfold f_set_spline. rewrite SO. cbn [blend_x]. rewrite (Rltb_t 0 128) by lra. unfold f_blend_to_spline. rewrite CI. cbn [start_at playback_rate blend_x repeat_ y_offset y_scale].
  unfold high. rewrite (flat_index rnd 1 2 n _ H) by (auto; lia). cbv iota beta. change (f_node_x_at rnd (flat 1 2) 0) with (Some (rnd (0 * 1))). rewrite Rmult_0_l, Z. cbv iota beta. rewrite Rminus_0_r, O65.
  eexists. split; [exact E1|]. split; [exact Y1|]. split; [exact D1|]. split; [reflexivity|]. split; [exact MR|]. split; [reflexivity|]. split; [reflexivity|]. cbn [cur_y f_evaluate_slot curve cubic_x].
  unfold f_cubic_of. cbn [ci_start_y ci_start_derivative ci_end_y ci_end_derivative ci_width_x]. reflexivity.
Qed.

(** C123, the strong form is false: a blend between two splines that are constant, 0 and 1,
    shows -32 at once, because the curve is moved by 65000 ticks in single precision. *)
Theorem C123_refuted : forall rnd tangent s0, rounds single rnd -> tangent 0%Z = 0 -> valid (modular_range s0) = false ->
  let low := flat 0 1 in let high := flat 1 2 in
  (forall n, In n (nodes low) -> f_node_y rnd low n = 0) /\ (forall n, In n (nodes high) -> f_node_y rnd high n = 1) /\
  exists s1 s2, f_start_spline rnd tangent low (Playback 0 0 1 0 1 false) s0 = Some s1 /\ cur_y s1 = 0 /\ f_slot_derivative rnd s1 = 0 /\
    f_set_spline rnd tangent high (Playback 65000 128 1 0 1 false) s1 = Some s2 /\ cur_y s2 = - (32).
Proof.
  intros rnd tangent s0 H T V low high. destruct (flat_blend rnd tangent s0 65000 H T V ltac:(lia)) as (A & B & s1 & s2 & C & D & E & _ & _ & F & _ & G).
  split; [exact A|]. split; [exact B|]. exists s1, s2. rewrite far_blend in G by easy. auto.
Qed.

(** The hypotheses of C123_blend hold of a blend that starts 64 ticks into a segment and runs
    for two frames, those of C123_at_node of one that starts at a node. *)
Example C123_case : forall rnd tangent s0, rounds single rnd -> tangent 0%Z = 0 -> valid (modular_range s0) = false ->
  let p n := Playback (IZR n) 128 1 0 1 false in
  exists s1, source s1 <> None /\ valid (modular_range s1) = false /\ single (cur_y s1) /\
    (exists s', f_set_spline rnd tangent (flat 1 2) (p 64%Z) s1 = Some s' /\
       let w := rnd (blend_x (p 64%Z) * playback_rate (p 64%Z)) in let from := cubic_x s' in
       pow2 (-20) <= w /\ from = 64 /\ from + w <= pow2 20 /\
       fold_left (fun x d => rnd (x + rnd (d * playback_rate (p 64%Z)))) [1; 2] from = 67 /\ 67 <= from + w) /\
    (exists s', f_set_spline rnd tangent (flat 1 2) (p 0%Z) s1 = Some s' /\ cubic_x s' = 0).
Proof.
  intros rnd tangent s0 H T V p. destruct (flat_blend rnd tangent s0 64 H T V ltac:(lia)) as (_ & _ & s1 & s2 & C & D & E & SO & MR & F & X & _).
  destruct (flat_blend rnd tangent s0 0 H T V ltac:(lia)) as (_ & _ & s1' & s2' & C' & _ & _ & _ & _ & F' & X' & _). rewrite C in C'. injection C' as <-.
  assert (IN : forall n, (0 <= n <= 65535)%Z -> rnd (IZR n) = IZR n).
  { intros n N. replace (IZR n) with (IZR n * pow2 0) by (rewrite pow2_0; ring). apply (rnd_id _ _ _ H). apply fmt_grid_in; lia. }
  exists s1. split; [rewrite SO; discriminate|]. split; [rewrite MR; exact V|]. split; [rewrite D; apply fmt_0; lia|]. split.
  - exists s2. split; [exact F|]. cbn [p blend_x playback_rate fold_left]. rewrite !Rmult_1_r, X, (IN 128%Z), (IN 1%Z), (IN 2%Z) by lia.
    replace (64 + 1) with 65 by lra. rewrite (IN 65%Z) by lia. replace (65 + 2) with 67 by lra. rewrite (IN 67%Z) by lia.
    pose proof one_M as P1. rewrite (pow2_IZR 20) by lia. change (2 ^ 20)%Z with 1048576%Z. repeat split; lra.
  - exists s2'. split; [exact F'|exact X'].
Qed.

Print Assumptions C123_moved.
Print Assumptions C123_blend.
Print Assumptions C123_at_node.
Print Assumptions C123_refuted.
