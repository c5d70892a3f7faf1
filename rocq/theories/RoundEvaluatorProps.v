(** Playing a spline in single precision (C119). *)
From Verif Require Import RBase BaseFacts RangeModel CurveModel CompactSplineModel CompactSplineSpec CompactSplineProofs CompactSplineIndex CompactSplineEvalProps EvaluatorModel EvaluatorSpec EvaluatorProofs EvaluatorPlay EvaluatorProps RoundModel RoundProofs RoundRangeModel RoundNodeModel RoundCubicModel RoundCubicProps RoundEvaluatorModel RoundEvaluatorProofs.

(** What is shown at [x]: before and after the spline, and on a jump at its very end, the
    scaled and shifted value of a node, still; on a segment, value and slope within the
    bounds of C118 of the exact cubic between the values and slopes that its nodes hold. *)
Inductive shows (rnd : R -> R) (tangent : Z -> R) (sp : spline) (p : playback) (x y slope : R) : Prop :=
| Shows_before sx n : start_x sp = Some sx -> x <= sx -> front sp = Some n ->
    y = rnd (rnd (f_node_y rnd sp n * y_scale p) + y_offset p) -> slope = 0 -> shows rnd tangent sp p x y slope
| Shows_after ex n : end_x sp = Some ex -> ex <= x -> back sp = Some n ->
    y = rnd (rnd (f_node_y rnd sp n * y_scale p) + y_offset p) -> slope = 0 -> shows rnd tangent sp p x y slope
| Shows_jump n : end_x sp = Some x -> getz (nodes sp) (num_nodes sp - 2) = Some n -> node_x n (x_granularity sp) = x ->
    y = rnd (rnd (f_node_y rnd sp n * y_scale p) + y_offset p) -> slope = 0 -> shows rnd tangent sp p x y slope
| Shows_segment i a b : getz (nodes sp) i = Some a -> getz (nodes sp) (i + 1) = Some b ->
    node_x a (x_granularity sp) <= x <= node_x b (x_granularity sp) -> (nx a < nx b)%Z ->
    (let w := node_x b (x_granularity sp) - node_x a (x_granularity sp) in
     let exact := cubic_init (f_node_y rnd sp a) (tangent (nangle a)) (f_node_y rnd sp b) (tangent (nangle b)) w in
     let t := x - node_x a (x_granularity sp) in
     let m := at_least (Rabs (y_scale p) * at_least (size (f_node_y rnd sp a) (tangent (nangle a)) (f_node_y rnd sp b) (tangent (nangle b)) w) + Rabs (y_offset p)) in
     Rabs (y - (y_scale p * keval exact t + y_offset p)) <= pow2 (-17) * m /\
     Rabs (slope - y_scale p * kderiv exact t) <= pow2 (-16) * m / w) ->
    shows rnd tangent sp p x y slope.

Fixpoint total (ks : list Z) : Z := match ks with [] => 0%Z | k :: l => (k + total l)%Z end.
(** The frames move by whole grains; they can go on for ever if the spline repeats, and
    otherwise to a position of 2^22 grains. *)
Definition on_grid (sp : spline) (p : playback) (deltas : list R) : Prop :=
  exists n ks, start_at p = IZR n * x_granularity sp /\ (0 <= n <= 2 ^ 22)%Z /\
    Forall2 (fun d k => d * playback_rate p = IZR k * x_granularity sp /\ (0 <= k)%Z) deltas ks /\
    (if repeat_ p then Forall (fun k => k <= 2 ^ 21)%Z ks else (n + total ks <= 2 ^ 22)%Z).

Section Play.
Variable rnd : R -> R.
Hypothesis H : rounds single rnd.
Variable tangent : Z -> R.
Variable e : Z.
Hypothesis E : (-100 <= e <= 100)%Z.
Variable sp : spline.
Hypothesis O : spline_ok sp.
Hypothesis GR : x_granularity sp = pow2 e.
Variable p : playback.
Hypothesis CR : can_repeat sp (repeat_ p).
Notation line := (line e).

Lemma half_below n m : line n - x_granularity sp / 2 <= line m -> (n <= m)%Z.
Proof.
  intros L. pose proof (pow2_pos e) as P. rewrite GR in L. unfold RoundEvaluatorProofs.line in L. apply Z.lt_succ_r. apply lt_IZR. unfold Z.succ. rewrite plus_IZR.
  apply Rmult_lt_reg_r with (pow2 e); [easy|]. lra.
Qed.
Lemma half_above n m : line n < line m + x_granularity sp / 2 -> (n <= m)%Z.
Proof. intros L. apply half_below. lra. Qed.
Lemma placed_pos s n : placed s sp p (line n) -> (0 <= n)%Z.
Proof. intros P. pose proof (pl_x _ _ _ _ P) as X. apply half_below. rewrite line_0. lra. Qed.
Lemma wrapped_on_grid n x : wrapped sp (repeat_ p) (line n) x -> exists k, x = line k /\ ((repeat_ p = true -> k <= 65535) /\ (repeat_ p = false -> k = n))%Z.
Proof.
  unfold wrapped. intros W. destruct (repeat_ p) eqn:RP.
  - destruct W as (ex & k & EX & -> & B). unfold end_x in EX. destruct (back sp) as [m|] eqn:BK; [|discriminate]. injection EX as <-.
    destruct (node_line rnd H tangent e E sp O GR m _ BK) as (_ & NL & NR). rewrite NL in *. rewrite line_mul, line_add in *. eexists. split; [reflexivity|]. split; [|discriminate].
    intros _. pose proof (half_above _ _ (proj2 B)). lia.
  - exists n. split; [exact W|]. split; [discriminate|reflexivity].
Qed.

Lemma run_same : forall deltas ks s f n, placed s sp p (line n) -> wrapped sp (repeat_ p) (line n) (line n) -> same_place s f -> has_curve rnd tangent sp f ->
  (n <= 2 ^ 22)%Z -> cur_y f = f_keval rnd (curve f) (cubic_x f) ->
  Forall2 (fun d k => d * playback_rate p = IZR k * x_granularity sp /\ (0 <= k)%Z) deltas ks ->
  (if repeat_ p then Forall (fun k => k <= 2 ^ 21)%Z ks else (n + total ks <= 2 ^ 22)%Z) ->
  exists s' f' n', f_frames rnd tangent f deltas = Some f' /\ placed s' sp p (line n') /\ same_place s' f' /\ (n' <= 2 ^ 22)%Z /\ has_curve rnd tangent sp f' /\
    cur_y f' = f_keval rnd (curve f') (cubic_x f') /\ wrapped sp (repeat_ p) (line n + sum (map (fun d => d * playback_rate p) deltas)) (line n').
Proof.
  induction deltas as [|d deltas IH]; intros ks s f n P W SA C NB Y F B; inversion F as [|? k ? ks' [D KP] F']; subst.
  - exists s, f, n. cbn [f_frames map sum]. rewrite Rplus_0_r. auto 10.
  - pose proof (placed_pos s n P) as NP. pose proof (pow2_pos e) as PE.
    assert (ND : (n + k <= 2 ^ 22)%Z).
    { destruct (wrapped_on_grid n (line n) W) as (j & J & J1 & _). destruct (repeat_ p).
      - apply Forall_cons_iff in B. destruct B as [B _]. specialize (J1 eq_refl).
        assert (n = j)%Z. { apply Z.le_antisymm; apply (line_le e); lra. } lia.
      - cbn [total] in B. assert (0 <= total ks')%Z; [|lia]. clear - F'. induction F' as [|? ? ? ? [_ ?] ? ?]; cbn [total]; lia. }
    rewrite GR in D. fold (line k) in D.
    destruct (step_placed s sp p (line n) d O P CR) as (s1 & x1 & A & P1 & W1 & _); [|exact W|].
    { rewrite D. unfold small_step. rewrite GR. unfold RoundEvaluatorProofs.line. split; [apply Rmult_le_pos; [apply IZR_le; lia|lra]|]. apply Rmult_le_compat_r; [lra|]. apply IZR_le. lia. }
    rewrite D, line_add in W1. destruct (wrapped_on_grid _ _ W1) as (n1 & -> & N1 & N2).
    assert (NB1 : (n1 <= 2 ^ 22)%Z) by (destruct (repeat_ p); [specialize (N1 eq_refl)|specialize (N2 eq_refl)]; lia).
    destruct (f_advance_same rnd H tangent e E sp O GR s f p d n k s1 P SA C CR D KP NP ND A) as (f1 & FA & SA1 & C1 & Y1).
    destruct (IH ks' s1 f1 n1 P1 (wrapped_refl_of _ _ _ _ W1) SA1 C1 NB1 Y1 F') as (s2 & f2 & n2 & FF & P2 & SA2 & NB2 & C2 & Y2 & W2).
    { destruct (repeat_ p) eqn:RP; [now apply Forall_cons_iff in B|]. rewrite (N2 eq_refl). cbn [total] in B. lia. }
    exists s2, f2, n2. cbn [f_frames]. rewrite FA. split; [exact FF|]. split; [exact P2|]. split; [exact SA2|]. split; [exact NB2|]. split; [exact C2|]. split; [exact Y2|].
    cbn [map sum]. rewrite D, <- Rplus_assoc, line_add. eapply wrapped_add; eauto.
Qed.
Lemma start_same s n : start_at p = line n -> (0 <= n <= 2 ^ 22)%Z ->
  exists s' f' n', f_start_spline rnd tangent sp p s = Some f' /\ placed s' sp p (line n') /\ same_place s' f' /\ (n' <= 2 ^ 22)%Z /\ has_curve rnd tangent sp f' /\
    cur_y f' = f_keval rnd (curve f') (cubic_x f') /\ wrapped sp (repeat_ p) (line n) (line n').
Proof.
  intros SA N. pose proof (pow2_pos e) as PE. unfold f_start_spline. rewrite SA.
  set (s0 := Slot (playback_rate p) (y_offset p) (y_scale p) (Some sp) kInvalidSplineIndex (repeat_ p) (modular_range s) (cubic_x s) (cubic_x_end s) (curve s) (cur_y s)).
  destruct (init_placed s0 sp p (line n)) as (s1 & x1 & IC & P1 & W1 & _); auto.
  { cbn. unfold kInvalidSplineIndex. lia. }
  { rewrite GR. unfold RoundEvaluatorProofs.line. assert (0 <= IZR n * pow2 e) by (apply Rmult_le_pos; [apply IZR_le; lia|lra]). split; [lra|].
    apply Rmult_le_compat_r; [lra|]. apply IZR_le. lia. }
  destruct (wrapped_on_grid _ _ W1) as (n1 & -> & N1 & N2).
  destruct (f_init_same rnd H tangent e E sp O GR s0 s0 n s1) as (f1 & FI & SA1 & C1); auto; [split; reflexivity|cbn; unfold kInvalidSplineIndex; lia|].
  rewrite FI. destruct (evaluate_same rnd tangent sp s1 f1 SA1 C1) as [T1 T2]. exists (evaluate_slot s1), (f_evaluate_slot rnd f1), n1.
  split; [reflexivity|]. split; [now apply placed_evaluate|]. split; [exact T1|].
  split; [destruct (repeat_ p); [specialize (N1 eq_refl)|specialize (N2 eq_refl)]; lia|]. split; [exact T2|]. split; [reflexivity|exact W1].
Qed.

Lemma still y w x : let c := f_kshift_up rnd (f_kscale_up rnd (f_cubic_init rnd y 0 y 0 w) (y_scale p)) (y_offset p) in
  f_keval rnd c x = rnd (rnd (y * y_scale p) + y_offset p) /\ f_kderiv rnd c x = 0.
Proof.
  assert (Z : rnd 0 = 0) by (apply (rnd_id _ _ _ H); apply fmt_0; lia).
  assert (C : f_cubic_init rnd y 0 y 0 w = Cubic 0 0 0 y).
  { unfold f_cubic_init. rewrite !Rminus_eq_0, !Rplus_0_l, !Rmult_0_r, !Z, !Rmult_0_r, !Z, ?Rmult_0_r, ?Z, ?Rplus_0_l, ?Rminus_0_r, ?Rmult_0_r, ?Z, ?Rplus_0_l, ?Rminus_0_r, ?Z.
    destruct (Rltb 0 w); reflexivity. }
  cbv zeta. rewrite C. unfold f_kscale_up, f_kshift_up, f_keval, f_kderiv. cbn [k3 k2 k1 k0].
  split; repeat (rewrite ?Rmult_0_l, ?Rmult_0_r, ?Rplus_0_l, ?Z); [|reflexivity]. apply (rnd_id _ _ _ H). apply (rnd_fmt _ _ _ H).
Qed.
Lemma f_slot_x_placed s f n : (n <= 2 ^ 22)%Z -> placed s sp p (line n) -> same_place s f -> f_slot_x rnd f = Some (line n).
Proof.
  intros NL22 P SA. pose proof (placed_pos s n P) as NP. destruct (pl_segment _ _ _ _ P) as (c0 & st & en & RX & NX & CC & CX & CE & CV).
  destruct (range_lines rnd H tangent e E sp O GR _ _ _ RX) as (a & -> & _ & _). unfold f_slot_x. rewrite (sp_source _ _ SA), (sp_index _ _ SA), (sp_x _ _ SA), (pl_source _ _ _ _ P), (f_node_at_is rnd H tangent e E sp O GR), NX, CX.
  replace (line a + (line n - line a)) with (line n) by lra. rewrite (rnd_line rnd H tangent e E) by lia. reflexivity.
Qed.
Lemma shows_placed s f n : (-20 <= e <= 4)%Z -> placed s sp p (line n) -> same_place s f -> has_curve rnd tangent sp f -> cur_y f = f_keval rnd (curve f) (cubic_x f) ->
  shows rnd tangent sp p (line n) (cur_y f) (f_kderiv rnd (curve f) (cubic_x f)).
Proof.
  intros E4 P SA C Y. pose proof (placed_pos s n P) as NP. destruct (pl_segment _ _ _ _ P) as (c0 & st & en & RX & NX & CC & CX & CE & CV).
  destruct C as (c & CI & CU). rewrite Y. rewrite (sp_x _ _ SA), CX.
  rewrite (sp_index _ _ SA) in CI. rewrite (sp_scale _ _ SA), (sp_offset _ _ SA), (pl_scale _ _ _ _ P), (pl_offset _ _ _ _ P) in CU. rewrite CU.
  pose proof (ok_count sp O) as CN. pose proof (pow2_pos e) as PE.
  destruct (pl_index _ _ _ _ P) as [[GI (sx & SX & X)]|[[GI (ex & EX & X)]|(I & a & b & GA & GB & X & W)]].
  - rewrite GI in CI. unfold f_create_cubic_init in CI. cbn -[front back f_node_y] in CI. destruct (front sp) as [m|] eqn:F; [|discriminate]. injection CI as <-.
    unfold f_cubic_of. cbn [ci_start_y ci_start_derivative ci_end_y ci_end_derivative ci_width_x].
    destruct (still (f_node_y rnd sp m) 1 (line n - st)) as [-> ->]. eapply Shows_before; eauto.
  - rewrite GI in CI. unfold f_create_cubic_init in CI. cbn -[front back f_node_y] in CI. destruct (back sp) as [m|] eqn:F; [|discriminate]. injection CI as <-.
    unfold f_cubic_of. cbn [ci_start_y ci_start_derivative ci_end_y ci_end_derivative ci_width_x].
    destruct (still (f_node_y rnd sp m) 1 (line n - st)) as [-> ->]. eapply Shows_after; eauto.
    pose proof EX as EX'. unfold end_x in EX'. rewrite F in EX'. injection EX' as <-. destruct (node_line rnd H tangent e E sp O GR m _ F) as (_ & NL & NR). rewrite NL in *.
    apply line_le. apply half_below. rewrite GR in *. destruct X as [X|[_ X]]; lra.
  - unfold f_create_cubic_init, outside_spline in CI. replace (kAfterSplineIndex <=? x_index s)%Z with false in CI by (unfold kAfterSplineIndex; lia). rewrite GA, GB in CI. injection CI as <-.
    unfold f_cubic_of. cbn [ci_start_y ci_start_derivative ci_end_y ci_end_derivative ci_width_x].
    destruct (node_line rnd H tangent e E sp O GR a _ GA) as (_ & NA & RA). destruct (node_line rnd H tangent e E sp O GR b _ GB) as (_ & NB & RB).
    destruct (f_width_is rnd H tangent e E sp O GR _ a b GA GB) as [-> WL]. rewrite WL.
    assert (ST : st = line (nx a)).
    { unfold node_x_at in NX. replace (x_index s =? kAfterSplineIndex)%Z with false in NX by (unfold kAfterSplineIndex; lia). replace (x_index s =? kBeforeSplineIndex)%Z with false in NX by (unfold kBeforeSplineIndex; lia).
      rewrite GA in NX. injection NX as <-. exact NA. }
    rewrite ST in *. rewrite NA, NB in X. destruct X as [X1 X2]. apply half_below in X1. apply half_above in X2.
    destruct (Z_lt_le_dec (nx a) (nx b)) as [AB|AB].
    + apply (Shows_segment _ _ _ _ _ _ _ (x_index s) a b GA GB); [rewrite NA, NB; split; apply line_le; lia|exact AB|]. rewrite NA, NB, (line_sub e (nx b) (nx a)). cbv zeta. rewrite line_sub.
      apply C118_placed; [easy| |split; [rewrite <- (line_0 e)|]; apply line_le; lia].
      unfold RoundEvaluatorProofs.line. split.
      * apply Rle_trans with (1 * pow2 e); [rewrite Rmult_1_l; apply pow2_le; lia|]. apply Rmult_le_compat_r; [lra|]. apply IZR_le. lia.
      * apply Rle_trans with (pow2 16 * pow2 4); [|rewrite <- pow2_add; apply pow2_le; lia]. apply Rmult_le_compat; try lra; [apply IZR_le; lia| |apply pow2_le; lia].
        rewrite pow2_IZR by lia. apply IZR_le. lia.
    + assert (XE : x_index s = (num_nodes sp - 2)%Z) by (destruct W; lia).
      assert (BK : back sp = Some b) by (unfold back; rewrite <- GB; f_equal; unfold num_nodes in XE; lia).
      assert (NA' : nx a = n) by lia. assert (NB' : nx b = n) by lia. rewrite NA', NB' in *. rewrite Z.sub_diag, line_0, Rminus_eq_0.
      assert (Z0 : rnd 0 = 0) by (apply (rnd_id _ _ _ H); apply fmt_0; lia).
      eapply (Shows_jump _ _ _ _ _ _ _ a).
      * unfold end_x. rewrite BK, NB. reflexivity.
      * rewrite <- XE. exact GA.
      * rewrite NA. reflexivity.
      * unfold f_keval, f_kshift_up, f_kscale_up, f_cubic_init. cbn [k3 k2 k1 k0]. rewrite !Rmult_0_r, Z0, Rplus_0_l. apply (rnd_id _ _ _ H). apply (rnd_fmt _ _ _ H).
      * unfold f_kderiv, f_kshift_up, f_kscale_up, f_cubic_init. cbn [k3 k2 k1 k0]. rewrite Rltb_f by lra. rewrite !Rmult_0_r, Rmult_0_l, Z0, Rplus_0_l. rewrite !Z0. reflexivity.
Qed.
End Play.

(** No drift: however many frames, the position is exactly where the sum of the steps is,
    wrapped. *)
Theorem C119_position : forall rnd tangent e sp p s deltas,
  rounds single rnd -> spline_ok sp -> x_granularity sp = pow2 e -> (-100 <= e <= 100)%Z -> can_repeat sp (repeat_ p) -> on_grid sp p deltas ->
  exists f1 f2 x, f_start_spline rnd tangent sp p s = Some f1 /\ f_frames rnd tangent f1 deltas = Some f2 /\
    f_slot_x rnd f2 = Some x /\
    wrapped sp (repeat_ p) (start_at p + sum (map (fun d => d * playback_rate p) deltas)) x.
Proof.
  intros rnd tangent e sp p s deltas H O GR E CR (n & ks & SA & N & F & B).
  assert (SA' : start_at p = line e n) by (rewrite SA, GR; reflexivity).
  destruct (start_same rnd H tangent e E sp O GR p CR s n SA' N) as (s1 & f1 & n1 & ST & P1 & S1 & N1 & C1 & Y1 & W1).
  destruct (run_same rnd H tangent e E sp O GR p CR deltas ks s1 f1 n1 P1 (wrapped_refl_of _ _ _ _ W1) S1 C1 N1 Y1 F) as (s2 & f2 & n2 & FF & P2 & S2 & N2 & C2 & Y2 & W2).
  { destruct (repeat_ p); [exact B|]. cbn in W1. assert (n1 <= n)%Z; [|lia]. apply (line_le e). rewrite W1. apply Rle_refl. }
  exists f1, f2, (line e n2). split; [exact ST|]. split; [exact FF|]. split; [eapply f_slot_x_placed; eauto|]. rewrite SA'. eapply wrapped_add; eauto.
Qed.
(** What is shown at that position: the error of C118, which does not grow with the frames. *)
Theorem C119_shown : forall rnd tangent e sp p s deltas f1 f2 x,
  rounds single rnd -> spline_ok sp -> x_granularity sp = pow2 e -> (-20 <= e <= 4)%Z -> can_repeat sp (repeat_ p) -> on_grid sp p deltas ->
  f_start_spline rnd tangent sp p s = Some f1 -> f_frames rnd tangent f1 deltas = Some f2 -> f_slot_x rnd f2 = Some x ->
  exists slope, shows rnd tangent sp p x (cur_y f2) slope /\ f_slot_derivative rnd f2 = rnd (playback_rate p * slope).
Proof.
  intros rnd tangent e sp p s deltas f1' f2' x H O GR E4 CR (n & ks & SA & N & F & B) EF1 EF2 EX. assert (E : (-100 <= e <= 100)%Z) by lia.
  assert (SA' : start_at p = line e n) by (rewrite SA, GR; reflexivity).
  destruct (start_same rnd H tangent e E sp O GR p CR s n SA' N) as (s1 & f1 & n1 & ST & P1 & S1 & N1 & C1 & Y1 & W1).
  destruct (run_same rnd H tangent e E sp O GR p CR deltas ks s1 f1 n1 P1 (wrapped_refl_of _ _ _ _ W1) S1 C1 N1 Y1 F) as (s2 & f2 & n2 & FF & P2 & S2 & N2 & C2 & Y2 & W2).
  { destruct (repeat_ p); [exact B|]. cbn in W1. assert (n1 <= n)%Z; [|lia]. apply (line_le e). rewrite W1. apply Rle_refl. }
  rewrite ST in EF1. injection EF1 as <-. rewrite FF in EF2. injection EF2 as <-.
  rewrite (f_slot_x_placed rnd H tangent e E sp O GR p s2 f2 n2 N2 P2 S2) in EX. injection EX as <-.
  eexists. split; [apply (shows_placed rnd H tangent e E sp O GR p s2 f2 n2 E4 P2 S2 C2 Y2)|]. unfold f_slot_derivative. rewrite (sp_rate _ _ S2), (pl_rate _ _ _ _ P2). reflexivity.
Qed.

(** Off the grid.  A spline of two nodes, 65535 grains long. *)
Definition long (g : R) : spline := Spline (Rg 0 1) g [Node 0 0 0; Node 65535 65535 0] 2.
Lemma long_ok g : 0 < g -> spline_ok (long g).
Proof.
  intros G. split; cbn; try lra; [| |lia].
  - repeat constructor; cbn; lia.
  - repeat constructor; cbn; lia.
Qed.
Lemma long_repeat g b : 0 < g -> can_repeat (long g) b.
Proof. intros G _. split; [cbn; lia|]. exists (65535 * g). split; [reflexivity|lra]. Qed.
Lemma long_start rnd tangent e r n s : rounds single rnd -> (-100 <= e <= 100)%Z -> (1 <= n <= 65534)%Z ->
  exists f, f_start_spline rnd tangent (long (pow2 e)) (Playback (line e n) 0 r 0 1 false) s = Some f /\
    source f = Some (long (pow2 e)) /\ rate f = r /\ x_index f = 0%Z /\ cubic_x f = line e n /\ cubic_x_end f = Some (line e 65535).
Proof.
  intros H E N. pose proof (pow2_pos e) as PE. set (p := Playback (line e n) 0 r 0 1 false).
  destruct (start_same rnd H tangent e E (long (pow2 e)) (long_ok _ PE) eq_refl p (long_repeat _ _ PE) s n eq_refl ltac:(lia)) as (s1 & f1 & n1 & ST & P1 & S1 & N1 & C1 & Y1 & W1).
  cbn in W1. rewrite W1 in P1. exists f1. split; [exact ST|]. rewrite (sp_source _ _ S1), (sp_rate _ _ S1), (sp_index _ _ S1), (sp_x _ _ S1), (sp_end _ _ S1).
  rewrite (pl_source _ _ _ _ P1), (pl_rate _ _ _ _ P1). split; [reflexivity|]. split; [reflexivity|].
  assert (I0 : x_index s1 = 0%Z).
  { assert (A1 : IZR 1 <= IZR n) by (apply IZR_le; lia). assert (A2 : IZR n <= IZR 65534) by (apply IZR_le; lia).
    destruct (pl_index _ _ _ _ P1) as [[_ (sx & SX & X)]|[[_ (ex & EX & X)]|(I0 & _)]].
    - injection SX as <-. unfold line, node_x in X. cbn [nx x_granularity long] in X. assert (1 * pow2 e <= IZR n * pow2 e) by (apply Rmult_le_compat_r; lra). lra.
    - injection EX as <-. destruct X as [X|[X _]]; [|discriminate]. unfold line, node_x in X. cbn [nx x_granularity long] in X. assert (IZR n * pow2 e <= 65534 * pow2 e) by (apply Rmult_le_compat_r; lra). lra.
    - cbn in I0. lia. }
  destruct (pl_segment _ _ _ _ P1) as (c & st & en & RX & NX & CC & CX & CE & CV). rewrite I0 in *. cbn in RX. injection RX as <- <-. split; [reflexivity|].
  rewrite CX, CE. unfold node_x, length_x, line. cbn [fst snd nx]. split; [lra|]. f_equal. lra.
Qed.
Lemma long_step rnd tangent e f x : source f = Some (long (pow2 e)) -> x_index f = 0%Z -> cubic_x_end f = Some (line e 65535) ->
  rnd (cubic_x f + rnd (1 * rate f)) = x -> x <= line e 65535 ->
  exists f', f_advance_slot rnd tangent 1 f = Some f' /\ source f' = Some (long (pow2 e)) /\ rate f' = rate f /\ x_index f' = 0%Z /\ cubic_x f' = x /\ cubic_x_end f' = Some (line e 65535).
Proof.
  intros SO XI CE X L. unfold f_advance_slot. cbv zeta. unfold past_end. cbn [f_step_x cubic_x_end cubic_x]. rewrite CE, X, Rltb_f by lra.
  eexists. split; [reflexivity|]. cbn. rewrite X. auto 10.
Qed.
Lemma long_x rnd (tangent : Z -> R) e f : rounds single rnd -> (-100 <= e <= 100)%Z -> source f = Some (long (pow2 e)) -> x_index f = 0%Z -> f_slot_x rnd f = Some (rnd (cubic_x f)).
Proof.
  intros H E SO XI. unfold f_slot_x. rewrite SO, XI, (f_node_at_is rnd H tangent e E _ (long_ok _ (pow2_pos e)) eq_refl). cbn. unfold node_x. cbn. rewrite Rmult_0_l, Rplus_0_l. reflexivity.
Qed.

(** Being played long enough does not bring a spline to its end: half a tick per frame, a
    spline of 65535 * 2^9 ticks stays at 2^24 for ever. *)
Theorem C119_end_refuted : forall rnd tangent s, rounds single rnd ->
  let sp := long (pow2 9) in let p := Playback (pow2 24) 0 (1 / 2) 0 1 false in
  spline_ok sp /\ end_x sp = Some (65535 * pow2 9) /\ pow2 24 < 65535 * pow2 9 /\
  forall count, exists f1 f2, f_start_spline rnd tangent sp p s = Some f1 /\ f_frames rnd tangent f1 (List.repeat 1 count) = Some f2 /\ f_slot_x rnd f2 = Some (pow2 24).
Proof.
  intros rnd tangent s H sp p. pose proof (pow2_pos 9) as P9. split; [now apply long_ok|]. split; [reflexivity|].
  assert (L : pow2 24 = line 9 32768) by (unfold line; rewrite !pow2_IZR by lia; rewrite <- mult_IZR; f_equal).
  split; [rewrite L; unfold line; apply Rmult_lt_compat_r; lra|]. intros count.
  destruct (long_start rnd tangent 9 (1 / 2) 32768 s H ltac:(lia) ltac:(lia)) as (f1 & ST & A).
  exists f1. rewrite <- L in ST, A. change 9%Z with 9%Z in ST. fold sp p in ST.
  assert (R24 : rnd (pow2 24) = pow2 24). { rewrite L. apply (rnd_line rnd H tangent 9); lia. }
  cut (exists f2, f_frames rnd tangent f1 (List.repeat 1 count) = Some f2 /\ source f2 = Some sp /\ x_index f2 = 0%Z /\ cubic_x f2 = pow2 24).
  { intros (f2 & F & SO & XI & CX). exists f2. split; [exact ST|]. split; [exact F|]. rewrite (long_x rnd tangent 9 f2 H ltac:(lia) SO XI), CX, R24. reflexivity. }
  clear ST. revert f1 A. induction count as [|count IH]; intros f1 (SO & RA & XI & CX & CE).
  - exists f1. auto.
  - destruct (long_step rnd tangent 9 f1 (pow2 24) SO XI CE) as (f2 & F & SO2 & RA2 & XI2 & CX2 & CE2).
    + rewrite CX, RA, Rmult_1_l.
      assert (HF : rnd (1 / 2) = 1 / 2).
      { apply (rnd_id _ _ _ H). replace (1 / 2) with (IZR 1 * pow2 (-1)). apply fmt_grid_in; lia. change (-1)%Z with (- (1))%Z. rewrite pow2_inv, pow2_1. lra. }
      rewrite HF. rewrite (rnd_at 24 (-149) ltac:(lia) rnd H _ 25 8388608); change (25 - 24)%Z with 1%Z; change (1 - 1)%Z with 0%Z.
      * rewrite pow2_1, pow2_IZR by lia. rewrite <- mult_IZR. f_equal.
      * change (25 - 1)%Z with 24%Z. rewrite !pow2_IZR by lia. change (2 ^ 24)%Z with 16777216%Z. change (2 ^ 25)%Z with 33554432%Z. clear. rabs; lra.
      * lia.
      * rewrite pow2_1, pow2_0, pow2_IZR by lia. change (2 ^ 24)%Z with 16777216%Z. clear. rabs; lra.
    + rewrite L. apply line_le. lia.
    + cbn [List.repeat f_frames]. rewrite F. apply IH. rewrite RA2. auto.
Qed.
(** A rate off the grid drifts: at the single nearest to 1/10, each of the first nine frames
    adds 3/16 * 2^-23 too much. *)
Theorem C119_drift_refuted : forall rnd tangent s, rounds single rnd ->
  let sp := long 1 in let r := 13421773 / 134217728 in let p := Playback 1 0 r 0 1 false in
  spline_ok sp /\ single r /\
  forall count, (count <= 9)%nat -> exists f1 f2, f_start_spline rnd tangent sp p s = Some f1 /\ f_frames rnd tangent f1 (List.repeat 1 count) = Some f2 /\
    f_slot_x rnd f2 = Some (1 + INR count * (r + 3 / 16 / 8388608)).
Proof.
  intros rnd tangent s H sp r p. split; [apply long_ok; lra|].
  assert (SR : single r).
  { replace r with (IZR 13421773 * pow2 (-27)). apply fmt_grid_in; lia. change (-27)%Z with (- (27))%Z. rewrite pow2_inv, pow2_IZR by lia. change (2 ^ 27)%Z with 134217728%Z. unfold r. lra. }
  split; [exact SR|].
  destruct (long_start rnd tangent 0 r 1 s H ltac:(lia) ltac:(lia)) as (f1 & ST & A). unfold line in ST, A. rewrite pow2_0 in ST, A. rewrite Rmult_1_l in ST. fold sp p in ST, A. rewrite !Rmult_1_r in A.
  set (d := r + 3 / 16 / 8388608).
  cut (forall count m f, (m + count <= 9)%nat -> source f = Some sp /\ rate f = r /\ x_index f = 0%Z /\ cubic_x f = 1 + INR m * d /\ cubic_x_end f = Some 65535 ->
       exists f2, f_frames rnd tangent f (List.repeat 1 count) = Some f2 /\ source f2 = Some sp /\ x_index f2 = 0%Z /\ cubic_x f2 = 1 + INR (m + count) * d).
  { intros Q count C. destruct (Q count 0%nat f1 C) as (f2 & F & SO & XI & CX); [cbn [INR]; rewrite Rmult_0_l, Rplus_0_r; exact A|]. cbn [Nat.add] in CX. exists f1, f2. split; [exact ST|]. split; [exact F|].
    assert (SO' : source f2 = Some (long (pow2 0))) by (rewrite pow2_0; exact SO). rewrite (long_x rnd tangent 0 f2 H ltac:(lia) SO' XI), CX. f_equal.
    apply (rnd_id _ _ _ H). replace (1 + INR count * d) with (IZR (8388608 + Z.of_nat count * 838861) * pow2 (-23)). apply fmt_grid_in; lia.
    change (-23)%Z with (- (23))%Z. rewrite pow2_inv, pow2_IZR by lia. change (2 ^ 23)%Z with 8388608%Z. rewrite plus_IZR, mult_IZR, <- INR_IZR_INZ. unfold d, r. field. }
  induction count as [|count IH]; intros m f C (SO & RA & XI & CX & CE).
  - exists f. rewrite Nat.add_0_r. auto.
  - assert (MB : 0 <= INR m <= 8). { split; [apply pos_INR|]. apply le_INR in C. rewrite plus_INR, S_INR in C. pose proof (pos_INR count). replace (INR 9) with 9 in C by (cbn; lra). lra. }
    assert (L0 : forall k, line 0 k = IZR k) by (intros k; unfold line; rewrite pow2_0; lra).
    destruct (long_step rnd tangent 0 f (1 + INR (m + 1) * d)) as (f2 & F & SO2 & RA2 & XI2 & CX2 & CE2).
    + rewrite pow2_0. exact SO.
    + exact XI.
    + rewrite L0. exact CE.
    + rewrite CX, RA, Rmult_1_l, (rnd_id _ _ _ H r SR). rewrite (rnd_lit rnd _ (8388608 + Z.of_nat (m + 1) * 838861) 23 H ltac:(lia));
        change (2 ^ 23)%Z with 8388608%Z; change (2 ^ 24)%Z with 16777216%Z; rewrite ?plus_IZR, ?mult_IZR, <- ?INR_IZR_INZ, ?plus_INR; cbn [INR]; unfold d, r; clear - MB; [lra| |]; rabs; lra.
    + rewrite L0. rewrite plus_INR. cbn [INR]. unfold d, r. lra.
    + rewrite pow2_0 in SO2. rewrite L0 in CE2. cbn [List.repeat f_frames]. rewrite F. replace (m + S count)%nat with (m + 1 + count)%nat by lia. apply IH; [lia|]. rewrite RA2. auto.
Qed.

(** A case that meets the hypotheses of C119_position and C119_shown: a repeating spline of
    grain 1/4, played from 20 at rate 1/2 by frames of 1/2 and 3. *)
Example C119_case : spline_ok (long (pow2 (-2))) /\ x_granularity (long (pow2 (-2))) = pow2 (-2) /\ can_repeat (long (pow2 (-2))) true /\
  on_grid (long (pow2 (-2))) (Playback 20 0 (1 / 2) 3 2 true) [1 / 2; 3].
Proof.
  pose proof (pow2_pos (-2)) as P. split; [now apply long_ok|]. split; [reflexivity|]. split; [now apply long_repeat|].
  assert (Q : pow2 (-2) = 1 / 4) by (change (-2)%Z with (- (2))%Z; rewrite pow2_inv, pow2_IZR by lia; change (2 ^ 2)%Z with 4%Z; lra).
  exists 80%Z, [1; 6]%Z. cbn [start_at playback_rate repeat_ x_granularity long]. rewrite Q. split; [lra|]. split; [lia|].
  split; repeat constructor; (lra || lia).
Qed.
Print Assumptions C119_position.
Print Assumptions C119_shown.
Print Assumptions C119_end_refuted.
Print Assumptions C119_drift_refuted.
