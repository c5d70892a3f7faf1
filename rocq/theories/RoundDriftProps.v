(** Playing any spline in single precision (C120). *)
From Verif Require Import RBase BaseFacts RangeModel CurveModel CompactSplineModel CompactSplineSpec CompactSplineProofs CompactSplineIndex CompactSplineEvalProps EvaluatorModel EvaluatorSpec EvaluatorProofs EvaluatorPlay EvaluatorProps RoundModel RoundProofs RoundRangeModel RoundNodeModel RoundCubicModel RoundCubicProps RoundEvaluatorModel RoundEvaluatorProofs RoundEvaluatorProps RoundDriftProofs.

(** What is shown at [x]: as in [shows] (C119), but a segment is also used up to one grain
    beyond its ends, and its curve is evaluated at a [t] that is a rounding away from the
    distance of [x] to its start.  Within a grain of a jump at the very end nothing is said. *)
Inductive shows_near (rnd : R -> R) (tangent : Z -> R) (sp : spline) (p : playback) (x y slope : R) : Prop :=
| Near_before n : front sp = Some n -> x <= f_node_x rnd sp n + x_granularity sp ->
    y = rnd (rnd (f_node_y rnd sp n * y_scale p) + y_offset p) -> slope = 0 -> shows_near rnd tangent sp p x y slope
| Near_after n : back sp = Some n -> f_node_x rnd sp n - x_granularity sp <= x ->
    y = rnd (rnd (f_node_y rnd sp n * y_scale p) + y_offset p) -> slope = 0 -> shows_near rnd tangent sp p x y slope
| Near_jump a b : getz (nodes sp) (num_nodes sp - 2) = Some a -> back sp = Some b -> nx a = nx b ->
    f_node_x rnd sp b - x_granularity sp <= x <= f_node_x rnd sp b + x_granularity sp -> shows_near rnd tangent sp p x y slope
| Near_segment i a b t : getz (nodes sp) i = Some a -> getz (nodes sp) (i + 1) = Some b -> (nx a < nx b)%Z ->
    f_node_x rnd sp a - x_granularity sp <= x <= f_node_x rnd sp b + x_granularity sp ->
    Rabs (t - (x - f_node_x rnd sp a)) <= x_granularity sp / 16 ->
    (let w := f_width_x rnd sp a b in
     let exact := cubic_init (f_node_y rnd sp a) (tangent (nangle a)) (f_node_y rnd sp b) (tangent (nangle b)) w in
     let m := at_least (Rabs (y_scale p) * at_least (size (f_node_y rnd sp a) (tangent (nangle a)) (f_node_y rnd sp b) (tangent (nangle b)) w) + Rabs (y_offset p)) in
     Rabs (y - (y_scale p * keval exact t + y_offset p)) <= pow2 (-14) * m /\
     Rabs (slope - y_scale p * kderiv exact t) <= pow2 (-14) * m / w) ->
    shows_near rnd tangent sp p x y slope.

Section Play.
Variable rnd : R -> R.
Hypothesis H : rounds single rnd.
Variable tangent : Z -> R.
Variable sp : spline.
Hypothesis O : spline_ok sp.
Variable k : Z.
Hypothesis K : (-100 <= k <= 100)%Z.
Notation g := (x_granularity sp).
Hypothesis G1 : pow2 (k - 21) <= g.
Hypothesis G2 : forall n i, getz (nodes sp) i = Some n -> IZR (nx n) * g <= pow2 (k - 1).
Notation err := (pow2 (k - 25)).
Notation top := (pow2 k).
Variable p : playback.
Notation drifting := (drifting rnd tangent sp k).
Notation moved := (moved rnd sp k).
Notation fe := (fe rnd sp).

Lemma once_run : repeat_ p = false -> forall deltas f x z n, drifting f p x -> cur_y f = f_keval rnd (curve f) (cubic_x f) -> moved false n z x -> 0 <= n ->
  Forall (fun d => 0 <= d * playback_rate p) deltas ->
  z + sum (map (fun d => d * playback_rate p) deltas) + (n + 4 * INR (length deltas)) * err + 2 * err <= top ->
  exists f' x', f_frames rnd tangent f deltas = Some f' /\ drifting f' p x' /\ cur_y f' = f_keval rnd (curve f') (cubic_x f') /\
    moved false (n + 4 * INR (length deltas)) (z + sum (map (fun d => d * playback_rate p) deltas)) x'.
Proof.
  intros RF. pose proof (err_pos k) as EP. induction deltas as [|d l IH]; intros f x z n D Y MV N F B.
  - exists f, x. cbn [f_frames map sum length INR]. split; [reflexivity|]. split; [exact D|]. split; [exact Y|]. rewrite Rmult_0_r, !Rplus_0_r. exact MV.
  - apply Forall_cons_iff in F. destruct F as [DP F]. cbn [map sum length] in B. rewrite S_INR in B.
    assert (SP : 0 <= sum (map (fun d => d * playback_rate p) l)). { clear - F. induction F; cbn [map sum]; lra. }
    pose proof (pos_INR (length l)) as LP. assert (0 <= INR (length l) * err) by (apply Rmult_le_pos; lra). cbn [RoundDriftProofs.moved] in MV.
    destruct (step_drifting rnd H tangent sp O k K G1 G2 f p x d D) as (f1 & x1 & FA & D1 & Y1 & _ & M1); [rewrite RF; intros; discriminate|exact DP|lra|rewrite RF; discriminate|].
    specialize (M1 RF).
    destruct (IH f1 x1 (z + d * playback_rate p) (n + 4) D1 Y1) as (f2 & x2 & FF & D2 & Y2 & M2); [|lra|exact F|lra|].
    { eapply moved_trans; [|exact M1]. now apply moved_add. }
    exists f2, x2. cbn [f_frames]. rewrite FA. split; [exact FF|]. split; [exact D2|]. split; [exact Y2|]. cbn [map sum length]. rewrite S_INR.
    replace (n + 4 * (INR (length l) + 1)) with (n + 4 + 4 * INR (length l)) by ring. rewrite <- Rplus_assoc. exact M2.
Qed.
Lemma repeat_run : repeat_ p = true -> repeatable rnd sp k true -> forall deltas f x z n, drifting f p x -> cur_y f = f_keval rnd (curve f) (cubic_x f) -> moved true n z x ->
  Forall (fun d => 0 <= d * playback_rate p <= 3 * fe) deltas ->
  exists f' x', f_frames rnd tangent f deltas = Some f' /\ drifting f' p x' /\ cur_y f' = f_keval rnd (curve f') (cubic_x f') /\
    moved true (n + 9 * INR (length deltas)) (z + sum (map (fun d => d * playback_rate p) deltas)) x'.
Proof.
  intros RT RP. pose proof (err_pos k) as EP. pose proof (g_err tangent sp k G1 G2) as GE. pose proof (g_pos tangent sp k G1 G2) as GP. destruct (RP eq_refl) as (N2 & FP & FT).
  assert (GF : 13 / 16 * g <= fe).
  { destruct (fe_is rnd H tangent sp O k K G1 G2) as (b & BK & _ & FE & _). destruct (node_near rnd H tangent sp O k K G1 G2 b _ BK) as (NB & _ & B & _). rewrite <- FE in B.
    assert (1 <= nx b)%Z. { destruct (Z_lt_le_dec 0 (nx b)) as [L|L]; [lia|]. exfalso. assert (Z0 : nx b = 0%Z) by lia. rewrite FE in FP. unfold f_node_x, f_x in FP. rewrite Z0, Rmult_0_l, (rnd_0 rnd H tangent sp k G2) in FP. lra. }
    assert (1 * g <= IZR (nx b) * g) by (apply Rmult_le_compat_r; [lra|apply IZR_le; lia]). lra. }
  induction deltas as [|d l IH]; intros f x z n D Y MV F.
  - exists f, x. cbn [f_frames map sum length INR]. split; [reflexivity|]. split; [exact D|]. split; [exact Y|]. rewrite Rmult_0_r, !Rplus_0_r. exact MV.
  - apply Forall_cons_iff in F. destruct F as [DP F].
    pose proof (near_top rnd H tangent sp O k K G1 G2 _ _ (dr_near _ _ _ _ _ _ _ D) (dr_after _ _ _ _ _ _ _ D RT)) as NT.
    destruct (step_drifting rnd H tangent sp O k K G1 G2 f p x d D) as (f1 & x1 & FA & D1 & Y1 & M1 & _); [rewrite RT; exact RP|lra|lra|intros _; lra|]. rewrite RT in M1.
    destruct (IH f1 x1 (z + d * playback_rate p) (n + 9) D1 Y1) as (f2 & x2 & FF & D2 & Y2 & M2); [|exact F|].
    { eapply moved_trans; [|exact M1]. now apply moved_add. }
    exists f2, x2. cbn [f_frames]. rewrite FA. split; [exact FF|]. split; [exact D2|]. split; [exact Y2|]. cbn [map sum length]. rewrite S_INR.
    replace (n + 9 * (INR (length l) + 1)) with (n + 9 + 9 * INR (length l)) by ring. rewrite <- Rplus_assoc. exact M2.
Qed.
Lemma start_drifting s : repeatable rnd sp k (repeat_ p) -> 0 <= start_at p <= top -> (repeat_ p = true -> start_at p <= 6 * fe - 4 * err) ->
  exists f x, f_start_spline rnd tangent sp p s = Some f /\ drifting f p x /\ cur_y f = f_keval rnd (curve f) (cubic_x f) /\
    moved (repeat_ p) 6 (start_at p) x /\ (repeat_ p = false -> moved false 1 (start_at p) x).
Proof.
  intros RP SA SB. unfold f_start_spline.
  destruct (init_drifting rnd H tangent sp O k K G1 G2 (Slot (playback_rate p) (y_offset p) (y_scale p) (Some sp) kInvalidSplineIndex (repeat_ p) (modular_range s) (cubic_x s) (cubic_x_end s) (curve s) (cur_y s)) p (start_at p)) as (f & x & FI & D & M); auto.
  rewrite FI. exists (f_evaluate_slot rnd f), x. split; [reflexivity|]. split; [now apply evaluate_drifting|]. split; [reflexivity|exact M].
Qed.
Lemma slot_x_drifting f x : drifting f p x -> x <= top -> exists x', f_slot_x rnd f = Some x' /\ - err <= x' - x <= err.
Proof.
  intros D L. destruct (dr_place _ _ _ _ _ _ _ D) as (st & en & RX & NX & CE & XE & SB & SS). pose proof (dr_pos _ _ _ _ _ _ _ D). exists (rnd x). unfold f_slot_x. rewrite (dr_source _ _ _ _ _ _ _ D), NX, <- XE.
  split; [reflexivity|]. pose proof (near_rnd' rnd H tangent sp k K G2 x ltac:(lra)). lra.
Qed.
Lemma shows_drifting f x x' : pow2 (-20) <= g <= pow2 3 -> drifting f p x -> - err <= x' - x <= err -> cur_y f = f_keval rnd (curve f) (cubic_x f) ->
  shows_near rnd tangent sp p x' (cur_y f) (f_kderiv rnd (curve f) (cubic_x f)).
Proof.
  intros GB D E Y. pose proof (err_pos k) as EP. pose proof (g_err tangent sp k G1 G2) as GE. pose proof (g_pos tangent sp k G1 G2) as GP. pose proof (ok_count sp O) as CN.
  destruct (dr_place _ _ _ _ _ _ _ D) as (st & en & RX & NX & CE & XE & SB & SS). destruct (dr_curve _ _ _ _ _ _ _ D) as (c & CI & CU). rewrite Y.
  rewrite (dr_scale _ _ _ _ _ _ _ D), (dr_offset _ _ _ _ _ _ _ D) in CU. rewrite CU.
  destruct (dr_near _ _ _ _ _ _ _ D) as [(I & n & F & L)|[(I & n & F & L)|(I & a & b & GA & GBB & L & W)]].
  - rewrite I in CI. unfold f_create_cubic_init in CI. cbn -[front back f_node_y] in CI. rewrite F in CI. injection CI as <-. unfold f_cubic_of. cbn [ci_start_y ci_start_derivative ci_end_y ci_end_derivative ci_width_x].
    destruct (still rnd H tangent 0%Z p (f_node_y rnd sp n) 1 (cubic_x f)) as [-> ->]. eapply Near_before; eauto. lra.
  - rewrite I in CI. unfold f_create_cubic_init in CI. cbn -[front back f_node_y] in CI. rewrite F in CI. injection CI as <-. unfold f_cubic_of. cbn [ci_start_y ci_start_derivative ci_end_y ci_end_derivative ci_width_x].
    destruct (still rnd H tangent 0%Z p (f_node_y rnd sp n) 1 (cubic_x f)) as [-> ->]. eapply Near_after; eauto. lra.
  - assert (X1 : (x_index f =? kBeforeSplineIndex)%Z = false) by (unfold kBeforeSplineIndex; lia). assert (X2 : (x_index f =? kAfterSplineIndex)%Z = false) by (unfold kAfterSplineIndex; lia).
    assert (X3 : outside_spline (x_index f) = false) by (unfold outside_spline, kAfterSplineIndex; lia).
    unfold f_create_cubic_init in CI. rewrite X3, GA, GBB in CI. injection CI as <-. unfold f_cubic_of. cbn [ci_start_y ci_start_derivative ci_end_y ci_end_derivative ci_width_x].
    unfold f_node_x_at in NX. rewrite X1, X2, GA in NX. injection NX as NX.
    destruct (node_near rnd H tangent sp O k K G1 G2 a _ GA) as (A1 & A2 & A3 & A4 & A5). destruct (node_near rnd H tangent sp O k K G1 G2 b _ GBB) as (B1 & B2 & B3 & B4 & B5).
    destruct (Z_lt_le_dec (nx a) (nx b)) as [AB|AB].
    + assert (WG : 1 * g <= IZR (nx b - nx a) * g) by (apply Rmult_le_compat_r; [lra|apply IZR_le; lia]).
      assert (WU : IZR (nx b - nx a) * g <= 65536 * g) by (apply Rmult_le_compat_r; [lra|apply IZR_le; lia]).
      assert (WT : IZR (nx b - nx a) * g <= top). { rewrite minus_IZR. assert (0 <= IZR (nx a) * g) by (apply Rmult_le_pos; [apply IZR_le; lia|lra]). pose proof (G2 b _ GBB). pose proof (half_top tangent sp k G2). pose proof (pow2_pos k). lra. }
      assert (PG : pow2 16 * pow2 3 = pow2 19) by (rewrite <- pow2_add; reflexivity). rewrite (pow2_IZR 16) in PG by lia. change (2 ^ 16)%Z with 65536%Z in PG.
      assert (WB : pow2 (-20) <= f_width_x rnd sp a b <= pow2 19).
      { unfold f_width_x. split; [apply (rnd_ge_fmt _ _ _ H)|apply (rnd_le_fmt _ _ _ H)].
        - rewrite <- (Rmult_1_l (pow2 (-20))). apply fmt_grid_in; lia.
        - lra.
        - rewrite <- (Rmult_1_l (pow2 19)). apply fmt_grid_in; lia.
        - assert (65536 * g <= 65536 * pow2 3) by (apply Rmult_le_compat_l; lra). lra. }
      pose proof (near_rnd' rnd H tangent sp k K G2 (IZR (nx b - nx a) * g) ltac:(pose proof (pow2_pos k); lra)) as WE. fold (f_width_x rnd sp a b) in WE. rewrite minus_IZR in WE, WG.
      apply (Near_segment _ _ _ _ _ _ _ (x_index f) a b (cubic_x f) GA GBB AB).
      * lra.
      * apply Rabs_le. lra.
      * apply C118_beyond; [exact H|exact WB|]. apply Rabs_le. lra.
    + assert (XE' : x_index f = (num_nodes sp - 2)%Z) by (destruct W; lia).
      assert (BK : back sp = Some b) by (unfold back; rewrite <- GBB; f_equal; lia).
      assert (NE : nx a = nx b). { apply Z.le_antisymm; [|exact AB]. apply (sorted_getz (nodes sp) (ok_sorted sp O) _ _ a b GA GBB). lia. }
      apply (Near_jump _ _ _ _ _ _ _ a b); [rewrite <- XE'; exact GA|exact BK|exact NE|].
      assert (FAB : f_node_x rnd sp a = f_node_x rnd sp b) by (unfold f_node_x; rewrite NE; reflexivity). lra.
Qed.
End Play.

(** [2^k] bounds the positions: it is at most 2^21 grains and at least twice the end. *)
Definition spanned (sp : spline) (k : Z) : Prop :=
  (-100 <= k <= 100)%Z /\ pow2 (k - 21) <= x_granularity sp /\ exists ex, end_x sp = Some ex /\ ex <= pow2 (k - 1).
Lemma spanned_nodes sp k : spline_ok sp -> spanned sp k -> forall n i, getz (nodes sp) i = Some n -> IZR (nx n) * x_granularity sp <= pow2 (k - 1).
Proof.
  intros O (K & G & ex & EX & L) n i N. unfold end_x in EX. destruct (back sp) as [b|] eqn:B; [|discriminate]. injection EX as <-. unfold node_x in L. eapply Rle_trans; [|exact L].
  apply Rmult_le_compat_r; [left; apply (ok_granularity sp O)|]. apply IZR_le. pose proof (getz_Some _ _ _ N). apply (sorted_getz (nodes sp) (ok_sorted sp O) i _ n b N B). unfold num_nodes. lia.
Qed.

(** C120: played once, the position after N frames is within (N + 1) * 2^(k-23) of the exact
    one, and what is shown belongs to the position. *)
Theorem C120_once : forall rnd tangent sp p s deltas k,
  rounds single rnd -> spline_ok sp -> spanned sp k -> repeat_ p = false -> 0 <= start_at p ->
  Forall (fun d => 0 <= d * playback_rate p) deltas ->
  start_at p + sum (map (fun d => d * playback_rate p) deltas) <= pow2 (k - 1) -> (Z.of_nat (length deltas) <= 2 ^ 21)%Z ->
  exists f1 f2 x, f_start_spline rnd tangent sp p s = Some f1 /\ f_frames rnd tangent f1 deltas = Some f2 /\ f_slot_x rnd f2 = Some x /\
    Rabs (x - (start_at p + sum (map (fun d => d * playback_rate p) deltas))) <= (INR (length deltas) + 1) * pow2 (k - 23) /\
    (pow2 (-20) <= x_granularity sp <= pow2 3 ->
     exists slope, shows_near rnd tangent sp p x (cur_y f2) slope /\ f_slot_derivative rnd f2 = rnd (playback_rate p * slope)).
Proof.
  intros rnd tangent sp p s deltas k H O SP RF SA F T N. pose proof (spanned_nodes sp k O SP) as G2. destruct SP as (K & G1 & _).
  pose proof (err_pos k) as EP. pose proof (half_top tangent sp k G2) as HT. pose proof (top_err tangent sp k G2) as TE.
  assert (E23 : pow2 (k - 23) = 4 * pow2 (k - 25)) by (replace (k - 23)%Z with (2 + (k - 25))%Z by lia; rewrite pow2_add, (pow2_IZR 2) by lia; reflexivity).
  assert (SS : 0 <= sum (map (fun d => d * playback_rate p) deltas)). { clear - F. induction F; cbn [map sum]; lra. }
  assert (NB : 0 <= INR (length deltas) <= 2097152). { rewrite INR_IZR_INZ. split; apply IZR_le; lia. }
  assert (NE : INR (length deltas) * pow2 (k - 25) <= 2097152 * pow2 (k - 25)) by (apply Rmult_le_compat_r; lra).
  destruct (start_drifting rnd H tangent sp O k K G1 G2 p s) as (f1 & x1 & ST & D1 & Y1 & _ & M1); [rewrite RF; intros; discriminate|lra|rewrite RF; discriminate|]. specialize (M1 RF).
  destruct (once_run rnd H tangent sp O k K G1 G2 p RF deltas f1 x1 (start_at p) 1 D1 Y1 M1 ltac:(lra) F ltac:(lra)) as (f2 & x2 & FF & D2 & Y2 & M2).
  unfold moved in M2. destruct (slot_x_drifting rnd H tangent sp k K G2 p f2 x2 D2) as (x & FX & XE); [lra|].
  exists f1, f2, x. split; [exact ST|]. split; [exact FF|]. split; [exact FX|]. split; [rewrite E23; apply Rabs_le; lra|].
  intros GB. eexists. split; [apply (shows_drifting rnd H tangent sp O k K G1 G2 p f2 x2 x GB D2 XE Y2)|]. unfold f_slot_derivative. rewrite (dr_rate _ _ _ _ _ _ _ D2). reflexivity.
Qed.
(** Repeating, for ever: within (N + 1) * 2^(k-21) but for whole repeats. *)
Theorem C120_repeats : forall rnd tangent sp p s deltas k e,
  rounds single rnd -> spline_ok sp -> spanned sp k -> repeat_ p = true -> (2 <= num_nodes sp)%Z ->
  f_end_x rnd sp = Some e -> 0 < e -> 8 * e <= pow2 k -> 0 <= start_at p <= 3 * e ->
  Forall (fun d => 0 <= d * playback_rate p <= 3 * e) deltas ->
  exists f1 f2 x m, f_start_spline rnd tangent sp p s = Some f1 /\ f_frames rnd tangent f1 deltas = Some f2 /\ f_slot_x rnd f2 = Some x /\
    0 <= x <= e + x_granularity sp /\
    Rabs (x - (start_at p + sum (map (fun d => d * playback_rate p) deltas) - IZR m * e)) <= (INR (length deltas) + 1) * pow2 (k - 21) /\
    (pow2 (-20) <= x_granularity sp <= pow2 3 ->
     exists slope, shows_near rnd tangent sp p x (cur_y f2) slope /\ f_slot_derivative rnd f2 = rnd (playback_rate p * slope)).
Proof.
  intros rnd tangent sp p s deltas k e H O SP RT N2 FE EP0 E8 SA F. pose proof (spanned_nodes sp k O SP) as G2. destruct SP as (K & G1 & _).
  pose proof (err_pos k) as EP. pose proof (half_top tangent sp k G2) as HT. pose proof (top_err tangent sp k G2) as TE. pose proof (g_err tangent sp k G1 G2) as GE. pose proof (g_pos tangent sp k G1 G2) as GP.
  destruct (fe_is rnd H tangent sp O k K G1 G2) as (b & BK & FE' & FB & _). rewrite FE in FE'. injection FE' as ->. set (fe := fe rnd sp) in *.
  assert (GF : 31 / 32 * x_granularity sp <= fe).
  { destruct (node_near rnd H tangent sp O k K G1 G2 b _ BK) as (NB & _ & B & _). rewrite <- FB in B.
    assert (1 <= nx b)%Z. { destruct (Z_lt_le_dec 0 (nx b)) as [L|L]; [lia|]. exfalso. assert (Z0 : nx b = 0%Z) by lia. rewrite FB in EP0. unfold f_node_x, f_x in EP0. rewrite Z0, Rmult_0_l, (rnd_0 rnd H tangent sp k G2) in EP0. lra. }
    assert (1 * x_granularity sp <= IZR (nx b) * x_granularity sp) by (apply Rmult_le_compat_r; [lra|apply IZR_le; lia]). lra. }
  assert (E21 : pow2 (k - 21) = 16 * pow2 (k - 25)) by (replace (k - 21)%Z with (4 + (k - 25))%Z by lia; rewrite pow2_add, (pow2_IZR 4) by lia; reflexivity).
  assert (RP : repeatable rnd sp k true) by (intros _; auto).
  destruct (start_drifting rnd H tangent sp O k K G1 G2 p s) as (f1 & x1 & ST & D1 & Y1 & M1 & _); [rewrite RT; exact RP|lra|intros _; fold fe; lra|]. rewrite RT in M1.
  destruct (repeat_run rnd H tangent sp O k K G1 G2 p RT RP deltas f1 x1 (start_at p) 6 D1 Y1 M1 F) as (f2 & x2 & FF & D2 & Y2 & (m & M2)). fold fe in M2.
  pose proof (near_top rnd H tangent sp O k K G1 G2 _ _ (dr_near _ _ _ _ _ _ _ D2) (dr_after _ _ _ _ _ _ _ D2 RT)) as NT. fold fe in NT.
  destruct (slot_x_drifting rnd H tangent sp k K G2 p f2 x2 D2) as (x & FX & XE); [lra|].
  exists f1, f2, x, m. split; [exact ST|]. split; [exact FF|]. split; [exact FX|]. split.
  { split; [|lra]. destruct (dr_place _ _ _ _ _ _ _ D2) as (st & en & _ & NX & _ & X2 & _). unfold f_slot_x in FX. rewrite (dr_source _ _ _ _ _ _ _ D2), NX, <- X2 in FX. injection FX as <-. apply (rnd_pos rnd H tangent sp k G2). apply D2. }
  split.
  { pose proof (pos_INR (length deltas)) as LP. assert (0 <= INR (length deltas) * pow2 (k - 25)) by (apply Rmult_le_pos; lra). rewrite E21. apply Rabs_le. lra. }
  intros GB. eexists. split; [apply (shows_drifting rnd H tangent sp O k K G1 G2 p f2 x2 x GB D2 XE Y2)|]. unfold f_slot_derivative. rewrite (dr_rate _ _ _ _ _ _ _ D2). reflexivity.
Qed.

(** Cases that meet the hypotheses: the spline of two nodes, 65535 grains of 1/60 long. *)
Example C120_case : spline_ok (long (1 / 60)) /\ spanned (long (1 / 60)) 14 /\ pow2 (-20) <= x_granularity (long (1 / 60)) <= pow2 3.
Proof.
  split; [apply long_ok; lra|].
  assert (P7 : pow2 (14 - 21) = / 128) by (change (14 - 21)%Z with (- (7))%Z; rewrite pow2_inv, pow2_IZR by lia; reflexivity).
  assert (P13 : pow2 (14 - 1) = 8192) by (rewrite pow2_IZR by lia; reflexivity).
  assert (P20 : pow2 (-20) = / 1048576) by (change (-20)%Z with (- (20))%Z; rewrite pow2_inv, pow2_IZR by lia; reflexivity).
  assert (P3 : pow2 3 = 8) by (rewrite pow2_IZR by lia; reflexivity).
  split; [split; [lia|]; rewrite P7, P13; split; [cbn; lra|]; exists (65535 * (1 / 60)); split; [reflexivity|lra]|]. rewrite P20, P3. cbn [x_granularity long]. lra.
Qed.
Example C120_case_repeats : forall rnd, rounds single rnd -> (2 <= num_nodes (long (1 / 60)))%Z /\
  exists e, f_end_x rnd (long (1 / 60)) = Some e /\ 0 < e /\ 8 * e <= pow2 14 /\ 100 <= 3 * e.
Proof.
  intros rnd H. destruct C120_case as (O & SP & _). split; [cbn; lia|]. pose proof (spanned_nodes _ _ O SP) as G2. destruct SP as (K & G1 & _).
  exists (f_node_x rnd (long (1 / 60)) (Node 65535 65535 0)). split; [reflexivity|].
  destruct (node_near rnd H (fun _ => 0) _ O 14 K G1 G2 (Node 65535 65535 0) 1 eq_refl) as (_ & _ & B & _). cbn [x_granularity long nx] in B.
  assert (P14 : pow2 14 = 16384) by (rewrite pow2_IZR by lia; reflexivity). rewrite P14. lra.
Qed.
Print Assumptions C120_once.
Print Assumptions C120_repeats.
