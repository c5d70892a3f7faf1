(** Lemmas for playing a spline in single precision: on a grid of powers of two, positions
    are exact. *)
From Verif Require Import RBase BaseFacts RangeModel RangeProps CurveModel CompactSplineModel CompactSplineSpec CompactSplineProofs CompactSplineIndex CompactSplineEvalProps EvaluatorModel EvaluatorSpec EvaluatorProofs EvaluatorPlay EvaluatorProps RoundModel RoundProofs RoundRangeModel RoundNodeModel RoundCubicModel RoundCubicProps RoundEvaluatorModel.

Section Grid.
Variable rnd : R -> R.
Hypothesis H : rounds single rnd.
Variable tangent : Z -> R.
Variable e : Z.
Hypothesis E : (-100 <= e <= 100)%Z.
Let g := pow2 e.
(** The n-th line of the grid. *)
Definition line (n : Z) : R := IZR n * pow2 e.

Lemma g_pos : 0 < g. Proof. apply pow2_pos. Qed.
Lemma line_add a b : line a + line b = line (a + b). Proof. unfold line. rewrite plus_IZR. ring. Qed.
Lemma line_sub a b : line a - line b = line (a - b). Proof. unfold line. rewrite minus_IZR. ring. Qed.
Lemma line_0 : line 0 = 0. Proof. unfold line. ring. Qed.
Lemma line_mul k n : IZR k * line n = line (k * n). Proof. unfold line. rewrite mult_IZR. ring. Qed.
Lemma line_le a b : line a <= line b <-> (a <= b)%Z.
Proof.
  pose proof g_pos as G. unfold line. fold g. split; intros L.
  - apply le_IZR. apply Rmult_le_reg_r with g; [easy|exact L].
  - apply IZR_le in L. apply Rmult_le_compat_r; [lra|easy].
Qed.
Lemma line_lt a b : line a < line b <-> (a < b)%Z.
Proof.
  pose proof g_pos as G. unfold line. fold g. split; intros L.
  - apply lt_IZR. apply Rmult_lt_reg_r with g; [easy|exact L].
  - apply IZR_lt in L. apply Rmult_lt_compat_r; [easy|easy].
Qed.
Lemma line_single n : (Z.abs n <= 2 ^ 24)%Z -> single (line n).
Proof. intros N. apply fmt_grid_in; lia. Qed.
Lemma rnd_line n : (Z.abs n <= 2 ^ 24)%Z -> rnd (line n) = line n.
Proof. intros N. apply (rnd_id _ _ _ H). now apply line_single. Qed.

(** NormalizeCloseValue in (0, a line of the grid]. *)
Section Wrap.
Variable E1 : Z.
Hypothesis HE1 : (0 < E1 <= 65535)%Z.
Let r := Rg 0 (line E1).
Lemma wrap_length : f_length rnd 0 (line E1) = line E1 /\ length_ r = line E1.
Proof. unfold f_length, length_, r. cbn [start_ end_]. rewrite Rminus_0_r. split; [apply rnd_line; lia|reflexivity]. Qed.
Lemma wrap_adjustment n : f_adjustment rnd 0 (line E1) (line n) = modular_adjustment r (line n).
Proof. unfold f_adjustment, modular_adjustment. destruct wrap_length as [-> ->]. reflexivity. Qed.
Lemma adjustment_line n : exists k, modular_adjustment r (line n) = line k /\ (Z.abs k <= 65535)%Z.
Proof.
  unfold modular_adjustment. destruct wrap_length as [_ ->]. destruct (Rleb _ _); [exists E1; split; [reflexivity|lia]|].
  destruct (Rltb _ _); [exists (- E1)%Z; split; [unfold line; rewrite opp_IZR; ring|lia]|exists 0%Z; split; [now rewrite line_0|lia]].
Qed.
Lemma wrap_units n : (Z.abs n <= 2 ^ 23)%Z -> Rfloor (rnd (line n / line E1)) = (n / E1)%Z /\ Rfloor (line n / line E1) = (n / E1)%Z.
Proof.
  intros N. pose proof g_pos as G. assert (EP : 0 < IZR E1) by (apply IZR_lt; lia). assert (EU : IZR E1 <= 65535) by (apply IZR_le; lia).
  assert (D : line n / line E1 = IZR n / IZR E1) by (unfold line; fold g; field; lra). rewrite D.
  set (q := (n / E1)%Z). assert (Q : (n = E1 * q + n mod E1 /\ 0 <= n mod E1 < E1)%Z) by (split; [apply Z.div_mod; lia|apply Z.mod_pos_bound; lia]).
  destruct Q as [Q1 Q2]. assert (NE : IZR n = IZR E1 * IZR q + IZR (n mod E1)) by (rewrite <- mult_IZR, <- plus_IZR; f_equal; exact Q1).
  assert (M0 : 0 <= IZR (n mod E1)) by (apply IZR_le; lia). assert (M1 : IZR (n mod E1) <= IZR E1 - 1) by (rewrite <- minus_IZR; apply IZR_le; lia).
  assert (V : IZR n / IZR E1 = IZR q + IZR (n mod E1) / IZR E1) by (rewrite NE; field; lra).
  assert (W0 : 0 <= IZR (n mod E1) / IZR E1) by (apply Rmult_le_pos; [easy|left; now apply Rinv_0_lt_compat]).
  assert (W1 : IZR (n mod E1) / IZR E1 <= 1 - / IZR E1).
  { apply Rmult_le_reg_r with (IZR E1); [easy|]. replace (IZR (n mod E1) / IZR E1 * IZR E1) with (IZR (n mod E1)) by (field; lra).
    replace ((1 - / IZR E1) * IZR E1) with (IZR E1 - 1) by (field; lra). easy. }
  assert (I0 : / 65535 <= / IZR E1) by (apply Rinv_le_contravar; lra).
  split; apply Rfloor_unique; [|lra]. 
  assert (QB : (Z.abs q <= 2 ^ 23)%Z) by (unfold q; nia).
  split.
  - apply (rnd_ge_fmt _ _ _ H); [|lra]. replace (IZR q) with (IZR q * pow2 0) by (rewrite pow2_0; ring). apply fmt_grid_in; lia.
  - pose proof (rnd_rel 24 (-149) P24 rnd H (IZR n / IZR E1)) as R. change (-149 - 1)%Z with (-150)%Z in R.
    assert (T : pow2 (-150) <= / 1099511627776).
    { replace (/ 1099511627776) with (pow2 (-40)); [apply pow2_le; lia|]. change (-40)%Z with (- (40))%Z. rewrite pow2_inv, pow2_IZR by lia. reflexivity. }
    assert (P : pow2 (- (24)) = / 16777216) by (rewrite pow2_inv, pow2_IZR by lia; reflexivity). rewrite P in R.
    assert (NB : Rabs (IZR n) <= 8388608) by (rewrite <- abs_IZR; apply IZR_le; lia).
    assert (RN : Rabs (IZR n / IZR E1) * / 16777216 <= / IZR E1 / 2).
    { unfold Rdiv. rewrite Rabs_mult, (Rabs_pos_eq (/ IZR E1)) by (left; now apply Rinv_0_lt_compat).
      assert (0 < / IZR E1) by now apply Rinv_0_lt_compat. assert (Rabs (IZR n) * / IZR E1 <= 8388608 * / IZR E1) by (apply Rmult_le_compat_r; lra). lra. }
    assert (rnd (IZR n / IZR E1) <= IZR n / IZR E1 + (/ IZR E1 / 2 + / 1099511627776)).
    { clear - R RN T. revert R RN. generalize (Rabs (IZR n / IZR E1) * / 16777216). intros z. generalize (rnd (IZR n / IZR E1)) (IZR n / IZR E1). intros a b. rabs; lra. }
    lra.
Qed.
Lemma wrap_wild n : (Z.abs n <= 2 ^ 23)%Z -> f_normalize_wild rnd 0 (line E1) (line n) = normalize_wild r (line n).
Proof.
  intros N. unfold f_normalize_wild, normalize_wild. destruct wrap_length as [L1 L2]. rewrite L1, L2. change (start_ r) with 0. rewrite !Rminus_0_r, rnd_line by lia.
  destruct (wrap_units n N) as [U1 U2]. rewrite U1, U2, line_mul.
  assert (L : 0 < line E1) by (rewrite <- line_0; apply line_lt; lia). rewrite Reqb_f by lra. cbn [negb].
  rewrite (rnd_line (n / E1 * E1)) by nia. rewrite line_sub. rewrite (rnd_line (n - n / E1 * E1)) by nia. rewrite wrap_adjustment.
  destruct (adjustment_line (n - n / E1 * E1)) as (k & -> & K). rewrite line_add, rnd_line by nia. reflexivity.
Qed.
Lemma wrap_loop below : forall fuel n i, (Z.abs n + Z.of_nat fuel * 65535 <= 2 ^ 23)%Z ->
  f_close_loop rnd 0 (line E1) fuel below (line n) i = close_loop fuel r below (line n) i.
Proof.
  induction fuel as [|fuel IH]; intros n i N; [reflexivity|]. cbn [f_close_loop close_loop]. destruct wrap_length as [L1 L2]. rewrite L1, L2.
  assert (S : exists m, (if below then line n + line E1 else line n - line E1) = line m /\ (Z.abs m <= Z.abs n + 65535)%Z).
  { destruct below; [exists (n + E1)%Z; rewrite line_add|exists (n - E1)%Z; rewrite line_sub]; split; (reflexivity || lia). }
  destruct S as (m & -> & M). rewrite rnd_line by lia. destruct (4 <? i)%Z; [apply wrap_wild; lia|]. change (start_ r) with 0. change (end_ r) with (line E1).
  destruct (if below then Rleb (line m) 0 else Rltb (line E1) (line m)); [apply IH; lia|reflexivity].
Qed.
Lemma wrap_close n : (Z.abs n <= 2 ^ 22)%Z -> f_normalize_close rnd 0 (line E1) (line n) = normalize_close r (line n).
Proof.
  intros N. unfold f_normalize_close, normalize_close. change (start_ r) with 0. change (end_ r) with (line E1).
  destruct (negb _ && negb _); [reflexivity|]. apply wrap_loop. lia.
Qed.
Lemma wrapped_line n x' : normalize_close r (line n) = Some x' -> exists k, x' = line k /\ (0 < k <= E1)%Z.
Proof.
  intros NC. assert (L : 0 < line E1) by (rewrite <- line_0; apply line_lt; lia).
  destruct (RangeProps.C17_normalize r (line n) L) as [(y & _ & B & (k & K) & NC' & _) _]. rewrite NC in NC'. injection NC' as <-.
  unfold r in B, K. cbn [start_ end_] in B, K. rewrite Rminus_0_r, line_mul, line_add in K. exists (n + k * E1)%Z. split; [exact K|].
  rewrite K in B. rewrite <- line_0 in B. destruct B as [B1 B2]. apply line_lt in B1. apply line_le in B2. lia.
Qed.
End Wrap.

(** The positions of a spline on the grid. *)
Section Spline.
Variable sp : spline.
Hypothesis O : spline_ok sp.
Hypothesis GR : x_granularity sp = pow2 e.

Lemma node_line n i : getz (nodes sp) i = Some n -> f_node_x rnd sp n = node_x n (x_granularity sp) /\ node_x n (x_granularity sp) = line (nx n) /\ (0 <= nx n <= 65535)%Z.
Proof.
  intros N. destruct (fields_at sp i n O N) as (F & _). unfold f_node_x, f_x, node_x. rewrite GR. fold (line (nx n)). rewrite rnd_line by lia. auto.
Qed.
Lemma f_start_is : f_start_x rnd sp = start_x sp.
Proof. unfold f_start_x, start_x. destruct (front sp) as [n|] eqn:F; [|reflexivity]. destruct (node_line n 0 F) as [-> _]. reflexivity. Qed.
Lemma f_end_is : f_end_x rnd sp = end_x sp.
Proof. unfold f_end_x, end_x. destruct (back sp) as [n|] eqn:F; [|reflexivity]. destruct (node_line n _ F) as [-> _]. reflexivity. Qed.
Lemma f_node_at_is i : f_node_x_at rnd sp i = node_x_at sp i.
Proof.
  unfold f_node_x_at, node_x_at. rewrite f_end_is. destruct (i =? kAfterSplineIndex)%Z; [reflexivity|]. destruct (i =? kBeforeSplineIndex)%Z; [reflexivity|].
  destruct (getz (nodes sp) i) as [n|] eqn:F; [|reflexivity]. destruct (node_line n _ F) as [-> _]. reflexivity.
Qed.
Lemma f_range_is i : f_range_x rnd sp i = range_x sp i.
Proof.
  unfold f_range_x, range_x. rewrite f_end_is, f_start_is. destruct (i =? kBeforeSplineIndex)%Z; [reflexivity|]. destruct (i =? kAfterSplineIndex)%Z; [reflexivity|].
  destruct (getz (nodes sp) i) as [n|] eqn:F; [|reflexivity]. destruct (getz (nodes sp) (i + 1)) as [m|] eqn:G; [|reflexivity].
  destruct (node_line n _ F) as [-> _]. destruct (node_line m _ G) as [-> _]. reflexivity.
Qed.
Lemma f_width_is i a b : getz (nodes sp) i = Some a -> getz (nodes sp) (i + 1) = Some b -> f_width_x rnd sp a b = width_x sp a b /\ width_x sp a b = line (nx b - nx a).
Proof.
  intros A B. destruct (node_line a _ A) as (_ & _ & N1). destruct (node_line b _ B) as (_ & _ & N2). unfold f_width_x, width_x. rewrite GR. fold (line (nx b - nx a)).
  rewrite rnd_line by lia. auto.
Qed.
Lemma f_quantize_is n : (Z.abs n <= 2 ^ 22)%Z -> f_quantize_x rnd (line n) (x_granularity sp) = quantize_x (line n) (x_granularity sp).
Proof.
  intros N. unfold f_quantize_x, quantize_x. rewrite GR. destruct (negb _); [|reflexivity].
  assert (D : line n / pow2 e = IZR n) by (pose proof g_pos as G; unfold line; fold g; field; lra). rewrite D.
  rewrite (rnd_id _ _ _ H (IZR n)). 2:{ replace (IZR n) with (IZR n * pow2 0) by (rewrite pow2_0; ring). apply fmt_grid_in; lia. }
  rewrite (rnd_id _ _ _ H); [reflexivity|]. replace (IZR n + 1 / 2) with (IZR (2 * n + 1) * pow2 (- (1))).
  - apply fmt_grid_in; lia.
  - rewrite pow2_inv, pow2_1, plus_IZR, mult_IZR. lra.
Qed.
Lemma f_index_is n guess : (Z.abs n <= 2 ^ 22)%Z -> f_index_for_x rnd sp (line n) guess = index_for_x sp (line n) guess.
Proof.
  intros N. unfold f_index_for_x, index_for_x. rewrite f_quantize_is by easy. destruct (quantize_x _ _) as [q|]; [|reflexivity].
  destruct (front sp); [|reflexivity]. destruct (back sp); [|reflexivity]. destruct (q <? nx _)%Z; [reflexivity|]. destruct (_ && _)%bool; [reflexivity|].
  destruct (nx _ <=? q)%Z; [reflexivity|]. destruct (index_contains_x sp q guess) as [[]|]; try reflexivity.
  destruct (getz (nodes sp) guess) as [a|] eqn:A; [|reflexivity]. destruct (getz (nodes sp) (guess + 1)) as [b|] eqn:B; [|reflexivity].
  destruct (f_width_is _ a b A B) as [-> _]. reflexivity.
Qed.
Lemma f_repeat_is n guess b : (Z.abs n <= 2 ^ 22)%Z -> can_repeat sp b -> (0 <= guess)%Z -> (0 <= n)%Z ->
  f_index_for_x_allowing_repeat rnd sp (line n) guess b = index_for_x_allowing_repeat sp (line n) guess b.
Proof.
  intros N CR GU NP. unfold f_index_for_x_allowing_repeat. rewrite f_index_is by easy. unfold index_for_x_allowing_repeat.
  destruct (index_for_x sp (line n) guess) as [i|] eqn:I; [|reflexivity]. destruct (negb b || negb (i =? kAfterSplineIndex)%Z) eqn:B; [reflexivity|].
  rewrite f_end_is. destruct (end_x sp) as [ex|] eqn:EX; [|reflexivity].
  apply orb_false_iff in B. destruct B as [B _]. destruct b; [|discriminate]. destruct (CR eq_refl) as (_ & ex' & EX' & EP). rewrite EX in EX'. injection EX' as <-.
  pose proof EX as EX2. unfold end_x in EX2. destruct (back sp) as [m|] eqn:BK; [|discriminate]. injection EX2 as <-. destruct (node_line m _ BK) as (_ & NL & NR).
  rewrite NL in *. assert (0 < nx m)%Z by (apply line_lt; now rewrite line_0). rewrite wrap_close by lia.
  destruct (normalize_close (Rg 0 (line (nx m))) (line n)) as [x'|] eqn:NC; [|reflexivity].
  destruct (wrapped_line (nx m) ltac:(lia) n x' NC) as (k & -> & K). rewrite f_index_is by lia. reflexivity.
Qed.
Lemma repeat_line n guess b i x' : can_repeat sp b -> index_for_x_allowing_repeat sp (line n) guess b = Some (i, x') -> (0 <= n)%Z ->
  exists k, x' = line k /\ (0 <= k <= Z.max n 65535)%Z.
Proof.
  intros CR IX NP. unfold index_for_x_allowing_repeat in IX. destruct (index_for_x sp (line n) guess) as [i0|]; [|discriminate].
  destruct (negb b || negb (i0 =? kAfterSplineIndex)%Z) eqn:B.
  - injection IX as _ <-. exists n. split; [reflexivity|lia].
  - apply orb_false_iff in B. destruct B as [B _]. destruct b; [|discriminate]. destruct (CR eq_refl) as (_ & ex & EX & EP). rewrite EX in IX.
    unfold end_x in EX. destruct (back sp) as [m|] eqn:BK; [|discriminate]. injection EX as <-. destruct (node_line m _ BK) as (_ & NL & NR). rewrite NL in *.
    destruct (normalize_close (Rg 0 (line (nx m))) (line n)) as [y|] eqn:NC; [|discriminate]. destruct (index_for_x sp y 0); [|discriminate]. injection IX as _ <-.
    rewrite <- line_0 in EP. apply line_lt in EP. destruct (wrapped_line (nx m) ltac:(lia) n y NC) as (k & -> & K). exists k. split; [reflexivity|lia].
Qed.
Lemma range_lines i st en : range_x sp i = Some (st, en) -> exists a, st = line a /\ (0 <= a <= 65535)%Z /\
  match en with None => True | Some v => exists b, v = line b /\ (0 <= b <= 65535)%Z end.
Proof.
  unfold range_x. intros R. destruct (i =? kBeforeSplineIndex)%Z; [|destruct (i =? kAfterSplineIndex)%Z].
  - unfold start_x in R. destruct (front sp) as [m|] eqn:F; [|discriminate]. injection R as <- <-. destruct (node_line m _ F) as (_ & NL & NR).
    exists 0%Z. split; [now rewrite line_0|]. split; [lia|]. exists (nx m). auto.
  - unfold end_x in R. destruct (back sp) as [m|] eqn:F; [|discriminate]. injection R as <- <-. destruct (node_line m _ F) as (_ & NL & NR).
    exists (nx m). auto.
  - destruct (getz (nodes sp) i) as [a|] eqn:A; [|discriminate]. destruct (getz (nodes sp) (i + 1)) as [b|] eqn:B; [|discriminate]. injection R as <- <-.
    destruct (node_line a _ A) as (_ & NL & NR). destruct (node_line b _ B) as (_ & NL' & NR'). exists (nx a). split; [exact NL|]. split; [lia|]. exists (nx b). auto.
Qed.
Lemma f_length_is i r : range_x sp i = Some r -> f_length_x rnd r = length_x r.
Proof.
  destruct r as [st en]. intros R. destruct (range_lines i st en R) as (a & -> & A & EN). unfold f_length_x, length_x. cbn [fst snd].
  destruct en as [v|]; [|reflexivity]. destruct EN as (b & -> & B). rewrite line_sub, rnd_line by lia. reflexivity.
Qed.
Lemma create_some i c : create_cubic_init sp i = Some c -> exists c', f_create_cubic_init rnd tangent sp i = Some c'.
Proof.
  unfold create_cubic_init, f_create_cubic_init. destruct (outside_spline i).
  - destruct (if (i =? kBeforeSplineIndex)%Z then front sp else back sp); [eauto|discriminate].
  - destruct (getz (nodes sp) i); [|discriminate]. destruct (getz (nodes sp) (i + 1)); [eauto|discriminate].
Qed.

(** The same position, in the same segment, played the same way. *)
Record same_place (s f : slot) : Prop := {
  sp_rate : rate f = rate s; sp_offset : offset_y f = offset_y s; sp_scale : scale_y f = scale_y s; sp_source : source f = source s;
  sp_index : x_index f = x_index s; sp_repeats : repeats f = repeats s; sp_x : cubic_x f = cubic_x s; sp_end : cubic_x_end f = cubic_x_end s }.
(** The curve is the one computed for the segment. *)
Definition has_curve (f : slot) : Prop := exists c, f_create_cubic_init rnd tangent sp (x_index f) = Some c /\
  curve f = f_kshift_up rnd (f_kscale_up rnd (f_cubic_of rnd c) (scale_y f)) (offset_y f).

Lemma f_init_same s f n s' : source s = Some sp -> same_place s f -> can_repeat sp (repeats s) -> (0 <= x_index s)%Z -> (0 <= n <= 2 ^ 22)%Z ->
  init_cubic s (line n) = Some s' -> exists f', f_init_cubic rnd tangent f (line n) = Some f' /\ same_place s' f' /\ has_curve f'.
Proof.
  intros SO SA CR XI N IC. destruct SA as [A1 A2 A3 A4 A5 A6 A7 A8]. unfold init_cubic in IC. rewrite SO in IC. unfold f_init_cubic. rewrite A4, SO, A5, A6.
  rewrite f_repeat_is by (easy || lia || apply Z.mod_pos_bound; lia).
  destruct (index_for_x_allowing_repeat sp (line n) ((x_index s + 1) mod 65536) (repeats s)) as [[i x']|] eqn:IX; [|discriminate].
  destruct (repeat_line _ _ _ _ _ CR IX ltac:(lia)) as (k & -> & K). rewrite f_range_is.
  destruct (range_x sp i) as [[st en]|] eqn:RX; [|discriminate]. destruct (create_cubic_init sp i) as [c|] eqn:CC; [|discriminate]. injection IC as <-.
  destruct (create_some i c CC) as [c' CC']. rewrite CC', (f_length_is _ _ RX). cbn [fst].
  destruct (range_lines _ _ _ RX) as (a & -> & AR & _). rewrite line_sub, rnd_line by lia.
  eexists. split; [reflexivity|]. split.
  - split; cbn; auto.
  - exists c'. cbn. split; [exact CC'|reflexivity].
Qed.
Lemma evaluate_same s f : same_place s f -> has_curve f -> same_place (evaluate_slot s) (f_evaluate_slot rnd f) /\ has_curve (f_evaluate_slot rnd f).
Proof. intros [A1 A2 A3 A4 A5 A6 A7 A8] C. split; [split; auto|exact C]. Qed.

Lemma f_advance_same s f p delta n d s' : placed s sp p (line n) -> same_place s f -> has_curve f -> can_repeat sp (repeat_ p) ->
  delta * playback_rate p = line d -> (0 <= d)%Z -> (0 <= n)%Z -> (n + d <= 2 ^ 22)%Z -> advance_slot delta s = Some s' ->
  exists f', f_advance_slot rnd tangent delta f = Some f' /\ same_place s' f' /\ has_curve f' /\ cur_y f' = f_keval rnd (curve f') (cubic_x f').
Proof.
  intros P SA C CR D DP NP ND AS. destruct (pl_segment _ _ _ _ P) as (c & st & en & RX & NX & CC & CX & CE & CV).
  destruct (range_lines _ _ _ RX) as (a & -> & AR & EN). rewrite line_sub in CX.
  assert (SX : same_place (step_x delta s) (f_step_x rnd delta f) /\ has_curve (f_step_x rnd delta f)).
  { destruct SA as [A1 A2 A3 A4 A5 A6 A7 A8]. split; [|exact C]. split; cbn; auto.
    rewrite A1, A7, CX, (pl_rate _ _ _ _ P), D, (rnd_line d), line_add by lia. apply rnd_line. lia. }
  destruct SX as [SX SC]. unfold advance_slot in AS. cbv zeta in AS. unfold f_advance_slot. cbv zeta.
  assert (PE : past_end (f_step_x rnd delta f) = past_end (step_x delta s)) by (unfold past_end; rewrite (sp_end _ _ SX), (sp_x _ _ SX); reflexivity).
  rewrite PE. destruct (past_end (step_x delta s)).
  - unfold reinit_slot in AS.
    assert (SLX : slot_x (step_x delta s) = Some (line (n + d))).
    { unfold slot_x, cubic_start_x. cbn [step_x source x_index cubic_x]. rewrite (pl_source _ _ _ _ P), NX, CX, (pl_rate _ _ _ _ P), D, !line_add. do 2 f_equal. lia. }
    assert (FLX : f_slot_x rnd (f_step_x rnd delta f) = Some (line (n + d))).
    { unfold f_slot_x. rewrite (sp_source _ _ SX), (sp_index _ _ SX), (sp_x _ _ SX). cbn [step_x source x_index cubic_x].
      rewrite (pl_source _ _ _ _ P), f_node_at_is, NX, CX, (pl_rate _ _ _ _ P), D, !line_add. replace (a + (n - a + d))%Z with (n + d)%Z by lia. rewrite rnd_line by lia. reflexivity. }
    rewrite SLX in AS. rewrite FLX. destruct (init_cubic (step_x delta s) (line (n + d))) as [t|] eqn:IC; [|discriminate]. injection AS as <-.
    destruct (f_init_same (step_x delta s) (f_step_x rnd delta f) (n + d) t) as (f' & FI & S1 & S2); auto; [apply P|cbn; rewrite (pl_repeat _ _ _ _ P); exact CR|cbn; eapply held_index_pos; apply P|lia|].
    rewrite FI. destruct (evaluate_same t f' S1 S2) as [T1 T2]. eexists. split; [reflexivity|]. split; [exact T1|]. split; [exact T2|reflexivity].
  - injection AS as <-. destruct (evaluate_same _ _ SX SC) as [T1 T2]. eexists. split; [reflexivity|]. split; [exact T1|]. split; [exact T2|reflexivity].
Qed.
End Spline.
End Grid.
