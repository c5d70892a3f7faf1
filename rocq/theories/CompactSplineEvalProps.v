(** C32, C33, C34: finding a segment and evaluating it. *)
From Verif Require Import RBase BaseFacts RangeModel RangeProofs CurveModel CurveProofs CompactSplineModel CompactSplineSpec CompactSplineProofs CompactSplineIndex.
From Coq Require Import Sorting.Sorted.

Lemma grains_bounds s x : spline_ok s -> - x_granularity s / 2 <= x ->
  IZR (grains s x) * x_granularity s - x_granularity s / 2 <= x < IZR (grains s x) * x_granularity s + x_granularity s / 2.
Proof. intros O X. apply grain_error; [apply (ok_granularity s O)|exact X]. Qed.
Lemma grain_le s a b : spline_ok s -> (a <= b)%Z -> IZR a * x_granularity s <= IZR b * x_granularity s.
Proof. intros O L. pose proof (ok_granularity s O). apply Rmult_le_compat_r; [lra|now apply IZR_le]. Qed.
Lemma grain_lt s a b : spline_ok s -> (a < b)%Z -> IZR a * x_granularity s + x_granularity s <= IZR b * x_granularity s.
Proof.
  intros O L. pose proof (grain_le s (a + 1) b O ltac:(lia)) as H. rewrite plus_IZR in H. lra.
Qed.
Lemma grains_exact s q : spline_ok s -> (0 <= q)%Z -> grains s (IZR q * x_granularity s) = q.
Proof.
  intros O Q. pose proof (ok_granularity s O). unfold grains. replace (IZR q * x_granularity s / x_granularity s) with (IZR q) by (field; lra).
  apply Rtrunc_IZR; [exact Q|lra].
Qed.
Lemma exact_in_range s q : spline_ok s -> (0 <= q <= 65535)%Z -> in_int_range s (IZR q * x_granularity s).
Proof.
  intros O [A B]. pose proof (ok_granularity s O). unfold in_int_range. replace (IZR q * x_granularity s / x_granularity s) with (IZR q) by (field; lra).
  apply IZR_le in A, B. rewrite Rabs_pos_eq by lra. lra.
Qed.
Lemma fields_at s i n : spline_ok s -> getz (nodes s) i = Some n -> (0 <= nx n <= 65535 /\ 0 <= ny n <= 65535 /\ -16384 < nangle n < 16384)%Z.
Proof. intros O G. pose proof (ok_fields s O) as F. rewrite Forall_forall in F. apply F. apply getz_split in G. destruct G as (p & q & -> & _). apply in_elt. Qed.

(** For every guess the lookup succeeds (no assert fails) and gives a segment whose
    interval, widened by half a grain, contains x; the "before" marker for x before
    the first node; the "after" marker for x after the last.  The segment has
    positive width unless it is the last one and x is at its end. *)
Theorem C32_lookup : forall s x guess, spline_ok s -> in_int_range s x -> (0 <= guess)%Z -> - x_granularity s / 2 <= x ->
  let g := x_granularity s in
  exists i sx ex, index_for_x s x guess = Some i /\ start_x s = Some sx /\ end_x s = Some ex /\
  ((i = kBeforeSplineIndex /\ x < sx - g / 2) \/
   (i = kAfterSplineIndex /\ (ex + g / 2 <= x \/ (num_nodes s = 1%Z /\ ex - g / 2 <= x))) \/
   ((0 <= i < num_nodes s - 1)%Z /\ exists a b, getz (nodes s) i = Some a /\ getz (nodes s) (i + 1) = Some b /\
      node_x a g - g / 2 <= x < node_x b g + g / 2 /\
      (node_x a g < node_x b g \/ (i = (num_nodes s - 2)%Z /\ ex - g / 2 <= x)))).
Proof.
  intros s x guess O I G X. cbv zeta. pose proof (ok_granularity s O) as GP. pose proof (grains_bounds s x O X) as GB.
  destruct (index_ok s x guess O I G) as (i & f & b & E & F & B & H).
  exists i, (node_x f (x_granularity s)), (node_x b (x_granularity s)). split; [exact E|].
  unfold start_x, end_x. rewrite F, B. split; [reflexivity|]. split; [reflexivity|]. unfold node_x.
  destruct H as [[-> H]|[(-> & H1 & H2)|(H1 & a & c & A & C & AC & W)]].
  - left. split; [reflexivity|]. pose proof (grain_lt s _ _ O H). lra.
  - right. left. split; [reflexivity|]. destruct H2 as [H2|[H2 H3]]; [left; pose proof (grain_lt s _ _ O H2); lra|right].
    split; [exact H2|]. rewrite H3. lra.
  - right. right. split; [exact H1|]. exists a, c. split; [exact A|]. split; [exact C|].
    pose proof (grain_le s _ _ O (proj1 AC)). pose proof (grain_le s _ _ O (proj2 AC)).
    split; [lra|]. destruct W as [W|[W1 W2]]; [left; pose proof (grain_lt s _ _ O W); lra|right; rewrite W2; split; [exact W1|lra]].
Qed.
Print Assumptions C32_lookup.

(** When no node is within half a grain of x, all guesses give the same answer. *)
Theorem C32_unique : forall s x guess guess', spline_ok s -> in_int_range s x -> (0 <= guess)%Z -> (0 <= guess')%Z ->
  (forall n, In n (nodes s) -> nx n <> grains s x) -> index_for_x s x guess = index_for_x s x guess'.
Proof.
  intros s x guess guess' O I G G' N. pose proof (ok_sorted s O) as S.
  destruct (index_ok s x guess O I G) as (i & f & b & E & F & B & H).
  destruct (index_ok s x guess' O I G') as (i' & f' & b' & E' & F' & B' & H').
  rewrite F in F'. injection F' as <-. rewrite B in B'. injection B' as <-. rewrite E, E'. f_equal.
  assert (IN : forall k n, getz (nodes s) k = Some n -> nx n <> grains s x).
  { intros k n K. apply N. apply getz_split in K. destruct K as (p & q & -> & _). apply in_elt. }
  assert (FI : forall k n, getz (nodes s) k = Some n -> (nx f <= nx n <= nx b)%Z).
  { intros k n K. pose proof (getz_Some _ _ _ K). unfold front in F. unfold back in B.
    split; [apply (sorted_getz _ S _ _ _ _ F K)|apply (sorted_getz _ S _ _ _ _ K B)]; unfold num_nodes; lia. }
  pose proof (IN _ _ B) as NB. pose proof (IN _ _ F) as NF.
  destruct H as [[-> H]|[(-> & H1 & H2)|(H1 & a & c & A & C & AC & W)]];
  destruct H' as [[-> H']|[(-> & H1' & H2')|(H1' & a' & c' & A' & C' & AC' & W')]]; try reflexivity; try lia;
  try (pose proof (FI _ _ A); pose proof (FI _ _ C); lia); try (pose proof (FI _ _ A'); pose proof (FI _ _ C'); lia).
  pose proof (IN _ _ A). pose proof (IN _ _ C). pose proof (IN _ _ A'). pose proof (IN _ _ C').
  destruct (Z_lt_dec i i'); [pose proof (sorted_getz _ S _ _ _ _ C A' ltac:(lia)); lia|].
  destruct (Z_lt_dec i' i); [pose proof (sorted_getz _ S _ _ _ _ C' A ltac:(lia)); lia|]. lia.
Qed.
Print Assumptions C32_unique.

Lemma hermite y0 d0 y1 d1 w : 0 < w -> let c := cubic_init y0 d0 y1 d1 w in
  keval c 0 = y0 /\ kderiv c 0 = d0 /\ keval c w = y1 /\ kderiv c w = d1.
Proof.
  intros W. cbv zeta. unfold cubic_init. rewrite !Rltb_t by exact W. unfold keval, kderiv. cbn [k3 k2 k1 k0]. repeat split; try ring; field; lra.
Qed.

(** The cubics of adjacent segments of positive width agree in value and derivative
    at the node they share, and take the node's y and derivative there. *)
Theorem C33_segments_join : forall s i a b, spline_ok s -> getz (nodes s) i = Some a -> getz (nodes s) (i + 1) = Some b ->
  (nx a < nx b)%Z -> let g := x_granularity s in let r := y_range s in
  segment_value s i (node_x a g) = Some (node_y a r, node_derivative a) /\
  segment_value s i (node_x b g) = Some (node_y b r, node_derivative b).
Proof.
  intros s i a b O A B W. cbv zeta. unfold segment_value. rewrite A, B. pose proof (ok_granularity s O) as G.
  set (w := IZR (nx b - nx a) * x_granularity s).
  assert (0 < w) by (apply Rmult_lt_0_compat; [apply IZR_lt; lia|exact G]).
  destruct (hermite (node_y a (y_range s)) (node_derivative a) (node_y b (y_range s)) (node_derivative b) w) as (P & Q & P' & Q'); [assumption|].
  replace (node_x a (x_granularity s) - node_x a (x_granularity s)) with 0 by ring.
  replace (node_x b (x_granularity s) - node_x a (x_granularity s)) with w by (unfold w, node_x; rewrite minus_IZR; ring).
  rewrite P, Q, P', Q'. split; reflexivity.
Qed.
Print Assumptions C33_segments_join.

(** At an x on the grid where there is at most one node, every guess leads to the
    same value and derivative. *)
Theorem C32_guess_independent_partial : forall s q guess guess' i j, spline_ok s -> (0 <= q <= 65535)%Z -> (0 <= guess)%Z -> (0 <= guess')%Z ->
  (forall k l a b, getz (nodes s) k = Some a -> getz (nodes s) l = Some b -> nx a = q -> nx b = q -> k = l) ->
  let x := IZR q * x_granularity s in
  index_for_x s x guess = Some i -> index_for_x s x guess' = Some j ->
  i = j \/ (segment_value s i x = segment_value s j x /\ segment_value s i x <> None).
Proof.
  intros s q guess guess' i j O Q G G' U. cbv zeta. intros E E'. pose proof (ok_sorted s O) as S.
  pose proof (exact_in_range s q O Q) as I. pose proof (grains_exact s q O (proj1 Q)) as GR.
  set (x := IZR q * x_granularity s) in *.
  destruct (index_ok s x guess O I G) as (i0 & f & b & E0 & F & B & H). rewrite E in E0. injection E0 as <-.
  destruct (index_ok s x guess' O I G') as (i1 & f' & b' & E1 & F' & B' & H'). rewrite E' in E1. injection E1 as <-.
  rewrite F in F'. injection F' as <-. rewrite B in B'. injection B' as <-. rewrite GR in *.
  assert (FI : forall k n, getz (nodes s) k = Some n -> (nx f <= nx n <= nx b)%Z).
  { intros k n K. pose proof (getz_Some _ _ _ K). unfold front in F. unfold back in B.
    split; [apply (sorted_getz _ S _ _ _ _ F K)|apply (sorted_getz _ S _ _ _ _ K B)]; unfold num_nodes; lia. }
  assert (NB : forall k a c, (0 <= k < num_nodes s - 1)%Z -> getz (nodes s) k = Some a -> getz (nodes s) (k + 1) = Some c ->
    (nx a <= q <= nx c)%Z -> ((nx a < nx c)%Z \/ (k = num_nodes s - 2 /\ nx b = q)%Z) -> (nx a < nx c)%Z).
  { intros k a c K A C AC [W|[W1 W2]]; [exact W|]. unfold back in B. replace (k + 1)%Z with (num_nodes s - 1)%Z in C by lia.
    rewrite B in C. injection C as <-. destruct (Z.eq_dec (nx a) (nx b)) as [Z|Z]; [|pose proof (FI _ _ A); lia].
    specialize (U _ _ _ _ A B ltac:(lia) W2). lia. }
  destruct H as [[-> H]|[(-> & H1 & H2)|(H1 & a & c & A & C & AC & W)]];
  destruct H' as [[-> H']|[(-> & H1' & H2')|(H1' & a' & c' & A' & C' & AC' & W')]]; try (left; reflexivity); try (exfalso; lia);
  try (exfalso; pose proof (FI _ _ A); pose proof (FI _ _ C); lia); try (exfalso; pose proof (FI _ _ A'); pose proof (FI _ _ C'); lia).
  apply (NB i a c) in W; auto. apply (NB j a' c') in W'; auto.
  assert (MAIN : forall i j a c a' c', getz (nodes s) i = Some a -> getz (nodes s) (i + 1) = Some c -> getz (nodes s) j = Some a' -> getz (nodes s) (j + 1) = Some c' ->
    (nx a <= q <= nx c)%Z -> (nx a' <= q <= nx c')%Z -> (nx a < nx c)%Z -> (nx a' < nx c')%Z -> (i < j)%Z ->
    segment_value s i x = segment_value s j x /\ segment_value s i x <> None).
  { clear i j a c a' c' A C A' C' AC AC' W W' E E' H1 H1'. intros i j a c a' c' A C A' C' AC AC' W W' L.
    pose proof (sorted_getz _ S _ _ _ _ C A' ltac:(lia)). assert (nx c = q /\ nx a' = q) as [Qc Qa] by lia.
    pose proof (U _ _ _ _ C A' Qc Qa) as J. rewrite J in C. rewrite A' in C. injection C as <-.
    destruct (C33_segments_join s i a a' O A) as [_ P]; [rewrite J; exact A'|exact W|].
    destruct (C33_segments_join s j a' c' O A' C' W') as [P' _]. cbv zeta in P, P'. unfold node_x in P, P'. rewrite Qc in *. fold x in P, P'.
    rewrite P, P'. split; [reflexivity|discriminate]. }
  destruct (Z.lt_trichotomy i j) as [L|[L|L]]; [right; apply (MAIN i j a c a' c'); auto|left; exact L|right].
  destruct (MAIN j i a' c' a c A' C' A C AC' AC W' W L) as [M1 M2]. rewrite <- M1. auto.
Qed.
Print Assumptions C32_guess_independent_partial.

(** A spline with nodes (0, 0), (1, 1), (2, 0) and slopes of zero. *)
Definition peak : spline := Spline (Rg 0 1) 1 [Node 0 0 0; Node 1 65535 0; Node 2 0 0] 7.
Lemma peak_ok : spline_ok peak.
Proof. split; cbn; try lra; repeat constructor; cbn; lia. Qed.
Lemma peak_y0 x : node_y (Node x 0 0) (Rg 0 1) = 0.
Proof. unfold node_y, lerp, kYScale, kMaxY. cbn [ny start_ end_]. field. Qed.
Lemma peak_y1 x : node_y (Node x 65535 0) (Rg 0 1) = 1.
Proof. unfold node_y, lerp, kYScale, kMaxY. cbn [ny start_ end_]. field. Qed.
Lemma flat_slope x y : node_derivative (Node x y 0) = 0.
Proof. unfold node_derivative. cbn [nangle]. rewrite Rmult_0_l. apply tan_0. Qed.
Lemma peak_segment0 x : segment_value peak 0 x = Some (3 * x * x - 2 * x * x * x, 6 * x - 6 * x * x).
Proof.
  unfold segment_value, peak. cbn [nodes getz]. change (getz _ 0) with (Some (Node 0 0 0)). change (getz _ (0 + 1)) with (Some (Node 1 65535 0)).
  cbn [y_range x_granularity nx]. rewrite peak_y0, peak_y1, !flat_slope. unfold cubic_init, node_x. cbn [nx]. change (1 - 0)%Z with 1%Z.
  rewrite Rltb_t by lra. unfold keval, kderiv. cbn [k3 k2 k1 k0]. f_equal. f_equal; field.
Qed.
Lemma peak_segment1 x : segment_value peak 1 x = Some (1 - 3 * (x - 1) * (x - 1) + 2 * (x - 1) * (x - 1) * (x - 1), 6 * (x - 1) * (x - 1) - 6 * (x - 1)).
Proof.
  unfold segment_value, peak. cbn [nodes]. change (getz _ 1) with (Some (Node 1 65535 0)). change (getz _ (1 + 1)) with (Some (Node 2 0 0)).
  cbn [y_range x_granularity nx]. rewrite peak_y0, peak_y1, !flat_slope. unfold cubic_init, node_x. cbn [nx]. change (2 - 1)%Z with 1%Z.
  rewrite Rltb_t by lra. unfold keval, kderiv. cbn [k3 k2 k1 k0]. f_equal. f_equal; field.
Qed.
Lemma peak_quantize x k : (0 <= k < 2147483648)%Z -> IZR k <= x + 1 / 2 < IZR k + 1 -> quantize_x x 1 = Some k.
Proof.
  intros K X. unfold quantize_x, to_int. rewrite Reqb_f by lra. cbn [negb]. rewrite (Rtrunc_IZR k) by (try lia; lra).
  destruct (_ && _)%Z eqn:E; [reflexivity|lia].
Qed.
Lemma peak_width a b : (a < b)%Z -> Rltb 0 (IZR (b - a) * 1) = true.
Proof. intros L. apply Rltb_t. assert (0 < IZR (b - a)) by (apply IZR_lt; lia). lra. Qed.
Lemma peak_index x guess k : (0 <= k <= 2)%Z -> IZR k <= x + 1 / 2 < IZR k + 1 -> (guess = 0 \/ guess = 1)%Z ->
  index_for_x peak x guess = Some (if (k =? 2)%Z then 1 else if (k =? 1)%Z then guess else 0)%Z.
Proof.
  intros K X G. unfold index_for_x. cbn [x_granularity peak]. rewrite (peak_quantize x k) by (try lia; lra). fold peak.
  change (front peak) with (Some (Node 0 0 0)). change (back peak) with (Some (Node 2 0 0)). cbn [nx]. change (num_nodes peak) with 3%Z.
  unfold width_x. cbn [x_granularity peak].
  assert (k = 0 \/ k = 1 \/ k = 2)%Z as [-> | [-> | ->]] by lia; destruct G as [-> | ->]; repeat (progress (cbn -[Rltb]; change (Pos.to_nat 1) with 1%nat; change (Pos.to_nat 2) with 2%nat; rewrite ?(Rltb_t 0 (1 * 1)) by lra)); try reflexivity.
Qed.

(** With x near a node but not on it, different guesses give different values. *)
Theorem C32_guess_independent_refuted : exists s x guess guess' i j v v',
  spline_ok s /\ in_int_range s x /\ (0 <= guess)%Z /\ (0 <= guess')%Z /\
  (forall k l a b, getz (nodes s) k = Some a -> getz (nodes s) l = Some b -> nx a = nx b -> k = l) /\
  index_for_x s x guess = Some i /\ index_for_x s x guess' = Some j /\
  segment_value s i x = Some v /\ segment_value s j x = Some v' /\ fst v <> fst v' /\ snd v <> snd v'.
Proof.
  exists peak, (5 / 4), 0%Z, 1%Z, 0%Z, 1%Z. do 2 eexists. split; [apply peak_ok|].
  split; [unfold in_int_range; cbn [x_granularity peak]; rewrite Rabs_pos_eq; lra|]. split; [lia|]. split; [lia|]. split.
  { intros k l a b A B. pose proof (getz_Some _ _ _ A) as RA. pose proof (getz_Some _ _ _ B) as RB. unfold len in RA, RB. cbn in RA, RB.
    assert (k = 0 \/ k = 1 \/ k = 2)%Z as [-> | [-> | ->]] by lia; assert (l = 0 \/ l = 1 \/ l = 2)%Z as [-> | [-> | ->]] by lia;
    cbn in A, B; injection A as <-; injection B as <-; cbn; lia. }
  rewrite (peak_index (5 / 4) 0 1), (peak_index (5 / 4) 1 1) by (try lia; lra). split; [reflexivity|]. split; [reflexivity|].
  rewrite peak_segment0, peak_segment1. split; [reflexivity|]. split; [reflexivity|]. cbn [fst snd]. lra.
Qed.
Print Assumptions C32_guess_independent_refuted.

(** With 65535 nodes the index of the last segment is the "after" marker. *)
Theorem C32_marker_collision_refuted : exists s x, (num_nodes s <= 65535)%Z /\ 0 < x_granularity s /\
  StronglySorted Z.le (map nx (nodes s)) /\ end_x s = Some x /\
  index_for_x s x 0 = Some kAfterSplineIndex.
Proof.
  pose (l := map (fun k => Node (Z.of_nat k) 0 0) (seq 0 (Z.to_nat 65535))).
  assert (LL : len l = 65535%Z) by (unfold l; rewrite len_map; unfold len; rewrite seq_length; lia).
  assert (GN : forall i, (0 <= i < 65535)%Z -> getz l i = Some (Node i 0 0)).
  { intros i I. unfold getz. replace (i <? 0)%Z with false by lia. unfold l.
    rewrite nth_error_map. rewrite (nth_error_nth' _ 0%nat) by (rewrite seq_length; lia). rewrite seq_nth by lia. cbn [option_map]. repeat f_equal. lia. }
  exists (Spline (Rg 0 0) 1 l 65535), (IZR 65534). unfold num_nodes. cbn [nodes x_granularity]. split; [lia|]. split; [lra|]. split.
  - unfold l. rewrite map_map. cbn [nx]. clear. generalize 0%nat at 1. generalize (Z.to_nat 65535). intros n. induction n as [|n IH]; intros m; cbn; [constructor|].
    constructor; [apply IH|]. apply Forall_forall. intros z I. apply in_map_iff in I. destruct I as (k & <- & I). apply in_seq in I. lia.
  - assert (BK : back (Spline (Rg 0 0) 1 l 65535) = Some (Node 65534 0 0)).
    { unfold back, num_nodes. cbn [nodes]. rewrite LL. apply GN. lia. }
    unfold end_x. rewrite BK. unfold node_x. cbn [nx x_granularity]. split; [f_equal; ring|].
    unfold index_for_x. cbn [x_granularity]. rewrite (peak_quantize 65534 65534) by (try lia; lra). rewrite BK.
    replace (front (Spline (Rg 0 0) 1 l 65535)) with (Some (Node 0 0 0)) by (symmetry; apply (GN 0%Z); lia).
    unfold num_nodes. cbn [nodes nx]. rewrite LL. reflexivity.
Qed.
Print Assumptions C32_marker_collision_refuted.

(** CalculatedSlowly is the value of the segment that is looked up, or the held
    value of the first or last node. *)
Lemma slowly_inside s x i a b t : index_for_x s x 0 = Some i -> (0 <= i < 65533)%Z -> getz (nodes s) i = Some a -> getz (nodes s) (i + 1) = Some b ->
  calculated_slowly s x t = Some (curve_value (cubic_of (create_cubic_between s a b)) (x - node_x a (x_granularity s)) t).
Proof.
  intros E I A B. unfold calculated_slowly. rewrite E. unfold kBeforeSplineIndex, kAfterSplineIndex.
  replace (i =? 65534)%Z with false by lia. replace (i =? 65533)%Z with false by lia.
  unfold create_cubic_init, outside_spline, kAfterSplineIndex. replace (65533 <=? i)%Z with false by lia. rewrite A, B.
  unfold node_x_at, kAfterSplineIndex, kBeforeSplineIndex. replace (i =? 65534)%Z with false by lia. replace (i =? 65533)%Z with false by lia. rewrite A. reflexivity.
Qed.

Theorem C33_at_nodes : forall s k n, spline_ok s -> (2 <= num_nodes s)%Z -> getz (nodes s) k = Some n ->
  let x := node_x n (x_granularity s) in
  (exists j m, getz (nodes s) j = Some m /\ nx m = nx n /\ calculated_slowly s x CurveValue = Some (node_y m (y_range s))) /\
  ((forall j m, getz (nodes s) j = Some m -> nx m = nx n -> j = k) ->
     calculated_slowly s x CurveValue = Some (node_y n (y_range s)) /\
     calculated_slowly s x CurveDerivative = Some (node_derivative n)).
Proof.
  intros s k n O N2 K. cbv zeta. pose proof (fields_at s k n O K) as (F1 & _). pose proof (ok_sorted s O) as S. pose proof (ok_count s O) as CN.
  unfold node_x. set (x := IZR (nx n) * x_granularity s).
  pose proof (exact_in_range s _ O F1) as I. pose proof (grains_exact s _ O (proj1 F1)) as GR. fold x in I, GR.
  destruct (index_ok s x 0 O I ltac:(lia)) as (i & f & b & E & F & B & H). rewrite GR in H.
  pose proof (getz_Some _ _ _ K) as RK. unfold front in F. unfold back in B.
  pose proof (sorted_getz _ S _ _ _ _ F K ltac:(lia)) as SO1. pose proof (sorted_getz _ S _ _ _ _ K B ltac:(unfold num_nodes; lia)) as SO2.
  destruct H as [[-> H]|[(-> & H1 & H2)|(H1 & a & c & A & C & AC & W)]]; try (exfalso; lia).
  pose proof (slowly_inside s x i a c CurveValue E ltac:(lia) A C) as SV.
  pose proof (slowly_inside s x i a c CurveDerivative E ltac:(lia) A C) as SD.
  unfold cubic_of, create_cubic_between in SV, SD. cbn [ci_start_y ci_start_derivative ci_end_y ci_end_derivative ci_width_x curve_value] in SV, SD.
  assert (SEL : (i = k \/ i + 1 = k)%Z \/ exists j m, getz (nodes s) j = Some m /\ nx m = nx n /\ j <> k).
  { destruct (Z.eq_dec i k); [auto|]. destruct (Z.eq_dec (i + 1) k); [auto|]. right.
    destruct (Z_lt_dec k i) as [L|L].
    - exists i, a. split; [exact A|]. split; [|lia]. pose proof (sorted_getz _ S _ _ _ _ K A ltac:(lia)). lia.
    - exists (i + 1)%Z, c. split; [exact C|]. split; [|lia]. pose proof (sorted_getz _ S _ _ _ _ C K ltac:(lia)). lia. }
  destruct (Z_lt_dec (nx a) (nx c)) as [Wd|Wd].
  - destruct (C33_segments_join s i a c O A C Wd) as [PA PC]. unfold segment_value in PA, PC. rewrite A, C in PA, PC. cbv zeta in PA, PC.
    remember (cubic_init (node_y a (y_range s)) (node_derivative a) (node_y c (y_range s)) (node_derivative c) (IZR (nx c - nx a) * x_granularity s)) as cu eqn:CU.
    unfold width_x in SV, SD. rewrite <- CU in SV, SD. unfold node_x in *.
    injection PA as PA1 PA2. injection PC as PC1 PC2.
    assert (EQ : nx a = nx n \/ nx c = nx n).
    { destruct SEL as [[->|<-]|(j & m & J & M & NE)]; [left; congruence|right; congruence|].
      destruct (Z_le_dec k i); [left; pose proof (sorted_getz _ S _ _ _ _ K A ltac:(lia)); lia|right; pose proof (sorted_getz _ S _ _ _ _ C K ltac:(lia)); lia]. }
    destruct EQ as [Q|Q].
    + rewrite Q in PA1, PA2. fold x in PA1, PA2. rewrite Q in SV, SD. fold x in SV, SD. rewrite SV, SD, PA1, PA2. split; [exists i, a; auto|].
      intros U. specialize (U i a A Q). subst k. rewrite A in K. injection K as <-. auto.
    + rewrite Q in PC1, PC2. fold x in PC1, PC2. rewrite SV, SD, PC1, PC2. split; [exists (i + 1)%Z, c; auto|].
      intros U. specialize (U _ c C Q). subst k. rewrite C in K. injection K as <-. auto.
  - (* the last two nodes at the same x *)
    assert (nx a = nx n /\ nx c = nx n) as [Qa Qc] by lia. split.
    + exists i, a. split; [exact A|]. split; [exact Qa|]. rewrite SV. f_equal. unfold width_x, node_x. rewrite Qa, Qc. fold x.
      replace (nx n - nx n)%Z with 0%Z by lia. rewrite Rmult_0_l. unfold cubic_init. rewrite Rltb_f by lra. unfold keval. cbn [k3 k2 k1 k0]. ring.
    + intros U. pose proof (U _ _ A Qa). pose proof (U _ _ C Qc). lia.
Qed.
Print Assumptions C33_at_nodes.

(** Outside the spline the value is held and all derivatives are zero. *)
Theorem C33_held : forall s x sx ex, spline_ok s -> in_int_range s x -> start_x s = Some sx -> end_x s = Some ex ->
  let g := x_granularity s in
  (x < sx - g / 2 -> 0 <= x \/ x <= - (3 * g / 2) ->
     calculated_slowly s x CurveValue = start_y s /\ forall t, t <> CurveValue -> calculated_slowly s x t = Some 0) /\
  (ex + g / 2 <= x -> calculated_slowly s x CurveValue = end_y s /\ forall t, t <> CurveValue -> calculated_slowly s x t = Some 0).
Proof.
  intros s x sx ex O I SX EX. cbv zeta. pose proof (ok_granularity s O) as G. pose proof (ok_sorted s O) as S. pose proof (ok_count s O) as CN.
  destruct (index_ok s x 0 O I ltac:(lia)) as (i & f & b & E & F & B & H).
  unfold start_x in SX. rewrite F in SX. injection SX as <-. unfold end_x in EX. rewrite B in EX. injection EX as <-. unfold node_x.
  assert (FB : (0 <= nx f)%Z /\ (0 <= nx b)%Z) by (split; [apply (fields_at s _ f O F)|apply (fields_at s _ b O B)]).
  destruct FB as [F0 B0]. pose proof (IZR_le _ _ F0) as F0r. pose proof (IZR_le _ _ B0) as B0r.
  assert (FI : forall k n, getz (nodes s) k = Some n -> (nx f <= nx n <= nx b)%Z).
  { intros k n K. pose proof (getz_Some _ _ _ K). unfold front in F. unfold back in B.
    split; [apply (sorted_getz _ S _ _ _ _ F K)|apply (sorted_getz _ S _ _ _ _ K B)]; unfold num_nodes; lia. }
  split.
  - intros X XN. assert (Q : (grains s x < nx f)%Z).
    { destruct XN as [XN|XN].
      - pose proof (grains_bounds s x O ltac:(lra)) as GB. apply lt_IZR. apply Rmult_lt_reg_r with (x_granularity s); lra.
      - unfold grains. assert (x / x_granularity s + 1 / 2 <= -1).
        { apply Rmult_le_reg_r with (x_granularity s); [lra|]. replace ((x / x_granularity s + 1 / 2) * x_granularity s) with (x + x_granularity s / 2) by (field; lra). lra. }
        assert (Rtrunc (x / x_granularity s + 1 / 2) <= Rtrunc (-1))%Z by (now apply Rtrunc_mono).
        assert (Rtrunc (-1) = (-1)%Z). { unfold Rtrunc. rewrite Rleb_f by lra. rewrite (Rfloor_unique _ 1) by lra. reflexivity. } lia. }
    destruct H as [[-> H]|[(-> & H1 & H2)|(H1 & a & c & A & C & AC & W)]]; try (exfalso; lia); [|exfalso; pose proof (FI _ _ A); lia].
    unfold calculated_slowly. rewrite E. cbn. split; [reflexivity|]. intros t T. destruct t; congruence.
  - intros X. assert (0 <= IZR (nx b) * x_granularity s) by (apply Rmult_le_pos; lra).
    pose proof (grains_bounds s x O ltac:(lra)) as GB. assert (Q : (nx b < grains s x)%Z).
    { apply lt_IZR. apply Rmult_lt_reg_r with (x_granularity s); lra. }
    destruct H as [[-> H']|[(-> & H1 & H2)|(H1 & a & c & A & C & AC & W)]]; [|clear H2|exfalso; pose proof (FI _ _ C); lia].
    { exfalso. pose proof (FI _ _ B). lia. }
    unfold calculated_slowly. rewrite E. cbn. split; [reflexivity|]. intros t T. destruct t; congruence.
Qed.
Print Assumptions C33_held.

(** A spline with one node is constant. *)
Theorem C33_single_node : forall s x n, spline_ok s -> in_int_range s x -> nodes s = [n] ->
  calculated_slowly s x CurveValue = Some (node_y n (y_range s)) /\ forall t, t <> CurveValue -> calculated_slowly s x t = Some 0.
Proof.
  intros s x n O I N. assert (NN : num_nodes s = 1%Z) by (unfold num_nodes; rewrite N; reflexivity).
  destruct (index_ok s x 0 O I ltac:(lia)) as (i & f & b & E & F & B & H). pose proof F as F'. pose proof B as B'.
  unfold front in F'. unfold back in B'. rewrite NN in B'. rewrite N in F', B'. cbn in F', B'. injection F' as <-. injection B' as <-.
  unfold calculated_slowly. rewrite E. unfold start_y, end_y. rewrite F, B.
  destruct H as [[-> H]|[(-> & H1 & H2)|(H1 & _)]]; [| |exfalso; lia]; cbn; (split; [reflexivity|]); intros t T; destruct t; congruence.
Qed.
Print Assumptions C33_single_node.

Lemma peak_slowly x : 1 / 2 <= x < 3 / 2 -> calculated_slowly peak x CurveValue = Some (3 * x * x - 2 * x * x * x).
Proof.
  intros X. rewrite (slowly_inside peak x 0 (Node 0 0 0) (Node 1 65535 0)); [|apply (peak_index x 0 1); try lia; lra|lia|reflexivity|reflexivity].
  f_equal. pose proof (peak_segment0 x) as P. unfold segment_value in P. change (getz (nodes peak) 0) with (Some (Node 0 0 0)) in P.
  change (getz (nodes peak) (0 + 1)) with (Some (Node 1 65535 0)) in P. injection P as P _. exact P.
Qed.
Lemma peak_in_range x : -10 <= x <= 10 -> in_int_range peak x.
Proof. intros X. unfold in_int_range. cbn [x_granularity peak]. rabs; lra. Qed.

(** Just before halfway past a node the previous segment is extrapolated, so the
    curve jumps inside the next segment. *)
Theorem C33_continuous_refuted : exists s x y, spline_ok s /\ in_int_range s x /\ calculated_slowly s x CurveValue = Some y /\
  (forall k l a b, getz (nodes s) k = Some a -> getz (nodes s) l = Some b -> nx a = nx b -> k = l) /\
  forall e, 0 < e -> exists x' y', Rabs (x' - x) < e /\ calculated_slowly s x' CurveValue = Some y' /\ 1 / 4 <= Rabs (y' - y).
Proof.
  exists peak, (3 / 2), (1 / 2). split; [apply peak_ok|]. split; [apply peak_in_range; lra|]. split; [|split].
  - rewrite (slowly_inside peak (3 / 2) 1 (Node 1 65535 0) (Node 2 0 0)); [|apply (peak_index (3 / 2) 0 2); try lia; lra|lia|reflexivity|reflexivity].
    f_equal. pose proof (peak_segment1 (3 / 2)) as P. unfold segment_value in P. change (getz (nodes peak) 1) with (Some (Node 1 65535 0)) in P.
    change (getz (nodes peak) (1 + 1)) with (Some (Node 2 0 0)) in P. injection P as P _. unfold node_x in *. cbn [nx] in *.
    etransitivity; [exact P|]. lra.
  - intros k l a b A B. pose proof (getz_Some _ _ _ A) as RA. pose proof (getz_Some _ _ _ B) as RB. unfold len in RA, RB. cbn in RA, RB.
    assert (k = 0 \/ k = 1 \/ k = 2)%Z as [-> | [-> | ->]] by lia; assert (l = 0 \/ l = 1 \/ l = 2)%Z as [-> | [-> | ->]] by lia;
    cbn in A, B; injection A as <-; injection B as <-; cbn; lia.
  - intros e E. set (h := Rmin (e / 2) (1 / 40)). assert (0 < h <= 1 / 40 /\ h < e) as (H1 & H2) by (unfold h; minmax; lra).
    exists (3 / 2 - h). eexists. split; [rabs; lra|]. split; [apply peak_slowly; lra|].
    replace (3 * (3 / 2 - h) * (3 / 2 - h) - 2 * (3 / 2 - h) * (3 / 2 - h) * (3 / 2 - h) - 1 / 2)
      with (- (1 / 2) + (9 / 2 - 6 * h + 2 * h * h) * h) by field.
    assert (0 <= h * h <= 1) by nra. assert ((9 / 2 - 6 * h + 2 * h * h) * h <= 10 * h) by (apply Rmult_le_compat_r; lra).
    assert (0 <= (9 / 2 - 6 * h + 2 * h * h) * h) by (apply Rmult_le_pos; lra). rabs; lra.
Qed.
Print Assumptions C33_continuous_refuted.

(** One whole grain before the first node the first cubic is extrapolated. *)
Theorem C33_held_before_refuted : exists s x sx y0 y, spline_ok s /\ in_int_range s x /\ start_x s = Some sx /\ start_y s = Some y0 /\
  x <= sx - x_granularity s /\ calculated_slowly s x CurveValue = Some y /\ y <> y0.
Proof.
  exists peak, (-1), 0, 0, 5. split; [apply peak_ok|]. split; [apply peak_in_range; lra|].
  assert (SX : start_x peak = Some 0) by (unfold start_x; change (front peak) with (Some (Node 0 0 0)); unfold node_x; cbn [nx x_granularity peak]; f_equal; ring).
  assert (SY : start_y peak = Some 0) by (unfold start_y; change (front peak) with (Some (Node 0 0 0)); cbn [y_range peak]; now rewrite peak_y0).
  split; [exact SX|]. split; [exact SY|]. split; [cbn; lra|]. split; [|lra].
  assert (IX : index_for_x peak (-1) 0 = Some 0%Z).
  { unfold index_for_x. rewrite (quantize_ok peak (-1) peak_ok (peak_in_range (-1) ltac:(lra))).
    assert (GR : grains peak (-1) = 0%Z). { unfold grains. cbn [x_granularity peak]. unfold Rtrunc. rewrite Rleb_f by lra. rewrite (Rfloor_unique _ 0) by lra. reflexivity. }
    rewrite GR. change (front peak) with (Some (Node 0 0 0)). change (back peak) with (Some (Node 2 0 0)). change (num_nodes peak) with 3%Z. cbn [nx].
    unfold width_x. cbn [x_granularity peak]. repeat (progress (cbn -[Rltb]; change (Pos.to_nat 1) with 1%nat; change (Pos.to_nat 2) with 2%nat; rewrite ?(Rltb_t 0 (1 * 1)) by lra)). reflexivity. }
  rewrite (slowly_inside peak (-1) 0 (Node 0 0 0) (Node 1 65535 0)); [|exact IX|lia|reflexivity|reflexivity]. f_equal.
  pose proof (peak_segment0 (-1)) as P. unfold segment_value in P. change (getz (nodes peak) 0) with (Some (Node 0 0 0)) in P.
  change (getz (nodes peak) (0 + 1)) with (Some (Node 1 65535 0)) in P. injection P as P _. etransitivity; [exact P|]. lra.
Qed.
Print Assumptions C33_held_before_refuted.

(** Two nodes at the end of the spline: at EndX the value is not EndY. *)
Definition jump_at_end : spline := Spline (Rg 0 1) 1 [Node 0 0 0; Node 1 0 0; Node 1 65535 0] 7.
Theorem C33_end_y_refuted : exists s ex ey y, spline_ok s /\ end_x s = Some ex /\ end_y s = Some ey /\ (2 <= num_nodes s)%Z /\
  calculated_slowly s ex CurveValue = Some y /\ y <> ey.
Proof.
  assert (O : spline_ok jump_at_end) by (split; cbn; try lra; repeat constructor; cbn; lia).
  exists jump_at_end, 1, 1, 0. split; [exact O|]. change (num_nodes jump_at_end) with 3%Z.
  unfold end_x, end_y. change (back jump_at_end) with (Some (Node 1 65535 0)). cbn [y_range jump_at_end]. rewrite peak_y1.
  split; [unfold node_x; cbn; f_equal; ring|]. split; [reflexivity|]. split; [lia|]. split; [|lra].
  rewrite (slowly_inside jump_at_end 1 1 (Node 1 0 0) (Node 1 65535 0)); [| |lia|reflexivity|reflexivity].
  - cbn [curve_value]. unfold cubic_of, create_cubic_between, width_x. cbn [ci_start_y ci_start_derivative ci_end_y ci_end_derivative ci_width_x y_range x_granularity jump_at_end nx].
    rewrite peak_y0. change (1 - 1)%Z with 0%Z. rewrite Rmult_0_l. unfold cubic_init. rewrite Rltb_f by lra. unfold keval. cbn [k3 k2 k1 k0].
    unfold node_x. cbn [nx]. f_equal. ring.
  - unfold index_for_x. cbn [x_granularity jump_at_end]. rewrite (peak_quantize 1 1) by (try lia; lra). reflexivity.
Qed.
Print Assumptions C33_end_y_refuted.

(** With repeat, positions past the end are looked up at the congruent position in
    (0, EndX]; others are looked up as they are.  The result is never "after". *)
Theorem C34_repeat : forall s x guess ex, spline_ok s -> in_int_range s x -> (0 <= guess)%Z -> (2 <= num_nodes s)%Z ->
  end_x s = Some ex -> 0 < ex -> - x_granularity s / 2 <= x ->
  exists i x', index_for_x_allowing_repeat s x guess true = Some (i, x') /\ i <> kAfterSplineIndex /\
    ((x < ex + x_granularity s / 2 /\ x' = x /\ index_for_x s x guess = Some i) \/
     (ex + x_granularity s / 2 <= x /\ 0 < x' <= ex /\ (exists k : Z, x' = x + IZR k * ex) /\ index_for_x s x' 0 = Some i)).
Proof.
  intros s x guess ex O I G N EX EP X. pose proof (ok_granularity s O) as GP. pose proof (ok_count s O) as CN.
  pose proof (grains_bounds s x O X) as GB. pose proof EX as EX'.
  destruct (index_ok s x guess O I G) as (i & f & b & E & F & B & H).
  unfold end_x in EX'. rewrite B in EX'. injection EX' as <-. unfold node_x in *.
  unfold index_for_x_allowing_repeat. rewrite E.
  destruct (Z.eqb_spec i kAfterSplineIndex) as [->|NA].
  - cbn [negb orb]. rewrite EX. set (ex := IZR (nx b) * x_granularity s) in *.
    destruct (wild_ok (Rg 0 ex) x ltac:(cbn; lra)) as (y & W & Y & K). rewrite close_ok by (cbn; lra). rewrite W. cbn [start_ end_] in Y.
    assert (IY : in_int_range s y).
    { unfold in_int_range. pose proof (fields_at s _ b O B) as ((Q1 & Q2) & _). apply IZR_le in Q2. rewrite Rabs_pos_eq.
      - apply Rmult_lt_reg_r with (x_granularity s); [lra|]. replace (y / x_granularity s * x_granularity s) with y by (field; lra).
        apply Rle_lt_trans with ex; [lra|]. unfold ex. apply Rmult_lt_compat_r; lra.
      - apply Rmult_le_pos; [lra|]. left. now apply Rinv_0_lt_compat. }
    destruct (index_ok s y 0 O IY ltac:(lia)) as (j & f' & b' & E' & F' & B' & H'). rewrite E'. rewrite B in B'. injection B' as <-.
    exists j, y. split; [reflexivity|]. split.
    { destruct H' as [[-> _]|[(-> & _ & H2)|(H1 & _)]]; [discriminate| |unfold kAfterSplineIndex; lia]. exfalso.
      pose proof (grains_bounds s y O ltac:(lra)) as GY. destruct H2 as [H2|[H2 _]]; [|lia]. pose proof (grain_lt s _ _ O H2). unfold ex in *. lra. }
    right. split; [|split; [lra|split; [|exact E']]].
    + destruct H as [[Z _]|[(_ & _ & H2)|(H1 & _)]]; [discriminate| |unfold kAfterSplineIndex in *; lia].
      destruct H2 as [H2|[H2 _]]; [|lia]. pose proof (grain_lt s _ _ O H2). unfold ex. lra.
    + destruct K as [k K]. exists k. rewrite K. unfold length_. cbn [start_ end_]. ring.
  - cbn [negb orb]. exists i, x. split; [reflexivity|]. split; [exact NA|]. left. split; [|split; [reflexivity|reflexivity]].
    destruct H as [[-> H]|[(-> & _)|(H1 & a & c & A & C & AC & W)]]; [|congruence|].
    + pose proof (grain_lt s _ _ O H). assert (nx f <= nx b)%Z. { unfold front in F. unfold back in B. apply (sorted_getz _ (ok_sorted s O) _ _ _ _ F B). lia. }
      pose proof (grain_le s _ _ O H1). lra.
    + assert (nx c <= nx b)%Z. { unfold back in B. apply (sorted_getz _ (ok_sorted s O) _ _ _ _ C B). lia. }
      pose proof (grain_le s _ _ O (proj2 AC)). pose proof (grain_le s _ _ O H). lra.
Qed.
Print Assumptions C34_repeat.

(** Without repeat the position is not changed. *)
Theorem C34_no_repeat : forall s x guess i x', index_for_x_allowing_repeat s x guess false = Some (i, x') -> x' = x /\ index_for_x s x guess = Some i.
Proof. intros s x guess i x'. unfold index_for_x_allowing_repeat. destruct (index_for_x s x guess); cbn; intros E; [injection E as -> ->; auto|discriminate]. Qed.
Print Assumptions C34_no_repeat.

(** The half grain after the end is not wrapped. *)
Theorem C34_wrapped_inside_refuted : exists s x ex i x', spline_ok s /\ in_int_range s x /\ end_x s = Some ex /\ 0 < ex /\ (2 <= num_nodes s)%Z /\
  ex < x /\ index_for_x_allowing_repeat s x 0 true = Some (i, x') /\ ex < x'.
Proof.
  exists peak, (9 / 4), 2, 1%Z, (9 / 4). split; [apply peak_ok|]. split; [apply peak_in_range; lra|].
  split; [unfold end_x; change (back peak) with (Some (Node 2 0 0)); unfold node_x; cbn [nx x_granularity peak]; f_equal; ring|].
  split; [lra|]. split; [cbn; lia|]. split; [lra|]. split; [|lra].
  unfold index_for_x_allowing_repeat. rewrite (peak_index (9 / 4) 0 2) by (try lia; lra). reflexivity.
Qed.
Print Assumptions C34_wrapped_inside_refuted.

(** A spline whose nodes are all at x = 0 cannot be repeated: normalising into an
    empty range fails. *)
Theorem C34_zero_width : forall s x guess, spline_ok s -> in_int_range s x -> (0 <= guess)%Z -> end_x s = Some 0 -> x_granularity s / 2 <= x ->
  index_for_x_allowing_repeat s x guess true = None.
Proof.
  intros s x guess O I G EX X. pose proof (ok_granularity s O) as GP. pose proof (grains_bounds s x O ltac:(lra)) as GB. pose proof EX as EX'.
  destruct (index_ok s x guess O I G) as (i & f & b & E & F & B & H). unfold end_x in EX'. rewrite B in EX'. unfold node_x in EX'.
  assert (Z0 : IZR (nx b) * x_granularity s = 0) by congruence. apply Rmult_integral in Z0. destruct Z0 as [Z0|Z0]; [|lra]. apply eq_IZR in Z0.
  assert (0 < grains s x)%Z. { apply lt_IZR. apply Rmult_lt_reg_r with (x_granularity s); lra. }
  assert (i = kAfterSplineIndex) as ->.
  { destruct H as [[-> H]|[(-> & _)|(H1 & a & c & A & C & AC & W)]]; [|reflexivity|]; exfalso; unfold front in F; unfold back in B.
    - pose proof (ok_count s O). pose proof (sorted_getz _ (ok_sorted s O) _ _ _ _ F B ltac:(lia)). lia.
    - pose proof (sorted_getz _ (ok_sorted s O) _ _ _ _ C B ltac:(lia)). lia. }
  unfold index_for_x_allowing_repeat. rewrite E, EX. cbn [negb orb Z.eqb]. unfold kAfterSplineIndex. rewrite Z.eqb_refl. cbn [negb orb].
  assert (NC : normalize_close (Rg 0 0) x = None); [|rewrite NC; reflexivity].
  unfold normalize_close. cbn [start_ end_]. rewrite Rleb_f by lra. rewrite Rltb_t by lra. cbn [negb andb].
  repeat (cbn [close_loop]; match goal with |- context [(4 <? ?n)%Z] => let b := eval vm_compute in (4 <? n)%Z in change (4 <? n)%Z with b end; cbv iota;
    unfold length_; cbn [start_ end_]; rewrite ?Rltb_t by lra).
  unfold normalize_wild, length_. cbn [start_ end_]. rewrite Reqb_t by lra. reflexivity.
Qed.
Print Assumptions C34_zero_width.

(** The spline [peak] satisfies the hypotheses of the theorems above. *)
Example C32_C34_case :
  spline_ok peak /\ in_int_range peak (1 / 4) /\ in_int_range peak 5 /\ (2 <= num_nodes peak)%Z /\ end_x peak = Some 2 /\
  (forall n, In n (nodes peak) -> nx n <> grains peak 5) /\
  (forall j m, getz (nodes peak) j = Some m -> nx m = 1%Z -> j = 1%Z).
Proof.
  split; [apply peak_ok|]. split; [apply peak_in_range; lra|]. split; [apply peak_in_range; lra|]. split; [cbn; lia|].
  split; [unfold end_x; change (back peak) with (Some (Node 2 0 0)); unfold node_x; cbn [nx x_granularity peak]; f_equal; ring|]. split.
  - intros n N. assert (GR : grains peak 5 = 5%Z). { replace 5 with (IZR 5 * x_granularity peak) at 1 by (cbn; ring). apply grains_exact; [apply peak_ok|lia]. }
    rewrite GR. cbn in N. destruct N as [<-|[<-|[<-|[]]]]; cbn; lia.
  - intros j m J. pose proof (getz_Some _ _ _ J) as R. unfold len in R. cbn in R. assert (j = 0 \/ j = 1 \/ j = 2)%Z as [-> | [-> | ->]] by lia;
    cbn in J; injection J as <-; cbn; lia.
Qed.
