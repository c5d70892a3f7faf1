(** Theorems about converted linear and step keyframes (C67). *)
From Verif Require Import RBase BaseFacts RangeModel RangeProofs RangeProps CurveModel CurveProps CompactSplineModel CompactSplineSpec CompactSplineProofs CompactSplineAdd
  CompactSplineProps CompactSplineEvalProps MatrixModel KeyframeModel KeyframeSpec KeyframeSplines KeyframeProofs KeyframeProps.
From Coq Require Import Sorting.Sorted.
Local Open Scope Z_scope.

(** * C67 *)
Lemma spline_of data ch out used c off s : add_array_curves data ch = Some (out, used) -> getz out c = Some (off, s) ->
  exists chans ns, array_nodes data ch = Some chans /\ getz chans c = Some ns /\ 0 <= c < ch /\ len ns = 2 * kd_count data /\ len ns <= 65532 /\
    init_from_nodes (Spline range_default 0 [] (len ns)) ns = Some s.
Proof.
  intros H G. unfold add_array_curves in H. destruct (array_nodes data ch) as [chans|] eqn:A; [|discriminate]. destruct (splines_ok _ _ _ _ _ H) as (_ & S2 & _).
  destruct (S2 _ _ _ G) as (ns & G1 & G2). exists chans, ns. destruct (run_lengths _ _ _ _ A) as (L & C & N). pose proof (getz_Some _ _ _ G1).
  pose proof (create_max _ _ G2). unfold create_from_nodes in G2. destruct (_ <=? _); [|discriminate].
  repeat split; try assumption; try lia. now apply N, (getz_in _ c).
Qed.

Local Open Scope R_scope.
Lemma trunc_step a b : 0 <= a -> a + 1 <= b -> (Rtrunc a < Rtrunc b)%Z.
Proof.
  intros A B. destruct (Rtrunc_bounds a) as [P _]. destruct (Rtrunc_bounds b) as [Q _]. specialize (P A). specialize (Q ltac:(lra)). apply lt_IZR. lra.
Qed.
Lemma make_node_inv x y d g r n : 0 < g -> make_node x y d g r = Some n -> nx n = Rtrunc (x / g + 1 / 2) /\ (nx n <= 65535)%Z /\ nangle n = compact_derivative d /\ compact_y y r = Some (ny n).
Proof.
  intros G H. pose proof (make_node_x _ _ _ _ _ _ G H) as X. pose proof (make_node_fields _ _ _ _ _ _ G H) as F. unfold make_node in H.
  destruct (compact_x x g); [|discriminate]. destruct (compact_y y r) eqn:Y; [|discriminate]. injection H as <-. cbn in *. tauto.
Qed.

(** The spline of a channel more than a grain after keyframe [f] and more than a grain before the next. *)
Lemma segment data ch out used c off s f t t' x : chronological data -> add_array_curves data ch = Some (out, used) -> getz out c = Some (off, s) ->
  key_time data f = Some t -> key_time data (f + 1) = Some t' -> t + x_granularity s < x < t' - x_granularity s ->
  exists chans ns a b na nb, array_nodes data ch = Some chans /\ getz chans c = Some ns /\ (0 <= c < ch)%Z /\ (0 <= f < kd_count data - 1)%Z /\
    getz ns (2 * f + 1) = Some a /\ getz ns (2 * (f + 1)) = Some b /\ spline_ok s /\ covers (map uy ns) = Some (y_range s) /\
    make_node t (uy a) (uderivative a) (x_granularity s) (y_range s) = Some na /\ make_node t' (uy b) (uderivative b) (x_granularity s) (y_range s) = Some nb /\
    0 <= t /\ (nx na < nx nb)%Z /\ node_x na (x_granularity s) <= x <= node_x nb (x_granularity s) /\
    forall ty, calculated_slowly s x ty = Some (curve_value (cubic_init (node_y na (y_range s)) (node_derivative na) (node_y nb (y_range s)) (node_derivative nb)
        (node_x nb (x_granularity s) - node_x na (x_granularity s))) (x - node_x na (x_granularity s)) ty).
Proof.
  intros CH H G T T' X. destruct (spline_of _ _ _ _ _ _ _ H G) as (chans & ns & A & GC & C & L & LM & I).
  destruct (nodes_sorted data ch chans c ns CH A GC) as [SO PO]. destruct (node_times data ch chans c ns A GC) as [_ NT].
  assert (F : (0 <= f < kd_count data - 1)%Z).
  { unfold key_time in T, T'. destruct (Z.ltb_spec (f + 1) (kd_count data)); [|discriminate]. destruct (Z.ltb_spec f (kd_count data)); [|discriminate].
    destruct (getz (kd_times data) f) eqn:E; [|discriminate]. apply getz_Some in E. lia. }
  destruct (getz_in_range ns (2 * f + 1)) as [a GA]; [lia|]. destruct (getz_in_range ns (2 * (f + 1))) as [b GB]; [lia|].
  pose proof (NT _ _ GA) as TA. pose proof (NT _ _ GB) as TB. replace ((2 * f + 1) / 2)%Z with f in TA by (rewrite Z.mul_comm, Z.add_comm, Z.div_add by lia; reflexivity).
  rewrite Z.mul_comm, Z.div_mul in TB by lia. assert (ux a = t) as UA by congruence. assert (ux b = t') as UB by congruence.
  pose proof (len_nonneg ns) as LP. destruct (built ns _ s I ltac:(cbn [max_nodes]; lia) SO) as (OK & COV & _).
  pose proof (ok_granularity s OK) as GP. set (g := x_granularity s) in *. assert (T0 : 0 <= t) by (apply (proj2 CH) with f; exact T).
  assert (DX : forall y z, y <= z -> y / g <= z / g) by (intros y z YZ; apply Rmult_le_compat_r; [left; now apply Rinv_0_lt_compat|exact YZ]).
  assert (0 <= t / g) by (apply Rmult_le_pos; [exact T0|left; now apply Rinv_0_lt_compat]).
  assert (X1 : t / g + 1 <= x / g) by (replace (t / g + 1) with ((t + g) / g) by (field; lra); apply DX; lra).
  assert (X2 : x / g + 1 <= t' / g) by (replace (x / g + 1) with ((x + g) / g) by (field; lra); apply DX; lra).
  assert (IR : in_int_range s x).
  { unfold in_int_range. fold g. destruct (built ns _ s I ltac:(cbn [max_nodes]; lia) SO) as (_ & _ & _ & _ & ms & FA & _). destruct (Forall2_at _ _ _ FA _ _ GB) as (nb & _ & MB).
    fold g in MB. apply make_node_inv in MB; [|exact GP]. destruct MB as (NX & NM & _). rewrite UB in NX. destruct (Rtrunc_bounds (t' / g + 1 / 2)) as [P _]. specialize (P ltac:(lra)).
    rewrite <- NX in P. apply IZR_le in NM. rewrite Rabs_right by lra. lra. }
  destruct (between ns _ s (2 * f + 1) a b x I ltac:(cbn [max_nodes]; lia) SO GA ltac:(replace (2 * f + 1 + 1)%Z with (2 * (f + 1))%Z by lia; exact GB) IR) as (na & nb & MA & MB & EV).
  fold g in MA, MB, EV. rewrite UA in MA. rewrite UB in MB. pose proof (make_node_inv _ _ _ _ _ _ GP MA) as (NA & _). pose proof (make_node_inv _ _ _ _ _ _ GP MB) as (NB & _).
  assert (GR : (nx na < grains s x < nx nb)%Z) by (unfold grains; fold g; rewrite NA, NB; split; apply trunc_step; lra).
  exists chans, ns, a, b, na, nb. split; [exact A|]. split; [exact GC|]. split; [exact C|]. split; [exact F|]. split; [exact GA|]. split; [exact GB|]. split; [exact OK|].
  split; [exact COV|]. split; [exact MA|]. split; [exact MB|]. split; [exact T0|]. split; [lia|]. split.
  - pose proof (grains_bounds s x OK ltac:(fold g; lra)) as GBN. fold g in GBN. unfold node_x. pose proof (grain_lt s (nx na) (grains s x) OK ltac:(lia)) as A1. pose proof (grain_lt s (grains s x) (nx nb) OK ltac:(lia)) as A2. fold g in A1, A2. lra.
  - intros ty. rewrite (EV GR). unfold cubic_of, create_cubic_between, width_x. cbn [ci_start_y ci_start_derivative ci_end_y ci_end_derivative ci_width_x]. fold g.
    do 3 f_equal. unfold node_x. rewrite minus_IZR. ring.
Qed.

(** The range of a channel's spline is that of its values. *)
Lemma channel_range data ch chans c ns r : kd_type data <> CubicSpline -> array_nodes data ch = Some chans -> getz chans c = Some ns -> covers (map uy ns) = Some r ->
  (forall lo hi, (forall f v, key_value data ch f c = Some v -> lo <= v <= hi) -> lo <= start_ r /\ end_ r <= hi) /\
  (forall f v, (0 <= f)%Z -> key_value data ch f c = Some v -> start_ r <= v <= end_ r).
Proof.
  intros T H G C. pose proof (C20_covers (map uy ns)) as K. rewrite C in K. destruct K as (_ & K1 & K2).
  assert (Y : (forall u, In u ns -> exists f, key_value data ch f c = Some (uy u)) /\ (forall f, (0 <= f < kd_count data)%Z -> exists u, In u ns /\ key_value data ch f c = Some (uy u))).
  { assert (HALF : forall L i, (len ns = 2 * L -> 0 <= i < len ns -> 0 <= i / 2 < L /\ (i = 2 * (i / 2) \/ i = 2 * (i / 2) + 1))%Z).
    { intros L i E I. pose proof (Z.div_mod i 2 ltac:(lia)). pose proof (Z.mod_pos_bound i 2 ltac:(lia)). lia. }
    destruct (kd_type data) eqn:TY; [| |congruence].
    - destruct (array_linear data ch chans c ns TY H G) as [L F]. split.
      + intros u I. apply in_getz in I. destruct I as [i I]. destruct (HALF _ i L (getz_Some _ _ _ I)) as [HR HI]. destruct (F _ HR) as (t & v & _ & V & E1 & E2). exists (i / 2)%Z. rewrite V.
        destruct HI as [HI|HI]; rewrite HI in I; [rewrite E1 in I|rewrite E2 in I]; injection I as <-; reflexivity.
      + intros f FR. destruct (F _ FR) as (t & v & _ & V & E1 & E2). eexists. split; [eapply getz_in; exact E1|exact V].
    - destruct (array_step data ch chans c ns TY H G) as [L F]. split.
      + intros u I. apply in_getz in I. destruct I as [i I]. destruct (HALF _ i L (getz_Some _ _ _ I)) as [HR HI]. destruct (F _ HR) as (t & v & w & _ & V & W & E1 & E2).
        destruct HI as [HI|HI]; rewrite HI in I; [rewrite E1 in I|rewrite E2 in I]; injection I as <-; cbn [uy]; [|eauto].
        destruct (Z.eqb_spec (i / 2) 0) as [Z0|Z0]; [subst w; eauto|eauto].
      + intros f FR. destruct (F _ FR) as (t & v & w & _ & V & _ & E1 & E2). eexists. split; [eapply getz_in; exact E2|exact V]. }
  destruct Y as [Y1 Y2]. split.
  - intros lo hi B. apply K2. intros y IY. apply in_map_iff in IY. destruct IY as (u & <- & IU). destruct (Y1 u IU) as [f V]. eauto.
  - intros f v FP V. destruct (Y2 f) as (u & IU & V'). { unfold key_value in V. destruct (Z.ltb_spec f (kd_count data)); [lia|discriminate]. }
    assert (v = uy u) as -> by congruence. apply K1. now apply in_map.
Qed.

Lemma zero_angle n : nangle n = 0%Z -> node_derivative n = 0.
Proof. intros E. unfold node_derivative. rewrite E, Rmult_0_l. apply tan_0. Qed.
Lemma compact_zero : compact_derivative 0 = 0%Z.
Proof. unfold compact_derivative. rewrite atan_0. replace (0 / kAngleScale) with 0 by (unfold Rdiv; ring). apply Rtrunc_IZR; [lia|lra]. Qed.
Lemma flat y w x : 0 < w -> keval (cubic_init y 0 y 0 w) x = y /\ kderiv (cubic_init y 0 y 0 w) x = 0.
Proof. intros W. unfold keval, kderiv, cubic_init. cbn [k3 k2 k1 k0]. rewrite Rltb_t by exact W. split; ring. Qed.
Lemma node_gap s na nb : spline_ok s -> (nx na < nx nb)%Z -> 0 < node_x nb (x_granularity s) - node_x na (x_granularity s).
Proof. intros OK L. pose proof (grain_lt s _ _ OK L). pose proof (ok_granularity s OK). unfold node_x. lra. Qed.

(** Step keyframes hold each value, to the precision of 16 bits, until a grain before the next
    keyframe. *)
Theorem C67_step : forall data ch out used c off s f t t' v lo hi x, kd_type data = Step -> chronological data ->
  add_array_curves data ch = Some (out, used) -> getz out c = Some (off, s) ->
  key_time data f = Some t -> key_time data (f + 1) = Some t' -> key_value data ch f c = Some v ->
  (forall f' v', key_value data ch f' c = Some v' -> lo <= v' <= hi) ->
  t + x_granularity s < x < t' - x_granularity s ->
  (exists y, calculated_slowly s x CurveValue = Some y /\ 0 <= v - y <= (hi - lo) / 65535) /\ calculated_slowly s x CurveDerivative = Some 0.
Proof.
  intros data ch out used c off s f t t' v lo hi x TY CR H G T T' V B X.
  destruct (segment _ _ _ _ _ _ _ _ _ _ _ CR H G T T' X) as (chans & ns & a & b & na & nb & A & GC & C & F & GA & GB & OK & COV & MA & MB & T0 & NN & XR & EV).
  destruct (array_step data ch chans c ns TY A GC) as [L FF]. destruct (FF f ltac:(lia)) as (t1 & v1 & w1 & _ & V1 & _ & _ & E1). destruct (FF (f + 1)%Z ltac:(lia)) as (t2 & v2 & w2 & _ & _ & W2 & E2 & _).
  replace (f + 1 =? 0)%Z with false in W2 by lia. replace (f + 1 - 1)%Z with f in W2 by lia.
  rewrite E1 in GA. injection GA as <-. rewrite E2 in GB. injection GB as <-. assert (v1 = v) as -> by congruence. assert (w2 = v) as -> by congruence. cbn [uy uderivative] in *.
  pose proof (ok_granularity s OK) as GP. pose proof (make_node_inv _ _ _ _ _ _ GP MA) as (_ & _ & AA & YA). pose proof (make_node_inv _ _ _ _ _ _ GP MB) as (_ & _ & AB & YB).
  rewrite compact_zero in AA, AB. pose proof (node_gap s na nb OK NN) as W.
  assert (node_y nb (y_range s) = node_y na (y_range s)) as YE by (unfold node_y; congruence).
  split.
  - exists (node_y na (y_range s)). rewrite EV, YE, (zero_angle na AA), (zero_angle nb AB). cbn [curve_value]. split; [f_equal; now apply flat|].
    pose proof (C31_y_error _ _ _ _ _ _ MA) as ER. destruct (channel_range data ch chans c ns (y_range s) ltac:(congruence) A GC COV) as [R _]. destruct (R lo hi B) as [R1 R2]. lra.
  - rewrite EV, YE, (zero_angle na AA), (zero_angle nb AB). cbn [curve_value]. f_equal. now apply flat.
Qed.
Print Assumptions C67_step.

(** A grain is 1/65535 of the time of the last keyframe. *)
Theorem C67_grain : forall data ch out used c off s T, chronological data -> add_array_curves data ch = Some (out, used) -> getz out c = Some (off, s) ->
  key_time data (kd_count data - 1) = Some T -> x_granularity s = if Rleb T 0 then 1 else T / 65535.
Proof.
  intros data ch out used c off s T CH H G KT. destruct (spline_of _ _ _ _ _ _ _ H G) as (chans & ns & A & GC & C & L & LM & I).
  destruct (nodes_sorted data ch chans c ns CH A GC) as [SO PO]. destruct (node_times data ch chans c ns A GC) as [_ NT]. pose proof (len_nonneg ns).
  destruct (built ns _ s I ltac:(cbn [max_nodes]; lia) SO) as (_ & _ & (la & GL & E) & _). pose proof (NT _ _ GL) as TL.
  replace ((len ns - 1) / 2)%Z with (kd_count data - 1)%Z in TL by (rewrite L; replace (2 * kd_count data - 1)%Z with (1 + (kd_count data - 1) * 2)%Z by lia; rewrite Z.div_add by lia; reflexivity).
  assert (ux la = T) as <- by congruence. exact E.
Qed.
Print Assumptions C67_grain.

Lemma atan_mvt a b : a < b -> exists c, atan b - atan a = (b - a) / (1 + c * c) /\ a < c < b.
Proof.
  intros L. destruct (MVT_cor2 atan (fun x => / (1 + x ^ 2)) a b L) as (c & E & R).
  { intros c _. exact (derivable_pt_lim_atan c). }
  exists c. split; [|exact R]. rewrite E. replace (c ^ 2) with (c * c) by ring. unfold Rdiv. ring.
Qed.
Lemma atan_abs a b : Rabs (atan a) <= Rabs (atan b) -> Rabs a <= Rabs b.
Proof.
  assert (M : forall x y, atan x <= atan y -> x <= y) by (intros x y L; destruct (Rle_dec x y) as [|N]; [assumption|]; pose proof (atan_increasing y x ltac:(lra)); lra).
  assert (P : forall x, 0 <= x -> 0 <= atan x) by (intros x [X| <-]; [pose proof (atan_increasing 0 x X); rewrite atan_0 in *; lra|rewrite atan_0; lra]).
  intros H. destruct (Rle_dec 0 a) as [A|A]; destruct (Rle_dec 0 b) as [B|B].
  - rewrite !(Rabs_right a), !(Rabs_right b) by lra. rewrite !Rabs_right in H by (apply Rle_ge; auto). auto.
  - rewrite (Rabs_right a), (Rabs_left b) by lra. rewrite (Rabs_right (atan a)) in H by (apply Rle_ge; auto). pose proof (P (- b) ltac:(lra)) as Q. rewrite <- (Rabs_Ropp (atan b)), <- atan_opp, Rabs_right in H by lra. auto.
  - rewrite (Rabs_left a), (Rabs_right b) by lra. rewrite (Rabs_right (atan b)) in H by (apply Rle_ge; auto). pose proof (P (- a) ltac:(lra)) as Q. rewrite <- (Rabs_Ropp (atan a)), <- atan_opp, Rabs_right in H by lra. auto.
  - rewrite (Rabs_left a), (Rabs_left b) by lra. pose proof (P (- a) ltac:(lra)) as Q. pose proof (P (- b) ltac:(lra)) as Q'. rewrite <- (Rabs_Ropp (atan a)), <- (Rabs_Ropp (atan b)), <- !atan_opp, !Rabs_right in H by lra. auto.
Qed.
Lemma square_le c d : Rabs c <= Rabs d -> c * c <= d * d.
Proof.
  intros H. replace (c * c) with (Rabs c * Rabs c) by (rewrite <- Rabs_mult; apply Rabs_right; apply Rle_ge; apply Rle_0_sqr).
  replace (d * d) with (Rabs d * Rabs d) by (rewrite <- Rabs_mult; apply Rabs_right; apply Rle_ge; apply Rle_0_sqr). apply Rmult_le_compat; try apply Rabs_pos; assumption.
Qed.
(** What the rounding of the angle does to a derivative. *)
Lemma derivative_rounding x y d g r n : make_node x y d g r = Some n -> Rabs (node_derivative n - d) <= (1 + d * d) * (PI / 32768).
Proof.
  intros M. destruct (C31_derivative_error _ _ _ _ _ _ M) as [E1 E2]. apply atan_abs in E2. set (D := node_derivative n) in *. pose proof PI_RGT_0 as PP.
  assert (K : forall a b, a < b -> Rabs a <= Rabs d -> Rabs b <= Rabs d -> Rabs (atan a - atan b) < PI / 32768 -> b - a <= (1 + d * d) * (PI / 32768)).
  { intros a b L A B E. destruct (atan_mvt a b L) as (c & EQ & R). assert (Rabs c <= Rabs d) as C by (revert A B; rabs; lra). apply square_le in C. pose proof (Rle_0_sqr c) as SQ. unfold Rsqr in SQ.
    assert (b - a = (atan b - atan a) * (1 + c * c)) as -> by (rewrite EQ; field; lra).
    assert (atan b - atan a <= PI / 32768) by (revert E; rabs; lra). pose proof (atan_increasing a b L).
    rewrite Rmult_comm. apply Rmult_le_compat; lra. }
  destruct (Rtotal_order D d) as [L|[->|L]].
  - rewrite Rabs_left by lra. replace (- (D - d)) with (d - D) by ring. apply K; auto; [lra|]. rewrite Rabs_minus_sym. exact E1.
  - rewrite Rminus_eq_0, Rabs_R0. apply Rmult_le_pos; [|lra]. pose proof (Rle_0_sqr d) as SQ. unfold Rsqr in SQ. lra.
  - rewrite Rabs_right by lra. apply K; auto. lra.
Qed.

(** A Hermite cubic with equal slopes at both ends, around the chord. *)
Lemma hermite y0 y1 d w u : 0 < w -> keval (cubic_init y0 d y1 d w) (u * w) = y0 + (y1 - y0) * u + (w * d - (y1 - y0)) * (u * (1 - u) * (1 - 2 * u)).
Proof. intros W. unfold keval, cubic_init. cbn [k3 k2 k1 k0]. rewrite Rltb_t by exact W. field. lra. Qed.
Lemma bump u : 0 <= u <= 1 -> Rabs (u * (1 - u) * (1 - 2 * u)) <= 1 / 10.
Proof.
  assert (K : forall z, -1 <= z <= 1 -> z * (1 - z * z) / 4 <= 1 / 10).
  { intros z Z. destruct (Rle_dec 0 z) as [P|P].
    - assert (0 <= (z - 58 / 100) * (z - 58 / 100) * (z + 116 / 100)) by (apply Rmult_le_pos; [apply Rle_0_sqr|lra]). lra.
    - assert (z * z <= 1) by nra. assert (0 <= - z * (1 - z * z)) by (apply Rmult_le_pos; lra). lra. }
  intros U. apply Rabs_le. pose proof (K (1 - 2 * u) ltac:(lra)) as K1. pose proof (K (2 * u - 1) ltac:(lra)) as K2. lra.
Qed.

Lemma chord_error a b c u w e m : 0 <= u <= 1 -> 0 < w -> Rabs a <= m -> Rabs b <= m -> Rabs c <= e ->
  Rabs ((1 - u) * a + u * b + (w * c + (a - b)) * (u * (1 - u) * (1 - 2 * u))) <= 6 / 5 * m + w * e / 10.
Proof.
  intros U W A B C. pose proof (bump u U) as K. set (k := u * (1 - u) * (1 - 2 * u)) in *.
  assert (Rabs ((1 - u) * a + u * b) <= m).
  { apply Rabs_le. assert (- m <= a <= m /\ - m <= b <= m) as [A1 B1] by (revert A B; rabs; lra). split.
    - assert ((1 - u) * (- m) <= (1 - u) * a) by (apply Rmult_le_compat_l; lra). assert (u * (- m) <= u * b) by (apply Rmult_le_compat_l; lra). lra.
    - assert ((1 - u) * a <= (1 - u) * m) by (apply Rmult_le_compat_l; lra). assert (u * b <= u * m) by (apply Rmult_le_compat_l; lra). lra. }
  assert (Rabs (w * c + (a - b)) <= w * e + 2 * m).
  { assert (Rabs (w * c) <= w * e) by (rewrite Rabs_mult, (Rabs_right w) by lra; apply Rmult_le_compat_l; lra). revert H0 A B. rabs; lra. }
  assert (Rabs ((w * c + (a - b)) * k) <= (w * e + 2 * m) * (1 / 10)) by (rewrite Rabs_mult; apply Rmult_le_compat; try apply Rabs_pos; assumption).
  eapply Rle_trans; [apply Rabs_triang|]. lra.
Qed.

Lemma slope_eq data ch c f t t' v v' : key_time data f = Some t -> key_time data (f + 1) = Some t' -> key_value data ch f c = Some v -> key_value data ch (f + 1) c = Some v' ->
  t < t' -> key_slope data ch c f = (v' - v) / (t' - t).
Proof. intros T T' V V' L. unfold key_slope. rewrite T, T', V, V', Rltb_t by lra. reflexivity. Qed.

(** The nodes between two linear keyframes lie on the line through them. *)
Theorem C67_linear_nodes : forall data ch chans c ns f t t' v v', kd_type data = Linear -> array_nodes data ch = Some chans -> getz chans c = Some ns ->
  (0 <= f)%Z -> key_time data f = Some t -> key_time data (f + 1) = Some t' -> key_value data ch f c = Some v -> key_value data ch (f + 1) c = Some v' -> t < t' ->
  exists a b, getz ns (2 * f + 1) = Some a /\ getz ns (2 * (f + 1)) = Some b /\ ux a = t /\ ux b = t' /\
    forall x, keval (cubic_init (uy a) (uderivative a) (uy b) (uderivative b) (ux b - ux a)) (x - ux a) = v + (x - t) * (v' - v) / (t' - t).
Proof.
  intros data ch chans c ns f t t' v v' TY A GC F T T' V V' L. destruct (array_linear data ch chans c ns TY A GC) as [LN FF].
  assert (f + 1 < kd_count data)%Z by (unfold key_time in T'; destruct (Z.ltb_spec (f + 1) (kd_count data)); [assumption|discriminate]).
  destruct (FF f ltac:(lia)) as (t1 & v1 & T1 & V1 & _ & E1). destruct (FF (f + 1)%Z ltac:(lia)) as (t2 & v2 & T2 & V2 & E2 & _). replace (f + 1 - 1)%Z with f in E2 by lia.
  rewrite (slope_eq data ch c f t t' v v') in E1, E2 by assumption. assert (t1 = t) as -> by congruence. assert (v1 = v) as -> by congruence. assert (t2 = t') as -> by congruence. assert (v2 = v') as -> by congruence.
  eexists _, _. split; [exact E1|]. split; [exact E2|]. cbn [ux uy uderivative]. split; [reflexivity|]. split; [reflexivity|].
  intros x. replace (x - t) with ((x - t) / (t' - t) * (t' - t)) at 1 by (field; lra). rewrite hermite by lra. field. lra.
Qed.
Print Assumptions C67_linear_nodes.

(** Linear keyframes, missing: exactness.  The compressed spline is within the precision of
    16 bits of the line, plus a deviation that grows with the distance of the keyframes. *)
Theorem C67_linear_partial : forall data ch out used c off s f t t' v v' lo hi x, kd_type data = Linear -> chronological data ->
  add_array_curves data ch = Some (out, used) -> getz out c = Some (off, s) ->
  key_time data f = Some t -> key_time data (f + 1) = Some t' -> key_value data ch f c = Some v -> key_value data ch (f + 1) c = Some v' ->
  (forall f' w, key_value data ch f' c = Some w -> lo <= w <= hi) ->
  t + x_granularity s < x < t' - x_granularity s ->
  let slope := (v' - v) / (t' - t) in
  exists y, calculated_slowly s x CurveValue = Some y /\
    Rabs (y - (v + slope * (x - t))) <= 2 * ((hi - lo) / 65535 + Rabs slope * x_granularity s) + (t' - t + x_granularity s) * (1 + slope * slope) * (PI / 327680).
Proof.
  intros data ch out used c off s f t t' v v' lo hi x TY CR H G T T' V V' B X sl.
  destruct (segment _ _ _ _ _ _ _ _ _ _ _ CR H G T T' X) as (chans & ns & a & b & na & nb & A & GC & C & F & GA & GB & OK & COV & MA & MB & T0 & NN & XR & EV).
  pose proof (ok_granularity s OK) as GP. set (g := x_granularity s) in *.
  destruct (array_linear data ch chans c ns TY A GC) as [LN FF].
  destruct (FF f ltac:(lia)) as (t1 & v1 & T1 & V1 & _ & E1). destruct (FF (f + 1)%Z ltac:(lia)) as (t2 & v2 & T2 & V2 & E2 & _). replace (f + 1 - 1)%Z with f in E2 by lia.
  rewrite (slope_eq data ch c f t t' v v') in E1, E2 by (assumption || lra). fold sl in E1, E2.
  rewrite E1 in GA. injection GA as <-. rewrite E2 in GB. injection GB as <-. cbn [uy uderivative] in MA, MB. assert (v1 = v) as -> by congruence. assert (v2 = v') as -> by congruence.
  pose proof (make_node_inv _ _ _ _ _ _ GP MA) as (_ & _ & AA & _). pose proof (make_node_inv _ _ _ _ _ _ GP MB) as (_ & _ & AB & _).
  pose proof (C31_x_error t _ _ _ _ _ GP ltac:(lra) MA) as XA. pose proof (C31_x_error t' _ _ _ _ _ GP ltac:(lra) MB) as XB.
  pose proof (C31_y_error _ _ _ _ _ _ MA) as YA. pose proof (C31_y_error _ _ _ _ _ _ MB) as YB. pose proof (derivative_rounding _ _ _ _ _ _ MA) as DA.
  destruct (channel_range data ch chans c ns (y_range s) ltac:(congruence) A GC COV) as [RG _]. destruct (RG lo hi B) as [RG1 RG2].
  assert (node_derivative nb = node_derivative na) as DE by (unfold node_derivative; congruence). pose proof (node_gap s na nb OK NN) as W. fold g in W.
  set (x0 := node_x na g) in *. set (x1 := node_x nb g) in *. set (y0 := node_y na (y_range s)) in *. set (y1 := node_y nb (y_range s)) in *. set (D := node_derivative na) in *.
  set (w := x1 - x0) in *. set (u := (x - x0) / w). assert (UW : x - x0 = u * w) by (unfold u; field; lra).
  assert (U : 0 <= u <= 1).
  { assert (x - x0 <= w) by (unfold w; lra). unfold u. split; [apply Rmult_le_pos; [lra|left; now apply Rinv_0_lt_compat]|]. apply Rmult_le_reg_r with w; [exact W|]. unfold Rdiv. rewrite Rmult_assoc, Rinv_l by lra. lra. }
  exists (y0 + (y1 - y0) * u + (w * D - (y1 - y0)) * (u * (1 - u) * (1 - 2 * u))). split; [rewrite EV, DE; cbn [curve_value]; f_equal; rewrite UW; apply hermite; exact W|].
  assert (SV : v' - v = sl * (t' - t)) by (unfold sl; field; lra).
  set (A0 := y0 - (v + sl * (x0 - t))). set (B0 := y1 - (v + sl * (x1 - t))).
  assert (NB : forall z0 z, Rabs (z0 - z) <= g / 2 -> Rabs (sl * (z0 - z)) <= Rabs sl * (g / 2)) by (intros z0 z Z; rewrite Rabs_mult; apply Rmult_le_compat_l; [apply Rabs_pos|exact Z]).
  pose proof (NB _ _ XA) as NA1. pose proof (NB _ _ XB) as NB1. set (m := (hi - lo) / 65535 + Rabs sl * (g / 2)).
  assert (EA : Rabs A0 <= m) by (unfold A0, m; revert NA1; rabs; lra).
  assert (EB : Rabs B0 <= m) by (unfold B0, m; replace (v + sl * (x1 - t)) with (v' + sl * (x1 - t')) by lra; revert NB1; rabs; lra).
  pose proof (chord_error A0 B0 (D - sl) u w _ m U W EA EB DA) as ERR.
  replace ((1 - u) * A0 + u * B0 + (w * (D - sl) + (A0 - B0)) * (u * (1 - u) * (1 - 2 * u)))
    with (y0 + (y1 - y0) * u + (w * D - (y1 - y0)) * (u * (1 - u) * (1 - 2 * u)) - (v + sl * (x - t))) in ERR.
  2: { unfold A0, B0. replace x1 with (x0 + w) by (unfold w; ring). replace x with (x0 + u * w) by lra. ring. }
  eapply Rle_trans; [exact ERR|]. pose proof PI_RGT_0 as PP. pose proof (Rle_0_sqr sl) as SQ. unfold Rsqr in SQ.
  assert (WB : w <= t' - t + g) by (unfold w; revert XA XB; rabs; lra).
  assert (w * ((1 + sl * sl) * (PI / 32768)) / 10 <= (t' - t + g) * (1 + sl * sl) * (PI / 327680)).
  { replace (w * ((1 + sl * sl) * (PI / 32768)) / 10) with (w * ((1 + sl * sl) * (PI / 327680))) by field. rewrite Rmult_assoc. apply Rmult_le_compat_r; [|exact WB]. apply Rmult_le_pos; lra. }
  assert (6 / 5 * m <= 2 * ((hi - lo) / 65535 + Rabs sl * g)).
  { unfold m. pose proof (Rabs_pos sl). assert (0 <= Rabs sl * g) by (apply Rmult_le_pos; lra). assert (0 <= hi - lo) by (pose proof (B _ _ V1); lra). lra. }
  lra.
Qed.
Print Assumptions C67_linear_partial.

(** Exactly, it is not the line: a ramp from 0 to 0.9 in ten seconds is slower than the
    smallest angle, becomes an S-curve, and has 0.140625 a quarter of the way, not 0.225. *)
Definition ramp : keyframe_data := KData [0; 10] [0; 9 / 10] 2 Linear 1000.
Lemma ramp_time f t : key_time ramp f = Some t -> (f = 0%Z /\ t = 0) \/ (f = 1%Z /\ t = 10000).
Proof.
  intros H. assert (R : (0 <= f < 2)%Z) by (unfold key_time in H; destruct (getz (kd_times ramp) f) eqn:E; [apply getz_Some in E; exact E|destruct (_ <? _)%Z; discriminate]).
  assert (f = 0 \/ f = 1)%Z as [-> | ->] by lia; [left|right]; (split; [reflexivity|]).
  - change (Some (0 * 1000) = Some t) in H. injection H as <-. ring.
  - change (Some (10 * 1000) = Some t) in H. injection H as <-. ring.
Qed.
Lemma ramp_chronological : chronological ramp.
Proof.
  split.
  - intros f t t' A B. apply ramp_time in A, B. destruct A as [[-> ->]|[-> ->]], B as [[E ->]|[E ->]]; lia || lra.
  - intros f t A. apply ramp_time in A. lra.
Qed.
Lemma ramp_converts : exists out used, add_array_curves ramp 1 = Some (out, used).
Proof. apply C68_succeeds; try (cbn; lia); [apply ramp_chronological|discriminate]. Qed.
Lemma ramp_values f v : key_value ramp 1 f 0 = Some v -> 0 <= v <= 9 / 10.
Proof.
  intros H. assert (R : (0 <= f < 2)%Z) by (unfold key_value in H; destruct (getz (kd_values ramp) (f * 1 + 0)) eqn:E; [apply getz_Some in E; change (len (kd_values ramp)) with 2%Z in E; lia|destruct (_ <? _)%Z; discriminate]).
  assert (f = 0 \/ f = 1)%Z as [-> | ->] by lia.
  - change (Some 0 = Some v) in H. injection H as <-. lra.
  - change (Some (9 / 10) = Some v) in H. injection H as <-. lra.
Qed.
Lemma small_angle d : 0 < d < 3 / 32768 -> compact_derivative d = 0%Z.
Proof.
  intros D. unfold compact_derivative, kAngleScale. destruct (atan_mvt 0 d ltac:(lra)) as (c & E & C). rewrite atan_0, !Rminus_0_r in E.
  assert (P3 : 3 <= PI) by (pose proof (PI2_3_2); unfold PI2 in *; lra).
  assert (0 < c * c) by (apply Rmult_lt_0_compat; lra). assert (AB : 0 < atan d < d).
  { rewrite E. split; [apply Rmult_lt_0_compat; [lra|apply Rinv_0_lt_compat; lra]|]. apply Rmult_lt_reg_r with (1 + c * c); [lra|]. unfold Rdiv. rewrite Rmult_assoc, Rinv_l by lra.
    assert (0 < d * (c * c)) by (apply Rmult_lt_0_compat; lra). lra. }
  apply Rtrunc_IZR; [lia|]. assert (0 < / (PI / 32768)) by (apply Rinv_0_lt_compat; lra). split; [apply Rmult_le_pos; lra|].
  apply Rmult_lt_reg_r with (PI / 32768); [lra|]. unfold Rdiv at 1. rewrite Rmult_assoc, Rinv_l by lra. lra.
Qed.
Theorem C67_linear_refuted : exists out used off s, add_array_curves ramp 1 = Some (out, used) /\ getz out 0 = Some (off, s) /\
  key_time ramp 0 = Some (0 * 1000) /\ key_time ramp 1 = Some (10 * 1000) /\ key_value ramp 1 0 0 = Some 0 /\ key_value ramp 1 1 0 = Some (9 / 10) /\
  calculated_slowly s 2500 CurveValue = Some (9 / 64) /\ 9 / 64 < 0 + (2500 - 0) * (9 / 10 - 0) / (10000 - 0) - 8 / 100.
Proof.
  destruct ramp_converts as (out & used & H). destruct (C68_exact ramp 1 out used ltac:(lia) H) as (_ & LO & _). destruct (getz_in_range out 0) as [[off s] G]; [lia|].
  exists out, used, off, s. split; [exact H|]. split; [exact G|]. do 4 (split; [reflexivity|]). split; [|lra].
  assert (T0 : key_time ramp 0 = Some 0) by (change (key_time ramp 0) with (Some (0 * 1000)); f_equal; ring).
  assert (T1 : key_time ramp 1 = Some 10000) by (change (key_time ramp 1) with (Some (10 * 1000)); f_equal; ring).
  pose proof (C67_grain ramp 1 out used 0 off s 10000 ramp_chronological H G T1) as GR. rewrite Rleb_f in GR by lra.
  destruct (segment ramp 1 out used 0 off s 0 0 10000 2500 ramp_chronological H G T0 T1 ltac:(rewrite GR; lra)) as (chans & ns & a & b & na & nb & A & GC & C & F & GA & GB & OK & COV & MA & MB & _ & NN & XR & EV).
  destruct (array_linear ramp 1 chans 0 ns eq_refl A GC) as [LN FF]. destruct (FF 0%Z ltac:(cbn; lia)) as (t1 & v1 & _ & V1 & _ & E1). destruct (FF 1%Z ltac:(cbn; lia)) as (t2 & v2 & _ & V2 & E2 & _).
  change (1 - 1)%Z with 0%Z in E2. rewrite (slope_eq ramp 1 0 0 0 10000 0 (9 / 10) T0 T1 eq_refl eq_refl ltac:(lra)) in E1, E2.
  rewrite E1 in GA. injection GA as <-. change (2 * (0 + 1))%Z with (2 * 1)%Z in GB. rewrite E2 in GB. injection GB as <-.
  assert (v1 = 0) as -> by (change (key_value ramp 1 0 0) with (Some 0) in V1; congruence). assert (v2 = 9 / 10) as -> by (change (key_value ramp 1 1 0) with (Some (9 / 10)) in V2; congruence).
  cbn [uy uderivative] in MA, MB. destruct (channel_range ramp 1 chans 0 ns (y_range s) ltac:(discriminate) A GC COV) as [RG RI].
  destruct (RG 0 (9 / 10) ramp_values) as [R1 R2]. pose proof (RI 0%Z 0 ltac:(lia) eq_refl) as R3. pose proof (RI 1%Z (9 / 10) ltac:(lia) eq_refl) as R4.
  pose proof (ok_granularity s OK) as GP. destruct (C31_exact _ _ _ _ _ _ GP MA) as [YA XA]. destruct (C31_exact _ _ _ _ _ _ GP MB) as [YB XB].
  specialize (YA ltac:(left; lra)). specialize (YB ltac:(right; lra)). specialize (XA 0%Z ltac:(lia) ltac:(lra)). specialize (XB 65535%Z ltac:(lia) ltac:(rewrite GR; lra)).
  pose proof (make_node_inv _ _ _ _ _ _ GP MA) as (_ & _ & AA & _). pose proof (make_node_inv _ _ _ _ _ _ GP MB) as (_ & _ & AB & _). rewrite small_angle in AA, AB by lra.
  rewrite EV, YA, YB, XA, XB, (zero_angle na AA), (zero_angle nb AB). cbn [curve_value]. f_equal. unfold keval, cubic_init. cbn [k3 k2 k1 k0]. rewrite Rltb_t by lra. field.
Qed.
Print Assumptions C67_linear_refuted.
(** The linear bound applies to the ramp, and to a step at 2500 ms. *)
Example C67_linear_case : exists out used off s y, add_array_curves ramp 1 = Some (out, used) /\ getz out 0 = Some (off, s) /\ calculated_slowly s 2500 CurveValue = Some y /\
  Rabs (y - 225 / 1000) <= 1 / 8.
Proof.
  destruct ramp_converts as (out & used & H). destruct (C68_exact ramp 1 out used ltac:(lia) H) as (_ & LO & _). destruct (getz_in_range out 0) as [[off s] G]; [lia|].
  assert (T0 : key_time ramp 0 = Some 0) by (change (key_time ramp 0) with (Some (0 * 1000)); f_equal; ring).
  assert (T1 : key_time ramp (0 + 1) = Some 10000) by (change (key_time ramp (0 + 1)) with (Some (10 * 1000)); f_equal; ring).
  pose proof (C67_grain ramp 1 out used 0 off s 10000 ramp_chronological H G T1) as GR. rewrite Rleb_f in GR by lra.
  destruct (C67_linear_partial ramp 1 out used 0 off s 0 0 10000 0 (9 / 10) 0 (9 / 10) 2500 eq_refl ramp_chronological H G T0 T1 eq_refl eq_refl ramp_values ltac:(rewrite GR; lra)) as (y & E & B).
  exists out, used, off, s, y. split; [exact H|]. split; [exact G|]. split; [exact E|].
  replace ((9 / 10 - 0) / (10000 - 0)) with (9 / 100000) in B by field. rewrite GR, (Rabs_right (9 / 100000)) in B by lra. replace (0 + 9 / 100000 * (2500 - 0)) with (225 / 1000) in B by field.
  pose proof PI_4. pose proof PI_RGT_0. eapply Rle_trans; [exact B|]. assert ((10000 - 0 + 10000 / 65535) * (1 + 9 / 100000 * (9 / 100000)) * (PI / 327680) <= 10001 * (PI / 327680)) by (apply Rmult_le_compat_r; lra). lra.
Qed.
Definition steps : keyframe_data := KData [0; 5; 10] [3; 1; 2] 3 Step 1000.
Lemma steps_time f t : key_time steps f = Some t -> (0 <= f < 3)%Z /\ t = IZR f * 5000.
Proof.
  intros H. assert (R : (0 <= f < 3)%Z) by (unfold key_time in H; destruct (getz (kd_times steps) f) eqn:E; [apply getz_Some in E; exact E|destruct (_ <? _)%Z; discriminate]). split; [exact R|].
  assert (f = 0 \/ f = 1 \/ f = 2)%Z as [-> |[-> | ->]] by lia.
  - change (Some (0 * 1000) = Some t) in H. injection H as <-. ring.
  - change (Some (5 * 1000) = Some t) in H. injection H as <-. ring.
  - change (Some (10 * 1000) = Some t) in H. injection H as <-. ring.
Qed.
Example C67_step_case : exists out used off s y, add_array_curves steps 1 = Some (out, used) /\ getz out 0 = Some (off, s) /\ calculated_slowly s 4999 CurveValue = Some y /\ 29999 / 10000 <= y <= 3.
Proof.
  assert (CR : chronological steps).
  { split; [intros f t t' A B; apply steps_time in A, B; destruct A as [_ ->], B as [_ ->]; rewrite plus_IZR; lra|intros f t A; apply steps_time in A; destruct A as [R ->]; apply Rmult_le_pos; [apply IZR_le; lia|lra]]. }
  destruct (C68_succeeds steps 1) as (out & used & H); try (cbn; lia); [exact CR|discriminate|]. destruct (C68_exact steps 1 out used ltac:(lia) H) as (_ & LO & _). destruct (getz_in_range out 0) as [[off s] G]; [lia|].
  pose proof (C67_grain steps 1 out used 0 off s _ CR H G eq_refl) as GR. rewrite Rleb_f in GR by (cbn; lra). cbn in GR.
  destruct (C67_step steps 1 out used 0 off s 0 _ _ 3 1 3 4999 eq_refl CR H G eq_refl eq_refl eq_refl) as [(y & E & B) _].
  - intros f v V. assert (R : (0 <= f < 3)%Z) by (unfold key_value in V; destruct (getz (kd_values steps) (f * 1 + 0)) eqn:E; [apply getz_Some in E; change (len (kd_values steps)) with 3%Z in E; lia|destruct (_ <? _)%Z; discriminate]).
    assert (f = 0 \/ f = 1 \/ f = 2)%Z as [-> |[-> | ->]] by lia; cbn in V; injection V as <-; lra.
  - cbn. rewrite GR. lra.
  - exists out, used, off, s, y. split; [exact H|]. split; [exact G|]. split; [exact E|]. lra.
Qed.
