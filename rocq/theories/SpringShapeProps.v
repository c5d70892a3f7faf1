(** C28, C32: the shape of a portion of the spring, its bias, and ClampIndex. *)
From Verif Require Import RBase BaseFacts RangeModel CurveModel CurveUtilModel.
From Verif Require CompactSplineModel CompactSplineSpec CompactSplineIndex CompactSplineEvalProps CompactSplineProps.

(** Within a portion the slope and the second derivative say exactly where the value goes. *)
Theorem C28_second_derivative : forall s c x y v d a w e, s_eval_with s x c = Some v -> s_deriv_with s x c = Some d -> s_deriv2_with s x c = Some a ->
  s_eval_with s y c = Some w -> s_deriv_with s y c = Some e ->
  w = v + d * (y - x) + a * (y - x) * (y - x) / 2 /\ e = d + a * (y - x).
Proof.
  intros s c x y v d a w e. unfold s_eval_with, s_deriv_with, s_deriv2_with, quadratic_x, to_internal_x. destruct (valid_x s x c), (valid_x s y c); try discriminate. intros V D A W E.
  injection V as <-. injection D as <-. injection A as <-. injection W as <-. injection E as <-. split; field.
Qed.
Print Assumptions C28_second_derivative.

(** The bias used is the one given if that is 1 or differs from 1 by at least 1/20, else the
    nearest on its side of 1 that does. *)
Theorem C28_bias : forall v d t dv dx bias s, spring_init v d t dv dx bias = Some s ->
  (bias = 1 \/ Rabs (bias - 1) >= 1 / 20 -> bias_ s = bias) /\ (1 - 1 / 20 < bias < 1 -> bias_ s = 1 - 1 / 20) /\ (1 < bias < 1 + 1 / 20 -> bias_ s = 1 + 1 / 20).
Proof.
  intros v d t dv dx bias s H. unfold spring_init in H. assert (bias_ s = spring_bias bias) as ->.
  { cbv zeta in H. repeat match type of H with (if ?b then _ else _) = _ => destruct b; [|discriminate] end. injection H as <-. reflexivity. }
  unfold spring_bias. split; [|split].
  - intros [->|B]; [rewrite Reqb_t by reflexivity; reflexivity|]. revert B. unfold Rabs. destruct (Rcase_abs _); intros B; rewrite Reqb_f by lra; [rewrite Rltb_t by lra|rewrite Rltb_f by lra]; minmax; lra.
  - intros B. rewrite Reqb_f, Rltb_t by lra. minmax; lra.
  - intros B. rewrite Reqb_f, Rltb_f by lra. minmax; lra.
Qed.
Print Assumptions C28_bias.
Example C28_bias_case : exists s, spring_init 0 2 3 1 1 (99 / 100) = Some s /\ bias_ s = 95 / 100.
Proof.
  assert (exists s, spring_init 0 2 3 1 1 (99 / 100) = Some s) as [s E].
  { unfold spring_init. replace (spring_bias (99 / 100)) with (95 / 100) by (unfold spring_bias; rewrite Reqb_f, Rltb_t by lra; minmax; lra). rewrite (Reqb_f 1 0), (Rltb_t 0) by lra. rewrite (Rltb_f (3 - 0) 0), (Rleb_t 0 ((3 - 0) * 2)) by lra. cbn [negb]. rewrite Reqb_f by lra. cbn [negb]. rewrite Rltb_t by lra. eauto. }
  exists s. split; [exact E|]. destruct (C28_bias _ _ _ _ _ _ _ E) as (_ & B & _). rewrite B by lra. lra.
Qed.

(** ClampIndex turns the index of a lookup into that of a node: the first one before the
    spline, the last one after it, with the x of that node. *)
Section Clamp.
Import CompactSplineModel CompactSplineSpec CompactSplineIndex.
Theorem C32_clamp_index : forall s i, spline_ok s -> (i = kBeforeSplineIndex \/ i = kAfterSplineIndex \/ 0 <= i < num_nodes s - 1)%Z ->
  exists j ox n, clamp_index s i = Some (j, ox) /\ getz (nodes s) j = Some n /\
    (i = kBeforeSplineIndex -> j = 0%Z /\ ox = Some (node_x n (x_granularity s))) /\
    (i = kAfterSplineIndex -> j = (num_nodes s - 1)%Z /\ ox = Some (node_x n (x_granularity s))) /\
    (0 <= i < num_nodes s - 1 -> j = i /\ ox = None)%Z.
Proof.
  intros s i O D. destruct (ok_front s O) as [f F]. destruct (ok_back s O) as [b B]. pose proof (ok_count s O) as C. unfold clamp_index, start_x, end_x. rewrite F, B.
  unfold kBeforeSplineIndex, kAfterSplineIndex in *. destruct (Z.eqb_spec i 65534); [|destruct (Z.eqb_spec i 65533)].
  - exists 0%Z, (Some (node_x f (x_granularity s))), f. repeat split; try (exact F); intros; subst; try lia.
  - exists (num_nodes s - 1)%Z, (Some (node_x b (x_granularity s))), b. repeat split; try (exact B); intros; subst; try lia.
  - destruct (getz_in_range (nodes s) i) as [k N]; [unfold num_nodes in *; lia|]. exists i, None, k. rewrite (proj2 (Z.ltb_lt i (num_nodes s))) by lia.
    repeat split; try (exact N); intros; subst; try lia.
Qed.
Print Assumptions C32_clamp_index.

(** What is told about the segment of an index agrees: its range, its nodes and its curve. *)
Theorem C32_segment_queries : forall s i, spline_ok s -> num_nodes s <> 65534%Z ->
  exists sx sy ex ey, start_x s = Some sx /\ start_y s = Some sy /\ end_x s = Some ex /\ end_y s = Some ey /\
  (i = kBeforeSplineIndex -> range_x s i = Some (0, Some sx) /\ node_x_at s i = Some 0 /\ node_y_at s i = Some sy /\
     exists c, create_cubic_init s i = Some c /\ forall x, keval (cubic_of c) x = sy) /\
  (i = kAfterSplineIndex -> range_x s i = Some (ex, None) /\ node_x_at s i = Some ex /\ node_y_at s i = Some ey /\
     exists c, create_cubic_init s i = Some c /\ forall x, keval (cubic_of c) x = ey) /\
  ((0 <= i < num_nodes s - 1)%Z -> exists x0 x1 y0 y1 c, range_x s i = Some (x0, Some x1) /\
     node_x_at s i = Some x0 /\ node_x_at s (i + 1) = Some x1 /\ node_y_at s i = Some y0 /\ node_y_at s (i + 1) = Some y1 /\
     create_cubic_init s i = Some c /\ (x0 < x1 -> keval (cubic_of c) 0 = y0 /\ keval (cubic_of c) (x1 - x0) = y1)).
Proof.
  intros s i O NM. destruct (ok_front s O) as [f F]. destruct (ok_back s O) as [b B]. pose proof (ok_count s O) as C. unfold start_x, start_y, end_x, end_y. rewrite F, B.
  do 4 eexists. do 4 (split; [reflexivity|]). unfold range_x, node_x_at, node_y_at, create_cubic_init, start_x, start_y, end_x, end_y, outside_spline, kBeforeSplineIndex, kAfterSplineIndex in *. rewrite F, B.
  split; [|split].
  - intros ->. cbn. split; [reflexivity|]. split; [reflexivity|]. split; [reflexivity|]. eexists. split; [reflexivity|]. intros x. unfold cubic_of, cubic_init; cbn [ci_start_y ci_start_derivative ci_end_y ci_end_derivative ci_width_x]; rewrite Rltb_t by lra; unfold keval; cbn [k3 k2 k1 k0]; field.
  - intros ->. cbn. split; [reflexivity|]. split; [reflexivity|]. split; [reflexivity|]. eexists. split; [reflexivity|]. intros x. unfold cubic_of, cubic_init; cbn [ci_start_y ci_start_derivative ci_end_y ci_end_derivative ci_width_x]; rewrite Rltb_t by lra; unfold keval; cbn [k3 k2 k1 k0]; field.
  - intros I. destruct (getz_in_range (nodes s) i) as [n N]; [unfold num_nodes in *; lia|]. destruct (getz_in_range (nodes s) (i + 1)) as [m M]; [unfold num_nodes in *; lia|]. rewrite N, M.
    rewrite !(proj2 (Z.eqb_neq i _)), !(proj2 (Z.eqb_neq (i + 1) _)) by lia. rewrite (proj2 (Z.leb_gt _ _)) by lia. do 5 eexists. do 6 (split; [reflexivity|]).
    intros L. unfold node_x in *. pose proof (ok_granularity s O) as G.
    assert (W : 0 < IZR (nx m - nx n) * x_granularity s) by (rewrite minus_IZR; nra).
    unfold cubic_of, create_cubic_between, cubic_init, width_x; cbn [ci_start_y ci_start_derivative ci_end_y ci_end_derivative ci_width_x]. rewrite !Rltb_t by exact W.
    replace (IZR (nx m) * x_granularity s - IZR (nx n) * x_granularity s) with (IZR (nx m - nx n) * x_granularity s) by (rewrite minus_IZR; ring).
    set (w := IZR (nx m - nx n) * x_granularity s) in *. unfold keval; cbn [k3 k2 k1 k0]. split; field; apply Rgt_not_eq; exact W.
Qed.
Print Assumptions C32_segment_queries.
End Clamp.
