(** C134: the splines of the benchmark program. *)
From Coq Require Import Sorting.Sorted.
From Verif Require Import RBase BaseFacts RangeModel RangeProofs CurveModel CurveProofs CurveProps CompactSplineModel CompactSplineSpec CompactSplineProofs CompactSplineAdd CompactSplineProps BenchSplineModel.

(** *** Specification *)
(** Node [m] of spline [s] holds a point: its x within half a grain, its y within a rung
    below, its slope's angle within a step. *)
Definition holds_point (s : spline) (m : node) (x y slope : R) : Prop :=
  Rabs (node_x m (x_granularity s) - x) <= x_granularity s / 2 /\
  0 <= y - node_y m (y_range s) <= (end_ (y_range s) - start_ (y_range s)) / 65535 /\
  Rabs (atan slope - atan (node_derivative m)) < PI / 32768.

(** *** Proofs *)
Definition scaled_call (xs ys : R) (n : unode) : call := Call (ux n * xs) (uy n * ys) (uderivative n / xs) EnsureCubicWellBehaved.
Lemma scaled_calls xs ys : forall l s, add_scaled xs ys l s = add_nodes s (map (scaled_call xs ys) l).
Proof. induction l as [|n l IH]; intros s; [reflexivity|]. cbn. destruct (add_node s _ _ _ _); auto. Qed.
Lemma extremes_some : forall l mn mx, exists mn' mx', y_extremes l (Some (mn, mx)) = Some (mn', mx') /\ mn' <= mn /\ mx <= mx' /\ (forall n, In n l -> mn' <= uy n <= mx') /\
  (mn' = mn \/ exists n, In n l /\ uy n = mn') /\ (mx' = mx \/ exists n, In n l /\ uy n = mx').
Proof.
  induction l as [|n l IH]; intros mn mx; cbn.
  - exists mn, mx. split; [reflexivity|]. split; [lra|]. split; [lra|]. split; [tauto|]. auto.
  - destruct (IH (Rmin (uy n) mn) (Rmax (uy n) mx)) as (a & b & E & A & B & C & D & F). exists a, b. split; [exact E|].
    pose proof (Rmin_l (uy n) mn); pose proof (Rmin_r (uy n) mn); pose proof (Rmax_l (uy n) mx); pose proof (Rmax_r (uy n) mx).
    split; [lra|]. split; [lra|]. split; [intros k [<-|K]; [lra|auto]|]. split.
    + destruct D as [D|(k & K & D)]; [|right; exists k; auto]. unfold Rmin in D. destruct (Rle_dec (uy n) mn); [right; exists n; auto|auto].
    + destruct F as [F|(k & K & F)]; [|right; exists k; auto]. unfold Rmax in F. destruct (Rle_dec (uy n) mx); [auto|right; exists n; auto].
Qed.
Lemma extremes : forall l m, y_extremes l None = Some m -> (forall n, In n l -> fst m <= uy n <= snd m) /\ (exists n, In n l /\ uy n = fst m) /\ (exists n, In n l /\ uy n = snd m).
Proof.
  intros [|n l] m; cbn; [discriminate|]. destruct (extremes_some l (uy n) (uy n)) as (a & b & E & A & B & C & D & F). rewrite E. intros X. injection X as <-. cbn.
  split; [intros k [<-|K]; [lra|auto]|]. split; [destruct D as [D|(k & K & D)]; [exists n; auto|exists k; auto]|destruct F as [F|(k & K & F)]; [exists n; auto|exists k; auto]].
Qed.
Lemma granularity_pos x : 0 < recommend_x_granularity x.
Proof. unfold recommend_x_granularity. rcase1; [lra|]. unfold kMaxX. lra. Qed.

(** C134: the range of the spline is the least for the scaled values. *)
Theorem C134_range : forall l xs ys s0 s, 0 <= ys -> (0 <= max_nodes s0)%Z -> create_spline l xs ys s0 = Some s ->
  (forall n, In n l -> start_ (y_range s) <= ys * uy n <= end_ (y_range s)) /\
  (exists n, In n l /\ start_ (y_range s) = ys * uy n) /\ (exists n, In n l /\ end_ (y_range s) = ys * uy n) /\ (num_nodes s <= max_nodes s0)%Z.
Proof.
  intros l xs ys s0 s Y M H. unfold create_spline in H. destruct (y_extremes l None) as [m|] eqn:E; [|discriminate]. destruct (getz l (len l - 1)) as [z|]; [|discriminate].
  rewrite scaled_calls in H. destruct (C30_nodes _ _ _ _ _ M (granularity_pos _) H) as (_ & _ & L & R & _). rewrite R. cbn. destruct (extremes _ _ E) as (A & (n1 & I1 & B1) & (n2 & I2 & B2)).
  split; [intros n I; specialize (A n I); split; apply Rmult_le_compat_l; lra|]. split; [exists n1; rewrite B1; auto|]. split; [exists n2; rewrite B2; auto|exact L].
Qed.
Print Assumptions C134_range.

(** C134: every given node that is more than a grain away from the others is in the spline, with
    its scaled x and y, and with its slope divided by the scale of x. *)
Theorem C134_nodes : forall l xs ys s0 s, 0 < xs -> (forall n, In n l -> 0 <= ux n) -> (0 <= max_nodes s0)%Z -> create_spline l xs ys s0 = Some s ->
  StronglySorted Z.le (map nx (nodes s)) /\
  forall A n B, l = A ++ n :: B -> (forall n', In n' (A ++ B) -> x_granularity s < Rabs (xs * ux n' - xs * ux n)) ->
  exists m, In m (nodes s) /\ holds_point s m (xs * ux n) (ys * uy n) (uderivative n / xs).
Proof.
  intros l xs ys s0 s X P M H. unfold create_spline in H. destruct (y_extremes l None) as [mm|] eqn:E; [|discriminate]. destruct (getz l (len l - 1)) as [z|]; [|discriminate].
  rewrite scaled_calls in H. set (g := recommend_x_granularity (xs * ux z)) in H. pose proof (granularity_pos (xs * ux z)) as G. fold g in G. set (r := Rg _ _) in H.
  destruct (C30_nodes _ _ _ _ _ M G H) as (SS & _ & _ & R & GG & _ & made & F & _ & AT & _). split; [exact SS|]. intros A n B -> FAR. unfold holds_point. rewrite R, GG in *.
  rewrite map_app in F. cbn [map] in F. apply Forall2_app_inv_l in F. destruct F as (MA & MM & FA & FM & ->). inversion FM as [|? m ? MB Mn FB]; subst.
  assert (NEAR : forall n' m', In n' (A ++ n :: B) -> makes g r (scaled_call xs ys n') m' -> Rabs (node_x m' g - xs * ux n') <= g / 2).
  { intros n' m' I' K. replace (xs * ux n') with (ux n' * xs) by ring. eapply C31_x_error; [exact G| |exact K]. pose proof (P n' I'). assert (0 <= ux n' * xs) by (apply Rmult_le_pos; lra). lra. }
  assert (OTHER : forall m', In m' (MA ++ m :: MB) -> nx m' = nx m -> m' = m).
  { intros m' I' EN. assert (K : m' = m \/ exists n', In n' (A ++ B) /\ makes g r (scaled_call xs ys n') m').
    { assert (Q : forall C (MC : list node), Forall2 (makes g r) (map (scaled_call xs ys) C) MC -> In m' MC -> exists n', In n' C /\ makes g r (scaled_call xs ys n') m').
      { induction C as [|c C IH]; intros MC FC IC; inversion FC; subst; [destruct IC|]. destruct IC as [<-|IC]; [exists c; cbn; auto|]. destruct (IH _ H4 IC) as (n' & I1 & I2). exists n'. cbn. auto. }
      apply in_app_iff in I'. destruct I' as [I'|[I'|I']]; [right|left; auto|right].
      - destruct (Q _ _ FA I') as (n' & I1 & I2). exists n'. rewrite in_app_iff. auto.
      - destruct (Q _ _ FB I') as (n' & I1 & I2). exists n'. rewrite in_app_iff. auto. }
    destruct K as [K|(n' & I1 & K)]; [exact K|exfalso]. specialize (FAR n' I1). assert (I2 : In n' (A ++ n :: B)) by (rewrite in_app_iff in *; cbn; tauto).
    pose proof (NEAR n' m' I2 K) as N1. assert (I3 : In n (A ++ n :: B)) by (rewrite in_app_iff; cbn; tauto). pose proof (NEAR n m I3 Mn) as N2. unfold node_x in N1, N2. rewrite EN in N1. revert FAR N1 N2. rabs; intros; lra. }
  assert (IM : In m (MA ++ m :: MB)) by (rewrite in_app_iff; cbn; tauto). destruct (AT m IM) as (AF & _).
  destruct (first_at_some (nx m) (MA ++ m :: MB) m IM eq_refl) as (m' & Fm). rewrite Fm in AF. unfold first_at in AF, Fm. apply find_some in AF, Fm. destruct AF as (J & _), Fm as (J' & EQ). apply Z.eqb_eq in EQ.
  rewrite (OTHER m' J' EQ) in J. exists m. split; [exact J|]. split; [apply NEAR; [rewrite in_app_iff; cbn; tauto|exact Mn]|]. unfold makes, scaled_call in Mn. cbn in Mn. split.
  - replace (ys * uy n) with (uy n * ys) by ring. eapply C31_y_error; exact Mn.
  - eapply C31_derivative_error; exact Mn.
Qed.
Print Assumptions C134_nodes.

(** C134: the spline ends exactly at the scaled x of the last node, in the last of 65536 grains. *)
Theorem C134_end : forall l n xs ys s0 s, 0 < xs * ux n -> (0 <= max_nodes s0)%Z -> create_spline (l ++ [n]) xs ys s0 = Some s ->
  65535 * x_granularity s = xs * ux n /\ end_x s = Some (xs * ux n) /\ exists m, back s = Some m /\ nx m = 65535%Z.
Proof.
  intros l n xs ys s0 s X M H. unfold create_spline in H. destruct (y_extremes (l ++ [n]) None) as [mm|] eqn:E; [|discriminate]. rewrite getz_last in H. cbv beta iota in H.
  rewrite scaled_calls in H. pose proof (granularity_pos (xs * ux n)) as G. destruct (C30_nodes _ _ _ _ _ M G H) as (_ & _ & _ & R & GG & _ & made & F & BK & _).
  assert (EG : x_granularity s = xs * ux n / 65535) by (rewrite GG; unfold recommend_x_granularity; rewrite Rleb_f by lra; reflexivity). rewrite map_app in F. cbn [map] in F. apply Forall2_app_inv_l in F. destruct F as (MA & MM & FA & FM & ->). inversion FM as [|? m ? MB Mn FB]; subst. inversion FB; subst.
  rewrite getz_last in BK. apply make_node_x in Mn; [|exact G]. rewrite <- GG in Mn. cbn [c_x scaled_call] in Mn. rewrite EG in Mn.
  replace (ux n * xs / (xs * ux n / 65535) + 1 / 2) with (IZR 65535 + 1 / 2) in Mn by (field; split; intros Q; rewrite Q in X; lra).
  rewrite (Rtrunc_IZR 65535) in Mn by (try lia; lra). split; [rewrite EG; lra|]. split; [|exists m; auto]. unfold end_x. rewrite BK. unfold node_x. rewrite Mn, EG. f_equal. lra.
Qed.
Print Assumptions C134_end.

(** A single node is always added. *)
Lemma one_node : forall x y d xs ys s0, 0 <= ux (UNode x y d) * xs -> (0 < max_nodes s0)%Z -> exists s m, create_spline [UNode x y d] xs ys s0 = Some s /\ nodes s = [m].
Proof.
  intros x y d xs ys s0 X M. cbn in X. unfold create_spline. cbn. set (g := recommend_x_granularity (xs * x)).
  destruct (C30_call_makes_node g (Rg (ys * y) (ys * y)) (Call (x * xs) (y * ys) (d / xs) EnsureCubicWellBehaved)) as (n & N).
  - apply granularity_pos.
  - cbn. split; [exact X|]. unfold g, recommend_x_granularity, kMaxX. rcase1; lra.
  - cbn. lra.
  - unfold makes in N. cbn in N. unfold add_node. cbn [x_granularity y_range init]. rewrite N. cbn. unfold add_node_verbatim, num_nodes. cbn. destruct (Z.ltb_spec 0 (max_nodes s0)); [|lia]. cbn. eexists _, n. split; reflexivity.
Qed.

(** The slopes are not those of the scaled curve: y is scaled and the slope is not.  A node with slope
    1, scaled by sqrt 3 in y, should have slope sqrt 3; its angle is less by a twelfth of pi. *)
Theorem C134_slopes_refuted : exists n ys s m, 0 < ys /\ create_spline [n] 1 ys (new_spline (Rg 0 0)) = Some s /\ nodes s = [m] /\
  (forall h, derivable_pt_lim h (ux n) (uderivative n) -> derivable_pt_lim (fun x => ys * h (x / 1)) (1 * ux n) (ys * uderivative n / 1)) /\
  PI / 12 <= Rabs (atan (ys * uderivative n / 1) - atan (node_derivative m)).
Proof.
  destruct (one_node 0 0 1 1 (sqrt 3) (new_spline (Rg 0 0))) as (s & m & E & N); [cbn; lra|reflexivity|]. exists (UNode 0 0 1), (sqrt 3), s, m. split; [apply sqrt_lt_R0; lra|]. split; [exact E|]. split; [exact N|]. cbn [ux uderivative]. split.
  - intros h D e P. destruct (D (e / sqrt 3)) as (del & K); [apply Rdiv_lt_0_compat; [exact P|apply sqrt_lt_R0; lra]|]. exists del. intros k K0 KD. specialize (K k K0 KD). replace ((1 * 0 + k) / 1) with (0 + k) by field. replace (1 * 0 / 1) with 0 by field.
    pose proof (sqrt_lt_R0 3 ltac:(lra)) as Q. replace ((sqrt 3 * h (0 + k) - sqrt 3 * h 0) / k - sqrt 3 * 1 / 1) with (sqrt 3 * ((h (0 + k) - h 0) / k - 1)) by (field; exact K0).
    rewrite Rabs_mult, (Rabs_right (sqrt 3)) by lra. apply Rmult_lt_compat_l with (r := sqrt 3) in K; [|exact Q]. replace (sqrt 3 * (e / sqrt 3)) with e in K by (field; lra). exact K.
  - replace (sqrt 3 * 1 / 1) with (sqrt 3) by field. rewrite <- tan_PI3. pose proof PI_RGT_0. rewrite atan_tan by lra.
    destruct (C134_nodes [UNode 0 0 1] 1 (sqrt 3) (new_spline (Rg 0 0)) s) as (_ & K); [lra|intros n [<-|[]]; cbn; lra|cbn; unfold SplinePoolModel.default_max_nodes; lia|exact E|].
    assert (L : atan (node_derivative m) <= PI / 4).
    { clear K. unfold create_spline in E. cbn in E. unfold add_node in E. destruct (make_node _ _ _ _ _) as [n|] eqn:MN; [|discriminate]. cbn in E. injection E as <-. cbn in N. injection N as <-.
      apply C31_derivative_error in MN. destruct MN as (_ & MN). replace (1 / 1) with 1 in MN by field. rewrite atan_1 in MN. rewrite (Rabs_right (PI / 4)) in MN by lra. revert MN. rabs; intros; lra. }
    rewrite Rabs_right by lra. lra.
Qed.
Print Assumptions C134_slopes_refuted.

(** Non-vacuity: two nodes of one height, more than a grain apart, make a spline. *)
Example C134_case : exists s, create_spline [UNode 0 2 0; UNode 1 2 0] 1 3 (new_spline (Rg 0 0)) = Some s /\ num_nodes s = 2%Z /\ x_granularity s < Rabs (1 * 1 - 1 * 0).
Proof.
  unfold create_spline. replace (y_extremes [UNode 0 2 0; UNode 1 2 0] None) with (Some (2, 2)) by (cbn; rewrite Rmin_left, Rmax_left by lra; reflexivity).
  change (getz [UNode 0 2 0; UNode 1 2 0] (len [UNode 0 2 0; UNode 1 2 0] - 1)) with (Some (UNode 1 2 0)). cbv beta iota. cbn [fst snd ux uy uderivative add_scaled].
  replace (recommend_x_granularity (1 * 1)) with (1 * 1 / 65535) by (unfold recommend_x_granularity; rewrite Rleb_f by lra; reflexivity). set (g := 1 * 1 / 65535). set (r := Rg (3 * 2) (3 * 2)).
  assert (G : 0 < g) by (unfold g; lra).
  assert (Z0 : compact_derivative (0 / 1) = 0%Z) by (unfold compact_derivative; replace (0 / 1) with 0 by field; rewrite atan_0; apply Rtrunc_IZR; [lia|unfold Rdiv; lra]).
  assert (MK : forall k, (0 <= k <= 65535)%Z -> forall x, x / g = IZR k -> make_node x (2 * 3) (0 / 1) g r = Some (Node k 0 0)).
  { intros k K x X. unfold make_node, compact_x, quantize_x, to_int. rewrite Reqb_f by lra. cbn [negb]. rewrite X, (Rtrunc_IZR k) by (try lia; lra). unfold kMaxX. destruct (_ && _)%Z eqn:E1; [|lia]. destruct ((0 <=? _) && _)%Z eqn:E2; [|lia].
    unfold compact_y. rewrite (proj2 (contains_iff r (2 * 3))) by (unfold r; cbn; lra). unfold length_, r. cbn. rewrite Reqb_t by lra. now rewrite Z0. }
  set (s1 := Spline r g [Node 0 0 0] 7). set (s2 := Spline r g [Node 0 0 0; Node 65535 0 0] 7).
  assert (E1 : add_node (init (new_spline (Rg 0 0)) r g) (0 * 1) (2 * 3) (0 / 1) EnsureCubicWellBehaved = Some s1).
  { unfold add_node. cbn [x_granularity y_range init]. rewrite (MK 0%Z) by (try lia; unfold g; field). reflexivity. }
  assert (E2 : add_node s1 (1 * 1) (2 * 3) (0 / 1) EnsureCubicWellBehaved = Some s2).
  { unfold add_node. cbn [x_granularity y_range s1]. rewrite (MK 65535%Z) by (try lia; unfold g; field). change (back s1) with (Some (Node 0 0 0)). cbv beta iota. change (nx (Node 0 0 0) <=? nx (Node 65535 0 0))%Z with true. change (node_eqb (Node 0 0 0) (Node 65535 0 0)) with false. change (nx (Node 0 0 0) =? nx (Node 65535 0 0))%Z with false. cbv beta iota zeta.
    match goal with |- context [uniform_curvature ?c ?q] => replace (uniform_curvature c q) with true; [reflexivity|] end.
    symmetry. unfold create_cubic_between, cubic_of, node_derivative, node_y. cbn [ci_start_y ci_start_derivative ci_end_y ci_end_derivative ci_width_x ny nangle]. rewrite !Rmult_0_l, tan_0.
    apply C25_uniform_curvature_complete; [unfold width_x; cbn; lra|]. intros x y _ _. unfold kderiv2, cubic_init. cbn [k2 k3]. set (w := if Rltb _ _ then _ else _). set (v := lerp _ _). ring_simplify. lra. }
  rewrite E1. cbv beta iota. rewrite E2. cbv beta iota. exists s2. split; [reflexivity|]. split; [reflexivity|]. cbn. unfold g. rabs; lra.
Qed.
