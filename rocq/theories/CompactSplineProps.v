(** C30, C31: building compact splines. *)
From Verif Require Import RBase BaseFacts RangeModel RangeProofs FloatModel CurveModel CurveProofs DualCubicModel DualCubicProps CompactSplineModel CompactSplineSpec CompactSplineProofs CompactSplineAdd.
From Coq Require Import Sorting.Sorted.

(** After any successful sequence of AddNode calls the nodes are in order, no x has
    more than two of them, there are no more than the capacity, the first and last
    nodes bound all others, the last call is the last node, and at the x of every
    call the first and the last node are those of the first and the last call there.
    Without intermediate nodes there is nothing else. *)
Theorem C30_nodes : forall s0 r g calls s,
  (0 <= max_nodes s0)%Z -> 0 < g -> add_nodes (init s0 r g) calls = Some s ->
  StronglySorted Z.le (map nx (nodes s)) /\
  (forall x, (count_occ Z.eq_dec (map nx (nodes s)) x <= 2)%nat) /\
  (num_nodes s <= max_nodes s0)%Z /\ y_range s = r /\ x_granularity s = g /\
  (forall f b n, front s = Some f -> back s = Some b -> In n (nodes s) -> (nx f <= nx n <= nx b)%Z) /\
  exists made, Forall2 (makes g r) calls made /\
    back s = getz made (len made - 1) /\
    (forall n, In n made -> first_at (nx n) (nodes s) = first_at (nx n) made /\ last_at (nx n) (nodes s) = last_at (nx n) made) /\
    (Forall (fun c => c_method c = AddWithoutModification) calls -> forall n, In n (nodes s) -> In n made).
Proof.
  intros s0 r g calls s M G H. destruct (add_nodes_ok calls (init s0 r g) [] True s G (added_init s0 r g M) H) as (ms & F & A & F1 & F2 & F3).
  destruct A as [AS AF A2 AL AB _ AT AP]. cbn [app init y_range x_granularity max_nodes] in *.
  split; [exact AS|]. split; [exact A2|]. split; [now rewrite <- F3|]. split; [exact F1|]. split; [exact F2|]. split.
  { intros f b n Ef Eb I. destruct (back_some s b Eb) as [l E]. split; [|now apply (sorted_all_le s l b)].
    unfold front in Ef. destruct (nodes s) as [|f' l']; [destruct I|]. injection Ef as <-. cbn [map] in AS.
    apply StronglySorted_inv in AS. destruct AS as [_ AS]. destruct I as [<-|I]; [lia|]. rewrite Forall_forall in AS. apply AS. now apply in_map. }
  exists ms. split; [exact F|]. split; [exact AB|]. split; [exact AT|]. intros P. apply AP. auto.
Qed.
Print Assumptions C30_nodes.

(** What has been built can be evaluated. *)
Theorem C30_built_ok : forall s0 r g calls s,
  (0 <= max_nodes s0 <= 65534)%Z -> 0 < g -> start_ r <= end_ r -> calls <> [] ->
  add_nodes (init s0 r g) calls = Some s -> spline_ok s.
Proof.
  intros s0 r g calls s M G V N H. destruct (add_nodes_ok calls (init s0 r g) [] True s G (added_init s0 r g ltac:(lia)) H) as (ms & F & A & F1 & F2 & F3).
  destruct A as [AS AF A2 AL AB _ AT AP]. cbn [app init y_range x_granularity max_nodes] in *.
  split; rewrite ?F1, ?F2; auto. split; [|lia].
  destruct ms as [|m ms] using rev_ind; [inversion F; congruence|]. rewrite getz_last in AB.
  destruct (back_some s _ AB) as [l E]. unfold num_nodes. rewrite E, len_app. unfold len. cbn. lia.
Qed.
Print Assumptions C30_built_ok.

(** Calls that keep to the documented limits succeed when no node is inserted. *)
Theorem C30_calls_succeed : forall s0 r g calls made,
  Forall2 (makes g r) calls made -> StronglySorted Z.le (map nx made) ->
  Forall (fun c => c_method c = AddWithoutModification) calls -> (len calls <= max_nodes s0)%Z ->
  exists s, add_nodes (init s0 r g) calls = Some s.
Proof.
  intros s0 r g calls made F S P L. apply (add_plain_list_succeeds calls (init s0 r g) made); auto. intros b n Eb. discriminate.
Qed.
Print Assumptions C30_calls_succeed.

(** When is a call within the limits: x in grains up to 65535, y in the range. *)
Theorem C30_call_makes_node : forall g r c, 0 < g -> 0 <= c_x c <= 65535 * g -> start_ r <= c_y c <= end_ r ->
  exists n, makes g r c n.
Proof.
  intros g r c G X Y. unfold makes, make_node, compact_x, quantize_x, to_int. rewrite Reqb_f by lra. cbn [negb].
  assert (B : 0 <= c_x c / g <= 65535).
  { split; [apply Rmult_le_pos; [lra|left; now apply Rinv_0_lt_compat]|].
    apply Rmult_le_reg_r with g; [lra|]. unfold Rdiv. rewrite Rmult_assoc, Rinv_l by lra. lra. }
  pose proof (Rtrunc_nonneg (c_x c / g + 1 / 2) ltac:(lra)) as N.
  destruct (Rtrunc_bounds (c_x c / g + 1 / 2)) as [T _]. specialize (T ltac:(lra)).
  assert (Rtrunc (c_x c / g + 1 / 2) < 65536)%Z by (apply lt_IZR; lra). unfold kMaxX.
  destruct (_ && _)%Z eqn:E1; [|lia]. destruct ((0 <=? _) && _)%Z eqn:E2; [|lia].
  unfold compact_y. rewrite (proj2 (contains_iff r (c_y c)) Y). eauto.
Qed.
Print Assumptions C30_call_makes_node.

(** A spline with one node that the cases below start from. *)
Definition demo_spline : spline := Spline (Rg (-1) 0) 1 [Node 0 65535 8192] 7.
Lemma demo_ok : spline_ok demo_spline.
Proof. split; cbn; try lra; repeat constructor; cbn; lia. Qed.

(** "x must be greater than the x-value of the last spline node.  If not, this call is
    a nop" (compact_spline.h:136-137): a smaller x fails the assert, an equal x adds a
    node. *)
Theorem C30_not_greater_is_nop_refuted :
  (exists s x y d, spline_ok s /\ (exists n b, make_node x y d (x_granularity s) (y_range s) = Some n /\ back s = Some b /\ (nx n < nx b)%Z) /\
     (num_nodes s < max_nodes s)%Z /\ add_node s x y d AddWithoutModification = None) /\
  (exists s x y d s', spline_ok s /\ (exists b, back s = Some b /\ x = node_x b (x_granularity s)) /\
     add_node s x y d AddWithoutModification = Some s' /\ num_nodes s' = (num_nodes s + 1)%Z).
Proof.
  assert (ONE : forall (k : Z) y, (0 <= k <= 65535)%Z -> -1 <= y <= 0 ->
    exists j, make_node (IZR k) y 0 1 (Rg (-1) 0) = Some (Node k j (compact_derivative 0)) /\ (y = -1 -> j = 0%Z)).
  { intros k y K Y. unfold make_node, compact_x, quantize_x, to_int. rewrite Reqb_f by lra. cbn [negb].
    rewrite (Rtrunc_IZR k (IZR k / 1 + 1 / 2)) by (try lia; unfold Rdiv; rewrite Rinv_1; lra). unfold kMaxX.
    destruct (_ && _)%Z eqn:E1; [|lia]. destruct ((0 <=? _) && _)%Z eqn:E2; [|lia].
    unfold compact_y. rewrite (proj2 (contains_iff (Rg (-1) 0) y)) by (cbn; lra). eexists. split; [reflexivity|].
    intros ->. unfold length_. cbn [start_ end_]. rewrite Reqb_f by lra. unfold percent_clamped, percent, length_, kMaxY. cbn [start_ end_].
    rewrite clamp_in by (cbn; lra). apply Rtrunc_IZR; [lia|lra]. }
  split.
  - destruct (ONE 0%Z (-1) ltac:(lia) ltac:(lra)) as (j & E & _).
    exists (Spline (Rg (-1) 0) 1 [Node 3 0 0] 7), 0, (-1), 0.
    split. { split; cbn; try lra; repeat constructor; cbn; lia. }
    split. { exists (Node 0 j (compact_derivative 0)), (Node 3 0 0). cbn [x_granularity y_range]. rewrite E. split; [reflexivity|]. split; [reflexivity|]. cbn. lia. }
    split; [reflexivity|]. unfold add_node. cbn [x_granularity y_range]. rewrite E. reflexivity.
  - destruct (ONE 0%Z (-1) ltac:(lia) ltac:(lra)) as (j & E & J). specialize (J eq_refl). subst j.
    exists demo_spline, 0, (-1), 0. eexists. split; [apply demo_ok|].
    split. { exists (Node 0 65535 8192). split; [reflexivity|]. unfold node_x. cbn. lra. }
    unfold add_node. cbn [x_granularity y_range demo_spline]. rewrite E. cbn. split; reflexivity.
Qed.
Print Assumptions C30_not_greater_is_nop_refuted.

(** The inserted node is not checked against the y range before it is compacted: a
    call within the documented limits can fail the assert in CompactY. *)
Theorem C30_well_behaved_call_succeeds_refuted : exists s x y d,
  spline_ok s /\ (exists n b, make_node x y d (x_granularity s) (y_range s) = Some n /\ back s = Some b /\ (nx b < nx n)%Z) /\
  (num_nodes s + 2 <= max_nodes s)%Z /\ add_node s x y d EnsureCubicWellBehaved = None.
Proof.
  assert (T : node_derivative (Node 0 65535 8192) = 1 /\ node_derivative (Node 1 65535 8192) = 1).
  { unfold node_derivative. cbn [nangle]. unfold kAngleScale. replace (8192 * (PI / 32768)) with (PI / 4) by field. split; apply tan_PI4. }
  assert (M : make_node 1 0 1 1 (Rg (-1) 0) = Some (Node 1 65535 8192)).
  { unfold make_node, compact_x, quantize_x, to_int. rewrite Reqb_f by lra. cbn [negb].
    rewrite (Rtrunc_IZR 1 (1 / 1 + 1 / 2)) by (try lia; lra). cbn -[compact_y compact_derivative].
    unfold compact_y. rewrite (proj2 (contains_iff (Rg (-1) 0) 0)) by (cbn; lra). unfold length_. cbn [start_ end_].
    rewrite Reqb_f by lra. unfold percent_clamped, percent, length_, kMaxY. cbn [start_ end_]. rewrite clamp_in by (cbn; lra).
    rewrite (Rtrunc_IZR 65535 (65535 * ((0 - -1) / (0 - -1)))) by (try lia; lra).
    unfold compact_derivative. rewrite atan_1. unfold kAngleScale. pose proof PI_RGT_0.
    replace (PI / 4 / (PI / 32768)) with 8192 by (field; lra). now rewrite (Rtrunc_IZR 8192 8192) by (try lia; lra). }
  assert (Y : forall k, node_y (Node k 65535 8192) (Rg (-1) 0) = 0).
  { intros k. unfold node_y, lerp, kYScale, kMaxY. cbn [ny start_ end_]. field. }
  exists demo_spline, 1, 0, 1. split; [apply demo_ok|]. split.
  { exists (Node 1 65535 8192), (Node 0 65535 8192). cbn [x_granularity y_range demo_spline]. rewrite M. split; [reflexivity|]. split; [reflexivity|]. cbn. lia. }
  split; [unfold num_nodes, len; cbn; lia|].
  rewrite (added_unfold _ _ _ _ _ (Node 1 65535 8192)) by exact M.
  change (back demo_spline) with (Some (Node 0 65535 8192)). cbv iota.
  change (nx (Node 0 65535 8192) <=? nx (Node 1 65535 8192))%Z with true. cbv iota.
  change (node_eqb (Node 0 65535 8192) (Node 1 65535 8192)) with false. cbv iota.
  change (nx (Node 0 65535 8192) =? nx (Node 1 65535 8192))%Z with false. cbv iota.
  assert (C : create_cubic_between demo_spline (Node 0 65535 8192) (Node 1 65535 8192) = CInit 0 1 0 1 1).
  { unfold create_cubic_between, width_x. cbn [y_range demo_spline x_granularity nx]. rewrite !Y, (proj1 T), (proj2 T). f_equal. cbn. ring. }
  rewrite C. cbv zeta. cbn [ci_start_y ci_start_derivative ci_end_y ci_end_derivative ci_width_x].
  replace (uniform_curvature _ _) with false.
  2:{ symmetry. unfold uniform_curvature, width_x, cubic_of. cbn [ci_start_y ci_start_derivative ci_end_y ci_end_derivative ci_width_x start_ end_ x_granularity demo_spline nx].
      pose proof eps_scale_pos. pose proof eps_scale_lt1. unfold clamp_near_zero, kepsilon, cubic_init. rewrite Rltb_t by lra. unfold kderiv2. cbn [k3 k2 k1 k0].
      set (e := Rmax _ _ * kEpsilonScale). assert (E : 0 <= e < 5).
      { unfold e. clear e. rewrite (Rabs_pos_eq (2 * _ * _ + _)), (Rabs_left (3 * _ * _ - _)), (Rabs_pos_eq 1), Rabs_R0 by lra.
        match goal with |- 0 <= ?m * _ < _ => assert (0 <= m <= 3) by (minmax; lra); set (z := m) in * end. split; [apply Rmult_le_pos; lra|].
        apply Rle_lt_trans with (3 * kEpsilonScale); [apply Rmult_le_compat_r; lra|lra]. }
      rewrite (Rleb_f (Rabs _) e) by (rewrite Rabs_left by lra; lra).
      rewrite (Rleb_f (Rabs _) e) by (rewrite Rabs_pos_eq by (cbn; lra); cbn; lra).
      apply Rleb_f. cbn. lra. }
  destruct (dual_cubic_mid_node 0 1 0 1 1) as [[mx [my md]]|] eqn:D; [|reflexivity].
  assert (P : 0 < my).
  { unfold dual_cubic_mid_node in D. cbv zeta in D.
    assert (A : approximate_mid_percent (CNode 0 0 (1 * 1) 0) (CNode 1 0 (1 * 1) 0) = (1 / 2, (0, 1))).
    { unfold approximate_mid_percent. cbn [cy cd]. set (st := steepness _). rewrite (Rleb_t st st) by lra.
      replace (Rabs (st - st)) with 0 by (rewrite (Rminus_diag_eq st st eq_refl), Rabs_R0; reflexivity).
      replace (Rmin (0 / kMaxSteepness) 1) with 0 by (unfold Rdiv; rewrite Rmult_0_l, Rmin_left; lra).
      unfold mlerp. f_equal; [ring|f_equal; ring]. }
    rewrite A in D. cbv beta iota in D. set (s2 := CNode 0 _ _ _) in D. set (e2 := CNode 1 _ _ _) in D.
    destruct (mid_percent s2 e2) as [k|] eqn:K; [|discriminate].
    assert (KB : 1 / 10 <= k <= 9 / 10).
    { unfold mid_percent in K. destruct (valid_mid_range s2 e2); [|discriminate]. injection K as <-. unfold kMaxMidPercent, kMinMidPercent. minmax; lra. }
    rewrite Reqb_f in D by lra. cbn [negb] in D. injection D as _ <- _. unfold mid_node, s2, e2, mlerp, extreme_second_for_start, extreme_second_for_end.
    cbn [cx cy cd cdd]. 
    match goal with |- 0 < ?v => replace v with (k * (1 - k) * (1 - k)) by (field; lra) end.
    apply Rmult_lt_0_compat; [apply Rmult_lt_0_compat|]; lra. }
  unfold make_node. destruct (compact_x _ _); [|reflexivity]. unfold compact_y. cbn [y_range demo_spline].
  replace (contains (Rg (-1) 0) my) with false; [reflexivity|]. symmetry. unfold contains. cbn [start_ end_]. rewrite (Rleb_f my 0) by lra. apply andb_false_r.
Qed.
Print Assumptions C30_well_behaved_call_succeeds_refuted.

(** The AddNode call of an uncompressed node. *)
Definition plain_call (n : unode) : call := Call (ux n) (uy n) (uderivative n) AddWithoutModification.
Lemma uncompressed_calls l : forall s, add_uncompressed_nodes s l = add_nodes s (map plain_call l).
Proof. induction l as [|n l IH]; intros s; [reflexivity|]. cbn. destruct (add_node s _ _ _ _); auto. Qed.
Lemma made_sorted g r l : 0 < g -> StronglySorted Rle (map ux l) -> forall ms, Forall2 (makes g r) (map plain_call l) ms -> StronglySorted Z.le (map nx ms).
Proof.
  intros G. induction l as [|n l IH]; intros S ms F; inversion F as [|? m ? ms' M F']; subst; [constructor|]. cbn [map] in *.
  apply StronglySorted_inv in S. destruct S as [S A]. constructor; [auto|].
  unfold makes in M. apply make_node_x in M; [|exact G]. rewrite M. cbn [plain_call c_x].
  clear - G A F'. revert ms' F'. induction l as [|k l IH]; intros ms F; inversion F as [|? m ? ms' M F']; subst; [constructor|].
  cbn [map] in *. inversion A; subst. constructor; [|auto].
  unfold makes in M. apply make_node_x in M; [|exact G]. rewrite M. cbn [plain_call c_x]. apply Rtrunc_mono.
  assert (ux n / g <= ux k / g) by (apply Rmult_le_compat_r; [left; now apply Rinv_0_lt_compat|assumption]). lra.
Qed.

(** Initialisation from an array of nodes with non-decreasing, non-negative x
    succeeds, with every y in the range and the last x representable. *)
Theorem C30_init_from_nodes : forall s0 l, l <> [] -> (len l <= max_nodes s0)%Z ->
  StronglySorted Rle (map ux l) -> Forall (fun n => 0 <= ux n) l ->
  exists s made, init_from_nodes s0 l = Some s /\
    Forall2 (fun n m => make_node (ux n) (uy n) (uderivative n) (x_granularity s) (y_range s) = Some m) l made /\
    back s = getz made (len made - 1) /\ (forall n, In n (nodes s) -> In n made) /\ 0 < x_granularity s.
Proof.
  intros s0 l N L S P.
  destruct l as [|la l'] using rev_ind; [congruence|]. clear IHl' N. set (l := l' ++ [la]) in *.
  assert (MAX : forall n, In n l -> ux n <= ux la).
  { intros n I. unfold l in *. rewrite map_app in S. cbn [map] in S.
    assert (Q : forall k z, StronglySorted Rle (k ++ [z]) -> Forall (fun y => y <= z) k).
    { induction k as [|a k IH]; intros z SS; [constructor|]. cbn [app] in SS. apply StronglySorted_inv in SS. destruct SS as [S1 S2].
      apply Forall_app in S2. destruct S2 as [_ S2]. inversion S2; subst. constructor; auto. }
    apply Q in S. apply in_app_or in I. destruct I as [I|[<-|[]]]; [|lra]. rewrite Forall_forall in S. apply S. now apply in_map. }
  assert (GL : getz l (len l - 1) = Some la) by apply getz_last.
  pose proof (covers_ok (map uy l) None ltac:(discriminate)) as CO. unfold init_from_nodes. rewrite GL. unfold covers.
  destruct (covers_loop None (map uy l)) as [r|]; [|destruct CO as [_ CO]; unfold l in CO; destruct l'; discriminate].
  destruct CO as (RV & _ & CI & _). rewrite uncompressed_calls. set (g := recommend_x_granularity (ux la)).
  assert (G : 0 < g /\ (0 < ux la -> ux la = 65535 * g)).
  { unfold g, recommend_x_granularity, kMaxX. rcase1; split; try lra. }
  destruct G as [G GE].
  assert (LA : 0 <= ux la) by (rewrite Forall_forall in P; apply P; unfold l; apply in_elt).
  assert (MS : exists ms, Forall2 (makes g r) (map plain_call l) ms).
  { assert (K : forall k, (forall n, In n k -> In n l) -> exists ms, Forall2 (makes g r) (map plain_call k) ms).
    { induction k as [|n k IH]; intros I; [exists []; constructor|]. destruct IH as [ms F]; [intros; apply I; now right|].
      destruct (C30_call_makes_node g r (plain_call n) G) as [m M].
      - cbn [plain_call c_x]. specialize (MAX n (I n (or_introl eq_refl))). rewrite Forall_forall in P. specialize (P n (I n (or_introl eq_refl))).
        destruct (Rlt_dec 0 (ux la)); [rewrite <- (GE r0); lra|]. lra.
      - cbn [plain_call c_y]. apply CI. apply in_map. apply I. now left.
      - exists (m :: ms). constructor; assumption. }
    apply (K l). auto. }
  destruct MS as [ms F]. 
  destruct (C30_calls_succeed s0 r g (map plain_call l) ms F (made_sorted g r l G S ms F)) as [s E].
  { apply Forall_forall. intros c I. apply in_map_iff in I. destruct I as [n [<- _]]. reflexivity. }
  { rewrite len_map. exact L. }
  rewrite E. exists s. destruct (C30_nodes s0 r g (map plain_call l) s) as (_ & _ & _ & F1 & F2 & _ & ms' & F' & B & _ & PL); auto.
  { pose proof (len_nonneg l). lia. }
  exists ms'. split; [reflexivity|]. rewrite F1, F2. split.
  { clear - F'. revert ms' F'. induction l as [|n l IH]; intros ms F; inversion F; subst; constructor; auto. }
  split; [exact B|]. split; [|exact G]. apply PL. apply Forall_forall. intros c I. apply in_map_iff in I. destruct I as [n [<- _]]. reflexivity.
Qed.
Print Assumptions C30_init_from_nodes.

(** Three calls at the same x and one later: the middle node goes. *)
Example C30_case : exists s, add_nodes (init (Spline range_default 0 [] 7) (Rg 0 1) 2)
    [Call 2 0 0 AddWithoutModification; Call 2 1 0 AddWithoutModification;
     Call 2 (1 / 2) 0 AddWithoutModification; Call 10 1 0 AddWithoutModification] = Some s /\
  map nx (nodes s) = [1; 1; 5]%Z /\ map ny (nodes s) = [0; 32767; 65535]%Z /\ spline_ok s.
Proof.
  assert (MK : forall x y k j, (0 <= k <= 65535)%Z -> (0 <= j <= 65535)%Z -> 0 <= y <= 1 -> x = 2 * IZR k -> IZR j <= 65535 * y < IZR j + 1 ->
     make_node x y 0 2 (Rg 0 1) = Some (Node k j 0)).
  { intros x y k j K J Y -> H. unfold make_node, compact_x, quantize_x, to_int. rewrite Reqb_f by lra. cbn [negb].
    rewrite (Rtrunc_IZR k (2 * IZR k / 2 + 1 / 2)) by (try lia; lra). unfold kMaxX.
    destruct (_ && _)%Z eqn:E1; [|lia]. destruct ((0 <=? _) && _)%Z eqn:E2; [|lia].
    unfold compact_y. rewrite (proj2 (contains_iff (Rg 0 1) y)) by (cbn; lra). unfold length_. cbn [start_ end_]. rewrite Reqb_f by lra.
    unfold percent_clamped, percent, length_, kMaxY. cbn [start_ end_]. replace ((y - 0) / (1 - 0)) with y by field.
    rewrite clamp_in by (cbn; lra). rewrite (Rtrunc_IZR j) by (try lia; lra).
    unfold compact_derivative. rewrite atan_0. unfold Rdiv. rewrite Rmult_0_l. now rewrite (Rtrunc_IZR 0) by (try lia; lra). }
  assert (S1 : add_node (init (Spline range_default 0 [] 7) (Rg 0 1) 2) 2 0 0 AddWithoutModification = Some (Spline (Rg 0 1) 2 [Node 1 0 0] 7)).
  { unfold add_node. cbn [x_granularity y_range init]. now rewrite (MK 2 0 1%Z 0%Z) by (try lia; lra). }
  assert (S2 : add_node (Spline (Rg 0 1) 2 [Node 1 0 0] 7) 2 1 0 AddWithoutModification = Some (Spline (Rg 0 1) 2 [Node 1 0 0; Node 1 65535 0] 7)).
  { unfold add_node. cbn [x_granularity y_range]. now rewrite (MK 2 1 1%Z 65535%Z) by (try lia; lra). }
  assert (S3 : add_node (Spline (Rg 0 1) 2 [Node 1 0 0; Node 1 65535 0] 7) 2 (1 / 2) 0 AddWithoutModification = Some (Spline (Rg 0 1) 2 [Node 1 0 0; Node 1 32767 0] 7)).
  { unfold add_node. cbn [x_granularity y_range]. now rewrite (MK 2 (1 / 2) 1%Z 32767%Z) by (try lia; lra). }
  assert (S4 : add_node (Spline (Rg 0 1) 2 [Node 1 0 0; Node 1 32767 0] 7) 10 1 0 AddWithoutModification = Some (Spline (Rg 0 1) 2 [Node 1 0 0; Node 1 32767 0; Node 5 65535 0] 7)).
  { unfold add_node. cbn [x_granularity y_range]. now rewrite (MK 10 1 5%Z 65535%Z) by (try lia; lra). }
  eexists. cbn [add_nodes c_x c_y c_derivative c_method]. rewrite S1, S2, S3, S4. split; [reflexivity|]. split; [reflexivity|]. split; [reflexivity|].
  split; cbn; try lra; repeat constructor; cbn; lia.
Qed.

(** C31: a stored x is within half a grain, a stored y at most one rung below, the
    stored slope angle at most one step of pi/32768 nearer to zero. *)
Theorem C31_x_error : forall x y d g r n, 0 < g -> - g / 2 <= x -> make_node x y d g r = Some n ->
  Rabs (node_x n g - x) <= g / 2.
Proof.
  intros x y d g r n G X M. apply make_node_x in M; [|exact G]. unfold node_x. rewrite M. pose proof (grain_error x g G X). rabs; lra.
Qed.
Print Assumptions C31_x_error.
Theorem C31_y_error : forall x y d g r n, make_node x y d g r = Some n ->
  0 <= y - node_y n r <= (end_ r - start_ r) / 65535.
Proof.
  intros x y d g r n. unfold make_node. destruct (compact_x x g); [|discriminate]. destruct (compact_y y r) eqn:Y; [|discriminate].
  intros H. injection H as <-. unfold node_y. cbn [ny]. apply compact_y_inv in Y. lra.
Qed.
Print Assumptions C31_y_error.
Theorem C31_derivative_error : forall x y d g r n, make_node x y d g r = Some n ->
  Rabs (atan d - atan (node_derivative n)) < PI / 32768 /\ Rabs (atan (node_derivative n)) <= Rabs (atan d).
Proof.
  intros x y d g r n. unfold make_node. destruct (compact_x x g); [|discriminate]. destruct (compact_y y r) eqn:Y; [|discriminate].
  intros H. injection H as <-. pose proof (compact_derivative_ok d) as (A & B & C).
  rewrite angle_of_derivative by exact A. cbn [nangle]. split; [exact C|exact B].
Qed.
Print Assumptions C31_derivative_error.
(** The ends of the y range and y in a range of no length are exact; so are positions
    on the grid. *)
Theorem C31_exact : forall x y d g r n, 0 < g -> make_node x y d g r = Some n ->
  (y = start_ r \/ y = end_ r -> node_y n r = y) /\ (forall k, (0 <= k)%Z -> x = IZR k * g -> node_x n g = x).
Proof.
  intros x y d g r n G M. split.
  - intros E. revert M. unfold make_node. destruct (compact_x x g); [|discriminate]. destruct (compact_y y r) eqn:Y; [|discriminate].
    intros H. injection H as <-. unfold node_y. cbn [ny]. pose proof (compact_y_inv y r _ Y) as (C & _ & LO & HI). unfold compact_y in Y.
    rewrite (proj2 (contains_iff r y) C) in Y. injection Y as <-. unfold kMaxY, length_ in *.
    destruct (Reqb_spec (end_ r - start_ r) 0) as [Z|Z]; [lra|].
    destruct E as [->| ->]; unfold percent_clamped, percent, length_ in *.
    + replace ((start_ r - start_ r) / (end_ r - start_ r)) with 0 by (field; lra). rewrite clamp_in by (cbn; lra).
      rewrite (Rtrunc_IZR 0) by (try lia; lra). unfold lerp, kYScale, kMaxY. field.
    + replace ((end_ r - start_ r) / (end_ r - start_ r)) with 1 by (field; lra). rewrite clamp_in by (cbn; lra).
      rewrite (Rtrunc_IZR 65535) by (try lia; lra). unfold lerp, kYScale, kMaxY. field.
  - intros k K ->. apply make_node_x in M; [|exact G]. unfold node_x.
    replace (IZR k * g / g) with (IZR k) in M by (field; lra). replace (nx n) with k; [reflexivity|]. rewrite M.
    symmetry. apply Rtrunc_IZR; [lia|lra].
Qed.
Print Assumptions C31_exact.

(** QuantizeX truncates toward zero: a negative x of one grain is stored as zero, a
    whole grain away, and no assert notices. *)
Theorem C31_negative_x_refuted : exists x y d g r n, 0 < g /\ make_node x y d g r = Some n /\ Rabs (node_x n g - x) = g.
Proof.
  exists (-1), 0, 0, 1, (Rg 0 0), (Node 0 0 (compact_derivative 0)). split; [lra|].
  unfold make_node, compact_x, quantize_x, to_int. rewrite Reqb_f by lra. cbn [negb].
  replace (Rtrunc (-1 / 1 + 1 / 2)) with 0%Z.
  2:{ unfold Rtrunc. rewrite Rleb_f by lra. rewrite (Rfloor_unique _ 0) by lra. reflexivity. }
  cbn -[compact_y]. unfold compact_y. rewrite (proj2 (contains_iff (Rg 0 0) 0)) by (cbn; lra).
  unfold length_. cbn [start_ end_]. rewrite Reqb_t by lra. split; [reflexivity|]. unfold node_x. cbn [nx].
  rewrite Rabs_pos_eq by lra. lra.
Qed.
Print Assumptions C31_negative_x_refuted.
(** "round to the closest rung" (compact_spline_node.h:29-31): y is rounded down. *)
Theorem C31_closest_rung_refuted : exists x y d g r n k, 0 < g /\ make_node x y d g r = Some n /\ (0 <= k <= 65535)%Z /\
  Rabs (lerp r (IZR k / 65535) - y) < Rabs (node_y n r - y).
Proof.
  exists 0, (3 / 4), 0, 1, (Rg 0 65535), (Node 0 0 (compact_derivative 0)), 1%Z. split; [lra|].
  unfold make_node, compact_x, quantize_x, to_int. rewrite Reqb_f by lra. cbn [negb].
  rewrite (Rtrunc_IZR 0 (0 / 1 + 1 / 2)) by (try lia; lra). cbn -[compact_y].
  unfold compact_y. rewrite (proj2 (contains_iff (Rg 0 65535) (3 / 4))) by (cbn; lra).
  unfold length_. cbn [start_ end_]. rewrite Reqb_f by lra. unfold percent_clamped, percent, length_, kMaxY. cbn [start_ end_].
  rewrite clamp_in by (cbn; lra). rewrite (Rtrunc_IZR 0 (65535 * _)) by (try lia; lra).
  split; [reflexivity|]. split; [lia|]. unfold node_y, lerp, kYScale, kMaxY. cbn [ny start_ end_]. 
  rewrite Rabs_pos_eq by lra. rewrite Rabs_left by lra. lra.
Qed.
Print Assumptions C31_closest_rung_refuted.
(** A case: x = 3.4 grains of 2, y = 0.7, slope 2. *)
Example C31_case : exists n, make_node (34 / 5) (7 / 10) 2 2 (Rg 0 1) = Some n /\ nx n = 3%Z /\ ny n = 45874%Z.
Proof.
  unfold make_node, compact_x, quantize_x, to_int. rewrite Reqb_f by lra. cbn [negb].
  rewrite (Rtrunc_IZR 3 (34 / 5 / 2 + 1 / 2)) by (try lia; lra). cbn -[compact_y].
  unfold compact_y. rewrite (proj2 (contains_iff (Rg 0 1) (7 / 10))) by (cbn; lra).
  unfold length_. cbn [start_ end_]. rewrite Reqb_f by lra. unfold percent_clamped, percent, length_, kMaxY. cbn [start_ end_].
  rewrite clamp_in by (cbn; lra). rewrite (Rtrunc_IZR 45874) by (try lia; lra). eexists. split; [reflexivity|]. split; reflexivity.
Qed.
