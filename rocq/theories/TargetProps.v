(** C87: the functions that make targets. *)
From Verif Require Import RBase BaseFacts RangeModel RangeProofs CurveModel CompactSplineModel CompactSplineSpec CompactSplineProofs CompactSplineAdd CompactSplineProps CompactSplineEvalProps EvaluatorModel EvaluatorSpec EvaluatorProofs EvaluatorPlay EvaluatorProps SplineTargetModel SplineTargetProofs SplineTargetProps KeyframeCurveProps TargetModel.
From Coq Require Import Sorting.Sorted.

(** Waypoints in order: the times are not negative and increase. *)
Definition in_order (t : list mnode) : Prop :=
  (forall n, In n t -> 0 <= mn_time n)%Z /\ StronglySorted Z.lt (map mn_time t).

(** Whatever the functions are given, they fail or make targets that SetTarget can use. *)
Theorem C87_in_order : forall v0 d0 v1 d1 t1 v2 d2 t2 d,
  in_order (tar_current v0 d0) /\
  (forall t, tar_target v1 d1 t1 d = Some t -> in_order t) /\
  (forall t, tar_current_to_target v0 d0 v1 d1 t1 d = Some t -> in_order t) /\
  (forall t, tar_const_velocity v0 v1 t1 = Some t -> in_order t) /\
  (forall t, tar_target_to_target v1 d1 t1 v2 d2 t2 = Some t -> in_order t) /\
  (forall t, tar_current_to_target_to_target v0 d0 v1 d1 t1 v2 d2 t2 = Some t -> in_order t).
Proof.
  intros. assert (O1 : forall n, (0 <= mn_time n)%Z -> in_order [n]).
  { intros n N. split; [intros m [<-|[]]; exact N|]. cbn. repeat constructor. }
  assert (O2 : forall a b t, target_of2 a b = Some t -> in_order t).
  { intros a b t H. unfold target_of2 in H. destruct (_ && _)%bool eqn:E in H; [|discriminate]. injection H as <-. apply andb_prop in E. destruct E as [E1 E2].
    split; [intros m [<-|[<-|[]]]; lia|]. cbn. constructor; [constructor; [constructor|constructor]|]. constructor; [lia|constructor]. }
  assert (O3 : forall a b c t, target_of3 a b c = Some t -> in_order t).
  { intros a b c t H. unfold target_of3 in H. destruct (_ && _)%bool eqn:E in H; [|discriminate]. injection H as <-. apply andb_prop in E. destruct E as [E E3]. apply andb_prop in E. destruct E as [E1 E2].
    split; [intros m [<-|[<-|[<-|[]]]]; lia|]. cbn. constructor; [constructor; [constructor; [constructor|constructor]|]|]; constructor; try lia; try constructor; try lia; constructor. }
  split; [apply O1; cbn; lia|]. split; [intros t H; unfold tar_target in H; destruct (_ <=? _)%Z eqn:E in H; [|discriminate]; injection H as <-; apply O1; cbn; lia|].
  split; [apply O2|]. split; [|split; [apply O2|apply O3]].
  intros t H. unfold tar_const_velocity in H. destruct (_ <? _)%Z in H; [|discriminate]. exact (O2 _ _ _ H).
Qed.
Print Assumptions C87_in_order.

(** And they do make one exactly when the times they are given are in order. *)
Theorem C87_made : forall v0 d0 v1 d1 t1 v2 d2 t2 d,
  (tar_target v1 d1 t1 d <> None <-> 0 <= t1)%Z /\
  (tar_current_to_target v0 d0 v1 d1 t1 d <> None <-> 0 < t1)%Z /\
  (tar_const_velocity v0 v1 t1 <> None <-> 0 < t1)%Z /\
  (tar_target_to_target v1 d1 t1 v2 d2 t2 <> None <-> 0 <= t1 < t2)%Z /\
  (tar_current_to_target_to_target v0 d0 v1 d1 t1 v2 d2 t2 <> None <-> 0 < t1 < t2)%Z.
Proof.
  intros. unfold tar_target, tar_current_to_target, tar_const_velocity, tar_target_to_target, tar_current_to_target_to_target, target_of2, target_of3. cbn [mn_time].
  split; [|split; [|split; [|split]]].
  - destruct (0 <=? t1)%Z eqn:E; split; intros; try discriminate; try lia; try congruence.
  - cbn [Z.leb Z.compare andb]. destruct (0 <? t1)%Z eqn:E; split; intros; try discriminate; try lia; try congruence.
  - destruct (0 <? t1)%Z eqn:E; cbn [Z.leb Z.compare andb]; split; intros; try discriminate; try lia; try congruence.
  - destruct ((0 <=? t1) && (t1 <? t2))%Z eqn:E; split; intros; try discriminate; try lia; try congruence.
  - cbn [Z.leb Z.compare andb]. destruct ((0 <? t1) && (t1 <? t2))%Z eqn:E; split; intros; try discriminate; try lia; try congruence.
Qed.
Print Assumptions C87_made.

(** ** Where they take the motivator *)
(** Times in order, the last of them at most 65535, are told apart by the grid. *)
Lemma order_apart s t last : in_order t -> getz t (len t - 1) = Some last -> (mn_time last <= 65535)%Z -> (forall n, In n (waypoints s t) -> 0 < mn_time n)%Z -> apart s t.
Proof.
  intros [P SO] L M W. unfold apart, grain. rewrite L.
  assert (G : waypoints s t <> [] -> recommend_x_granularity (IZR (mn_time last)) <= 1).
  { intros NE. pose proof (last_waypoint s t last NE L) as LW. assert (I : In last (waypoints s t)) by (apply getz_split in LW; destruct LW as (? & ? & -> & _); apply in_elt).
    apply W in I. unfold recommend_x_granularity, kMaxX. apply IZR_lt in I. apply IZR_le in M. rewrite Rleb_f by lra. lra. }
  assert (SW : StronglySorted Z.lt (map mn_time (waypoints s t))).
  { unfold waypoints. destruct (override_current s t); [|exact SO]. destruct t; [constructor|]. cbn [map tl] in *. now inversion SO. }
  set (g := recommend_x_granularity _) in *. destruct (waypoints s t) as [|w ws]; [exact I|]. specialize (G ltac:(discriminate)).
  assert (K : forall l prev, StronglySorted Z.lt (prev :: map mn_time l) -> spaced g prev l).
  { induction l as [|n l IH]; intros prev S'; cbn [spaced]; [exact I|]. cbn [map] in S'. inversion S' as [|? ? S1 F]; subst. inversion F as [|? ? F1 F2]; subst.
    split; [exact F1|]. split; [|now apply IH]. assert (prev + 1 <= mn_time n)%Z as Q by lia. apply IZR_le in Q. rewrite plus_IZR in Q. lra. }
  apply K. constructor; [exact SW|]. apply Forall_forall. intros z Z. apply in_map_iff in Z. destruct Z as (n & <- & I). now apply W.
Qed.

(** While frames are played, the value comes within a rung of [v] at a time within half a
    grain of [time]. *)
Definition comes_to (ev1 : evaluator) (i : Z) (sp : spline) (m : range) (time : Z) (v : R) : Prop :=
  exists x y, Rabs (x - IZR time) <= x_granularity sp / 2 /\ stands_for m v y /\
    forall deltas ev2 s2, advance_frames ev1 deltas = Some ev2 -> Forall (small_step sp) deltas ->
      sum deltas = x -> getz ev2 i = Some s2 -> 0 <= y - cur_y s2 <= length_ (y_range sp) / 65535.

Lemma comes_waypoint ev i local t sp ev1 s k n : getz ev i = Some s -> set_target ev i local t = Some (sp, ev1) -> room local -> apart s t ->
  getz (waypoints s t) k = Some n -> comes_to ev1 i sp (modular_range s) (mn_time n) (mn_value n).
Proof.
  intros G ST RM AP K. destruct (C44_waypoints _ _ _ _ _ _ _ _ _ G ST RM AP K) as (x & y & X & _ & SF & H).
  rewrite <- (built_grain _ _ _ _ (apart_built _ _ _ _ _ _ _ G ST RM AP)) in X, H. exists x, y. auto.
Qed.

(** The value that a target asks for at the start is there at once. *)
Definition is_at_once (ev1 : evaluator) (i : Z) (sp : spline) (m : range) (v : R) : Prop :=
  forall s1, getz ev1 i = Some s1 -> exists y, stands_for m v y /\ 0 <= y - cur_y s1 <= length_ (y_range sp) / 65535.

Lemma at_once ev i local t sp ev1 s n0 : getz ev i = Some s -> set_target ev i local t = Some (sp, ev1) -> getz t 0 = Some n0 -> room local -> apart s t ->
  is_at_once ev1 i sp (modular_range s) (if override_current s t then mn_value n0 else cur_y s).
Proof.
  intros G ST N0 RM AP s1 G1. destruct (C44_start _ _ _ _ _ _ _ _ _ G ST G1 N0 RM AP) as [(y & A & _ & B) _]. eauto.
Qed.

(** CurrentToTargetToTarget: from the first value through the second to the third. *)
Theorem C87_three : forall ev i local v0 d0 v1 d1 t1 v2 d2 t2 t sp ev1 s,
  tar_current_to_target_to_target v0 d0 v1 d1 t1 v2 d2 t2 = Some t -> (t2 <= 65535)%Z ->
  getz ev i = Some s -> room local -> set_target ev i local t = Some (sp, ev1) ->
  is_at_once ev1 i sp (modular_range s) v0 /\ comes_to ev1 i sp (modular_range s) t1 v1 /\ comes_to ev1 i sp (modular_range s) t2 v2.
Proof.
  intros ev i local v0 d0 v1 d1 t1 v2 d2 t2 t sp ev1 s T M G RM ST. pose proof (proj2 (proj2 (proj2 (proj2 (proj2 (C87_in_order v0 d0 v1 d1 t1 v2 d2 t2 Closest))))) t T) as O.
  unfold tar_current_to_target_to_target, target_of3 in T. destruct (_ && _)%bool eqn:E in T; [|discriminate]. injection T as <-. cbn [mn_time] in E.
  set (t := [_; _; _]) in *. assert (AP : apart s t) by (apply (order_apart s t (MNode v2 d2 t2 Closest)); auto; cbn; intros n [<-|[<-|[]]]; cbn; lia).
  split; [|split].
  - exact (at_once _ _ _ _ _ _ _ _ G ST eq_refl RM AP).
  - exact (comes_waypoint _ _ _ _ _ _ _ 0%Z (MNode v1 d1 t1 Closest) G ST RM AP eq_refl).
  - exact (comes_waypoint _ _ _ _ _ _ _ 1%Z (MNode v2 d2 t2 Closest) G ST RM AP eq_refl).
Qed.
Print Assumptions C87_three.

(** CurrentToTarget and CurrentToTargetConstVelocity. *)
Theorem C87_two : forall ev i local v0 v1 t1 t sp ev1 s,
  (exists d0 d1 d, tar_current_to_target v0 d0 v1 d1 t1 d = Some t) \/ tar_const_velocity v0 v1 t1 = Some t ->
  getz ev i = Some s -> room local -> set_target ev i local t = Some (sp, ev1) ->
  is_at_once ev1 i sp (modular_range s) v0 /\ comes_to ev1 i sp (modular_range s) t1 v1.
Proof.
  intros ev i local v0 v1 t1 t sp ev1 s T G RM ST.
  assert (Q : exists d0 d1 d, tar_current_to_target v0 d0 v1 d1 t1 d = Some t).
  { destruct T as [T|T]; [exact T|]. unfold tar_const_velocity in T. destruct (_ <? _)%Z in T; [|discriminate]. exists ((v1 - v0) / IZR t1), ((v1 - v0) / IZR t1), Direct. exact T. }
  destruct Q as (d0 & d1 & d & Q). unfold tar_current_to_target, target_of2 in Q. destruct (_ && _)%bool eqn:E in Q; [|discriminate]. injection Q as <-. cbn [mn_time] in E.
  assert (T1 : (0 < t1)%Z) by lia. set (t := [_; _]) in *.
  assert (AP : apart s t).
  { unfold apart, grain. change (getz t (len t - 1)) with (Some (MNode v1 d1 t1 d)). cbn [mn_time]. change (waypoints s t) with [MNode v1 d1 t1 d]. cbn [spaced mn_time].
    apply IZR_lt in T1 as T1'. unfold recommend_x_granularity, kMaxX. rewrite Rleb_f by lra. repeat split; [lia|lra]. }
  split; [exact (at_once _ _ _ _ _ _ _ _ G ST eq_refl RM AP)|exact (comes_waypoint _ _ _ _ _ _ _ 0%Z (MNode v1 d1 t1 d) G ST RM AP eq_refl)].
Qed.
Print Assumptions C87_two.

(** Target and TargetToTarget keep the current value, on an index that is playing. *)
Theorem C87_from_current : forall ev i local v1 d1 t1 v2 d2 t2 d t sp ev1 s,
  getz ev i = Some s -> room local -> source s <> None -> set_target ev i local t = Some (sp, ev1) -> (0 < t1 <= 65535)%Z ->
  (tar_target v1 d1 t1 d = Some t ->
    is_at_once ev1 i sp (modular_range s) (cur_y s) /\ comes_to ev1 i sp (modular_range s) t1 v1) /\
  (tar_target_to_target v1 d1 t1 v2 d2 t2 = Some t -> (t2 <= 65535)%Z ->
    is_at_once ev1 i sp (modular_range s) (cur_y s) /\ comes_to ev1 i sp (modular_range s) t1 v1 /\ comes_to ev1 i sp (modular_range s) t2 v2).
Proof.
  intros ev i local v1 d1 t1 v2 d2 t2 d t sp ev1 s G RM SR ST T1. pose proof (C87_in_order 0 0 v1 d1 t1 v2 d2 t2 d) as (_ & O1 & _ & _ & O2 & _).
  assert (OV : forall n l, (0 < mn_time n)%Z -> override_current s (n :: l) = false).
  { intros n l N. unfold override_current. destruct (source s); [|congruence]. rewrite orb_false_r. apply Z.eqb_neq. lia. }
  split.
  - intros T. pose proof (O1 _ T) as O. unfold tar_target in T. destruct (_ <=? _)%Z in T; [|discriminate]. injection T as <-. unfold target_of1 in *. set (t := [_]) in *.
    assert (OC : override_current s t = false) by (apply OV; cbn; lia). assert (WP : waypoints s t = t) by (unfold waypoints; now rewrite OC).
    assert (AP : apart s t) by (apply (order_apart s t (MNode v1 d1 t1 d)); auto; [cbn; lia|rewrite WP; cbn; intros n [<-|[]]; cbn; lia]).
    split; [pose proof (at_once _ _ _ _ _ _ _ _ G ST eq_refl RM AP) as Q; now rewrite OC in Q|].
    apply (comes_waypoint _ _ _ _ _ _ _ 0%Z (MNode v1 d1 t1 d) G ST RM AP). now rewrite WP.
  - intros T M. pose proof (O2 _ T) as O. unfold tar_target_to_target, target_of2 in T. destruct (_ && _)%bool eqn:E in T; [|discriminate]. injection T as <-. cbn [mn_time] in E. set (t := [_; _]) in *.
    assert (OC : override_current s t = false) by (apply OV; cbn; lia). assert (WP : waypoints s t = t) by (unfold waypoints; now rewrite OC).
    assert (AP : apart s t) by (apply (order_apart s t (MNode v2 d2 t2 Closest)); auto; rewrite WP; cbn; intros n [<-|[<-|[]]]; cbn; lia).
    split; [pose proof (at_once _ _ _ _ _ _ _ _ G ST eq_refl RM AP) as Q; now rewrite OC in Q|].
    split; [apply (comes_waypoint _ _ _ _ _ _ _ 0%Z (MNode v1 d1 t1 Closest) G ST RM AP)|apply (comes_waypoint _ _ _ _ _ _ _ 1%Z (MNode v2 d2 t2 Closest) G ST RM AP)]; now rewrite WP.
Qed.
Print Assumptions C87_from_current.

(** ** Current1f: a value, at rest *)
Theorem C87_current_holds : forall ev i local v velocity sp ev1 s deltas ev2 s2,
  getz ev i = Some s -> room local -> set_target ev i local (tar_current v velocity) = Some (sp, ev1) ->
  advance_frames ev1 deltas = Some ev2 -> Forall (small_step sp) deltas -> getz ev2 i = Some s2 ->
  slot_derivative s2 = 0 /\ exists y, stands_for (modular_range s) v y /\ 0 <= y - cur_y s2 <= length_ (y_range sp) / 65535.
Proof.
  intros ev i local v vel sp ev1 s deltas ev2 s2 G RM ST AF SM G2. assert (AP : apart s (tar_current v vel)) by exact I.
  pose proof (apart_built _ _ _ _ _ _ _ G ST RM AP) as B. destruct (bt_start _ _ _ _ B) as (y & d & last & ys & m & made & SV & _ & _ & _ & _ & _ & MK & FM & N & X0 & _).
  change (waypoints s (tar_current v vel)) with (@nil mnode) in FM. assert (made = []) as -> by (inversion FM; reflexivity).
  destruct (run_target _ _ _ _ _ _ _ _ _ _ G ST B AF SM G2) as (d' & SA & ->).
  assert (V : cur_y s2 = node_y m (y_range sp) /\ d' = 0).
  { destruct SA as [? ? ? Y D|? ? ? Y D|j a b J J'].
    - split; [|exact D]. unfold start_y, front in Y. rewrite N in Y. cbn in Y. congruence.
    - split; [|exact D]. unfold end_y in Y. rewrite (back_of sp [] m N) in Y. congruence.
    - rewrite N in J, J'. apply getz_Some in J. apply getz_Some in J'. cbn in J, J'. lia. }
  destruct V as [-> ->]. split; [reflexivity|]. exists y. split; [|now apply C31_y_error in MK].
  unfold start_value in SV. change (getz (tar_current v vel) 0) with (Some (MNode v vel 0 Closest)) in SV. change (override_current s (tar_current v vel)) with true in SV. cbv iota in SV. cbn [mn_value] in SV.
  unfold stands_for, slot_node_value in *. destruct (valid (modular_range s)) eqn:VM; [now apply wild_congr|congruence].
Qed.
Print Assumptions C87_current_holds.

(** ** Constant velocity *)
(** A target from time zero to a second waypoint: the spline has two nodes. *)
Lemma two_nodes s a b local sp : mn_time a = 0%Z -> (0 < mn_time b)%Z -> built s [a; b] local sp ->
  exists y0 y1 m0 m1, slot_node_value s (mn_value a) = Some y0 /\ waypoint_ys s y0 [b] = Some [y1] /\
    y_range sp = calculate_y_range s [a; b] y0 /\ x_granularity sp = IZR (mn_time b) / 65535 /\
    make_node 0 y0 (mn_velocity a) (x_granularity sp) (y_range sp) = Some m0 /\
    make_node (IZR (mn_time b)) y1 (mn_velocity b) (x_granularity sp) (y_range sp) = Some m1 /\
    nodes sp = [m0; m1] /\ node_x m0 (x_granularity sp) = 0 /\ node_x m1 (x_granularity sp) = IZR (mn_time b) /\ (nx m0 < nx m1)%Z.
Proof.
  intros A B BT. pose proof (ok_granularity sp (bt_ok _ _ _ _ BT)) as GP. destruct (bt_start _ _ _ _ BT) as (y & d & last & ys & m & made & SV & SD & LA & EY & YR & XG & MK & FM & N & X0 & SO).
  assert (OC : override_current s [a; b] = true) by (unfold override_current; rewrite A; reflexivity).
  assert (WP : waypoints s [a; b] = [b]) by (unfold waypoints; now rewrite OC). rewrite WP in EY, FM.
  unfold start_value in SV. unfold start_velocity in SD. change (getz [a; b] 0) with (Some a) in *. rewrite OC in *. injection SD as <-.
  change (getz [a; b] (len [a; b] - 1)) with (Some b) in LA. injection LA as <-. pose proof (ys_length _ _ _ _ EY) as L1.
  destruct ys as [|y1 [|? ?]]; try discriminate. unfold calls_of in FM. cbn [combine map] in FM. inversion FM as [|c m1 ? ? M1 F1]; subst. inversion F1; subst. clear FM F1.
  unfold makes in M1. cbn [waypoint_call c_x c_y c_derivative fst snd] in M1. apply IZR_lt in B as B'.
  assert (XE : x_granularity sp = IZR (mn_time b) / 65535) by (rewrite XG; unfold recommend_x_granularity, kMaxX; rewrite Rleb_f by lra; reflexivity).
  exists y, y1, m, m1. split; [exact SV|]. split; [exact EY|]. split; [exact YR|]. split; [exact XE|]. split; [exact MK|]. split; [exact M1|]. split; [exact N|]. split; [unfold node_x; rewrite X0; ring|].
  split; [|cbn [map] in SO; rewrite X0; inversion SO as [|? ? _ F]; subst; now inversion F].
  destruct (C31_exact _ _ _ _ _ _ GP M1) as [_ EX]. apply (EX 65535%Z); [lia|]. rewrite XE. field.
Qed.

(** What such a spline is worth between its two nodes. *)
Lemma two_at sp m0 m1 w x v d : spline_ok sp -> nodes sp = [m0; m1] -> node_x m0 (x_granularity sp) = 0 -> node_x m1 (x_granularity sp) = w -> 0 < w -> (nx m0 < nx m1)%Z ->
  spline_at sp x v d -> 0 <= x <= w ->
  let c := cubic_init (node_y m0 (y_range sp)) (node_derivative m0) (node_y m1 (y_range sp)) (node_derivative m1) w in
  v = keval c x /\ (0 < x -> d = kderiv c x).
Proof.
  intros O N X0 X1 W NL SA X. cbv zeta. pose proof (ok_granularity sp O) as GP. destruct SA as [sx SX LE SY D|ex EX LE EY D|j a b J J' R _ SV].
  - unfold start_x, start_y, front in SX, SY. rewrite N in SX, SY. cbn in SX, SY. injection SX as <-. injection SY as <-. rewrite X0 in LE. assert (x = 0) as -> by lra.
    split; [|lra]. unfold keval, cubic_init. cbn [k0 k1 k2 k3]. ring.
  - exfalso. unfold end_x in EX. rewrite (back_of sp [m0] m1 N) in EX. injection EX as <-. unfold num_nodes in LE. rewrite N, X1 in LE. change (len [m0; m1]) with 2%Z in LE. destruct LE as [LE|[LE _]]; [lra|lia].
  - rewrite N in J, J'. pose proof (getz_Some _ _ _ J) as RJ. pose proof (getz_Some _ _ _ J') as RJ'. change (len [m0; m1]) with 2%Z in RJ, RJ'. assert (j = 0)%Z as -> by lia.
    unfold segment_value in SV. rewrite N in SV. change (getz [m0; m1] 0) with (Some m0) in SV. change (getz [m0; m1] (0 + 1)) with (Some m1) in SV. cbv beta iota zeta in SV.
    replace (IZR (nx m1 - nx m0) * x_granularity sp) with w in SV by (rewrite minus_IZR; unfold node_x in X0, X1; lra). rewrite X0, Rminus_0_r in SV. injection SV as <- <-. auto.
Qed.

Lemma hermite_slope y0 y1 d w u : 0 < w -> kderiv (cubic_init y0 d y1 d w) (u * w) = (y1 - y0) / w + (d - (y1 - y0) / w) * (1 - 6 * u + 6 * u * u).
Proof. intros W. unfold kderiv, cubic_init. cbn [k3 k2 k1 k0]. rewrite Rltb_t by exact W. field. lra. Qed.

(** Without modular arithmetic: during the whole time the value is that of the straight line
    from the one value to the other, and the velocity is that of the line, up to the
    rounding of the compressed spline (values to 1/65535 of the range, slope angles to
    pi/32768). *)
Theorem C87_const_velocity : forall ev i local v0 v1 time t sp ev1 s deltas ev2 s2,
  tar_const_velocity v0 v1 time = Some t -> getz ev i = Some s -> valid (modular_range s) = false -> room local -> set_target ev i local t = Some (sp, ev1) ->
  advance_frames ev1 deltas = Some ev2 -> Forall (small_step sp) deltas -> getz ev2 i = Some s2 ->
  let x := sum deltas in let T := IZR time in let speed := (v1 - v0) / T in
  0 <= x <= T ->
  Rabs (cur_y s2 - (v0 + speed * x)) <= 3 * Rabs (v1 - v0) / 65535 + T * (1 + speed * speed) * (PI / 327680) /\
  (0 < x -> Rabs (slot_derivative s2 - speed) <= 12 * Rabs speed / 65535 + 2 * (1 + speed * speed) * (PI / 32768)).
Proof.
  intros ev i local v0 v1 time t sp ev1 s deltas ev2 s2 HT G VM RM ST AF SM G2. cbv zeta. intros X. unfold tar_const_velocity, target_of2 in HT. destruct (0 <? time)%Z eqn:TP in HT; [|discriminate].
  cbn [mn_time Z.leb Z.compare andb] in HT. rewrite TP in HT. injection HT as <-. assert (T1 : (0 < time)%Z) by lia. apply IZR_lt in T1 as TR. set (T := IZR time) in *. set (sl := (v1 - v0) / T) in *.
  set (a := MNode v0 sl 0 Closest) in *. set (b := MNode v1 sl time Direct) in *.
  assert (AP : apart s [a; b]).
  { unfold apart, grain. change (getz [a; b] (len [a; b] - 1)) with (Some b). change (waypoints s [a; b]) with [b]. cbn [spaced b mn_time]. fold T. unfold recommend_x_granularity, kMaxX. rewrite Rleb_f by lra. repeat split; [lia|lra]. }
  pose proof (apart_built _ _ _ _ _ _ _ G ST RM AP) as B. pose proof (bt_ok _ _ _ _ B) as O.
  destruct (two_nodes s a b local sp eq_refl T1 B) as (y0 & y1 & m0 & m1 & SV & EY & YR & XG & M0 & M1 & N & X0 & X1 & NL).
  destruct (C44_precision _ _ _ _ _ _ _ G ST RM AP) as [_ PR]. specialize (PR VM (Rmin v0 v1) (Rmax v0 v1)).
  assert (LY : length_ (y_range sp) <= 22 / 10 * Rabs (v1 - v0)).
  { replace (Rabs (v1 - v0)) with (Rmax v0 v1 - Rmin v0 v1) by (minmax; rabs; lra). apply PR; [|discriminate]. repeat (apply Forall_cons; [cbn [a b mn_value]; minmax; lra|]); constructor. }
  unfold slot_node_value in SV. rewrite VM in SV. cbn [a mn_value] in SV. injection SV as <-.
  cbn [waypoint_ys] in EY. unfold slot_node_value, slot_next_y in EY. rewrite VM in EY. cbn [b mn_value] in EY. injection EY as <-.
  cbn [a b mn_time mn_velocity] in M0, M1, X1. fold T in M1, X1.
  pose proof (C31_y_error _ _ _ _ _ _ M0) as Y0. pose proof (C31_y_error _ _ _ _ _ _ M1) as Y1. pose proof (derivative_rounding _ _ _ _ _ _ M0) as D0.
  pose proof (ok_granularity sp O) as GP. pose proof (make_node_inv _ _ _ _ _ _ GP M0) as (_ & _ & A0 & _). pose proof (make_node_inv _ _ _ _ _ _ GP M1) as (_ & _ & A1 & _).
  assert (DE : node_derivative m1 = node_derivative m0) by (unfold node_derivative; congruence).
  destruct (run_target _ _ _ _ _ _ _ _ _ _ G ST B AF SM G2) as (d' & SA & ->). destruct (two_at sp m0 m1 T _ _ _ O N X0 X1 TR NL SA X) as [V DV].
  rewrite DE in V, DV. set (z0 := node_y m0 (y_range sp)) in *. set (z1 := node_y m1 (y_range sp)) in *. set (D := node_derivative m0) in *. set (x := sum deltas) in *.
  set (u := x / T). assert (UW : x = u * T) by (unfold u; field; lra).
  assert (U : 0 <= u <= 1).
  { unfold u. split; [apply Rmult_le_pos; [lra|left; now apply Rinv_0_lt_compat]|]. apply Rmult_le_reg_r with T; [exact TR|]. unfold Rdiv. rewrite Rmult_assoc, Rinv_l by lra. lra. }
  rewrite UW in V, DV. rewrite hermite in V by exact TR. rewrite hermite_slope in DV by exact TR.
  set (L := Rabs (v1 - v0)) in *. assert (SE : v1 - v0 = sl * T) by (unfold sl; field; lra). assert (LE : L = Rabs sl * T) by (unfold L; rewrite SE, Rabs_mult, (Rabs_right T) by lra; reflexivity).
  unfold length_ in LY. set (m := 22 / 10 * L / 65535) in *. assert (EA : Rabs (z0 - v0) <= m) by (apply Rabs_le; unfold m; lra). assert (EB : Rabs (z1 - v1) <= m) by (apply Rabs_le; unfold m; lra).
  split.
  - pose proof (chord_error (z0 - v0) (z1 - v1) (D - sl) u T _ m U TR EA EB D0) as ERR. rewrite V, UW.
    replace (z0 + (z1 - z0) * u + (T * D - (z1 - z0)) * (u * (1 - u) * (1 - 2 * u)) - (v0 + sl * (u * T)))
      with ((1 - u) * (z0 - v0) + u * (z1 - v1) + (T * (D - sl) + (z0 - v0 - (z1 - v1))) * (u * (1 - u) * (1 - 2 * u))).
    2: { replace v1 with (v0 + sl * T) by lra. ring. }
    eapply Rle_trans; [exact ERR|]. unfold m. assert (0 <= L) by apply Rabs_pos. replace (T * ((1 + sl * sl) * (PI / 32768)) / 10) with (T * (1 + sl * sl) * (PI / 327680)) by field. lra.
  - intros X'. rewrite DV by lra. set (q := 1 - 6 * u + 6 * u * u). assert (Q : Rabs q <= 1).
    { unfold q. apply Rabs_le. assert (0 <= u * (1 - u) <= 1 / 4) by (split; [apply Rmult_le_pos; lra|pose proof (Rle_0_sqr (u - 1 / 2)) as S2; unfold Rsqr in S2; lra]). lra. }
    set (e := (1 + sl * sl) * (PI / 32768)) in *. set (c := (z1 - z0) / T). set (n := 44 / 10 * Rabs sl / 65535).
    assert (CE : Rabs (c - sl) <= n).
    { replace (c - sl) with (((z1 - v1) - (z0 - v0)) / T) by (unfold c; replace v1 with (v0 + sl * T) by lra; field; lra). unfold Rdiv. rewrite Rabs_mult, (Rabs_right (/ T)) by (left; now apply Rinv_0_lt_compat).
      apply Rmult_le_reg_r with T; [exact TR|]. rewrite Rmult_assoc, Rinv_l, Rmult_1_r by lra. unfold n. unfold m in EA, EB. rewrite LE in EA, EB. revert EA EB. rabs; lra. }
    assert (PE : 0 <= n) by (unfold n; pose proof (Rabs_pos sl); lra).
    assert (DC : Rabs (D - c) <= e + n) by (revert D0 CE; rabs; lra).
    assert (Rabs ((D - c) * q) <= (e + n) * 1) by (rewrite Rabs_mult; apply Rmult_le_compat; try apply Rabs_pos; assumption).
    replace (c + (D - c) * q - sl) with ((c - sl) + (D - c) * q) by ring. eapply Rle_trans; [apply Rabs_triang|].
    replace (2 * (1 + sl * sl) * (PI / 32768)) with (2 * e) by (unfold e; ring). assert (0 <= e) by (pose proof (Rabs_pos (D - sl)); lra). unfold n in *. pose proof (Rabs_pos sl). lra.
Qed.
Print Assumptions C87_const_velocity.

(** It can always be set. *)
Theorem C87_const_velocity_succeeds : forall ev i local v0 v1 time s,
  (0 < time)%Z -> getz ev i = Some s -> valid (modular_range s) = false -> (2 < max_nodes local <= 65534)%Z ->
  exists t sp ev1, tar_const_velocity v0 v1 time = Some t /\ set_target ev i local t = Some (sp, ev1).
Proof.
  intros ev i local v0 v1 time s T G V MX. destruct (tar_const_velocity v0 v1 time) as [t|] eqn:E.
  2: { exfalso. destruct (C87_made v0 0 v1 0 time 0 0 0 Closest) as (_ & _ & [_ Q] & _). now apply Q. }
  exists t. unfold tar_const_velocity, target_of2 in E. destruct (0 <? time)%Z eqn:TP in E; [|discriminate]. cbn [mn_time Z.leb Z.compare andb] in E. rewrite TP in E. injection E as <-.
  destruct (C44_succeeds ev i local [MNode v0 ((v1 - v0) / IZR time) 0 Closest; MNode v1 ((v1 - v0) / IZR time) time Direct] s) as (sp & ev1 & Q); [exact G|exact V|discriminate|cbn; lia| |].
  - set (b := MNode v1 _ _ _). unfold apart, grain. change (getz [_; b] (len [_; b] - 1)) with (Some b). change (waypoints s [_; b]) with [b]. cbn [spaced b mn_time]. apply IZR_lt in T as TR.
    unfold recommend_x_granularity, kMaxX. rewrite Rleb_f by lra. repeat split; [lia|lra].
  - exists sp, ev1. auto.
Qed.
Print Assumptions C87_const_velocity_succeeds.

(** With modular arithmetic it is not a line: a whole turn, 0 to 360 degrees in 100 ticks,
    is at 0 degrees after half of the time instead of at 180. *)
Theorem C87_whole_turn_refuted : exists s t, tar_const_velocity 0 360 100 = Some t /\ modular_range s = degrees /\
  (exists local sp ev1, room local /\ set_target [s] 0 local t = Some (sp, ev1)) /\
  forall ev i local sp ev1 deltas ev2 s2, getz ev i = Some s -> room local -> set_target ev i local t = Some (sp, ev1) ->
    advance_frames ev1 deltas = Some ev2 -> Forall (small_step sp) deltas -> getz ev2 i = Some s2 -> sum deltas = 50 -> Rabs (cur_y s2) <= 1 / 10.
Proof.
  set (sl := (360 - 0) / 100). set (a := MNode 0 sl 0 Closest). set (b := MNode 360 sl 100 Direct).
  exists (holding 0 peak), [a; b]. split; [reflexivity|]. split; [reflexivity|].
  assert (AP : apart (holding 0 peak) [a; b]).
  { unfold apart, grain. change (getz [a; b] (len [a; b] - 1)) with (Some b). change (waypoints _ [a; b]) with [b]. cbn [spaced b mn_time]. unfold recommend_x_granularity, kMaxX. rewrite Rleb_f by lra. repeat split; lra. }
  split.
  { destruct (C44_modular_succeeds_partial [holding 0 peak] 0 (Spline range_default 1 [] 4) [a; b] (holding 0 peak) 180) as (sp & ev1 & Q).
    1: reflexivity.
    1: cbn; unfold degrees; f_equal; lra.
    1: lra.
    1: discriminate.
    1: cbn; lia.
    1: exact AP.
    1: cbn; lia.
    1: { apply Forall_cons; [left; reflexivity|]. apply Forall_cons; [right; reflexivity|constructor]. }
    exists (Spline range_default 1 [] 4), sp, ev1. split; [unfold room; cbn; lia|exact Q]. }
  intros ev i local sp ev1 deltas ev2 s2 G RM ST AF SM G2 SU.
  pose proof (apart_built _ _ _ _ _ _ _ G ST RM AP) as B. pose proof (bt_ok _ _ _ _ B) as O. set (s := holding 0 peak) in *.
  destruct (two_nodes s a b local sp eq_refl eq_refl B) as (y0 & y1 & m0 & m1 & SV & EY & YR & XG & M0 & M1 & N & X0 & X1 & NL).
  unfold slot_node_value in SV. change (modular_range s) with degrees in SV. rewrite degrees_valid in SV. cbn [a mn_value] in SV. rewrite degrees_wild in SV by lra. injection SV as <-.
  cbn [waypoint_ys] in EY. unfold slot_node_value, slot_next_y in EY. change (modular_range s) with degrees in EY. rewrite degrees_valid in EY. cbn [b mn_value mn_direction mod_diff] in EY.
  replace (normalize_wild degrees 360) with (Some 0) in EY by (symmetry; apply wild_unique; [cbn; lra|cbn; lra|exists (-1)%Z; unfold length_; cbn; lra]). injection EY as EY.
  assert (y1 = 0) as -> by lra. clear EY. cbn [a b mn_time mn_velocity] in M0, M1, X1.
  pose proof (C31_y_error _ _ _ _ _ _ M0) as Y0. pose proof (ok_granularity sp O) as GP. pose proof (make_node_inv _ _ _ _ _ _ GP M0) as (_ & _ & A0 & YY0). pose proof (make_node_inv _ _ _ _ _ _ GP M1) as (_ & _ & A1 & YY1).
  assert (DE : node_derivative m1 = node_derivative m0) by (unfold node_derivative; congruence).
  assert (YE : node_y m1 (y_range sp) = node_y m0 (y_range sp)) by (unfold node_y; congruence).
  destruct (run_target _ _ _ _ _ _ _ _ _ _ G ST B AF SM G2) as (d' & SA & _). rewrite SU in SA. destruct (two_at sp m0 m1 100 _ _ _ O N X0 X1 ltac:(lra) NL SA ltac:(lra)) as [V _].
  rewrite DE, YE in V. replace 50 with (1 / 2 * 100) in V by lra. rewrite hermite in V by lra. rewrite V.
  assert (length_ (y_range sp) = 1080). { rewrite YR. unfold calculate_y_range. change (modular_range s) with degrees. rewrite degrees_valid. change (len [a; b]) with 2%Z. unfold lengthen, length_, degrees. cbn. lra. }
  unfold length_ in H. replace (node_y m0 (y_range sp) + _ * (1 / 2) + _) with (node_y m0 (y_range sp)) by lra. rabs; lra.
Qed.

(** A case for the theorems above: from 1 to 3 in 100 ticks, on an index holding 1. *)
Example C87_case : exists t sp ev1, tar_const_velocity 1 3 100 = Some t /\ set_target [still] 0 (Spline range_default 1 [] 4) t = Some (sp, ev1) /\ room (Spline range_default 1 [] 4) /\ valid (modular_range still) = false.
Proof.
  assert (V : valid (modular_range still) = false) by (unfold valid; cbn; apply Rleb_f; lra).
  destruct (C87_const_velocity_succeeds [still] 0 (Spline range_default 1 [] 4) 1 3 100 still) as (t & sp & ev1 & A & B); auto; try lia; [cbn; lia|]. exists t, sp, ev1. repeat split; auto; cbn; lia.
Qed.

(** ** More dimensions *)
Lemma each_getz {A} (f : A -> option (list mnode)) l : forall ts, each f l = Some ts -> len ts = len l /\ forall i a, getz l i = Some a -> exists t, f a = Some t /\ getz ts i = Some t.
Proof.
  induction l as [|a l IH]; intros ts H; cbn [each] in H.
  - injection H as <-. split; [reflexivity|]. intros i a Q. apply getz_Some in Q. cbn in Q. lia.
  - destruct (f a) as [t|] eqn:F; [|discriminate]. destruct (each f l) as [ts'|]; [|discriminate]. injection H as <-. destruct (IH _ eq_refl) as [L G]. split; [rewrite !len_cons; lia|].
    intros i b Q. change (a :: l) with ([a] ++ l) in Q. change (t :: ts') with ([t] ++ ts'). destruct (Z.eq_dec i 0) as [->|NZ].
    + cbn in Q. injection Q as <-. exists t. auto.
    + pose proof (getz_Some _ _ _ Q). rewrite getz_app2 in Q by (change (len [a]) with 1%Z; lia). rewrite getz_app2 by (change (len [t]) with 1%Z; lia). change (len [a]) with 1%Z in Q. change (len [t]) with 1%Z. now apply G.
Qed.
Lemma combine_getz {A B} (l : list A) : forall (m : list B) i a b, getz l i = Some a -> getz m i = Some b -> getz (combine l m) i = Some (a, b).
Proof.
  assert (C : forall X (x : X) l i, i <> 0%Z -> getz (x :: l) i = getz l (i - 1)).
  { intros X x l' i NZ. destruct (Z_lt_dec i 0) as [N|N].
    - destruct (getz (x :: l') i) eqn:Q; [apply getz_Some in Q; lia|]. destruct (getz l' (i - 1)) eqn:Q'; [apply getz_Some in Q'; lia|reflexivity].
    - change (x :: l') with ([x] ++ l'). rewrite getz_app2 by (change (len [x]) with 1%Z; lia). reflexivity. }
  induction l as [|x l IH]; intros m i a b L M; [apply getz_Some in L; cbn in L; lia|]. destruct m as [|y m]; [apply getz_Some in M; cbn in M; lia|]. cbn [combine].
  destruct (Z.eq_dec i 0) as [->|NZ]; [cbn in *; congruence|]. rewrite C in L, M |- * by exact NZ. now apply IH.
Qed.

(** The i-th target of a vector target is the one-dimensional target of the i-th coordinates. *)
Theorem C87_dimensions : forall (values velocities targets target_velocities : list R) time d i a b v w ts,
  getz values i = Some a -> getz velocities i = Some v -> getz targets i = Some b -> getz target_velocities i = Some w ->
  (vec_current values velocities = Some ts -> getz ts i = Some (tar_current a v)) /\
  (vec_target targets target_velocities time d = Some ts -> exists t, tar_target b w time d = Some t /\ getz ts i = Some t) /\
  (vec_current_to_target values velocities targets target_velocities time d = Some ts -> exists t, tar_current_to_target a v b w time d = Some t /\ getz ts i = Some t) /\
  (vec_const_velocity values targets time = Some ts -> exists t, tar_const_velocity a b time = Some t /\ getz ts i = Some t).
Proof.
  intros vs vels tgs tvs time d i a b v w ts A V B W. split; [|split; [|split]]; intros H; apply each_getz in H; destruct H as [_ H].
  - destruct (H i (a, v)) as (t & E & G); [now apply combine_getz|]. injection E as <-. exact G.
  - exact (H i (b, w) ltac:(now apply combine_getz)).
  - exact (H i (a, v, (b, w)) ltac:(apply combine_getz; now apply combine_getz)).
  - exact (H i (a, b) ltac:(now apply combine_getz)).
Qed.
Print Assumptions C87_dimensions.

(** All of the dimensions exist. *)
Theorem C87_dimensions_made : forall values targets velocities time, (0 < time)%Z ->
  (exists ts, vec_current values velocities = Some ts) /\ (exists ts, vec_const_velocity values targets time = Some ts).
Proof.
  intros values targets velocities time T. split.
  - unfold vec_current. induction (combine values velocities) as [|p l [ts E]]; cbn [each]; [eexists; reflexivity|]. rewrite E. eexists. reflexivity.
  - unfold vec_const_velocity. induction (combine values targets) as [|p l [ts E]]; cbn [each]; [eexists; reflexivity|]. rewrite E.
    destruct (tar_const_velocity (fst p) (snd p) time) eqn:Q; [eexists; reflexivity|]. exfalso. destruct (C87_made (fst p) 0 (snd p) 0 time 0 0 0 Closest) as (_ & _ & [_ K] & _). now apply K.
Qed.
Print Assumptions C87_dimensions_made.
