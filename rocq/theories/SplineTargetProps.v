(** C44: SetTarget of the spline processor. *)
From Verif Require Import RBase BaseFacts RangeModel RangeProofs CurveModel CompactSplineModel CompactSplineSpec CompactSplineProofs CompactSplineAdd CompactSplineProps CompactSplineEvalProps EvaluatorModel EvaluatorSpec EvaluatorProofs EvaluatorPlay EvaluatorProps SplineTargetModel SplineTargetProofs.
From Coq Require Import Sorting.Sorted.

(** The grain of time: the last time over 65535. *)
Definition grain (t : list mnode) : R := match getz t (len t - 1) with Some n => recommend_x_granularity (IZR (mn_time n)) | None => 1 end.

(** Waypoints that the grid of times tells apart.  (Times are integers, so increasing
    positive times up to 65535 always are.) *)
Definition apart (s : slot) (t : list mnode) : Prop := spaced (grain t) 0 (waypoints s t).
Definition room (local : spline) : Prop := (0 <= max_nodes local <= 65534)%Z.

Lemma apart_built ev i local t sp ev1 s : getz ev i = Some s -> set_target ev i local t = Some (sp, ev1) -> room local -> apart s t -> built s t local sp.
Proof.
  intros G ST RM A. apply build_built; [apply (set_target_inv _ _ _ _ _ _ _ G ST)|exact RM|]. intros last L. unfold apart, grain in A. now rewrite L in A.
Qed.
Lemma built_grain s t local sp : built s t local sp -> x_granularity sp = grain t.
Proof. intros B. destruct (bt_start _ _ _ _ B) as (y & d & last & ys & n0 & made & _ & _ & L & _ & _ & XG & _). unfold grain. now rewrite L. Qed.

(** Right after SetTarget: the value is the current one (in a modular range: the
    equivalent inside the range), or that of the first node if it has time zero or
    nothing is playing, up to one rung of 1/65535 of the spline's y range.  The velocity
    is the current one (or that of the first node) up to pi/32768 of slope angle, provided
    a waypoint follows; a spline of a single node is at rest. *)
Theorem C44_start : forall ev i local t sp ev1 s s1 n0,
  getz ev i = Some s -> set_target ev i local t = Some (sp, ev1) -> getz ev1 i = Some s1 -> getz t 0 = Some n0 ->
  room local -> apart s t ->
  let now := if override_current s t then mn_value n0 else cur_y s in
  let velocity := if override_current s t then mn_velocity n0 else slot_derivative s in
  (exists y, stands_for (modular_range s) now y /\
    (valid (modular_range s) = true -> start_ (modular_range s) < y <= end_ (modular_range s)) /\
    0 <= y - cur_y s1 <= length_ (y_range sp) / 65535) /\
  (waypoints s t <> [] -> Rabs (atan velocity - atan (slot_derivative s1)) < PI / 32768) /\
  (waypoints s t = [] -> slot_derivative s1 = 0).
Proof.
  intros ev i local t sp ev1 s s1 n0 G ST G1 N0 RM AP. cbv zeta. pose proof (apart_built _ _ _ _ _ _ _ G ST RM AP) as B.
  pose proof (set_target_slot _ _ _ _ _ _ _ _ G ST G1) as SS. pose proof (bt_ok _ _ _ _ B) as O.
  destruct (bt_start _ _ _ _ B) as (y & d & last & ys & m & made & SV & SD & _ & EY & _ & _ & MK & FM & N & X0 & SO).
  assert (A0 : getz (nodes sp) 0 = Some m) by (rewrite N; reflexivity).
  assert (SA : exists d', spline_at sp 0 (cur_y s1) d' /\ slot_derivative s1 = d').
  { apply (run_target ev i local t sp ev1 s [] ev1 s1); auto. }
  assert (V : cur_y s1 = node_y m (y_range sp)).
  { destruct SA as (d' & SA & _). replace 0 with (node_x m (x_granularity sp)) in SA by (unfold node_x; rewrite X0; ring).
    apply (C37_value_at_node sp 0 m (cur_y s1) d' O A0); [|exact SA]. intros j m' J E. apply (sorted_lt_unique (nodes sp)) with m' m; auto.
    rewrite N. cbn [map]. now rewrite X0. }
  split; [|split].
  - exists y. split; [|split].
    + unfold start_value in SV. rewrite N0 in SV. unfold stands_for. unfold slot_node_value, slot_normalized_y, slot_normalize_y in SV.
      destruct (override_current s t), (valid (modular_range s)) eqn:VM; try congruence; [now apply wild_congr|].
      destruct (Rlt_dec (start_ (modular_range s)) (end_ (modular_range s))) as [L|L].
      * rewrite close_ok in SV by exact L. now apply wild_congr.
      * exfalso. apply valid_iff in VM. rewrite close_zero in SV by lra. discriminate.
    + intros VM. unfold start_value in SV. rewrite N0 in SV. unfold slot_node_value, slot_normalized_y, slot_normalize_y in SV. rewrite VM in SV.
      destruct (Rlt_dec (start_ (modular_range s)) (end_ (modular_range s))) as [L|L].
      * rewrite close_ok in SV by exact L. destruct (wild_ok (modular_range s) (mn_value n0) L) as (y1 & E1 & R1 & _).
        destruct (wild_ok (modular_range s) (cur_y s) L) as (y2 & E2 & R2 & _). rewrite E1, E2 in SV.
        destruct (override_current s t); injection SV as <-; assumption.
      * exfalso. apply valid_iff in VM. assert (E : length_ (modular_range s) = 0) by (unfold length_; lra).
        rewrite close_zero in SV by lra. unfold normalize_wild in SV. rewrite Reqb_t in SV by exact E. destruct (override_current s t); discriminate.
    + rewrite V. apply C31_y_error in MK. exact MK.
  - intros W. destruct (start_slope s t local sp s1 B W SS) as (m' & M' & SL). rewrite A0 in M'. injection M' as <-. rewrite SL.
    unfold start_velocity in SD. rewrite N0 in SD. injection SD as <-. apply C31_derivative_error in MK. apply MK.
  - intros W. destruct SA as (d' & SA & ->). rewrite W in FM. unfold calls_of in FM. cbn [combine map] in FM. inversion FM; subst made.
    destruct SA as [? ? ? ? D|? ? ? ? D|j a b J J']; [exact D|exact D|]. rewrite N in J, J'. apply getz_Some in J. apply getz_Some in J'. cbn in J, J'. lia.
Qed.
Print Assumptions C44_start.

(** Every waypoint: at a time within half a grain of the one asked for (exactly that time
    for the last waypoint) the value is the one asked for, or in a modular range one
    equivalent to it, up to one rung. *)
Theorem C44_waypoints : forall ev i local t sp ev1 s k n,
  getz ev i = Some s -> set_target ev i local t = Some (sp, ev1) -> room local -> apart s t ->
  getz (waypoints s t) k = Some n ->
  exists x y, Rabs (x - IZR (mn_time n)) <= grain t / 2 /\ (k = len (waypoints s t) - 1 -> x = IZR (mn_time n))%Z /\
    stands_for (modular_range s) (mn_value n) y /\
    forall deltas ev2 s2, advance_frames ev1 deltas = Some ev2 -> Forall (fun d => 0 <= d <= 2147000000 * grain t) deltas ->
      sum deltas = x -> getz ev2 i = Some s2 -> 0 <= y - cur_y s2 <= length_ (y_range sp) / 65535.
Proof.
  intros ev i local t sp ev1 s k n G ST RM AP K. pose proof (apart_built _ _ _ _ _ _ _ G ST RM AP) as B.
  pose proof (bt_ok _ _ _ _ B) as O. pose proof (ok_granularity sp O) as GP. pose proof (built_grain _ _ _ _ B) as GE.
  destruct (bt_start _ _ _ _ B) as (y & d & last & ys & m & made & SV & SD & LA & EY & _ & XG & MK & FM & N & X0 & SO).
  destruct (ys_stand _ _ _ _ EY k n K) as (z & Z & SZ).
  destruct (Forall2_getz _ _ _ FM k _ (calls_getz _ _ _ _ _ K Z)) as (p & P & MP). unfold makes in MP. cbn [waypoint_call c_x c_y c_derivative] in MP.
  pose proof (getz_Some _ _ _ P) as RP.
  assert (A : getz (nodes sp) (k + 1) = Some p).
  { rewrite N. change (m :: made) with ([m] ++ made). rewrite getz_app2 by (cbn; lia). change (len [m]) with 1%Z. now replace (k + 1 - 1)%Z with k by lia. }
  assert (T0 : 0 < IZR (mn_time n)).
  { apply (IZR_lt 0). apply (spaced_after (grain t) (waypoints s t)); [exact AP|]. apply getz_split in K. destruct K as (? & ? & -> & _). apply in_elt. }
  exists (node_x p (x_granularity sp)), z. rewrite <- GE. split; [|split; [|split; [exact SZ|]]].
  - apply (C31_x_error _ _ _ _ _ _ GP) with (2 := MP). lra.
  - intros KL. assert (n = last) as ->.
    { unfold waypoints in *. destruct (override_current s t) eqn:OC; [|rewrite KL in K; congruence]. destruct t as [|t0 t]; [discriminate|].
      cbn [tl] in *. subst k. change (t0 :: t) with ([t0] ++ t) in LA. rewrite len_app in LA. change (len [t0]) with 1%Z in LA. pose proof (getz_Some _ _ _ K).
      rewrite getz_app2 in LA by (change (len [t0]) with 1%Z; lia). change (len [t0]) with 1%Z in LA. replace (1 + len t - 1 - 1)%Z with (len t - 1)%Z in LA by lia. congruence. }
    destruct (C31_exact _ _ _ _ _ _ GP MP) as [_ EX]. apply (EX 65535%Z); [lia|]. rewrite XG. unfold recommend_x_granularity. rewrite Rleb_f by lra.
    unfold kMaxX. field.
  - intros deltas ev2 s2 AF SM SU G2. destruct (run_target _ _ _ _ _ _ _ deltas ev2 s2 G ST B AF) as (d' & SA & _); auto.
    rewrite SU in SA. rewrite (C37_value_at_node sp (k + 1) p (cur_y s2) d' O A); [|intros j m' J E|exact SA].
    + apply C31_y_error in MP. exact MP.
    + apply (sorted_lt_unique (nodes sp)) with m' p; auto. rewrite N. cbn [map]. now rewrite X0.
Qed.
Print Assumptions C44_waypoints.

(** How wide the y range, and so how high a rung, is. *)
Theorem C44_precision : forall ev i local t sp ev1 s,
  getz ev i = Some s -> set_target ev i local t = Some (sp, ev1) -> room local -> apart s t ->
  (valid (modular_range s) = true -> length_ (y_range sp) = (1 + IZR (len t)) * length_ (modular_range s)) /\
  (valid (modular_range s) = false -> forall lo hi, Forall (fun n => lo <= mn_value n <= hi) t ->
     (override_current s t = false -> lo <= cur_y s <= hi) -> length_ (y_range sp) <= 22 / 10 * (hi - lo)).
Proof.
  intros ev i local t sp ev1 s G ST RM AP. pose proof (apart_built _ _ _ _ _ _ _ G ST RM AP) as B.
  destruct (bt_start _ _ _ _ B) as (y & d & last & ys & m & made & SV & _ & _ & _ & YR & _). rewrite YR. unfold calculate_y_range. split; intros V; rewrite V.
  - unfold lengthen, length_. cbn [start_ end_]. field.
  - intros lo hi F C. destruct (value_range_ok t y y ltac:(lra)) as (A & D & _ & E). fold (value_range t y) in A, D, E. rewrite Forall_forall in F.
    assert (Y : lo <= y <= hi).
    { unfold start_value in SV. destruct (getz t 0) as [n0|] eqn:N0; [|discriminate]. unfold slot_node_value, slot_normalized_y, slot_normalize_y in SV. rewrite V in SV.
      destruct (override_current s t); [|injection SV as <-; now apply C]. injection SV as <-. apply F. apply getz_split in N0. destruct N0 as (? & ? & -> & _). apply in_elt. }
    destruct (E lo hi) as [E1 E2]; try lra; [exact F|]. unfold lengthen, length_, kYRangeBufferPercent. cbn [start_ end_]. lra.
Qed.
Print Assumptions C44_precision.

(** ** Success *)
Lemma spaced_times g l : forall prev, spaced g prev l -> forall n, In n l -> forall last, getz l (len l - 1) = Some last -> (mn_time n <= mn_time last)%Z.
Proof.
  induction l as [|m l IH]; intros prev S n I last L; [destruct I|]. cbn [spaced] in S. destruct S as (A & B & C).
  destruct l as [|m' l]; [destruct I as [->|[]]; cbn in L; injection L as <-; lia|].
  assert (L' : getz (m' :: l) (len (m' :: l) - 1) = Some last).
  { change (m :: m' :: l) with ([m] ++ (m' :: l)) in L. rewrite len_app in L. change (len [m]) with 1%Z in L. pose proof (len_nonneg l). rewrite len_cons in *.
    rewrite getz_app2 in L by (change (len [m]) with 1%Z; lia). change (len [m]) with 1%Z in L. now replace (1 + (1 + len l) - 1 - 1)%Z with (1 + len l - 1)%Z in L by lia. }
  destruct I as [->|I]; [|exact (IH _ C n I last L')]. apply Z.lt_le_incl, (spaced_after g (m' :: l)); [exact C|].
  apply getz_split in L'. destruct L' as (? & ? & E & _). rewrite E. apply in_elt.
Qed.

Lemma last_waypoint s t last : waypoints s t <> [] -> getz t (len t - 1) = Some last -> getz (waypoints s t) (len (waypoints s t) - 1) = Some last.
Proof.
  unfold waypoints. destruct (override_current s t); [|auto]. destruct t as [|t0 t]; [auto|]. cbn [tl]. intros N LA.
  change (t0 :: t) with ([t0] ++ t) in LA. rewrite len_app in LA. change (len [t0]) with 1%Z in LA. assert (1 <= len t)%Z by (destruct t; [congruence|rewrite len_cons; pose proof (len_nonneg t); lia]).
  rewrite getz_app2 in LA by (change (len [t0]) with 1%Z; lia). change (len [t0]) with 1%Z in LA. now replace (1 + len t - 1 - 1)%Z with (len t - 1)%Z in LA by lia.
Qed.

(** With the y values inside the y range, nothing fails. *)
Lemma target_succeeds ev i local t s y ys : getz ev i = Some s -> (len t < max_nodes local <= 65534)%Z -> t <> [] -> apart s t ->
  start_value s t = Some y -> waypoint_ys s y (waypoints s t) = Some ys ->
  Forall (fun z => start_ (calculate_y_range s t y) <= z <= end_ (calculate_y_range s t y)) (y :: ys) ->
  exists sp ev1, set_target ev i local t = Some (sp, ev1).
Proof.
  intros G MX NE AP SV EY F. unfold set_target. rewrite G.
  assert (BT : exists sp, build_target local s t = Some sp).
  { destruct (getz_in_range t 0) as [n0 N0]; [destruct t; [congruence|rewrite len_cons; pose proof (len_nonneg t); lia]|].
    destruct (getz_in_range t (len t - 1)) as [last LA]; [apply getz_Some in N0; lia|].
    unfold build_target. rewrite SV. unfold start_velocity. rewrite N0, LA. cbv zeta beta iota. set (d := if override_current s t then _ else _).
    pose proof (recommend_pos (IZR (mn_time last))) as GP. unfold apart, grain in AP. rewrite LA in AP. set (g := recommend_x_granularity _) in *. set (r := calculate_y_range s t y) in *.
    inversion F as [|? ? FY FYS]; subst.
    destruct (C30_call_makes_node g r (Call 0 y d EnsureCubicWellBehaved) GP) as [m M]; [cbn; lra|exact FY|]. unfold makes in M. cbn [c_x c_y c_derivative] in M.
    pose proof (len_nonneg t) as LT.
    assert (A0 : exists sp1, add_node (init local r g) 0 y d EnsureCubicWellBehaved = Some sp1).
    { unfold add_node. cbn [init x_granularity y_range]. rewrite M. cbn [back init nodes num_nodes]. unfold add_node_verbatim, num_nodes. cbn [init nodes max_nodes len].
      destruct (_ <? _)%Z eqn:E; [eexists; reflexivity|]. change (len []) with 0%Z in E. lia. }
    destruct A0 as [sp1 A0]. rewrite A0. apply add_first in A0. destruct A0 as (m' & M' & N1 & R1 & G1 & X1). rewrite M in M'. injection M' as <-.
    rewrite add_waypoints_calls, EY.
    assert (MADE : exists made, Forall2 (makes g r) (calls_of (waypoints s t) ys) made).
    { assert (FC : forall c, In c (calls_of (waypoints s t) ys) -> exists n, makes g r c n).
      { intros c I. unfold calls_of in I. apply in_map_iff in I. destruct I as [[n z] [<- I]]. pose proof (in_combine_l _ _ _ _ I) as I1. pose proof (in_combine_r _ _ _ _ I) as I2.
        apply C30_call_makes_node; [exact GP| |cbn; rewrite Forall_forall in FYS; now apply FYS]. cbn [fst waypoint_call c_x].
        pose proof (spaced_after _ _ _ _ AP I1) as T0.
        pose proof (spaced_times _ _ _ AP n I1 last (last_waypoint s t last ltac:(intros Q; rewrite Q in I1; destruct I1) LA)) as T1.
        split; [apply (IZR_le 0); lia|]. assert (0 < IZR (mn_time last)) by (apply (IZR_lt 0); lia). apply IZR_le in T1.
        unfold g, recommend_x_granularity, kMaxX. rewrite Rleb_f by lra. lra. }
      clear - FC. induction (calls_of (waypoints s t) ys) as [|c l IH]; [exists []; constructor|].
      destruct (FC c (or_introl eq_refl)) as [n N]. destruct IH as [ms MS]; [intros c' I; apply FC; now right|]. exists (n :: ms). constructor; auto. }
    destruct MADE as [made FM]. destruct (calls_sorted g GP (waypoints s t) ys 0 ltac:(lia) AP) as [CS CA].
    assert (MXE : map nx made = map (call_x g) (calls_of (waypoints s t) ys)).
    { clear - FM GP. induction FM as [|c n cs ns F FM IH]; [reflexivity|]. cbn [map]. f_equal; [|exact IH]. now apply (make_node_x _ _ _ _ _ _ GP F). }
    apply (add_plain_list_succeeds _ sp1 made); rewrite ?G1, ?R1; auto.
    - apply Forall_forall. intros c I. unfold calls_of in I. apply in_map_iff in I. destruct I as [p [<- _]]. reflexivity.
    - rewrite MXE. clear - CS. induction CS as [|q l S IH F]; constructor; auto. eapply Forall_impl; [|exact F]. intros; lia.
    - intros b n Eb I. rewrite (back_of sp1 [] m N1) in Eb. injection Eb as <-. apply (make_node_x _ _ _ _ _ _ GP) in M. rewrite M.
      apply (in_map nx) in I. rewrite MXE in I. apply in_map_iff in I. destruct I as [c [<- I]]. rewrite Forall_forall in CA. apply Z.lt_le_incl, (CA c I).
    - unfold num_nodes. rewrite N1, X1. change (len [m]) with 1%Z. unfold calls_of. rewrite len_map. unfold len. rewrite combine_length.
      assert (length (waypoints s t) <= length t)%nat by (unfold waypoints; destruct (override_current s t); [destruct t; cbn; lia|lia]). unfold len in MX. lia. }
  destruct BT as [sp BT]. rewrite BT. assert (B : built s t local sp).
  { apply build_built; [exact BT|pose proof (len_nonneg t); lia|]. intros last LA. unfold apart, grain in AP. now rewrite LA in AP. }
  destruct (set_each_succeeds (playback_from 0) 1 ev i [sp]) as [ev1 E1].
  - apply getz_Some in G. lia.
  - cbn. lia.
  - intros j s' sp' J GJ GS. assert (j = i) as -> by lia. rewrite Z.sub_diag in GS. cbn in GS. injection GS as <-.
    destruct (set_spline_jump s' sp (playback_from 0) (start_ok_built _ _ _ _ B)) as (s1 & x & Q & _); [right; cbn; lra|]. congruence.
  - exists sp, ev1. cbn [set_splines]. now rewrite E1.
Qed.

(** Without modular arithmetic SetTarget succeeds, whatever the current state. *)
Theorem C44_succeeds : forall ev i local t s,
  getz ev i = Some s -> valid (modular_range s) = false -> t <> [] -> (len t < max_nodes local <= 65534)%Z -> apart s t ->
  exists sp ev1, set_target ev i local t = Some (sp, ev1).
Proof.
  intros ev i local t s G V NE MX AP. destruct (getz_in_range t 0) as [n0 N0]; [destruct t; [congruence|rewrite len_cons; pose proof (len_nonneg t); lia]|].
  set (y := if override_current s t then mn_value n0 else cur_y s).
  assert (SV : start_value s t = Some y).
  { unfold start_value, slot_node_value, slot_normalized_y, slot_normalize_y. rewrite N0, V. unfold y. destruct (override_current s t); reflexivity. }
  assert (EY : forall l prev, waypoint_ys s prev l = Some (map mn_value l)).
  { induction l as [|n l IH]; intros prev; cbn [waypoint_ys map]; [reflexivity|]. unfold slot_node_value, slot_next_y. rewrite V, IH. reflexivity. }
  apply (target_succeeds ev i local t s y (map mn_value (waypoints s t))); auto.
  unfold calculate_y_range. rewrite V. destruct (value_range_ok t y y ltac:(lra)) as (A & B & C & _). fold (value_range t y) in A, B, C.
  assert (W : forall z, start_ (value_range t y) <= z <= end_ (value_range t y) ->
    start_ (lengthen (value_range t y) kYRangeBufferPercent) <= z <= end_ (lengthen (value_range t y) kYRangeBufferPercent)).
  { intros z Z. unfold lengthen, length_, kYRangeBufferPercent. cbn [start_ end_]. lra. }
  constructor; [apply W; lra|]. apply Forall_forall. intros z Z. apply in_map_iff in Z. destruct Z as [n [<- I]]. apply W, C.
  unfold waypoints in I. destruct (override_current s t); [|exact I]. destruct t; [destruct I|now right].
Qed.
Print Assumptions C44_succeeds.

(** In a modular range that is symmetric about zero it succeeds when the direction of
    every waypoint is the default (closest) or direct and there are at most two. *)
Theorem C44_modular_succeeds_partial : forall ev i local t s h,
  getz ev i = Some s -> modular_range s = Rg (- h) h -> 0 < h -> t <> [] -> (len t < max_nodes local <= 65534)%Z -> apart s t ->
  (len (waypoints s t) <= 2)%Z -> Forall (fun n => mn_direction n = Closest \/ mn_direction n = Direct) t ->
  exists sp ev1, set_target ev i local t = Some (sp, ev1).
Proof.
  intros ev i local t s h G M H NE MX AP L2 FD. assert (V : valid (modular_range s) = true) by (rewrite M; apply valid_iff; cbn; lra).
  assert (LR : start_ (Rg (- h) h) < end_ (Rg (- h) h)) by (cbn; lra).
  destruct (getz_in_range t 0) as [n0 N0]; [destruct t; [congruence|rewrite len_cons; pose proof (len_nonneg t); lia]|].
  assert (SV : exists y, start_value s t = Some y /\ - h < y <= h).
  { unfold start_value, slot_node_value, slot_normalized_y, slot_normalize_y. rewrite N0, V, M, close_ok by exact LR.
    destruct (wild_ok _ (mn_value n0) LR) as (y1 & E1 & R1 & _). destruct (wild_ok _ (cur_y s) LR) as (y2 & E2 & R2 & _). cbn [start_ end_] in *.
    destruct (override_current s t); eauto. }
  destruct SV as (y & SV & YR).
  assert (STEP : forall n prev, mn_direction n = Closest \/ mn_direction n = Direct -> - 2 * h < prev <= 2 * h ->
    exists v z, slot_node_value s (mn_value n) = Some v /\ slot_next_y s prev v (mn_direction n) = Some z /\ (- h < z <= h \/ - h < z - prev <= h)).
  { intros n prev D P. unfold slot_node_value, slot_next_y. rewrite V, M. destruct (wild_ok _ (mn_value n) LR) as (v & E & R & _). cbn [start_ end_] in R. rewrite E. exists v.
    destruct D as [->| ->]; cbn [mod_diff].
    - unfold mod_diff_close. destruct (normalize_ok (Rg (- h) h) (v - prev) LR) as [NO _]. rewrite NO by (unfold length_; cbn [start_ end_]; lra).
      destruct (wild_ok _ (v - prev) LR) as (c & EC & RC & _). cbn [start_ end_] in RC. rewrite EC. exists (prev + c). repeat split. right. lra.
    - exists (prev + (v - prev)). repeat split. left. lra. }
  assert (FW : Forall (fun n => mn_direction n = Closest \/ mn_direction n = Direct) (waypoints s t)).
  { unfold waypoints. destruct (override_current s t); [|exact FD]. destruct t; [constructor|]. now inversion FD. }
  assert (LW : (len (waypoints s t) <= len t)%Z).
  { unfold waypoints. destruct (override_current s t); [|lia]. destruct t; [cbn; lia|]. rewrite len_cons. cbn [tl]. lia. }
  assert (YS : exists ys, waypoint_ys s y (waypoints s t) = Some ys /\ Forall (fun z => - (1 + IZR (len t)) * h <= z <= (1 + IZR (len t)) * h) ys).
  { assert (B : forall k, (0 <= k)%Z -> (k <= len t)%Z -> (1 + IZR k) * h <= (1 + IZR (len t)) * h).
    { intros k K0 K. apply Rmult_le_compat_r; [lra|]. apply IZR_le in K. lra. }
    destruct (waypoints s t) as [|w1 [|w2 [|w3 ws]]]; [| | |cbn in L2; lia].
    - exists []. split; [reflexivity|constructor].
    - inversion FW as [|? ? D1 _]; subst. destruct (STEP w1 y D1 ltac:(lra)) as (v1 & z1 & E1 & E1' & Z1). cbn [waypoint_ys]. rewrite E1, E1'. exists [z1]. split; [reflexivity|].
      specialize (B 1%Z ltac:(lia) LW). repeat (apply Forall_cons; [lra|]); constructor.
    - inversion FW as [|? ? D1 FW']; subst. inversion FW' as [|? ? D2 _]; subst. destruct (STEP w1 y D1 ltac:(lra)) as (v1 & z1 & E1 & E1' & Z1).
      destruct (STEP w2 z1 D2 ltac:(lra)) as (v2 & z2 & E2 & E2' & Z2). cbn [waypoint_ys]. rewrite E1, E1', E2, E2'. exists [z1; z2]. split; [reflexivity|].
      specialize (B 2%Z ltac:(lia) LW). repeat (apply Forall_cons; [lra|]); constructor. }
  destruct YS as (ys & EY & FY). apply (target_succeeds ev i local t s y ys); auto.
  unfold calculate_y_range. rewrite V, M. unfold lengthen, length_. cbn [start_ end_].
  assert (1 * h <= (1 + IZR (len t)) * h) by (apply Rmult_le_compat_r; [lra|]; pose proof (len_nonneg t) as Q; apply IZR_le in Q; lra).
  constructor; [lra|]. eapply Forall_impl; [|exact FY]. intros z Z. cbv beta in Z. lra.
Qed.
Print Assumptions C44_modular_succeeds_partial.

(** ** Where it fails *)
Definition degrees : range := Rg (-180) 180.
(** An index with modular range +-180 degrees that holds the value [y]. *)
Definition holding (y : R) (sp : spline) : slot := Slot 1 0 1 (Some sp) 0 false degrees 0 None (Cubic 0 0 0 y) y.

Lemma degrees_wild v : - 180 < v <= 180 -> normalize_wild degrees v = Some v.
Proof. intros H. apply wild_unique; [cbn; lra|cbn; lra|apply congr_refl]. Qed.
Lemma degrees_close v : - 180 < v <= 180 -> normalize_close degrees v = Some v.
Proof. intros H. rewrite close_ok by (cbn; lra). now apply degrees_wild. Qed.
Lemma degrees_valid : valid degrees = true.
Proof. apply valid_iff. cbn. lra. Qed.
Lemma degrees_normalize x k y : - 540 < x <= 540 -> y = x + IZR k * 360 -> - 180 < y <= 180 -> normalize degrees x = Some y.
Proof.
  intros X Y R. destruct (normalize_ok degrees x) as [N _]; [cbn; lra|]. rewrite N by (unfold length_; cbn; lra).
  apply wild_unique; [cbn; lra|cbn; lra|]. exists k. unfold length_. cbn. lra.
Qed.

(** From 170 degrees to 160, turning in the positive direction, by way of 350 degrees:
    the curve ends at 520, which is outside the y range of 360 either side that
    CalculateYRange chooses for one node, and the assert in CompactY fails.  (It does not
    count the node for the start; its comment says one whole range per node suffices, but
    Lengthen adds half of the length at each end.) *)
Theorem C44_direction_refuted : exists s n, valid (modular_range s) = true /\ source s <> None /\ apart s [n] /\
  forall ev i local, getz ev i = Some s -> set_target ev i local [n] = None.
Proof.
  exists (holding 170 peak), (MNode 160 0 100 Positive). split; [apply degrees_valid|]. split; [discriminate|]. split.
  { unfold apart, grain. cbn. unfold recommend_x_granularity, kMaxX. rewrite Rleb_f by lra. repeat split; lra || lia. }
  intros ev i local G. unfold set_target. rewrite G. replace (build_target local _ _) with (@None spline); [reflexivity|].
  unfold build_target, start_value, start_velocity, waypoints, override_current. cbn [getz mn_time holding source Z.eqb orb].
  change (getz [MNode 160 0 100 Positive] 0) with (Some (MNode 160 0 100 Positive)). cbv beta iota.
  unfold slot_normalized_y, slot_normalize_y. cbn [holding modular_range cur_y]. rewrite degrees_valid, degrees_close by lra.
  change (getz [MNode 160 0 100 Positive] (len [MNode 160 0 100 Positive] - 1)) with (Some (MNode 160 0 100 Positive)). cbv beta iota zeta.
  destruct (add_node (init local _ _) 0 170 _ EnsureCubicWellBehaved) as [sp1|] eqn:E; [|reflexivity].
  apply add_first in E. destruct E as (m & _ & _ & R1 & _). cbn [add_waypoints]. unfold slot_node_value, slot_next_y. cbn [holding modular_range mn_value mn_direction mn_time mn_velocity].
  rewrite degrees_valid, degrees_wild by lra. cbn [mod_diff]. unfold mod_diff_positive, mod_diff_close.
  rewrite (degrees_normalize (160 - 170) 0 (-10)) by lra. rewrite Rleb_f by lra.
  replace (add_node sp1 _ _ _ _) with (@None spline); [reflexivity|]. unfold add_node, make_node, compact_y. rewrite R1. unfold calculate_y_range. cbn [holding modular_range].
  rewrite degrees_valid. unfold contains, lengthen, length_, degrees. cbn [start_ end_]. change (len _) with 1%Z. rewrite (Rleb_f (170 + _)) by lra. rewrite andb_false_r.
  destruct (compact_x _ _); reflexivity.
Qed.

(** From 120 degrees, three waypoints, each the shorter way round: 299, 478, and then -63
    is 541 degrees away, too far for Range::Normalize, whose assert fails. *)
Theorem C44_closest_refuted : exists s t, valid (modular_range s) = true /\ source s <> None /\ apart s t /\ len t = 3%Z /\
  Forall (fun n => mn_direction n = Closest /\ - 180 < mn_value n <= 180) t /\
  forall ev i local, getz ev i = Some s -> set_target ev i local t = None.
Proof.
  exists (holding 120 peak), [MNode (-61) 0 100 Closest; MNode 118 0 200 Closest; MNode (-63) 0 300 Closest]. split; [apply degrees_valid|]. split; [discriminate|]. split.
  { unfold apart, grain. replace (getz _ (len _ - 1)) with (Some (MNode (-63) 0 300 Closest)) by reflexivity. cbn. unfold recommend_x_granularity, kMaxX. rewrite Rleb_f by lra. repeat split; lra || lia. }
  split; [reflexivity|]. split; [repeat constructor; cbn; lra|].
  intros ev i local G. unfold set_target. rewrite G. set (t := [MNode (-61) _ _ _; _; _]) in *. replace (build_target local _ _) with (@None spline); [reflexivity|].
  unfold build_target. destruct (start_value (holding 120 peak) t) as [y|] eqn:SV; [|reflexivity]. destruct (start_velocity (holding 120 peak) t); [|reflexivity].
  destruct (getz t (len t - 1)); [|reflexivity]. cbv zeta. destruct (add_node _ _ _ _ _); [|reflexivity]. rewrite add_waypoints_calls.
  assert (Y : y = 120).
  { revert SV. unfold start_value. change (getz t 0) with (Some (MNode (-61) 0 100 Closest)). change (override_current (holding 120 peak) t) with false. cbv beta iota.
    unfold slot_normalized_y, slot_normalize_y. cbn [holding modular_range cur_y]. rewrite degrees_valid, degrees_close by lra. congruence. }
  subst y. change (waypoints (holding 120 peak) t) with t. unfold t. cbn [waypoint_ys]. unfold slot_node_value, slot_next_y. cbn [holding modular_range mn_value mn_direction mod_diff].
  unfold mod_diff_close. rewrite degrees_valid, !degrees_wild by lra. rewrite (degrees_normalize (-61 - 120) 1 179) by lra.
  rewrite (degrees_normalize (118 - (120 + 179)) 1 179) by lra. destruct (normalize_ok degrees (-63 - (120 + 179 + 179))) as [_ NN]; [cbn; lra|].
  rewrite NN; [reflexivity|]. unfold length_. cbn. lra.
Qed.

(** A case in which C44_start and C44_waypoints apply: from value 1, to 3 at time 50 and
    2 at time 100. *)
Definition still : slot := Slot 1 0 1 (Some peak) 0 false range_default 0 None (Cubic 0 0 0 1) 1.
Definition trip : list mnode := [MNode 3 0 50 Closest; MNode 2 (-1) 100 Closest].
Example C44_case : apart still trip /\ waypoints still trip = trip /\ valid (modular_range still) = false /\
  exists sp ev1, set_target [still] 0 (Spline range_default 1 [] 4) trip = Some (sp, ev1).
Proof.
  assert (A : apart still trip).
  { unfold apart, grain. replace (getz trip (len trip - 1)) with (Some (MNode 2 (-1) 100 Closest)) by reflexivity. cbn. unfold recommend_x_granularity, kMaxX. rewrite Rleb_f by lra. repeat split; lra || lia. }
  assert (V : valid (modular_range still) = false) by (unfold valid; cbn; apply Rleb_f; lra).
  split; [exact A|]. split; [reflexivity|]. split; [exact V|]. apply C44_succeeds with still; auto; [discriminate|cbn; lia].
Qed.
