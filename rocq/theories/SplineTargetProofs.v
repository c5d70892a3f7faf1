(** What SplineTargetProps.v needs about splines built by SetTarget. *)
From Verif Require Import RBase BaseFacts RangeModel RangeProofs CurveModel CompactSplineModel CompactSplineSpec CompactSplineProofs CompactSplineAdd CompactSplineIndex CompactSplineProps CompactSplineEvalProps EvaluatorModel EvaluatorSpec EvaluatorProofs EvaluatorPlay EvaluatorProps SplineTargetModel.
From Coq Require Import Sorting.Sorted.

(** Times that start after [prev] and are at least [g] apart. *)
Fixpoint spaced (g : R) (prev : Z) (l : list mnode) : Prop :=
  match l with
  | [] => True
  | n :: l' => (prev < mn_time n)%Z /\ g <= IZR (mn_time n) - IZR prev /\ spaced g (mn_time n) l'
  end.

Lemma spaced_weaken g prev prev' l : (prev' <= prev)%Z -> spaced g prev l -> spaced g prev' l.
Proof.
  intros L. destruct l as [|n l]; [auto|]. cbn [spaced]. intros (A & B & C). apply IZR_le in L as L'. repeat split; auto; [lia|lra].
Qed.
Lemma spaced_after g l : forall prev n, spaced g prev l -> In n l -> (prev < mn_time n)%Z.
Proof.
  induction l as [|m l IH]; intros prev n S []; cbn [spaced] in S; destruct S as (A & B & C); [now subst|]. specialize (IH _ _ C H). lia.
Qed.

Definition waypoint_call (n : mnode) (y : R) : call := Call (IZR (mn_time n)) y (mn_velocity n) AddWithoutModification.

(** The y values of the nodes. *)
Fixpoint waypoint_ys (s : slot) (prev_y : R) (l : list mnode) : option (list R) :=
  match l with
  | [] => Some []
  | n :: l' =>
      target_y <- slot_node_value s (mn_value n) ;;
      y <- slot_next_y s prev_y target_y (mn_direction n) ;;
      ys <- waypoint_ys s y l' ;; Some (y :: ys)
  end.
Definition calls_of (l : list mnode) (ys : list R) : list call := map (fun p => waypoint_call (fst p) (snd p)) (combine l ys).

Lemma add_waypoints_calls s l : forall sp prev, add_waypoints s sp prev l = (ys <- waypoint_ys s prev l ;; add_nodes sp (calls_of l ys)).
Proof.
  induction l as [|n l IH]; intros sp prev; cbn [add_waypoints waypoint_ys]; [reflexivity|].
  destruct (slot_node_value s (mn_value n)) as [v|]; [|reflexivity]. destruct (slot_next_y s prev v (mn_direction n)) as [y|]; [|reflexivity].
  destruct (waypoint_ys s y l) as [ys|] eqn:E.
  - cbn [calls_of combine map add_nodes]. change (map _ (combine l ys)) with (calls_of l ys). cbn [waypoint_call fst snd c_x c_y c_derivative c_method].
    destruct (add_node sp _ _ _ _) as [sp'|]; [|reflexivity]. rewrite IH, E. reflexivity.
  - destruct (add_node sp _ _ _ _) as [sp'|]; [|reflexivity]. rewrite IH, E. reflexivity.
Qed.

Lemma ys_length s l : forall prev ys, waypoint_ys s prev l = Some ys -> length ys = length l.
Proof.
  induction l as [|n l IH]; intros prev ys; cbn [waypoint_ys].
  - intros H. injection H as <-. reflexivity.
  - destruct (slot_node_value s (mn_value n)) as [v|]; [|discriminate]. destruct (slot_next_y s prev v (mn_direction n)) as [y|]; [|discriminate].
    destruct (waypoint_ys s y l) as [ys'|] eqn:E; [|discriminate]. intros H. injection H as <-. cbn [length]. f_equal. eapply IH; eauto.
Qed.

(** ** The nodes *)
Definition call_x (g : R) (c : call) : Z := Rtrunc (c_x c / g + 1 / 2).

Lemma add_first s y d m n sp1 : add_node (init s y d) 0 m n EnsureCubicWellBehaved = Some sp1 ->
  exists k, make_node 0 m n d y = Some k /\ nodes sp1 = [k] /\ y_range sp1 = y /\ x_granularity sp1 = d /\ max_nodes sp1 = max_nodes s.
Proof.
  unfold add_node. cbn [init x_granularity y_range]. destruct (make_node 0 m n d y) as [k|]; [|discriminate]. cbn [back init nodes num_nodes].
  intros H. apply verbatim_inv in H. destruct H as (N & _ & A & B & C). exists k. auto.
Qed.

Lemma add_plain_exact calls : forall s s', 0 < x_granularity s -> add_nodes s calls = Some s' ->
  Forall (fun c => c_method c = AddWithoutModification) calls ->
  StronglySorted Z.lt (map (call_x (x_granularity s)) calls) ->
  (forall b c, back s = Some b -> In c calls -> (nx b < call_x (x_granularity s) c)%Z) ->
  exists made, Forall2 (makes (x_granularity s) (y_range s)) calls made /\ nodes s' = nodes s ++ made /\
    y_range s' = y_range s /\ x_granularity s' = x_granularity s /\ max_nodes s' = max_nodes s.
Proof.
  induction calls as [|c calls IH]; intros s s' G H P S B; cbn [add_nodes] in H.
  - injection H as <-. exists []. rewrite app_nil_r. repeat split; constructor.
  - inversion P as [|? ? PC P']; subst. cbn [map] in S. apply StronglySorted_inv in S. destruct S as [S SA].
    destruct (add_node s (c_x c) (c_y c) (c_derivative c) (c_method c)) as [s1|] eqn:E; [|discriminate].
    destruct (make_node (c_x c) (c_y c) (c_derivative c) (x_granularity s) (y_range s)) as [n|] eqn:M;
      [|unfold add_node in E; rewrite M in E; discriminate].
    pose proof (make_node_x _ _ _ _ _ _ G M) as NX.
    assert (V : add_node_verbatim s n = Some s1).
    { rewrite (added_unfold _ _ _ _ _ _ M), PC in E. destruct (back s) as [b|] eqn:Eb; [|exact E].
      specialize (B b c eq_refl (or_introl eq_refl)). unfold call_x in B. rewrite <- NX in B.
      destruct (nx b <=? nx n)%Z; [|discriminate]. destruct (node_eqb b n) eqn:Q; [apply node_eqb_true in Q; subst; lia|].
      destruct (Z.eqb_spec (nx b) (nx n)); [lia|]. exact E. }
    apply verbatim_inv in V. destruct V as (N1 & _ & F1 & F2 & F3).
    destruct (IH s1 s') as (made & FM & NM & G1 & G2 & G3); rewrite ?F2; auto.
    { intros b c' Eb I. rewrite (back_of s1 (nodes s) n N1) in Eb. injection Eb as <-. rewrite NX.
      rewrite Forall_forall in SA. apply (SA (call_x _ c')). now apply in_map. }
    exists (n :: made). rewrite F1, F2 in FM. split; [constructor; assumption|]. rewrite NM, N1, <- app_assoc. repeat split; congruence.
Qed.

Lemma calls_sorted g : 0 < g -> forall l ys prev, (0 <= prev)%Z -> spaced g prev l ->
  StronglySorted Z.lt (map (call_x g) (calls_of l ys)) /\ Forall (fun c => (Rtrunc (IZR prev / g + 1 / 2) < call_x g c)%Z) (calls_of l ys).
Proof.
  intros G. assert (ST : forall a b, (0 <= a)%Z -> g <= IZR b - IZR a -> (Rtrunc (IZR a / g + 1 / 2) < Rtrunc (IZR b / g + 1 / 2))%Z).
  { intros a b A D. assert (0 <= IZR a / g) by (apply Rmult_le_pos; [now apply (IZR_le 0)|left; now apply Rinv_0_lt_compat]).
    assert (IZR a / g + 1 <= IZR b / g). { apply Rmult_le_reg_r with g; [lra|]. unfold Rdiv. rewrite Rmult_plus_distr_r, !Rmult_assoc, Rinv_l by lra. lra. }
    destruct (Rtrunc_bounds (IZR a / g + 1 / 2)) as [B1 _]. specialize (B1 ltac:(lra)).
    destruct (Rtrunc_bounds (IZR b / g + 1 / 2)) as [B2 _]. specialize (B2 ltac:(lra)).
    apply Z.lt_le_trans with (Rtrunc (IZR a / g + 1 / 2) + 1)%Z; [lia|]. apply Z.lt_succ_r. unfold Z.succ. apply lt_IZR. rewrite !plus_IZR. lra. }
  induction l as [|n l IH]; intros ys prev P S; [split; constructor|]. destruct ys as [|y ys]; [split; constructor|].
  cbn [spaced] in S. destruct S as (A & B & C). change (calls_of (n :: l) (y :: ys)) with (waypoint_call n y :: calls_of l ys).
  destruct (IH ys (mn_time n) ltac:(lia) C) as [I1 I2]. specialize (ST prev (mn_time n) P B). split.
  - cbn [map]. constructor; [exact I1|]. rewrite Forall_forall in *. intros q Q. apply in_map_iff in Q. destruct Q as [c [<- I]]. apply I2, I.
  - constructor; [exact ST|]. rewrite Forall_forall in *. intros c I. specialize (I2 c I). lia.
Qed.

Lemma recommend_pos x : 0 < recommend_x_granularity x.
Proof. unfold recommend_x_granularity. destruct (Rleb_spec x 0); [lra|]. unfold kMaxX. lra. Qed.

(** What SetTarget has built. *)
Record built (s : slot) (t : list mnode) (local sp : spline) : Prop := {
  bt_start : exists y d last ys n0 made,
    start_value s t = Some y /\ start_velocity s t = Some d /\ getz t (len t - 1) = Some last /\
    waypoint_ys s y (waypoints s t) = Some ys /\
    y_range sp = calculate_y_range s t y /\ x_granularity sp = recommend_x_granularity (IZR (mn_time last)) /\
    make_node 0 y d (x_granularity sp) (y_range sp) = Some n0 /\
    Forall2 (makes (x_granularity sp) (y_range sp)) (calls_of (waypoints s t) ys) made /\
    nodes sp = n0 :: made /\ nx n0 = 0%Z /\
    StronglySorted Z.lt (0%Z :: map nx made);
  bt_ok : spline_ok sp
}.

Lemma value_range_ok t : forall a b, a <= b -> let r := fold_left (fun r n => Rg (Rmin (mn_value n) (start_ r)) (Rmax (mn_value n) (end_ r))) t (Rg a b) in
  start_ r <= a /\ b <= end_ r /\ (forall n, In n t -> start_ r <= mn_value n <= end_ r) /\
  (forall lo hi, lo <= a -> b <= hi -> (forall n, In n t -> lo <= mn_value n <= hi) -> lo <= start_ r /\ end_ r <= hi).
Proof.
  induction t as [|n t IH]; intros a b L; cbn [fold_left].
  - cbn [start_ end_]. repeat split; try lra; destruct H.
  - cbn [start_ end_]. specialize (IH (Rmin (mn_value n) a) (Rmax (mn_value n) b) ltac:(minmax; lra)). cbv zeta in *.
    set (r := fold_left _ t _) in *. destruct IH as (A & B & C & D). repeat split; try (minmax; lra).
    + destruct H as [->|H]; [|now apply C]. minmax; lra.
    + destruct H as [->|H]; [|now apply C]. minmax; lra.
    + apply (D lo hi); [|minmax; try lra; apply H1; now left|intros m I; apply H1; now right].
      specialize (H1 n (or_introl eq_refl)). minmax; lra.
    + apply (D lo hi); [|minmax; try lra; apply H1; now left|intros m I; apply H1; now right].
      specialize (H1 n (or_introl eq_refl)). minmax; lra.
Qed.

Lemma y_range_ok s t y : start_ (calculate_y_range s t y) <= end_ (calculate_y_range s t y).
Proof.
  unfold calculate_y_range. destruct (valid (modular_range s)) eqn:V.
  - apply valid_iff in V. unfold lengthen, length_. cbn [start_ end_]. pose proof (len_nonneg t) as L. apply IZR_le in L.
    assert (0 <= (end_ (modular_range s) - start_ (modular_range s)) * IZR (len t)) by (apply Rmult_le_pos; lra). lra.
  - destruct (value_range_ok t y y ltac:(lra)) as (A & B & _). unfold value_range, lengthen, length_, kYRangeBufferPercent in *. cbn [start_ end_] in *. lra.
Qed.

Lemma build_built s t local sp : build_target local s t = Some sp -> (0 <= max_nodes local <= 65534)%Z ->
  (forall last, getz t (len t - 1) = Some last -> spaced (recommend_x_granularity (IZR (mn_time last))) 0 (waypoints s t)) -> built s t local sp.
Proof.
  intros H M S. unfold build_target in H.
  destruct (start_value s t) as [y|] eqn:SV; [|discriminate]. destruct (start_velocity s t) as [d|] eqn:SD; [|discriminate].
  destruct (getz t (len t - 1)) as [last|] eqn:LA; [|discriminate]. specialize (S _ eq_refl). pose proof (recommend_pos (IZR (mn_time last))) as G.
  set (g := recommend_x_granularity (IZR (mn_time last))) in *. set (r := calculate_y_range s t y) in *. cbv zeta in H.
  destruct (add_node (init local r g) 0 y d EnsureCubicWellBehaved) as [sp1|] eqn:E1; [|discriminate]. pose proof E1 as E1'.
  apply add_first in E1. destruct E1 as (n0 & MK & N1 & R1 & G1 & X1). rewrite add_waypoints_calls in H.
  destruct (waypoint_ys s y (waypoints s t)) as [ys|] eqn:EY; [|discriminate].
  destruct (calls_sorted g G (waypoints s t) ys 0 ltac:(lia) S) as [CS CA].
  replace (0 / g + 1 / 2) with (1 / 2) in CA by (field; lra). rewrite (Rtrunc_IZR 0) in CA by (try lia; lra).
  pose proof (make_node_x _ _ _ _ _ _ G MK) as X0. replace (0 / g + 1 / 2) with (1 / 2) in X0 by (field; lra). rewrite (Rtrunc_IZR 0) in X0 by (try lia; lra).
  destruct (add_plain_exact (calls_of (waypoints s t) ys) sp1 sp) as (made & FM & NM & R2 & G2 & X2); rewrite ?G1; auto.
  { apply Forall_forall. intros c I. unfold calls_of in I. apply in_map_iff in I. destruct I as [p [<- _]]. reflexivity. }
  { intros b c Eb I. rewrite (back_of sp1 [] n0 N1) in Eb. injection Eb as <-. rewrite X0. rewrite Forall_forall in CA. now apply CA. }
  rewrite N1 in NM. rewrite G1, R1 in *. split.
  - exists y, d, last, ys, n0, made. rewrite R2, G2. repeat split; auto.
    assert (MX : map nx made = map (call_x g) (calls_of (waypoints s t) ys)).
    { clear - FM G. induction FM as [|c n cs ns F FM IH]; [reflexivity|]. cbn [map]. f_equal; [|exact IH]. now apply (make_node_x _ _ _ _ _ _ G F). }
    rewrite MX. constructor; [exact CS|]. rewrite Forall_forall in *. intros q Q. apply in_map_iff in Q. destruct Q as [c [<- I]]. now apply CA.
  - apply (C30_built_ok local r g (Call 0 y d EnsureCubicWellBehaved :: calls_of (waypoints s t) ys)); auto; [apply y_range_ok|discriminate|].
    cbn [add_nodes c_x c_y c_derivative c_method]. rewrite E1'. exact H.
Qed.

(** ** The values *)
Lemma adjust_congr r x : congr r x (x + modular_adjustment r x).
Proof. unfold modular_adjustment. rcases; [exists 1%Z|exists (-1)%Z|exists 0%Z]; lra. Qed.
Lemma normalize_congr r x y : normalize r x = Some y -> congr r x y.
Proof. unfold normalize. cbv zeta. destruct (contains_excl_start _ _); [|discriminate]. intros H. injection H as <-. apply adjust_congr. Qed.
Lemma wild_congr r x y : normalize_wild r x = Some y -> congr r x y.
Proof.
  unfold normalize_wild. destruct (Reqb (length_ r) 0); [discriminate|]. cbv zeta. destruct (contains_excl_start _ _); [|discriminate].
  intros H. injection H as <-. eapply congr_trans; [|apply adjust_congr]. exists (- Rfloor ((x - start_ r) / length_ r))%Z. rewrite opp_IZR. ring.
Qed.
Lemma close_zero r x : start_ r = end_ r -> normalize_close r x = None.
Proof.
  intros E. assert (Z : length_ r = 0) by (unfold length_; lra). assert (W : forall y, normalize_wild r y = None) by (intros y; unfold normalize_wild; now rewrite Reqb_t).
  assert (L : forall (b : bool) fuel n y, (if b then y <= start_ r else end_ r < y) -> close_loop fuel r b y n = None).
  { intros b. induction fuel as [|f IH]; intros n y H; cbn [close_loop]; [reflexivity|]. cbv zeta. rewrite Z, !Rplus_0_r, !Rminus_0_r.
    destruct (4 <? n)%Z; [destruct b; apply W|]. destruct b; [rewrite Rleb_t by exact H|rewrite Rltb_t by exact H]; apply IH, H. }
  unfold normalize_close. cbv zeta. destruct (Rleb_spec x (start_ r)) as [H|H]; cbn [negb andb]; [apply (L true); exact H|].
  rewrite Rltb_t by lra. cbn [negb]. apply (L false). lra.
Qed.
Lemma shift_congr r x : congr r x (x + length_ r) /\ congr r x (x - length_ r).
Proof. split; [exists 1%Z|exists (-1)%Z]; lra. Qed.
Lemma add_congr r a x y : congr r x y -> congr r (a + x) (a + y).
Proof. intros [k ->]. exists k. ring. Qed.
Lemma mod_diff_congr r a b d c : mod_diff r a b d = Some c -> congr r b (a + c).
Proof.
  assert (N : forall c, normalize r (b - a) = Some c -> congr r b (a + c)).
  { intros c' H. apply normalize_congr, (add_congr r a) in H. replace (a + (b - a)) with b in H by ring. exact H. }
  destruct (shift_congr r c) as [_ _].
  unfold mod_diff, mod_diff_far, mod_diff_positive, mod_diff_negative, mod_diff_close.
  destruct d; [apply N|..|intros H; injection H as <-; replace (a + (b - a)) with b by ring; apply congr_refl];
    (destruct (normalize r (b - a)) as [c'|] eqn:E; [|discriminate]); intros H; specialize (N c' eq_refl); destruct (Rleb 0 c'); injection H as <-; try exact N;
    (eapply congr_trans; [exact N|]; apply add_congr); apply shift_congr.
Qed.

(** The value [y] stands for the value [v] asked for. *)
Definition stands_for (r : range) (v y : R) : Prop := if valid r then congr r v y else y = v.

Lemma next_stands s prev v d y y' : slot_node_value s v = Some y' -> slot_next_y s prev y' d = Some y -> stands_for (modular_range s) v y.
Proof.
  unfold slot_node_value, slot_next_y, stands_for. destruct (valid (modular_range s)); [|congruence]. intros W.
  destruct (mod_diff _ _ _ _) as [c|] eqn:E; [|discriminate]. intros H. injection H as <-. exact (congr_trans _ _ _ _ (wild_congr _ _ _ W) (mod_diff_congr _ _ _ _ _ E)).
Qed.
Lemma ys_stand s l : forall prev ys, waypoint_ys s prev l = Some ys -> forall k n, getz l k = Some n ->
  exists y, getz ys k = Some y /\ stands_for (modular_range s) (mn_value n) y.
Proof.
  induction l as [|m l IH]; intros prev ys; cbn [waypoint_ys]; [intros _ k n K; apply getz_Some in K; cbn in K; lia|].
  destruct (slot_node_value s (mn_value m)) as [v|] eqn:V; [|discriminate]. destruct (slot_next_y s prev v (mn_direction m)) as [y|] eqn:Y; [|discriminate].
  destruct (waypoint_ys s y l) as [ys'|] eqn:E; [|discriminate]. intros H. injection H as <-. intros k n K.
  pose proof (getz_Some _ _ _ K) as R. rewrite len_cons in R. destruct (Z.eq_dec k 0) as [->|NZ].
  - cbn in K. injection K as <-. exists y. split; [reflexivity|]. eapply next_stands; eauto.
  - change (m :: l) with ([m] ++ l) in K. change (y :: ys') with ([y] ++ ys'). rewrite getz_app2 by (cbn; lia).
    rewrite getz_app2 in K by (cbn; lia). exact (IH y ys' E _ _ K).
Qed.

Lemma Forall2_getz {A B} (P : A -> B -> Prop) l m : Forall2 P l m -> forall k a, getz l k = Some a -> exists b, getz m k = Some b /\ P a b.
Proof.
  induction 1 as [|a b l m H F IH]; intros k x K; [apply getz_Some in K; cbn in K; lia|].
  pose proof (getz_Some _ _ _ K) as R. rewrite len_cons in R. destruct (Z.eq_dec k 0) as [->|NZ].
  - cbn in K. injection K as <-. exists b. auto.
  - change (a :: l) with ([a] ++ l) in K. change (b :: m) with ([b] ++ m). rewrite getz_app2 by (cbn; lia).
    rewrite getz_app2 in K by (cbn; lia). exact (IH _ _ K).
Qed.
Lemma calls_getz l : forall ys k n y, getz l k = Some n -> getz ys k = Some y -> getz (calls_of l ys) k = Some (waypoint_call n y).
Proof.
  induction l as [|m l IH]; intros ys k n y K Y; [apply getz_Some in K; cbn in K; lia|].
  destruct ys as [|z ys]; [apply getz_Some in Y; cbn in Y; lia|]. change (calls_of (m :: l) (z :: ys)) with ([waypoint_call m z] ++ calls_of l ys).
  pose proof (getz_Some _ _ _ K) as R. destruct (Z.eq_dec k 0) as [->|NZ].
  - cbn in K, Y. injection K as <-. injection Y as <-. reflexivity.
  - change (m :: l) with ([m] ++ l) in K. change (z :: ys) with ([z] ++ ys) in Y. rewrite getz_app2 in K by (cbn; lia). rewrite getz_app2 in Y by (cbn; lia). rewrite getz_app2 by (cbn; lia). change (len [m]) with 1%Z in *. now apply IH.
Qed.

Lemma sorted_lt_unique (l : list node) : StronglySorted Z.lt (map nx l) -> forall i j a b,
  getz l i = Some a -> getz l j = Some b -> nx a = nx b -> i = j.
Proof.
  induction l as [|n l IH]; intros S i j a b A B E; [apply getz_Some in A; cbn in A; lia|].
  cbn [map] in S. apply StronglySorted_inv in S. destruct S as [S F]. rewrite Forall_forall in F.
  assert (IN : forall k c, getz l k = Some c -> (nx n < nx c)%Z).
  { intros k c C. apply F, in_map. apply getz_split in C. destruct C as (P & Q & -> & _). apply in_elt. }
  pose proof (getz_Some _ _ _ A) as RA. pose proof (getz_Some _ _ _ B) as RB.
  change (n :: l) with ([n] ++ l) in A, B.
  destruct (Z.eq_dec i 0) as [->|NI], (Z.eq_dec j 0) as [->|NJ]; [reflexivity|..].
  - cbn in A. injection A as <-. rewrite getz_app2 in B by (cbn; lia). apply IN in B. lia.
  - cbn in B. injection B as <-. rewrite getz_app2 in A by (cbn; lia). apply IN in A. lia.
  - rewrite getz_app2 in A by (cbn; lia). rewrite getz_app2 in B by (cbn; lia). change (len [n]) with 1%Z in *. specialize (IH S _ _ _ _ A B E). lia.
Qed.

(** ** Playing it *)
Lemma start_ok_built s t local sp : built s t local sp -> start_ok sp (playback_from 0).
Proof.
  intros B. pose proof (bt_ok _ _ _ _ B) as O. pose proof (ok_granularity sp O). split; [exact O|]. split; [intros Q; discriminate Q|]. cbn [playback_from start_at]. lra.
Qed.

Lemma set_target_inv ev i local t sp ev1 s : getz ev i = Some s -> set_target ev i local t = Some (sp, ev1) ->
  build_target local s t = Some sp /\ set_splines ev i 1 (Some [sp]) (playback_from 0) = Some ev1.
Proof.
  intros G. unfold set_target. rewrite G. destruct (build_target local s t) as [sp'|]; [|discriminate].
  destruct (set_splines ev i 1 (Some [sp']) (playback_from 0)) as [ev'|] eqn:E; [|discriminate]. intros H. injection H as <- <-. auto.
Qed.

Lemma run_target ev i local t sp ev1 s deltas ev2 s2 : getz ev i = Some s -> set_target ev i local t = Some (sp, ev1) -> built s t local sp ->
  advance_frames ev1 deltas = Some ev2 -> Forall (small_step sp) deltas -> getz ev2 i = Some s2 ->
  exists d, spline_at sp (sum deltas) (cur_y s2) d /\ slot_derivative s2 = d.
Proof.
  intros G ST B AF SM G2. destruct (set_target_inv _ _ _ _ _ _ _ G ST) as [_ SS].
  destruct (C37_tracks ev i [sp] (playback_from 0) ev1 deltas ev2 0 sp SS AF eq_refl (start_ok_built _ _ _ _ B)) as (s2' & x & E & (_ & _ & v & d & SA & CY & _ & DV) & W).
  - rewrite Forall_forall in *. intros d I. cbn [playback_from playback_rate]. rewrite Rmult_1_r. now apply SM.
  - intros s' _. right. cbn. lra.
  - rewrite Z.add_0_r in E. rewrite G2 in E. injection E as <-. cbn [wrapped playback_from repeat_ start_at playback_rate y_scale y_offset] in *.
    assert (x = sum deltas) as ->. { rewrite W, (map_ext _ id) by (intros; unfold id; ring). rewrite map_id. ring. }
    exists d. rewrite CY, DV. replace (1 * v + 0) with v by ring. split; [exact SA|ring].
Qed.

Lemma set_target_slot ev i local t sp ev1 s s1 : getz ev i = Some s -> set_target ev i local t = Some (sp, ev1) -> getz ev1 i = Some s1 ->
  set_spline sp (playback_from 0) s = Some s1.
Proof.
  intros G ST G1. destruct (set_target_inv _ _ _ _ _ _ _ G ST) as [_ SS]. cbn [set_splines] in SS.
  destruct (set_each_getz _ _ _ _ _ _ SS) as [_ Q]. specialize (Q i). rewrite G1, G in Q.
  replace ((i <=? i) && (i <? i + Z.of_nat 1))%Z with true in Q by lia. rewrite Z.sub_diag in Q. cbn in Q. congruence.
Qed.

(** At x = 0, with a node there and one later, the lookup finds the first segment. *)
Lemma start_slope s t local sp s1 : built s t local sp -> waypoints s t <> [] -> set_spline sp (playback_from 0) s = Some s1 ->
  exists n0, getz (nodes sp) 0 = Some n0 /\ slot_derivative s1 = node_derivative n0.
Proof.
  intros B W H. pose proof (bt_ok _ _ _ _ B) as O. pose proof (ok_granularity sp O) as G.
  destruct (bt_start _ _ _ _ B) as (y & d & last & ys & n0 & made & _ & _ & _ & EY & _ & _ & _ & FM & N & X0 & SS).
  assert (MN : made <> []).
  { intros ->. inversion FM as [E|]. destruct (waypoints s t) as [|w ws]; [auto|]. destruct ys as [|z ys]; [apply ys_length in EY; discriminate|discriminate]. }
  destruct made as [|n1 made]; [congruence|]. clear MN. exists n0. rewrite N. split; [reflexivity|].
  assert (J : set_spline sp (playback_from 0) s = (s' <- jump_to_spline sp (playback_from 0) s ;; Some (evaluate_slot s'))).
  { unfold set_spline. cbn [playback_from blend_x]. rewrite Rltb_f by lra. destruct (source s); reflexivity. }
  rewrite J in H. unfold jump_to_spline, init_cubic in H. cbn [playback_from start_at playback_rate y_offset y_scale repeat_ source x_index repeats] in H.
  change ((kInvalidSplineIndex + 1) mod 65536)%Z with 0%Z in H. unfold index_for_x_allowing_repeat in H. cbn [negb orb] in H.
  destruct (index_ok sp 0 0 O) as (i & f & b & E & F & BK & C); [|lia|].
  { unfold in_int_range. unfold Rdiv. rewrite Rmult_0_l, Rabs_R0. lra. }
  assert (GR : grains sp 0 = 0%Z) by (rewrite <- (Rmult_0_l (x_granularity sp)) at 1; apply (grains_exact sp 0 O); lia).
  rewrite GR in C. unfold front in F. rewrite N in F. cbn in F. injection F as <-.
  assert (NX1 : (0 < nx n1)%Z). { apply StronglySorted_inv in SS. destruct SS as [_ SS]. inversion SS; auto. }
  assert (S1 : StronglySorted Z.le (map nx (n0 :: n1 :: made))) by (rewrite <- N; apply (ok_sorted sp O)).
  assert (getz (n0 :: n1 :: made) 1 = Some n1) as GN1 by reflexivity.
  assert (NB : (0 < nx b)%Z).
  { unfold back, num_nodes in BK. rewrite N in BK. pose proof (sorted_getz _ S1 _ _ _ _ GN1 BK) as Q. rewrite !len_cons in Q. pose proof (len_nonneg made). lia. }
  assert (i = 0%Z) as ->.
  { destruct C as [[_ C]|[[_ C]|(R & a & c & A & C' & L & D)]]; [lia|unfold num_nodes in C; rewrite N, !len_cons in C; pose proof (len_nonneg made); lia|].
    rewrite N in A. destruct (Z.eq_dec i 0) as [->|NZ]; [reflexivity|]. pose proof (sorted_getz _ S1 _ _ _ _ GN1 A ltac:(lia)) as Q.
    lia. }
  rewrite E in H. cbn [range_x create_cubic_init outside_spline] in H. change ((0 =? kAfterSplineIndex)%Z) with false in H. cbn [negb orb] in H.
  unfold range_x, create_cubic_init in H. change ((0 =? kBeforeSplineIndex)%Z) with false in H. change ((0 =? kAfterSplineIndex)%Z) with false in H.
  change (outside_spline 0) with false in H. rewrite N in H. change (getz (n0 :: n1 :: made) 0) with (Some n0) in H. change (getz (n0 :: n1 :: made) (0 + 1)) with (Some n1) in H.
  cbv beta iota in H. injection H as <-. unfold slot_derivative, evaluate_slot. cbn [rate curve cubic_x fst scale_y offset_y].
  unfold node_x. rewrite X0. replace (0 - 0 * x_granularity sp) with 0 by ring.
  unfold cubic_of, create_cubic_between. cbn [ci_start_y ci_start_derivative ci_end_y ci_end_derivative ci_width_x].
  destruct (hermite (node_y n0 (y_range sp)) (node_derivative n0) (node_y n1 (y_range sp)) (node_derivative n1) (width_x sp n0 n1)) as (_ & Q & _).
  { unfold width_x. apply Rmult_lt_0_compat; [apply IZR_lt; lia|exact G]. }
  unfold kderiv in *. unfold kshift_up, kscale_up. cbn [k3 k2 k1 k0]. refine (eq_trans _ Q). ring.
Qed.
