(** C129: the linear processor of the samples (LinearModel). *)
From Verif Require Import RBase Base BaseFacts RangeModel CompactSplineModel CompactSplineProofs EvaluatorModel SplineTargetModel TargetModel LinearModel.
Open Scope R_scope.

Lemma l_getz_map {A B} (f : A -> B) (l : list A) j : getz (map f l) j = match getz l j with Some x => Some (f x) | None => None end.
Proof.
  unfold getz. destruct (j <? 0)%Z; [reflexivity|]. rewrite nth_error_map. now destruct (nth_error l (Z.to_nat j)).
Qed.

Lemma l_getz_cons {A} (x : A) l j : (0 < j)%Z -> getz (x :: l) j = getz l (j - 1).
Proof. intros H. unfold getz. replace (j <? 0)%Z with false by lia. replace (j - 1 <? 0)%Z with false by lia. replace (Z.to_nat j) with (S (Z.to_nat (j - 1))) by lia. reflexivity. Qed.

(** The time that frames take together. *)
Fixpoint total (frames : list Z) : Z := match frames with [] => 0%Z | dt :: fs => (dt + total fs)%Z end.
(** Time does not run backwards. *)
Definition forwards (frames : list Z) : Prop := forall dt, In dt frames -> (0 <= dt)%Z.
Lemma forwards_cons dt fs : forwards (dt :: fs) -> (0 <= dt)%Z /\ forwards fs.
Proof. intros F. split; [apply F; now left|]. intros d D. apply F. now right. Qed.
Lemma total_nonneg fs : forwards fs -> (0 <= total fs)%Z.
Proof. induction fs as [|dt fs IH]; intros F; cbn; [lia|]. apply forwards_cons in F as [D F]. specialize (IH F). lia. Qed.
Lemma total_app a b : total (a ++ b) = (total a + total b)%Z.
Proof. induction a as [|x a IH]; cbn; [reflexivity|]. rewrite IH. lia. Qed.
Lemma l_run_app a b st : l_run (a ++ b) st = l_run b (l_run a st).
Proof. apply fold_left_app. Qed.
Lemma l_run_cons dt fs st : l_run (dt :: fs) st = l_run fs (l_advance_frame dt st).
Proof. reflexivity. Qed.

(** *** Motivators do not affect each other: what an index holds after any frames depends on
    what that index held before. *)
Theorem C129_alone : forall frames st st2 i j, getz st i = getz st2 j -> getz (l_run frames st) i = getz (l_run frames st2) j.
Proof.
  induction frames as [|dt fs IH]; intros st st2 i j E; [exact E|]. rewrite !l_run_cons. apply IH. unfold l_advance_frame. rewrite !l_getz_map, E. reflexivity.
Qed.
Print Assumptions C129_alone.

(** *** The path: up to its target time a motivator is on the straight line from where it was
    to its target, however the time is cut into frames; its velocity is the slope of the line. *)
Theorem C129_path : forall frames st i v w T, getz st i = Some (LElem w (IZR T) v) -> (0 < T)%Z -> forwards frames -> (total frames <= T)%Z ->
  let st' := l_run frames st in let t := IZR (total frames) in
  l_values st' i 1 = Some [v + (w - v) * (t / IZR T)] /\
  l_target_values st' i 1 = Some [w] /\
  l_target_time st' i 1 = (if (T - total frames <? 2147483648)%Z then Some (T - total frames)%Z else None) /\
  l_velocities st' i 1 = Some [if (total frames <? T)%Z then (w - v) / IZR T else 0].
Proof.
  assert (G : forall frames st i v w T, getz st i = Some (LElem w (IZR T) v) -> (0 < T)%Z -> forwards frames -> (total frames <= T)%Z ->
    getz (l_run frames st) i = Some (LElem w (IZR (T - total frames)) (v + (w - v) * (IZR (total frames) / IZR T)))).
  { induction frames as [|dt fs IH]; intros st i v w T E P F L.
    - cbn [total l_run fold_left] in *. rewrite Z.sub_0_r. replace (v + (w - v) * (0 / IZR T)) with v by (unfold Rdiv; ring). exact E.
    - apply forwards_cons in F as [D F]. pose proof (total_nonneg _ F) as N. cbn [total] in *. rewrite l_run_cons.
      assert (E1 : getz (l_advance_frame dt st) i = Some (LElem w (IZR (T - dt)) (v + (w - v) * (IZR dt / IZR T)))).
      { unfold l_advance_frame. rewrite l_getz_map, E. unfold l_step. cbn [l_time l_value l_target]. pose proof (IZR_lt _ _ P). rewrite Rltb_t by lra. rewrite minus_IZR. unfold mlerp. f_equal. f_equal. ring. }
      destruct (Z.eq_dec dt T) as [->|NE].
      + assert (Z0 : total fs = 0%Z) by lia. assert (EV : v + (w - v) * (IZR T / IZR T) = w) by (pose proof (IZR_lt _ _ P); field; lra).
        rewrite EV in E1. rewrite Z.sub_diag in E1. rewrite Z0, Z.add_0_r, Z.sub_diag, EV.
        clear - E1 F Z0. revert st E1. generalize (l_advance_frame T). intros g st E1. generalize dependent (g st). clear g st. induction fs as [|d fs IH]; intros st E; [exact E|].
        apply forwards_cons in F as [D F]. cbn in Z0. pose proof (total_nonneg _ F). assert (d = 0%Z) by lia. subst d. rewrite l_run_cons. apply IH; [exact F|lia|].
        unfold l_advance_frame. rewrite l_getz_map, E. unfold l_step. cbn [l_time l_value l_target]. rewrite Rltb_f by lra. rewrite Rminus_0_r. reflexivity.
      + rewrite (IH _ _ _ _ _ E1) by (try exact F; lia). pose proof (IZR_lt _ _ P). assert (PD : IZR (T - dt) > 0) by (apply IZR_lt; lia). replace (T - dt - total fs)%Z with (T - (dt + total fs))%Z by lia. f_equal. f_equal.
        rewrite minus_IZR in *. rewrite plus_IZR. field. lra. }
  intros frames st i v w T E P F L. cbn zeta. specialize (G _ _ _ _ _ _ E P F L). pose proof (total_nonneg _ F) as N.
  unfold l_values, l_target_values, l_target_time, l_velocities, l_each, l_target_time_from. rewrite G. cbn [l_time l_value l_target]. split; [reflexivity|]. split; [reflexivity|]. split.
  - unfold to_int. rewrite (Rtrunc_IZR (T - total frames)) by (try lia; lra). replace (-2147483648 <=? T - total frames)%Z with true by lia. cbn [andb]. destruct (T - total frames <? 2147483648)%Z; [|reflexivity]. f_equal. lia.
  - f_equal. f_equal. pose proof (IZR_lt _ _ P) as PR. destruct (Z.ltb_spec (total frames) T) as [LT|GE].
    + apply IZR_lt in LT. rewrite Rleb_f by (rewrite minus_IZR; lra). rewrite minus_IZR. field. lra.
    + rewrite Rleb_t; [reflexivity|]. replace (T - total frames)%Z with 0%Z by lia. lra.
Qed.
Print Assumptions C129_path.

(** *** Once the target time has come by the end of a frame, the motivator is at its target
    after the next one and stays there. *)
Lemma l_stays : forall frames st i w T v, getz st i = Some (LElem w T v) -> T <= 0 -> forwards frames -> v = w ->
  exists T', getz (l_run frames st) i = Some (LElem w T' w) /\ T' <= 0.
Proof.
  induction frames as [|dt fs IH]; intros st i w T v E P F ->; [exists T; auto|]. apply forwards_cons in F as [D F]. rewrite l_run_cons. apply (IH _ _ _ (T - IZR dt) w); try assumption.
  - unfold l_advance_frame. rewrite l_getz_map, E. unfold l_step. cbn [l_time l_value l_target]. rewrite Rltb_f by lra. reflexivity.
  - apply IZR_le in D. lra.
  - reflexivity.
Qed.
Lemma l_keeps : forall frames st i w T v, getz st i = Some (LElem w T v) -> exists v', getz (l_run frames st) i = Some (LElem w (T - IZR (total frames)) v').
Proof.
  induction frames as [|dt fs IH]; intros st i w T v E; [exists v; cbn; rewrite Rminus_0_r; exact E|]. rewrite l_run_cons. cbn [total].
  edestruct (IH (l_advance_frame dt st) i w (T - IZR dt)) as [v' V]; [unfold l_advance_frame; rewrite l_getz_map, E; reflexivity|]. exists v'. rewrite V. f_equal. f_equal. rewrite plus_IZR. ring.
Qed.
Theorem C129_arrives_partial : forall before dt after st i v w T, getz st i = Some (LElem w (IZR T) v) ->
  forwards (before ++ dt :: after) -> (T <= total before)%Z ->
  let st' := l_run (before ++ dt :: after) st in
  l_values st' i 1 = Some [w] /\ l_target_values st' i 1 = Some [w] /\ l_differences st' i 1 = Some [0] /\ l_velocities st' i 1 = Some [0].
Proof.
  intros before dt after st i v w T E F L. cbn zeta. destruct (l_keeps before _ _ _ _ _ E) as [v1 E1].
  assert (F2 : forwards (dt :: after)) by (intros d D; apply F; apply in_or_app; now right). apply forwards_cons in F2 as [D F2]. apply IZR_le in L, D.
  rewrite l_run_app, l_run_cons.
  assert (E2 : getz (l_advance_frame dt (l_run before st)) i = Some (LElem w (IZR T - IZR (total before) - IZR dt) w)).
  { unfold l_advance_frame. rewrite l_getz_map, E1. unfold l_step. cbn [l_time l_value l_target]. rewrite Rltb_f by lra. reflexivity. }
  destruct (l_stays after _ _ _ _ _ E2) as (T' & E3 & P3); [lra|exact F2|reflexivity|].
  unfold l_values, l_target_values, l_differences, l_velocities, l_each. rewrite E3. cbn [l_time l_value l_target]. rewrite Rleb_t by lra. repeat split; try reflexivity. f_equal. f_equal. ring.
Qed.
Print Assumptions C129_arrives_partial.

(** *** In the full statement the motivator is at its target, and never beyond it, as soon as
    the target time has come.  That is false: a frame longer than the time that remains takes
    the motivator past its target, as far as it likes. *)
Theorem C129_past_refuted : forall far, exists dt st, (0 < dt)%Z /\ getz st 0 = Some (LElem 1 1 0) /\
  exists y, l_values (l_run [dt] st) 0 1 = Some [y] /\ far < y.
Proof.
  intros far. exists (Z.max 1 (up far)), [LElem 1 1 0]. split; [lia|]. split; [reflexivity|]. eexists. split.
  - cbn. unfold l_step. cbn [l_time l_value l_target]. rewrite Rltb_t by lra. reflexivity.
  - cbn. unfold mlerp. pose proof (archimed far) as [A _]. assert (IZR (up far) <= IZR (Z.max 1 (up far))) by (apply IZR_le; lia). lra.
Qed.
Print Assumptions C129_past_refuted.

(** *** SetTargets.  A first node at time 0 is the new value; the first node at a later time is
    the new target.  Nothing else changes, in this motivator or another. *)
Definition value_of (t : list mnode) (old : R) : R := match t with n :: _ => if (mn_time n =? 0)%Z then mn_value n else old | [] => old end.
Definition later_node (t : list mnode) : option mnode :=
  match t with n :: rest => if (mn_time n =? 0)%Z then match rest with m :: _ => Some m | [] => None end else Some n | [] => None end.
Lemma l_set_target_eq t x : t <> [] -> l_set_target t x =
  Some (match later_node t with Some n => LElem (mn_value n) (IZR (mn_time n)) (value_of t (l_value x)) | None => LElem (l_target x) (l_time x) (value_of t (l_value x)) end).
Proof.
  intros N. destruct t as [|n rest]; [congruence|]. unfold l_set_target, later_node, value_of. change (getz (n :: rest) 0) with (Some n). cbn iota beta. destruct (mn_time n =? 0)%Z; [|reflexivity].
  destruct rest as [|m r]; [reflexivity|]. rewrite !len_cons. pose proof (len_nonneg r). replace (1 <? 1 + (1 + len r))%Z with true by lia. reflexivity.
Qed.
Theorem C129_set_targets : forall ts st index, (forall t, In t ts -> t <> []) -> (0 <= index)%Z -> (index + len ts <= len st)%Z ->
  exists st', l_set_targets st index ts = Some st' /\ len st' = len st /\
  (forall j, (j < index \/ index + len ts <= j)%Z -> getz st' j = getz st j) /\
  (forall k t, getz ts k = Some t -> exists x x', getz st (index + k) = Some x /\ getz st' (index + k) = Some x' /\
     l_value x' = value_of t (l_value x) /\
     match later_node t with Some n => l_target x' = mn_value n /\ l_time x' = IZR (mn_time n) | None => l_target x' = l_target x /\ l_time x' = l_time x end).
Proof.
  induction ts as [|t ts IH]; intros st index N I L.
  - exists st. repeat split; try reflexivity. intros k t K. apply getz_Some in K. cbn in K. lia.
  - rewrite len_cons in L. pose proof (len_nonneg ts). destruct (getz_in_range st index) as [x X]; [lia|]. cbn [l_set_targets]. rewrite X. cbn iota beta. rewrite l_set_target_eq by (apply N; now left). cbn iota beta.
    match goal with |- context [setz st index ?y] => set (x' := y) end. destruct (setz_Some st index x') as [st1 S1]; [lia|]. rewrite S1. cbn iota beta. pose proof (setz_len _ _ _ _ S1) as L1.
    destruct (IH st1 (index + 1)%Z) as (st' & R & LR & O & K); [intros u U; apply N; now right|lia|lia|]. exists st'. split; [exact R|]. split; [lia|]. split.
    + intros j J. rewrite len_cons in J. rewrite O by lia. apply (getz_setz_neq _ _ _ _ _ S1). lia.
    + intros k u U. pose proof (getz_Some _ _ _ U) as KR. rewrite len_cons in KR. destruct (Z.eq_dec k 0) as [->|NK].
      * cbn in U. injection U as <-. rewrite Z.add_0_r. exists x, x'. split; [exact X|]. rewrite O by lia. split; [apply (getz_setz_eq _ _ _ _ S1)|]. unfold x'. destruct (later_node t); auto.
      * rewrite l_getz_cons in U by lia. destruct (K (k - 1)%Z u U) as (y & y' & Y & Y' & P). exists y, y'. replace (index + 1 + (k - 1))%Z with (index + k)%Z in * by lia. rewrite (getz_setz_neq _ _ _ _ _ S1) in Y by lia. auto.
Qed.
Print Assumptions C129_set_targets.

(** *** A value that is set does not last: a motivator that is not on its way goes back to its
    old target in the next frame, whatever value it was set to. *)
Theorem C129_current_refuted : forall st i v d dt, (0 <= dt)%Z -> (exists x, getz st i = Some x /\ l_time x <= 0 /\ l_target x <> v) ->
  exists st', l_set_targets st i [tar_current v d] = Some st' /\ l_values st' i 1 = Some [v] /\
  exists w, w <> v /\ l_target_values st i 1 = Some [w] /\ l_values (l_run [dt] st') i 1 = Some [w].
Proof.
  intros st i v d dt D ([w T y] & X & P & NE). cbn [l_time l_target] in *. pose proof (getz_Some _ _ _ X) as I.
  destruct (C129_set_targets [tar_current v d] st i) as (st' & S & _ & _ & K); [intros t [<-|[]]; discriminate|lia|cbn; lia|].
  destruct (K 0%Z _ eq_refl) as (x & x' & X1 & X2 & V & W). rewrite Z.add_0_r in X1, X2. rewrite X in X1. injection X1 as <-. cbn in V, W. destruct W as [W1 W2]. exists st'. split; [exact S|].
  unfold l_values, l_target_values, l_each. rewrite X2, V. split; [reflexivity|]. exists w. rewrite X. cbn [l_target]. repeat split; [exact NE|].
  cbn [l_run fold_left]. unfold l_advance_frame. rewrite l_getz_map, X2. unfold l_step. rewrite Rltb_f by lra. cbn [l_value]. now rewrite W1.
Qed.
Print Assumptions C129_current_refuted.

(** *** The queries tell about the dimensions of their motivator. *)
Theorem C129_queries : forall st index n vs ts ds us, l_values st index n = Some vs -> l_target_values st index n = Some ts -> l_differences st index n = Some ds ->
  l_velocities st index n = Some us -> forall k, (0 <= k < Z.of_nat n)%Z -> exists x, getz st (index + k) = Some x /\
  getz vs k = Some (l_value x) /\ getz ts k = Some (l_target x) /\ getz ds k = Some (l_target x - l_value x) /\
  exists u, getz us k = Some u /\ (l_time x <= 0 -> u = 0) /\ (0 < l_time x -> u * l_time x = l_target x - l_value x).
Proof.
  assert (G : forall A (f : lelem -> A) st n index l, l_each f st index n = Some l -> forall k, (0 <= k < Z.of_nat n)%Z -> exists x, getz st (index + k) = Some x /\ getz l k = Some (f x)).
  { intros A f st. induction n as [|n IH]; intros index l E k K; [lia|]. cbn in E. destruct (getz st index) as [x|] eqn:X; [|discriminate]. destruct (l_each f st (index + 1) n) as [r|] eqn:R; [|discriminate]. injection E as <-.
    destruct (Z.eq_dec k 0) as [->|NK]; [exists x; rewrite Z.add_0_r; auto|]. destruct (IH _ _ R (k - 1)%Z) as (y & Y & Y'); [lia|]. exists y. replace (index + k)%Z with (index + 1 + (k - 1))%Z by lia. rewrite l_getz_cons by lia. auto. }
  intros st index n vs ts ds us V T D U k K. destruct (G _ _ _ _ _ _ V k K) as (x & X & V'). exists x. split; [exact X|].
  destruct (G _ _ _ _ _ _ T k K) as (x1 & X1 & T'). destruct (G _ _ _ _ _ _ D k K) as (x2 & X2 & D'). destruct (G _ _ _ _ _ _ U k K) as (x3 & X3 & U'). rewrite X in X1, X2, X3. injection X1 as <-. injection X2 as <-. injection X3 as <-.
  split; [exact V'|]. split; [exact T'|]. split; [exact D'|]. eexists. split; [exact U'|]. split; intros P.
  - now rewrite Rleb_t by lra.
  - rewrite Rleb_f by lra. field. lra.
Qed.
Print Assumptions C129_queries.

(** *** TargetTime is the longest of the times of the dimensions?  Only if they are equal... *)
Theorem C129_target_time_partial : forall st index n t, (0 < n)%nat -> (Z.abs t < 2147483648)%Z ->
  (forall k, (0 <= k < Z.of_nat n)%Z -> exists x, getz st (index + k) = Some x /\ l_time x = IZR t) -> l_target_time st index n = Some t.
Proof.
  intros st index n t N T A. destruct (A 0%Z) as (x & X & XT); [lia|]. rewrite Z.add_0_r in X.
  assert (TR : to_int (l_time x) = Some t).
  { rewrite XT. unfold to_int. assert (RT : Rtrunc (IZR t) = t).
    { destruct (Z_le_gt_dec 0 t) as [P|P]; [apply Rtrunc_IZR; [exact P|lra]|]. unfold Rtrunc. assert (IZR t < 0) by (apply IZR_lt; lia). rewrite Rleb_f by lra. rewrite <- opp_IZR. rewrite (Rfloor_unique _ (- t)) by lra. lia. }
    rewrite RT. replace ((-2147483648 <=? t) && (t <? 2147483648))%Z with true by lia. reflexivity. }
  assert (G : forall n g, l_target_time_from st index n g = Some (match n with O => g | _ => Z.max g t end)).
  { clear N A. intros m. induction m as [|m IH]; intros g; [reflexivity|]. cbn [l_target_time_from]. rewrite X. cbn iota beta. rewrite TR. cbn iota beta. rewrite IH. destruct m; f_equal; lia. }
  unfold l_target_time. rewrite G. destruct n; [lia|]. f_equal. lia.
Qed.
Print Assumptions C129_target_time_partial.
(** ... it is the time of the first dimension, however long the others take. *)
Theorem C129_target_time_refuted : forall t1 t2 : Z, (0 < t1 < t2)%Z -> (t2 < 2147483648)%Z -> exists st n0 n1, tar_target 5 0 t1 Closest = Some n0 /\ tar_target 5 0 t2 Closest = Some n1 /\
  l_set_targets [l_reset; l_reset] 0 [n0; n1] = Some st /\ l_target_time st 0 2 = Some t1 /\ l_target_time st 1 1 = Some t2.
Proof.
  intros t1 t2 T1 T2. exists [LElem 5 (IZR t1) 0; LElem 5 (IZR t2) 0], [MNode 5 0 t1 Closest], [MNode 5 0 t2 Closest].
  unfold tar_target. replace (0 <=? t1)%Z with true by lia. replace (0 <=? t2)%Z with true by lia. split; [reflexivity|]. split; [reflexivity|].
  assert (TI : forall t, (0 <= t < 2147483648)%Z -> to_int (IZR t) = Some t).
  { intros t R. unfold to_int. rewrite (Rtrunc_IZR t) by (try lia; lra). replace ((-2147483648 <=? t) && (t <? 2147483648))%Z with true by lia. reflexivity. }
  split; [|split].
  - assert (S : forall t, (0 < t)%Z -> l_set_target [MNode 5 0 t Closest] l_reset = Some (LElem 5 (IZR t) 0)).
    { intros t P. rewrite l_set_target_eq by discriminate. cbn [later_node value_of mn_time mn_value]. now replace (t =? 0)%Z with false by lia. }
    assert (C : forall st i t ts x x' st', getz st i = Some x -> l_set_target t x = Some x' -> setz st i x' = Some st' -> l_set_targets st i (t :: ts) = l_set_targets st' (i + 1) ts).
    { intros st i t ts x x' st' G1 G2 G3. cbn [l_set_targets]. now rewrite G1, G2, G3. }
    rewrite (C _ _ _ _ l_reset (LElem 5 (IZR t1) 0) [LElem 5 (IZR t1) 0; l_reset]) by (try reflexivity; apply S; lia).
    rewrite (C _ _ _ _ l_reset (LElem 5 (IZR t2) 0) [LElem 5 (IZR t1) 0; LElem 5 (IZR t2) 0]) by (try reflexivity; apply S; lia). reflexivity.
  - unfold l_target_time. cbn [l_target_time_from]. change (getz [LElem 5 (IZR t1) 0; LElem 5 (IZR t2) 0] 0) with (Some (LElem 5 (IZR t1) 0)). cbn [l_time]. cbn iota beta. rewrite TI by lia. cbn iota beta. f_equal. lia.
  - unfold l_target_time. cbn [l_target_time_from]. change (getz [LElem 5 (IZR t1) 0; LElem 5 (IZR t2) 0] 1) with (Some (LElem 5 (IZR t2) 0)). cbn [l_time]. cbn iota beta. rewrite TI by lia. cbn iota beta. f_equal. lia.
Qed.
Print Assumptions C129_target_time_refuted.

(** *** A motivator that has been given no target stays at zero. *)
Theorem C129_new : forall frames st i, getz st i = Some l_reset -> forwards frames ->
  l_values (l_run frames st) i 1 = Some [0] /\ l_velocities (l_run frames st) i 1 = Some [0].
Proof.
  intros frames st i E F. destruct (l_stays frames _ _ _ _ _ E) as (T & E2 & P); [lra|exact F|reflexivity|]. unfold l_values, l_velocities, l_each. rewrite E2. cbn [l_time l_value l_target]. now rewrite Rleb_t by lra.
Qed.
Print Assumptions C129_new.

(** *** The program of the sample, for any start, target and time: it plots the points of the
    line from start to target, one for each time up to and with the end. *)
Theorem C129_program : forall v w T, (0 < T)%Z -> exists points, l_main (Z.to_nat (T + 1)) v w T = Some points /\ len points = (T + 1)%Z /\
  forall k, (0 <= k <= T)%Z -> getz points k = Some (k, v + (w - v) * (IZR k / IZR T)).
Proof.
  intros v w T P. unfold l_main, tar_current_to_target, target_of2. cbn [mn_time]. replace ((0 <=? 0) && (0 <? T))%Z with true by lia. cbn iota beta.
  cbn [l_set_targets]. change (getz [l_reset] 0) with (Some l_reset). cbn iota beta. rewrite l_set_target_eq by discriminate. cbn [later_node value_of mn_time mn_value Z.eqb].
  change (setz [l_reset] 0 (LElem w (IZR T) v)) with (Some [LElem w (IZR T) v]). cbn iota beta. unfold end_time. change (getz [MNode v 0 0 Closest; MNode w 0 T Closest] (len [MNode v 0 0 Closest; MNode w 0 T Closest] - 1)) with (Some (MNode w 0 T Closest)). cbn iota beta. cbn [mn_time].
  set (st0 := [LElem w (IZR T) v]).
  assert (G : forall n (t : nat), Z.of_nat n = (T + 1 - Z.of_nat t)%Z -> exists points, l_points n (Z.of_nat t) T (l_run (repeat 1%Z t) st0) = Some points /\ len points = Z.of_nat n /\
    forall k, (0 <= k < Z.of_nat n)%Z -> getz points k = Some ((Z.of_nat t + k)%Z, v + (w - v) * (IZR (Z.of_nat t + k) / IZR T))).
  { induction n as [|n IH]; intros t E.
    - exists []. cbn [l_points]. replace (Z.of_nat t <=? T)%Z with false by lia. split; [reflexivity|]. split; [reflexivity|]. intros; lia.
    - cbn [l_points]. replace (Z.of_nat t <=? T)%Z with true by lia.
      assert (TT : forall m, total (repeat 1%Z m) = Z.of_nat m) by (intros m; induction m as [|m IHm]; [reflexivity|]; cbn [repeat total]; rewrite IHm; lia).
      destruct (C129_path (repeat 1%Z t) st0 0 v w T) as (V & _); [reflexivity|exact P|intros d D; apply repeat_spec in D; lia|rewrite TT; lia|]. rewrite TT in V.
      unfold l_values, l_each in V. destruct (getz (l_run (repeat 1%Z t) st0) 0) as [x|]; [|discriminate]. injection V as V.
      destruct (IH (S t)) as (points & PP & LP & K); [lia|].
      replace (repeat 1%Z (S t)) with (repeat 1%Z t ++ [1%Z]) in PP by (rewrite <- repeat_cons; reflexivity). rewrite l_run_app in PP. change (l_run [1%Z] (l_run (repeat 1%Z t) st0)) with (l_advance_frame 1 (l_run (repeat 1%Z t) st0)) in PP.
      replace (Z.of_nat (S t)) with (Z.of_nat t + 1)%Z in PP by lia. rewrite PP. exists ((Z.of_nat t, l_value x) :: points). split; [reflexivity|]. split; [rewrite len_cons; lia|].
      intros k KR. destruct (Z.eq_dec k 0) as [->|NK]; [rewrite Z.add_0_r, V; reflexivity|]. rewrite l_getz_cons by lia. rewrite K by lia. replace (Z.of_nat (S t) + (k - 1))%Z with (Z.of_nat t + k)%Z by lia. reflexivity. }
  destruct (G (Z.to_nat (T + 1)) O) as (points & PP & LP & K); [lia|]. exists points. split; [exact PP|]. split; [lia|]. intros k KR. rewrite K by lia. reflexivity.
Qed.
Print Assumptions C129_program.

(** The sample's own numbers: from 10 to -5 in 100; after 40 it is at 4. *)
Example C129_program_case : exists points, l_main 101 10 (-5) 100 = Some points /\ getz points 40 = Some (40%Z, 4) /\ getz points 100 = Some (100%Z, -5).
Proof.
  destruct (C129_program 10 (-5) 100) as (points & P & _ & K); [lia|]. exists points. split; [exact P|]. rewrite !K by lia. split; f_equal; f_equal; lra.
Qed.
(** Frames of 30, 0 and 10 of the way from 10 to -5, and then some more to the end. *)
Example C129_path_case : let st := [l_reset; LElem (-5) 100 10] in forwards [30; 0; 10]%Z /\ (total [30; 0; 10] <= 100)%Z /\
  l_values (l_run [30; 0; 10]%Z st) 1 1 = Some [4] /\ l_velocities (l_run [30; 0; 10]%Z st) 1 1 = Some [-3 / 20] /\
  l_values (l_run [30; 0; 70; 25; 1]%Z st) 1 1 = Some [-5].
Proof.
  cbn zeta. assert (F : forwards [30; 0; 10]%Z) by (intros d [<-|[<-|[<-|[]]]]; lia). split; [exact F|]. split; [cbn; lia|].
  destruct (C129_path [30; 0; 10]%Z [l_reset; LElem (-5) 100 10] 1 10 (-5) 100) as (V & _ & _ & U); [reflexivity|lia|exact F|cbn; lia|]. change (total [30; 0; 10]%Z) with 40%Z in V, U. rewrite V, U.
  change (40 <? 100)%Z with true. cbv iota. split; [f_equal; f_equal; lra|]. split; [f_equal; f_equal; lra|].
  destruct (C129_arrives_partial [30; 0; 70]%Z 25%Z [1%Z] [l_reset; LElem (-5) 100 10] 1 10 (-5) 100) as (W & _); [reflexivity|intros d D; cbn in D; decompose [or] D; try subst; try lia; contradiction|cbn; lia|exact W].
Qed.
(** A motivator at rest at -5 that is set to 7 is back at -5 after the next frame. *)
Example C129_current_case : exists x, getz [LElem (-5) (-1) (-5)] 0 = Some x /\ l_time x <= 0 /\ l_target x <> 7.
Proof. eexists. split; [reflexivity|]. cbn. split; lra. Qed.
