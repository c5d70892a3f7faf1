(** C92: a motivator that is initialised does not depend on what used its index before.
    C93: targets of overshoot motivators. *)
From Verif Require Import RBase BaseFacts IndexAllocatorSpec ProcessorModel ProcessorOwn RangeModel CurveModel CompactSplineModel OvershootModel SimpleModel StoreProps MathfuModel MatrixModel.
From Verif Require EvaluatorModel EvaluatorProps EvaluatorOpProps SplineTargetModel TargetModel.

(** Const, ease-in-ease-out and spring motivators: after InitializeIndices each index of
    the block holds what the parameters say and every other index what it held. *)
Theorem C92_simple : forall (T : Type) (make : simple_init -> Z -> option T) init index n p p', even p -> s_initialize make init index n p = Some p' ->
  forall i, getz (cells p') i =
    if ((index <=? i) && (i <? index + Z.of_nat n))%Z
    then d <- make init (i - index)%Z ;; v <- deref (start_values init) (i - index)%Z ;; Some (d, v)
    else getz (cells p) i.
Proof.
  intros T make init index n p p' E H.
  assert (G : forall m (j : Z) p, even p -> for_dims (fun i p => d <- make init i ;; v <- deref (start_values init) i ;; write_index p (i + index) d v) j m p = Some p' ->
    forall i, getz (cells p') i = if ((index + j <=? i) && (i <? index + j + Z.of_nat m))%Z then d <- make init (i - index)%Z ;; v <- deref (start_values init) (i - index)%Z ;; Some (d, v) else getz (cells p) i).
  { clear. induction m as [|m IH]; intros j p E H i; cbn [for_dims] in H.
    - injection H as <-. replace (_ && _)%bool with false by lia. reflexivity.
    - destruct (make init j) as [d|] eqn:MK; [|discriminate]. destruct (deref (start_values init) j) as [v|] eqn:DV; [|discriminate]. pose proof (write_cells p (j + index) d v E) as W.
      destruct (write_index p (j + index) d v) as [q|]; [|discriminate]. destruct (setz (cells p) (j + index) (d, v)) as [l|] eqn:SZ; [|contradiction]. destruct W as [CQ EQ]. rewrite (IH (j + 1)%Z q EQ H i), CQ.
      destruct (Z.eq_dec i (j + index)) as [->|N].
      + replace (_ && _)%bool with false by lia. replace ((index + j <=? j + index) && (j + index <? index + j + Z.of_nat (S m)))%Z with true by lia. rewrite (getz_setz_eq _ _ _ _ SZ). replace (j + index - index)%Z with j by lia. rewrite MK, DV. reflexivity.
      + rewrite (getz_setz_neq _ _ _ _ _ SZ N). replace ((index + j <=? i) && (i <? index + j + Z.of_nat (S m)))%Z with ((index + (j + 1) <=? i) && (i <? index + (j + 1) + Z.of_nat m))%Z by lia. reflexivity. }
  intros i. rewrite (G n 0%Z p E H i). rewrite Z.add_0_r. reflexivity.
Qed.
Print Assumptions C92_simple.
(** It succeeds if the block is inside the arrays and the parameters have enough values. *)
Theorem C92_simple_succeeds : forall (T : Type) (make : simple_init -> Z -> option T) init index n p, even p -> (0 <= index)%Z -> (index + Z.of_nat n <= len (cells p))%Z ->
  (forall j, (0 <= j < Z.of_nat n)%Z -> make init j <> None /\ deref (start_values init) j <> None) -> s_initialize make init index n p <> None.
Proof.
  intros T make init index n p E I N H.
  assert (G : forall m (j : Z) p, even p -> (0 <= j)%Z -> (index + j + Z.of_nat m <= len (cells p))%Z -> (forall i, (j <= i < j + Z.of_nat m)%Z -> make init i <> None /\ deref (start_values init) i <> None) ->
    for_dims (fun i p => d <- make init i ;; v <- deref (start_values init) i ;; write_index p (i + index) d v) j m p <> None).
  { clear -I. induction m as [|m IH]; intros j p E J N H; cbn [for_dims]; [discriminate|]. destruct (H j ltac:(lia)) as [A B]. destruct (make init j) as [d|]; [|congruence]. destruct (deref (start_values init) j) as [v|]; [|congruence].
    pose proof (write_cells p (j + index) d v E) as W. destruct (setz_Some (cells p) (j + index) (d, v)) as [l SZ]; [lia|]. rewrite SZ in W. destruct (write_index p (j + index) d v) as [q|]; [|contradiction]. destruct W as [<- EQ].
    apply IH; [exact EQ|lia|rewrite (setz_len _ _ _ _ SZ); lia|]. intros i K. apply H. lia. }
  unfold s_initialize. apply G; [exact E|lia|lia|]. intros i K. apply H. lia.
Qed.
Print Assumptions C92_simple_succeeds.

(** Matrices and SQTs: InitializeIndices (matrix_processor.cpp:122-133, sqt_processor.cpp:123-134)
    resets what is there; the result is that of data never used. *)
Theorem C92_matrix : forall (M I S : Type) (k : mclass M I S) init d, mdata_initialize k init (mdata_reset d) = mdata_initialize k init mdata_default.
Proof.
  intros M I S k init d. unfold mdata_initialize, mdata_reset, mdata_default. cbn [md_ops md_matrix md_scale]. destruct (append_ops k quaternion_op [] init) as [ops|]; reflexivity.
Qed.
Theorem C92_sqt : forall (M I S : Type) (k : mclass M I S) init d, qdata_initialize k init (qdata_reset d) = qdata_initialize k init qdata_default.
Proof.
  intros M I S k init d. unfold qdata_initialize, qdata_reset, qdata_default. cbn [qd_ops]. destruct (append_ops k rotate_op [] init) as [ops|]; reflexivity.
Qed.
Print Assumptions C92_matrix.
Print Assumptions C92_sqt.

(** Spline motivators: the index keeps the value, the rate and the repetition of the
    motivator removed (spline_processor.cpp:205-210, 227-237). *)
Section Spline.
Import EvaluatorModel.
Theorem C92_spline_refuted : exists used fresh ev1 ev2 s1 s2,
  set_splines (set_num_indices [] 1) 0 1 (Some [EvaluatorOpProps.ones]) (Playback (1/4) 0 1 0 1 false) = Some used /\
  clear_splines used 0 1 = Some fresh /\
  set_y_ranges fresh 0 1 range_default = Some ev1 /\ set_y_ranges (set_num_indices [] 1) 0 1 range_default = Some ev2 /\
  getz ev1 0 = Some s1 /\ getz ev2 0 = Some s2 /\ cur_y s1 = 1 /\ cur_y s2 = 0.
Proof.
  destruct EvaluatorOpProps.C41_clear_keeps_value_refuted as (ev1 & s1 & ev2 & _ & _ & E & G & Y & C & _).
  destruct (EvaluatorOpProps.C41_cleared_partial ev1 0 1 ev2 0 s1 C ltac:(lia) G) as (_ & s' & G' & Y' & _).
  destruct (setz_Some ev2 0 (slot_set_y_range range_default s')) as [l L]; [apply (getz_Some _ _ _ G')|].
  exists ev1, ev2, l. eexists. exists (slot_set_y_range range_default s'), (slot_set_y_range range_default slot_default). split; [exact E|]. split; [exact C|]. split; [|split; [reflexivity|split; [|split; [reflexivity|split; [|reflexivity]]]]].
  - unfold set_y_ranges. cbn [modify_range]. unfold modify. rewrite G', L. reflexivity.
  - apply (getz_setz_eq _ _ _ _ L).
  - cbn. congruence.
Qed.
End Spline.
Print Assumptions C92_spline_refuted.

(** The hypotheses of C92_simple are met. *)
Example C92_case : exists p p', even p /\ data_ p = [5; 6; 7] /\ s_initialize const_make (SimpleInit (Some [7; 8]) (Some [1; 2])) 1 2 p = Some p' /\ cells p' = [(5, 0); (1, 7); (2, 8)].
Proof. exists (SP [5; 6; 7] [0; 3; 4]). eexists. repeat split. Qed.

(** ** C93 *)
Section Targets.
Import SplineTargetModel TargetModel.
(** What SetTargets reads of a node. *)
Definition read (t : list mnode) : list (R * R * Z) := map (fun n => (mn_value n, mn_velocity n, mn_time n)) t.

(** The current value and velocity change if and only if the target has them (its first
    node is at time 0), the target value if and only if it has one (a node after time 0, or a
    second node); the velocity at the target and the time are not used. *)
Theorem C93_current : forall (x : odata * R) v d,
  exists x', set_target_index (read (tar_current v d)) x = Some x' /\ snd x' = v /\ velocity (fst x') = d /\ init_of (fst x') = init_of (fst x) /\ target_value (fst x') = target_value (fst x).
Proof. intros [[u w i] y] v d. cbn. eexists. split; [reflexivity|]. repeat split. Qed.
Theorem C93_target : forall (x : odata * R) v d time dir t, (0 < time)%Z -> tar_target v d time dir = Some t ->
  exists x', set_target_index (read t) x = Some x' /\ snd x' = snd x /\ velocity (fst x') = velocity (fst x) /\ init_of (fst x') = init_of (fst x) /\ target_value (fst x') = v.
Proof.
  intros [[u w i] y] v d time dir t P H. unfold tar_target in H. destruct (0 <=? time)%Z in H; [|discriminate]. injection H as <-. cbn. replace (time =? 0)%Z with false by lia. eexists. split; [reflexivity|]. repeat split.
Qed.
(** A target at time 0 is taken for the current value, and there is no new target. *)
Theorem C93_target_now : forall (x : odata * R) v d dir t, tar_target v d 0 dir = Some t ->
  exists x', set_target_index (read t) x = Some x' /\ snd x' = v /\ velocity (fst x') = d /\ init_of (fst x') = init_of (fst x) /\ target_value (fst x') = target_value (fst x).
Proof. intros [[u w i] y] v d dir t H. injection H as <-. cbn. eexists. split; [reflexivity|]. repeat split. Qed.
Theorem C93_current_to_target : forall (x : odata * R) v d v1 d1 time dir t, tar_current_to_target v d v1 d1 time dir = Some t ->
  exists x', set_target_index (read t) x = Some x' /\ snd x' = v /\ velocity (fst x') = d /\ init_of (fst x') = init_of (fst x) /\ target_value (fst x') = v1.
Proof.
  intros [[u w i] y] v d v1 d1 time dir t H. unfold tar_current_to_target, target_of2 in H. destruct (_ && _)%bool in H; [|discriminate]. injection H as <-. cbn. eexists. split; [reflexivity|]. repeat split.
Qed.
(** Of two targets only the first is used: the second is lost. *)
Theorem C93_second_target_refuted : exists x t x', tar_target_to_target 1 0 10 2 0 20 = Some t /\ set_target_index (read t) x = Some x' /\ target_value (fst x') = 1 /\
  tar_current_to_target_to_target 0 0 1 0 10 2 0 20 <> None /\ forall u, tar_current_to_target_to_target 0 0 1 0 10 2 0 20 = Some u -> forall x'', set_target_index (read u) x = Some x'' -> target_value (fst x'') = 1.
Proof.
  exists (OData 0 0 oinit_default, 0). do 2 eexists. split; [reflexivity|]. split; [reflexivity|]. split; [reflexivity|]. split; [discriminate|]. intros u U x'' X. injection U as <-. injection X as <-. reflexivity.
Qed.
End Targets.
Print Assumptions C93_current.
Print Assumptions C93_target.
Print Assumptions C93_target_now.
Print Assumptions C93_current_to_target.
Print Assumptions C93_second_target_refuted.
