(** Details that other theorems leave open: C55 (times left), C72 (names of single bones), C87 (end times), C92 (what
    was reset), C94 (file names), C99 (names with zeros). *)
From Verif Require Import RBase BaseFacts RangeModel MathfuModel CurveModel CurveUtilModel SimpleModel OvershootModel MatrixModel MatrixProps SqtProps SplineTargetModel TargetModel TargetProps AnimTableModel DescribeModel DescribeProps.
From Coq Require Import Lia.
Local Open Scope R_scope.

(** ** C55 *)
(** A time rounded towards zero. *)
Definition rounds_to_zero (x : R) (n : Z) : Prop := (0 <= x -> IZR n <= x < IZR n + 1) /\ (x <= 0 -> IZR n - 1 < x <= IZR n).
Lemma motive_time_rounds x n : to_motive_time x = Some n -> rounds_to_zero x n.
Proof.
  unfold to_motive_time. cbv zeta. destruct (Rleb_spec 0 x) as [L|L]; destruct (_ && _)%bool; try discriminate; intros [= <-]; split; intros H; pose proof (Rfloor_bounds x); pose proof (Rfloor_bounds (- x)); rewrite ?opp_IZR; try lra.
  assert (x = 0) as -> by lra. replace (Rfloor 0) with 0%Z by (symmetry; apply Rfloor_unique; lra). lra.
Qed.
(** Ease and spring motivators report the target time less the time that has passed, rounded towards zero; also when it is over. *)
Theorem C55_simple : (forall d n, k_target_time ease_class d = Some n -> rounds_to_zero (e_target_time d - e_elapsed d) n) /\
  (forall d n, k_target_time spring_class d = Some n -> rounds_to_zero (s_target_time_ d - s_elapsed d) n).
Proof. split; intros d n H; exact (motive_time_rounds _ _ H). Qed.
Print Assumptions C55_simple.
Example C55_simple_case : exists n, k_target_time ease_class (EData (Curve (eieo_single (quad_with_origin 0 1 0) 0)) (Shape 0 0 0) 0 (5 / 2) 4) = Some n /\ n = (-1)%Z.
Proof.
  cbn. unfold to_motive_time. cbv zeta. rewrite Rleb_f by lra. replace (Rfloor (- (5 / 2 - 4))) with 1%Z by (symmetry; apply Rfloor_unique; lra). eexists. split; reflexivity.
Qed.

(** ** C87 *)
(** EndTime is the time of the last waypoint. *)
Theorem C87_end_time : forall v0 d0 v1 d1 t1 v2 d2 t2 d,
  end_time (tar_current v0 d0) = Some 0%Z /\
  (forall t, tar_target v1 d1 t1 d = Some t -> end_time t = Some t1) /\
  (forall t, tar_current_to_target v0 d0 v1 d1 t1 d = Some t -> end_time t = Some t1) /\
  (forall t, tar_const_velocity v0 v1 t1 = Some t -> end_time t = Some t1) /\
  (forall t, tar_target_to_target v1 d1 t1 v2 d2 t2 = Some t -> end_time t = Some t2) /\
  (forall t, tar_current_to_target_to_target v0 d0 v1 d1 t1 v2 d2 t2 = Some t -> end_time t = Some t2).
Proof.
  intros. unfold tar_target, tar_current_to_target, tar_const_velocity, tar_target_to_target, tar_current_to_target_to_target, target_of2, target_of3. cbv zeta. split; [reflexivity|].
  repeat split; intros t; repeat match goal with |- context [if ?c then _ else _] => destruct c; try discriminate end; intros [= <-]; reflexivity.
Qed.
Print Assumptions C87_end_time.

(** ** C92 *)
(** A matrix or SQT motivator that was reset shows the identity and has no operations. *)
Theorem C92_reset : (forall M (d : mdata M), md_matrix (mdata_reset d) = identity4 /\ md_ops (mdata_reset d) = []) /\
  (forall M (d : qdata M), qd_matrix (qdata_reset d) = identity4 /\ qd_rotation (qdata_reset d) = Quat 1 0 0 0 /\ qd_scale (qdata_reset d) = V3 1 1 1 /\ qd_ops (qdata_reset d) = []).
Proof.
  split; intros M d; [split; reflexivity|]. split; [|repeat split; reflexivity].
  unfold qdata_reset. cbn [qd_matrix]. rewrite transform_product. unfold default_translation, default_quaternion, default_scale, translating, rotating, scaling, to_matrix, rows. cbn. vec; parts; ring.
Qed.
Print Assumptions C92_reset.
(** A new or a removed overshoot motivator is at rest at zero with the parameters given, or the default ones. *)
Theorem C92_overshoot : forall i, snd (initialize_index i) = 0 /\ velocity (fst (initialize_index i)) = 0 /\ target_value (fst (initialize_index i)) = 0 /\ init_of (fst (initialize_index i)) = i /\
  snd removed_index = 0 /\ velocity (fst removed_index) = 0 /\ target_value (fst removed_index) = 0 /\ o_max_velocity (init_of (fst removed_index)) = 0.
Proof. intros i. repeat split. Qed.
Print Assumptions C92_overshoot.

(** ** C99 *)
(** Names are read up to their first zero. *)
Theorem C99_zero : forall F (a b : list Z), (forall x, In x a -> x <> 0%Z) -> read (F := F) (table_names_describer [[a ++ 0%Z :: b; a]]) = Some [[SFile a; SFile a]].
Proof.
  intros F a b N. rewrite C99_names. assert (A : c_str a = a) by (induction a as [|x a IH]; cbn [c_str]; [reflexivity|]; pose proof (N x (or_introl eq_refl)); replace (x =? 0)%Z with false by lia; now rewrite IH by (intros; apply N; now right)).
  assert (B : c_str (a ++ 0%Z :: b) = a) by (clear A; induction a as [|x a IH]; cbn [c_str app]; [reflexivity|]; pose proof (N x (or_introl eq_refl)); replace (x =? 0)%Z with false by lia; now rewrite IH by (intros; apply N; now right)).
  cbn [map]. now rewrite A, B.
Qed.
Print Assumptions C99_zero.
