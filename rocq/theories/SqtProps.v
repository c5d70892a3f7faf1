(** C53: the value of an SQT motivator.  C54: aligning quaternions before a blend. *)
From Verif Require Import RBase BaseFacts MathfuModel OvershootModel SimpleModel EvaluatorModel SplineTargetModel RangeModel MatrixModel MatrixProps.
From Coq Require Import Lia.
Local Open Scope R_scope.

(** ** C53 *)
(** The value of the last operation of the given types, or a default if there is none. *)
Definition component {M I S} (k : mclass M I S) (is : mtype -> bool) (ops : list (op M)) (default : R) : R :=
  match find (fun o => is (op_type o)) (rev ops) with Some o => op_value k o | None => default end.
Definition is_type (t : mtype) (u : mtype) : bool :=
  match t, u with
  | TranslateX, TranslateX | TranslateY, TranslateY | TranslateZ, TranslateZ
  | QuaternionW, QuaternionW | QuaternionX, QuaternionX | QuaternionY, QuaternionY | QuaternionZ, QuaternionZ => true
  | ScaleX, (ScaleX | ScaleUniformly) | ScaleY, (ScaleY | ScaleUniformly) | ScaleZ, (ScaleZ | ScaleUniformly) => true
  | _, _ => false
  end.
Definition translation_part {M I S} (k : mclass M I S) ops := V3 (component k (is_type TranslateX) ops 0) (component k (is_type TranslateY) ops 0) (component k (is_type TranslateZ) ops 0).
Definition scale_part {M I S} (k : mclass M I S) ops := V3 (component k (is_type ScaleX) ops 1) (component k (is_type ScaleY) ops 1) (component k (is_type ScaleZ) ops 1).
Definition quaternion_part {M I S} (k : mclass M I S) ops :=
  Quat (component k (is_type QuaternionW) ops 1) (component k (is_type QuaternionX) ops 0) (component k (is_type QuaternionY) ops 0) (component k (is_type QuaternionZ) ops 0).
(** The types that an SQT motivator accepts. *)
Definition sqt_type (t : mtype) : bool := match t with InvalidOp | RotateX | RotateY | RotateZ => false | _ => true end.

(** Quaternion multiplication, and the rotation of a vector by a quaternion: q v q*. *)
Definition qmul (p q : quat) : quat :=
  Quat (qw p * qw q - qx p * qx q - qy p * qy q - qz p * qz q) (qw p * qx q + qx p * qw q + qy p * qz q - qz p * qy q)
       (qw p * qy q - qx p * qz q + qy p * qw q + qz p * qx q) (qw p * qz q + qx p * qy q - qy p * qx q + qz p * qw q).
Definition conj (q : quat) : quat := Quat (qw q) (- qx q) (- qy q) (- qz q).
Definition rotated (q : quat) (v : vec3) : vec3 := let r := qmul (qmul q (Quat 0 (x3 v) (y3 v) (z3 v))) (conj q) in V3 (qx r) (qy r) (qz r).
(** The quaternion [u] is [q] brought to length 1. *)
Definition unit_of (u q : quat) : Prop := qdot u u = 1 /\ exists l, 0 < l /\ q = qscale l u.

Definition translating (t : vec3) : mat4 := rows 1 0 0 (x3 t)  0 1 0 (y3 t)  0 0 1 (z3 t)  0 0 0 1.
Definition scaling (s : vec3) : mat4 := rows (x3 s) 0 0 0  0 (y3 s) 0 0  0 0 (z3 s) 0  0 0 0 1.
Definition rotating (r : mat3) : mat4 := M4 (with_w (a0 r) 0) (with_w (a1 r) 0) (with_w (a2 r) 0) (V4 0 0 0 1).

Lemma transform_product t r s : transform t r s = mmul (translating t) (mmul (rotating r) (scaling s)).
Proof. unfold transform, translating, rotating, scaling. mat_eq. Qed.
Lemma to_matrix_rotates q v : qdot q q = 1 -> mat_vec3 (to_matrix q) v = rotated q v.
Proof.
  destruct q as [w x y z], v as [a b c]. unfold qdot. cbn. intros E. unfold to_matrix, rotated, qmul, conj. vec.
  assert (W : w * w = 1 - x * x - y * y - z * z) by lra.
  f_equal.
  - replace (a * (1 - 2 * (y * y + z * z))) with (a * (w * w + x * x - y * y - z * z)) by (rewrite W; ring). ring.
  - replace (b * (1 - 2 * (x * x + z * z))) with (b * (w * w + y * y - x * x - z * z)) by (rewrite W; ring). ring.
  - replace (c * (1 - 2 * (x * x + y * y))) with (c * (w * w + z * z - x * x - y * y)) by (rewrite W; ring). ring.
Qed.
Lemma qdot_pos q : q <> Quat 0 0 0 0 -> 0 < qdot q q.
Proof.
  intros N. destruct q as [w x y z]. unfold qdot. cbn [qw qx qy qz]. destruct (Req_dec w 0); [|nra]. destruct (Req_dec x 0); [|nra]. destruct (Req_dec y 0); [|nra]. destruct (Req_dec z 0); [|nra]. subst. congruence.
Qed.
Lemma qdot_scale k q : qdot (qscale k q) (qscale k q) = k * k * qdot q q.
Proof. unfold qdot, qscale. cbn [qw qx qy qz]. ring. Qed.
Lemma qnormalize_unit q : q <> Quat 0 0 0 0 -> exists u, qnormalize q = Some u /\ unit_of u q.
Proof.
  intros N. pose proof (qdot_pos q N) as P. pose proof (sqrt_lt_R0 _ P) as L. unfold qnormalize. cbv zeta. rewrite Reqb_f by lra. eexists. split; [reflexivity|].
  assert (SS : sqrt (qdot q q) * sqrt (qdot q q) = qdot q q) by (apply sqrt_sqrt; lra). split.
  - rewrite qdot_scale. rewrite <- SS at 3. field. lra.
  - exists (sqrt (qdot q q)). split; [exact L|]. destruct q as [w x y z]. unfold qscale. cbn [qw qx qy qz]. f_equal; field; lra.
Qed.
Lemma qnormalize_zero : qnormalize (Quat 0 0 0 0) = None.
Proof. unfold qnormalize, qdot. cbn. rewrite Reqb_t; [reflexivity|]. replace (0 * 0 + 0 * 0 + 0 * 0 + 0 * 0) with 0 by ring. apply sqrt_0. Qed.

Lemma component_cons {M I S} (k : mclass M I S) is (o : op M) ops d :
  component k is (o :: ops) d = component k is ops (if is (op_type o) then op_value k o else d).
Proof.
  unfold component. cbn [rev]. generalize (rev ops) as l. induction l as [|x l IH]; cbn [app find].
  - now destruct (is (op_type o)).
  - destruct (is (op_type x)); [reflexivity|exact IH].
Qed.
Lemma sqt_steps_ok {M I S} (k : mclass M I S) : forall ops t q s, forallb (fun o => sqt_type (op_type o)) ops = true ->
  sqt_steps k (t, q, s) ops = Some
    (V3 (component k (is_type TranslateX) ops (x3 t)) (component k (is_type TranslateY) ops (y3 t)) (component k (is_type TranslateZ) ops (z3 t)),
     Quat (component k (is_type QuaternionW) ops (qw q)) (component k (is_type QuaternionX) ops (qx q)) (component k (is_type QuaternionY) ops (qy q)) (component k (is_type QuaternionZ) ops (qz q)),
     V3 (component k (is_type ScaleX) ops (x3 s)) (component k (is_type ScaleY) ops (y3 s)) (component k (is_type ScaleZ) ops (z3 s))).
Proof.
  induction ops as [|o ops IH]; intros t q s F.
  - unfold component. cbn. now destruct t, q, s.
  - cbn [forallb] in F. apply andb_prop in F as [F1 F2]. cbn [sqt_steps]. unfold sqt_step. rewrite !component_cons. destruct (op_type o); try discriminate; rewrite (IH _ _ _ F2); reflexivity.
Qed.
Lemma sqt_steps_bad {M I S} (k : mclass M I S) : forall ops st, forallb (fun o => sqt_type (op_type o)) ops = false -> sqt_steps k st ops = None.
Proof.
  induction ops as [|o ops IH]; intros st F; [discriminate|]. cbn [forallb] in F. cbn [sqt_steps]. destruct (sqt_type (op_type o)) eqn:E.
  - cbn [andb] in F. destruct (sqt_step k st o); [|reflexivity]. now apply IH.
  - destruct st as [[t q] s]. unfold sqt_step. now destruct (op_type o).
Qed.
Lemma qdata_update_eq {M I S} (k : mclass M I S) d : forallb (fun o => sqt_type (op_type o)) (qd_ops d) = true ->
  qdata_update k d = q' <- qnormalize (quaternion_part k (qd_ops d)) ;;
    Some (QData (transform (translation_part k (qd_ops d)) (to_matrix q') (scale_part k (qd_ops d))) q' (scale_part k (qd_ops d)) (qd_ops d)).
Proof. intros F. unfold qdata_update. rewrite sqt_steps_ok by exact F. reflexivity. Qed.

(** The value is translation * rotation * scale, each part made of the last operation of its
    kind or the default; the rotation is that of the normalised quaternion.  Partial: not
    when all four components of the quaternion are zero. *)
Theorem C53_update_partial : forall M I S (k : mclass M I S) (d : qdata M),
  forallb (fun o => sqt_type (op_type o)) (qd_ops d) = true -> quaternion_part k (qd_ops d) <> Quat 0 0 0 0 ->
  exists d' r, qdata_update k d = Some d' /\
    qd_matrix d' = mmul (translating (translation_part k (qd_ops d))) (mmul (rotating r) (scaling (scale_part k (qd_ops d)))) /\
    unit_of (qd_rotation d') (quaternion_part k (qd_ops d)) /\ (forall v, mat_vec3 r v = rotated (qd_rotation d') v) /\
    qd_scale d' = scale_part k (qd_ops d) /\ qd_ops d' = qd_ops d.
Proof.
  intros M I S k d F N. rewrite qdata_update_eq by exact F. destruct (qnormalize_unit _ N) as (u & E & U). rewrite E. eexists. exists (to_matrix u). split; [reflexivity|]. cbn [qd_matrix qd_rotation qd_scale qd_ops].
  split; [apply transform_product|]. split; [exact U|]. split; [|split; reflexivity]. intros v. apply to_matrix_rotates, U.
Qed.
Print Assumptions C53_update_partial.

(** Operations that only the matrix processor supports fail the assert. *)
Theorem C53_unsupported : forall M I S (k : mclass M I S) (d : qdata M), forallb (fun o => sqt_type (op_type o)) (qd_ops d) = false -> qdata_update k d = None.
Proof. intros M I S k d F. unfold qdata_update. now rewrite sqt_steps_bad. Qed.
Print Assumptions C53_unsupported.

(** A w component of zero and no other component: the quaternion cannot be normalised. *)
Theorem C53_zero_refuted : exists ops, forallb (fun o => sqt_type (op_type o)) ops = true /\ ops = [Op 0 QuaternionW None 0] /\
  qdata_update demo_class (QData identity4 qidentity (V3 1 1 1) ops) = None.
Proof.
  exists [Op 0 QuaternionW None 0]. split; [reflexivity|]. split; [reflexivity|]. rewrite qdata_update_eq by reflexivity. cbn [qd_ops]. unfold quaternion_part, component. cbn. now rewrite qnormalize_zero.
Qed.
Print Assumptions C53_zero_refuted.

(** Each SQT motivator is updated from its own operations in a frame. *)
Theorem C53_frame : forall M I S (k : mclass M I S) (data : list (qdata M)),
  (forall d, In d data -> forallb (fun o => sqt_type (op_type o)) (qd_ops d) = true /\ quaternion_part k (qd_ops d) <> Quat 0 0 0 0) ->
  exists data', sqt_frame k data = Some data' /\ forall i d, getz data i = Some d -> exists d', qdata_update k d = Some d' /\ getz data' i = Some d'.
Proof.
  intros M I S k data H. destruct (map_all_succeeds (qdata_update k) data) as [r Hr].
  { intros d Hd. destruct (H d Hd) as [F N]. destruct (C53_update_partial _ _ _ k d F N) as (d' & _ & E & _). eauto. }
  exists r. split; [exact Hr|]. intros i d E. destruct (map_all_getz _ _ _ Hr i d E) as (d' & U & G). eauto.
Qed.
Print Assumptions C53_frame.

(** Half a turn about x, twice the size, moved to (0, 4, 0). *)
Example C53_case :
  let ops := [Op 0 TranslateY None 4; Op 1 QuaternionW None 0; Op 2 QuaternionX (Some (3, 0)) 0; Op 3 ScaleUniformly None 2] in
  forallb (fun o => sqt_type (op_type o)) ops = true /\ quaternion_part demo_class ops = Quat 0 3 0 0 /\
  translation_part demo_class ops = V3 0 4 0 /\ scale_part demo_class ops = V3 2 2 2.
Proof. repeat split. Qed.

(** ** C54 *)
(** A motivator that is given a current value has it. *)
Definition keeps_current {M I S} (k : mclass M I S) : Prop := forall v d m m', m_set_target k (current1f v d) m = Some m' -> m_value k m' = v.

Definition negated {M I S} (k : mclass M I S) (o o' : op M) : Prop :=
  op_type o' = op_type o /\ op_value k o' = if quaternion_op (op_type o) then - op_value k o else op_value k o.
Lemma negate_ops_ok {M I S} (k : mclass M I S) : keeps_current k -> forall ops ops', negate_ops k ops = Some ops' -> Forall2 (negated k) ops ops'.
Proof.
  intros K. induction ops as [|o ops IH]; intros ops' E; cbn [negate_ops] in E; [injection E as <-; constructor|].
  destruct (negate_op k o) as [o'|] eqn:E1; [|discriminate]. destruct (negate_ops k ops) as [l|]; [|discriminate]. injection E as <-. constructor; [|now apply IH].
  unfold negate_op in E1. unfold negated. destruct (quaternion_op (op_type o)); [|injection E1 as <-; auto]. destruct (op_motivator o) as [m|] eqn:Em.
  - destruct (op_velocity k o) as [d|]; [|discriminate]. unfold op_set_target in E1. rewrite Em in E1. destruct (m_set_target k _ m) as [m'|] eqn:Es; [|discriminate]. injection E1 as <-. split; [reflexivity|].
    unfold op_value at 1. cbn [op_motivator]. exact (K _ _ _ _ Es).
  - unfold op_set_value in E1. rewrite Em in E1. destruct (_ || _); [|discriminate]. injection E1 as <-. split; reflexivity.
Qed.
Lemma component_negated {M I S} (k : mclass M I S) is ops ops' : Forall2 (negated k) ops ops' -> (forall t, is t = true -> quaternion_op t = true) ->
  forall d d', (existsb (fun o => is (op_type o)) ops = true \/ d' = - d) -> component k is ops' d' = - component k is ops d.
Proof.
  intros F Q. induction F as [|o o' ops ops' N F IH]; intros d d' H.
  - unfold component. cbn. destruct H as [H|H]; [discriminate|exact H].
  - rewrite !component_cons. destruct N as [T V]. rewrite T. apply IH. destruct (is (op_type o)) eqn:E.
    + right. rewrite V, (Q _ E). reflexivity.
    + cbn [existsb] in H. rewrite E in H. exact H.
Qed.
Lemma component_kept {M I S} (k : mclass M I S) is ops ops' : Forall2 (negated k) ops ops' -> (forall t, is t = true -> quaternion_op t = false) -> forall d, component k is ops' d = component k is ops d.
Proof.
  intros F Q. induction F as [|o o' ops ops' N F IH]; intros d; [reflexivity|]. rewrite !component_cons. destruct N as [T V]. rewrite T. destruct (is (op_type o)) eqn:E; [|apply IH]. rewrite V, (Q _ E). apply IH.
Qed.
Definition qneg (q : quat) : quat := Quat (- qw q) (- qx q) (- qy q) (- qz q).
Lemma to_matrix_neg q : to_matrix (qneg q) = to_matrix q.
Proof. unfold to_matrix, qneg. vec. parts; ring. Qed.
Lemma qnormalize_neg q : qnormalize (qneg q) = u <- qnormalize q ;; Some (qneg u).
Proof.
  unfold qnormalize. cbv zeta. replace (qdot (qneg q) (qneg q)) with (qdot q q) by (unfold qdot, qneg; cbn; ring). destruct (Reqb _ 0); [reflexivity|]. apply f_equal. unfold qscale, qneg. cbn. f_equal; ring.
Qed.

Definition has_w {M} (ops : list (op M)) : bool := existsb (fun o => is_type QuaternionW (op_type o)) ops.

Lemma align_cases {M I S} (k : mclass M I S) new d d1 : align_quaternion_ops k new d = Some d1 -> exists next q, next_quaternion k qidentity new = Some q /\ qnormalize q = Some next /\
  ((qdot (qd_rotation d) next < 0 /\ exists ops, negate_ops k (qd_ops d) = Some ops /\ d1 = QData (qd_matrix d) (qd_rotation d) (qd_scale d) ops) \/ (0 <= qdot (qd_rotation d) next /\ d1 = d)).
Proof.
  unfold align_quaternion_ops. destruct (next_quaternion _ _ _) as [q|]; [|discriminate]. destruct (qnormalize q) as [n|] eqn:En; [|discriminate]. intros E. exists n, q. split; [reflexivity|]. split; [exact En|].
  revert E. destruct (Rltb_spec (qdot (qd_rotation d) n) 0).
  - destruct (negate_ops k (qd_ops d)) as [l|]; [|discriminate]. intros [= <-]. left. split; [assumption|]. eauto.
  - intros [= <-]. right. split; [lra|reflexivity].
Qed.

(** If the motivator has an operation for the w component, alignment changes neither the
    matrix nor the orientation that the next update shows: the quaternion is kept or
    negated.  Partial: with an operation for w. *)
Theorem C54_orientation_partial : forall M I S (k : mclass M I S) new (d d1 : qdata M), keeps_current k -> has_w (qd_ops d) = true -> align_quaternion_ops k new d = Some d1 ->
  match qdata_update k d with
  | Some e => exists e1, qdata_update k d1 = Some e1 /\ qd_matrix e1 = qd_matrix e /\ qd_scale e1 = qd_scale e /\ (qd_rotation e1 = qd_rotation e \/ qd_rotation e1 = qneg (qd_rotation e))
  | None => qdata_update k d1 = None
  end.
Proof.
  intros M I S k new d d1 K W E. destruct (align_cases k new d d1 E) as (next & q & _ & _ & [(_ & ops & En & ->)|(_ & ->)]).
  2: { destruct (qdata_update k d) as [e|]; [|reflexivity]. exists e. auto. }
  pose proof (negate_ops_ok k K _ _ En) as F.
  assert (TT : forallb (fun o => sqt_type (op_type o)) ops = forallb (fun o => sqt_type (op_type o)) (qd_ops d)). { clear - F. induction F as [|o o' l l' [T _] F IH]; [reflexivity|]. cbn [forallb]. now rewrite T, IH. }
  destruct (forallb (fun o => sqt_type (op_type o)) (qd_ops d)) eqn:Ok.
  - rewrite !qdata_update_eq by assumption. cbn [qd_ops].
    assert (QP : quaternion_part k ops = qneg (quaternion_part k (qd_ops d))).
    { unfold quaternion_part, qneg. cbn [qw qx qy qz]. f_equal; apply (component_negated k _ _ _ F).
      1,3,5,7: intros t; destruct t; discriminate || reflexivity. all: [> now left | right; ring | right; ring | right; ring]. }
    assert (TP : translation_part k ops = translation_part k (qd_ops d)) by (unfold translation_part; f_equal; apply (component_kept k _ _ _ F); intros t; destruct t; discriminate || reflexivity).
    assert (SP : scale_part k ops = scale_part k (qd_ops d)) by (unfold scale_part; f_equal; apply (component_kept k _ _ _ F); intros t; destruct t; discriminate || reflexivity).
    rewrite QP, TP, SP, qnormalize_neg. destruct (qnormalize (quaternion_part k (qd_ops d))) as [u|]; [|reflexivity]. eexists. split; [reflexivity|]. cbn [qd_matrix qd_scale qd_rotation]. rewrite to_matrix_neg. auto.
  - unfold qdata_update. cbn [qd_ops]. now rewrite !sqt_steps_bad.
Qed.
Print Assumptions C54_orientation_partial.

(** It does what it is for: the next update shows a quaternion on the same side as the one
    the blend goes to. *)
Theorem C54_closer_partial : forall M I S (k : mclass M I S) new (d d1 : qdata M), keeps_current k -> has_w (qd_ops d) = true -> qdata_update k d = Some d -> align_quaternion_ops k new d = Some d1 ->
  exists e1 next q, qdata_update k d1 = Some e1 /\ next_quaternion k qidentity new = Some q /\ unit_of next q /\ 0 <= qdot (qd_rotation e1) next.
Proof.
  intros M I S k new d d1 K W U E. pose proof (align_cases k new d d1 E) as (next & q & Eq & En & C).
  assert (UN : unit_of next q). { destruct (qnormalize_unit q) as (u & Eu & Hu); [intros ->; now rewrite qnormalize_zero in En|]. congruence. }
  destruct C as [(L & ops & Eo & ->)|(L & ->)].
  - assert (Ok : forallb (fun o => sqt_type (op_type o)) (qd_ops d) = true). { destruct (forallb _ (qd_ops d)) eqn:F; [reflexivity|]. now rewrite (C53_unsupported _ _ _ k d F) in U. }
    pose proof (negate_ops_ok k K _ _ Eo) as F.
    assert (TT : forallb (fun o => sqt_type (op_type o)) ops = true). { rewrite <- Ok. clear - F. induction F as [|o o' l l' [T _] F IH]; [reflexivity|]. cbn [forallb]. now rewrite T, IH. }
    rewrite qdata_update_eq in U by exact Ok. destruct (qnormalize (quaternion_part k (qd_ops d))) as [u|] eqn:Eu; [|discriminate]. 
    assert (QP : quaternion_part k ops = qneg (quaternion_part k (qd_ops d))).
    { unfold quaternion_part, qneg. cbn [qw qx qy qz]. f_equal; apply (component_negated k _ _ _ F).
      1,3,5,7: intros t; destruct t; discriminate || reflexivity. all: [> now left | right; ring | right; ring | right; ring]. }
    assert (RU : qd_rotation d = u) by (injection U as <-; reflexivity).
    rewrite qdata_update_eq by exact TT. cbn [qd_ops]. rewrite QP, qnormalize_neg, Eu. eexists. exists next, q. split; [reflexivity|]. split; [exact Eq|]. split; [exact UN|]. cbn [qd_rotation].
    rewrite RU in L. unfold qdot, qneg in *. cbn [qw qx qy qz] in *. lra.
  - exists d, next, q. auto.
Qed.
Print Assumptions C54_closer_partial.

(** Without an operation for w, whose default is 1, negating the others turns the bone. *)
Theorem C54_absent_w_refuted : exists (d d1 : qdata (R * R)) e e1 new, qdata_update demo_class d = Some d /\ align_quaternion_ops demo_class new d = Some d1 /\
  qdata_update demo_class d1 = Some e1 /\ qdata_update demo_class d = Some e /\ rotated (qd_rotation e) (V3 0 1 0) = V3 0 0 1 /\ rotated (qd_rotation e1) (V3 0 1 0) = V3 0 0 (-1).
Proof.
  set (h := 1 / sqrt 2). assert (S2 : 0 < sqrt 2) by (apply sqrt_lt_R0; lra). assert (HH : h * h = 1 / 2). { unfold h. replace (1 / sqrt 2 * (1 / sqrt 2)) with (1 / (sqrt 2 * sqrt 2)) by (field; lra). rewrite sqrt_sqrt by lra. reflexivity. }
  assert (N : forall x, x * x = 1 -> qnormalize (Quat 1 x 0 0) = Some (Quat h (h * x) 0 0)).
  { intros x X. unfold qnormalize, qdot. cbn [qw qx qy qz]. replace (1 * 1 + x * x + 0 * 0 + 0 * 0) with 2 by lra. rewrite Reqb_f by lra. apply f_equal. unfold qscale. cbn [qw qx qy qz]. fold h. f_equal; ring. }
  assert (U : forall x, x * x = 1 -> exists m, forall mat rot sc, qdata_update demo_class (QData mat rot sc [Op 0 QuaternionX None x]) = Some (QData m (Quat h (h * x) 0 0) (V3 1 1 1) [Op 0 QuaternionX None x])).
  { intros x X. eexists. intros mat rot sc. rewrite qdata_update_eq by reflexivity. cbn [qd_ops]. unfold quaternion_part, component. cbn. rewrite (N x X). reflexivity. }
  destruct (U 1 ltac:(lra)) as [m E]. set (d := QData m (Quat h (h * 1) 0 0) (V3 1 1 1) [Op 0 QuaternionX None 1]) in *.
  assert (E' : qdata_update demo_class d = Some d) by apply E.
  destruct (U (- (1)) ltac:(lra)) as [m1 E1]. specialize (E1 m (Quat h (h * 1) 0 0) (V3 1 1 1)).
  exists d. eexists. exists d. eexists. exists [OpInit None 0 QuaternionW (UValue (- (1)))]. split; [exact E'|]. split; [|split; [exact E1|split; [exact E'|]]].
  - unfold align_quaternion_ops. cbn [next_quaternion i_type init_start_value i_union qidentity qx qy qz].
    replace (qnormalize (Quat (- (1)) 0 0 0)) with (Some (Quat (- (1)) 0 0 0)).
    2: { unfold qnormalize, qdot. cbn [qw qx qy qz]. replace (- (1) * - (1) + 0 * 0 + 0 * 0 + 0 * 0) with 1 by ring. rewrite sqrt_1, Reqb_f by lra. apply f_equal. unfold qscale. cbn. f_equal; field. }
    assert (0 < h) by (unfold h; apply Rdiv_lt_0_compat; lra). cbn [d qd_rotation]. unfold qdot. cbn [qw qx qy qz]. rewrite Rltb_t by lra.
    cbn [qd_ops negate_ops negate_op op_type quaternion_op op_motivator]. unfold op_set_value. cbn [op_motivator op_type rotate_op negb orb op_value op_const op_id qd_matrix qd_scale]. reflexivity.
  - cbn [qd_rotation d]. unfold rotated, qmul, conj. cbn. split; f_equal; nra.
Qed.
Print Assumptions C54_absent_w_refuted.

Example C54_case : keeps_current demo_class /\ has_w [Op 0 QuaternionW None 1; Op 1 QuaternionX (Some (1, 0)) 0] = true.
Proof. split; [intros v d m m' E; injection E as <-; reflexivity|reflexivity]. Qed.
