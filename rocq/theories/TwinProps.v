(** C106: clones of matrix and SQT motivators. *)
From Verif Require Import RBase BaseFacts RangeModel MathfuModel AngleModel OvershootModel SimpleModel CompactSplineModel EvaluatorModel SplineTargetModel MatrixModel MatrixProps SqtProps CloneModel RigModel SplineClassModel.
From Coq Require Import Lia.

(** Both fail, or both succeed with related results. *)
Definition both {A} (P : A -> A -> Prop) (a b : option A) : Prop :=
  match a, b with Some x, Some y => P x y | None, None => True | _, _ => False end.
Lemma both_bind {A B} (P : A -> A -> Prop) (Q : B -> B -> Prop) a b f g : both P a b -> (forall x y, P x y -> both Q (f x) (g y)) -> both Q (x <- a ;; f x) (y <- b ;; g y).
Proof. destruct a, b; cbn; intros H K; try contradiction; auto. Qed.
Lemma both_same {A} (P : A -> A -> Prop) a : (forall x, P x x) -> both P a a. Proof. destruct a; cbn; auto. Qed.

(** Two motivators in related states cannot be told apart by the calls that operations make; whatever the calls, they
    remain in related states. *)
Definition indistinguishable {M I S} (k : mclass M I S) (like : M -> M -> Prop) : Prop := forall m m', like m m' ->
  m_value k m' = m_value k m /\ m_velocity k m' = m_velocity k m /\ m_target_time k m' = m_target_time k m /\
  (forall t, both like (m_set_target k t m) (m_set_target k t m')) /\ (forall s p, both like (m_set_spline k s p m) (m_set_spline k s p m')).

(** What happens to a matrix or SQT motivator: a frame, in which its own motivators are advanced before the matrix is
    updated, and BlendToOps. *)
Inductive event (M I S : Type) := Frame (advance : M -> option M) | Blend (ops : list (opinit I S)) (p : playback).
Arguments Frame {M I S}. Arguments Blend {M I S}.
Definition mdata_event {M I S} (k : mclass M I S) (e : event M I S) (d : mdata M) : option (mdata M) :=
  match e with Frame f => mdata_frame k f d | Blend ops p => mdata_blend_to_ops k ops p d end.
Definition qdata_event {M I S} (k : mclass M I S) (e : event M I S) (d : qdata M) : option (qdata M) :=
  match e with Frame f => qdata_frame k f d | Blend ops p => qdata_blend_to_ops k ops p d end.
Fixpoint run_events {D E} (f : E -> D -> option D) (l : list E) (d : D) : option D :=
  match l with [] => Some d | e :: l' => d' <- f e d ;; run_events f l' d' end.
(** Advancing keeps motivators in related states. *)
Definition event_ok {M I S} (like : M -> M -> Prop) (e : event M I S) : Prop :=
  match e with Frame f => forall m m', like m m' -> both like (f m) (f m') | Blend _ _ => True end.

Section Twins.
Context {M I S : Type} (k : mclass M I S) (like : M -> M -> Prop) (IND : indistinguishable k like) (REFL : forall m, like m m).

Definition mlike (a b : option M) : Prop := match a, b with Some x, Some y => like x y | None, None => True | _, _ => False end.
Definition op_like (o o' : op M) : Prop := op_id o' = op_id o /\ op_type o' = op_type o /\ op_const o' = op_const o /\ mlike (op_motivator o) (op_motivator o').
Notation ops_like := (Forall2 op_like).
Lemma mlike_refl a : mlike a a. Proof. destruct a; cbn; auto. Qed.
Lemma op_like_refl o : op_like o o. Proof. repeat split. apply mlike_refl. Qed.
Lemma like_value o o' : op_like o o' -> op_value k o' = op_value k o.
Proof. intros (_ & _ & C & L). unfold op_value. destruct (op_motivator o), (op_motivator o'); try contradiction; [now apply (IND _ _ L)|exact C]. Qed.
Lemma like_velocity o o' : op_like o o' -> op_velocity k o' = op_velocity k o.
Proof. intros (_ & _ & C & L). unfold op_velocity. destruct (op_motivator o), (op_motivator o'); try contradiction; [now apply (IND _ _ L)|reflexivity]. Qed.
Lemma like_set_target t o o' : op_like o o' -> both op_like (op_set_target k t o) (op_set_target k t o').
Proof.
  intros (A & B & C & L). unfold op_set_target. destruct (op_motivator o) as [m|], (op_motivator o') as [m'|]; try contradiction; [|exact L]. cbn [mlike] in L.
  eapply both_bind; [exact (proj1 (proj2 (proj2 (proj2 (IND _ _ L)))) t)|]. intros x y XY. cbn. repeat split; auto.
Qed.
Lemma like_ensure i o o' : op_like o o' -> both like (ensure_motivator k o i) (ensure_motivator k o' i).
Proof.
  intros (A & B & C & L). unfold ensure_motivator. destruct (op_motivator o) as [m|], (op_motivator o') as [m'|]; try contradiction; [exact L|]. rewrite C. apply both_same. exact REFL.
Qed.
Lemma like_blend i p o o' : op_like o o' -> both op_like (blend_to_op k i p o) (blend_to_op k i p o').
Proof.
  intros L0. pose proof L0 as (A & B & C & L). unfold blend_to_op. destruct (i_union i) as [|v|t|s].
  - exact L0.
  - destruct (op_motivator o) as [m|], (op_motivator o') as [m'|]; try contradiction; [|cbn; rewrite A, B; apply op_like_refl]. cbn [mlike] in L. destruct (IND _ _ L) as (V & D & _ & T & _). rewrite V, D.
    destruct (m_velocity k m) as [d|]; [|exact Logic.I]. destruct (_ && _); [cbn; rewrite A, B; apply op_like_refl|]. destruct (to_motive_time _) as [time|]; [|exact Logic.I]. destruct (target1f v 0 time) as [tg|]; [|exact Logic.I].
    eapply both_bind; [apply T|]. intros x y XY. cbn. repeat split; auto.
  - eapply both_bind; [apply like_ensure; exact L0|]. intros m m' MM. eapply both_bind; [apply (IND _ _ MM)|]. intros x y XY. cbn. repeat split; auto.
  - eapply both_bind; [apply like_ensure; exact L0|]. intros m m' MM. eapply both_bind; [apply (IND _ _ MM)|]. intros x y XY. cbn. repeat split; auto.
Qed.
Lemma like_default t o o' : op_like o o' -> both op_like (blend_to_default k t o) (blend_to_default k t o').
Proof.
  intros (A & B & C & L). unfold blend_to_default. rewrite A, B. destruct (op_motivator o) as [m|], (op_motivator o') as [m'|]; try contradiction; [|apply op_like_refl]. cbv zeta.
  destruct (if (t =? 0)%Z then _ else _) as [tg|]; [|exact Logic.I]. eapply both_bind; [exact (proj1 (proj2 (proj2 (proj2 (IND _ _ L)))) tg)|]. intros x y XY. cbn. repeat split; auto.
Qed.
Lemma like_make i p : both op_like (make_op k i p) (make_op k i p). Proof. apply both_same, op_like_refl. Qed.

Lemma like_len l l' : ops_like l l' -> len l' = len l.
Proof. induction 1; [reflexivity|]. unfold len in *. cbn [length]. lia. Qed.
Lemma like_getz l l' : ops_like l l' -> forall i, both op_like (getz l i) (getz l' i).
Proof.
  intros F. unfold getz. intros i. destruct (i <? 0)%Z; [exact Logic.I|]. generalize (Z.to_nat i) as n. induction F; intros [|n]; cbn; auto.
Qed.
Lemma like_set_nth l l' x y n : ops_like l l' -> op_like x y -> ops_like (firstn n l ++ x :: skipn (Datatypes.S n) l) (firstn n l' ++ y :: skipn (Datatypes.S n) l').
Proof. intros F XY. revert n. induction F as [|a b l l' AB F IH]; intros [|n]; cbn; auto. constructor; [exact AB|]. apply (IH n). Qed.
Lemma like_setz l l' i x y : ops_like l l' -> op_like x y -> both ops_like (setz l i x) (setz l' i y).
Proof.
  intros F XY. pose proof (like_len _ _ F) as L. unfold setz. rewrite L. destruct ((0 <=? i) && (i <? len l))%Z; [|exact Logic.I]. cbn. apply like_set_nth; auto.
Qed.
Lemma like_insert l l' i x y : ops_like l l' -> op_like x y -> ops_like (insert_at l i x) (insert_at l' i y).
Proof. intros F XY. unfold insert_at. generalize (Z.to_nat i) as n. induction F as [|a b l l' AB F IH]; intros [|n]; cbn; auto. Qed.

Definition loop_like (a b : list (op M) * Z * Z) : Prop := ops_like (fst (fst a)) (fst (fst b)) /\ snd (fst b) = snd (fst a) /\ snd b = snd a.
Lemma like_merge_loop fb : forall fuel l l' new p i j, ops_like l l' -> both loop_like (merge_loop k fb fuel l new p i j) (merge_loop k fb fuel l' new p i j).
Proof.
  induction fuel as [|fuel IH]; intros l l' new p i j F; cbn [merge_loop]; rewrite (like_len _ _ F); (destruct ((i <? len l) && (j <? len new))%Z; [|repeat split; auto]); [exact Logic.I|].
  eapply both_bind; [apply like_getz; exact F|]. intros o o' OO. destruct (getz new j) as [ni|]; [|exact Logic.I]. destruct (negb _); [|exact Logic.I].
  unfold blendable. pose proof OO as (ID & _). rewrite ID. destruct (op_id o =? i_id ni)%Z; [|destruct (op_id o <? i_id ni)%Z].
  - eapply both_bind; [apply like_blend; exact OO|]. intros x y XY. eapply both_bind; [apply like_setz; eassumption|]. intros. apply IH; auto.
  - destruct (to_motive_time _); [|exact Logic.I]. eapply both_bind; [apply like_default; exact OO|]. intros x y XY. eapply both_bind; [apply like_setz; eassumption|]. intros. apply IH; auto.
  - eapply both_bind; [apply like_make|]. intros x y XY. apply IH. apply like_insert; auto.
Qed.
Lemma like_default_loop : forall fuel l l' p i n, ops_like l l' -> both ops_like (default_loop k fuel l p i n) (default_loop k fuel l' p i n).
Proof.
  induction fuel as [|fuel IH]; intros l l' p i n F; cbn [default_loop]; (destruct (i <? n)%Z; [|exact F]); [exact Logic.I|].
  eapply both_bind; [apply like_getz; exact F|]. intros o o' OO. destruct (to_motive_time _); [|exact Logic.I]. eapply both_bind; [apply like_default; exact OO|]. intros x y XY. eapply both_bind; [apply like_setz; eassumption|]. intros. apply IH; auto.
Qed.
Lemma like_insert_loop : forall fuel l l' new p j, ops_like l l' -> both ops_like (insert_loop k fuel l new p j) (insert_loop k fuel l' new p j).
Proof.
  induction fuel as [|fuel IH]; intros l l' new p j F; cbn [insert_loop]; (destruct (j <? len new)%Z; [|exact F]); [exact Logic.I|].
  destruct (getz new j) as [ni|]; [|exact Logic.I]. eapply both_bind; [apply like_make|]. intros x y XY. apply IH. apply Forall2_app; auto.
Qed.
Lemma like_merge fb l l' new p : ops_like l l' -> both ops_like (merge_ops k fb l new p) (merge_ops k fb l' new p).
Proof.
  intros F. unfold merge_ops. assert (LN : length l' = length l) by (pose proof (like_len _ _ F) as L; unfold len in L; lia). rewrite LN.
  pose proof (like_merge_loop fb (length l + length new) l l' new p 0 0 F) as H. destruct (merge_loop k fb _ l new p 0 0) as [[[a i] j]|], (merge_loop k fb _ l' new p 0 0) as [[[a' i'] j']|]; try contradiction; [|exact Logic.I].
  destruct H as (HF & I1 & I2). cbn [fst snd] in *. subst i' j'. assert (LA : length a' = length a) by (pose proof (like_len _ _ HF) as L; unfold len in L; lia). rewrite LA, (like_len _ _ HF).
  eapply both_bind; [apply like_default_loop; exact HF|]. intros. apply like_insert_loop; auto.
Qed.
Lemma like_steps l l' : ops_like l l' -> forall st, op_steps k st l' = op_steps k st l.
Proof.
  induction 1 as [|o o' l l' OO F IH]; intros st; cbn [op_steps]; [reflexivity|]. assert (E : op_step k st o' = op_step k st o) by (unfold op_step; pose proof OO as (_ & T & _); rewrite (like_value _ _ OO), T; reflexivity).
  rewrite E. destruct (op_step k st o); auto.
Qed.
Lemma like_sqt_steps l l' : ops_like l l' -> forall st, sqt_steps k st l' = sqt_steps k st l.
Proof.
  induction 1 as [|o o' l l' OO F IH]; intros st; cbn [sqt_steps]; [reflexivity|]. assert (E : sqt_step k st o' = sqt_step k st o) by (unfold sqt_step; pose proof OO as (_ & T & _); rewrite (like_value _ _ OO), T; reflexivity).
  rewrite E. destruct (sqt_step k st o); auto.
Qed.
Lemma like_times l l' : ops_like l l' -> forall t, ops_time_remaining k t l' = ops_time_remaining k t l.
Proof.
  induction 1 as [|o o' l l' OO F IH]; intros t; cbn [ops_time_remaining]; [reflexivity|]. assert (E : op_time_remaining k o' = op_time_remaining k o).
  { unfold op_time_remaining. destruct OO as (_ & _ & _ & L). destruct (op_motivator o), (op_motivator o'); try contradiction; [apply (IND _ _ L)|reflexivity]. }
  rewrite E. destruct (op_time_remaining k o); auto.
Qed.
Lemma like_advance f l l' : (forall m m', like m m' -> both like (f m) (f m')) -> ops_like l l' -> both ops_like (map_all (op_advance f) l) (map_all (op_advance f) l').
Proof.
  intros FF. induction 1 as [|o o' l l' OO F IH]; cbn [map_all]; [constructor|]. eapply both_bind with (P := op_like).
  - unfold op_advance. pose proof OO as (A & B & C & L). destruct (op_motivator o) as [m|], (op_motivator o') as [m'|]; try contradiction; [|exact OO]. eapply both_bind; [apply FF; exact L|]. intros x y XY. cbn. repeat split; auto.
  - intros x y XY. eapply both_bind; [exact IH|]. intros r r' RR. cbn. auto.
Qed.
Lemma like_negate l l' : ops_like l l' -> both ops_like (negate_ops k l) (negate_ops k l').
Proof.
  induction 1 as [|o o' l l' OO F IH]; cbn [negate_ops]; [constructor|]. eapply both_bind with (P := op_like).
  - unfold negate_op. rewrite (like_value _ _ OO), (like_velocity _ _ OO). pose proof OO as (A & B & C & L). rewrite B. destruct (quaternion_op (op_type o)); [|exact OO].
    destruct (op_motivator o) as [m|] eqn:OM, (op_motivator o') as [m'|] eqn:OM'; try contradiction.
    + destruct (op_velocity k o); [|exact Logic.I]. now apply like_set_target.
    + unfold op_set_value. rewrite OM, OM', A, B. apply both_same, op_like_refl.
  - intros x y XY. eapply both_bind; [exact IH|]. intros r r' RR. cbn. auto.
Qed.

Definition mdata_like (d d' : mdata M) : Prop := md_matrix d' = md_matrix d /\ md_scale d' = md_scale d /\ ops_like (md_ops d) (md_ops d').
Definition qdata_like (d d' : qdata M) : Prop := qd_matrix d' = qd_matrix d /\ qd_rotation d' = qd_rotation d /\ qd_scale d' = qd_scale d /\ ops_like (qd_ops d) (qd_ops d').
Lemma like_mdata_event e d d' : event_ok like e -> mdata_like d d' -> both mdata_like (mdata_event k e d) (mdata_event k e d').
Proof.
  intros EO (A & B & F). destruct e as [f|ops p]; cbn [mdata_event event_ok] in *.
  - eapply both_bind; [apply like_advance; eassumption|]. intros l l' LL. unfold mdata_update, calculate_result_matrix. cbn [md_ops]. rewrite (like_steps _ _ LL). destruct (op_steps k _ l); [|exact Logic.I]. repeat split; auto.
  - unfold mdata_blend_to_ops. eapply both_bind; [apply like_merge; exact F|]. intros l l' LL. repeat split; auto.
Qed.
Lemma like_qdata_event e d d' : event_ok like e -> qdata_like d d' -> both qdata_like (qdata_event k e d) (qdata_event k e d').
Proof.
  intros EO (A & B & C & F). destruct e as [f|ops p]; cbn [qdata_event event_ok] in *.
  - eapply both_bind; [apply like_advance; eassumption|]. intros l l' LL. unfold qdata_update. cbn [qd_ops]. rewrite (like_sqt_steps _ _ LL). destruct (sqt_steps k _ l) as [[[t q] s]|]; [|exact Logic.I]. destruct (qnormalize q); [|exact Logic.I]. repeat split; auto.
  - unfold qdata_blend_to_ops. eapply both_bind with (P := qdata_like).
    + unfold align_quaternion_ops. destruct (next_quaternion k qidentity ops) as [q|]; [|exact Logic.I]. destruct (qnormalize q) as [nx|]; [|exact Logic.I]. rewrite B. destruct (Rltb _ 0); [|repeat split; auto].
      eapply both_bind; [apply like_negate; exact F|]. intros l l' LL. repeat split; auto.
    + intros x y (A' & B' & C' & F'). eapply both_bind; [apply like_merge; exact F'|]. intros l l' LL. repeat split; auto.
Qed.
Lemma like_run {D E} (P : D -> D -> Prop) (f : E -> D -> option D) (ok : E -> Prop) : (forall e d d', ok e -> P d d' -> both P (f e d) (f e d')) ->
  forall l d d', Forall ok l -> P d d' -> both P (run_events f l d) (run_events f l d').
Proof. intros H. induction l as [|e l IH]; intros d d' F PD; cbn [run_events]; [exact PD|]. apply Forall_cons_iff in F. destruct F as [F1 F2]. eapply both_bind; [apply H; eassumption|]. intros; auto. Qed.

(** A cloning of motivators that gives one in a related state. *)
Context (clone : M -> option (option M)) (CL : forall m m', clone m = Some (Some m') -> like m m').
Lemma clone_like l l' : (forall o m, In o l -> op_motivator o = Some m -> clone m <> Some None) -> ops_clone clone l = Some l' -> ops_like l l'.
Proof.
  revert l'. induction l as [|o l IH]; intros l' N E; cbn [ops_clone] in E; [injection E as <-; constructor|]. destruct (op_clone clone o) as [o'|] eqn:O; [|discriminate]. destruct (ops_clone clone l) as [r|] eqn:C; [|discriminate]. injection E as <-. constructor; [|apply IH; [intros; eapply N; [right|]; eassumption|reflexivity]].
  unfold op_clone, motivator_clone in O. destruct (op_motivator o) as [m|] eqn:OM.
  - destruct (clone m) as [[m'|]|] eqn:CM; [|exfalso; exact (N o m (or_introl eq_refl) OM CM)|discriminate]. injection O as <-. repeat split. cbn. rewrite OM. now apply CL.
  - injection O as <-. repeat split. cbn. now rewrite OM.
Qed.

(** A clone of a matrix motivator whose motivators can be cloned: over whatever frames and blends, it fails if and only
    if the original fails, and has the same matrix, scale and time remaining. *)
Definition same_matrix (d d' : mdata M) : Prop := md_matrix d' = md_matrix d /\ md_scale d' = md_scale d /\ mdata_time_remaining k d' = mdata_time_remaining k d.
Theorem C106_matrix_partial : forall d d' events, (forall o m, In o (md_ops d) -> op_motivator o = Some m -> clone m <> Some None) -> mdata_clone clone d = Some d' ->
  Forall (event_ok like) events -> both same_matrix (run_events (mdata_event k) events d) (run_events (mdata_event k) events d').
Proof.
  intros d d' events N E EO. unfold mdata_clone in E. destruct (ops_clone clone (md_ops d)) as [ops|] eqn:C; [|discriminate]. injection E as <-.
  pose proof (like_run mdata_like (mdata_event k) (event_ok like) like_mdata_event events d (MData (md_matrix d) (md_scale d) ops) EO ltac:(repeat split; cbn; eapply clone_like; eassumption)) as H.
  destruct (run_events _ events d), (run_events _ events _); try contradiction; [|exact Logic.I]. destruct H as (A & B & F). repeat split; auto. exact (like_times _ _ F 0%Z).
Qed.
(** The same for SQT motivators. *)
Definition same_sqt (d d' : qdata M) : Prop := qd_matrix d' = qd_matrix d /\ qd_rotation d' = qd_rotation d /\ qd_scale d' = qd_scale d /\ qdata_time_remaining k d' = qdata_time_remaining k d.
Theorem C106_sqt_partial : forall d d' events, (forall o m, In o (qd_ops d) -> op_motivator o = Some m -> clone m <> Some None) -> qdata_clone clone d = Some d' ->
  Forall (event_ok like) events -> both same_sqt (run_events (qdata_event k) events d) (run_events (qdata_event k) events d').
Proof.
  intros d d' events N E EO. unfold qdata_clone in E. destruct (ops_clone clone (qd_ops d)) as [ops|] eqn:C; [|discriminate]. injection E as <-.
  pose proof (like_run qdata_like (qdata_event k) (event_ok like) like_qdata_event events d (QData (qd_matrix d) (qd_rotation d) (qd_scale d) ops) EO ltac:(repeat split; cbn; eapply clone_like; eassumption)) as H.
  destruct (run_events _ events d), (run_events _ events _); try contradiction; [|exact Logic.I]. destruct H as (A & B & C' & F). repeat split; auto. exact (like_times _ _ F 0%Z).
Qed.
End Twins.
Print Assumptions C106_matrix_partial.
Print Assumptions C106_sqt_partial.

(** A motivator of a processor that does not support cloning is not cloned, and the operation of the clone shows its
    constant: the original is moved by 5, the clone is not. *)
Theorem C106_driven_refuted : forall M I S (k : mclass M I S) m, m_value k m = 5 ->
  exists d d' u u', mdata_clone (fun _ => Some None) d = Some d' /\ md_ops d = [Op 0 TranslateX (Some m) 0] /\
    mdata_update k d = Some u /\ mdata_update k d' = Some u' /\ md_matrix d' = md_matrix d /\ mdata_translation u = V3 5 0 0 /\ mdata_translation u' = V3 0 0 0.
Proof.
  intros M I S k m V. exists (MData identity4 None [Op 0 TranslateX (Some m) 0]). do 3 eexists. split; [reflexivity|]. split; [reflexivity|]. split; [reflexivity|]. split; [reflexivity|]. split; [reflexivity|].
  unfold mdata_translation, translation_of, drop4. cbn. unfold op_value. cbn. rewrite V. split; vec; parts; ring.
Qed.
Print Assumptions C106_driven_refuted.
