(** C113, continued: on a frame of the whole engine, what refers to spline motivators does what
    the models of the single processors do, so C107, C108, C110, C111 and C112 hold of engines. *)
From Verif Require Import RBase BaseFacts MathfuModel RangeModel CurveModel CompactSplineModel EvaluatorModel EvaluatorSpec EvaluatorProofs OvershootModel SimpleModel SplineTargetModel MatrixModel RigModel EngineModel EngineProofs EngineProps WorldModel MatrixProps SqtProps RigProps SplineClassModel PlayProps RateProps RigPlayProps AnimTableProps WorldProps.

Section Play.
Variable fm : mat3 -> quat.
Notation W := (world (opinit range spline)).

(** ** The data with the motivators in place of the references to them *)
Definition resolve_op (ev : evaluator) (o : op ref) : option (op slot) :=
  match op_motivator o with
  | None => Some (Op (op_id o) (op_type o) None (op_const o))
  | Some (Ref KSpline i) => s <- getz ev i ;; Some (Op (op_id o) (op_type o) (Some s) (op_const o))
  | Some _ => None
  end.
Definition resolve_matrix (w : W) (d : mdata ref) : option (mdata slot) :=
  ops <- map_all (resolve_op (w_splines w)) (md_ops d) ;; Some (MData (md_matrix d) (md_scale d) ops).
Definition resolve_sqt (w : W) (d : qdata ref) : option (qdata slot) :=
  ops <- map_all (resolve_op (w_splines w)) (qd_ops d) ;; Some (QData (qd_matrix d) (qd_rotation d) (qd_scale d) ops).
Definition resolve_bone (w : W) (m : option ref) : option (option (@bone slot)) :=
  match m with
  | None => Some None
  | Some (Ref KMatrix i) => d <- getz (w_matrices w) i ;; d' <- resolve_matrix w d ;; Some (Some (inl d'))
  | Some (Ref KSqt i) => d <- getz (w_sqts w) i ;; d' <- resolve_sqt w d ;; Some (Some (inr d'))
  | Some _ => None
  end.
Definition resolve_rig (w : W) (d : rig_data ref (opinit range spline)) : option (rig_data (@bone slot) (opinit range spline)) :=
  ms <- map_all (resolve_bone w) (motivators d) ;;
  Some (RigData ms (globals d) (weights d) (defining d) (current d) (root_bone d) (root_transform d) (end_time d)).

(** ** Proofs *)
Definition agree {M N I J S T} (k : mclass M I S) (k' : mclass N J T) (o : op M) (o' : op N) : Prop := op_type o = op_type o' /\ op_value k o = op_value k' o'.
Lemma op_steps_agree {M N I J S T} (k : mclass M I S) (k' : mclass N J T) ops ops' : Forall2 (agree k k') ops ops' -> forall st, op_steps k st ops = op_steps k' st ops'.
Proof.
  induction 1 as [|o o' ops ops' [E V] H IH]; intros st; [reflexivity|]. cbn [op_steps]. assert (X : op_step k st o = op_step k' st o') by (unfold op_step; rewrite E, V; reflexivity). rewrite X. destruct (op_step k' st o'); [apply IH|reflexivity].
Qed.
Lemma sqt_steps_agree {M N I J S T} (k : mclass M I S) (k' : mclass N J T) ops ops' : Forall2 (agree k k') ops ops' -> forall st, sqt_steps k st ops = sqt_steps k' st ops'.
Proof.
  induction 1 as [|o o' ops ops' [E V] H IH]; intros st; [reflexivity|]. cbn [sqt_steps]. assert (X : sqt_step k st o = sqt_step k' st o') by (unfold sqt_step; destruct st as [[t q] s]; rewrite E, V; reflexivity). rewrite X. destruct (sqt_step k' st o'); [apply IH|reflexivity].
Qed.
Lemma resolve_agree (w : W) o o' : resolve_op (w_splines w) o = Some o' -> agree (ref_class w) spline_class o o'.
Proof.
  unfold resolve_op, agree, op_value. destruct (op_motivator o) as [[k i]|]; [|intros [= <-]; split; reflexivity]. destruct k; try discriminate. cbn [ref_class m_value]. unfold scalar. cbn [r_kind r_index].
  destruct (getz (w_splines w) i) as [s|]; [|discriminate]. intros [= <-]. split; reflexivity.
Qed.
Lemma resolve_all_agree (w : W) ops ops' : map_all (resolve_op (w_splines w)) ops = Some ops' -> Forall2 (agree (ref_class w) spline_class) ops ops'.
Proof. intros H. apply map_all_iff in H. induction H; constructor; auto. now apply resolve_agree. Qed.
Lemma resolve_advance delta ev ev' o o1 : EvaluatorModel.advance_frame delta ev = Some ev' -> resolve_op ev o = Some o1 -> exists o2, resolve_op ev' o = Some o2 /\ op_advance (advance_slot delta) o1 = Some o2.
Proof.
  intros A. unfold resolve_op, op_advance. destruct (op_motivator o) as [[k i]|]; [|intros [= <-]; eexists; split; reflexivity]. destruct k; try discriminate.
  destruct (getz ev i) as [s|] eqn:G; [|discriminate]. intros [= <-]. cbn [op_motivator op_id op_type op_const].
  destruct (advance_frame_getz _ _ _ A) as [L X]. destruct (getz_in_range ev' i) as [s' G']; [rewrite L; apply getz_Some in G; exact G|]. specialize (X i). rewrite G, G' in X. rewrite G', <- X. eexists. split; reflexivity.
Qed.
Lemma resolve_advance_all delta ev ev' ops ops1 : EvaluatorModel.advance_frame delta ev = Some ev' -> map_all (resolve_op ev) ops = Some ops1 -> exists ops2, map_all (resolve_op ev') ops = Some ops2 /\ map_all (op_advance (advance_slot delta)) ops1 = Some ops2.
Proof.
  intros A. revert ops1. induction ops as [|o ops IH]; intros ops1 H; cbn [map_all] in H; [injection H as <-; exists []; split; reflexivity|]. destruct (resolve_op ev o) as [o1|] eqn:E; [|discriminate]. destruct (map_all (resolve_op ev) ops) as [r|]; [|discriminate]. injection H as <-.
  destruct (IH r eq_refl) as (r2 & E1 & E2). destruct (resolve_advance _ _ _ _ _ A E) as (o2 & F1 & F2). exists (o2 :: r2). cbn [map_all]. now rewrite F1, F2, E1, E2.
Qed.

Lemma matrix_step delta (w w' : W) d d' D : EvaluatorModel.advance_frame delta (w_splines w) = Some (w_splines w') -> mdata_update (ref_class w') d = Some d' -> resolve_matrix w d = Some D ->
  exists D', resolve_matrix w' d' = Some D' /\ matrix_plays delta D = Some D'.
Proof.
  intros A U. unfold resolve_matrix. destruct (map_all _ (md_ops d)) as [ops|] eqn:E; [|discriminate]. intros [= <-]. destruct (resolve_advance_all _ _ _ _ _ A E) as (ops2 & E1 & E2).
  unfold mdata_update, calculate_result_matrix in U. rewrite (op_steps_agree _ _ _ _ (resolve_all_agree w' _ _ E1)) in U. unfold matrix_plays, mdata_frame, mdata_update, calculate_result_matrix. cbn [md_ops md_matrix md_scale]. rewrite E2. cbn [md_ops].
  destruct (op_steps spline_class _ ops2) as [r|]; [|discriminate]. injection U as <-. cbn [md_ops md_matrix md_scale]. rewrite E1. eexists. split; reflexivity.
Qed.
Lemma sqt_step_plays delta (w w' : W) d d' D : EvaluatorModel.advance_frame delta (w_splines w) = Some (w_splines w') -> qdata_update (ref_class w') d = Some d' -> resolve_sqt w d = Some D ->
  exists D', resolve_sqt w' d' = Some D' /\ sqt_plays delta D = Some D'.
Proof.
  intros A U. unfold resolve_sqt. destruct (map_all _ (qd_ops d)) as [ops|] eqn:E; [|discriminate]. intros [= <-]. destruct (resolve_advance_all _ _ _ _ _ A E) as (ops2 & E1 & E2).
  unfold qdata_update in U. rewrite (sqt_steps_agree _ _ _ _ (resolve_all_agree w' _ _ E1)) in U. unfold sqt_plays, qdata_frame, qdata_update. cbn [qd_ops qd_matrix qd_scale qd_rotation]. rewrite E2. cbn [qd_ops].
  destruct (sqt_steps spline_class _ ops2) as [[[t q] s]|]; [|discriminate]. destruct (qnormalize q) as [u|]; [|discriminate]. injection U as <-. cbn [qd_ops qd_matrix qd_scale qd_rotation]. rewrite E1. eexists. split; reflexivity.
Qed.

(** The two classes of bones see the same. *)
Notation cls := (bone_class spline_class fm).
Definition alike (c : bclass ref (opinit range spline)) (m : option ref) (b : option (@bone slot)) : Prop :=
  match m, b with None, None => True | Some r, Some b => b_value c r = b_value cls b /\ b_parts c r = b_parts cls b | _, _ => False end.
Lemma getz_rel {A B} (P : A -> B -> Prop) l l' : Forall2 P l l' -> forall i, match getz l i, getz l' i with Some x, Some y => P x y | None, None => True | _, _ => False end.
Proof.
  induction 1 as [|x y l l' H F IH]; intros i. { unfold getz. destruct (i <? 0)%Z; [exact I|]. now destruct (Z.to_nat i). }
  specialize (IH (i - 1)%Z). unfold getz in *. destruct (Z.ltb_spec i 0); [exact I|]. destruct (Z.eq_dec i 0) as [->|N]; [exact H|]. destruct (Z.ltb_spec (i - 1) 0); [lia|]. replace (Z.to_nat i) with (Datatypes.S (Z.to_nat (i - 1))) by lia. cbn [nth_error]. exact IH.
Qed.
Lemma local_alike c ms bs i : Forall2 (alike c) ms bs -> bone_local c ms i = bone_local cls bs i.
Proof. intros H. pose proof (getz_rel _ _ _ H i) as G. unfold bone_local. destruct (getz ms i) as [[r|]|], (getz bs i) as [[b|]|]; cbn in G; try contradiction; try reflexivity. now rewrite (proj1 G). Qed.
Lemma parts_alike c ms bs n i : Forall2 (alike c) ms bs -> forall ws j first st, blend_parts c ms n i j ws first st = blend_parts cls bs n i j ws first st.
Proof.
  intros H. induction ws as [|x ws IH]; intros j first st; [reflexivity|]. cbn [blend_parts]. pose proof (getz_rel _ _ _ H (i + j * n)%Z) as G.
  destruct (getz ms (i + j * n)) as [[r|]|], (getz bs (i + j * n)) as [[b|]|]; cbn [alike] in G; try contradiction; try reflexivity.
  - rewrite (proj2 G). destruct (b_parts cls b) as [[[p q] s]|]; [|reflexivity]. destruct st as [[bp br] bs']. apply IH.
  - destruct st as [[bp br] bs']. apply IH.
Qed.
Lemma loop_ext parents root f g : (forall i, f i = g i) -> forall fuel i st, global_loop fuel i f parents root st = global_loop fuel i g parents root st.
Proof. intros H. induction fuel as [|fuel IH]; intros i st; cbn [global_loop]; [reflexivity|]. rewrite H. destruct (g i); [|reflexivity]. destruct (global_step _ _ _ _ _); [apply IH|reflexivity]. Qed.
Lemma update_alike c d d' bs : Forall2 (alike c) (motivators d) bs -> update_global_transforms c d = Some d' ->
  update_global_transforms cls (RigData bs (globals d) (weights d) (defining d) (current d) (root_bone d) (root_transform d) (end_time d)) =
    Some (RigData bs (globals d') (weights d') (defining d') (current d') (root_bone d') (root_transform d') (end_time d')) /\ motivators d' = motivators d.
Proof.
  intros H U. unfold update_global_transforms in *. cbv zeta in *. cbn [motivators globals weights defining current root_bone root_transform end_time].
  rewrite (loop_ext _ _ _ (if (len (weights d) <=? 1)%Z then bone_local c (motivators d) else bone_blended c (motivators d) (num_bones (defining d)) (weights d))).
  - destruct (global_loop _ _ _ _ _ _) as [[g r]|]; [|discriminate]. injection U as <-. split; reflexivity.
  - intros i. destruct (len (weights d) <=? 1)%Z; [symmetry; now apply local_alike|]. unfold bone_blended. now rewrite (parts_alike c _ _ _ _ H).
Qed.
Lemma resolve_alike (w : W) m b : resolve_bone w m = Some b -> alike (bone_refs fm w) m b.
Proof.
  unfold resolve_bone, alike. destruct m as [[k i]|]; [|now intros [= <-]]. destruct k; try discriminate; cbn [bone_refs b_value b_parts]; unfold bone_at; cbn [r_kind r_index].
  - destruct (getz (w_matrices w) i) as [d|]; [|discriminate]. destruct (resolve_matrix w d) as [d'|] eqn:E; [|discriminate]. intros [= <-]. unfold resolve_matrix in E. destruct (map_all _ _); [|discriminate]. injection E as <-. split; reflexivity.
  - destruct (getz (w_sqts w) i) as [d|]; [|discriminate]. destruct (resolve_sqt w d) as [d'|] eqn:E; [|discriminate]. intros [= <-]. unfold resolve_sqt in E. destruct (map_all _ _); [|discriminate]. injection E as <-. split; reflexivity.
Qed.

Section Step.
Variables (dt : Z) (w w' : W).
Hypothesis SP : EvaluatorModel.advance_frame (IZR dt) (w_splines w) = Some (w_splines w').
Hypothesis MA : matrix_frame (ref_class w') (w_matrices w) = Some (w_matrices w').
Hypothesis SQ : sqt_frame (ref_class w') (w_sqts w) = Some (w_sqts w').
Hypothesis RI : rig_frame (bone_refs fm w') dt (w_time w) (w_rigs w) = Some (w_time w', w_rigs w').
Lemma step_matrix i d D : getz (w_matrices w) i = Some d -> resolve_matrix w d = Some D -> exists d' D', getz (w_matrices w') i = Some d' /\ resolve_matrix w' d' = Some D' /\ matrix_plays (IZR dt) D = Some D'.
Proof. intros G E. destruct (map_all_getz _ _ _ MA i d G) as (d' & U & G'). destruct (matrix_step _ _ _ _ _ _ SP U E) as (D' & E1 & E2). eauto. Qed.
Lemma step_sqt i d D : getz (w_sqts w) i = Some d -> resolve_sqt w d = Some D -> exists d' D', getz (w_sqts w') i = Some d' /\ resolve_sqt w' d' = Some D' /\ sqt_plays (IZR dt) D = Some D'.
Proof. intros G E. destruct (map_all_getz _ _ _ SQ i d G) as (d' & U & G'). destruct (sqt_step_plays _ _ _ _ _ _ SP U E) as (D' & E1 & E2). eauto. Qed.
Lemma step_bone m b : resolve_bone w m = Some b -> exists b', resolve_bone w' m = Some b' /\ maybe_bone_frame spline_class (advance_slot (IZR dt)) b = Some b'.
Proof.
  unfold resolve_bone. destruct m as [[k i]|]; [|intros [= <-]; exists None; split; reflexivity]. destruct k; try discriminate.
  - destruct (getz (w_matrices w) i) as [d|] eqn:G; [|discriminate]. destruct (resolve_matrix w d) as [D|] eqn:E; [|discriminate]. intros [= <-]. destruct (step_matrix i d D G E) as (d' & D' & G' & E' & P). rewrite G', E'. exists (Some (inl D')). split; [reflexivity|].
    cbn [maybe_bone_frame bone_frame]. unfold matrix_plays in P. now rewrite P.
  - destruct (getz (w_sqts w) i) as [d|] eqn:G; [|discriminate]. destruct (resolve_sqt w d) as [D|] eqn:E; [|discriminate]. intros [= <-]. destruct (step_sqt i d D G E) as (d' & D' & G' & E' & P). rewrite G', E'. exists (Some (inr D')). split; [reflexivity|].
    cbn [maybe_bone_frame bone_frame]. unfold sqt_plays in P. now rewrite P.
Qed.
Lemma step_bones ms bs : map_all (resolve_bone w) ms = Some bs -> exists bs', map_all (resolve_bone w') ms = Some bs' /\ map_all (maybe_bone_frame spline_class (advance_slot (IZR dt))) bs = Some bs' /\ Forall2 (alike (bone_refs fm w')) ms bs'.
Proof.
  revert bs. induction ms as [|m ms IH]; intros bs H; cbn [map_all] in H; [injection H as <-; exists []; split; [reflexivity|]; split; [reflexivity|constructor]|]. destruct (resolve_bone w m) as [b|] eqn:E; [|discriminate]. destruct (map_all (resolve_bone w) ms) as [r|]; [|discriminate]. injection H as <-.
  destruct (IH r eq_refl) as (r' & E1 & E2 & E3). destruct (step_bone _ _ E) as (b' & F1 & F2). exists (b' :: r'). cbn [map_all]. rewrite F1, F2, E1, E2. split; [reflexivity|]. split; [reflexivity|]. constructor; [now apply resolve_alike|exact E3].
Qed.
Lemma step_rig i d D : getz (w_rigs w) i = Some d -> resolve_rig w d = Some D -> exists d' D', getz (w_rigs w') i = Some d' /\ resolve_rig w' d' = Some D' /\ rig_plays fm (IZR dt) D = Some D'.
Proof.
  intros G. unfold resolve_rig. destruct (map_all (resolve_bone w) (motivators d)) as [bs|] eqn:E; [|discriminate]. intros [= <-]. destruct (C56_frame _ _ _ _ _ _ _ _ RI) as [_ X]. destruct (X i d G) as (d' & U & G'). destruct (step_bones _ _ E) as (bs' & E1 & E2 & E3).
  destruct (update_alike _ _ _ _ E3 U) as [U' KM]. exists d'. rewrite KM, E1. eexists. split; [exact G'|]. split; [reflexivity|]. unfold rig_plays, rig_data_frame. cbn [motivators globals weights defining current root_bone root_transform end_time]. rewrite E2. exact U'.
Qed.
End Step.

(** ** C113 *)
(** Frames of an engine on which splines, matrices, SQT transforms and rigs have been handed
    out: each matrix, SQT transform and rig that is animated by splines goes through what it
    goes through on its own. *)
Theorem C113_plays : forall ops e tr dts w w', erun prio engine_init ops = Some (e, tr) -> ~ In EReset ops -> library ops ->
  made tr KSpline -> made tr KMatrix -> made tr KSqt -> made tr KRig -> world_frames fm e dts w = Some w' ->
  (forall i d D, getz (w_matrices w) i = Some d -> resolve_matrix w d = Some D -> exists d' D', getz (w_matrices w') i = Some d' /\ resolve_matrix w' d' = Some D' /\ frames matrix_plays (map IZR dts) D = Some D') /\
  (forall i d D, getz (w_sqts w) i = Some d -> resolve_sqt w d = Some D -> exists d' D', getz (w_sqts w') i = Some d' /\ resolve_sqt w' d' = Some D' /\ frames sqt_plays (map IZR dts) D = Some D') /\
  (forall i d D, getz (w_rigs w) i = Some d -> resolve_rig w d = Some D -> exists d' D', getz (w_rigs w') i = Some d' /\ resolve_rig w' d' = Some D' /\ frames (rig_plays fm) (map IZR dts) D = Some D').
Proof.
  intros ops e tr dts w w' H NR LIB M1 M2 M3 M4. revert w. induction dts as [|dt dts IH]; intros w F; cbn [world_frames] in F.
  - injection F as <-. cbn [map frames]. split; [|split]; intros i d D G E; exists d, D; auto.
  - destruct (world_frame fm e dt w) as [u|] eqn:E; [|discriminate]. pose proof (world_frame_is fm _ _ _ _ _ _ H NR LIB E) as X.
    pose proof (proj1 (X KSpline) M1) as SP. destruct (proj1 (X KMatrix) M2) as [_ MA]. destruct (proj1 (X KSqt) M3) as [_ SQ]. destruct (proj1 (X KRig) M4) as [_ RI]. cbn [advanced] in SP.
    destruct (IH u F) as (I1 & I2 & I3). cbn [map frames]. split; [|split]; intros i d D G R.
    + destruct (step_matrix _ _ _ SP MA i d D G R) as (d1 & D1 & G1 & R1 & P). rewrite P. now apply (I1 i d1).
    + destruct (step_sqt _ _ _ SP SQ i d D G R) as (d1 & D1 & G1 & R1 & P). rewrite P. now apply (I2 i d1).
    + destruct (step_rig _ _ _ SP MA SQ RI i d D G R) as (d1 & D1 & G1 & R1 & P). rewrite P. now apply (I3 i d1).
Qed.

(** ** Frames succeed *)
Fixpoint iterate {A} (f : Z -> A -> option A) (dts : list Z) (x : A) : option A :=
  match dts with [] => Some x | dt :: l => x' <- f dt x ;; iterate f l x' end.
(** The motivators that refer to no others can all advance. *)
Definition scalars_run (dts : list Z) (w : W) : Prop :=
  iterate (fun dt => EvaluatorModel.advance_frame (IZR dt)) dts (w_splines w) <> None /\
  iterate (fun dt => OvershootModel.advance_frame (Z.to_nat dt) dt) dts (w_overshoots w) <> None /\
  iterate (fun dt => map_all (ease_frame dt)) dts (w_eases w) <> None /\
  iterate (fun dt => map_all (spring_frame dt)) dts (w_springs w) <> None.
(** What is made of them can do so on its own. *)
Definition transforms_run (dts : list Z) (w : W) : Prop :=
  (forall d, In d (w_matrices w) -> exists D, resolve_matrix w d = Some D /\ frames matrix_plays (map IZR dts) D <> None) /\
  (forall d, In d (w_sqts w) -> exists D, resolve_sqt w d = Some D /\ frames sqt_plays (map IZR dts) D <> None) /\
  (forall d, In d (w_rigs w) -> exists D, resolve_rig w d = Some D /\ frames (rig_plays fm) (map IZR dts) D <> None).
(** The clock of the rigs, an int, does not overflow. *)
Fixpoint clock_runs (dts : list Z) (t : Z) : Prop :=
  match dts with [] => True | dt :: l => (-2147483648 <= t + dt <= 2147483647)%Z /\ clock_runs l (t + dt)%Z end.

Lemma advance_kinds_app dt : forall a b (w : W), advance_kinds fm (a ++ b) dt w = (u <- advance_kinds fm a dt w ;; advance_kinds fm b dt u).
Proof. induction a as [|k a IH]; intros b w; cbn [advance_kinds app]; [reflexivity|]. destruct (advance_kind fm k dt w); [apply IH|reflexivity]. Qed.
Lemma kinds_run dt (w : W) : forall post pre u, advance_kinds fm pre dt w = Some u ->
  (forall a k b v, pre ++ post = a ++ k :: b -> advance_kinds fm a dt w = Some v -> advance_kind fm k dt v <> None) -> advance_kinds fm post dt u <> None.
Proof.
  induction post as [|k post IH]; intros pre u E H; cbn [advance_kinds]; [discriminate|]. destruct (advance_kind fm k dt u) as [v|] eqn:K; [|destruct (H pre k post u eq_refl E K)].
  apply (IH (pre ++ [k]) v); [|intros a k' b v' Q; rewrite <- app_assoc in Q; now apply (H a k' b v')]. rewrite advance_kinds_app, E. cbn [advance_kinds]. now rewrite K.
Qed.
Lemma map_all_runs {A B} (f : A -> option B) l : (forall x, In x l -> f x <> None) -> map_all f l <> None.
Proof.
  induction l as [|a l IH]; intros H; cbn [map_all]; [discriminate|]. destruct (f a) eqn:F; [|now destruct (H a (or_introl eq_refl))]. destruct (map_all f l); [discriminate|]. apply IH. intros x I. apply H. now right.
Qed.
Lemma resolved_ok (w : W) ops ops' : map_all (resolve_op (w_splines w)) ops = Some ops' -> ops_ok w ops = true.
Proof.
  intros H. apply map_all_iff in H. unfold ops_ok. induction H as [|o o' l l' E H IH]; cbn [forallb]; [reflexivity|]. rewrite IH, andb_true_r. unfold resolve_op in E. destruct (op_motivator o) as [[k i]|]; [|reflexivity]. destruct k; try discriminate. unfold scalar. cbn [r_kind r_index]. now destruct (getz (w_splines w) i).
Qed.
Lemma resolved_bones_ok (w : W) ms bs : map_all (resolve_bone w) ms = Some bs -> bones_ok w ms = true.
Proof.
  intros H. apply map_all_iff in H. unfold bones_ok. induction H as [|m b l l' E H IH]; cbn [forallb]; [reflexivity|]. rewrite IH, andb_true_r. destruct m as [[k i]|]; [|reflexivity]. unfold resolve_bone in E. unfold bone_at. cbn [r_kind r_index]. destruct k; try discriminate.
  - now destruct (getz (w_matrices w) i).
  - now destruct (getz (w_sqts w) i).
Qed.
Lemma matrix_runs delta (w u : W) d D : EvaluatorModel.advance_frame delta (w_splines w) = Some (w_splines u) -> resolve_matrix w d = Some D -> matrix_plays delta D <> None -> ops_ok u (md_ops d) = true /\ mdata_update (ref_class u) d <> None.
Proof.
  intros A. unfold resolve_matrix. destruct (map_all _ (md_ops d)) as [ops|] eqn:E; [|discriminate]. intros [= <-]. destruct (resolve_advance_all _ _ _ _ _ A E) as (ops2 & E1 & E2). intros P. split; [exact (resolved_ok _ _ _ E1)|].
  unfold mdata_update, calculate_result_matrix. rewrite (op_steps_agree _ _ _ _ (resolve_all_agree u _ _ E1)). unfold matrix_plays, mdata_frame, mdata_update, calculate_result_matrix in P. cbn [md_ops md_matrix md_scale] in P. rewrite E2 in P. cbn [md_ops] in P. destruct (op_steps _ _ _); [discriminate|congruence].
Qed.
Lemma sqt_runs delta (w u : W) d D : EvaluatorModel.advance_frame delta (w_splines w) = Some (w_splines u) -> resolve_sqt w d = Some D -> sqt_plays delta D <> None -> ops_ok u (qd_ops d) = true /\ qdata_update (ref_class u) d <> None.
Proof.
  intros A. unfold resolve_sqt. destruct (map_all _ (qd_ops d)) as [ops|] eqn:E; [|discriminate]. intros [= <-]. destruct (resolve_advance_all _ _ _ _ _ A E) as (ops2 & E1 & E2). intros P. split; [exact (resolved_ok _ _ _ E1)|].
  unfold qdata_update. rewrite (sqt_steps_agree _ _ _ _ (resolve_all_agree u _ _ E1)). unfold sqt_plays, qdata_frame, qdata_update in P. cbn [qd_ops qd_matrix qd_scale qd_rotation] in P. rewrite E2 in P. cbn [qd_ops] in P. destruct (sqt_steps _ _ _) as [[[t q] s]|]; [|congruence]. destruct (qnormalize q); [discriminate|congruence].
Qed.
Lemma update_alike_runs c d bs : Forall2 (alike c) (motivators d) bs ->
  update_global_transforms cls (RigData bs (globals d) (weights d) (defining d) (current d) (root_bone d) (root_transform d) (end_time d)) <> None -> update_global_transforms c d <> None.
Proof.
  intros H U. unfold update_global_transforms in *. cbv zeta in *. cbn [motivators globals weights defining current root_bone root_transform end_time] in U.
  rewrite (loop_ext _ _ _ (if (len (weights d) <=? 1)%Z then bone_local c (motivators d) else bone_blended c (motivators d) (num_bones (defining d)) (weights d))) in U.
  - destruct (global_loop _ _ _ _ _ _) as [[g r]|]; [discriminate|congruence].
  - intros i. destruct (len (weights d) <=? 1)%Z; [symmetry; now apply local_alike|]. unfold bone_blended. now rewrite (parts_alike c _ _ _ _ H).
Qed.
Lemma forallb_in {A} (f : A -> bool) l : (forall x, In x l -> f x = true) -> forallb f l = true.
Proof. intros H. apply forallb_forall. exact H. Qed.

Lemma iterate_first {A} (f : Z -> A -> option A) dt dts x : iterate f (dt :: dts) x <> None -> exists x', f dt x = Some x' /\ iterate f dts x' <> None.
Proof. cbn [iterate]. destruct (f dt x) as [x'|]; [eauto|congruence]. Qed.
Lemma frames_first {A} (f : R -> A -> option A) dt dts x : frames f (map IZR (dt :: dts)) x <> None -> exists x', f (IZR dt) x = Some x' /\ frames f (map IZR dts) x' <> None.
Proof. cbn [map frames]. destruct (f (IZR dt) x) as [x'|]; [eauto|congruence]. Qed.

Lemma frame_runs ops e tr dt dts w : erun prio engine_init ops = Some (e, tr) -> ~ In EReset ops -> library ops ->
  made tr KSpline -> made tr KMatrix -> made tr KSqt -> made tr KRig -> scalars_run (dt :: dts) w -> transforms_run (dt :: dts) w -> clock_runs (dt :: dts) (w_time w) ->
  exists w', world_frame fm e dt w = Some w'.
Proof.
  intros H NR LIB M1 M2 M3 M4 (S1 & S2 & S3 & S4) (T1 & T2 & T3) (CL & _).
  destruct (iterate_first _ _ _ _ S1) as (x1 & A1 & _). destruct (iterate_first _ _ _ _ S2) as (x2 & A2 & _). destruct (iterate_first _ _ _ _ S3) as (x3 & A3 & _). destruct (iterate_first _ _ _ _ S4) as (x4 & A4 & _).
  assert (AL : exists l, EngineModel.advance (heap e) (sorted e) = Some l).
  { exists (sorted e). apply advance_ok. intros o I. exact (sorted_alive _ _ _ _ (run_inv _ _ _ _ H NR) I). }
  destruct AL as [l AL].
  assert (KS : exists ks, map_all (kind_of_object (heap e)) l = Some ks).
  { destruct (map_all (kind_of_object (heap e)) l) as [ks|] eqn:E; [eauto|]. exfalso. revert E. apply map_all_runs. intros o I. destruct (objects_have_kinds _ _ _ _ H NR LIB AL o I) as [k K]. congruence. }
  destruct KS as [ks KS]. destruct (frame_kinds _ _ _ _ _ H NR LIB AL KS) as (ND & IN & IO). unfold world_frame. rewrite AL, KS.
  destruct (advance_kinds fm ks dt w) as [w'|] eqn:E; [eauto|]. exfalso. revert E. apply (kinds_run dt w ks [] w eq_refl). cbn [app]. intros a k b u EQ AD.
  assert (NDa : NoDup a). { rewrite EQ in ND. clear -ND. induction a as [|x a IH]; [constructor|]. inversion ND; subst. constructor; [intros I; apply H1; apply in_or_app; now left|now apply IH]. }
  assert (IOa : in_order a). { intros x y l1 l2 l3 Q. apply (IO x y l1 l2 (l3 ++ k :: b)). rewrite EQ, Q. now rewrite <- !app_assoc, <- !app_comm_cons, <- app_assoc. }
  pose proof (advance_kinds_are fm dt a w u NDa IOa AD) as X.
  assert (Na : ~ In k a). { intros I. rewrite EQ in ND. apply NoDup_remove_2 in ND. apply ND. apply in_or_app. now left. }
  assert (BEFORE : forall j, made tr j -> (kind_priority j < kind_priority k)%Z -> advanced fm j dt w u u).
  { intros j J P. apply IN in J. rewrite EQ in J. apply in_app_or in J as [J|[J|J]]; [now apply X|subst j; lia|]. exfalso. apply in_split in J as (b1 & b2 & ->). specialize (IO k j a b1 b2 EQ). lia. }
  pose proof (proj2 (X k) Na) as SK.
  destruct k; cbn [same] in SK; cbn [advance_kind].
  - rewrite SK, A1. discriminate.
  - discriminate.
  - rewrite SK, A2. discriminate.
  - rewrite SK, A3. discriminate.
  - rewrite SK, A4. discriminate.
  - pose proof (BEFORE KSpline M1 ltac:(cbn; lia)) as SP. cbn [advanced] in SP.
    assert (Y : forall d, In d (w_matrices u) -> ops_ok u (md_ops d) = true /\ mdata_update (ref_class u) d <> None). { rewrite SK. intros d I. destruct (T1 d I) as (D & RD & FD). destruct (frames_first _ _ _ _ FD) as (D' & PD & _). apply (matrix_runs _ _ _ _ _ SP RD). congruence. }
    rewrite forallb_in by (intros d I; apply Y, I). destruct (matrix_frame (ref_class u) (w_matrices u)) eqn:MF; [discriminate|]. exfalso. revert MF. apply map_all_runs. intros d I. apply Y, I.
  - pose proof (BEFORE KSpline M1 ltac:(cbn; lia)) as SP. cbn [advanced] in SP.
    assert (Y : forall d, In d (w_sqts u) -> ops_ok u (qd_ops d) = true /\ qdata_update (ref_class u) d <> None). { rewrite SK. intros d I. destruct (T2 d I) as (D & RD & FD). destruct (frames_first _ _ _ _ FD) as (D' & PD & _). apply (sqt_runs _ _ _ _ _ SP RD). congruence. }
    rewrite forallb_in by (intros d I; apply Y, I). destruct (sqt_frame (ref_class u) (w_sqts u)) eqn:MF; [discriminate|]. exfalso. revert MF. apply map_all_runs. intros d I. apply Y, I.
  - pose proof (BEFORE KSpline M1 ltac:(cbn; lia)) as SP. cbn [advanced] in SP. destruct (BEFORE KMatrix M2 ltac:(cbn; lia)) as [_ MA]. destruct (BEFORE KSqt M3 ltac:(cbn; lia)) as [_ SQ]. destruct SK as [SK TK].
    assert (Y : forall d, In d (w_rigs u) -> bones_ok u (motivators d) = true /\ update_global_transforms (bone_refs fm u) d <> None).
    { rewrite SK. intros d I. destruct (T3 d I) as (D & RD & FD). destruct (frames_first _ _ _ _ FD) as (D' & PD & _). unfold resolve_rig in RD. destruct (map_all (resolve_bone w) (motivators d)) as [bs|] eqn:E; [|discriminate]. injection RD as <-.
      destruct (step_bones _ _ _ SP MA SQ _ _ E) as (bs' & E1 & E2 & E3). split; [exact (resolved_bones_ok _ _ _ E1)|]. apply (update_alike_runs _ _ _ E3). unfold rig_plays, rig_data_frame in PD. cbn [motivators globals weights defining current root_bone root_transform end_time] in PD. rewrite E2 in PD. congruence. }
    rewrite forallb_in by (intros d I; apply Y, I). unfold rig_frame. destruct (map_all _ (w_rigs u)) eqn:MF; [|exfalso; revert MF; apply map_all_runs; intros d I; apply Y, I]. rewrite TK. unfold add_int. destruct (Z.leb_spec (-2147483648) (w_time w + dt)), (Z.leb_spec (w_time w + dt) 2147483647); try lia. discriminate.
Qed.

(** And they never fail: if the scalar motivators can advance, and each matrix, SQT transform
    and rig could on its own, then so does the engine. *)
Theorem C113_runs : forall ops e tr dts w, erun prio engine_init ops = Some (e, tr) -> ~ In EReset ops -> library ops ->
  (forall k, made tr k) -> scalars_run dts w -> transforms_run dts w -> clock_runs dts (w_time w) ->
  exists w', world_frames fm e dts w = Some w'.
Proof.
  intros ops e tr dts w H NR LIB MK. revert w. induction dts as [|dt dts IH]; intros w S T C; [exists w; reflexivity|].
  destruct (frame_runs _ _ _ _ _ _ H NR LIB (MK KSpline) (MK KMatrix) (MK KSqt) (MK KRig) S T C) as [u U]. cbn [world_frames]. rewrite U. pose proof (world_frame_is fm _ _ _ _ _ _ H NR LIB U) as X.
  pose proof (proj1 (X KSpline) (MK _)) as SP. pose proof (proj1 (X KOvershoot) (MK _)) as OV. pose proof (proj1 (X KEase) (MK _)) as EA. pose proof (proj1 (X KSpring) (MK _)) as SG. destruct (proj1 (X KMatrix) (MK _)) as [_ MA]. destruct (proj1 (X KSqt) (MK _)) as [_ SQ]. destruct (proj1 (X KRig) (MK _)) as [_ RI]. cbn [advanced] in SP, OV, EA, SG.
  apply IH.
  - destruct S as (S1 & S2 & S3 & S4). cbn [iterate] in *. rewrite SP in S1. rewrite OV in S2. rewrite EA in S3. rewrite SG in S4. repeat split; assumption.
  - destruct T as (T1 & T2 & T3). split; [|split].
    + intros d' I. apply In_getz in I as [i G]. destruct (map_all_back _ _ _ MA i d' G) as (d & G0 & _). destruct (T1 d (getz_in _ _ _ G0)) as (D & RD & FD). destruct (step_matrix _ _ _ SP MA i d D G0 RD) as (d2 & D2 & G2 & R2 & P2). rewrite G in G2. injection G2 as <-. exists D2. split; [exact R2|].
      cbn [map frames] in FD. now rewrite P2 in FD.
    + intros d' I. apply In_getz in I as [i G]. destruct (map_all_back _ _ _ SQ i d' G) as (d & G0 & _). destruct (T2 d (getz_in _ _ _ G0)) as (D & RD & FD). destruct (step_sqt _ _ _ SP SQ i d D G0 RD) as (d2 & D2 & G2 & R2 & P2). rewrite G in G2. injection G2 as <-. exists D2. split; [exact R2|].
      cbn [map frames] in FD. now rewrite P2 in FD.
    + intros d' I. apply In_getz in I as [i G]. unfold rig_frame in RI. destruct (map_all _ (w_rigs w)) as [r|] eqn:MR; [|discriminate]. pose proof RI as RI'. unfold add_int in RI'. destruct (_ && _)%bool; [|discriminate]. injection RI' as _ ER. rewrite <- ER in G. destruct (map_all_back _ _ _ MR i d' G) as (d & G0 & _).
      assert (RI2 : rig_frame (bone_refs fm u) dt (w_time w) (w_rigs w) = Some (w_time u, w_rigs u)) by (unfold rig_frame; rewrite MR; exact RI).
      destruct (T3 d (getz_in _ _ _ G0)) as (D & RD & FD). destruct (step_rig _ _ _ SP MA SQ RI2 i d D G0 RD) as (d2 & D2 & G2 & R2 & P2). rewrite <- ER, G in G2. injection G2 as <-. exists D2. split; [exact R2|].
      cbn [map frames] in FD. now rewrite P2 in FD.
  - destruct C as [C1 C2]. replace (w_time u) with (w_time w + dt)%Z; [exact C2|]. symmetry. now apply (C56_frame _ _ _ _ _ _ _ _ RI).
Qed.
End Play.
Print Assumptions C113_plays.
Print Assumptions C113_runs.

Section Rig.
Variable fm : mat3 -> quat.
(** A rig that starts an animation, and then frames of the engine: the bones follow the
    animation's splines (C108). *)
Theorem C113_rig : forall ops e tr dts w w' def anim root t p d0 d1 i d, erun prio engine_init ops = Some (e, tr) -> ~ In EReset ops -> library ops ->
  made tr KSpline -> made tr KMatrix -> made tr KSqt -> made tr KRig ->
  parents_first (ra_parents def) (num_bones def) -> matches_hierarchy anim def = Some true \/ (num_bones def = 1 /\ 1 <= num_bones anim)%Z ->
  (-2147483648 <= t + ra_end anim <= 2147483647)%Z -> blend_x p <= 0 -> dts <> [] ->
  (forall i ma, (0 <= i < num_bones def)%Z -> getz (ra_anims anim) i = Some ma -> bone_playable p (map IZR dts) ma) ->
  rig_new (bone_class spline_class fm) def root t = Some d0 -> blend_to_anim (bone_class spline_class fm) anim p t d0 = Some d1 ->
  getz (w_rigs w) i = Some d -> resolve_rig w d = Some d1 -> world_frames fm e dts w = Some w' ->
  exists d' local, getz (w_rigs w') i = Some d' /\ (forall b, (0 <= b < num_bones def)%Z -> exists ma, getz (ra_anims anim) b = Some ma /\ bone_shows p (map IZR dts) ma (local b)) /\
    (forall b, (0 <= b < num_bones def)%Z -> exists l g, lineage (ra_parents def) b l /\ getz (globals d') b = Some g /\ from_affine g = along root local l) /\
    ((0 <= root < num_bones def)%Z -> from_affine (root_transform d') = local root).
Proof.
  intros ops e tr dts w w' def anim root t p d0 d1 i d H NR LIB M1 M2 M3 M4 PF MH TI BX N PL E0 E1 G RS F.
  destruct (C108_rig fm def anim root t p (map IZR dts) PF MH TI BX) as (a0 & a1 & a2 & A0 & A1 & A2 & local & L1 & L2 & L3); [destruct dts; [congruence|discriminate]|exact PL|]. rewrite E0 in A0. injection A0 as <-. rewrite E1 in A1. injection A1 as <-.
  destruct (C113_plays fm _ _ _ _ _ _ H NR LIB M1 M2 M3 M4 F) as (_ & _ & X). destruct (X i d d1 G RS) as (d' & D' & G' & R' & P). rewrite A2 in P. injection P as <-. exists d', local. split; [exact G'|].
  unfold resolve_rig in R'. destruct (map_all _ _); [|discriminate]. injection R' as <-. cbn [globals root_transform] in L2, L3. auto.
Qed.
End Rig.
Print Assumptions C113_rig.
