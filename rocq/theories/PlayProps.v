(** C106 for spline motivators.  C107: a matrix that is animated by splines shows, in every frame, the operations at
    the values of the splines.  *)
From Verif Require Import RBase BaseFacts RangeModel RangeProofs CurveModel CurveProofs MathfuModel CompactSplineModel CompactSplineSpec CompactSplineProofs CompactSplineIndex EvaluatorModel EvaluatorSpec EvaluatorProofs EvaluatorPlay EvaluatorProps EvaluatorOpProps OvershootModel SimpleModel SplineTargetModel SplineTargetProps MatrixModel MatrixProps SqtProps RigModel RigProps CloneModel CloneProps SplineClassModel TwinProps.
From Coq Require Import Lia.
Local Open Scope R_scope.

(** ** C106 *)
Lemma target_room c t s : slot_set_target t (slot_room c s) = slot_set_target t s.
Proof.
  unfold slot_set_target. assert (E : build_target new_local (slot_room c s) t = build_target new_local s t).
  { unfold build_target, start_value, start_velocity, waypoints. assert (O : override_current (slot_room c s) t = override_current s t) by (destruct t; [reflexivity|]; cbn [override_current]; unfold slot_room; cbn [source with_source]; destruct (source s); reflexivity). rewrite O.
    assert (W : forall l sp y, add_waypoints (slot_room c s) sp y l = add_waypoints s sp y l) by (induction l as [|n l IH]; intros sp y; cbn [add_waypoints]; [reflexivity|]; change (slot_node_value (slot_room c s) (mn_value n)) with (slot_node_value s (mn_value n)); destruct (slot_node_value s (mn_value n)) as [a|]; [|reflexivity]; change (slot_next_y (slot_room c s) y a (mn_direction n)) with (slot_next_y s y a (mn_direction n)); destruct (slot_next_y s y a (mn_direction n)); [|reflexivity]; destruct (add_node _ _ _ _ _); auto).
    destruct (getz t 0) as [n0|]; [|reflexivity]. change (slot_node_value (slot_room c s) (mn_value n0)) with (slot_node_value s (mn_value n0)). change (slot_normalized_y (slot_room c s)) with (slot_normalized_y s). change (slot_derivative (slot_room c s)) with (slot_derivative s).
    destruct (if override_current s t then _ else slot_normalized_y s) as [y|]; [|reflexivity]. destruct (getz t (len t - 1)) as [la|]; [|reflexivity]. change (calculate_y_range (slot_room c s) t y) with (calculate_y_range s t y). cbv zeta. destruct (add_node _ _ _ _ _); [apply W|reflexivity]. }
  rewrite E. destruct (build_target new_local s t); [apply set_spline_room|reflexivity].
Qed.
(** Spline motivators in the same state cannot be told apart by what is asked of them, nor by frames.  So C106_matrix_partial and
    C106_sqt_partial hold of matrices driven by spline motivators. *)
Theorem C106_spline_class : indistinguishable spline_class same_state /\ (forall s, same_state s s) /\
  forall I S delta, @event_ok slot I S same_state (Frame (advance_slot delta)).
Proof.
  split; [|split; [apply same_refl|]].
  - intros s t L. apply same_is_room in L. destruct L as [c ->]. cbn [spline_class m_value m_velocity m_target_time m_set_target m_set_spline].
    split; [reflexivity|]. split; [reflexivity|]. split.
    + unfold slot_target_time. rewrite slot_x_room. unfold slot_end_x, slot_room. cbn [source with_source]. destruct (source s); reflexivity.
    + split; intros; [rewrite target_room|rewrite set_spline_room]; apply both_same; apply same_refl.
  - intros I S delta s t L. apply same_is_room in L. destruct L as [c ->]. rewrite advance_room. destruct (advance_slot delta s); [apply same_room|exact Logic.I].
Qed.
Print Assumptions C106_spline_class.
Lemma slot_clone_same s t : slot_clone s = Some (Some t) -> same_state s t.
Proof.
  unfold slot_clone, assign_spline. destruct (source s) as [sp|] eqn:E; [|discriminate]. destruct (_ <=? _)%Z; [|discriminate]. intros [= <-]. split; [|reflexivity]. rewrite E. cbn. auto.
Qed.
Lemma slot_clone_some s : slot_clone s <> Some None.
Proof. unfold slot_clone. destruct (source s) as [sp|]; [|discriminate]. destruct (assign_spline new_local sp); discriminate. Qed.
(** Spline motivators advance, and the blends are any. *)
Definition spline_event (e : event slot range spline) : Prop := match e with Frame f => exists delta, f = advance_slot delta | Blend _ _ => True end.
Lemma spline_events_ok events : Forall spline_event events -> Forall (event_ok same_state) events.
Proof. apply Forall_impl. intros [f|ops p]; cbn [spline_event event_ok]; [|auto]. intros [delta ->]. exact (proj2 (proj2 C106_spline_class) range spline delta). Qed.
(** The clone of a matrix that splines drive shows what the original shows, whatever blends and frames follow. *)
Theorem C106_spline_matrix : forall d d' events, mdata_clone slot_clone d = Some d' -> Forall spline_event events ->
  both (same_matrix spline_class) (run_events (mdata_event spline_class) events d) (run_events (mdata_event spline_class) events d').
Proof.
  intros d d' events E F. destruct C106_spline_class as (IND & REFL & _).
  exact (C106_matrix_partial spline_class same_state IND REFL slot_clone slot_clone_same d d' events (fun o m _ _ => slot_clone_some m) E (spline_events_ok _ F)).
Qed.
Print Assumptions C106_spline_matrix.
Theorem C106_spline_sqt : forall d d' events, qdata_clone slot_clone d = Some d' -> Forall spline_event events ->
  both (same_sqt spline_class) (run_events (qdata_event spline_class) events d) (run_events (qdata_event spline_class) events d').
Proof.
  intros d d' events E F. destruct C106_spline_class as (IND & REFL & _).
  exact (C106_sqt_partial spline_class same_state IND REFL slot_clone slot_clone_same d d' events (fun o m _ _ => slot_clone_some m) E (spline_events_ok _ F)).
Qed.
Print Assumptions C106_spline_sqt.

(** ** C107 *)
(** Where the playback is after the frames. *)
Definition position (p : playback) (deltas : list R) : R := start_at p + sum (map (fun d => d * playback_rate p) deltas).
(** [v] is what an operation shows then: its constant, or the value of its spline there, in the units of the playback. *)
Definition shows (p : playback) (deltas : list R) (i : opinit range spline) (v : R) : Prop :=
  match i_union i with
  | UValue u => v = u
  | USpline sp => exists x y d, wrapped sp (repeat_ p) (position p deltas) x /\ spline_at sp x y d /\ v = y_scale p * y + y_offset p
  | _ => False
  end.
(** Operations as RigAnims have them: a constant, or a spline that can be played from the start, over frames that
    are not longer than an int can hold.  Their motivators are not modular, or modular about zero (angles). *)
Definition playable (p : playback) (deltas : list R) (i : opinit range spline) : Prop :=
  (i_id i <= 254)%Z /\
  match i_union i with
  | UValue _ => i_init i = None
  | USpline sp => start_ok sp p /\ Forall (fun d => small_step sp (d * playback_rate p)) deltas /\
      exists r, i_init i = Some r /\ (valid r = false \/ exists h, 0 < h /\ r = Rg (- h) h)
  | _ => False
  end.

(** An operation that plays. *)
Definition op_at (p : playback) (total : R) (i : opinit range spline) (o : op slot) : Prop :=
  op_id o = i_id i /\ op_type o = i_type i /\
  match i_union i with
  | UValue u => op_motivator o = None /\ op_const o = u
  | USpline sp => exists s x, op_motivator o = Some s /\ placed s sp p x /\ cur_y s = keval (curve s) (cubic_x s) /\ wrapped sp (repeat_ p) total x
  | _ => False
  end.
Lemma op_at_shows p deltas i o : op_at p (position p deltas) i o -> playable p deltas i -> shows p deltas i (op_value spline_class o).
Proof.
  intros (_ & _ & U) (_ & PL). unfold shows, op_value. destruct (i_union i) as [|u|t|sp]; try contradiction; [destruct U as [-> <-]; reflexivity|].
  destruct U as (s & x & -> & P & Y & W). destruct PL as ((OK & _) & _). pose proof (placed_plays _ _ _ _ OK P) as (_ & _ & v & d & SA & CY & _). rewrite (evaluated_same s Y) in CY. exists x, v, d. split; [exact W|]. split; [exact SA|exact CY].
Qed.

Lemma set_target_slot s t sp ev1 : set_target [s] 0 new_local t = Some (sp, ev1) -> exists s1, slot_set_target t s = Some s1.
Proof.
  intros E. unfold set_target in E. change (getz [s] 0) with (Some s) in E. cbv iota in E. unfold slot_set_target. destruct (build_target new_local s t) as [sp'|]; [|discriminate E]. cbn [set_splines set_each_spline] in E.
  unfold modify in E. change (getz [s] 0) with (Some s) in E. cbv iota in E. destruct (set_spline sp' (playback_from 0) s) as [s1|]; [|discriminate E]. eauto.
Qed.
Lemma current_succeeds r v d : valid r = false \/ (exists h, 0 < h /\ r = Rg (- h) h) -> exists s1, slot_set_target (current1f v d) (slot_set_y_range r slot_default) = Some s1.
Proof.
  intros H. assert (AP : apart (slot_set_y_range r slot_default) (current1f v d)) by (unfold apart, waypoints, current1f; cbn; exact Logic.I).
  destruct H as [V|(h & H & ->)].
  - destruct (C44_succeeds [slot_set_y_range r slot_default] 0%Z new_local (current1f v d) _ eq_refl V) as (sp & ev1 & E); [discriminate|cbn; lia|exact AP|]. eapply set_target_slot; exact E.
  - destruct (C44_modular_succeeds_partial [slot_set_y_range (Rg (- h) h) slot_default] 0%Z new_local (current1f v d) _ h eq_refl eq_refl H) as (sp & ev1 & E); [discriminate|cbn; lia|exact AP|cbn; lia|constructor; [now left|constructor]|]. eapply set_target_slot; exact E.
Qed.
Lemma make_ok p deltas i : blend_x p <= 0 -> playable p deltas i -> exists o, make_op spline_class i p = Some o /\ op_at p (start_at p) i o.
Proof.
  intros BX (ID & PL). unfold make_op. replace (i_id i <=? kMaxMatrixOpId)%Z with true by (unfold kMaxMatrixOpId; lia). cbv zeta. destruct (i_union i) as [|u|t|sp] eqn:U; try contradiction.
  - rewrite PL. unfold blend_to_op. rewrite U. cbn [op_motivator op_id op_type]. eexists. split; [reflexivity|]. unfold op_at. rewrite U. cbn. auto.
  - destruct PL as (SO & _ & r & IN & RG). rewrite IN. cbn [spline_class m_new m_set_target]. destruct (current_succeeds r (default_value (i_type i)) 0 RG) as [s1 E1]. rewrite E1.
    unfold blend_to_op, ensure_motivator. rewrite U. cbn [op_motivator op_id op_type op_const m_set_spline spline_class].
    destruct (set_spline_jump s1 sp p SO (or_intror BX)) as (s2 & x & E2 & P2 & Y2 & W2). rewrite E2. eexists. split; [reflexivity|]. unfold op_at. rewrite U. cbn. split; [reflexivity|]. split; [reflexivity|]. exists s2, x. auto.
Qed.
Lemma advance_at p deltas d i o total : playable p (d :: deltas) i -> op_at p total i o -> exists o', op_advance (advance_slot d) o = Some o' /\ op_at p (total + d * playback_rate p) i o'.
Proof.
  intros (_ & PL) (ID & TY & U). unfold op_advance, op_at. destruct (i_union i) as [|u|t|sp] eqn:IU; try contradiction.
  - destruct U as [N C]. rewrite N. exists o. auto.
  - destruct U as (s & x & -> & P & Y & W). destruct PL as ((OK & CR & _) & SM & _). apply Forall_cons_iff in SM. destruct SM as [SM _].
    destruct (step_placed s sp p x d OK P CR SM (wrapped_refl_of _ _ _ _ W)) as (s1 & x1 & A & P1 & W1 & Y1). rewrite A. eexists. split; [reflexivity|]. cbn. split; [exact ID|]. split; [exact TY|]. exists s1, x1. split; [reflexivity|]. split; [exact P1|]. split; [exact Y1|].
    eapply wrapped_add; eauto.
Qed.
Lemma advance_all p d deltas total : forall inits ops, Forall (playable p (d :: deltas)) inits -> Forall2 (op_at p total) inits ops ->
  exists ops', map_all (op_advance (advance_slot d)) ops = Some ops' /\ Forall2 (op_at p (total + d * playback_rate p)) inits ops'.
Proof.
  intros inits ops F H. induction H as [|i o inits ops OA H IH]; [exists []; split; [reflexivity|constructor]|]. apply Forall_cons_iff in F. destruct F as [F1 F2].
  destruct (advance_at _ _ _ _ _ _ F1 OA) as (o' & E & OA'). destruct (IH F2) as (ops' & E' & H'). cbn [map_all]. rewrite E, E'. eexists. split; [reflexivity|]. now constructor.
Qed.
Lemma playable_tl p d deltas i : playable p (d :: deltas) i -> playable p deltas i.
Proof. intros (ID & PL). split; [exact ID|]. destruct (i_union i); auto. destruct PL as (A & B & C). apply Forall_cons_iff in B. tauto. Qed.

Lemma append_all fb : forall inits ops, (forall i, In i inits -> fb (i_type i) = false) -> Forall (playable (playback_from 0) []) inits ->
  exists new, append_ops spline_class fb ops inits = Some (ops ++ new) /\ Forall2 (op_at (playback_from 0) 0) inits new.
Proof.
  induction inits as [|i inits IH]; intros ops T F; cbn [append_ops]; [exists []; rewrite app_nil_r; split; [reflexivity|constructor]|]. apply Forall_cons_iff in F. destruct F as [F1 F2].
  rewrite (T i (or_introl eq_refl)). cbn [negb]. destruct (make_ok (playback_from 0) [] i ltac:(cbn; lra) F1) as (o & E & OA). rewrite E. destruct (IH (ops ++ [o]) (fun j J => T j (or_intror J)) F2) as (new & E' & H). exists (o :: new). split; [rewrite E', <- app_assoc; reflexivity|]. now constructor.
Qed.
Lemma insert_all p deltas : blend_x p <= 0 -> forall inits done fuel ops, Forall (playable p deltas) inits -> (length inits <= fuel)%nat ->
  exists new, insert_loop spline_class fuel ops (done ++ inits) p (len done) = Some (ops ++ new) /\ Forall2 (op_at p (start_at p)) inits new.
Proof.
  intros BX. induction inits as [|i inits IH]; intros done fuel ops F L.
  - exists []. rewrite !app_nil_r. split; [|constructor]. destruct fuel; cbn [insert_loop]; rewrite Z.ltb_irrefl; reflexivity.
  - apply Forall_cons_iff in F. destruct F as [F1 F2]. destruct fuel as [|fuel]; [cbn in L; lia|]. cbn [insert_loop]. rewrite len_app, len_cons. pose proof (len_nonneg inits). replace (len done <? len done + (1 + len inits))%Z with true by lia.
    rewrite getz_app2 by lia. rewrite Z.sub_diag. change (getz (i :: inits) 0) with (Some i). cbv iota. destruct (make_ok p deltas i BX F1) as (o & E & OA). rewrite E.
    destruct (IH (done ++ [i]) fuel (ops ++ [o]) F2 ltac:(cbn in L; lia)) as (new & E' & H'). rewrite <- app_assoc in E'. cbn [app] in E'. rewrite len_app, len_cons in E'. change (len (@nil (opinit range spline))) with 0%Z in E'. replace (len done + (1 + 0))%Z with (len done + 1)%Z in E' by lia.
    exists (o :: new). split; [rewrite E', <- app_assoc; reflexivity|]. now constructor.
Qed.
Lemma merge_empty fb p deltas inits : blend_x p <= 0 -> Forall (playable p deltas) inits -> exists new, merge_ops spline_class fb [] inits p = Some new /\ Forall2 (op_at p (start_at p)) inits new.
Proof.
  intros BX F. unfold merge_ops. assert (ML : merge_loop spline_class fb (length (@nil (op slot)) + length inits) [] inits p 0 0 = Some ([], 0%Z, 0%Z)) by (destruct inits; reflexivity). rewrite ML. cbn [length default_loop].
  change (len (@nil (op slot))) with 0%Z. cbn [Z.ltb Z.compare]. destruct (insert_all p deltas BX inits [] (length inits) [] F ltac:(lia)) as (new & E & H). exists new. split; [exact E|exact H].
Qed.

(** The operation is one that matrices have: not invalid, not part of a quaternion. *)
Definition matrix_type (t : mtype) : Prop := elementary t 0 <> None.
Lemma matrix_type_elementary t v : matrix_type t -> exists e, elementary t v = Some e.
Proof. unfold matrix_type. destruct t; cbn; intros H; try congruence; eauto. Qed.
Lemma all_elementary (ops : list (op slot)) : (forall o, In o ops -> matrix_type (op_type o)) -> exists es, Forall2 (fun o e => elementary (op_type o) (op_value spline_class o) = Some e) ops es.
Proof.
  induction ops as [|o ops IH]; intros H; [exists []; constructor|]. destruct (IH (fun o' J => H o' (or_intror J))) as [es E]. destruct (matrix_type_elementary (op_type o) (op_value spline_class o) (H o (or_introl eq_refl))) as [e E']. exists (e :: es). now constructor.
Qed.
Lemma op_at_types p total inits ops : Forall2 (op_at p total) inits ops -> (forall i, In i inits -> matrix_type (i_type i)) -> forall o, In o ops -> matrix_type (op_type o).
Proof. induction 1 as [|i o inits ops (_ & T & _) H IH]; intros M o' I; [destruct I|]. destruct I as [<-|I]; [rewrite T; apply M; now left|]. apply IH; [intros; apply M; now right|exact I]. Qed.

Fixpoint frames {D} (f : R -> D -> option D) (deltas : list R) (d : D) : option D :=
  match deltas with [] => Some d | delta :: l => d' <- f delta d ;; frames f l d' end.
Definition matrix_plays (delta : R) : mdata slot -> option (mdata slot) := mdata_frame spline_class (advance_slot delta).
Definition sqt_plays (delta : R) : qdata slot -> option (qdata slot) := qdata_frame spline_class (advance_slot delta).

(** The matrix is the product of the elementary matrices of the operations, in order, at the values they show. *)
Definition shows_product (p : playback) (deltas : list R) (inits : list (opinit range spline)) (m : mat4) : Prop :=
  exists vs es, Forall2 (shows p deltas) inits vs /\ Forall2 (fun ti e => elementary (fst ti) (snd ti) = Some e) (combine (map i_type inits) vs) es /\ m = product es.
Definition mdata_at p total inits (d : mdata slot) : Prop :=
  Forall2 (op_at p total) inits (md_ops d) /\ exists es, Forall2 (fun o e => elementary (op_type o) (op_value spline_class o) = Some e) (md_ops d) es /\ md_matrix d = product es.
Lemma update_at p total inits ops m s : (forall i, In i inits -> matrix_type (i_type i)) -> Forall2 (op_at p total) inits ops ->
  exists d, mdata_update spline_class (MData m s ops) = Some d /\ mdata_at p total inits d.
Proof.
  intros M H. destruct (all_elementary ops (op_at_types _ _ _ _ H M)) as [es E]. unfold mdata_update. cbn [md_ops]. rewrite (C51_product _ _ _ _ _ _ E). eexists. split; [reflexivity|]. split; [exact H|]. exists es. auto.
Qed.
Lemma frames_at p inits : (forall i, In i inits -> matrix_type (i_type i)) -> forall deltas d total, Forall (playable p deltas) inits -> Forall2 (op_at p total) inits (md_ops d) ->
  exists d', frames matrix_plays deltas d = Some d' /\ Forall2 (op_at p (total + sum (map (fun x => x * playback_rate p) deltas))) inits (md_ops d') /\ (deltas <> [] \/ mdata_at p total inits d -> mdata_at p (total + sum (map (fun x => x * playback_rate p) deltas)) inits d').
Proof.
  intros M. induction deltas as [|delta deltas IH]; intros d total F H; cbn [frames map sum].
  - exists d. rewrite Rplus_0_r. split; [reflexivity|]. split; [exact H|]. intros [N|D]; [congruence|exact D].
  - destruct (advance_all _ _ _ _ _ _ F H) as (ops & E & H1). unfold matrix_plays at 1, mdata_frame. rewrite E. destruct (update_at p _ inits ops (md_matrix d) (md_scale d) M H1) as (d1 & E1 & D1). rewrite E1.
    destruct (IH d1 _ (Forall_impl _ (playable_tl p delta deltas) F) (proj1 D1)) as (d2 & E2 & H2 & D2). exists d2. rewrite <- Rplus_assoc. split; [exact E2|]. split; [exact H2|]. intros _. apply D2. now right.
Qed.
Lemma mdata_at_shows p deltas inits d : Forall (playable p deltas) inits -> mdata_at p (position p deltas) inits d -> shows_product p deltas inits (md_matrix d).
Proof.
  intros F (H & es & E & ->). exists (map (op_value spline_class) (md_ops d)), es. clear -F H E. revert es E. induction H as [|i o inits ops OA H IH]; intros es E; inversion E; subst; cbn [map combine]; [repeat split; constructor|].
  apply Forall_cons_iff in F. destruct F as [F1 F2]. destruct (IH F2 _ H4) as (A & B & _). split; [constructor; [now apply op_at_shows|exact A]|]. split; [|reflexivity]. constructor; [|exact B]. cbn [fst snd]. destruct OA as (_ & T & _). now rewrite <- T.
Qed.

(** C107.  A matrix motivator that was made of such operations, or had none and was blended to them at once, plays over
    any frames without fail, and shows the product after every one. *)
Theorem C107_matrix : forall inits p deltas d0, md_ops d0 = [] -> blend_x p <= 0 -> (forall i, In i inits -> matrix_type (i_type i)) -> Forall (playable p deltas) inits -> deltas <> [] ->
  exists d d', mdata_blend_to_ops spline_class inits p d0 = Some d /\ frames matrix_plays deltas d = Some d' /\ shows_product p deltas inits (md_matrix d').
Proof.
  intros inits p deltas d0 D0 BX M F N. unfold mdata_blend_to_ops. rewrite D0. destruct (merge_empty quaternion_op p deltas inits BX F) as (new & E & H). rewrite E.
  destruct (frames_at p inits M deltas (MData (md_matrix d0) (md_scale d0) new) (start_at p) F H) as (d' & E' & _ & D). exists (MData (md_matrix d0) (md_scale d0) new), d'. split; [reflexivity|]. split; [exact E'|]. apply mdata_at_shows; [exact F|]. apply D. now left.
Qed.
Print Assumptions C107_matrix.
Theorem C107_initialized : forall inits deltas, (forall i, In i inits -> matrix_type (i_type i)) -> Forall (playable (playback_from 0) deltas) inits ->
  exists d d', mdata_initialize spline_class inits mdata_default = Some d /\ frames matrix_plays deltas d = Some d' /\ shows_product (playback_from 0) deltas inits (md_matrix d').
Proof.
  intros inits deltas M F. unfold mdata_initialize. cbn [md_ops mdata_default].
  assert (F0 : Forall (playable (playback_from 0) []) inits). { eapply Forall_impl; [|exact F]. intros i (A & B). split; [exact A|]. destruct (i_union i); auto. destruct B as (B1 & _ & B2). auto. }
  destruct (append_all quaternion_op inits [] ltac:(intros i I; specialize (M i I); unfold matrix_type in M; destruct (i_type i); cbn in *; congruence) F0) as (new & E & H). rewrite E. cbn [app].
  destruct (update_at (playback_from 0) 0 inits new identity4 None M H) as (d & E1 & D1).
  destruct (frames_at (playback_from 0) inits M deltas d 0 F (proj1 D1)) as (d' & E' & _ & D). exists d, d'. split; [exact E1|]. split; [exact E'|]. apply mdata_at_shows; [exact F|]. apply D. now right.
Qed.
Print Assumptions C107_initialized.

(** The value of the last operation of a type. *)
Definition last_value (is : mtype -> bool) (l : list (mtype * R)) (default : R) : R := match find (fun o => is (fst o)) (rev l) with Some o => snd o | None => default end.
Definition last_translation l := V3 (last_value (is_type TranslateX) l 0) (last_value (is_type TranslateY) l 0) (last_value (is_type TranslateZ) l 0).
Definition last_scale l := V3 (last_value (is_type ScaleX) l 1) (last_value (is_type ScaleY) l 1) (last_value (is_type ScaleZ) l 1).
Definition last_quaternion l :=
  Quat (last_value (is_type QuaternionW) l 1) (last_value (is_type QuaternionX) l 0) (last_value (is_type QuaternionY) l 0) (last_value (is_type QuaternionZ) l 0).
(** First scaled, then rotated by the quaternion at unit length, then moved, all as the operations show. *)
Definition shows_sqt (p : playback) (deltas : list R) (inits : list (opinit range spline)) (m : mat4) : Prop :=
  exists vs u r, Forall2 (shows p deltas) inits vs /\ let l := combine (map i_type inits) vs in
    unit_of u (last_quaternion l) /\ (forall v, mat_vec3 r v = rotated u v) /\ m = mmul (translating (last_translation l)) (mmul (rotating r) (scaling (last_scale l))).

Lemma component_last is (ops : list (op slot)) d : component spline_class is ops d = last_value is (map (fun o => (op_type o, op_value spline_class o)) ops) d.
Proof.
  unfold component, last_value. rewrite <- map_rev. induction (rev ops) as [|o l IH]; cbn [map find fst]; [reflexivity|]. destruct (is (op_type o)); [reflexivity|exact IH].
Qed.
Lemma update_shows p deltas inits d d' : Forall (playable p deltas) inits -> Forall2 (op_at p (position p deltas)) inits (qd_ops d) -> qdata_update spline_class d = Some d' -> qd_ops d' = qd_ops d /\ shows_sqt p deltas inits (qd_matrix d').
Proof.
  intros F H U. destruct (forallb (fun o => sqt_type (op_type o)) (qd_ops d)) eqn:T; [|rewrite C53_unsupported in U by exact T; discriminate].
  assert (NZ : quaternion_part spline_class (qd_ops d) <> Quat 0 0 0 0) by (intros Z; rewrite qdata_update_eq, Z, qnormalize_zero in U by exact T; discriminate).
  destruct (C53_update_partial _ _ _ spline_class d T NZ) as (d2 & r & E & MX & UN & RO & _ & OPS). rewrite U in E. injection E as <-. split; [exact OPS|].
  exists (map (op_value spline_class) (qd_ops d)), (qd_rotation d'), r. assert (C : combine (map i_type inits) (map (op_value spline_class) (qd_ops d)) = map (fun o => (op_type o, op_value spline_class o)) (qd_ops d)).
  { clear -H. induction H as [|i o inits ops (_ & T & _) H IH]; cbn [map combine]; [reflexivity|]. now rewrite IH, T. }
  split; [clear -H F; induction H as [|i o inits ops OA H IH]; cbn [map]; constructor; apply Forall_cons_iff in F; [now apply op_at_shows|apply IH; tauto]|].
  cbv zeta. rewrite C. unfold last_quaternion, last_translation, last_scale. rewrite <- !component_last. repeat split; auto; apply UN.
Qed.

(** The value that an operation starts from: its constant, or the first node of its spline. *)
Definition starts (i : opinit range spline) (v : R) : Prop :=
  match i_union i with
  | UValue u => v = u
  | USpline sp => exists n, getz (nodes sp) 0 = Some n /\ v = node_y n (y_range sp)
  | _ => False
  end.
(** Operations that SQT motivators have, and whose quaternions have a direction, at the start and after every frame. *)
Definition directed (inits : list (opinit range spline)) (vs : list R) : Prop := last_quaternion (combine (map i_type inits) vs) <> Quat 0 0 0 0.
Definition sqt_playable (p : playback) (deltas : list R) (inits : list (opinit range spline)) : Prop :=
  forallb (fun i => sqt_type (i_type i)) inits = true /\
  (forall vs, Forall2 starts inits vs -> directed inits vs) /\
  (forall l r vs, deltas = l ++ r -> l <> [] -> Forall2 (shows p l) inits vs -> directed inits vs).

Lemma playable_starts p deltas i : playable p deltas i -> exists v, starts i v /\ init_start_value spline_class i = Some v.
Proof.
  intros (_ & PL). unfold starts, init_start_value. destruct (i_union i) as [|u|t|sp]; try contradiction; [eauto|]. cbn [spline_class spline_start_y]. destruct PL as ((OK & _) & _).
  destruct (ok_front sp OK) as (n & E). exists (node_y n (y_range sp)). unfold start_y. rewrite E. split; [|reflexivity]. exists n. split; [exact E|reflexivity].
Qed.
Lemma last_value_cons is o l d : last_value is (o :: l) d = last_value is l (if is (fst o) then snd o else d).
Proof.
  unfold last_value. cbn [rev]. assert (F : forall r, find (fun o => is (fst o)) (r ++ [o]) = match find (fun o => is (fst o)) r with Some x => Some x | None => if is (fst o) then Some o else None end).
  { induction r as [|y r IH]; cbn [app find]; [reflexivity|]. destruct (is (fst y)); [reflexivity|exact IH]. }
  rewrite F. destruct (find _ (rev l)); [reflexivity|]. now destruct (is (fst o)).
Qed.
Lemma next_quaternion_last p deltas : forall inits q, Forall (playable p deltas) inits -> exists vs, Forall2 starts inits vs /\
  next_quaternion spline_class q inits = Some (let l := combine (map i_type inits) vs in Quat (last_value (is_type QuaternionW) l (qw q)) (last_value (is_type QuaternionX) l (qx q)) (last_value (is_type QuaternionY) l (qy q)) (last_value (is_type QuaternionZ) l (qz q))).
Proof.
  induction inits as [|i inits IH]; intros q F; [exists []; split; [constructor|destruct q; reflexivity]|]. apply Forall_cons_iff in F. destruct F as [F1 F2]. destruct (playable_starts _ _ _ F1) as (v & SV & IV). cbn [next_quaternion].
  destruct (i_type i) eqn:T; rewrite ?IV.
  all: match goal with |- context [next_quaternion _ ?q' _] => destruct (IH q' F2) as (vs & FV & E) end; exists (v :: vs); (split; [now constructor|]); rewrite E; cbv zeta; cbn [map combine]; rewrite !last_value_cons; cbn [fst snd]; rewrite T; reflexivity.
Qed.

Lemma blend_sqt_succeeds inits p deltas d0 : Forall (playable p deltas) inits -> sqt_playable p deltas inits -> blend_x p <= 0 -> qd_ops d0 = [] ->
  exists d, qdata_blend_to_ops spline_class inits p d0 = Some d /\ Forall2 (op_at p (start_at p)) inits (qd_ops d).
Proof.
  intros F (ST & NS & NF) BX D0. destruct (next_quaternion_last p deltas inits qidentity F) as (vs & FV & EN). assert (NZ := NS vs FV). unfold directed, last_quaternion in NZ.
  destruct (merge_empty rotate_op p deltas inits BX F) as (new & EM & H). unfold qdata_blend_to_ops, align_quaternion_ops. rewrite EN. cbv zeta. cbn [qidentity qw qx qy qz]. destruct (qnormalize_unit _ NZ) as (u & EU & _). rewrite EU, D0. cbn [negate_ops].
  destruct (Rltb _ 0); cbn [qd_ops]; rewrite ?D0, EM; eexists; (split; [reflexivity|exact H]).
Qed.
Lemma sqt_frames_at p deltas inits : Forall (playable p deltas) inits -> forallb (fun i => sqt_type (i_type i)) inits = true ->
  (forall l r vs, deltas = l ++ r -> l <> [] -> Forall2 (shows p l) inits vs -> directed inits vs) ->
  forall r l total d, total = position p l -> deltas = l ++ r -> Forall2 (op_at p total) inits (qd_ops d) ->
    exists d', frames sqt_plays r d = Some d' /\ (r <> [] -> shows_sqt p deltas inits (qd_matrix d')) /\ Forall2 (op_at p (position p deltas)) inits (qd_ops d').
Proof.
  intros F ST NF. induction r as [|delta r IH]; intros l total d TE DE H; [exists d; split; [reflexivity|]; split; [congruence|]; rewrite DE, app_nil_r, <- TE; exact H|]. cbn [frames]. unfold sqt_plays at 1, qdata_frame.
    assert (FR : Forall (playable p (delta :: r)) inits). { eapply Forall_impl; [|exact F]. intros i (A & B). split; [exact A|]. destruct (i_union i); auto. destruct B as (B1 & B2 & B3). split; [exact B1|]. split; [|exact B3]. rewrite DE in B2. apply Forall_app in B2. tauto. }
    assert (FL : Forall (playable p (l ++ [delta])) inits). { eapply Forall_impl; [|exact F]. intros i (A & B). split; [exact A|]. destruct (i_union i); auto. destruct B as (B1 & B2 & B3). split; [exact B1|]. split; [|exact B3]. rewrite DE in B2. apply Forall_app in B2. destruct B2 as [B2 B4]. apply Forall_app. split; [exact B2|]. apply Forall_cons_iff in B4. constructor; [tauto|constructor]. }
    destruct (advance_all _ _ _ _ _ _ FR H) as (ops & EA & H1). rewrite EA.
    assert (TP : total + delta * playback_rate p = position p (l ++ [delta])). { rewrite TE. unfold position. rewrite map_app. assert (SA : forall a b, sum (a ++ b) = sum a + sum b) by (induction a as [|z a IHa]; intros b; cbn [app sum]; [|rewrite IHa]; lra). rewrite SA. cbn [map sum]. lra. }
    assert (TT : forallb (fun o => sqt_type (op_type o)) ops = true). { clear -H1 ST. induction H1 as [|i o inits ops (_ & T & _) H1 IH]; cbn [forallb] in *; [reflexivity|]. apply andb_prop in ST. rewrite T, (proj1 ST). apply IH. tauto. }
    rewrite TP in H1.
    assert (DQ : quaternion_part spline_class ops <> Quat 0 0 0 0).
    { assert (V := NF (l ++ [delta]) r (map (op_value spline_class) ops)). rewrite <- app_assoc in V. specialize (V DE ltac:(now destruct l)).
      assert (C : combine (map i_type inits) (map (op_value spline_class) ops) = map (fun o => (op_type o, op_value spline_class o)) ops). { clear -H1. induction H1 as [|i o inits ops (_ & T & _) H IH]; cbn [map combine]; [reflexivity|]. now rewrite IH, T. }
      unfold directed in V. rewrite C in V. unfold last_quaternion in V. rewrite <- !component_last in V. apply V. clear -H1 FL. induction H1 as [|i o inits ops OA H IH]; cbn [map]; constructor; apply Forall_cons_iff in FL; [now apply op_at_shows|apply IH; tauto]. }
    destruct (C53_update_partial _ _ _ spline_class (QData (qd_matrix d) (qd_rotation d) (qd_scale d) ops) TT DQ) as (d2 & r2 & E2 & _ & _ & _ & _ & O2). cbn [qd_ops] in O2. rewrite E2.
    destruct (update_shows p (l ++ [delta]) inits (QData (qd_matrix d) (qd_rotation d) (qd_scale d) ops) d2 FL H1 E2) as (_ & SH). destruct (IH (l ++ [delta]) _ d2 eq_refl) as (d' & FR' & SR & OA'); [now rewrite <- app_assoc|now rewrite O2|]. exists d'. split; [exact FR'|]. split; [intros _|exact OA'].
    destruct r as [|x r]; [|apply SR; discriminate]. cbn [frames] in FR'. injection FR' as <-. now rewrite DE.
Qed.
(** C107 for SQT motivators. *)
Theorem C107_sqt : forall inits p deltas d0, qd_ops d0 = [] -> blend_x p <= 0 -> Forall (playable p deltas) inits -> sqt_playable p deltas inits -> deltas <> [] ->
  exists d d', qdata_blend_to_ops spline_class inits p d0 = Some d /\ frames sqt_plays deltas d = Some d' /\ shows_sqt p deltas inits (qd_matrix d').
Proof.
  intros inits p deltas d0 D0 BX F SP N. destruct (blend_sqt_succeeds inits p deltas d0 F SP BX D0) as (d & E & H). exists d. destruct SP as (ST & NS & NF).
  destruct (sqt_frames_at p deltas inits F ST NF deltas [] (start_at p) d) as (d' & EF & SH & _); [unfold position; cbn [map sum]; lra|reflexivity|exact H|]. exists d'. split; [exact E|]. split; [exact EF|]. now apply SH.
Qed.
Print Assumptions C107_sqt.
(** An SQT motivator that was made of such operations; their quaternions have a direction from the start. *)
Theorem C107_sqt_initialized : forall inits deltas, Forall (playable (playback_from 0) deltas) inits -> forallb (fun i => sqt_type (i_type i)) inits = true ->
  (forall l r vs, deltas = l ++ r -> Forall2 (shows (playback_from 0) l) inits vs -> directed inits vs) ->
  exists d d', qdata_initialize spline_class inits qdata_default = Some d /\ frames sqt_plays deltas d = Some d' /\ shows_sqt (playback_from 0) deltas inits (qd_matrix d').
Proof.
  intros inits deltas F ST ND. unfold qdata_initialize. cbn [qd_ops qdata_default].
  assert (F0 : Forall (playable (playback_from 0) []) inits). { eapply Forall_impl; [|exact F]. intros i (A & B). split; [exact A|]. destruct (i_union i); auto. destruct B as (B1 & _ & B2). auto. }
  destruct (append_all rotate_op inits [] ltac:(intros i I; rewrite forallb_forall in ST; specialize (ST i I); destruct (i_type i); cbn in *; congruence) F0) as (new & E & H). rewrite E. cbn [app].
  assert (P0 : position (playback_from 0) [] = 0) by (unfold position; cbn; lra).
  assert (H' : Forall2 (op_at (playback_from 0) (position (playback_from 0) [])) inits new) by (rewrite P0; exact H). clear H P0. rename H' into H.
  set (d1 := QData (qd_matrix qdata_default) (qd_rotation qdata_default) (qd_scale qdata_default) new).
  assert (TT : forallb (fun o => sqt_type (op_type o)) (qd_ops d1) = true). { cbn [qd_ops d1]. clear -H ST. induction H as [|i o inits ops (_ & T & _) H1 IH]; cbn [forallb] in *; [reflexivity|]. apply andb_prop in ST. rewrite T, (proj1 ST). apply IH. tauto. }
  assert (DQ : quaternion_part spline_class (qd_ops d1) <> Quat 0 0 0 0).
  { assert (V := ND [] deltas (map (op_value spline_class) new) eq_refl). unfold d1; cbn [qd_ops].
    assert (C : combine (map i_type inits) (map (op_value spline_class) new) = map (fun o => (op_type o, op_value spline_class o)) new). { clear -H. induction H as [|i o inits ops (_ & T & _) H IH]; cbn [map combine]; [reflexivity|]. now rewrite IH, T. }
    unfold directed in V. rewrite C in V. unfold last_quaternion in V. rewrite <- !component_last in V. apply V. clear -H F0. induction H as [|i o inits ops OA H IH]; cbn [map]; [constructor|]. apply Forall_cons_iff in F0. constructor; [apply op_at_shows; tauto|apply IH; tauto]. }
  destruct (C53_update_partial _ _ _ spline_class d1 TT DQ) as (d & r2 & E2 & _ & _ & _ & _ & O2). cbn [qd_ops d1] in O2. exists d.
  destruct (update_shows (playback_from 0) [] inits d1 d F0 H E2) as (_ & SH).
  destruct (sqt_frames_at (playback_from 0) deltas inits F ST (fun l r vs A _ => ND l r vs A) deltas [] _ d eq_refl eq_refl) as (d' & EF & SH' & _); [rewrite O2; exact H|]. exists d'. split; [exact E2|]. split; [exact EF|].
  destruct deltas as [|x l]; [cbn [frames] in EF; injection EF as <-; exact SH|apply SH'; discriminate].
Qed.
Print Assumptions C107_sqt_initialized.
