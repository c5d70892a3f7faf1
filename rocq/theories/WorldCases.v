(** C113: every state of a rig is that of a rig in an engine, and its frames are frames of the
    engine; so the theorems about engines are about something. *)
From Verif Require Import RBase BaseFacts MathfuModel RangeModel CurveModel CompactSplineModel EvaluatorModel EvaluatorSpec EvaluatorProofs OvershootModel SimpleModel SplineTargetModel MatrixModel RigModel EngineModel EngineProofs EngineProps WorldModel MatrixProps SqtProps RigProps SplineClassModel PlayProps RateProps RigPlayProps AnimTableProps WorldProps WorldPlayProps.

Section Cases.
Variable fm : mat3 -> quat.
Notation W := (world (opinit range spline)).

Definition op_slots (ops : list (op slot)) : list slot := flat_map (fun o => match op_motivator o with Some s => [s] | None => [] end) ops.
Definition bone_slots (b : @bone slot) : list slot := match b with inl d => op_slots (md_ops d) | inr d => op_slots (qd_ops d) end.

(** ** A world that has given bones *)
Lemma ops_in_world : forall ops ev, exists refs, forall post, map_all (resolve_op (ev ++ op_slots ops ++ post)) refs = Some ops.
Proof.
  induction ops as [|[id ty m c] ops IH]; intros ev; [exists []; reflexivity|]. destruct m as [s|].
  - destruct (IH (ev ++ [s])) as [refs H]. exists (Op id ty (Some (Ref KSpline (len ev))) c :: refs). intros post. cbn [map_all op_slots flat_map op_motivator]. specialize (H post). rewrite <- app_assoc in H. cbn [app] in *. fold (op_slots ops). rewrite H. unfold resolve_op. cbn [op_motivator op_id op_type op_const].
    rewrite getz_app2 by lia. rewrite Z.sub_diag. reflexivity.
  - destruct (IH ev) as [refs H]. exists (Op id ty None c :: refs). intros post. cbn [map_all op_slots flat_map op_motivator app]. fold (op_slots ops). rewrite H. reflexivity.
Qed.
Definition extends (w w' : W) : Prop := exists a b c, w_splines w' = w_splines w ++ a /\ w_matrices w' = w_matrices w ++ b /\ w_sqts w' = w_sqts w ++ c.
Lemma getz_more {A} (l l' : list A) i x : getz l i = Some x -> getz (l ++ l') i = Some x.
Proof. intros E. rewrite getz_app1; [exact E|]. apply getz_Some in E. lia. Qed.
Lemma resolve_op_more ev ev' o o' : resolve_op ev o = Some o' -> resolve_op (ev ++ ev') o = Some o'.
Proof. unfold resolve_op. destruct (op_motivator o) as [[k i]|]; [|auto]. destruct k; auto. destruct (getz ev i) eqn:G; [|discriminate]. now rewrite (getz_more _ _ _ _ G). Qed.
Lemma map_all_more {A B} (f g : A -> option B) l r : (forall x y, f x = Some y -> g x = Some y) -> map_all f l = Some r -> map_all g l = Some r.
Proof. intros H E. apply map_all_iff in E. apply map_all_iff. induction E; constructor; auto. Qed.
Lemma resolve_matrix_more w w' d D : extends w w' -> resolve_matrix w d = Some D -> resolve_matrix w' d = Some D.
Proof. intros (a & _ & _ & E & _) H. unfold resolve_matrix in *. destruct (map_all _ _) as [ops|] eqn:M; [|discriminate]. rewrite E, (map_all_more _ (resolve_op (w_splines w ++ a)) _ _ (resolve_op_more _ _) M). exact H. Qed.
Lemma resolve_sqt_more w w' d D : extends w w' -> resolve_sqt w d = Some D -> resolve_sqt w' d = Some D.
Proof. intros (a & _ & _ & E & _) H. unfold resolve_sqt in *. destruct (map_all _ _) as [ops|] eqn:M; [|discriminate]. rewrite E, (map_all_more _ (resolve_op (w_splines w ++ a)) _ _ (resolve_op_more _ _) M). exact H. Qed.
Lemma resolve_bone_more w w' m b : extends w w' -> resolve_bone w m = Some b -> resolve_bone w' m = Some b.
Proof.
  intros X. unfold resolve_bone. destruct m as [[k i]|]; [|auto]. destruct k; auto.
  - destruct (getz (w_matrices w) i) as [d|] eqn:G; [|discriminate]. destruct (resolve_matrix w d) as [D|] eqn:E; [|discriminate]. pose proof (resolve_matrix_more _ _ _ _ X E) as E'. destruct X as (? & ? & ? & _ & -> & _). rewrite (getz_more _ _ _ _ G), E'. auto.
  - destruct (getz (w_sqts w) i) as [d|] eqn:G; [|discriminate]. destruct (resolve_sqt w d) as [D|] eqn:E; [|discriminate]. pose proof (resolve_sqt_more _ _ _ _ X E) as E'. destruct X as (? & ? & ? & _ & _ & ->). rewrite (getz_more _ _ _ _ G), E'. auto.
Qed.
Lemma extends_refl w : extends w w.
Proof. exists [], [], []. rewrite !app_nil_r. auto. Qed.
Lemma extends_trans w1 w2 w3 : extends w1 w2 -> extends w2 w3 -> extends w1 w3.
Proof. intros (a & b & c & E1 & E2 & E3) (a' & b' & c' & F1 & F2 & F3). exists (a ++ a'), (b ++ b'), (c ++ c'). rewrite F1, F2, F3, E1, E2, E3, <- !app_assoc. auto. Qed.

(** Everything in the world belongs to one of the bones. *)
Definition only (w : W) (bs : list (option (@bone slot))) : Prop :=
  (forall s, In s (w_splines w) -> exists b, In (Some b) bs /\ In s (bone_slots b)) /\
  (forall d, In d (w_matrices w) -> exists D, resolve_matrix w d = Some D /\ In (Some (inl D)) bs) /\
  (forall d, In d (w_sqts w) -> exists D, resolve_sqt w d = Some D /\ In (Some (inr D)) bs).
Lemma bones_in_world : forall bs, exists (w : W) refs, map_all (resolve_bone w) refs = Some bs /\ only w bs /\ w_overshoots w = [] /\ w_eases w = [] /\ w_springs w = [] /\ w_rigs w = [] /\ w_time w = 0%Z.
Proof.
  induction bs as [|x bs IH].
  - exists (World [] [] [] [] [] [] [] [] 0%Z), []. repeat split; intros ? [].
  - destruct IH as (w & refs & E & (O1 & O2 & O3) & Z1 & Z2 & Z3 & Z4 & Z5).
    assert (MONO : forall w', extends w w' -> map_all (resolve_bone w') refs = Some bs). { intros w' X. eapply map_all_more; [|exact E]. intros m b. now apply resolve_bone_more. }
    destruct x as [[D|D]|].
    + destruct (ops_in_world (md_ops D) (w_splines w)) as [ops R]. specialize (R []). rewrite app_nil_r in R. set (d := MData (md_matrix D) (md_scale D) ops).
      set (w' := World (w_splines w ++ op_slots (md_ops D)) (w_consts w) (w_overshoots w) (w_eases w) (w_springs w) (w_matrices w ++ [d]) (w_sqts w) (w_rigs w) (w_time w)).
      assert (X : extends w w') by (exists (op_slots (md_ops D)), [d], []; rewrite app_nil_r; auto).
      assert (RD : resolve_matrix w' d = Some D) by (unfold resolve_matrix; cbn [d w' md_ops md_matrix md_scale w_splines]; rewrite R; now destruct D).
      exists w', (Some (Ref KMatrix (len (w_matrices w))) :: refs). split; [|split; [split; [|split]|auto]].
      * assert (GD : getz (w_matrices w') (len (w_matrices w)) = Some d) by (cbn [w' w_matrices]; rewrite getz_app2, Z.sub_diag by lia; reflexivity). assert (RB : resolve_bone w' (Some (Ref KMatrix (len (w_matrices w)))) = Some (Some (inl D))) by (cbn [resolve_bone]; rewrite GD; cbv beta iota; rewrite RD; reflexivity).
        cbn [map_all]. now rewrite (MONO _ X), RB.
      * intros s I. cbn [w' w_splines] in I. apply in_app_or in I as [I|I]; [destruct (O1 s I) as (b & B1 & B2); exists b; split; [now right|exact B2]|exists (inl D); split; [now left|exact I]].
      * intros y I. cbn [w' w_matrices] in I. apply in_app_or in I as [I|[<-|[]]]; [destruct (O2 y I) as (Y & B1 & B2); exists Y; split; [exact (resolve_matrix_more _ _ _ _ X B1)|now right]|exists D; split; [exact RD|now left]].
      * intros y I. destruct (O3 y I) as (Y & B1 & B2). exists Y; split; [exact (resolve_sqt_more _ _ _ _ X B1)|now right].
    + destruct (ops_in_world (qd_ops D) (w_splines w)) as [ops R]. specialize (R []). rewrite app_nil_r in R. set (d := QData (qd_matrix D) (qd_rotation D) (qd_scale D) ops).
      set (w' := World (w_splines w ++ op_slots (qd_ops D)) (w_consts w) (w_overshoots w) (w_eases w) (w_springs w) (w_matrices w) (w_sqts w ++ [d]) (w_rigs w) (w_time w)).
      assert (X : extends w w') by (exists (op_slots (qd_ops D)), [], [d]; rewrite app_nil_r; auto).
      assert (RD : resolve_sqt w' d = Some D) by (unfold resolve_sqt; cbn [d w' qd_ops qd_matrix qd_rotation qd_scale w_splines]; rewrite R; now destruct D).
      exists w', (Some (Ref KSqt (len (w_sqts w))) :: refs). split; [|split; [split; [|split]|auto]].
      * assert (GD : getz (w_sqts w') (len (w_sqts w)) = Some d) by (cbn [w' w_sqts]; rewrite getz_app2, Z.sub_diag by lia; reflexivity). assert (RB : resolve_bone w' (Some (Ref KSqt (len (w_sqts w)))) = Some (Some (inr D))) by (cbn [resolve_bone]; rewrite GD; cbv beta iota; rewrite RD; reflexivity).
        cbn [map_all]. now rewrite (MONO _ X), RB.
      * intros s I. cbn [w' w_splines] in I. apply in_app_or in I as [I|I]; [destruct (O1 s I) as (b & B1 & B2); exists b; split; [now right|exact B2]|exists (inr D); split; [now left|exact I]].
      * intros y I. destruct (O2 y I) as (Y & B1 & B2). exists Y; split; [exact (resolve_matrix_more _ _ _ _ X B1)|now right].
      * intros y I. cbn [w' w_sqts] in I. apply in_app_or in I as [I|[<-|[]]]; [destruct (O3 y I) as (Y & B1 & B2); exists Y; split; [exact (resolve_sqt_more _ _ _ _ X B1)|now right]|exists D; split; [exact RD|now left]].
    + exists w, (None :: refs). split; [cbn [map_all resolve_bone]; now rewrite E|]. split; [|auto]. split; [|split].
      * intros s I. destruct (O1 s I) as (b & B1 & B2). exists b. split; [now right|exact B2].
      * intros y I. destruct (O2 y I) as (Y & B1 & B2). exists Y. split; [exact B1|now right].
      * intros y I. destruct (O3 y I) as (Y & B1 & B2). exists Y. split; [exact B1|now right].
Qed.

(** ** What a rig's frames need of its parts *)
Notation plays delta := (maybe_bone_frame spline_class (advance_slot delta)).
Lemma ops_advance_slots delta ops ops' : map_all (op_advance (advance_slot delta)) ops = Some ops' -> forall s, In s (op_slots ops) -> exists s', advance_slot delta s = Some s' /\ In s' (op_slots ops').
Proof.
  intros H. apply map_all_iff in H. induction H as [|o o' ops ops' E H IH]; intros s I; [destruct I|]. cbn [op_slots flat_map] in *. apply in_app_or in I as [I|I].
  - unfold op_advance in E. destruct (op_motivator o) as [s0|]; [|destruct I]. destruct I as [<-|[]]. destruct (advance_slot delta s0) as [s'|] eqn:A; [|discriminate]. injection E as <-. exists s'. split; [reflexivity|]. cbn [op_motivator]. now left.
  - destruct (IH s I) as (s' & A & I'). exists s'. split; [exact A|]. apply in_or_app. now right.
Qed.
Lemma bone_frame_slots delta b b' : bone_frame spline_class (advance_slot delta) b = Some b' -> forall s, In s (bone_slots b) -> exists s', advance_slot delta s = Some s' /\ In s' (bone_slots b').
Proof.
  destruct b as [d|d]; cbn [bone_frame bone_slots].
  - unfold mdata_frame. destruct (map_all _ (md_ops d)) as [ops|] eqn:E; [|discriminate]. unfold mdata_update. destruct (calculate_result_matrix _ _) as [r|]; [|discriminate]. intros [= <-]. exact (ops_advance_slots _ _ _ E).
  - unfold qdata_frame. destruct (map_all _ (qd_ops d)) as [ops|] eqn:E; [|discriminate]. unfold qdata_update. destruct (sqt_steps _ _ _) as [[[t q] z]|]; [|discriminate]. destruct (qnormalize q); [|discriminate]. intros [= <-]. exact (ops_advance_slots _ _ _ E).
Qed.
Lemma rig_bones delta d d' : rig_plays fm delta d = Some d' -> forall b, In (Some b) (motivators d) -> exists b', bone_frame spline_class (advance_slot delta) b = Some b' /\ In (Some b') (motivators d').
Proof.
  unfold rig_plays, rig_data_frame. destruct (map_all _ (motivators d)) as [ms|] eqn:E; [|discriminate]. unfold update_global_transforms. cbv zeta. destruct (global_loop _ _ _ _ _ _) as [[g r]|]; [|discriminate]. intros [= <-] b I. cbn [motivators].
  apply In_getz in I as [i G]. destruct (map_all_getz _ _ _ E i _ G) as (y & F & G'). cbn [maybe_bone_frame] in F. destruct (bone_frame _ _ b) as [b'|]; [|discriminate]. injection F as <-. exists b'. split; [reflexivity|]. now apply getz_in in G'.
Qed.
Lemma rig_parts : forall deltas d, frames (rig_plays fm) deltas d <> None -> forall b, In (Some b) (motivators d) ->
  (forall s, In s (bone_slots b) -> frames advance_slot deltas s <> None) /\
  match b with inl m => frames matrix_plays deltas m <> None | inr m => frames sqt_plays deltas m <> None end.
Proof.
  induction deltas as [|delta deltas IH]; intros d H b I; [split; [discriminate|destruct b; discriminate]|]. cbn [frames] in H. destruct (rig_plays fm delta d) as [d'|] eqn:E; [|congruence]. destruct (rig_bones _ _ _ E b I) as (b' & F & I'). destruct (IH d' H b' I') as [A B]. split.
  - intros s J. destruct (bone_frame_slots _ _ _ F s J) as (s' & S & J'). cbn [frames]. rewrite S. now apply A.
  - destruct b as [m|m]; cbn [bone_frame frames] in *.
    + unfold matrix_plays at 1. destruct (mdata_frame _ _ m) as [m'|]; [|discriminate]. injection F as <-. exact B.
    + unfold sqt_plays at 1. destruct (qdata_frame _ _ m) as [m'|]; [|discriminate]. injection F as <-. exact B.
Qed.
Lemma slots_run : forall dts ev, (forall s, In s ev -> frames advance_slot (map IZR dts) s <> None) -> iterate (fun dt => EvaluatorModel.advance_frame (IZR dt)) dts ev <> None.
Proof.
  induction dts as [|dt dts IH]; intros ev H; cbn [iterate]; [discriminate|]. rewrite advance_frame_slots. destruct (all_some_all (map (advance_slot (IZR dt)) ev)) as [r E].
  { intros o I. apply in_map_iff in I as (s & <- & I). specialize (H s I). cbn [map frames] in H. destruct (advance_slot (IZR dt) s); congruence. }
  rewrite E. apply IH. intros s' I. apply In_getz in I as [i G]. rewrite (all_some_map_getz _ _ _ E) in G. destruct (getz ev i) as [s|] eqn:Gs; [|discriminate]. specialize (H s (getz_in _ _ _ Gs)). cbn [map frames] in H. now rewrite G in H.
Qed.
Lemma empty_run {A} (f : Z -> list A -> option (list A)) : (forall dt, f dt [] = Some []) -> forall dts, iterate f dts [] <> None.
Proof. intros H. induction dts as [|dt dts IH]; cbn [iterate]; [discriminate|]. now rewrite H. Qed.

(** ** C113 *)
(** Whatever state a rig is in, if it can be advanced on its own then it is one of a world on
    which any engine that has handed out every kind of processor advances it. *)
Theorem C113_realized : forall ops e tr dts D, erun prio engine_init ops = Some (e, tr) -> ~ In EReset ops -> library ops -> (forall k, made tr k) ->
  frames (rig_plays fm) (map IZR dts) D <> None -> clock_runs dts 0 ->
  exists w w' d, getz (w_rigs w) 0 = Some d /\ resolve_rig w d = Some D /\ world_frames fm e dts w = Some w'.
Proof.
  intros ops e tr dts D H NR LIB MK F C. destruct (bones_in_world (motivators D)) as (w0 & refs & E & (O1 & O2 & O3) & Z1 & Z2 & Z3 & Z4 & Z5).
  set (d := RigData refs (globals D) (weights D) (defining D) (current D) (root_bone D) (root_transform D) (end_time D)).
  set (w := World (w_splines w0) (w_consts w0) (w_overshoots w0) (w_eases w0) (w_springs w0) (w_matrices w0) (w_sqts w0) [d] 0%Z).
  assert (RD : resolve_rig w d = Some D). { unfold resolve_rig. cbn [d motivators]. change (map_all (resolve_bone w) refs) with (map_all (resolve_bone w0) refs). rewrite E. cbn. now destruct D. }
  pose proof (rig_parts _ _ F) as PARTS. destruct (C113_runs fm _ _ _ dts w H NR LIB MK) as [w' R].
  - split; [|cbn [w w_overshoots w_eases w_springs]; rewrite Z1, Z2, Z3; split; [|split]; apply empty_run; reflexivity].
    apply slots_run. intros s I. destruct (O1 s I) as (b & B1 & B2). now apply (PARTS b B1).
  - split; [|split].
    + intros m I. destruct (O2 m I) as (M & R & I'). exists M. split; [exact R|]. exact (proj2 (PARTS _ I')).
    + intros m I. destruct (O3 m I) as (M & R & I'). exists M. split; [exact R|]. exact (proj2 (PARTS _ I')).
    + intros m [<-|[]]. exists D. auto.
  - exact C.
  - exists w, w', d. auto.
Qed.
End Cases.
Print Assumptions C113_realized.

(** An engine that has handed out every kind of processor, the rig's first. *)
Definition every_kind : list eop := map (fun t => ERegister t t) [0; 1; 2; 3; 4; 5; 6; 7]%nat ++ map EProcessor [7; 3; 6; 5; 0; 4; 1; 2]%nat.
Lemma every_kind_made : exists e tr, erun prio engine_init every_kind = Some (e, tr) /\ ~ In EReset every_kind /\ library every_kind /\ forall k, made tr k.
Proof.
  eexists. eexists. split; [vm_compute; reflexivity|]. split; [|split].
  - intros I. cbn in I. repeat (destruct I as [I|I]; [discriminate|]). exact I.
  - intros t f I. cbn in I. do 8 (destruct I as [I|I]; [injection I as <- <-; split; [reflexivity|discriminate]|]). do 8 (destruct I as [I|I]; [discriminate|]). destruct I.
  - intros k. destruct k; eexists; cbn [In number]; repeat (first [left; reflexivity|right]).
Qed.
(** C113_rig, C113_plays, C113_runs, C113_frame: the two bones of [walk], in the engine above. *)
Example C113_case : forall fm, exists e tr d0 d1 w w' d, erun prio engine_init every_kind = Some (e, tr) /\ (forall k, made tr k) /\
  rig_new (bone_class spline_class fm) walk 0 5 = Some d0 /\ blend_to_anim (bone_class spline_class fm) walk loops 5 d0 = Some d1 /\
  getz (w_rigs w) 0 = Some d /\ resolve_rig w d = Some d1 /\ world_frames fm e [1; 0; 1]%Z w = Some w'.
Proof.
  intros fm. destruct every_kind_made as (e & tr & E & NR & LIB & MK). destruct (C108_rig fm walk walk 0 5 loops (map IZR [1; 0; 1]%Z)) as (d0 & d1 & d2 & A & B & C & _).
  - intros i Hi. change (num_bones walk) with 2%Z in Hi. assert (D : (i = 0 \/ i = 1)%Z) by lia. destruct D as [-> | ->]; eexists; (split; [reflexivity|]); [now left|right; lia].
  - left. reflexivity.
  - cbn. lia.
  - cbn. lra.
  - discriminate.
  - apply walk_playable. cbn [map]. repeat constructor; lra.
  - destruct (C113_realized fm _ _ _ [1; 0; 1]%Z d1 E NR LIB MK) as (w & w' & d & G & R & F); [congruence|cbn; lia|]. exists e, tr, d0, d1, w, w', d. auto 10.
Qed.
