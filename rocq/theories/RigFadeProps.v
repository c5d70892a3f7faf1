(** C111 for rigs: a rig goes over from one animation to another. *)
From Verif Require Import RBase BaseFacts RangeModel RangeProofs CurveModel CurveProofs MathfuModel CompactSplineModel CompactSplineSpec CompactSplineProofs CompactSplineIndex EvaluatorModel EvaluatorSpec EvaluatorProofs EvaluatorPlay EvaluatorProps EvaluatorOpProps CompactSplineEvalProps OvershootModel SimpleModel SplineTargetModel SplineTargetProps MatrixModel MatrixProps SqtProps RigModel RigProps CloneModel CloneProps SplineClassModel TwinProps PlayProps EvaluatorBlendProps SplineTargetProofs SplineQueryProps OpStepProps FadeProofs FadeProps RigPlayProps.
From Coq Require Import Lia.
Local Open Scope R_scope.

(** The operations of a bone (a bone that has no motivator has none), and whether it is an SQT transform: a bone that
    has none gets the kind that the animation asks for. *)
Definition bone_ops (m : option (@bone slot)) : list (op slot) := match m with Some (inl d) => md_ops d | Some (inr d) => qd_ops d | None => [] end.
Definition bone_sqt (m : option (@bone slot)) (ma : manim (opinit range spline)) : bool := match m with Some (inl _) => false | Some (inr _) => true | None => ma_sqt ma end.
(** The state of a bone between blends. *)
Definition bone_lively (m : option (@bone slot)) : Prop :=
  ascending (map op_id (bone_ops m)) /\ Forall op_lively (bone_ops m) /\ match m with Some (inl d) => forall o, In o (md_ops d) -> matrix_type (op_type o) | _ => True end.
(** The animation can be blended to: for a matrix its operations are ones that matrices have; for an SQT transform the
    quaternion it starts with has a direction. *)
Definition bone_fadeable (p : playback) (deltas : list R) (m : option (@bone slot)) (ma : manim (opinit range spline)) : Prop :=
  ascending (map i_id (ma_ops ma)) /\ Forall (fadeable p deltas) (ma_ops ma) /\
  if bone_sqt m ma then (forall i, In i (ma_ops ma) -> rotate_op (i_type i) = false) /\ (forall vs, Forall2 starts (ma_ops ma) vs -> directed (ma_ops ma) vs)
  else forall i, In i (ma_ops ma) -> matrix_type (i_type i).
(** The operations that the blend starts from: those of a quaternion are turned to their negatives if that is nearer. *)
Definition starts_from (m : option (@bone slot)) (ma : manim (opinit range spline)) (start : list (op slot)) : Prop :=
  match m with
  | Some (inr d) => start = qd_ops d /\ alongside d (ma_ops ma) (fun c => 0 <= c) \/ Forall2 turned (qd_ops d) start /\ alongside d (ma_ops ma) (fun c => c < 0)
  | _ => start = bone_ops m
  end.
(** What a bone shows: the transform of its operations. *)
Definition bone_transform (b : @bone slot) (t : mat4) : Prop :=
  match b with
  | inl d => exists es, Forall2 (fun o e => elementary (op_type o) (op_value spline_class o) = Some e) (md_ops d) es /\ t = product es
  | inr d => transform_of (qd_ops d) t
  end.

Lemma bone_transform_affine b t : bone_transform b t -> affine4 t.
Proof.
  destruct b as [d|d]; cbn [bone_transform].
  - intros (es & F & ->). induction F as [|o e l es E F IH]; [cbn; unfold affine4; cbn; auto|]. cbn [product fold_right]. apply affine_mul; [eapply elementary_affine; exact E|exact IH].
  - intros (u & r & _ & _ & ->). unfold translating, rotating, scaling, rows. repeat apply affine_mul; unfold affine4; cbn; auto.
Qed.

Section Rig.
Context (from_matrix : mat3 -> quat).
Notation cls := (bone_class spline_class from_matrix).
(** One bone. *)
Definition faded p deltas (m : option (@bone slot)) ma (b1 : @bone slot) : Prop :=
  exists start, starts_from m ma start /\
    (forall id o0, find_op id start = Some o0 -> exists o, find_op id (bone_ops (Some b1)) = Some o /\ op_type o = op_type o0 /\ where_it_was o0 (find_init id (ma_ops ma)) p o) /\
    forall b2, frames bone_plays deltas b1 = Some b2 ->
      bone_lively (Some b2) /\ bone_sqt (Some b2) ma = bone_sqt m ma /\ (deltas <> [] -> bone_transform b2 (b_value cls b2)) /\
      (over p deltas -> forall id, landed p deltas (find_op id start) (find_init id (ma_ops ma)) (find_op id (bone_ops (Some b2)))).
Lemma bone_fades p deltas m ma : bone_lively m -> bone_fadeable p deltas m ma -> fade_time p deltas -> deltas <> [] ->
  exists b0 b1, start_of cls m ma = Some b0 /\ b_blend cls (ma_ops ma) p b0 = Some b1 /\ faded p deltas m ma b1 /\ (bone_sqt m ma = false -> exists b2, frames bone_plays deltas b1 = Some b2).
Proof.
  intros LV (AI & FD & TY) FT ND.
  assert (ST : exists b0, start_of cls m ma = Some b0 /\ bone_ops (Some b0) = bone_ops m /\ (if bone_sqt m ma then exists d, b0 = inr d else exists d, b0 = inl d) /\ bone_lively (Some b0)).
  { destruct m as [[d|d]|]; cbn [start_of bone_sqt].
    - exists (inl d). eauto.
    - exists (inr d). eauto.
    - cbn [bone_class b_init]. destruct (ma_sqt ma).
      + destruct blank_sqt as (d0 & E0 & O0). rewrite E0. exists (inr d0). unfold bone_lively. cbn [bone_ops]. rewrite O0. split; [reflexivity|]. split; [reflexivity|]. split; [eauto|]. split; [constructor|]. split; [constructor|exact Logic.I].
      + eexists. split; [reflexivity|]. cbn. split; [reflexivity|]. split; [eauto|]. unfold bone_lively. cbn. split; [constructor|]. split; [constructor|tauto]. }
  destruct ST as (b0 & S0 & O0 & KD & L0). exists b0.
  destruct (bone_sqt m ma) eqn:SQ; destruct KD as [d ->].
  - destruct L0 as (A0 & F0 & _). cbn [bone_ops] in *. destruct TY as (RT & DI). destruct (C111_sqt d (ma_ops ma) p deltas A0 F0 AI FD RT DI FT) as (d1 & start & E1 & TU & WW & AF). exists (inr d1). cbn [bone_class b_blend]. rewrite E1.
    split; [exact S0|]. split; [reflexivity|]. split; [|discriminate]. exists start. split.
    { unfold starts_from. destruct m as [[dd|dd]|]; cbn [bone_sqt bone_ops start_of] in *; [discriminate| |].
      - injection S0 as ->. exact TU.
      - rewrite O0 in TU. destruct TU as [[TU _]|[TU _]]; [exact TU|now inversion TU]. }
    split; [exact WW|]. intros b2 F2. rewrite frames_inr in F2. destruct (frames sqt_plays deltas d1) as [d2|]; [|discriminate]. injection F2 as <-. destruct (AF d2 eq_refl) as ((A2 & L2) & TR & LD). split; [repeat split; assumption|]. split; [now rewrite SQ|]. split; [exact TR|exact LD].
  - destruct L0 as (A0 & F0 & T0). cbn [bone_ops] in *. destruct (C111_matrix d (ma_ops ma) p deltas A0 F0 T0 AI FD TY FT ND) as (d1 & d2 & E1 & F2 & WW & LV2 & PR & LD). exists (inl d1). cbn [bone_class b_blend]. rewrite E1.
    split; [exact S0|]. split; [reflexivity|]. split; [|intros _; exists (inl d2); rewrite frames_inl, F2; reflexivity]. exists (md_ops d). split; [unfold starts_from; destruct m as [[dd|dd]|]; [exact O0|discriminate SQ|exact O0]|]. split; [exact WW|]. intros b2 F. rewrite frames_inl, F2 in F. injection F as <-. split; [exact LV2|]. split; [now rewrite SQ|]. split; [intros _; exact PR|exact LD].
Qed.

(** Frames of a rig are frames of its bones. *)
Lemma global_loop_len local parents root : forall fuel i st st', global_loop fuel i local parents root st = Some st' -> len (fst st') = len (fst st).
Proof.
  induction fuel as [|f IH]; intros i st st' E; cbn [global_loop] in E; [now injection E as <-|]. destruct (local i) as [m|]; [|discriminate]. destruct (global_step _ _ _ _ _) as [st1|] eqn:G; [|discriminate]. rewrite (IH _ _ _ E).
  unfold global_step in G. destruct st as [out rt]. destruct (getz parents i) as [q|]; [|discriminate]. cbv zeta in G. destruct (if (i =? root)%Z then _ else _) as [v|]; [|discriminate]. destruct (setz out i v) as [out'|] eqn:SZ; [|discriminate]. injection G as <-. cbn [fst]. exact (setz_len _ _ _ _ SZ).
Qed.
Lemma rig_frame_inv x d d2 : rig_plays from_matrix x d = Some d2 -> defining d2 = defining d /\ root_bone d2 = root_bone d /\ weights d2 = weights d /\ len (motivators d2) = len (motivators d) /\ len (globals d2) = len (globals d) /\
  map_all (maybe_bone_frame spline_class (advance_slot x)) (motivators d) = Some (motivators d2) /\
  update_global_transforms cls (RigData (motivators d2) (globals d) (weights d) (defining d) (current d) (root_bone d) (root_transform d) (end_time d)) = Some d2.
Proof.
  unfold rig_plays, rig_data_frame. destruct (map_all _ _) as [ms|] eqn:E; [|discriminate]. intros U. pose proof (map_all_len _ _ _ E) as L. pose proof U as U0. unfold update_global_transforms in U. cbn [weights motivators defining globals root_bone root_transform current end_time] in U. cbv zeta in U.
  destruct (global_loop _ _ _ _ _ _) as [[g r]|] eqn:GL; [|discriminate]. injection U as <-. apply global_loop_len in GL. cbn [fst] in GL. cbn [motivators defining root_bone weights globals]. repeat (split; [assumption || reflexivity|]). exact U0.
Qed.
Lemma rig_frames : forall l d d2, frames (rig_plays from_matrix) l d = Some d2 ->
  defining d2 = defining d /\ root_bone d2 = root_bone d /\ weights d2 = weights d /\ len (motivators d2) = len (motivators d) /\ len (globals d2) = len (globals d) /\
  (forall i b, getz (motivators d) i = Some (Some b) -> exists b', frames bone_plays l b = Some b' /\ getz (motivators d2) i = Some (Some b')) /\
  (l <> [] -> exists gs cu rt et, len gs = len (globals d) /\ update_global_transforms cls (RigData (motivators d2) gs (weights d2) (defining d2) cu (root_bone d2) rt et) = Some d2).
Proof.
  induction l as [|x l IH] using rev_ind; intros d d2 E.
  - injection E as <-. repeat (split; [reflexivity|]). split; [|congruence]. intros i b G. exists b. split; [reflexivity|exact G].
  - rewrite frames_app in E. destruct (frames (rig_plays from_matrix) l d) as [d1|] eqn:F1; [|discriminate]. destruct (IH _ _ F1) as (D1 & R1 & W1 & L1 & G1 & B1 & _). destruct (rig_frame_inv _ _ _ E) as (D2 & R2 & W2 & L2 & G2 & MA & U).
    split; [congruence|]. split; [congruence|]. split; [congruence|]. split; [congruence|]. split; [congruence|]. split.
    + intros i b G. destruct (B1 i b G) as (b1 & Fb & Gb). destruct (map_all_getz _ _ _ MA i _ Gb) as (y & Ey & Gy). cbn [maybe_bone_frame] in Ey. destruct (bone_frame spline_class (advance_slot x) b1) as [b'|] eqn:FB; [|discriminate]. injection Ey as <-. exists b'. rewrite frames_app, Fb. split; [exact FB|exact Gy].
    + intros _. exists (globals d1), (current d1), (root_transform d1), (end_time d1). split; [exact G1|]. rewrite D2, R2, W2. exact U.
Qed.

(** The state of a rig between blends. *)
Definition rig_lively (d : rig_data (@bone slot) (opinit range spline)) : Prop :=
  parents_first (ra_parents (defining d)) (num_bones (defining d)) /\ len (globals d) = num_bones (defining d) /\ (num_bones (defining d) <= len (motivators d))%Z /\
  forall m, In m (motivators d) -> bone_lively m.

Lemma fadeable_prefix p l r i : fadeable p (l ++ r) i -> fadeable p l i.
Proof. intros (ID & FD). split; [exact ID|]. destruct (i_union i); auto. destruct FD as (A & B & C). apply Forall_app in B. tauto. Qed.
Lemma bone_fadeable_prefix p l r m ma : bone_fadeable p (l ++ r) m ma -> bone_fadeable p l m ma.
Proof. intros (A & F & T). split; [exact A|]. split; [|exact T]. eapply Forall_impl; [|exact F]. intros i. apply fadeable_prefix. Qed.
Lemma fade_time_prefix p l r : fade_time p (l ++ r) -> fade_time p l.
Proof. intros (A & F). apply Forall_app in F. split; tauto. Qed.
Lemma in_getz {A} (l : list A) x : In x l -> exists i, getz l i = Some x.
Proof. intros IN. apply In_nth_error in IN as [k Ek]. exists (Z.of_nat k). unfold getz. replace (Z.of_nat k <? 0)%Z with false by lia. now rewrite Nat2Z.id. Qed.
Lemma getz_in {A} (l : list A) i x : getz l i = Some x -> In x l.
Proof. unfold getz. destruct (i <? 0)%Z; [discriminate|]. apply nth_error_In. Qed.

(** C111 for rigs.  The blend succeeds; every bone is blended ([faded] says what that means for its operations, during the blend and after it).
    The frames fail only if the frames of a bone do, and those of a matrix do not.  After every frame the bones' transforms
    are those of their operations, and the rig shows their products along the hierarchy.  The rig can be blended again. *)
Theorem C111_rig : forall d anim t p deltas, rig_lively d ->
  matches_hierarchy anim (defining d) = Some true \/ (num_bones (defining d) = 1 /\ 1 <= num_bones anim)%Z ->
  (-2147483648 <= t + ra_end anim <= 2147483647)%Z -> fade_time p deltas -> deltas <> [] ->
  (forall i m ma, (0 <= i < num_bones (defining d))%Z -> getz (motivators d) i = Some m -> getz (ra_anims anim) i = Some ma -> bone_fadeable p deltas m ma) ->
  exists d1, blend_to_anim cls anim p t d = Some d1 /\ len (motivators d1) = num_bones (defining d) /\
    (forall i, (0 <= i < num_bones (defining d))%Z -> exists m ma b, getz (motivators d) i = Some m /\ getz (ra_anims anim) i = Some ma /\ getz (motivators d1) i = Some (Some b) /\ faded p deltas m ma b /\ (bone_sqt m ma = false -> exists b2, frames bone_plays deltas b = Some b2)) /\
    ((forall i b, getz (motivators d1) i = Some (Some b) -> exists b2, frames bone_plays deltas b = Some b2) -> exists d2, frames (rig_plays from_matrix) deltas d1 = Some d2) /\
    forall d2, frames (rig_plays from_matrix) deltas d1 = Some d2 ->
      rig_lively d2 /\ defining d2 = defining d /\
      (forall i b, getz (motivators d1) i = Some (Some b) -> exists b2, frames bone_plays deltas b = Some b2 /\ getz (motivators d2) i = Some (Some b2)) /\
      exists local, (forall i, (0 <= i < num_bones (defining d))%Z -> exists b2, getz (motivators d2) i = Some (Some b2) /\ bone_transform b2 (local i)) /\
        (forall i, (0 <= i < num_bones (defining d))%Z -> exists l g, lineage (ra_parents (defining d)) i l /\ getz (globals d2) i = Some g /\ from_affine g = along (root_bone d) local l) /\
        ((0 <= root_bone d < num_bones (defining d))%Z -> from_affine (root_transform d2) = local (root_bone d)).
Proof.
  intros d anim t p deltas (PF & LG & LM & LV) MH TI FT ND FD. set (n := num_bones (defining d)) in *. assert (N0 : (0 <= n)%Z) by apply num_bones_range.
  assert (RS : forall i, (0 <= i < n)%Z -> getz (resize (motivators d) n None) i = getz (motivators d) i).
  { intros i Hi. unfold resize. rewrite getz_app1 by (unfold len in *; rewrite firstn_length; lia). rewrite getz_firstn. now replace (i <? Z.of_nat (Z.to_nat n))%Z with true by lia. }
  destruct (C59_accepts_partial _ _ cls d anim p t TI MH) as (d1 & E1 & L1 & _ & _ & DF1 & LW & BO).
  { intros i m ma Hi Em Ea. fold n in Hi, Em. rewrite RS in Em by exact Hi. destruct (bone_fades p deltas m ma (LV _ (getz_in _ _ _ Em)) (FD i m ma Hi Em Ea) FT ND) as (b0 & b1 & S0 & B1 & _). eauto. }
  fold n in L1, BO.
  assert (GB : forall i, (0 <= i < n)%Z -> exists m ma b, getz (motivators d) i = Some m /\ getz (ra_anims anim) i = Some ma /\ getz (motivators d1) i = Some (Some b) /\ faded p deltas m ma b /\ (bone_sqt m ma = false -> exists b2, frames bone_plays deltas b = Some b2) /\
     forall l r, deltas = l ++ r -> l <> [] -> faded p l m ma b).
  { intros i Hi. destruct (BO i Hi) as (m & ma & b0 & b & Em & Ea & ST & BL & G). rewrite RS in Em by exact Hi. destruct (bone_fades p deltas m ma (LV _ (getz_in _ _ _ Em)) (FD i m ma Hi Em Ea) FT ND) as (b0' & b' & S0 & B1 & FA & SU).
    rewrite ST in S0. injection S0 as <-. rewrite BL in B1. injection B1 as <-. exists m, ma, b. repeat (split; [assumption|]). intros l r EQ NL. pose proof (FD i m ma Hi Em Ea) as FD'. rewrite EQ in FD', FT.
    destruct (bone_fades p l m ma (LV _ (getz_in _ _ _ Em)) (bone_fadeable_prefix _ _ _ _ _ FD') (fade_time_prefix _ _ _ FT) NL) as (b0' & b' & S0 & B1 & FA' & _). rewrite ST in S0. injection S0 as <-. rewrite BL in B1. injection B1 as <-. exact FA'. }
  assert (G1 : len (globals d1) = n /\ root_bone d1 = root_bone d).
  { unfold blend_to_anim in E1. destruct (add_int _ _); [|discriminate]. cbv zeta in E1. destruct (fits _ _) as [[]|]; try discriminate. destruct (blend_bones _ _ _ _ _ _ _ _); [|discriminate]. injection E1 as <-. cbn [globals root_bone]. auto. }
  destruct G1 as (G1 & RB1).
  assert (AFF : forall l r (d2 : rig_data (@bone slot) (opinit range spline)), deltas = l ++ r -> l <> [] -> len (motivators d2) = n -> (forall i b, getz (motivators d1) i = Some (Some b) -> exists b', frames bone_plays l b = Some b' /\ getz (motivators d2) i = Some (Some b')) -> forall b, In (Some b) (motivators d2) -> bone_transform b (b_value cls b) /\ bone_lively (Some b)).
  { intros l r d2 EQ NL L2 B2 b IN. destruct (in_getz _ _ IN) as [i Gi]. pose proof (getz_Some _ _ _ Gi) as HI. rewrite L2 in HI. destruct (GB i HI) as (m & ma & b1 & _ & _ & Gb & _ & _ & PR). destruct (PR l r EQ NL) as (start & _ & _ & AF). destruct (B2 i b1 Gb) as (b' & Fb & Gb'). rewrite Gi in Gb'. injection Gb' as <-. destruct (AF b Fb) as (A & _ & B & _). split; [now apply B|exact A]. }
  assert (HAVE : forall i mb, getz (motivators d1) i = Some mb -> exists b, mb = Some b).
  { intros i mb G. pose proof (getz_Some _ _ _ G) as HI. rewrite L1 in HI. destruct (GB i HI) as (m & ma & b & _ & _ & Gb & _). rewrite G in Gb. injection Gb as ->. eauto. }
  exists d1. split; [exact E1|]. split; [exact L1|]. split; [intros i Hi; destruct (GB i Hi) as (m & ma & b & A1 & A2 & A3 & A4 & A5 & _); exists m, ma, b; auto|]. split.
  { intros SU. assert (INV : forall l r, deltas = l ++ r -> exists d2, frames (rig_plays from_matrix) l d1 = Some d2).
    { induction l as [|x l IH] using rev_ind; intros r EQ; [exists d1; reflexivity|]. destruct (IH (x :: r)) as (d2 & F2); [now rewrite <- app_assoc in EQ|]. destruct (rig_frames _ _ _ F2) as (D2 & R2 & W2 & M2 & GG2 & B2 & _).
      assert (SB : forall i b, getz (motivators d1) i = Some (Some b) -> exists b1 b', frames bone_plays l b = Some b1 /\ getz (motivators d2) i = Some (Some b1) /\ bone_plays x b1 = Some b').
      { intros i b G. destruct (B2 i b G) as (b1 & F1 & Gb1). destruct (SU i b G) as (b2 & Fall). exists b1. rewrite EQ in Fall. clear -F1 Gb1 Fall. assert (FA : forall l' d', frames bone_plays ((l ++ [x]) ++ l') b = Some d' -> exists b', bone_plays x b1 = Some b').
        { intros l'. rewrite <- app_assoc. cbn [app]. clear -F1. revert b F1. induction l as [|y l IH]; intros b F1 d' E; cbn [frames app] in *; [injection F1 as <-; destruct (bone_plays x b); [eauto|discriminate]|]. destruct (bone_plays y b) as [b'|]; [|discriminate]. eapply IH; eauto. }
        destruct (FA _ _ Fall) as [b' Eb]. exists b'. auto. }
      assert (MA : exists ms, map_all (maybe_bone_frame spline_class (advance_slot x)) (motivators d2) = Some ms).
      { apply map_all_succeeds. intros mb IN. destruct (in_getz _ _ IN) as [i Gi]. pose proof (getz_Some _ _ _ Gi) as HI. rewrite M2, L1 in HI. destruct (getz_in_range (motivators d1) i) as [mb1 G1i]; [lia|]. destruct (HAVE i mb1 G1i) as [b ->]. destruct (SB i b G1i) as (b1 & b' & _ & Gb1 & Eb). rewrite Gi in Gb1. injection Gb1 as ->. cbn [maybe_bone_frame]. unfold bone_plays in Eb. rewrite Eb. eauto. }
      destruct MA as [ms MA]. pose proof (map_all_len _ _ _ MA) as LMS.
      set (dd := RigData ms (globals d2) (weights d2) (defining d2) (current d2) (root_bone d2) (root_transform d2) (end_time d2)).
      destruct (C56_single _ _ cls dd) as (d3 & E3 & _); cbn [weights defining globals motivators root_bone dd]; rewrite ?W2, ?D2, ?DF1; try assumption; try (fold n; lia).
      + intros b IN. eapply bone_transform_affine. apply (AFF (l ++ [x]) r dd EQ); [now destruct l|cbn [motivators dd]; lia| |exact IN]. cbn [motivators dd]. intros i b1 G. destruct (SB i b1 G) as (b2 & b' & F' & Gb2 & Eb). destruct (map_all_getz _ _ _ MA i _ Gb2) as (y & Ey & Gy). cbn [maybe_bone_frame] in Ey. unfold bone_plays in Eb. rewrite Eb in Ey. injection Ey as <-. exists b'. rewrite frames_app, F'. split; [exact Eb|exact Gy].
      + exists d3. rewrite frames_app, F2. unfold rig_plays, rig_data_frame. rewrite MA. exact E3. }
    apply (INV deltas []). now rewrite app_nil_r. }
  intros d2 F2. destruct (rig_frames _ _ _ F2) as (D2 & R2 & W2 & M2 & GG2 & B2 & UP). assert (EQ : deltas = deltas ++ []) by now rewrite app_nil_r. pose proof (AFF deltas [] d2 EQ ND ltac:(lia) B2) as AF.
  destruct (UP ND) as (gs & cu & rt & et & LGS & U). rewrite D2, W2, R2, DF1, RB1 in U.
  assert (NS : forall i, (0 <= i < n)%Z -> exists b2, getz (motivators d2) i = Some (Some b2)) by (intros i Hi; destruct (GB i Hi) as (_ & _ & b & _ & _ & Gb & _); destruct (B2 i b Gb) as (b2 & _ & G2); eauto).
  destruct (C56_single _ _ cls (RigData (motivators d2) gs (weights d1) (defining d) cu (root_bone d) rt et)) as (d3 & E3 & L3 & DI & RT & _); cbn [weights defining globals motivators root_bone] in *; fold n; try assumption; try lia.
  { intros b IN. eapply bone_transform_affine. apply AF. exact IN. }
  rewrite U in E3. injection E3 as <-. fold n in DI, RT, L3. split.
  { unfold rig_lively. rewrite D2, DF1. fold n. split; [exact PF|]. split; [exact L3|]. split; [lia|]. intros m IN. destruct (in_getz _ _ IN) as [i Gi]. pose proof (getz_Some _ _ _ Gi) as HI. destruct (NS i) as [b2 Gb]; [lia|]. rewrite Gi in Gb. injection Gb as ->. apply AF. exact IN. }
  split; [congruence|]. split; [exact B2|]. eexists. split; [|split; [exact DI|exact RT]]. intros i Hi. destruct (NS i Hi) as [b2 G2]. exists b2. split; [exact G2|]. unfold shown. cbn [motivators]. rewrite G2. apply AF. eapply getz_in; exact G2.
Qed.
End Rig.
Print Assumptions C111_rig.

(** ** Concrete cases *)
(** A rig of two bones that goes over from one animation to another: an operation that follows a spline gets a constant, one that
    has a constant gets a spline, one is new. *)
Definition wave : manim (opinit range spline) := MAnim false [OpInit None 0 TranslateX (UValue 2); OpInit (Some (Rg (-3) 3)) 1 RotateZ (USpline peak); OpInit None 2 ScaleY (UValue 3)].
Definition arms : rig_anim (opinit range spline) := RigAnim [swing; swing] [kInvalidBoneIdx; 0%Z] [[97%Z]; [98%Z]] 2 true.
Definition arms2 : rig_anim (opinit range spline) := RigAnim [wave; swing] [kInvalidBoneIdx; 0%Z] [[97%Z]; [98%Z]] 2 true.
Definition eases : playback := Playback (1 / 4) 2 (1 / 2) 0 1 true.
Definition ticks : list R := [1; 1 / 2; 1].
Lemma ticks_fade : fade_time eases ticks.
Proof. split; [cbn; lra|]. unfold ticks. repeat (constructor; [lra|]). constructor. Qed.
Lemma ticks_over : over eases ticks.
Proof. unfold over, ticks. cbn. lra. Qed.
Lemma peak_fades r id t : (id <= 254)%Z -> about_zero r -> fadeable eases ticks (OpInit (Some r) id t (USpline peak)).
Proof.
  intros ID V. split; [exact ID|]. cbn [i_union i_init]. split; [|split; [|eauto]].
  - split; [apply peak_ok|]. cbn [eases start_at peak x_granularity repeat_ blend_x playback_rate]. split; [|lra]. intros _. split; [unfold num_nodes, len; cbn; lia|]. exists 2. split; [|lra]. unfold end_x. change (back peak) with (Some (Node 2 0 0)). unfold node_x. cbn [nx peak x_granularity]. f_equal. lra.
  - unfold ticks, small_step. cbn [eases playback_rate peak x_granularity]. repeat (constructor; [lra|]). constructor.
Qed.
Lemma zero_h h : 0 < h -> about_zero (Rg (- h) h).
Proof. intros H. right. exists h. split; [exact H|reflexivity]. Qed.
Lemma swing_fades m : (exists d, m = Some (inl d)) \/ m = None -> bone_fadeable eases ticks m swing.
Proof.
  intros H. split; [cbn; repeat constructor; lia|]. split.
  - constructor; [|constructor; [split; [cbn; lia|reflexivity]|constructor]]. apply peak_fades; [lia|]. replace (-1) with (- (1)) by lra. apply zero_h. lra.
  - assert (E : bone_sqt m swing = false) by (destruct H as [[d ->]| ->]; reflexivity). rewrite E. intros o [<-|[<-|[]]]; cbn; discriminate.
Qed.
Lemma wave_fades m : (exists d, m = Some (inl d)) \/ m = None -> bone_fadeable eases ticks m wave.
Proof.
  intros H. split; [cbn; repeat constructor; lia|]. split.
  - constructor; [split; [cbn; lia|reflexivity]|]. constructor; [|constructor; [split; [cbn; lia|reflexivity]|constructor]]. apply peak_fades; [lia|]. replace (-3) with (- (3)) by lra. apply zero_h. lra.
  - assert (E : bone_sqt m wave = false) by (destruct H as [[d ->]| ->]; reflexivity). rewrite E. intros o [<-|[<-|[<-|[]]]]; cbn; discriminate.
Qed.
Lemma two_bones (P : Z -> Prop) : P 0%Z -> P 1%Z -> forall i, (0 <= i < 2)%Z -> P i.
Proof. intros A B i H. assert (C : (i = 0 \/ i = 1)%Z) by lia. destruct C as [-> | ->]; assumption. Qed.
(** The kinds of the bones after the first blend. *)
Lemma stay_matrices from_matrix d1 d2 p deltas anim (d : rig_data (@bone slot) (opinit range spline)) :
  (forall i, (0 <= i < 2)%Z -> exists m ma b, getz (motivators d) i = Some m /\ getz (ra_anims anim) i = Some ma /\ getz (motivators d1) i = Some (Some b) /\ faded from_matrix p deltas m ma b /\ (bone_sqt m ma = false -> exists b2, frames bone_plays deltas b = Some b2)) ->
  (forall i b, getz (@motivators _ (opinit range spline) d1) i = Some (Some b) -> exists b2, frames bone_plays deltas b = Some b2 /\ getz (@motivators _ (opinit range spline) d2) i = Some (Some b2)) ->
  (forall i m ma, (0 <= i < 2)%Z -> getz (motivators d) i = Some m -> getz (ra_anims anim) i = Some ma -> bone_sqt m ma = false) ->
  forall i m, (0 <= i < 2)%Z -> getz (motivators d2) i = Some m -> exists dd, m = Some (inl dd).
Proof.
  intros B F S i m Hi E. destruct (B i Hi) as (m0 & ma & b & A1 & A2 & A3 & (start & _ & _ & AF) & _). destruct (F i b A3) as (b2 & F2 & G2). rewrite E in G2. injection G2 as ->. destruct (AF b2 F2) as (_ & K & _). rewrite (S i m0 ma Hi A1 A2) in K. destruct b2 as [dd|dd]; [eauto|discriminate].
Qed.
Example C111_case : forall from_matrix, let cls := bone_class spline_class from_matrix in exists d0 d1 d2 d3 d4,
  rig_new cls arms 0 5 = Some d0 /\ blend_to_anim cls arms eases 5 d0 = Some d1 /\ frames (rig_plays from_matrix) ticks d1 = Some d2 /\
  blend_to_anim cls arms2 eases 8 d2 = Some d3 /\ frames (rig_plays from_matrix) ticks d3 = Some d4 /\ over eases ticks.
Proof.
  intros from_matrix cls. assert (PF : parents_first (ra_parents arms) 2).
  { intros i Hi. revert i Hi. apply two_bones; eexists; (split; [reflexivity|]); [now left|right; lia]. }
  destruct (C56_new _ _ cls arms 0 5 PF) as (d0 & E0 & DF & RB & CU & ET & WT & LM & GM0 & RT). assert (GM : forall i, (0 <= i < num_bones arms)%Z -> getz (motivators d0) i = Some None) by (intros i Hi; apply (GM0 i Hi)). clear GM0.
  assert (LV0 : rig_lively d0).
  { unfold rig_lively. rewrite DF. change (num_bones arms) with 2%Z in *. split; [exact PF|]. split; [|split; [lia|]].
    - unfold rig_new in E0. cbv zeta in E0. destruct (C56_single _ _ cls (RigData (repeat None (Z.to_nat (num_bones arms))) (repeat affine_identity (Z.to_nat (num_bones arms))) [] arms None 0 affine_identity 5)) as (d & E & L & _); cbn [weights defining globals motivators root_bone root_transform current end_time] in *.
      + change (len (@nil R)) with 0%Z. lia.
      + exact PF.
      + reflexivity.
      + reflexivity.
      + intros b H. apply repeat_spec in H. discriminate.
      + rewrite E in E0. injection E0 as <-. exact L.
    - intros m IN. destruct (in_getz _ _ IN) as [i Gi]. pose proof (getz_Some _ _ _ Gi) as HI. assert (m = None) as -> by (assert (G := GM i ltac:(lia)); congruence). unfold bone_lively. cbn. split; [constructor|]. split; [constructor|exact Logic.I]. }
  destruct (C111_rig from_matrix d0 arms 5 eases ticks LV0) as (d1 & E1 & L1 & B1 & S1 & F1); rewrite ?DF; change (num_bones arms) with 2%Z in *.
  - left. reflexivity.
  - cbn. lia.
  - apply ticks_fade.
  - discriminate.
  - intros i m ma Hi Em Ea. rewrite GM in Em by exact Hi. injection Em as <-. assert (C : (i = 0 \/ i = 1)%Z) by lia. destruct C as [-> | ->]; injection Ea as <-; apply swing_fades; now right.
  - rewrite DF in *. change (num_bones arms) with 2%Z in *.
    assert (K0 : forall i m ma, (0 <= i < 2)%Z -> getz (motivators d0) i = Some m -> getz (ra_anims arms) i = Some ma -> bone_sqt m ma = false).
    { intros i m ma Hi Em Ea. rewrite GM in Em by exact Hi. injection Em as <-. assert (C : (i = 0 \/ i = 1)%Z) by lia. destruct C as [-> | ->]; injection Ea as <-; reflexivity. }
    destruct S1 as [d2 F2].
    { intros i b G. pose proof (getz_Some _ _ _ G) as HI. rewrite L1 in HI. destruct (B1 i HI) as (m & ma & b' & A1 & A2 & A3 & _ & SU). rewrite G in A3. injection A3 as <-. apply SU. eapply K0; eassumption. }
    destruct (F1 d2 F2) as (LV2 & DF2 & MM & _). pose proof (stay_matrices from_matrix d1 d2 eases ticks arms d0 B1 MM K0) as K2.
    destruct (C111_rig from_matrix d2 arms2 8 eases ticks LV2) as (d3 & E3 & L3 & B3 & S3 & F3); rewrite ?DF2; change (num_bones arms) with 2%Z in *.
    + left. reflexivity.
    + cbn. lia.
    + apply ticks_fade.
    + discriminate.
    + intros i m ma Hi Em Ea. pose proof (K2 i m Hi Em) as K. assert (C : (i = 0 \/ i = 1)%Z) by lia. destruct C as [-> | ->]; injection Ea as <-; [apply wave_fades|apply swing_fades]; now left.
    + rewrite DF2 in *. change (num_bones arms) with 2%Z in *. destruct S3 as [d4 F4].
      { intros i b G. pose proof (getz_Some _ _ _ G) as HI.
        rewrite L3 in HI. destruct (B3 i HI) as (m & ma & b' & A1 & A2 & A3 & _ & SU). rewrite G in A3. injection A3 as <-. apply SU. destruct (K2 i m HI A1) as [dd ->]. reflexivity. }
      exists d0, d1, d2, d3, d4. repeat (split; [assumption|]). apply ticks_over.
Qed.
(** An SQT transform whose quaternion is the negative of the one that the new animation starts with: it is turned. *)
Definition leaning : slot := Slot 1 0 1 (Some peak) 0 true (Rg 1 0) (1 / 2) (Some 1) (Cubic (-2) 3 0 0) (1 / 2).
Definition asleep : qdata slot := QData identity4 (Quat (-1) 0 0 0) (V3 1 1 1) [Op 0 QuaternionX (Some leaning) 0; Op 1 QuaternionW None (-1); Op 2 TranslateY None 4].
Example C111_sqt_case : exists d1 start, qdata_blend_to_ops spline_class (ma_ops nod) eases asleep = Some d1 /\ start <> qd_ops asleep /\ Forall2 turned (qd_ops asleep) start.
Proof.
  assert (IV : valid (Rg 1 0) = false) by (unfold valid; cbn [start_ end_]; apply Rleb_f; lra).
  destruct (C111_sqt asleep (ma_ops nod) eases ticks) as (d1 & start & E & ST & _).
  - cbn. repeat constructor; lia.
  - constructor; [split; [discriminate|left; exact IV]|]. constructor; [exact Logic.I|]. constructor; [exact Logic.I|constructor].
  - cbn. repeat constructor; lia.
  - constructor; [|constructor; [split; [cbn; lia|reflexivity]|constructor]]. apply peak_fades; [lia|]. now left.
  - intros o [<-|[<-|[]]]; reflexivity.
  - intros vs H. apply nod_directed. eapply two_values; [exact H|]. intros v. cbn. auto.
  - apply ticks_fade.
  - exists d1, start. split; [exact E|].
    assert (W : alongside asleep (ma_ops nod) (fun c => c < 0)).
    { intros vs H. destruct (two_values _ _ _ _ H) as (x & y & -> & ->); [intros v; cbn; auto|]. unfold last_quaternion, last_value, qdot. cbn. lra. }
    destruct ST as [[_ AL]|[TU _]].
    + exfalso. set (vs := [node_y (Node 0 0 0) (Rg 0 1); 1]). assert (H : Forall2 starts (ma_ops nod) vs) by (constructor; [eexists; split; reflexivity|constructor; [reflexivity|constructor]]). specialize (W vs H). specialize (AL vs H). cbn beta in *. lra.
    + split; [|exact TU]. intros ->. cbn [qd_ops asleep] in TU. inversion TU as [|? ? ? ? _ TU1]; subst. inversion TU1 as [|? ? ? ? (_ & TU2) _]; subst. cbn in TU2. lra.
Qed.
