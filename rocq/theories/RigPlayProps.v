(** C108: a rig that plays an animation made of splines shows, after every frame, every bone's product of the local
    transforms of its ancestors and itself, each at the values of the splines then. *)
From Verif Require Import RBase BaseFacts RangeModel RangeProofs CurveModel CurveProofs MathfuModel CompactSplineModel CompactSplineSpec CompactSplineProofs CompactSplineIndex EvaluatorModel EvaluatorSpec EvaluatorProofs EvaluatorPlay EvaluatorProps EvaluatorOpProps CompactSplineEvalProps OvershootModel SimpleModel SplineTargetModel SplineTargetProps MatrixModel MatrixProps SqtProps RigModel RigProps CloneModel CloneProps SplineClassModel TwinProps PlayProps.
From Coq Require Import Lia.
Local Open Scope R_scope.

Lemma frames_app {D} (f : R -> D -> option D) : forall l x d, frames f (l ++ [x]) d = (d' <- frames f l d ;; f x d').
Proof. induction l as [|y l IH]; intros x d; cbn [app frames]; [destruct (f x d); reflexivity|]. destruct (f y d); [apply IH|reflexivity]. Qed.
Lemma playable_prefix p l r i : playable p (l ++ r) i -> playable p l i.
Proof. intros (ID & PL). split; [exact ID|]. destruct (i_union i); auto. destruct PL as (A & B & C). apply Forall_app in B. tauto. Qed.

(** What a bone shows. *)
Definition bone_shows (p : playback) (deltas : list R) (ma : manim (opinit range spline)) (m : mat4) : Prop :=
  if ma_sqt ma then shows_sqt p deltas (ma_ops ma) m else shows_product p deltas (ma_ops ma) m.
(** Its animation can be played: its operations can; those of a matrix are ones that matrices have, those of an SQT
    transform ones that it has (C107_sqt). *)
Definition bone_playable (p : playback) (deltas : list R) (ma : manim (opinit range spline)) : Prop :=
  Forall (playable p deltas) (ma_ops ma) /\
  if ma_sqt ma then sqt_playable p deltas (ma_ops ma)
  else forall i, In i (ma_ops ma) -> matrix_type (i_type i).
Definition bone_plays (delta : R) : @bone slot -> option (@bone slot) := bone_frame spline_class (advance_slot delta).

Lemma frames_inl l : forall d, frames bone_plays l (inl d) = (d' <- frames matrix_plays l d ;; Some (inl d')).
Proof. induction l as [|x l IH]; intros d; cbn [frames]; [reflexivity|]. unfold bone_plays at 1, bone_frame. fold (matrix_plays x d). destruct (matrix_plays x d); [apply IH|reflexivity]. Qed.
Lemma frames_inr l : forall d, frames bone_plays l (inr d) = (d' <- frames sqt_plays l d ;; Some (inr d')).
Proof. induction l as [|x l IH]; intros d; cbn [frames]; [reflexivity|]. unfold bone_plays at 1, bone_frame. fold (sqt_plays x d). destruct (sqt_plays x d); [apply IH|reflexivity]. Qed.

Lemma elementary_affine t v e : elementary t v = Some e -> affine4 e.
Proof. destruct t; cbn; intros E; try discriminate; injection E as <-; unfold rows, affine4; cbn; auto. Qed.
Lemma shown_affine p l ma m : bone_shows p l ma m -> affine4 m.
Proof.
  unfold bone_shows. destruct (ma_sqt ma).
  - intros (vs & u & r & _ & _ & _ & ->). unfold translating, rotating, scaling, rows. repeat apply affine_mul; unfold affine4; cbn; auto.
  - intros (vs & es & _ & F & ->). induction F as [|ti e l' es E F IH]; [cbn; unfold affine4; cbn; auto|]. cbn [product fold_right]. apply affine_mul; [eapply elementary_affine; exact E|exact IH].
Qed.

Lemma map_all_len {A B} (f : A -> option B) : forall l r, map_all f l = Some r -> len r = len l.
Proof.
  induction l as [|a l IH]; intros r H; cbn [map_all] in H; [now injection H as <-|]. destruct (f a); [|discriminate]. destruct (map_all f l); [|discriminate]. injection H as <-. rewrite !len_cons. now rewrite (IH l0).
Qed.

(** An SQT motivator of no operations. *)
Lemma blank_sqt : exists d0, qdata_initialize spline_class [] qdata_default = Some d0 /\ qd_ops d0 = [].
Proof.
  unfold qdata_initialize. cbn [append_ops]. rewrite qdata_update_eq by reflexivity. destruct (qnormalize_unit (Quat 1 0 0 0)) as (u & E & _); [intros [= H]; lra|].
  change (quaternion_part spline_class _) with (Quat 1 0 0 0). rewrite E. eexists. split; [reflexivity|]. reflexivity.
Qed.
Section Rig.
Context (from_matrix : mat3 -> quat).
Notation cls := (bone_class spline_class from_matrix).
(** A bone that is given its animation: after any of the frames it shows the animation. *)
Lemma bone_starts p deltas ma : blend_x p <= 0 -> bone_playable p deltas ma ->
  exists b0 b, b_init cls (ma_sqt ma) = Some b0 /\ b_blend cls (ma_ops ma) p b0 = Some b /\
    forall l r, deltas = l ++ r -> exists b', frames bone_plays l b = Some b' /\ (l <> [] -> bone_shows p l ma (b_value cls b')).
Proof.
  intros BX (F & PL). unfold bone_shows. cbn [bone_class b_init b_blend b_value]. destruct (ma_sqt ma).
  - destruct blank_sqt as (d0 & E0 & O0). rewrite E0. exists (inr d0).
    assert (PR : forall l r, deltas = l ++ r -> Forall (playable p l) (ma_ops ma) /\ sqt_playable p l (ma_ops ma)).
    { intros l r EQ. rewrite EQ in F, PL. split; [eapply Forall_impl; [apply playable_prefix|exact F]|]. destruct PL as (A & B & C). split; [exact A|]. split; [exact B|]. intros l' r' vs E N. apply (C l' (r' ++ r)); [rewrite E; now rewrite app_assoc|exact N]. }
    destruct (list_eq_dec Req_EM_T deltas []) as [->|ND].
    + destruct (blend_sqt_succeeds (ma_ops ma) p [] d0 F PL BX O0) as (d & E & _). rewrite E. exists (inr d). split; [reflexivity|]. split; [reflexivity|]. intros l r EQ. destruct l; [|discriminate]. exists (inr d). split; [reflexivity|congruence].
    + destruct (C107_sqt (ma_ops ma) p deltas d0 O0 BX F PL ND) as (d & dn & E & FR & _). rewrite E. exists (inr d). split; [reflexivity|]. split; [reflexivity|]. intros l r EQ.
      destruct (list_eq_dec Req_EM_T l []) as [->|NL]; [exists (inr d); split; [reflexivity|congruence]|]. destruct (PR l r EQ) as (F' & PL').
      destruct (C107_sqt (ma_ops ma) p l d0 O0 BX F' PL' NL) as (d2 & d' & E' & FR' & SH). rewrite E in E'. injection E' as <-. exists (inr d'). rewrite frames_inr, FR'. split; [reflexivity|]. intros _. exact SH.
  - exists (inl (MData identity4 (Some (V3 1 1 1)) [])). destruct (merge_empty quaternion_op p deltas (ma_ops ma) BX F) as (new & E & H).
    exists (inl (MData identity4 (Some (V3 1 1 1)) new)). split; [reflexivity|]. unfold mdata_blend_to_ops. cbn [md_ops md_matrix md_scale]. rewrite E. split; [reflexivity|]. intros l r EQ. rewrite EQ in F.
    assert (FL : Forall (playable p l) (ma_ops ma)) by (eapply Forall_impl; [apply playable_prefix|exact F]).
    destruct (frames_at p (ma_ops ma) PL l (MData identity4 (Some (V3 1 1 1)) new) (start_at p) FL H) as (d' & E' & _ & D). exists (inl d'). rewrite frames_inl, E'. split; [reflexivity|]. intros N. apply mdata_at_shows; [exact FL|]. apply D. now left.
Qed.

Definition rig_plays (delta : R) := rig_data_frame spline_class from_matrix (advance_slot delta).
(** C108. *)
Theorem C108_rig : forall def anim root t p deltas,
  parents_first (ra_parents def) (num_bones def) -> matches_hierarchy anim def = Some true \/ (num_bones def = 1 /\ 1 <= num_bones anim)%Z ->
  (-2147483648 <= t + ra_end anim <= 2147483647)%Z -> blend_x p <= 0 -> deltas <> [] ->
  (forall i ma, (0 <= i < num_bones def)%Z -> getz (ra_anims anim) i = Some ma -> bone_playable p deltas ma) ->
  exists d0 d1 d2, rig_new cls def root t = Some d0 /\ blend_to_anim cls anim p t d0 = Some d1 /\ frames rig_plays deltas d1 = Some d2 /\
    exists local, (forall i, (0 <= i < num_bones def)%Z -> exists ma, getz (ra_anims anim) i = Some ma /\ bone_shows p deltas ma (local i)) /\
      (forall i, (0 <= i < num_bones def)%Z -> exists l g, lineage (ra_parents def) i l /\ getz (globals d2) i = Some g /\ from_affine g = along root local l) /\
      ((0 <= root < num_bones def)%Z -> from_affine (root_transform d2) = local root).
Proof.
  intros def anim root t p deltas PF MH TI BX N PL. destruct (C56_new _ _ cls def root t PF) as (d0 & E0 & DF & RB & CU & ET & WT & LM & GM & RT). exists d0.
  assert (NM : (0 <= num_bones def)%Z) by apply num_bones_range.
  assert (RS : forall i, (0 <= i < num_bones def)%Z -> getz (resize (motivators d0) (num_bones def) None) i = Some None).
  { intros i Hi. unfold resize. rewrite getz_app1 by (unfold len in *; rewrite firstn_length; lia). rewrite getz_firstn. replace (i <? Z.of_nat (Z.to_nat (num_bones def)))%Z with true by lia. apply GM. exact Hi. }
  destruct (C59_accepts_partial _ _ cls d0 anim p t TI) as (d1 & E1 & L1 & _ & _ & DF1 & LW & BO); [now rewrite DF| |].
  { rewrite DF. intros i m ma Hi Em Ea. rewrite RS in Em by exact Hi. injection Em as <-. destruct (bone_starts p deltas ma BX (PL i ma Hi Ea)) as (b0 & b & I0 & BL & _). exists b0, b. auto. }
  rewrite DF in *. exists d1.
  assert (GB : forall i, (0 <= i < num_bones def)%Z -> exists ma b, getz (ra_anims anim) i = Some ma /\ getz (motivators d1) i = Some (Some b) /\
    forall l r, deltas = l ++ r -> exists b', frames bone_plays l b = Some b' /\ (l <> [] -> bone_shows p l ma (b_value cls b'))).
  { intros i Hi. destruct (BO i Hi) as (m & ma & b0 & b & Em & Ea & ST & BL & G). rewrite RS in Em by exact Hi. injection Em as <-. cbn [start_of] in ST. destruct (bone_starts p deltas ma BX (PL i ma Hi Ea)) as (b0' & b' & I0 & BL' & H).
    rewrite ST in I0. injection I0 as <-. rewrite BL in BL'. injection BL' as <-. exists ma, b. auto. }
  assert (GL : len (globals d1) = num_bones def /\ root_bone d1 = root).
  { unfold blend_to_anim in E1. destruct (add_int _ _); [|discriminate]. cbv zeta in E1. destruct (fits _ _) as [[]|]; try discriminate. destruct (blend_bones _ _ _ _ _ _ _ _); [|discriminate]. injection E1 as <-. cbn [globals root_bone].
    split; [|exact RB]. unfold rig_new in E0. cbv zeta in E0.
    destruct (C56_single _ _ cls (RigData (repeat None (Z.to_nat (num_bones def))) (repeat affine_identity (Z.to_nat (num_bones def))) [] def None root affine_identity t)) as (d & E & L & _); cbn [weights defining globals motivators root_bone root_transform current end_time] in *.
    - change (len (@nil R)) with 0%Z. lia.
    - exact PF.
    - rewrite len_repeat. lia.
    - rewrite len_repeat. lia.
    - intros b H. apply repeat_spec in H. discriminate.
    - rewrite E in E0. injection E0 as <-. exact L. }
  destruct GL as (GL & RB1).
  assert (INV : forall l r, deltas = l ++ r -> exists d2, frames rig_plays l d1 = Some d2 /\ len (motivators d2) = num_bones def /\ len (globals d2) = num_bones def /\ defining d2 = def /\ root_bone d2 = root /\ len (weights d2) = 1%Z /\
    (forall i, (0 <= i < num_bones def)%Z -> exists b b', getz (motivators d1) i = Some (Some b) /\ frames bone_plays l b = Some b' /\ getz (motivators d2) i = Some (Some b')) /\
    (l <> [] -> (forall i, (0 <= i < num_bones def)%Z -> exists ls g, lineage (ra_parents def) i ls /\ getz (globals d2) i = Some g /\ from_affine g = along root (shown cls d2) ls) /\
       ((0 <= root < num_bones def)%Z -> from_affine (root_transform d2) = shown cls d2 root))).
  { induction l as [|x l IH] using rev_ind; intros r EQ.
    - exists d1. cbn [frames]. split; [reflexivity|]. repeat (split; [assumption|]). split; [|intros H; now contradiction H].
      intros i Hi. destruct (GB i Hi) as (ma & b & _ & Eb & _). exists b, b. auto.
    - destruct (IH (x :: r)) as (d2 & F2 & LM2 & LG2 & DF2 & RB2 & LW2 & M2 & _); [now rewrite <- app_assoc in EQ|].
      assert (MA : exists ms, map_all (maybe_bone_frame spline_class (advance_slot x)) (motivators d2) = Some ms).
      { apply map_all_succeeds. intros mb IN. apply In_nth_error in IN as [k Ek]. assert (HK : getz (motivators d2) (Z.of_nat k) = Some mb) by (unfold getz; replace (Z.of_nat k <? 0)%Z with false by lia; now rewrite Nat2Z.id).
        pose proof (getz_Some _ _ _ HK) as HR. rewrite LM2 in HR. destruct (M2 _ HR) as (b & b' & Eb & Fb & Em). rewrite HK in Em. injection Em as ->. destruct (GB _ HR) as (ma & b1 & _ & Eb1 & PB). rewrite Eb in Eb1. injection Eb1 as <-.
        destruct (PB (l ++ [x]) r EQ) as (b'' & F'' & _). rewrite frames_app, Fb in F''. unfold bone_plays in F''. cbn [maybe_bone_frame]. rewrite F''. eauto. }
      destruct MA as [ms MA]. pose proof (map_all_len _ _ _ MA) as LMS.
      set (dd := RigData ms (globals d2) (weights d2) (defining d2) (current d2) (root_bone d2) (root_transform d2) (end_time d2)).
      assert (MS : forall i, (0 <= i < num_bones def)%Z -> exists ma b b', getz (ra_anims anim) i = Some ma /\ getz (motivators d1) i = Some (Some b) /\ frames bone_plays (l ++ [x]) b = Some b' /\ getz ms i = Some (Some b') /\ bone_shows p (l ++ [x]) ma (b_value cls b')).
      { intros i Hi. destruct (M2 i Hi) as (b & b' & Eb & Fb & Em). destruct (GB i Hi) as (ma & b1 & Ea & Eb1 & PB). rewrite Eb in Eb1. injection Eb1 as <-. destruct (PB (l ++ [x]) r EQ) as (b'' & F'' & SH).
        destruct (map_all_getz _ _ _ MA i _ Em) as (y & Ey & Gy). pose proof F'' as F3. rewrite frames_app, Fb in F3. unfold bone_plays in F3. cbn [maybe_bone_frame] in Ey. rewrite F3 in Ey. injection Ey as <-.
        exists ma, b, b''. repeat (split; [assumption|]). apply SH. now destruct l. }
      destruct (C56_single _ _ cls dd) as (d3 & E3 & L3 & D3 & RT3 & _ & Mo & We & De & Ro & _); cbn [weights defining globals motivators root_bone dd]; rewrite ?DF2; try assumption; try lia.
      + intros b IN. apply In_nth_error in IN as [k Ek]. assert (HK : getz ms (Z.of_nat k) = Some (Some b)) by (unfold getz; replace (Z.of_nat k <? 0)%Z with false by lia; now rewrite Nat2Z.id).
        pose proof (getz_Some _ _ _ HK) as HR. destruct (MS (Z.of_nat k)) as (ma & b0 & b' & _ & _ & _ & Em & SH); [lia|]. rewrite HK in Em. injection Em as <-. exact (shown_affine _ _ _ _ SH).
      + cbn [weights defining globals motivators root_bone dd] in *. rewrite DF2 in *. rewrite RB2 in *. exists d3. rewrite frames_app, F2. unfold rig_plays, rig_data_frame. rewrite MA. fold dd. split; [exact E3|]. rewrite Mo, We, De, Ro.
        split; [lia|]. repeat (split; [assumption || reflexivity|]).
        assert (SS : forall i, shown cls d3 i = shown cls dd i) by (intros i; unfold shown; now rewrite Mo).
        split.
        * intros i Hi. destruct (MS i Hi) as (ma & b & b' & _ & Eb & Fb & Em & _). eauto.
        * intros _. split; [|intros Hr; rewrite SS; now apply RT3]. intros i Hi. destruct (D3 i Hi) as (ls & g & A & B & C). exists ls, g. split; [exact A|]. split; [exact B|]. rewrite C. unfold along. f_equal. apply map_ext. intros j. now rewrite SS. }
  destruct (INV deltas []) as (d2 & F2 & LM2 & LG2 & DF2 & RB2 & LW2 & M2 & SH); [now rewrite app_nil_r|]. exists d2. split; [exact E0|]. split; [exact E1|]. split; [exact F2|]. exists (shown cls d2). split; [|now apply SH].
  intros i Hi. destruct (M2 i Hi) as (b & b' & Eb & Fb & Em). destruct (GB i Hi) as (ma & b1 & Ea & Eb1 & PB). rewrite Eb in Eb1. injection Eb1 as <-. destruct (PB deltas []) as (b'' & F'' & SS); [now rewrite app_nil_r|]. rewrite Fb in F''. injection F'' as <-.
  exists ma. split; [exact Ea|]. unfold shown. rewrite Em. now apply SS.
Qed.
End Rig.
Print Assumptions C108_rig.

(** ** Concrete cases *)
(** A bone whose translation follows a spline and which is turned, and a child with a quaternion that follows one. *)
Definition swing : manim (opinit range spline) := MAnim false [OpInit (Some (Rg (-1) 1)) 0 TranslateX (USpline peak); OpInit None 1 RotateZ (UValue (1 / 2))].
Definition nod : manim (opinit range spline) := MAnim true [OpInit (Some (Rg 1 0)) 0 QuaternionX (USpline peak); OpInit None 1 QuaternionW (UValue 1)].
Definition walk : rig_anim (opinit range spline) := RigAnim [swing; nod] [kInvalidBoneIdx; 0%Z] [[97%Z]; [98%Z]] 2 true.
Definition loops : playback := Playback (1 / 4) 0 2 (1 / 10) 3 true.
Lemma spline_playable o r id t deltas : (id <= 254)%Z -> o = OpInit (Some r) id t (USpline peak) -> (valid r = false \/ exists h, 0 < h /\ r = Rg (- h) h) -> Forall (fun d => 0 <= d <= 1) deltas -> playable loops deltas o.
Proof.
  intros ID -> V F. split; [exact ID|]. cbn [i_union i_init]. split; [|split; [|eauto]].
  - split; [apply peak_ok|]. split; [|cbn [loops start_at peak x_granularity]; lra]. intros _. split; [unfold num_nodes, len; cbn; lia|]. exists 2. split; [|lra]. unfold end_x. change (back peak) with (Some (Node 2 0 0)). unfold node_x. cbn [nx peak x_granularity]. f_equal. lra.
  - eapply Forall_impl; [|exact F]. intros d D. unfold small_step. cbn [loops playback_rate peak x_granularity]. lra.
Qed.
Lemma nod_directed vs : (exists x y, vs = [x; y] /\ y = 1) -> directed (ma_ops nod) vs.
Proof. intros (x & y & -> & ->). unfold directed, last_quaternion, last_value. cbn. intros [= H]. lra. Qed.
Lemma two_values a b l (T : opinit range spline -> R -> Prop) : Forall2 T [a; b] l -> (forall v, T b v -> v = 1) -> exists x y, l = [x; y] /\ y = 1.
Proof. intros F H. inversion F as [|? x ? l1 _ F1 E1 E2]; subst. inversion F1 as [|? y ? l2 T2 F2 E1 E2]; subst. inversion F2; subst. exists x, y. split; [reflexivity|now apply H]. Qed.
Lemma walk_playable deltas : Forall (fun d => 0 <= d <= 1) deltas -> forall i ma, (0 <= i < num_bones walk)%Z -> getz (ra_anims walk) i = Some ma -> bone_playable loops deltas ma.
Proof.
  intros F i ma Hi E. change (num_bones walk) with 2%Z in Hi. assert (C : (i = 0 \/ i = 1)%Z) by lia. destruct C as [-> | ->].
  - injection E as <-. split; cbn [swing ma_ops ma_sqt].
    + constructor; [|constructor; [split; [cbn; lia|reflexivity]|constructor]]. eapply spline_playable; [|reflexivity| |exact F]; [lia|]. right. exists 1. split; [lra|]. f_equal; lra.
    + intros o [<-|[<-|[]]]; cbn; discriminate.
  - injection E as <-. split; cbn [nod ma_ops ma_sqt].
    + constructor; [|constructor; [split; [cbn; lia|reflexivity]|constructor]]. eapply spline_playable; [|reflexivity| |exact F]; [lia|]. left. unfold valid. cbn [start_ end_]. rcase1; [lra|reflexivity].
    + split; [reflexivity|]. split.
      * intros vs H. apply nod_directed. eapply two_values; [exact H|]. intros v. cbn. auto.
      * intros l r vs _ _ H. apply nod_directed. eapply two_values; [exact H|]. intros v. cbn. auto.
Qed.
(** C107 and C108 apply to it. *)
Example C107_case : exists d d', mdata_blend_to_ops spline_class (ma_ops swing) loops mdata_default = Some d /\ frames matrix_plays [1 / 2; 1 / 3; 1] d = Some d' /\ shows_product loops [1 / 2; 1 / 3; 1] (ma_ops swing) (md_matrix d').
Proof.
  assert (F : Forall (fun d => 0 <= d <= 1) [1 / 2; 1 / 3; 1]) by (repeat constructor; lra). destruct (walk_playable _ F 0 swing ltac:(change (num_bones walk) with 2%Z; lia) eq_refl) as (A & B).
  apply C107_matrix; [reflexivity|cbn; lra|exact B|exact A|discriminate].
Qed.
Example C107_sqt_initialized_case : exists d d', qdata_initialize spline_class (ma_ops nod) qdata_default = Some d /\ frames sqt_plays [1 / 2; 1 / 3; 1] d = Some d' /\ shows_sqt (playback_from 0) [1 / 2; 1 / 3; 1] (ma_ops nod) (qd_matrix d').
Proof.
  apply C107_sqt_initialized.
  - constructor; [|constructor; [split; [cbn; lia|reflexivity]|constructor]]. split; [cbn; lia|]. cbn [nod ma_ops i_union i_init]. split; [|split].
    + split; [apply peak_ok|]. split; [discriminate|cbn [playback_from start_at peak x_granularity]; lra].
    + repeat constructor; unfold small_step; cbn [playback_from playback_rate peak x_granularity]; lra.
    + exists (Rg 1 0). split; [reflexivity|]. left. unfold valid. cbn [start_ end_]. rcase1; [lra|reflexivity].
  - reflexivity.
  - intros l r vs _ H. apply nod_directed. eapply two_values; [exact H|]. intros v. cbn. auto.
Qed.
Example C108_case : forall from_matrix, exists d0 d1 d2, rig_new (bone_class spline_class from_matrix) walk 0 5 = Some d0 /\ blend_to_anim (bone_class spline_class from_matrix) walk loops 5 d0 = Some d1 /\ frames (rig_plays from_matrix) [1 / 2; 1 / 3; 1] d1 = Some d2.
Proof.
  intros from_matrix. destruct (C108_rig from_matrix walk walk 0 5 loops [1 / 2; 1 / 3; 1]) as (d0 & d1 & d2 & A & B & C & _).
  - intros i Hi. change (num_bones walk) with 2%Z in Hi. assert (D : (i = 0 \/ i = 1)%Z) by lia. destruct D as [-> | ->]; eexists; (split; [reflexivity|]); [now left|right; lia].
  - left. reflexivity.
  - cbn. lia.
  - cbn. lra.
  - discriminate.
  - apply walk_playable. repeat constructor; lra.
  - exists d0, d1, d2. auto.
Qed.
(** C106: a motivator that follows the spline, cloned; and a matrix with it. *)
Definition following : slot := Slot 1 0 1 (Some peak) 0 true (Rg 0 0) (1 / 2) (Some 1) (Cubic (-2) 3 0 0) (1 / 2).
Example C106_case : exists ev1, clone_indices [following; slot_default] 1 0 1 (fun _ => 7%Z) = Some ev1 /\ (0 + Z.of_nat 1 <= 1)%Z.
Proof. eexists. split; [reflexivity|lia]. Qed.
Example C106_matrix_case : exists d', mdata_clone slot_clone (MData identity4 None [Op 0 TranslateX (Some following) 0; Op 1 ScaleUniformly None 2]) = Some d' /\
  Forall spline_event [Frame (advance_slot 1); Blend (ma_ops swing) loops; Frame (advance_slot (1 / 3))].
Proof. eexists. split; [reflexivity|]. repeat constructor; cbn; eauto. Qed.
