(** C112: TimeRemaining of motivators that play splines. *)
From Verif Require Import RBase BaseFacts RangeModel RangeProofs CurveModel CurveProofs MathfuModel CompactSplineModel CompactSplineSpec CompactSplineProofs CompactSplineIndex EvaluatorModel EvaluatorSpec EvaluatorProofs EvaluatorPlay EvaluatorProps EvaluatorOpProps CompactSplineEvalProps OvershootModel SimpleModel SplineTargetModel SplineTargetProps MatrixModel MatrixProps SqtProps RigModel RigProps CloneModel CloneProps SplineClassModel TwinProps PlayProps EvaluatorBlendProps SplineTargetProofs SplineQueryProps OpStepProps FadeProofs FadeProps RigPlayProps RigFadeProps DetailProps.
From Coq Require Import Lia.
Local Open Scope R_scope.

(** The time that an operation has left after the frames: none if it is a constant; else how far its spline is from its
    end, in whole units. *)
Definition left (p : playback) (deltas : list R) (i : opinit range spline) (t : Z) : Prop :=
  match i_union i with
  | UValue _ => t = 0%Z
  | USpline sp => exists ex x, end_x sp = Some ex /\ wrapped sp (repeat_ p) (position p deltas) x /\ rounds_to_zero (ex - x) t
  | _ => False
  end.
(** The time is one that an int can hold. *)
Definition in_time (p : playback) (deltas : list R) (i : opinit range spline) : Prop :=
  match i_union i with
  | USpline sp => forall ex, end_x sp = Some ex -> ex + x_granularity sp / 2 < 2147483648 /\ (repeat_ p = false -> position p deltas < ex + 2147483648)
  | _ => True
  end.

Lemma to_int_ok x : - 2147483648 < x < 2147483648 -> exists z, to_int x = Some z /\ rounds_to_zero x z.
Proof.
  intros [X1 X2]. assert (E : exists z, to_int x = Some z).
  { unfold to_int. cbv zeta. assert (B : (-2147483648 <= Rtrunc x < 2147483648)%Z). { destruct (Rtrunc_bounds x) as [P N]. destruct (Rle_dec 0 x) as [L|L].
      - specialize (P L). split; [apply le_IZR|apply lt_IZR]; lra.
      - specialize (N ltac:(lra)). split; [apply le_IZR; lra|apply lt_IZR; lra]. }
    replace ((-2147483648 <=? Rtrunc x) && (Rtrunc x <? 2147483648))%Z with true by lia. eauto. }
  destruct E as [z E]. exists z. split; [exact E|]. destruct (to_int_bounds _ _ E) as [A B]. split; intros H; [exact (A H)|specialize (B H); lra].
Qed.
Lemma op_left p deltas i o : op_at p (position p deltas) i o -> playable p deltas i -> in_time p deltas i -> exists t, time_left spline_class o t /\ left p deltas i t.
Proof.
  intros (_ & _ & U) (_ & PL) IT. unfold time_left, left, in_time in *. destruct (i_union i) as [|u|t|sp]; try contradiction; [destruct U as [-> _]; exists 0%Z; auto|].
  destruct U as (s & x & -> & P & Y & W). destruct PL as ((OK & _) & _). destruct (placed_plays _ _ _ _ OK P) as (_ & SX & _). rewrite (evaluated_same s Y) in SX.
  destruct (end_x_some sp OK) as [ex EX]. destruct (IT ex EX) as [I1 I2]. pose proof (pl_x _ _ _ _ P) as PX. pose proof (ok_granularity sp OK) as GP. pose proof (end_x_bound sp ex OK EX) as EB.
  destruct (to_int_ok (ex - x)) as (z & TI & RZ).
  { split; [|lra]. unfold wrapped in W. destruct (repeat_ p); [destruct W as (ex' & k & EX' & _ & W); rewrite EX in EX'; injection EX' as <-; lra|subst x; specialize (I2 eq_refl); lra]. }
  exists z. split; [|exists ex, x; auto]. cbn [spline_class m_target_time]. unfold slot_target_time, slot_end_x. rewrite (pl_source _ _ _ _ P), EX, SX, TI. f_equal. pose proof (to_int_bounds _ _ TI) as [B1 B2].
  unfold to_int in TI. cbv zeta in TI. destruct (_ && _)%bool eqn:Q in TI; [|discriminate]. injection TI as <-. lia.
Qed.
Lemma ops_left p deltas inits ops : Forall2 (op_at p (position p deltas)) inits ops -> Forall (playable p deltas) inits -> Forall (in_time p deltas) inits ->
  exists ts, Forall2 (time_left spline_class) ops ts /\ Forall2 (left p deltas) inits ts.
Proof.
  induction 1 as [|i o inits ops OA H IH]; intros F T; [exists []; split; constructor|]. apply Forall_cons_iff in F, T. destruct (op_left _ _ _ _ OA (proj1 F) (proj1 T)) as (t & A & B). destruct (IH (proj2 F) (proj2 T)) as (ts & A' & B'). exists (t :: ts). split; constructor; assumption.
Qed.
Lemma position_sum p deltas : position p deltas = start_at p + sum (map (fun x => x * playback_rate p) deltas).
Proof. reflexivity. Qed.

(** C112.  After any frames TimeRemaining succeeds, and is the latest of the times that the operations have left. *)
Theorem C112_matrix : forall inits p deltas d0, md_ops d0 = [] -> blend_x p <= 0 -> (forall i, In i inits -> matrix_type (i_type i)) -> Forall (playable p deltas) inits -> Forall (in_time p deltas) inits ->
  exists d d' t ts, mdata_blend_to_ops spline_class inits p d0 = Some d /\ frames matrix_plays deltas d = Some d' /\ mdata_time_remaining spline_class d' = Some t /\
    Forall2 (left p deltas) inits ts /\ latest ts t.
Proof.
  intros inits p deltas d0 D0 BX M F T. unfold mdata_blend_to_ops. rewrite D0. destruct (merge_empty quaternion_op p deltas inits BX F) as (new & E & H). rewrite E.
  destruct (frames_at p inits M deltas (MData (md_matrix d0) (md_scale d0) new) (start_at p) F H) as (d' & E' & H' & _). rewrite <- position_sum in H'. destruct (ops_left _ _ _ _ H' F T) as (ts & A & B). destruct (C55_matrix _ _ _ spline_class d' ts A) as (t & ET & LT).
  exists (MData (md_matrix d0) (md_scale d0) new), d', t, ts. repeat (split; [assumption || reflexivity|]). exact LT.
Qed.
Print Assumptions C112_matrix.
Theorem C112_sqt : forall inits p deltas d0, qd_ops d0 = [] -> blend_x p <= 0 -> Forall (playable p deltas) inits -> sqt_playable p deltas inits -> Forall (in_time p deltas) inits ->
  exists d d' t ts, qdata_blend_to_ops spline_class inits p d0 = Some d /\ frames sqt_plays deltas d = Some d' /\ qdata_time_remaining spline_class d' = Some t /\
    Forall2 (left p deltas) inits ts /\ latest ts t.
Proof.
  intros inits p deltas d0 D0 BX F SP T. destruct (blend_sqt_succeeds inits p deltas d0 F SP BX D0) as (d & E & H). exists d. destruct SP as (ST & NS & NF).
  destruct (sqt_frames_at p deltas inits F ST NF deltas [] (start_at p) d) as (d' & EF & _ & H'); [unfold position; cbn [map sum]; lra|reflexivity|exact H|]. destruct (ops_left _ _ _ _ H' F T) as (ts & A & B). destruct (C55_sqt _ _ _ spline_class d' ts A) as (t & ET & LT).
  exists d', t, ts. repeat (split; [assumption || reflexivity|]). exact LT.
Qed.
Print Assumptions C112_sqt.

(** ** When the time has passed *)
(** [v] is where an operation ends. *)
Definition ends (p : playback) (i : opinit range spline) (v : R) : Prop :=
  match i_union i with
  | UValue u => v = u
  | USpline sp => exists ey, end_y sp = Some ey /\ v = y_scale p * ey + y_offset p
  | _ => False
  end.
(** More time has passed than was left, in units of the splines: one unit more, and half a grain. *)
Definition passed (p : playback) (t : Z) (more : list R) (i : opinit range spline) : Prop :=
  match i_union i with USpline sp => IZR t + 1 + x_granularity sp / 2 <= playback_rate p * sum more | _ => True end.
Lemma sum_rate p l : sum (map (fun x => x * playback_rate p) l) = playback_rate p * sum l.
Proof. induction l as [|x l IH]; cbn [map sum]; [ring|rewrite IH; ring]. Qed.
Lemma position_app p l r : position p (l ++ r) = position p l + playback_rate p * sum r.
Proof. unfold position. rewrite map_app. assert (SA : forall a b, sum (a ++ b) = sum a + sum b) by (induction a as [|z a IHa]; intros b; cbn [app sum]; [|rewrite IHa]; lra). rewrite SA, (sum_rate p r). ring. Qed.
Lemma shows_ends p deltas more i v t T : repeat_ p = false -> playable p deltas i -> left p deltas i t -> (t <= T)%Z -> passed p T more i -> shows p (deltas ++ more) i v -> ends p i v.
Proof.
  intros RF (_ & PL) LE TT PA SH. unfold left, passed, shows, ends in *. rewrite RF in *. cbn [wrapped] in *. destruct (i_union i) as [|u|g|sp]; try contradiction; [exact SH|].
  destruct LE as (ex & x & EX & -> & RZ). destruct SH as (x' & y & d & -> & SA & ->). destruct PL as ((OK & _) & _). assert (EY : exists ey, end_y sp = Some ey) by (unfold end_y; destruct (ok_back sp OK) as [b ->]; eauto). destruct EY as [ey EY]. exists ey. split; [exact EY|]. f_equal. f_equal.
  eapply (at_end sp ex); eauto. rewrite position_app. apply IZR_le in TT. destruct RZ as [R1 R2]. destruct (Rle_dec 0 (ex - position p deltas)) as [L|L]; [specialize (R1 L); lra|specialize (R2 ltac:(lra)); lra].
Qed.
Lemma all_ends p deltas more T : repeat_ p = false -> forall inits ts vs, Forall (playable p deltas) inits -> Forall2 (left p deltas) inits ts -> (forall t, In t ts -> (t <= T)%Z) -> Forall (passed p T more) inits -> Forall2 (shows p (deltas ++ more)) inits vs -> Forall2 (ends p) inits vs.
Proof.
  intros RF. induction inits as [|i inits IH]; intros ts vs F L LE PA SH; inversion SH as [|? v ? vs' S1 S2]; subst; constructor; inversion L as [|? t ? ts' L1 L2]; subst; apply Forall_cons_iff in F, PA.
  - eapply shows_ends; eauto; [tauto|apply LE; now left|tauto].
  - eapply IH; eauto; [tauto|intros t' I; apply LE; now right|tauto].
Qed.
Lemma frames_split {D} (f : R -> D -> option D) : forall l r d, frames f (l ++ r) d = (d' <- frames f l d ;; frames f r d').
Proof. induction l as [|x l IH]; intros r d; cbn [app frames]; [reflexivity|]. destruct (f x d); [apply IH|reflexivity]. Qed.
(** An animation that does not repeat is at its end when the time that TimeRemaining gave has passed: at rate 1, one tick and
    half a grain later. *)
Theorem C112_ends : forall inits p deltas more d0, md_ops d0 = [] -> blend_x p <= 0 -> (forall i, In i inits -> matrix_type (i_type i)) -> Forall (playable p (deltas ++ more)) inits -> Forall (in_time p deltas) inits ->
  repeat_ p = false -> more <> [] ->
  exists d d' d'' t, mdata_blend_to_ops spline_class inits p d0 = Some d /\ frames matrix_plays deltas d = Some d' /\ mdata_time_remaining spline_class d' = Some t /\ frames matrix_plays more d' = Some d'' /\
    (Forall (passed p t more) inits -> exists vs es, Forall2 (ends p) inits vs /\ Forall2 (fun ti e => elementary (fst ti) (snd ti) = Some e) (combine (map i_type inits) vs) es /\ md_matrix d'' = product es).
Proof.
  intros inits p deltas more d0 D0 BX M F T RF NM. assert (F0 : Forall (playable p deltas) inits) by (eapply Forall_impl; [apply playable_prefix|exact F]).
  destruct (C112_matrix inits p deltas d0 D0 BX M F0 T) as (d & d' & t & ts & E & FR & TR & LE & (LT & _)).
  destruct (C107_matrix inits p (deltas ++ more) d0 D0 BX M F) as (d2 & d'' & E2 & FR2 & (vs & es & SH & EL & MX)); [destruct deltas; [exact NM|discriminate]|]. rewrite E in E2. injection E2 as <-.
  exists d, d', d'', t. split; [exact E|]. split; [exact FR|]. split; [exact TR|]. split; [rewrite frames_split, FR in FR2; exact FR2|]. intros PA. exists vs, es. split; [|split; [exact EL|exact MX]].
  eapply all_ends; eauto. intros u I. apply LT. now right.
Qed.
Print Assumptions C112_ends.

(** ** Rigs *)
Lemma bone_starts_at from_matrix p deltas ma : blend_x p <= 0 -> bone_playable p deltas ma ->
  exists b0 b b', b_init (bone_class spline_class from_matrix) (ma_sqt ma) = Some b0 /\ b_blend (bone_class spline_class from_matrix) (ma_ops ma) p b0 = Some b /\
    frames bone_plays deltas b = Some b' /\ Forall2 (op_at p (position p deltas)) (ma_ops ma) (bone_ops (Some b')).
Proof.
  intros BX (F & PL). cbn [bone_class b_init b_blend]. destruct (ma_sqt ma).
  - destruct blank_sqt as (d0 & E0 & O0). rewrite E0. exists (inr d0). destruct (blend_sqt_succeeds (ma_ops ma) p deltas d0 F PL BX O0) as (d & E & H). destruct PL as (ST & NS & NF).
    destruct (sqt_frames_at p deltas (ma_ops ma) F ST NF deltas [] (start_at p) d) as (d' & EF & _ & H'); [unfold position; cbn [map sum]; lra|reflexivity|exact H|].
    rewrite E. exists (inr d), (inr d'). rewrite frames_inr, EF. auto.
  - exists (inl (MData identity4 (Some (V3 1 1 1)) [])). destruct (merge_empty quaternion_op p deltas (ma_ops ma) BX F) as (new & E & H).
    destruct (frames_at p (ma_ops ma) PL deltas (MData identity4 (Some (V3 1 1 1)) new) (start_at p) F H) as (d' & E' & H' & _). exists (inl (MData identity4 (Some (V3 1 1 1)) new)), (inl d'). rewrite frames_inl, E'.
    split; [reflexivity|]. unfold mdata_blend_to_ops. cbn [md_ops md_matrix md_scale]. rewrite E. auto.
Qed.
Lemma rig_frames_end from_matrix : forall l d d2, frames (rig_plays from_matrix) l d = Some d2 -> end_time d2 = end_time d.
Proof.
  induction l as [|x l IH]; intros d d2 E; cbn [frames] in E; [now injection E as <-|]. destruct (rig_plays from_matrix x d) as [d1|] eqn:F; [|discriminate]. rewrite (IH _ _ E).
  destruct (rig_frame_inv _ _ _ _ F) as (_ & _ & _ & _ & _ & _ & U). unfold update_global_transforms in U. cbn [weights motivators defining globals root_bone root_transform current end_time] in U. cbv zeta in U.
  destruct (global_loop _ _ _ _ _ _) as [[g r]|]; [|discriminate]. now injection U as <-.
Qed.
Lemma latest_concat tss us t : Forall2 latest tss us -> latest us t -> latest (concat tss) t.
Proof.
  intros F (A & B). split.
  - intros x [<-|I]; [apply A; now left|]. apply in_concat in I. destruct I as (ts & I & J). assert (G : exists u, latest ts u /\ In u us). { clear -F I. induction F as [|a b l r L F IH]; [destruct I|]. destruct I as [->|I]; [exists b; split; [exact L|now left]|destruct (IH I) as (u & L' & J); exists u; split; [exact L'|now right]]. }
    destruct G as (u & (LU & _) & IU). specialize (LU x (or_intror J)). specialize (A u (or_intror IU)). lia.
  - destruct B as [B|B]; [now left|]. assert (G : exists ts, In ts tss /\ latest ts t). { clear -F B. induction F as [|a b l r L F IH]; [destruct B|]. destruct B as [->|B]; [exists a; split; [now left|exact L]|destruct (IH B) as (ts & I & L'); exists ts; split; [now right|exact L']]. }
    destruct G as (ts & I & (_ & J)). destruct J as [J|J]; [now left|right]. apply in_concat. eauto.
Qed.
Lemma getz_next {A} (x : A) l i : (0 < i)%Z -> getz (x :: l) i = getz l (i - 1).
Proof. intros H. unfold getz. replace (i <? 0)%Z with false by lia. replace (i - 1 <? 0)%Z with false by lia. replace (Z.to_nat i) with (Datatypes.S (Z.to_nat (i - 1))) by lia. reflexivity. Qed.
Section Rig.
Context (from_matrix : mat3 -> quat).
Notation cls := (bone_class spline_class from_matrix).
(** C112 for rigs: the latest over all operations of all bones, unless the animation is endless. *)
Theorem C112_rig : forall def anim root t p deltas,
  parents_first (ra_parents def) (num_bones def) -> matches_hierarchy anim def = Some true \/ (num_bones def = 1 /\ 1 <= num_bones anim)%Z ->
  (-2147483648 <= t + ra_end anim < 2147483647)%Z -> blend_x p <= 0 -> deltas <> [] ->
  (forall i ma, (0 <= i < num_bones def)%Z -> getz (ra_anims anim) i = Some ma -> bone_playable p deltas ma /\ Forall (in_time p deltas) (ma_ops ma)) ->
  exists d0 d1 d2 u tss, rig_new cls def root t = Some d0 /\ blend_to_anim cls anim p t d0 = Some d1 /\ frames (rig_plays from_matrix) deltas d1 = Some d2 /\
    rig_time_remaining cls d2 = Some u /\
    len tss = num_bones def /\ (forall i, (0 <= i < num_bones def)%Z -> exists ma ts, getz (ra_anims anim) i = Some ma /\ getz tss i = Some ts /\ Forall2 (left p deltas) (ma_ops ma) ts) /\
    latest (concat tss) u.
Proof.
  intros def anim root t p deltas PF MH TI BX N PL.
  destruct (C108_rig from_matrix def anim root t p deltas PF MH ltac:(lia) BX N (fun i ma H G => proj1 (PL i ma H G))) as (d0 & d1 & d2 & E0 & E1 & F2 & _).
  assert (NM : (0 <= num_bones def)%Z) by apply num_bones_range.
  destruct (C56_new _ _ cls def root t PF) as (d0' & E0' & DF & _ & _ & _ & _ & LM & GM & _). rewrite E0 in E0'. injection E0' as <-.
  assert (RS : forall i, (0 <= i < num_bones def)%Z -> getz (resize (motivators d0) (num_bones def) None) i = Some None).
  { intros i Hi. unfold resize. rewrite getz_app1 by (unfold len in *; rewrite firstn_length; lia). rewrite getz_firstn. replace (i <? Z.of_nat (Z.to_nat (num_bones def)))%Z with true by lia. apply GM. exact Hi. }
  destruct (C59_accepts_partial _ _ cls d0 anim p t ltac:(lia)) as (d1' & E1' & L1 & _ & ET & DF1 & LW & BO); [now rewrite DF| |].
  { rewrite DF. intros i m ma Hi Em Ea. rewrite RS in Em by exact Hi. injection Em as <-. destruct (bone_starts_at from_matrix p deltas ma BX (proj1 (PL i ma Hi Ea))) as (b0 & b & b' & I0 & BL & _). exists b0, b. auto. }
  rewrite E1 in E1'. injection E1' as <-. rewrite DF in *. destruct (rig_frames _ _ _ _ F2) as (D2 & _ & _ & M2 & _ & B2 & _). pose proof (rig_frames_end _ _ _ _ F2) as ET2.
  assert (GB : forall i, (0 <= i < num_bones def)%Z -> exists ma b u ts, getz (ra_anims anim) i = Some ma /\ getz (motivators d2) i = Some (Some b) /\ Forall2 (left p deltas) (ma_ops ma) ts /\ b_time cls b = Some u /\ latest ts u).
  { intros i Hi. destruct (BO i Hi) as (m & ma & b0 & b & Em & Ea & ST & BL & G). rewrite RS in Em by exact Hi. injection Em as <-. cbn [start_of] in ST. destruct (PL i ma Hi Ea) as (BP & IT). destruct (bone_starts_at from_matrix p deltas ma BX BP) as (b0' & b1 & b' & I0 & BL' & FR & OA).
    rewrite ST in I0. injection I0 as <-. rewrite BL in BL'. injection BL' as <-. destruct (B2 i b G) as (b2 & Fb & Gb). rewrite FR in Fb. injection Fb as <-. destruct (ops_left _ _ _ _ OA (proj1 BP) IT) as (ts & A & B).
    destruct b' as [d|d]; cbn [bone_ops] in A; [destruct (C55_matrix _ _ _ spline_class d ts A) as (u & U & L)|destruct (C55_sqt _ _ _ spline_class d ts A) as (u & U & L)]; exists ma; eexists; exists u, ts; (split; [exact Ea|]); (split; [exact Gb|]); (split; [exact B|]); (split; [exact U|exact L]). }
  assert (CH : exists tss us, len tss = num_bones def /\ Forall2 (fun m u => match m with Some b => b_time cls b = Some u | None => u = 0%Z end) (motivators d2) us /\ Forall2 latest tss us /\
     forall i, (0 <= i < num_bones def)%Z -> exists ma ts, getz (ra_anims anim) i = Some ma /\ getz tss i = Some ts /\ Forall2 (left p deltas) (ma_ops ma) ts).
  { assert (LL : len (motivators d2) = num_bones def) by lia. rewrite <- LL in GB |- *. clear -GB. revert GB. generalize (ra_anims anim). generalize (motivators d2). intros l. induction l as [|m l IH]; intros as_ GB.
    - exists [], []. repeat (split; [constructor|]). intros i Hi. change (len (@nil (option (@bone slot)))) with 0%Z in Hi. lia.
    - destruct (GB 0%Z) as (ma & b & u & ts & Ea & Em & B & U & L); [rewrite len_cons; pose proof (len_nonneg l); lia|]. injection Em as ->. destruct as_ as [|a as_]; [discriminate|]. injection Ea as ->.
      destruct (IH as_) as (tss & us & L1 & F1 & F2 & G1).
      { intros i Hi. destruct (GB (i + 1)%Z) as (ma' & b' & u' & ts' & Ea & Em & REST); [rewrite len_cons; lia|]. rewrite getz_next in Ea by lia. rewrite getz_next in Em by lia. replace (i + 1 - 1)%Z with i in * by lia. exists ma', b', u', ts'. auto. }
      exists (ts :: tss), (u :: us). rewrite !len_cons. split; [lia|]. split; [constructor; [exact U|exact F1]|]. split; [constructor; assumption|]. intros i Hi. destruct (Z.eq_dec i 0) as [->|NZ]; [exists ma, ts; auto|].
      destruct (G1 (i - 1)%Z) as (ma' & ts' & A & A' & A''); [lia|]. exists ma', ts'. rewrite (getz_next ma as_), (getz_next ts tss) by lia. auto. }
  destruct CH as (tss & us & LT & FU & FL & G). destruct (C55_rig _ _ cls d2 us) as (u & EU & LU); [rewrite ET2, ET; unfold kMotiveTimeEndless; lia|exact FU|].
  exists d0, d1, d2, u, tss. repeat (split; [assumption|]). eapply latest_concat; eassumption.
Qed.
End Rig.
Print Assumptions C112_rig.

(** ** Concrete cases: the animation of two bones that RigPlayProps has, over three frames, repeating; and once, at rate 1. *)
Lemma walk_in_time deltas : Forall (in_time loops deltas) (ma_ops swing) /\ Forall (in_time loops deltas) (ma_ops nod).
Proof.
  assert (P : forall ex, end_x peak = Some ex -> ex + x_granularity peak / 2 < 2147483648 /\ (repeat_ loops = false -> position loops deltas < ex + 2147483648)).
  { intros ex EX. split; [|discriminate]. unfold end_x in EX. change (back peak) with (Some (Node 2 0 0)) in EX. injection EX as <-. unfold node_x. cbn [nx peak x_granularity]. lra. }
  split; (constructor; [exact P|constructor; [exact Logic.I|constructor]]).
Qed.
Example C112_rig_case : forall from_matrix, exists d0 d1 d2 u, rig_new (bone_class spline_class from_matrix) walk 0 5 = Some d0 /\ blend_to_anim (bone_class spline_class from_matrix) walk loops 5 d0 = Some d1 /\
  frames (rig_plays from_matrix) [1 / 2; 1 / 3; 1] d1 = Some d2 /\ rig_time_remaining (bone_class spline_class from_matrix) d2 = Some u.
Proof.
  intros from_matrix. destruct (C112_rig from_matrix walk walk 0 5 loops [1 / 2; 1 / 3; 1]) as (d0 & d1 & d2 & u & tss & A & B & C & D & _).
  - intros i Hi. change (num_bones walk) with 2%Z in Hi. assert (D : (i = 0 \/ i = 1)%Z) by lia. destruct D as [-> | ->]; eexists; (split; [reflexivity|]); [now left|right; lia].
  - left. reflexivity.
  - cbn. lia.
  - cbn. lra.
  - discriminate.
  - intros i ma Hi E. split; [apply (walk_playable [1 / 2; 1 / 3; 1]) with i; [repeat constructor; lra|exact Hi|exact E]|]. destruct (walk_in_time [1 / 2; 1 / 3; 1]) as (W1 & W2).
    change (num_bones walk) with 2%Z in Hi. assert (D : (i = 0 \/ i = 1)%Z) by lia. destruct D as [-> | ->]; injection E as <-; assumption.
  - exists d0, d1, d2, u. auto.
Qed.
(** Once, from the start, at rate 1: a unit of time later one unit is left, and then four units end it. *)
Example C112_ends_case : exists d d' d'', mdata_blend_to_ops spline_class (ma_ops swing) (playback_from 0) mdata_default = Some d /\ frames matrix_plays [1] d = Some d' /\
  mdata_time_remaining spline_class d' = Some 1%Z /\ frames matrix_plays [2; 2] d' = Some d'' /\ Forall (passed (playback_from 0) 1 [2; 2]) (ma_ops swing).
Proof.
  assert (EX : end_x peak = Some 2) by (unfold end_x; change (back peak) with (Some (Node 2 0 0)); unfold node_x; cbn [nx peak x_granularity]; f_equal; lra).
  assert (PL : forall deltas, Forall (fun d => 0 <= d <= 2) deltas -> Forall (playable (playback_from 0) deltas) (ma_ops swing)).
  { intros deltas F. constructor; [|constructor; [split; [cbn; lia|reflexivity]|constructor]]. split; [cbn; lia|]. cbn [swing ma_ops i_union i_init]. split; [|split; [|exists (Rg (-1) 1); split; [reflexivity|]; right; exists 1; split; [lra|f_equal; lra]]].
    - split; [apply peak_ok|]. split; [discriminate|cbn [playback_from start_at peak x_granularity]; lra].
    - eapply Forall_impl; [|exact F]. intros d D. unfold small_step. cbn [playback_from playback_rate peak x_granularity] in *. lra. }
  assert (IT : Forall (in_time (playback_from 0) [1]) (ma_ops swing)).
  { constructor; [|constructor; [exact Logic.I|constructor]]. unfold in_time. cbn [i_union]. intros ex E. rewrite EX in E. injection E as <-. unfold position. cbn [playback_from start_at playback_rate map sum peak x_granularity]. split; intros; lra. }
  assert (MT : forall i, In i (ma_ops swing) -> matrix_type (i_type i)) by (intros o [<-|[<-|[]]]; cbn; discriminate).
  destruct (C112_matrix (ma_ops swing) (playback_from 0) [1] mdata_default eq_refl ltac:(cbn; lra) MT (PL [1] ltac:(repeat constructor; lra)) IT) as (d & d' & t & ts & E & FR & TR & LE & (L1 & L2)).
  destruct (C112_ends (ma_ops swing) (playback_from 0) [1] [2; 2] mdata_default eq_refl ltac:(cbn; lra) MT (PL [1; 2; 2] ltac:(repeat constructor; lra)) IT eq_refl ltac:(discriminate)) as (d2 & d2' & d'' & t2 & E2 & FR2 & TR2 & FR3 & _).
  rewrite E in E2. injection E2 as <-. rewrite FR in FR2. injection FR2 as <-. exists d, d', d''. split; [exact E|]. split; [exact FR|]. split; [|split; [exact FR3|]].
  - rewrite TR. f_equal. inversion LE as [|? u ? us U LE' Q1 Q2]; subst. inversion LE' as [|? w ? ws W LE'' Q1 Q2]; subst. inversion LE''; subst. cbn [left i_union] in U, W. subst w. destruct U as (ex & x & E' & WR & RZ & _). rewrite EX in E'. injection E' as <-.
    assert (X1 : x = 1) by (unfold wrapped, position, playback_from in WR; cbn [repeat_ start_at playback_rate map sum] in WR; lra). subst x. specialize (RZ ltac:(lra)).
    assert (U : u = 1%Z). { assert (0 < u < 2)%Z; [split; apply lt_IZR; lra|lia]. } subst u. destruct L2 as [<-|[<-|[<-|[]]]]; [|reflexivity|]; specialize (L1 1%Z ltac:(right; left; reflexivity)); lia.
  - constructor; [|constructor; [exact Logic.I|constructor]]. unfold passed. cbn [i_union playback_from playback_rate sum peak x_granularity]. lra.
Qed.
