(** C106: a clone shows what its original shows, and would go on to show.  C40: copied indices. *)
From Verif Require Import RBase BaseFacts RangeModel RangeProofs CurveModel CurveProofs MathfuModel CompactSplineModel CompactSplineSpec CompactSplineProofs CompactSplineIndex EvaluatorModel EvaluatorSpec EvaluatorProofs EvaluatorProps EvaluatorOpProps OvershootModel SimpleModel SplineTargetModel MatrixModel CloneModel.
From Coq Require Import Lia.

(** ** C40: CopyIndices *)
Lemma copy_sources_hit alloc : forall count ev d s ev' k, copy_sources ev d s count alloc = Some ev' -> (0 <= k < Z.of_nat count)%Z ->
  (s + Z.of_nat count <= d \/ d + Z.of_nat count <= s)%Z ->
  exists t u, getz ev (s + k) = Some t /\ getz ev (d + k) = Some u /\ getz ev' (d + k) = Some (with_source u (alloc (d + k)%Z (source t))).
Proof.
  induction count as [|n IH]; intros ev d s ev' k E K D; [lia|]. cbn [copy_sources] in E.
  destruct (getz ev s) as [t|] eqn:T; [|discriminate]. destruct (modify ev d _) as [ev1|] eqn:M; [|discriminate]. destruct (modify_getz _ _ _ _ M) as (_ & R1 & G1).
  destruct (Z.eq_dec k 0) as [->|N].
  - rewrite !Z.add_0_r. destruct (getz_in_range ev d R1) as [u U]. exists t, u. split; [exact T|]. split; [exact U|]. destruct (copy_sources_getz _ _ _ _ _ _ E) as [_ G]. rewrite G by lia.
    specialize (G1 d). rewrite Z.eqb_refl, U in G1. exact G1.
  - destruct (IH _ _ _ _ (k - 1)%Z E ltac:(lia) ltac:(lia)) as (t' & u & T' & U & E'). replace (s + 1 + (k - 1))%Z with (s + k)%Z in T' by lia. replace (d + 1 + (k - 1))%Z with (d + k)%Z in * by lia.
    rewrite G1 in T', U. replace (s + k =? d)%Z with false in T' by lia. replace (d + k =? d)%Z with false in U by lia. eauto.
Qed.
(** Copying takes along everything but the spline, which is what the given function returns for the index and the
    spline of the original; if the ranges do not overlap.  All else is as before. *)
Theorem C40_copy : forall ev dst src count alloc ev', copy_indices ev dst src count alloc = Some ev' ->
  (src + Z.of_nat count <= dst \/ dst + Z.of_nat count <= src)%Z ->
  num_indices ev' = num_indices ev /\
  (forall k, (0 <= k < Z.of_nat count)%Z -> exists s, getz ev (src + k) = Some s /\ getz ev' (dst + k) = Some (with_source s (alloc (dst + k)%Z (source s)))) /\
  (forall j, ~ (dst <= j < dst + Z.of_nat count)%Z -> getz ev' j = getz ev j).
Proof.
  intros ev dst src count alloc ev' E D. unfold copy_indices in E. destruct (move_indices ev src dst count) as [ev1|] eqn:M; [|discriminate].
  destruct (move_getz _ _ _ _ _ M) as [L G]. destruct (copy_sources_getz _ _ _ _ _ _ E) as [L' G']. split; [unfold num_indices; lia|]. split.
  - intros k K. destruct (copy_sources_hit _ _ _ _ _ _ _ E K D) as (t & u & T & U & H). destruct (C40_move _ _ _ _ _ _ M K ltac:(lia)) as [MV _]. rewrite U in MV. rewrite G in T by lia. rewrite T in MV. injection MV as ->.
    exists t. auto.
  - intros j J. now rewrite G', G.
Qed.
Print Assumptions C40_copy.

(** ** C106: spline motivators *)
(** The same spline, whatever room there is for more nodes. *)
Definition same_spline (a b : option spline) : Prop :=
  match a, b with
  | Some s, Some t => y_range s = y_range t /\ x_granularity s = x_granularity t /\ nodes s = nodes t
  | None, None => True
  | _, _ => False
  end.
(** The same state: value, velocity, position, everything; only the room in the spline may differ. *)
Definition same_state (s t : slot) : Prop := same_spline (source s) (source t) /\ t = with_source s (source t).

Definition with_room (c : Z) (sp : spline) : spline := Spline (y_range sp) (x_granularity sp) (nodes sp) c.
Definition slot_room (c : Z) (s : slot) : slot := with_source s (match source s with Some sp => Some (with_room c sp) | None => None end).
Lemma same_room c s : same_state s (slot_room c s).
Proof. unfold same_state, slot_room. split; [|reflexivity]. cbn. destruct (source s); cbn; auto. Qed.
Lemma same_is_room s t : same_state s t -> exists c, t = slot_room c s.
Proof.
  intros [SP ->]. unfold same_spline in SP. destruct t as [? ? ? st ? ? ? ? ? ? ?]. cbn [source with_source] in *. unfold slot_room. destruct (source s) as [a|], st as [b|]; try contradiction.
  - destruct SP as (A & B & C). exists (max_nodes b). f_equal. f_equal. unfold with_room. rewrite A, B, C. now destruct b.
  - now exists 0%Z.
Qed.
Lemma same_refl s : same_state s s.
Proof. destruct s as [? ? ? sp ? ? ? ? ? ? ?]. split; [|reflexivity]. cbn. destruct sp; cbn; auto. Qed.

Section Room.
Variable c : Z.
Lemma room_index sp x g b : index_for_x_allowing_repeat (with_room c sp) x g b = index_for_x_allowing_repeat sp x g b. Proof. reflexivity. Qed.
Lemma init_room s x : init_cubic (slot_room c s) x = (t <- init_cubic s x ;; Some (slot_room c t)).
Proof.
  unfold init_cubic, slot_room. cbn [source with_source x_index repeats rate offset_y scale_y modular_range cur_y]. destruct (source s) as [sp|] eqn:SS; [|now rewrite SS].
  rewrite room_index. destruct (index_for_x_allowing_repeat sp x _ _) as [[i nx]|]; [|reflexivity].
  change (range_x (with_room c sp) i) with (range_x sp i). destruct (range_x sp i) as [r|]; [|reflexivity].
  change (create_cubic_init (with_room c sp) i) with (create_cubic_init sp i). destruct (create_cubic_init sp i); reflexivity.
Qed.
Lemma slot_x_room s : slot_x (slot_room c s) = slot_x s.
Proof. unfold slot_x, cubic_start_x, slot_room. cbn [source with_source x_index cubic_x]. destruct (source s); reflexivity. Qed.
Lemma advance_room d s : advance_slot d (slot_room c s) = (t <- advance_slot d s ;; Some (slot_room c t)).
Proof.
  unfold advance_slot. cbv zeta. change (step_x d (slot_room c s)) with (slot_room c (step_x d s)). change (past_end (slot_room c (step_x d s))) with (past_end (step_x d s)).
  destruct (past_end (step_x d s)); [|reflexivity]. unfold reinit_slot. rewrite slot_x_room. destruct (slot_x (step_x d s)) as [x|]; [|reflexivity]. rewrite init_room. destruct (init_cubic (step_x d s) x); reflexivity.
Qed.
Lemma run_room l : forall s, run_slot (slot_room c s) l = (t <- run_slot s l ;; Some (slot_room c t)).
Proof. induction l as [|d l IH]; intros s; cbn [run_slot]; [reflexivity|]. rewrite advance_room. destruct (advance_slot d s); [apply IH|reflexivity]. Qed.
Lemma set_spline_room sp p s : set_spline sp p (slot_room c s) = set_spline sp p s.
Proof. unfold set_spline, slot_room. cbn [source with_source]. destruct (source s); reflexivity. Qed.
End Room.

(** The clone is in the state of the original, all other indices stay as they are.  Whatever calls follow, on other
    indices, the original among them, the clone goes on as the original would have done over the same frames. *)
Theorem C106_spline : forall ev dst src count capacity ev1, clone_indices ev dst src count capacity = Some ev1 ->
  (src + Z.of_nat count <= dst \/ dst + Z.of_nat count <= src)%Z ->
  (forall j, ~ (dst <= j < dst + Z.of_nat count)%Z -> getz ev1 j = getz ev j) /\
  forall k, (0 <= k < Z.of_nat count)%Z ->
    (exists s t, getz ev (src + k) = Some s /\ getz ev1 (dst + k) = Some t /\ same_state s t) /\
    forall ops ev2 ev', apply_ops ev1 ops = Some ev2 -> (forall o, In o ops -> ~ touches o (dst + k)) -> advance_frames ev (frame_times ops) = Some ev' ->
      exists s t, getz ev' (src + k) = Some s /\ getz ev2 (dst + k) = Some t /\ same_state s t.
Proof.
  intros ev dst src count capacity ev1 E D. unfold clone_indices in E. destruct (clone_ready ev dst src count capacity) eqn:RD; [|discriminate].
  destruct (C40_copy _ _ _ _ _ _ E D) as (L & H & OT). split; [exact OT|]. intros k K. destruct (H k K) as (s & S & T).
  assert (RK : forall count d0 s0 k, clone_ready ev d0 s0 count capacity = true -> (0 <= k < Z.of_nat count)%Z -> exists s sp, getz ev (s0 + k) = Some s /\ source s = Some sp /\ (num_nodes sp <= capacity (d0 + k))%Z).
  { clear. induction count as [|n IH]; intros d0 s0 k R K; [lia|]. cbn [clone_ready] in R. apply andb_prop in R. destruct R as [R1 R2]. destruct (Z.eq_dec k 0) as [->|N].
    - rewrite !Z.add_0_r. destruct (getz ev s0) as [s|]; [|discriminate]. destruct (source s) as [sp|] eqn:SS; [|discriminate]. exists s, sp. split; [reflexivity|]. split; [exact SS|lia].
    - destruct (IH _ _ (k - 1)%Z R2 ltac:(lia)) as (s & sp & A & B & C). replace (s0 + 1 + (k - 1))%Z with (s0 + k)%Z in A by lia. replace (d0 + 1 + (k - 1))%Z with (d0 + k)%Z in C by lia. eauto. }
  destruct (RK _ _ _ _ RD K) as (s' & sp & S' & SS & CAP). rewrite S in S'. injection S' as <-.
  assert (TE : getz ev1 (dst + k) = Some (slot_room (capacity (dst + k)%Z) s)).
  { rewrite T. unfold clone_spline, assign_spline, slot_room. rewrite SS. cbn [max_nodes]. replace (num_nodes sp <=? capacity (dst + k))%Z with true by lia. reflexivity. }
  split; [exists s, (slot_room (capacity (dst + k)%Z) s); split; [exact S|]; split; [exact TE|apply same_room]|].
  intros ops ev2 ev' A NT F. destruct (advance_frames_getz _ _ _ F) as [_ GF]. specialize (GF (src + k)%Z). rewrite S in GF.
  assert (G2 : getz ev2 (dst + k) = (u <- run_slot (slot_room (capacity (dst + k)%Z) s) (frame_times ops) ;; Some u)).
  { revert ev1 A TE E L H OT T. clear -NT. intros ev1 A TE _ _ _ _ _. revert ev1 A TE. generalize (slot_room (capacity (dst + k)%Z) s) as u. induction ops as [|o ops IH]; intros u ev1 A TE; cbn [apply_ops] in A.
    - injection A as <-. exact TE.
    - destruct (apply_op ev1 o) as [ev3|] eqn:O; [|discriminate]. destruct (apply_op_getz _ _ _ O) as [_ G]. specialize (G (dst + k)%Z (NT o (or_introl eq_refl))). rewrite TE in G.
      rewrite frame_times_cons, run_slot_app. destruct (run_slot u (frame_times [o])) as [v|].
      + exact (IH (fun o' I => NT o' (or_intror I)) v ev3 A G).
      + exfalso. pose proof (apply_op_getz _ _ _ O) as [LN _]. destruct (getz ev1 (dst + k)) eqn:GG; [|discriminate]. apply getz_Some in GG. destruct (getz_in_range ev3 (dst + k)%Z ltac:(lia)) as [w W]. congruence. }
  rewrite run_room in G2. destruct (run_slot s (frame_times ops)) as [u|] eqn:RU.
  - exists u, (slot_room (capacity (dst + k)%Z) u). split; [exact GF|]. split; [exact G2|apply same_room].
  - exfalso. pose proof (advance_frames_getz _ _ _ F) as [LN _]. apply getz_Some in S. destruct (getz_in_range ev' (src + k)%Z ltac:(lia)) as [w W]. congruence.
Qed.
Print Assumptions C106_spline.
