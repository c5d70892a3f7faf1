(** C111: operations that are blended from one animation to another. *)
From Verif Require Import RBase BaseFacts RangeModel RangeProofs CurveModel CurveProofs MathfuModel CompactSplineModel CompactSplineSpec CompactSplineProofs CompactSplineIndex EvaluatorModel EvaluatorSpec EvaluatorProofs EvaluatorPlay EvaluatorProps EvaluatorOpProps CompactSplineEvalProps OvershootModel SimpleModel SplineTargetModel SplineTargetProps MatrixModel MatrixProps SqtProps RigModel RigProps CloneModel CloneProps SplineClassModel TwinProps PlayProps EvaluatorBlendProps SplineTargetProofs SplineQueryProps OpStepProps FadeProofs.
From Coq Require Import Lia.
Local Open Scope R_scope.

(** An operation that is a constant, or whose motivator follows a spline. *)
Definition op_lively (o : op slot) : Prop := match op_motivator o with Some m => lively m | None => True end.
(** Operations that can be blended to: a constant, or a spline, over frames that are not longer than an int can hold. *)
Definition fadeable (p : playback) (deltas : list R) (i : opinit range spline) : Prop :=
  (i_id i <= 254)%Z /\
  match i_union i with
  | UValue _ => i_init i = None
  | USpline sp => blend_ok sp p /\ Forall (fun d => small_step sp (d * playback_rate p)) deltas /\ exists r, i_init i = Some r /\ about_zero r
  | _ => False
  end.
(** The blend takes at least one tick, and the frames are not longer than 32 seconds. *)
Definition fade_time (p : playback) (deltas : list R) : Prop := 1 <= blend_x p < 2147483648 /\ Forall (fun d => 0 <= d <= 32000) deltas.
(** The blend is over. *)
Definition over (p : playback) (deltas : list R) : Prop := blend_x p * (100001 / 100000) <= sum deltas.

(** [v] is what the operation comes to, told to be [u]: [u], if it was a constant or is new; nearly [u], if it had a motivator. *)
Definition comes_to (old : option (op slot)) (u v : R) : Prop :=
  match old with
  | Some o => match op_motivator o with Some m => near (modular_range m) u (cur_y m) v | None => v = u end
  | None => v = u
  end.
(** What becomes of the operation of an id after the blend: it shows the new animation; if that has none for it, it goes
    to its default. *)
Definition landed (p : playback) (deltas : list R) (old : option (op slot)) (new : option (opinit range spline)) (final : option (op slot)) : Prop :=
  match old, new, final with
  | None, None, None => True
  | _, Some i, Some o =>
      op_type o = match old with Some o0 => op_type o0 | None => i_type i end /\
      match i_union i with
      | UValue u => comes_to old u (op_value spline_class o)
      | _ => shows p deltas i (op_value spline_class o)
      end
  | Some o0, None, Some o => op_type o = op_type o0 /\ comes_to old (neutral (op_type o0)) (op_value spline_class o)
  | _, _, _ => False
  end.
(** What it is just after the call: where it was, and as fast, times the rate.  A constant that is told another
    constant is there at once. *)
Definition where_it_was (o0 : op slot) (new : option (opinit range spline)) (p : playback) (o : op slot) : Prop :=
  match op_motivator o0, new with
  | Some m, Some i =>
      match i_union i with
      | UValue u => Rabs (op_value spline_class o - cur_y m) <= 1 / 1000 \/ near (modular_range m) (cur_y m) u (op_value spline_class o)
      | _ => same_angle (modular_range m) (cur_y m) (op_value spline_class o) /\ forall d, op_velocity spline_class o0 = Some d -> op_velocity spline_class o = Some (playback_rate p * d)
      end
  | Some m, None => near (modular_range m) (cur_y m) (neutral (op_type o0)) (op_value spline_class o)
  | None, Some i =>
      match i_union i with
      | UValue u => op_value spline_class o = u
      | _ => (exists r, i_init i = Some r /\ near r (op_const o0) (op_const o0) (op_value spline_class o)) /\ op_velocity spline_class o = Some 0
      end
  | None, None => op_value spline_class o = neutral (op_type o0)
  end.

Definition run_op (l : list R) (o : op slot) : option (op slot) :=
  match op_motivator o with Some m => m' <- run_slot m l ;; Some (Op (op_id o) (op_type o) (Some m') (op_const o)) | None => Some o end.

Lemma blend_time p deltas : fade_time p deltas -> exists t, to_motive_time (blend_x p) = Some t /\ (0 < t)%Z /\ IZR t <= blend_x p.
Proof.
  intros ([B1 B2] & _). unfold to_motive_time. rewrite Rleb_t by lra. cbv zeta. pose proof (Rfloor_bounds (blend_x p)) as [F1 F2]. assert (0 < Rfloor (blend_x p))%Z by (apply lt_IZR; lra).
  assert (Rfloor (blend_x p) < 2147483648)%Z by (apply lt_IZR; lra). replace ((-2147483648 <=? Rfloor (blend_x p)) && (Rfloor (blend_x p) <=? 2147483647))%Z with true by lia. exists (Rfloor (blend_x p)). auto.
Qed.

(** ** One operation *)
Definition fades p deltas o0 new (o1 : option (op slot)) : Prop :=
  exists o o', o1 = Some o /\ run_op deltas o = Some o' /\ op_id o' = op_id o /\ op_lively o /\ op_lively o' /\ op_type o = op_type o0 /\ where_it_was o0 new p o /\ (over p deltas -> landed p deltas (Some o0) new (Some o')).
Lemma sent_fades p deltas o m u new : op_motivator o = Some m -> lively m -> fade_time p deltas -> (match new with Some i => i_union i = UValue u | None => u = neutral (op_type o) end) ->
  forall t, to_motive_time (blend_x p) = Some t -> exists m', slot_set_target [MNode u 0 t Closest] m = Some m' /\ fades p deltas o new (Some (Op (op_id o) (op_type o) (Some m') (op_const o))).
Proof.
  intros OM LV FT NEW t TT. destruct (blend_time _ _ FT) as (t' & TT' & T0 & TB). rewrite TT in TT'. injection TT' as <-. destruct (sent_run m u t deltas LV T0 (proj2 FT)) as (m1 & m2 & E & R1 & L1 & L2 & NS & NE).
  exists m1. split; [exact E|]. exists (Op (op_id o) (op_type o) (Some m1) (op_const o)), (Op (op_id o) (op_type o) (Some m2) (op_const o)). split; [reflexivity|]. unfold run_op. cbn [op_motivator op_id op_type op_const]. rewrite R1.
  split; [reflexivity|]. split; [reflexivity|]. split; [exact L1|]. split; [exact L2|]. split; [reflexivity|].
  assert (NE' : over p deltas -> near (modular_range m) u (cur_y m) (cur_y m2)) by (intros OV; apply NE; unfold over in OV; lra).
  unfold where_it_was, landed, op_value, comes_to. rewrite OM. cbn [op_motivator op_type spline_class m_value]. destruct new as [i|].
  - rewrite NEW. split; [now right|]. intros OV. split; [reflexivity|]. now apply NE'.
  - subst u. split; [exact NS|]. intros OV. split; [reflexivity|]. now apply NE'.
Qed.
Lemma spline_fades p deltas i sp o m c : i_union i = USpline sp -> op_motivator o = Some m -> lively m -> fadeable p deltas i ->
  exists m' m2, set_spline sp p m = Some m' /\ run_op deltas (Op (op_id o) (op_type o) (Some m') c) = Some (Op (op_id o) (op_type o) (Some m2) c) /\ lively m' /\ lively m2 /\
    same_angle (modular_range m) (cur_y m) (cur_y m') /\ slot_derivative m' = playback_rate p * slot_derivative m /\ (over p deltas -> 1 <= blend_x p -> shows p deltas i (cur_y m2)).
Proof.
  intros U OM LV (_ & FD). rewrite U in FD. destruct FD as (OK & SM & _). destruct (fade_run m sp p deltas LV OK SM) as (m1 & m2 & E & R1 & L1 & L2 & SA & SD & H). exists m1, m2. split; [exact E|].
  unfold run_op. cbn [op_motivator op_id op_type op_const]. rewrite R1. do 4 (split; [first [reflexivity|assumption]|]). split; [exact SD|]. intros OV B1. unfold over in OV. destruct H as (x & PX & YX & WX); [lra|].
  unfold shows. rewrite U. destruct OK as (O & _). destruct (placed_plays _ _ _ _ O PX) as (_ & _ & v & d & SP & CY & _). rewrite (evaluated_same m2 YX) in CY. exists x, v, d. auto.
Qed.

Lemma blend_fades p deltas i o : op_lively o -> fadeable p deltas i -> fade_time p deltas -> fades p deltas o (Some i) (blend_to_op spline_class i p o).
Proof.
  intros LV FD FT. pose proof FT as ([B1 _] & _). unfold blend_to_op. destruct (i_union i) as [|u|t|sp] eqn:U; try (destruct FD as [_ FD]; rewrite U in FD; contradiction).
  - unfold op_lively in LV. destruct (op_motivator o) as [m|] eqn:OM.
    + cbn [spline_class m_velocity m_value]. destruct (_ && _) eqn:N.
      * apply andb_prop in N. destruct N as [N _]. apply nearly_iff in N. exists (Op (op_id o) (op_type o) None u), (Op (op_id o) (op_type o) None u). do 6 (split; [first [reflexivity|exact Logic.I]|]).
        unfold where_it_was, landed, op_value, comes_to. rewrite OM, U. cbn [op_motivator op_const op_type]. split; [left; rewrite Rabs_minus_sym; exact N|]. intros _. split; [reflexivity|apply near_refl].
      * destruct (blend_time _ _ FT) as (t & TT & T0 & _). rewrite TT. unfold target1f. replace (0 <=? t)%Z with true by lia. cbn [spline_class m_set_target]. destruct (sent_fades p deltas o m u (Some i) OM LV FT U t TT) as (m' & E & F). rewrite E. exact F.
    + exists (Op (op_id o) (op_type o) None u), (Op (op_id o) (op_type o) None u). do 6 (split; [first [reflexivity|exact Logic.I]|]). unfold where_it_was, landed, op_value, comes_to. rewrite OM, U. cbn [op_motivator op_const op_type]. auto.
  - unfold ensure_motivator, op_lively in *. destruct (op_motivator o) as [m|] eqn:OM.
    + cbn [spline_class m_set_spline]. destruct (spline_fades p deltas i sp o m (op_const o) U OM LV FD) as (m1 & m2 & E & R1 & L1 & L2 & SA & SD & SH). rewrite E.
      exists (Op (op_id o) (op_type o) (Some m1) (op_const o)), (Op (op_id o) (op_type o) (Some m2) (op_const o)). split; [reflexivity|]. split; [exact R1|]. do 4 (split; [first [reflexivity|assumption]|]).
      unfold where_it_was, landed, op_value, op_velocity. rewrite OM, U. cbn [op_motivator op_type spline_class m_value m_velocity]. split; [split; [exact SA|intros d [= <-]; now rewrite SD]|]. intros OV. auto.
    + pose proof FD as (_ & FD'). rewrite U in FD'. destruct FD' as (_ & _ & r & IN & AZ). rewrite IN. cbn [spline_class m_new m_set_target m_set_spline]. destruct (current_ok r (op_const o) AZ) as (m & E0 & LM & MR & NR & D0). rewrite E0.
      destruct (spline_fades p deltas i sp (Op (op_id o) (op_type o) (Some m) (op_const o)) m (op_const o) U eq_refl LM FD) as (m1 & m2 & E & R1 & L1 & L2 & SA & SD & SH). cbn [op_id op_type] in *. rewrite E.
      exists (Op (op_id o) (op_type o) (Some m1) (op_const o)), (Op (op_id o) (op_type o) (Some m2) (op_const o)). split; [reflexivity|]. split; [exact R1|]. do 4 (split; [first [reflexivity|assumption]|]).
      unfold where_it_was, landed, op_value, op_velocity. rewrite OM, U. cbn [op_motivator op_type spline_class m_value m_velocity]. split; [|intros OV; auto]. split; [exists r; split; [exact IN|]; rewrite MR in SA; eapply near_angle; eauto|]. now rewrite SD, D0, Rmult_0_r.
Qed.
Lemma default_fades p deltas o t : op_lively o -> fade_time p deltas -> to_motive_time (blend_x p) = Some t -> fades p deltas o None (blend_to_default spline_class t o).
Proof.
  intros LV FT TT. destruct (blend_time _ _ FT) as (t' & TT' & T0 & TB). rewrite TT in TT'. injection TT' as <-. unfold blend_to_default. cbv zeta. rewrite neutral_eq. unfold op_lively in LV. destruct (op_motivator o) as [m|] eqn:OM.
  - destruct (Z.eqb_spec t 0) as [|_]; [lia|]. unfold target1f. replace (0 <=? t)%Z with true by lia. cbn [spline_class m_set_target]. destruct (sent_fades p deltas o m (neutral (op_type o)) None OM LV FT eq_refl t TT) as (m' & E & F). rewrite E. exact F.
  - exists (Op (op_id o) (op_type o) None (neutral (op_type o))), (Op (op_id o) (op_type o) None (neutral (op_type o))). do 6 (split; [first [reflexivity|exact Logic.I]|]). unfold where_it_was, landed, op_value, comes_to. rewrite OM. cbn [op_motivator op_const op_type]. auto.
Qed.
(** A new operation. *)
Lemma make_fades p deltas i : fadeable p deltas i -> fade_time p deltas ->
  exists o o', make_op spline_class i p = Some o /\ run_op deltas o = Some o' /\ op_id o' = op_id o /\ op_lively o /\ op_lively o' /\ op_type o = i_type i /\ (over p deltas -> landed p deltas None (Some i) (Some o')).
Proof.
  intros FD FT. pose proof FT as ([B1 _] & _). pose proof FD as [ID FD']. unfold make_op. replace (i_id i <=? kMaxMatrixOpId)%Z with true by (unfold kMaxMatrixOpId; lia). cbv zeta. rewrite neutral_eq. destruct (i_union i) as [|u|t|sp] eqn:U; try contradiction.
  - rewrite FD'. unfold blend_to_op. rewrite U. cbn [op_motivator op_id op_type]. exists (Op (i_id i) (i_type i) None u), (Op (i_id i) (i_type i) None u). do 6 (split; [first [reflexivity|exact Logic.I]|]). unfold landed, comes_to. rewrite U. auto.
  - destruct FD' as (_ & _ & r & IN & AZ). rewrite IN. cbn [spline_class m_new m_set_target]. destruct (current_ok r (neutral (i_type i)) AZ) as (m & E0 & LM & _). rewrite E0.
    set (o := Op (i_id i) (i_type i) (Some m) (neutral (i_type i))). destruct (blend_fades p deltas i o LM FD FT) as (o1 & o2 & E & R1 & I2 & L1 & L2 & T1 & _ & LD). exists o1, o2. split; [exact E|]. do 4 (split; [assumption|]).
    split; [exact T1|]. intros OV. specialize (LD OV). unfold landed in *. rewrite U in *. exact LD.
Qed.

(** ** All of them *)
Lemma outcome_fades p deltas old new : (forall o, old = Some o -> op_lively o) -> (forall i, new = Some i -> fadeable p deltas i) -> fade_time p deltas ->
  match outcome spline_class p old new with
  | None => False
  | Some None => old = None /\ new = None
  | Some (Some o) => exists o', run_op deltas o = Some o' /\ op_id o' = op_id o /\ op_lively o /\ op_lively o' /\
      op_type o = match old, new with Some o0, _ => op_type o0 | None, Some i => i_type i | None, None => op_type o end /\
      (forall o0, old = Some o0 -> where_it_was o0 new p o) /\ (over p deltas -> landed p deltas old new (Some o'))
  end.
Proof.
  intros LV FD FT. unfold outcome. destruct old as [o0|], new as [i|].
  - destruct (blend_fades p deltas i o0 (LV _ eq_refl) (FD _ eq_refl) FT) as (o & o' & E & R & I & L1 & L2 & T & W & LD). rewrite E. exists o'. do 5 (split; [assumption|]). split; [|exact LD]. intros o1 [= <-]. exact W.
  - destruct (blend_time _ _ FT) as (t & TT & _). rewrite TT. destruct (default_fades p deltas o0 t (LV _ eq_refl) FT TT) as (o & o' & E & R & I & L1 & L2 & T & W & LD). rewrite E. exists o'. do 5 (split; [assumption|]). split; [|exact LD]. intros o1 [= <-]. exact W.
  - destruct (make_fades p deltas i (FD _ eq_refl) FT) as (o & o' & E & R & I & L1 & L2 & T & LD). rewrite E. exists o'. do 5 (split; [assumption|]). split; [discriminate|exact LD].
  - auto.
Qed.
Lemma find_in {A} (f : A -> bool) l a : find f l = Some a -> In a l.
Proof. intros H. exact (proj1 (find_some f l H)). Qed.
Lemma find_asc {M} (l : list (op M)) : ascending (map op_id l) -> forall o, In o l -> find_op (op_id o) l = Some o.
Proof.
  induction l as [|a l IH]; intros A o I; [destruct I|]. cbn [map] in A. apply Sorted.StronglySorted_inv in A. destruct A as [A1 A2]. unfold find_op. cbn [find]. destruct I as [->|I]; [now rewrite Z.eqb_refl|].
  rewrite Forall_forall in A2. pose proof (A2 _ (in_map op_id _ _ I)). destruct (Z.eqb_spec (op_id a) (op_id o)); [lia|]. now apply IH.
Qed.
Lemma map_all_find (f : op slot -> option (op slot)) : forall l, (forall o, In o l -> exists o', f o = Some o' /\ op_id o' = op_id o) ->
  exists l', map_all f l = Some l' /\ map op_id l' = map op_id l /\ forall id, find_op id l' = match find_op id l with Some o => f o | None => None end.
Proof.
  induction l as [|o l IH]; intros H; [exists []; auto|]. destruct (H o (or_introl eq_refl)) as (o' & E & I). destruct (IH (fun x X => H x (or_intror X))) as (l' & E' & M & F). exists (o' :: l'). cbn [map_all map]. rewrite E, E', M, I.
  split; [reflexivity|]. split; [reflexivity|]. intros id. unfold find_op. cbn [find]. rewrite I. destruct (op_id o =? id)%Z; [now rewrite E|exact (F id)].
Qed.
Lemma map_all_forall {A B} (f : A -> option B) (P : B -> Prop) : (forall l l', (forall a b, In a l -> f a = Some b -> P b) -> map_all f l = Some l' -> Forall P l').
Proof.
  induction l as [|a l IH]; intros l' H E; cbn [map_all] in E; [injection E as <-; constructor|]. destruct (f a) as [b|] eqn:F; [|discriminate]. destruct (map_all f l) as [r|]; [|discriminate]. injection E as <-.
  constructor; [eapply H; [now left|exact F]|]. apply IH; [|reflexivity]. intros x y I. apply H. now right.
Qed.
Lemma run_op_type l o o' : run_op l o = Some o' -> op_type o' = op_type o.
Proof. unfold run_op. destruct (op_motivator o) as [m|]; [|intros [= <-]; reflexivity]. destruct (run_slot m l); [|discriminate]. intros [= <-]. reflexivity. Qed.

Lemma merged fb p deltas ops inits : ascending (map op_id ops) -> ascending (map i_id inits) -> (forall i, In i inits -> fb (i_type i) = false) ->
  Forall op_lively ops -> Forall (fadeable p deltas) inits -> fade_time p deltas ->
  exists res res2, merge_ops spline_class fb ops inits p = Some res /\ map_all (run_op deltas) res = Some res2 /\ Forall op_lively res2 /\ ascending (map op_id res) /\ map op_id res2 = map op_id res /\
    (forall o, In o res -> (exists o0, In o0 ops /\ op_type o = op_type o0) \/ exists i, In i inits /\ op_type o = i_type i) /\
    (forall id o0, find_op id ops = Some o0 -> exists o, find_op id res = Some o /\ op_type o = op_type o0 /\ where_it_was o0 (find_init id inits) p o) /\
    (over p deltas -> forall id, landed p deltas (find_op id ops) (find_init id inits) (find_op id res2)).
Proof.
  intros AO AI FB LV FD FT. rewrite Forall_forall in LV, FD.
  assert (OF := fun id => outcome_fades p deltas (find_op id ops) (find_init id inits) (fun o E => LV o (find_in _ _ _ E)) (fun i E => FD i (find_in _ _ _ E)) FT).
  destruct (merge_succeeds spline_class fb p ops inits AO AI FB) as [res E]; [intros id H; specialize (OF id); now rewrite H in OF|]. rewrite merge_ops_ok, E. exists res.
  destruct (merge_spec spline_class fb p ops inits res AO AI E) as [AR OUT].
  assert (ON : forall id o, find_op id res = Some o -> exists o', run_op deltas o = Some o' /\ op_id o' = op_id o /\ op_lively o /\ op_lively o' /\
      op_type o = match find_op id ops, find_init id inits with Some o0, _ => op_type o0 | None, Some i => i_type i | None, None => op_type o end /\
      (forall o0, find_op id ops = Some o0 -> where_it_was o0 (find_init id inits) p o) /\ (over p deltas -> landed p deltas (find_op id ops) (find_init id inits) (Some o'))).
  { intros id o F. specialize (OF id). rewrite (OUT id), F in OF. exact OF. }
  destruct (map_all_find (run_op deltas) res) as (res2 & E2 & M2 & F2); [intros o I; destruct (ON _ _ (find_asc res AR o I)) as (o' & R & J & _); eauto|]. exists res2.
  split; [reflexivity|]. split; [exact E2|]. split; [|split; [exact AR|split; [exact M2|split; [|split]]]].
  - eapply map_all_forall; [|exact E2]. intros o o' I R. destruct (ON _ _ (find_asc res AR o I)) as (o2 & R2 & _ & _ & L2 & _). congruence.
  - intros o I. destruct (ON _ _ (find_asc res AR o I)) as (_ & _ & _ & _ & _ & T & _). specialize (OF (op_id o)). rewrite (OUT (op_id o)), (find_asc res AR o I) in OF.
    destruct (find_op (op_id o) ops) as [o0|] eqn:FO; [left; exists o0; split; [eapply find_in; exact FO|exact T]|]. destruct (find_init (op_id o) inits) as [i|] eqn:FI; [right; exists i; split; [eapply find_in; exact FI|exact T]|].
    exfalso. pose proof (OUT (op_id o)) as OU. rewrite FO, FI, (find_asc res AR o I) in OU. discriminate OU.
  - intros id o0 FO. destruct (find_op id res) as [o|] eqn:FR.
    + exists o. destruct (ON id o FR) as (_ & _ & _ & _ & _ & T & W & _). rewrite FO in T. split; [reflexivity|]. split; [exact T|]. now apply W.
    + exfalso. specialize (OF id). rewrite (OUT id), FR in OF. destruct OF; congruence.
  - intros OV id. rewrite F2. destruct (find_op id res) as [o|] eqn:FR.
    + destruct (ON id o FR) as (o' & R & _ & _ & _ & _ & _ & LD). rewrite R. now apply LD.
    + specialize (OF id). rewrite (OUT id), FR in OF. destruct OF as [-> ->]. exact Logic.I.
Qed.

(** ** Frames *)
Lemma advance_then_run d l o : run_op (d :: l) o = (o1 <- op_advance (advance_slot d) o ;; run_op l o1).
Proof. unfold run_op, op_advance. cbn [run_slot]. destruct (op_motivator o) as [m|] eqn:OM; [|now rewrite OM]. destruct (advance_slot d m); reflexivity. Qed.
Lemma map_all_bind {A B C} (f : A -> option B) (g : B -> option C) (h : A -> option C) : (forall a, h a = (b <- f a ;; g b)) -> forall l r, map_all h l = Some r -> exists l1, map_all f l = Some l1 /\ map_all g l1 = Some r.
Proof.
  intros H. induction l as [|a l IH]; intros r E; cbn [map_all] in *; [injection E as <-; exists []; auto|]. rewrite H in E. destruct (f a) as [b|]; [|discriminate]. destruct (g b) as [c|] eqn:G; [|discriminate].
  destruct (map_all h l) as [r'|]; [|discriminate]. injection E as <-. destruct (IH r' eq_refl) as (l1 & -> & E2). exists (b :: l1). cbn [map_all]. rewrite G, E2. auto.
Qed.
Lemma op_advance_type f o o' : op_advance f o = Some o' -> @op_type slot o' = op_type o.
Proof. unfold op_advance. destruct (op_motivator o) as [m|]; [|intros [= <-]; reflexivity]. destruct (f m); [|discriminate]. intros [= <-]. reflexivity. Qed.
Lemma matrix_frames : forall deltas d ops, map_all (run_op deltas) (md_ops d) = Some ops -> (forall o, In o (md_ops d) -> matrix_type (op_type o)) ->
  exists d', frames matrix_plays deltas d = Some d' /\ md_ops d' = ops /\
    (deltas <> [] -> exists es, Forall2 (fun o e => elementary (op_type o) (op_value spline_class o) = Some e) ops es /\ md_matrix d' = product es).
Proof.
  induction deltas as [|x l IH]; intros d ops E T.
  - assert (ops = md_ops d) as ->. { revert ops E. induction (md_ops d) as [|o os IHo]; intros ops E; cbn [map_all] in E; [now injection E as <-|]. assert (R0 : run_op [] o = Some o) by (unfold run_op; cbn; destruct o as [i t [m|] c]; reflexivity). rewrite R0 in E. destruct (map_all (run_op []) os) as [r|]; [|discriminate]. injection E as <-. f_equal. apply IHo; [|reflexivity]. intros o' I. apply T. now right. }
    exists d. split; [reflexivity|]. split; [reflexivity|congruence].
  - destruct (map_all_bind _ _ _ (advance_then_run x l) _ _ E) as (ops1 & E1 & E2). cbn [frames]. unfold matrix_plays at 1, mdata_frame. rewrite E1.
    assert (T1 : forall o, In o ops1 -> matrix_type (op_type o)).
    { apply Forall_forall. eapply map_all_forall; [|exact E1]. intros o o' I A. rewrite (op_advance_type _ _ _ A). now apply T. }
    destruct (all_elementary ops1 T1) as [es ES]. unfold mdata_update at 1. cbn [md_ops]. rewrite (C51_product _ _ _ _ _ _ ES). cbn [fst snd]. set (d1 := MData _ _ ops1).
    destruct (IH d1 ops E2 T1) as (d' & F & O & P). exists d'. split; [exact F|]. split; [exact O|]. intros _. destruct l as [|y l]; [|apply P; discriminate]. cbn [frames] in F. injection F as <-. exists es. subst ops. split; [exact ES|reflexivity].
Qed.

(** C111.  A matrix motivator whose operations are constants or follow splines is blended to any other such operations without
    fail, and the frames do not fail either.  After the call every operation is where it was and as fast (times the new rate).
    After every frame the matrix is the product of the operations at the values they show.  Once the blend is over, each
    operation shows the new animation, or is at its default if that has none for it. *)
Theorem C111_matrix : forall d inits p deltas, ascending (map op_id (md_ops d)) -> Forall op_lively (md_ops d) -> (forall o, In o (md_ops d) -> matrix_type (op_type o)) ->
  ascending (map i_id inits) -> Forall (fadeable p deltas) inits -> (forall i, In i inits -> matrix_type (i_type i)) -> fade_time p deltas -> deltas <> [] ->
  exists d1 d2, mdata_blend_to_ops spline_class inits p d = Some d1 /\ frames matrix_plays deltas d1 = Some d2 /\
    (forall id o0, find_op id (md_ops d) = Some o0 -> exists o, find_op id (md_ops d1) = Some o /\ op_type o = op_type o0 /\ where_it_was o0 (find_init id inits) p o) /\
    (ascending (map op_id (md_ops d2)) /\ Forall op_lively (md_ops d2) /\ (forall o, In o (md_ops d2) -> matrix_type (op_type o))) /\
    (exists es, Forall2 (fun o e => elementary (op_type o) (op_value spline_class o) = Some e) (md_ops d2) es /\ md_matrix d2 = product es) /\
    (over p deltas -> forall id, landed p deltas (find_op id (md_ops d)) (find_init id inits) (find_op id (md_ops d2))).
Proof.
  intros d inits p deltas AO LV TO AI FD TI FT ND.
  destruct (merged quaternion_op p deltas (md_ops d) inits AO AI) as (res & res2 & E & E2 & L2 & AR & M2 & TY & WW & LD); auto.
  { intros i I. specialize (TI i I). unfold matrix_type in TI. destruct (i_type i); cbn in *; congruence. }
  assert (TR : forall o, In o res -> matrix_type (op_type o)) by (intros o I; destruct (TY o I) as [(o0 & I0 & ->)|(i & I0 & ->)]; auto).
  unfold mdata_blend_to_ops. rewrite E. exists (MData (md_matrix d) (md_scale d) res). destruct (matrix_frames deltas (MData (md_matrix d) (md_scale d) res) res2 E2 TR) as (d2 & F & O2 & P). exists d2. rewrite O2 in *.
  split; [reflexivity|]. split; [exact F|]. split; [exact WW|]. split; [|split; [exact (P ND)|exact LD]]. rewrite M2. split; [exact AR|]. split; [exact L2|].
  apply Forall_forall. eapply map_all_forall; [|exact E2]. intros o o' I R. rewrite (run_op_type _ _ _ R). now apply TR.
Qed.
Print Assumptions C111_matrix.

(** ** SQT motivators *)
(** An operation of a quaternion that was turned to its negative, and stays. *)
Definition turned (o o' : op slot) : Prop :=
  same_op o o' /\
  if quaternion_op (op_type o) then
    match op_motivator o, op_motivator o' with
    | Some m, Some m' => modular_range m' = modular_range m /\ near (modular_range m) (- cur_y m) (- cur_y m) (cur_y m')
    | None, None => op_const o' = - op_const o
    | _, _ => False
    end
  else o' = o.
Lemma negate_turned o : op_lively o -> exists o', negate_op spline_class o = Some o' /\ turned o o' /\ op_lively o'.
Proof.
  intros LV. unfold negate_op, turned. destruct (quaternion_op (op_type o)) eqn:Q; [|exists o; repeat split; auto]. cbv zeta. unfold op_lively in LV. destruct (op_motivator o) as [m|] eqn:OM.
  - unfold op_velocity, op_set_target. rewrite OM. cbn [spline_class m_velocity m_set_target]. assert (OV : op_value spline_class o = cur_y m) by (unfold op_value; now rewrite OM). rewrite OV.
    destruct (current_any m (- cur_y m) (- slot_derivative m) (proj2 LV)) as (m' & E & L' & MR & NR & _). rewrite E. eexists. split; [reflexivity|]. cbn [op_motivator]. split; [repeat split; assumption|exact L'].
  - unfold op_set_value. rewrite OM. assert (RT : rotate_op (op_type o) = false) by (destruct (op_type o); cbn in *; congruence). rewrite RT. cbn [negb orb]. assert (OV : op_value spline_class o = op_const o) by (unfold op_value; now rewrite OM). rewrite OV.
    eexists. split; [reflexivity|]. cbn [op_motivator op_const]. split; [repeat split|exact Logic.I].
Qed.
Lemma negate_all : forall l, Forall op_lively l -> exists l', negate_ops spline_class l = Some l' /\ Forall2 turned l l' /\ Forall op_lively l'.
Proof.
  induction 1 as [|o l LV F IH]; [exists []; repeat constructor|]. destruct (negate_turned o LV) as (o' & E & T & L'). destruct IH as (l' & E' & T' & F'). exists (o' :: l'). cbn [negate_ops]. rewrite E, E'. split; [reflexivity|]. split; constructor; assumption.
Qed.
Lemma turned_same l l' : Forall2 turned l l' -> map op_id l' = map op_id l /\ map op_type l' = map op_type l.
Proof. induction 1 as [|o o' l l' (S1 & _) F [IH1 IH2]]; [auto|]. destruct S1 as [I T]. cbn [map]. split; congruence. Qed.
Lemma sqt_frames : forall deltas d d', frames sqt_plays deltas d = Some d' -> map_all (run_op deltas) (qd_ops d) = Some (qd_ops d') /\
  (deltas <> [] -> exists d0, qd_ops d0 = qd_ops d' /\ qdata_update spline_class d0 = Some d').
Proof.
  induction deltas as [|x l IH]; intros d d' E; cbn [frames] in E.
  - injection E as <-. split; [|congruence]. induction (qd_ops d) as [|o os IHo]; [reflexivity|]. cbn [map_all]. rewrite IHo. unfold run_op. cbn [run_slot]. destruct o as [i t [m|] c]; reflexivity.
  - unfold sqt_plays at 1, qdata_frame in E. destruct (map_all (op_advance (advance_slot x)) (qd_ops d)) as [ops1|] eqn:E1; [|discriminate]. destruct (qdata_update spline_class _) as [d1|] eqn:U; [|discriminate].
    assert (O1 : qd_ops d1 = ops1). { unfold qdata_update in U. cbn [qd_ops] in U. destruct (sqt_steps _ _ _) as [[[t q] sc]|]; [|discriminate]. destruct (qnormalize q); [|discriminate]. now injection U as <-. }
    destruct (IH d1 d' E) as (R1 & UP). split.
    + rewrite O1 in R1. clear -E1 R1. revert ops1 E1 R1. generalize (qd_ops d'). induction (qd_ops d) as [|o os IHo]; intros fin ops1 E1 R1; cbn [map_all] in *; [injection E1 as <-; exact R1|].
      rewrite advance_then_run. destruct (op_advance (advance_slot x) o) as [o1|]; [|discriminate]. destruct (map_all (op_advance (advance_slot x)) os) as [os1|]; [|discriminate]. injection E1 as <-. cbn [map_all] in R1.
      destruct (run_op l o1); [|discriminate]. destruct (map_all (run_op l) os1) as [r|] eqn:RR; [|discriminate]. rewrite (IHo r os1 eq_refl RR). exact R1.
    + intros _. destruct l as [|y l]; [|apply UP; discriminate]. cbn [frames] in E. injection E as <-. eexists. split; [|exact U]. cbn [qd_ops]. now rewrite O1.
Qed.
Lemma fadeable_playable p deltas i : fadeable p deltas i -> playable p deltas i.
Proof.
  intros (ID & FD). split; [exact ID|]. destruct (i_union i); auto. destruct FD as ((O & CR & SX & BX & PR & EX) & SM & AZ). split; [|split; [exact SM|exact AZ]]. split; [exact O|]. split; [exact CR|]. assert (0 < blend_x p * playback_rate p) by (apply Rmult_lt_0_compat; lra). lra.
Qed.

(** The transform that operations show: scale, then the rotation of the quaternion at unit length, then the move. *)
Definition transform_of (ops : list (op slot)) (m : mat4) : Prop :=
  exists u r, let l := map (fun o => (op_type o, op_value spline_class o)) ops in
    unit_of u (last_quaternion l) /\ (forall v, mat_vec3 r v = rotated u v) /\ m = mmul (translating (last_translation l)) (mmul (rotating r) (scaling (last_scale l))).
(** How the orientation shown and the one that the new operations start in lie to each other: their product, up to a
    positive factor. *)
Definition alongside (d : qdata slot) (inits : list (opinit range spline)) (P : R -> Prop) : Prop :=
  forall vs, Forall2 starts inits vs -> P (qdot (qd_rotation d) (last_quaternion (combine (map i_type inits) vs))).
Lemma starts_same : forall inits vs vs', Forall2 starts inits vs -> Forall2 starts inits vs' -> vs = vs'.
Proof.
  induction inits as [|i inits IH]; intros vs vs' F F'; inversion F as [|? v ? l S1 F1]; inversion F' as [|? v' ? l' S2 F2]; subst; [reflexivity|]. f_equal; [|now apply IH]. unfold starts in *. destruct (i_union i); try tauto; [congruence|]. destruct S1 as (n & G & ->), S2 as (n' & G' & ->). congruence.
Qed.
(** C111 for SQT motivators.  The blend succeeds if the orientation that the new operations start in has a direction.  It starts
    where the operations are; those of the quaternion are turned to their negatives first, and stay for that, if the orientation shown and
    the new one lie more than a quarter turn apart as quaternions (C54).  The frames can fail only if the quaternion vanishes (C53_zero_refuted). *)
Theorem C111_sqt : forall d inits p deltas, ascending (map op_id (qd_ops d)) -> Forall op_lively (qd_ops d) ->
  ascending (map i_id inits) -> Forall (fadeable p deltas) inits -> (forall i, In i inits -> rotate_op (i_type i) = false) -> (forall vs, Forall2 starts inits vs -> directed inits vs) -> fade_time p deltas ->
  exists d1 start, qdata_blend_to_ops spline_class inits p d = Some d1 /\
    (start = qd_ops d /\ alongside d inits (fun c => 0 <= c) \/ Forall2 turned (qd_ops d) start /\ alongside d inits (fun c => c < 0)) /\
    (forall id o0, find_op id start = Some o0 -> exists o, find_op id (qd_ops d1) = Some o /\ op_type o = op_type o0 /\ where_it_was o0 (find_init id inits) p o) /\
    forall d2, frames sqt_plays deltas d1 = Some d2 ->
      (ascending (map op_id (qd_ops d2)) /\ Forall op_lively (qd_ops d2)) /\ (deltas <> [] -> transform_of (qd_ops d2) (qd_matrix d2)) /\
      (over p deltas -> forall id, landed p deltas (find_op id start) (find_init id inits) (find_op id (qd_ops d2))).
Proof.
  intros d inits p deltas AO LV AI FD RT DI FT.
  assert (AL : exists d0, align_quaternion_ops spline_class inits d = Some d0 /\ (qd_ops d0 = qd_ops d /\ alongside d inits (fun c => 0 <= c) \/ Forall2 turned (qd_ops d) (qd_ops d0) /\ alongside d inits (fun c => c < 0)) /\ Forall op_lively (qd_ops d0)).
  { unfold align_quaternion_ops. destruct (next_quaternion_last p deltas inits qidentity) as (vs & FV & EN); [eapply Forall_impl; [|exact FD]; intros i; apply fadeable_playable|]. specialize (DI vs FV). unfold directed, last_quaternion in DI. rewrite EN. cbv zeta. cbn [qidentity qw qx qy qz].
    destruct (qnormalize_unit _ DI) as (u & EU & _ & l & L0 & QL). rewrite EU.
    assert (SG : forall vs', Forall2 starts inits vs' -> qdot (qd_rotation d) (last_quaternion (combine (map i_type inits) vs')) = l * qdot (qd_rotation d) u).
    { intros vs' FV'. rewrite <- (starts_same _ _ _ FV FV'). unfold last_quaternion. rewrite QL. destruct (qd_rotation d) as [a0 a1 a2 a3], u as [b0 b1 b2 b3]. unfold qdot, qscale. cbn. ring. }
    destruct (Rltb_spec (qdot (qd_rotation d) u) 0) as [NG|PS].
    - destruct (negate_all _ LV) as (l' & E' & T' & F'). rewrite E'. eexists. split; [reflexivity|]. cbn [qd_ops]. split; [|exact F']. right. split; [exact T'|]. intros vs' FV'. rewrite (SG _ FV'). rewrite <- (Rmult_0_r l). now apply Rmult_lt_compat_l.
    - exists d. split; [reflexivity|]. split; [|exact LV]. left. split; [reflexivity|]. intros vs' FV'. rewrite (SG _ FV'). apply Rmult_le_pos; lra. }
  destruct AL as (d0 & EA & TU & LV0). assert (AO0 : ascending (map op_id (qd_ops d0))) by (destruct TU as [[-> _]|[TU _]]; [exact AO|rewrite (proj1 (turned_same _ _ TU)); exact AO]).
  destruct (merged rotate_op p deltas (qd_ops d0) inits AO0 AI RT LV0 FD FT) as (res & res2 & E & E2 & L2 & AR & M2 & TY & WW & LD).
  exists (QData (qd_matrix d0) (qd_rotation d0) (qd_scale d0) res), (qd_ops d0). unfold qdata_blend_to_ops. rewrite EA, E. split; [reflexivity|]. split; [exact TU|]. split; [exact WW|].
  intros d2 F. destruct (sqt_frames _ _ _ F) as (R2 & UP). cbn [qd_ops] in R2. rewrite E2 in R2. injection R2 as R2. rewrite <- R2. rewrite M2. split; [split; [exact AR|exact L2]|]. split; [|exact LD].
  intros ND. destruct (UP ND) as (dd & OD & U). rewrite <- R2 in OD. destruct (forallb (fun o => sqt_type (op_type o)) (qd_ops dd)) eqn:T; [|rewrite C53_unsupported in U by exact T; discriminate].
  assert (NZ : quaternion_part spline_class (qd_ops dd) <> Quat 0 0 0 0) by (intros Z; rewrite qdata_update_eq, Z, qnormalize_zero in U by exact T; discriminate).
  destruct (C53_update_partial _ _ _ spline_class dd T NZ) as (d3 & r & E3 & MX & UN & RO & _ & _). rewrite U in E3. injection E3 as <-. rewrite OD in *. exists (qd_rotation d2), r. cbv zeta. unfold last_quaternion, last_translation, last_scale. rewrite <- !component_last.
  repeat split; auto; apply UN.
Qed.
Print Assumptions C111_sqt.
