(** What becomes of one operation when a matrix or SQT motivator blends to new operations (C52, C54), and that the
    blend starts where the operation is (C98). *)
From Verif Require Import RBase BaseFacts MathfuModel RangeModel AngleModel OvershootModel SimpleModel EvaluatorModel SplineTargetModel MatrixModel MatrixProps SqtProps.
Local Open Scope R_scope.

(** The value that changes nothing: 1 for scales and for the real part of a quaternion. *)
Definition neutral (t : mtype) : R :=
  match t with ScaleX | ScaleY | ScaleZ | ScaleUniformly | QuaternionW => 1 | _ => 0 end.
(** An operation keeps its id and type. *)
Definition same_op {M} (o o' : op M) : Prop := op_id o' = op_id o /\ op_type o' = op_type o.
Definition constant_at {M} (v : R) (o : op M) : Prop := op_motivator o = None /\ op_const o = v.
(** [m'] is [m] on its way to [v], to be there after [t] with velocity 0. *)
Definition sent {M I S} (k : mclass M I S) (v : R) (t : Z) (m m' : M) : Prop := m_set_target k [MNode v 0 t Closest] m = Some m'.
(** A new motivator that was put at [v], at rest. *)
Definition starts_at {M I S} (k : mclass M I S) (i : opinit I S) (v : R) (m : M) : Prop :=
  exists init m0, i_init i = Some init /\ m_new k init = Some m0 /\ m_set_target k [MNode v 0 0 Closest] m0 = Some m.
(** The motivator that an operation has; if it has none, one that starts at its constant. *)
Definition motivator_of {M I S} (k : mclass M I S) (i : opinit I S) (o : op M) (m : M) : Prop :=
  op_motivator o = Some m \/ (op_motivator o = None /\ starts_at k i (op_const o) m).
(** Nearly at [v] and nearly at rest. *)
Definition rests_at {M I S} (k : mclass M I S) (v : R) (m : M) : Prop :=
  exists d, m_velocity k m = Some d /\ Rabs (m_value k m - v) <= 1 / 1000 /\ Rabs d <= 1 / 1000.

Lemma neutral_eq t : default_value t = neutral t. Proof. now destruct t. Qed.
Lemma nearly_iff a b e : nearly_equal a b e = true <-> Rabs (a - b) <= e.
Proof. unfold nearly_equal. split; [intros H; apply andb_prop in H; destruct H as [H1 H2]; apply Rleb_true in H1, H2; rabs; lra|]. intros H. rewrite !Rleb_t by (revert H; rabs; lra). reflexivity. Qed.

Section Steps.
Context {M I S : Type} (k : mclass M I S).

(** C52.  An operation that is not among the new ones goes to its default: a constant at once, a motivator
    within the blend time. *)
Theorem C52_default : forall t (o o' : op M), blend_to_default k t o = Some o' ->
  same_op o o' /\
  (op_motivator o = None -> constant_at (neutral (op_type o)) o') /\
  (forall m, op_motivator o = Some m -> exists m', op_motivator o' = Some m' /\ sent k (neutral (op_type o)) t m m').
Proof.
  intros t o o' E. unfold blend_to_default in E. rewrite neutral_eq in E. cbv zeta in E. destruct (op_motivator o) as [m|] eqn:OM.
  - assert (TG : (if (t =? 0)%Z then Some (current1f (neutral (op_type o)) 0) else target1f (neutral (op_type o)) 0 t) = Some [MNode (neutral (op_type o)) 0 t Closest] \/ (if (t =? 0)%Z then Some (current1f (neutral (op_type o)) 0) else target1f (neutral (op_type o)) 0 t) = None).
    { destruct (Z.eqb_spec t 0) as [->|_]; [now left|]. unfold target1f. destruct (0 <=? t)%Z; [now left|now right]. }
    destruct TG as [TG | TG]; rewrite TG in E; [|discriminate]. destruct (m_set_target k _ m) as [m'|] eqn:ST; [|discriminate]. injection E as <-. split; [split; reflexivity|]. split; [discriminate|].
    intros m0 [= <-]. exists m'. split; [reflexivity|exact ST].
  - injection E as <-. split; [split; reflexivity|]. split; [intros _; split; reflexivity|discriminate].
Qed.
Print Assumptions C52_default.

(** An operation whose new one is a value becomes that constant, if it is a constant or nearly rests there;
    otherwise its motivator is sent there within the blend time.  An operation whose new one has a target or a
    spline gets it, and a motivator if it has none.  One whose new one says nothing stays. *)
Theorem C52_blend : forall i p (o o' : op M), blend_to_op k i p o = Some o' -> same_op o o' /\
  match i_union i with
  | UEmpty => o' = o
  | UValue v =>
      constant_at v o' /\ (op_motivator o = None \/ exists m, op_motivator o = Some m /\ rests_at k v m) \/
      (exists m m' t, op_motivator o = Some m /\ ~ rests_at k v m /\ op_motivator o' = Some m' /\ to_motive_time (blend_x p) = Some t /\ sent k v t m m')
  | UTarget t => exists m m', motivator_of k i o m /\ op_motivator o' = Some m' /\ m_set_target k t m = Some m'
  | USpline s => exists m m', motivator_of k i o m /\ op_motivator o' = Some m' /\ m_set_spline k s p m = Some m'
  end.
Proof.
  intros i p o o' E. unfold blend_to_op in E.
  assert (EN : forall m, ensure_motivator k o i = Some m -> motivator_of k i o m).
  { intros m EM. unfold ensure_motivator in EM. unfold motivator_of, starts_at. destruct (op_motivator o) as [m0|]; [now left|]. right. split; [reflexivity|]. destruct (i_init i) as [init|]; [|discriminate]. destruct (m_new k init) as [m0|] eqn:N; [|discriminate]. exists init, m0. auto. }
  destruct (i_union i) as [|v|t|s].
  - injection E as <-. split; [split; reflexivity|reflexivity].
  - destruct (op_motivator o) as [m|] eqn:OM.
    + destruct (m_velocity k m) as [d|] eqn:V; [|discriminate]. destruct (nearly_equal (m_value k m) v kEpsilon) eqn:N1; [destruct (nearly_equal d 0 kEpsilon) eqn:N2|]; cbn [andb] in E.
      * injection E as <-. split; [split; reflexivity|]. left. split; [split; reflexivity|]. right. exists m. split; [reflexivity|]. exists d. apply nearly_iff in N1, N2. rewrite Rminus_0_r in N2. auto.
      * destruct (to_motive_time (blend_x p)) as [t|] eqn:T; [|discriminate]. unfold target1f in E. destruct (0 <=? t)%Z; [|discriminate]. destruct (m_set_target k _ m) as [m'|] eqn:ST; [|discriminate]. injection E as <-. split; [split; reflexivity|]. right.
        exists m, m', t. split; [reflexivity|]. split; [|split; [reflexivity|split; [reflexivity|exact ST]]]. intros (d' & V' & _ & R2). rewrite V in V'. injection V' as <-. rewrite (proj2 (nearly_iff d 0 kEpsilon)) in N2; [discriminate|]. rewrite Rminus_0_r. exact R2.
      * destruct (to_motive_time (blend_x p)) as [t|] eqn:T; [|discriminate]. unfold target1f in E. destruct (0 <=? t)%Z; [|discriminate]. destruct (m_set_target k _ m) as [m'|] eqn:ST; [|discriminate]. injection E as <-. split; [split; reflexivity|]. right.
        exists m, m', t. split; [reflexivity|]. split; [|split; [reflexivity|split; [reflexivity|exact ST]]]. intros (d' & V' & R1 & _). rewrite (proj2 (nearly_iff (m_value k m) v kEpsilon)) in N1; [discriminate|exact R1].
    + injection E as <-. split; [split; reflexivity|]. left. split; [split; reflexivity|now left].
  - destruct (ensure_motivator k o i) as [m|] eqn:EM; [|discriminate]. destruct (m_set_target k t m) as [m'|] eqn:ST; [|discriminate]. injection E as <-. split; [split; reflexivity|]. exists m, m'. auto.
  - destruct (ensure_motivator k o i) as [m|] eqn:EM; [|discriminate]. destruct (m_set_spline k s p m) as [m'|] eqn:ST; [|discriminate]. injection E as <-. split; [split; reflexivity|]. exists m, m'. auto.
Qed.
Print Assumptions C52_blend.

(** A new operation is made at its default, with a motivator if it has an init, and blended from there.  Its id
    is at most 254. *)
Theorem C52_new : forall i p (o' : op M), make_op k i p = Some o' -> (i_id i <= 254)%Z /\
  exists o, op_id o = i_id i /\ op_type o = i_type i /\ op_const o = neutral (i_type i) /\ blend_to_op k i p o = Some o' /\
    match i_init i with None => op_motivator o = None | Some _ => exists m, op_motivator o = Some m /\ starts_at k i (neutral (i_type i)) m end.
Proof.
  intros i p o' E. unfold make_op in E. destruct (i_id i <=? kMaxMatrixOpId)%Z eqn:L; [|discriminate]. split; [unfold kMaxMatrixOpId in L; lia|]. cbv zeta in E. rewrite neutral_eq in E. destruct (i_init i) as [init|] eqn:IN.
  - destruct (m_new k init) as [m0|] eqn:N; [|discriminate]. destruct (m_set_target k (current1f _ 0) m0) as [m|] eqn:ST; [|discriminate]. exists (Op (i_id i) (i_type i) (Some m) (neutral (i_type i))). do 4 (split; [first [reflexivity|exact E]|]). exists m. split; [reflexivity|]. exists init, m0. auto.
  - exists (Op (i_id i) (i_type i) None (neutral (i_type i))). do 4 (split; [first [reflexivity|exact E]|]). reflexivity.
Qed.
Print Assumptions C52_new.

(** ** C98 *)
(** The laws of a motivator.  Given a current value and velocity, it has them.  Given a target that is not now, or
    a spline to blend to, it is for now where it was, and as fast. *)
Definition keeps_current_velocity : Prop := forall v d m m', m_set_target k (current1f v d) m = Some m' -> m_velocity k m' = Some d.
Definition first_later (t : list mnode) : Prop := exists n l, t = n :: l /\ (0 < mn_time n)%Z.
Definition smooth_targets : Prop := forall t m m', first_later t -> m_set_target k t m = Some m' -> m_value k m' = m_value k m /\ m_velocity k m' = m_velocity k m.
Definition smooth_splines : Prop := forall s p m m', 0 < blend_x p -> m_set_spline k s p m = Some m' -> m_value k m' = m_value k m /\ m_velocity k m' = m_velocity k m.

(** C98.  The blend of an operation that has a motivator, or gets one, starts at its value and velocity, up to a
    thousandth.  Partial: not if a constant becomes another constant. *)
Theorem C98_blend_partial : keeps_current k -> keeps_current_velocity -> smooth_targets -> smooth_splines ->
  forall i p (o o' : op M), 1 <= blend_x p -> (forall t, i_union i = UTarget t -> first_later t) ->
  (forall v, i_union i = UValue v -> op_motivator o = None -> op_const o = v) -> blend_to_op k i p o = Some o' ->
  Rabs (op_value k o' - op_value k o) <= 1 / 1000 /\ forall d d', op_velocity k o = Some d -> op_velocity k o' = Some d' -> Rabs (d' - d) <= 1 / 1000.
Proof.
  intros KC KV ST SS i p o o' BX FL CC E. apply C52_blend in E. destruct E as [_ E].
  assert (MO : forall m, motivator_of k i o m -> m_value k m = op_value k o /\ m_velocity k m = op_velocity k o).
  { intros m [OM|[OM (init & m0 & _ & _ & T)]]; unfold op_value, op_velocity; rewrite OM; [auto|]. split; [exact (KC _ _ _ _ T)|exact (KV _ _ _ _ T)]. }
  assert (SAME : op_value k o' = op_value k o /\ op_velocity k o' = op_velocity k o -> Rabs (op_value k o' - op_value k o) <= 1 / 1000 /\ forall d d', op_velocity k o = Some d -> op_velocity k o' = Some d' -> Rabs (d' - d) <= 1 / 1000).
  { intros [-> ->]. split; [rewrite Rminus_eq_0, Rabs_R0; lra|]. intros d d' -> [= ->]. rewrite Rminus_eq_0, Rabs_R0. lra. }
  destruct (i_union i) as [|v|t|s] eqn:U.
  - subst o'. apply SAME. auto.
  - destruct E as [((N & C) & [OM|(m & OM & d0 & V & R1 & R2)])|(m & m' & t & OM & _ & OM' & T & SE)].
    + apply SAME. unfold op_value, op_velocity. rewrite N, OM. split; [|reflexivity]. rewrite C. symmetry. auto.
    + unfold op_value, op_velocity. rewrite N, OM, C. split; [rewrite Rabs_minus_sym; exact R1|]. intros d d' D [= <-]. rewrite V in D. injection D as <-. replace (0 - d0) with (- d0) by ring. rewrite Rabs_Ropp. exact R2.
    + apply SAME. unfold op_value, op_velocity. rewrite OM, OM'. apply (ST [MNode v 0 t Closest] m m'); [|exact SE]. exists (MNode v 0 t Closest), []. split; [reflexivity|]. cbn [mn_time].
      unfold to_motive_time in T. rewrite Rleb_t in T by lra. cbv zeta in T. destruct (_ && _); [|discriminate]. injection T as <-. pose proof (Rfloor_bounds (blend_x p)) as [_ F]. apply lt_IZR. lra.
  - destruct E as (m & m' & MM & OM' & T). apply SAME. destruct (MO m MM) as [<- <-]. unfold op_value, op_velocity. rewrite OM'. exact (ST _ _ _ (FL t eq_refl) T).
  - destruct E as (m & m' & MM & OM' & T). apply SAME. destruct (MO m MM) as [<- <-]. unfold op_value, op_velocity. rewrite OM'. refine (SS _ _ _ _ _ T); lra.
Qed.
Print Assumptions C98_blend_partial.

(** An operation that goes to its default stays where it is for now.  Partial: if it has a motivator or is at its
    default already. *)
Theorem C98_default_partial : smooth_targets -> forall t (o o' : op M), (0 < t)%Z -> (op_motivator o = None -> op_const o = neutral (op_type o)) -> blend_to_default k t o = Some o' ->
  op_value k o' = op_value k o /\ op_velocity k o' = op_velocity k o.
Proof.
  intros ST t o o' T CC E. apply C52_default in E. destruct E as (_ & E1 & E2). unfold op_value, op_velocity. destruct (op_motivator o) as [m|].
  - destruct (E2 m eq_refl) as (m' & -> & SE). refine (ST _ _ _ _ SE). eexists; eexists; split; [reflexivity|exact T].
  - destruct (E1 eq_refl) as [-> ->]. split; [|reflexivity]. symmetry. auto.
Qed.
Print Assumptions C98_default_partial.
End Steps.

(** C98 is false of constants: with whatever time for the blend, an operation at 0 is at 5 at once if the new one is
    the constant 5, and one at 5 that is not among the new ones is at 0 at once. *)
Theorem C98_constant_refuted : forall M I S (k : mclass M I S), exists (o o' o2 : op M) (i : opinit I S),
  (forall p, blend_to_op k i p o = Some o') /\ (forall t, blend_to_default k t o' = Some o2) /\ op_value k o = 0 /\ op_value k o' = 5 /\ op_value k o2 = 0.
Proof.
  intros M I S k. exists (Op 0 TranslateX None 0), (Op 0 TranslateX None 5), (Op 0 TranslateX None 0), (OpInit None 0 TranslateX (UValue 5)).
  repeat split; intros; reflexivity.
Qed.
Print Assumptions C98_constant_refuted.

(** A motivator that meets the laws: its state is its value, its velocity and what it was told last. *)
Definition lazy_class : mclass (R * R * list mnode) unit R :=
  MClass (R * R * list mnode) unit R (fun _ => Some (0, 0, [])) (fun m => fst (fst m)) (fun m => Some (snd (fst m))) (fun _ => Some 7%Z)
    (fun t m => n <- getz t 0 ;; if (mn_time n =? 0)%Z then Some (mn_value n, mn_velocity n, t) else Some (fst m, t)) (fun s p m => if Rltb 0 (blend_x p) then Some (fst m, []) else Some (s, 0, [])) (fun s => Some s).
Example C98_case : keeps_current lazy_class /\ keeps_current_velocity lazy_class /\ smooth_targets lazy_class /\ smooth_splines lazy_class /\
  exists o', blend_to_op lazy_class (OpInit (Some tt) 0 TranslateX (USpline 7)) (Playback 0 100 1 0 1 true) (Op 0 TranslateX None 5) = Some o' /\ op_value lazy_class o' = 5.
Proof.
  split; [intros v d m m' E; injection E as <-; reflexivity|]. split; [intros v d m m' E; injection E as <-; reflexivity|]. split; [|split].
  - intros t m m' (n & l & -> & T) E. cbn in E. rewrite (proj2 (Z.eqb_neq _ _)) in E by lia. injection E as <-. auto.
  - intros s p m m' B E. cbn [lazy_class m_set_spline] in E. rewrite Rltb_t in E by exact B. injection E as <-. auto.
  - eexists. cbn. rewrite Rltb_t by lra. split; reflexivity.
Qed.

(** ** C54 *)
(** Where a new operation starts. *)
Definition init_starts {M I S} (k : mclass M I S) (i : opinit I S) (v : R) : Prop :=
  match i_union i with
  | UEmpty => v = neutral (i_type i)
  | UValue u => v = u
  | UTarget t => exists n l, t = n :: l /\ v = mn_value n
  | USpline s => spline_start_y k s = Some v
  end.
(** [v] is where the last of the new operations of type [t] starts, or the default if there is none. *)
Definition aims {M I S} (k : mclass M I S) (new : list (opinit I S)) (t : mtype) (v : R) : Prop :=
  (exists X i Y, new = X ++ i :: Y /\ i_type i = t /\ (forall j, In j Y -> i_type j <> t) /\ init_starts k i v) \/
  ((forall j, In j new -> i_type j <> t) /\ v = neutral t).
(** The orientation that alignment compares with is that in which the new operations start. *)
Theorem C54_goal : forall M I S (k : mclass M I S) new q, next_quaternion k qidentity new = Some q ->
  aims k new QuaternionW (qw q) /\ aims k new QuaternionX (qx q) /\ aims k new QuaternionY (qy q) /\ aims k new QuaternionZ (qz q).
Proof.
  intros M I S k.
  assert (ST : forall i v, init_start_value k i = Some v -> init_starts k i v).
  { intros i v E. unfold init_start_value in E. unfold init_starts. destruct (i_union i) as [|u|t|s]; [injection E as <-; apply neutral_eq|now injection E as <-| |exact E]. destruct t as [|n l]; [discriminate|]. injection E as <-. eauto. }
  pose (got := fun (new : list (opinit I S)) t (q0 v : R) => (exists X i Y, new = X ++ i :: Y /\ i_type i = t /\ (forall j, In j Y -> i_type j <> t) /\ init_starts k i v) \/ ((forall j, In j new -> i_type j <> t) /\ v = q0)).
  assert (G : forall new q0 q, next_quaternion k q0 new = Some q -> got new QuaternionW (qw q0) (qw q) /\ got new QuaternionX (qx q0) (qx q) /\ got new QuaternionY (qy q0) (qy q) /\ got new QuaternionZ (qz q0) (qz q)).
  { induction new as [|i new IH]; intros q0 q E; [injection E as <-; unfold got; repeat split; right; (split; [intros ? []|reflexivity])|]. cbn [next_quaternion] in E.
    assert (K : forall t a v, got new t a v -> (i_type i <> t -> got (i :: new) t a v) /\ (i_type i = t -> init_starts k i a -> forall b, got (i :: new) t b v)).
    { intros t a v [(X & j & Y & -> & H)|[N ->]].
      - split; intros; left; exists (i :: X), j, Y; (split; [reflexivity|exact H]).
      - split; [intros NE; right; split; [intros j [<-|J]; [exact NE|exact (N j J)]|reflexivity]|]. intros T IS b. left. exists [], i, new. auto. }
    destruct (i_type i) eqn:T; cbv iota in E;
      try (destruct (init_start_value k i) as [u|] eqn:IV; [apply ST in IV|discriminate E]); apply IH in E; cbn [qw qx qy qz] in E; destruct E as (G1 & G2 & G3 & G4);
      (split; [|split; [|split]]); first [apply (proj1 (K _ _ _ G1)); discriminate|apply (proj2 (K _ _ _ G1) eq_refl IV)|apply (proj1 (K _ _ _ G2)); discriminate|apply (proj2 (K _ _ _ G2) eq_refl IV)|
        apply (proj1 (K _ _ _ G3)); discriminate|apply (proj2 (K _ _ _ G3) eq_refl IV)|apply (proj1 (K _ _ _ G4)); discriminate|apply (proj2 (K _ _ _ G4) eq_refl IV)]. }
  intros new q E. exact (G new qidentity q E).
Qed.
Print Assumptions C54_goal.

(** Alignment leaves everything, or negates values and velocities of the quaternion's operations and leaves the
    others. *)
Theorem C54_velocity : forall M I S (k : mclass M I S) new (d d1 : qdata M), keeps_current k -> keeps_current_velocity k -> align_quaternion_ops k new d = Some d1 -> d1 = d \/
  Forall2 (fun o o' => same_op o o' /\
    match op_type o with
    | QuaternionW | QuaternionX | QuaternionY | QuaternionZ => op_value k o' = - op_value k o /\ exists v, op_velocity k o = Some v /\ op_velocity k o' = Some (- v)
    | _ => o' = o
    end) (qd_ops d) (qd_ops d1).
Proof.
  intros M I S k new d d1 KC KV E. destruct (align_cases k new d d1 E) as (next & q & _ & _ & [(_ & ops & En & ->)|(_ & ->)]); [right|now left]. cbn [qd_ops]. clear E. revert ops En. induction (qd_ops d) as [|o l IH]; intros ops E; cbn [negate_ops] in E; [injection E as <-; constructor|].
  destruct (negate_op k o) as [o'|] eqn:E1; [|discriminate]. destruct (negate_ops k l) as [l'|]; [|discriminate]. injection E as <-. constructor; [|now apply IH]. clear IH.
  assert (Q : quaternion_op (op_type o) = true -> same_op o o' /\ op_value k o' = - op_value k o /\ exists v, op_velocity k o = Some v /\ op_velocity k o' = Some (- v)).
  { intros Q. unfold negate_op in E1. rewrite Q in E1. cbv zeta in E1. destruct (op_motivator o) as [m|] eqn:OM.
    - destruct (op_velocity k o) as [v|] eqn:V; [|discriminate]. unfold op_set_target in E1. rewrite OM in E1. destruct (m_set_target k _ m) as [m'|] eqn:SE; [|discriminate]. injection E1 as <-. split; [split; reflexivity|]. split; [exact (KC _ _ _ _ SE)|]. exists v. split; [reflexivity|exact (KV _ _ _ _ SE)].
    - unfold op_set_value in E1. rewrite OM in E1. destruct (_ || _); [|discriminate]. injection E1 as <-. split; [split; reflexivity|]. split; [reflexivity|]. exists 0. unfold op_velocity. cbn [op_motivator]. rewrite OM. rewrite Ropp_0. auto. }
  destruct (op_type o) eqn:T; try (unfold negate_op in E1; rewrite T in E1; cbn [quaternion_op] in E1; injection E1 as <-; split; [split; auto|reflexivity]); destruct (Q eq_refl) as [Q1 Q2]; split; auto.
Qed.
Print Assumptions C54_velocity.
