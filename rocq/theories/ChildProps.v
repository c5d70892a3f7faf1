(** Property C121: the children of matrix motivators. *)
From Verif Require Import RBase BaseFacts MathfuModel RangeModel AngleModel OvershootModel SimpleModel EvaluatorModel SplineTargetModel MatrixModel RigModel ChildModel MatrixProps SqtProps OpStepProps.
Local Open Scope R_scope.

(** ** Spec *)
(** What may be given to a constant child: anything, but for rotations an angle. *)
Definition settable {M} (o : op M) (v : R) : Prop :=
  op_motivator o = None /\ (rotate_op (op_type o) = true -> - PI < v <= PI).
(** An operation of the same kind, whose constant is [v]. *)
Definition constant_now {M} (v : R) (o o' : op M) : Prop :=
  op_id o' = op_id o /\ op_type o' = op_type o /\ op_motivator o' = None /\ op_const o' = v.

Section Children.
Context {M I S : Type} (k : mclass M I S).
Lemma set_value_ok v (o : op M) o' : op_set_value v o = Some o' <-> settable o v /\ o' = Op (op_id o) (op_type o) None v.
Proof.
  unfold op_set_value, settable. destruct (op_motivator o) as [m|]; [split; [discriminate|intros ((? & _) & _); discriminate]|].
  assert (IR : AngleModel.in_range v = true <-> - PI < v <= PI). { unfold AngleModel.in_range. rewrite andb_true_iff. rewrite ?Rleb_true, ?Rltb_true. reflexivity. }
  destruct (rotate_op (op_type o)); cbn [negb orb].
  - destruct (AngleModel.in_range v); [|split; [discriminate|intros ((_ & X) & _); specialize (X eq_refl); now apply IR in X]]. split; [intros [= <-]; split; [split; [reflexivity|intros _; now apply IR]|reflexivity]|intros (_ & ->); reflexivity].
  - split; [intros [= <-]; split; [split; [reflexivity|discriminate]|reflexivity]|intros (_ & ->); reflexivity].
Qed.
Lemma set_values_ok : forall vs i (ops : list (op M)), (0 <= i)%Z ->
  (forall ops', set_child_values i vs ops = Some ops' ->
     len ops' = len ops /\ (vs <> [] -> i + len vs <= len ops)%Z /\
     (forall j, ~ (i <= j < i + len vs)%Z -> getz ops' j = getz ops j) /\
     (forall j v, getz vs j = Some v -> exists o o', getz ops (i + j) = Some o /\ settable o v /\ getz ops' (i + j) = Some o' /\ constant_now v o o')) /\
  ((i + len vs <= len ops)%Z -> (forall j v o, getz vs j = Some v -> getz ops (i + j) = Some o -> settable o v) -> set_child_values i vs ops <> None).
Proof.
  induction vs as [|v vs IH]; intros i ops Hi; cbn [set_child_values].
  - split; [|discriminate]. intros ops' [= <-]. split; [reflexivity|]. split; [congruence|]. split; [reflexivity|]. intros j v G. apply getz_Some in G. cbn in G. lia.
  - unfold child. rewrite len_cons. split.
    + intros ops' E. destruct (getz ops i) as [o|] eqn:G; [|discriminate]. destruct (op_set_value v o) as [o'|] eqn:V; [|discriminate]. destruct (setz ops i o') as [ops1|] eqn:Z1; [|discriminate].
      destruct (IH (i + 1)%Z ops1 ltac:(lia)) as [A _]. destruct (A _ E) as (L & B & K & N). pose proof (setz_len _ _ _ _ Z1) as L1. pose proof (getz_Some _ _ _ G) as G1. pose proof (len_nonneg vs). split; [lia|]. split; [|split].
      * intros _. destruct vs as [|v0 vs]; [cbn in *; lia|]. specialize (B ltac:(discriminate)). lia.
      * intros j J. rewrite K by lia. apply (getz_setz_neq _ _ _ _ _ Z1). lia.
      * intros j w W. pose proof (getz_Some _ _ _ W) as WR. rewrite len_cons in WR. destruct (Z.eq_dec j 0) as [->|NJ].
        -- cbn in W. injection W as <-. rewrite Z.add_0_r. apply set_value_ok in V as [V ->]. exists o. eexists. split; [exact G|]. split; [exact V|]. split; [rewrite K by lia; apply (getz_setz_eq _ _ _ _ Z1)|]. repeat split.
        -- change (v :: vs) with ([v] ++ vs) in W. rewrite getz_app2 in W by (cbn; lia). change (len [v]) with 1%Z in W. destruct (N _ _ W) as (x & x' & X1 & X2 & X3 & X4). replace (i + 1 + (j - 1))%Z with (i + j)%Z in * by lia. exists x, x'. split; [|auto].
           rewrite <- X1. symmetry. apply (getz_setz_neq _ _ _ _ _ Z1). lia.
    + intros B H. pose proof (len_nonneg vs). destruct (getz_in_range ops i) as [o G]; [lia|]. rewrite G. pose proof (H 0%Z v o eq_refl ltac:(now rewrite Z.add_0_r)) as V.
      assert (V' : op_set_value v o = Some (Op (op_id o) (op_type o) None v)) by (apply set_value_ok; auto). rewrite V'. destruct (setz_Some ops i (Op (op_id o) (op_type o) None v)) as [ops1 Z1]; [lia|]. rewrite Z1.
      apply (proj2 (IH (i + 1)%Z ops1 ltac:(lia))); [rewrite (setz_len _ _ _ _ Z1); lia|]. intros j w x W X. pose proof (getz_Some _ _ _ W) as WR. rewrite (getz_setz_neq _ _ _ _ _ Z1) in X by lia. apply (H (j + 1)%Z w x).
      * change (v :: vs) with ([v] ++ vs). rewrite getz_app2 by (cbn; lia). change (len [v]) with 1%Z. now replace (j + 1 - 1)%Z with j by lia.
      * now replace (i + (j + 1))%Z with (i + 1 + j)%Z by lia.
Qed.
Lemma child_values_ok : forall n i (ops : list (op M)), (0 <= i)%Z ->
  (forall vs, child_values k n i ops = Some vs <-> len vs = Z.of_nat n /\ forall j, (0 <= j < Z.of_nat n)%Z -> exists o, getz ops (i + j) = Some o /\ getz vs j = Some (op_value k o)).
Proof.
  induction n as [|n IH]; intros i ops Hi vs; cbn [child_values].
  - split; [intros [= <-]; split; [reflexivity|intros; lia]|]. intros [L _]. destruct vs; [reflexivity|]. rewrite len_cons in L. pose proof (len_nonneg vs). lia.
  - unfold child. split.
    + destruct (getz ops i) as [o|] eqn:G; [|discriminate]. destruct (child_values k n (i + 1)%Z ops) as [l|] eqn:E; [|discriminate]. intros [= <-]. apply IH in E as [L E]; [|lia]. split; [rewrite len_cons; lia|].
      intros j J. destruct (Z.eq_dec j 0) as [->|NJ]; [exists o; rewrite Z.add_0_r; split; [exact G|reflexivity]|]. destruct (E (j - 1)%Z ltac:(lia)) as (x & X & Y). exists x. replace (i + 1 + (j - 1))%Z with (i + j)%Z in X by lia. split; [exact X|].
      change (op_value k o :: l) with ([op_value k o] ++ l). rewrite getz_app2 by (cbn; lia). exact Y.
    + intros [L E]. destruct vs as [|v vs]; [cbn in L; lia|]. rewrite len_cons in L. destruct (E 0%Z ltac:(lia)) as (o & G & V). rewrite Z.add_0_r in G. rewrite G. cbn in V. injection V as ->.
      assert (E' : child_values k n (i + 1)%Z ops = Some vs). { apply IH; [lia|]. split; [lia|]. intros j J. destruct (E (j + 1)%Z ltac:(lia)) as (x & X & Y). exists x. replace (i + 1 + j)%Z with (i + (j + 1))%Z by lia. split; [exact X|].
        change (op_value k o :: vs) with ([op_value k o] ++ vs) in Y. rewrite getz_app2 in Y by (cbn; lia). change (len [op_value k o]) with 1%Z in Y. now replace (j + 1 - 1)%Z with j in Y by lia. }
      now rewrite E'.
Qed.
Lemma setz_same {A} (l l' : list A) i x : (forall j, j <> i -> getz l' j = getz l j) -> getz l' i = Some x -> (0 <= i < len l)%Z -> setz l i x = Some l'.
Proof.
  intros H G R. destruct (setz_Some l i x R) as [l2 E]. rewrite E. f_equal. apply getz_ext. intros j. destruct (Z.eq_dec j i) as [->|N]; [rewrite (getz_setz_eq _ _ _ _ E); now symmetry|]. rewrite (getz_setz_neq _ _ _ _ _ E N). symmetry. now apply H.
Qed.
Lemma set_target_ok i t (ops ops' : list (op M)) : set_child_target k i t ops = Some ops' <->
  exists o m m', getz ops i = Some o /\ op_motivator o = Some m /\ m_set_target k t m = Some m' /\
    getz ops' i = Some (Op (op_id o) (op_type o) (Some m') (op_const o)) /\ forall j, j <> i -> getz ops' j = getz ops j.
Proof.
  unfold set_child_target, child, op_set_target. split.
  - destruct (getz ops i) as [o|] eqn:G; [|discriminate]. destruct (op_motivator o) as [m|] eqn:OM; [|discriminate]. destruct (m_set_target k t m) as [m'|] eqn:ST; [|discriminate]. intros E.
    exists o, m, m'. do 3 (split; [auto|]). split; [apply (getz_setz_eq _ _ _ _ E)|]. intros j. apply (getz_setz_neq _ _ _ _ _ E).
  - intros (o & m & m' & G0 & OM & E & G & H). rewrite G0, OM, E. apply setz_same; auto. now apply getz_Some in G0.
Qed.

(** ** C121 *)
(** ChildValue1f and ChildValue3f: the values of the operations asked for; they fail when there
    are fewer operations. *)
Theorem C121_values : forall n i (ops : list (op M)) vs, (0 <= i)%Z ->
  (child_values k n i ops = Some vs <->
   len vs = Z.of_nat n /\ forall j, (0 <= j < Z.of_nat n)%Z -> exists o, getz ops (i + j) = Some o /\
     getz vs j = Some (match op_motivator o with Some m => m_value k m | None => op_const o end)).
Proof. intros n i ops vs Hi. exact (child_values_ok n i ops Hi vs). Qed.
Theorem C121_value : forall i (ops : list (op M)) v,
  child_value k i ops = Some v <-> exists o, getz ops i = Some o /\ v = match op_motivator o with Some m => m_value k m | None => op_const o end.
Proof.
  intros i ops v. unfold child_value, child. destruct (getz ops i) as [o|]; split; [intros [= <-]; now exists o|intros (x & [= <-] & ->); reflexivity|discriminate|intros (x & X & _); discriminate].
Qed.

(** SetChildValue1f and SetChildValue3f: the constants asked for change and nothing else, not
    even the matrix; reading them back gives what was written. *)
Theorem C121_set_values : forall i vs (d d' : mdata M), (0 <= i)%Z -> mdata_set_child_values i vs d = Some d' ->
  md_matrix d' = md_matrix d /\ md_scale d' = md_scale d /\ num_children (md_ops d') = num_children (md_ops d) /\
  (forall j, ~ (i <= j < i + len vs)%Z -> getz (md_ops d') j = getz (md_ops d) j) /\
  (forall j v, getz vs j = Some v -> exists o o', getz (md_ops d) (i + j) = Some o /\ getz (md_ops d') (i + j) = Some o' /\ constant_now v o o') /\
  child_values k (length vs) i (md_ops d') = Some vs.
Proof.
  intros i vs d d' Hi E. unfold mdata_set_child_values in E. destruct (set_child_values i vs (md_ops d)) as [ops'|] eqn:E1; [|discriminate]. injection E as <-. cbn [md_matrix md_scale md_ops].
  destruct (proj1 (set_values_ok vs i (md_ops d) Hi) _ E1) as (L & _ & K & N). do 2 (split; [reflexivity|]). split; [exact L|]. split; [exact K|]. split.
  - intros j v G. destruct (N j v G) as (o & o' & A & _ & B & C). eauto.
  - apply child_values_ok; [exact Hi|]. split; [reflexivity|]. intros j J. destruct (getz_in_range vs j) as [v V]; [exact J|]. destruct (N j v V) as (o & o' & A & _ & B & _ & _ & C1 & C2). exists o'. split; [exact B|]. unfold op_value. now rewrite C1, C2.
Qed.
Theorem C121_set_values_sqt : forall i vs (d d' : qdata M), (0 <= i)%Z -> qdata_set_child_values i vs d = Some d' ->
  qd_matrix d' = qd_matrix d /\ qd_rotation d' = qd_rotation d /\ qd_scale d' = qd_scale d /\ num_children (qd_ops d') = num_children (qd_ops d) /\
  (forall j, ~ (i <= j < i + len vs)%Z -> getz (qd_ops d') j = getz (qd_ops d) j) /\
  (forall j v, getz vs j = Some v -> exists o o', getz (qd_ops d) (i + j) = Some o /\ getz (qd_ops d') (i + j) = Some o' /\ constant_now v o o') /\
  child_values k (length vs) i (qd_ops d') = Some vs.
Proof.
  intros i vs d d' Hi E. unfold qdata_set_child_values in E. destruct (set_child_values i vs (qd_ops d)) as [ops'|] eqn:E1; [|discriminate]. injection E as <-. cbn [qd_matrix qd_rotation qd_scale qd_ops].
  destruct (proj1 (set_values_ok vs i (qd_ops d) Hi) _ E1) as (L & _ & K & N). do 3 (split; [reflexivity|]). split; [exact L|]. split; [exact K|]. split.
  - intros j v G. destruct (N j v G) as (o & o' & A & _ & B & C). eauto.
  - apply child_values_ok; [exact Hi|]. split; [reflexivity|]. intros j J. destruct (getz_in_range vs j) as [v V]; [exact J|]. destruct (N j v V) as (o & o' & A & _ & B & _ & _ & C1 & C2). exists o'. split; [exact B|]. unfold op_value. now rewrite C1, C2.
Qed.
(** They fail unless there are so many operations, all of which are constants (and get angles
    if they are rotations). *)
Theorem C121_settable : forall i vs (d : mdata M) (q : qdata M), (0 <= i)%Z -> vs <> [] ->
  (mdata_set_child_values i vs d <> None <-> (i + len vs <= len (md_ops d))%Z /\ forall j v o, getz vs j = Some v -> getz (md_ops d) (i + j) = Some o -> settable o v) /\
  (qdata_set_child_values i vs q <> None <-> (i + len vs <= len (qd_ops q))%Z /\ forall j v o, getz vs j = Some v -> getz (qd_ops q) (i + j) = Some o -> settable o v).
Proof.
  intros i vs d q Hi NE. assert (G : forall ops, set_child_values (M := M) i vs ops <> None <-> (i + len vs <= len ops)%Z /\ forall j v o, getz vs j = Some v -> getz ops (i + j) = Some o -> settable o v).
  { intros ops. destruct (set_values_ok vs i ops Hi) as [A B]. split; [|intros [X Y]; now apply B]. intros N. destruct (set_child_values i vs ops) as [ops'|]; [|congruence]. destruct (A _ eq_refl) as (_ & L & _ & S'). split; [now apply L|].
    intros j v o V O. destruct (S' j v V) as (o1 & _ & O1 & ST & _). rewrite O in O1. injection O1 as <-. exact ST. }
  unfold mdata_set_child_values, qdata_set_child_values. rewrite <- G, <- G. split; destruct (set_child_values i vs _); split; congruence.
Qed.

(** SetChildTarget1f: the motivator of that operation gets the target, nothing else changes; it
    fails when the operation is a constant. *)
Theorem C121_set_target : forall i t (d d' : mdata M), mdata_set_child_target k i t d = Some d' <->
  md_matrix d' = md_matrix d /\ md_scale d' = md_scale d /\
  exists o m m', getz (md_ops d) i = Some o /\ op_motivator o = Some m /\ m_set_target k t m = Some m' /\
    getz (md_ops d') i = Some (Op (op_id o) (op_type o) (Some m') (op_const o)) /\ forall j, j <> i -> getz (md_ops d') j = getz (md_ops d) j.
Proof.
  intros i t d d'. unfold mdata_set_child_target. split.
  - destruct (set_child_target k i t (md_ops d)) as [ops'|] eqn:E; [|discriminate]. intros [= <-]. do 2 (split; [reflexivity|]). now apply set_target_ok.
  - intros (A & B & C). apply set_target_ok in C. rewrite C. destruct d'. cbn in *. now rewrite A, B.
Qed.
Theorem C121_set_target_sqt : forall i t (d d' : qdata M), qdata_set_child_target k i t d = Some d' <->
  qd_matrix d' = qd_matrix d /\ qd_rotation d' = qd_rotation d /\ qd_scale d' = qd_scale d /\
  exists o m m', getz (qd_ops d) i = Some o /\ op_motivator o = Some m /\ m_set_target k t m = Some m' /\
    getz (qd_ops d') i = Some (Op (op_id o) (op_type o) (Some m') (op_const o)) /\ forall j, j <> i -> getz (qd_ops d') j = getz (qd_ops d) j.
Proof.
  intros i t d d'. unfold qdata_set_child_target. split.
  - destruct (set_child_target k i t (qd_ops d)) as [ops'|] eqn:E; [|discriminate]. intros [= <-]. do 3 (split; [reflexivity|]). now apply set_target_ok.
  - intros (A & B & D & C). apply set_target_ok in C. rewrite C. destruct d'. cbn in *. now rewrite A, B, D.
Qed.

Lemma forall2_getz {A B} (P : A -> B -> Prop) : forall l l', Forall2 P l l' -> forall j x, getz l j = Some x -> exists y, getz l' j = Some y /\ P x y.
Proof.
  induction 1 as [|a b l l' H F IH]; intros j x G; [apply getz_Some in G; cbn in G; lia|]. pose proof (getz_Some _ _ _ G) as R. destruct (Z.eq_dec j 0) as [->|N].
  - cbn in G. injection G as <-. exists b. split; [reflexivity|exact H].
  - change (a :: l) with ([a] ++ l) in G. rewrite getz_app2 in G by (cbn; lia). destruct (IH _ _ G) as (y & Y & Q). exists y. split; [|exact Q]. change (b :: l') with ([b] ++ l'). rewrite getz_app2 by (cbn; lia). exact Y.
Qed.
(** The next frame shows them: the matrix is the product of the elementary matrices, with the
    new values where they were set. *)
Theorem C121_shown : forall i vs (d d' d2 : mdata M), (0 <= i)%Z -> mdata_set_child_values i vs d = Some d' -> mdata_update k d' = Some d2 ->
  exists es, len es = len (md_ops d) /\ md_matrix d2 = product es /\
    forall j o, getz (md_ops d) j = Some o -> exists e, getz es j = Some e /\
      elementary (op_type o) (match getz vs (j - i) with Some v => v | None => op_value k o end) = Some e.
Proof.
  intros i vs d d' d2 Hi E U. destruct (C121_set_values i vs d d' Hi E) as (_ & _ & L & K & N & _).
  assert (G : forall ops : list (op M), (forall o, In o ops -> elementary (op_type o) (op_value k o) <> None) -> exists es, Forall2 (fun o e => elementary (op_type o) (op_value k o) = Some e) ops es).
  { induction ops as [|o ops IH]; intros G; [exists []; constructor|]. destruct IH as [es F]; [intros; apply G; now right|]. destruct (elementary (op_type o) (op_value k o)) as [e|] eqn:EL; [|now destruct (G o (or_introl eq_refl))]. exists (e :: es). now constructor. }
  unfold mdata_update in U. destruct (G (md_ops d')) as [es F].
  { intros o In0 Z. rewrite C51_unsupported in U by eauto. discriminate. }
  rewrite (C51_product _ _ _ k _ es F) in U. injection U as <-. exists es. assert (LF : len es = len (md_ops d')) by (clear -F; induction F; [reflexivity|rewrite !len_cons; lia]). split; [unfold num_children in L; lia|]. split; [reflexivity|].
  intros j o O. destruct (getz vs (j - i)) as [v|] eqn:V.
  - destruct (N _ _ V) as (o1 & o' & O1 & O' & _ & T & C1 & C2). replace (i + (j - i))%Z with j in * by lia. rewrite O in O1. injection O1 as <-. destruct (forall2_getz _ _ _ F _ _ O') as (e & Y & Q). exists e. split; [exact Y|]. unfold op_value in Q. rewrite C1, C2, T in Q. exact Q.
  - assert (R : ~ (i <= j < i + len vs)%Z). { intros R. destruct (getz_in_range vs (j - i)) as [x X]; [lia|]. congruence. }
    rewrite <- (K j R) in O. exact (forall2_getz _ _ _ F _ _ O).
Qed.

Lemma make_op_same n p (o : op M) : make_op k n p = Some o -> op_id o = i_id n /\ op_type o = i_type n.
Proof. intros E. apply C52_new in E as (_ & x & A & B & _ & X & _). apply C52_blend in X as ((C & D) & _). split; congruence. Qed.
Lemma append_same fb : forall new ops (ops' : list (op M)), append_ops k fb ops new = Some ops' -> map op_id ops' = map op_id ops ++ map i_id new /\ map op_type ops' = map op_type ops ++ map i_type new.
Proof.
  induction new as [|n new IH]; intros ops ops' E; cbn [append_ops] in E; [injection E as <-; cbn; now rewrite !app_nil_r|]. destruct (negb _); [|discriminate]. destruct (make_op k n (playback_from 0)) as [o|] eqn:MO; [|discriminate].
  destruct (IH _ _ E) as [A B]. destruct (make_op_same _ _ _ MO) as [C D]. rewrite A, B, !map_app. cbn [map]. rewrite C, D, <- !app_assoc. split; reflexivity.
Qed.
(** After Initialize the children are the operations of the initializer, in order. *)
Theorem C121_initialized : forall init (d : mdata M) (q : qdata M),
  (mdata_initialize k init mdata_default = Some d -> map op_id (md_ops d) = map i_id init /\ map op_type (md_ops d) = map i_type init /\ num_children (md_ops d) = len init) /\
  (qdata_initialize k init qdata_default = Some q -> map op_id (qd_ops q) = map i_id init /\ map op_type (qd_ops q) = map i_type init /\ num_children (qd_ops q) = len init).
Proof.
  intros init d q. assert (LN : forall (ops : list (op M)) , map op_id ops = map i_id init -> num_children ops = len init) by (intros ops E; apply (f_equal len) in E; rewrite !len_map in E; exact E). split; intros E.
  - unfold mdata_initialize in E. destruct (append_ops k quaternion_op _ init) as [ops|] eqn:A; [|discriminate]. apply append_same in A as [A B]. unfold mdata_update in E. cbn [md_ops md_matrix md_scale] in E. destruct (calculate_result_matrix k ops); [|discriminate]. injection E as <-. cbn [md_ops]. auto.
  - unfold qdata_initialize in E. destruct (append_ops k _ _ init) as [ops|] eqn:A; [|discriminate]. apply append_same in A as [A B]. unfold qdata_update in E. cbn [qd_ops] in E. destruct (sqt_steps k _ ops) as [[[t r] s]|]; [|discriminate]. destruct (qnormalize r); [|discriminate]. injection E as <-. cbn [qd_ops]. auto.
Qed.

Lemma find_ids (l : list (op M)) id : find_op id l <> None <-> In id (map op_id l).
Proof.
  unfold find_op. split.
  - destruct (find _ l) as [o|] eqn:E; [|congruence]. intros _. apply find_some in E as [A B]. apply Z.eqb_eq in B. rewrite <- B. now apply in_map.
  - intros I0 E. apply in_map_iff in I0 as (o & <- & I1). pose proof (find_none _ _ E o I1) as X. cbn in X. rewrite Z.eqb_refl in X. discriminate.
Qed.
Lemma find_init_ids (l : list (opinit I S)) id : find_init id l <> None <-> In id (map i_id l).
Proof.
  unfold find_init. split.
  - destruct (find _ l) as [o|] eqn:E; [|congruence]. intros _. apply find_some in E as [A B]. apply Z.eqb_eq in B. rewrite <- B. now apply in_map.
  - intros I0 E. apply in_map_iff in I0 as (o & <- & I1). pose proof (find_none _ _ E o I1) as X. cbn in X. rewrite Z.eqb_refl in X. discriminate.
Qed.
Lemma asc_nodup l : ascending l -> NoDup l.
Proof. induction l as [|x l IH]; intros H; [constructor|]. apply sorted_head in H as [A B]. constructor; [intros X; specialize (B _ X); lia|auto]. Qed.
(** After BlendToOps they are the operations that were there and those of the new list, by id:
    never fewer, and possibly more than either. *)
Theorem C121_blended : forall new p (d d' : mdata M), ascending (map op_id (md_ops d)) -> ascending (map i_id new) -> mdata_blend_to_ops k new p d = Some d' ->
  (forall id, In id (map op_id (md_ops d')) <-> In id (map op_id (md_ops d)) \/ In id (map i_id new)) /\ NoDup (map op_id (md_ops d')) /\
  (num_children (md_ops d) <= num_children (md_ops d'))%Z /\ (len new <= num_children (md_ops d'))%Z.
Proof.
  intros new p d d' A B E. destruct (C52_matrix _ _ _ k new p d d' A B E) as [C O].
  assert (W : forall id, In id (map op_id (md_ops d')) <-> In id (map op_id (md_ops d)) \/ In id (map i_id new)).
  { intros id. rewrite <- !find_ids, <- find_init_ids. specialize (O id). unfold outcome in O. destruct (find_op id (md_ops d)) as [o|], (find_init id new) as [n|].
    - destruct (blend_to_op k n p o); [|discriminate]. injection O as <-. split; [left|]; congruence.
    - destruct (to_motive_time _) as [t|]; [|discriminate]. destruct (blend_to_default k t o); [|discriminate]. injection O as <-. split; [left|]; congruence.
    - destruct (make_op k n p); [|discriminate]. injection O as <-. split; [right|]; congruence.
    - injection O as <-. split; [|intros [X|X]]; congruence. }
  split; [exact W|]. split; [now apply asc_nodup|]. unfold num_children, len. assert (L : forall l1 l2, NoDup l1 -> incl l1 l2 -> (Z.of_nat (length l1) <= Z.of_nat (length l2))%Z) by (intros l1 l2 N1 N2; apply inj_le, (NoDup_incl_length (A := Z)); assumption).
  pose proof (L _ (map op_id (md_ops d')) (asc_nodup _ A) (fun id X => proj2 (W id) (or_introl X))) as L1. pose proof (L _ (map op_id (md_ops d')) (asc_nodup _ B) (fun id X => proj2 (W id) (or_intror X))) as L2. rewrite !map_length in L1, L2. split; assumption.
Qed.
End Children.
Print Assumptions C121_values.
Print Assumptions C121_value.
Print Assumptions C121_set_values.
Print Assumptions C121_set_values_sqt.
Print Assumptions C121_settable.
Print Assumptions C121_set_target.
Print Assumptions C121_set_target_sqt.
Print Assumptions C121_shown.
Print Assumptions C121_initialized.
Print Assumptions C121_blended.

(** NumChildren does not equal "the number of operations in the init initializer"
    (matrix_motivator.h:85-86): a matrix that is made without operations, as the bones of rigs
    are, and blended to one. *)
Theorem C121_count_refuted : exists d d', mdata_initialize demo_class [] mdata_default = Some d /\
  mdata_blend_to_ops demo_class [OpInit None 0 TranslateX (UValue 3)] (playback_from 0) d = Some d' /\ num_children (md_ops d') = 1%Z /\ num_children (md_ops d') <> len (@nil (opinit unit R)).
Proof. eexists. eexists. split; [reflexivity|]. split; [reflexivity|]. split; [reflexivity|discriminate]. Qed.
Print Assumptions C121_count_refuted.

(** A translation in x and y by constants, in z by a motivator: setting x and y, and the target of z. *)
Example C121_case :
  let d := MData identity4 (Some (V3 1 1 1)) [Op 0 TranslateX None 1; Op 1 TranslateY None 2; Op 2 TranslateZ (Some (3, 0)) 0] in
  (exists d1 d2, mdata_set_child_values 0 [5; 6] d = Some d1 /\ mdata_update demo_class d1 = Some d2 /\ child_values demo_class 3 0 (md_ops d1) = Some [5; 6; 3]) /\
  (exists d1, mdata_set_child_target demo_class 2 (current1f 8 0) d = Some d1 /\ child_values demo_class 3 0 (md_ops d1) = Some [1; 2; 8]) /\
  mdata_set_child_values 1 [5; 6] d = None /\ mdata_set_child_target demo_class 0 (current1f 8 0) d = None.
Proof.
  cbv zeta. split; [|split; [|split; reflexivity]].
  - eexists. eexists. split; [reflexivity|]. split; reflexivity.
  - eexists. split; reflexivity.
Qed.
