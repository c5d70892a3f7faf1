(** Property C113: a frame of the engine moves every motivator once, and what is made of other
    motivators is made of the values they have at the end of the frame. *)
From Verif Require Import RBase BaseFacts MathfuModel RangeModel CurveModel CompactSplineModel EvaluatorModel EvaluatorProofs OvershootModel SimpleModel SplineTargetModel MatrixModel RigModel EngineModel EngineProofs EngineProps WorldModel MatrixProps SqtProps RigProps SplineClassModel PlayProps RateProps RigPlayProps.

(** ** The order of the processors *)
(** The library registers each type with its own functions (engine.h:69-70). *)
Definition library (ops : list eop) : Prop := forall t f, In (ERegister t f) ops -> f = t /\ kind_of f <> None.
(** A processor of the kind has been handed out. *)
Definition made (tr : list (eop * result)) (k : kind) : Prop := exists o, In (EProcessor (number k), RProcessor (Some o)) tr.

Lemma kind_of_number k : kind_of (number k) = Some k.
Proof. now destruct k. Qed.
Lemma kind_of_iff f k : kind_of f = Some k <-> f = number k.
Proof.
  split; [|intros ->; apply kind_of_number]. unfold kind_of. do 8 (destruct f as [|f]; [intros [= <-]; reflexivity|]). cbn. destruct f; discriminate.
Qed.
Lemma erun_ops : forall ops e e' tr, erun prio e ops = Some (e', tr) -> map fst tr = ops.
Proof.
  induction ops as [|op ops IH]; intros e e' tr H; cbn [erun] in H; [injection H as <- <-; reflexivity|]. destruct (estep prio e op) as [r|]; [|discriminate]. destruct (erun prio (fst r) ops) as [r'|] eqn:E; [|discriminate].
  injection H as <- <-. cbn [map fst]. f_equal. destruct r' as [e2 t2]. eapply IH. exact E.
Qed.
Lemma erun_snoc : forall ops e e' tr op r, erun prio e ops = Some (e', tr) -> estep prio e' op = Some (e', r) -> erun prio e (ops ++ [op]) = Some (e', tr ++ [(op, r)]).
Proof.
  induction ops as [|o ops IH]; intros e e' tr op r H K; cbn [erun app] in *.
  - injection H as <- <-. rewrite K. reflexivity.
  - destruct (estep prio e o) as [q|]; [|discriminate]. destruct (erun prio (fst q) ops) as [[e2 t2]|] eqn:E; [|discriminate]. injection H as <- <-. cbn [fst snd] in *. rewrite (IH _ _ _ _ _ E K). reflexivity.
Qed.
Lemma first_registered_in t f : forall tr, first_registered t tr = Some f -> exists r, In (ERegister t f, r) tr.
Proof.
  induction tr as [|[op r] tr IH]; intros H; cbn [first_registered] in H; [discriminate|]. destruct op as [t' f'| | |]; try (destruct (IH H) as [r' I]; exists r'; now right).
  destruct (Nat.eqb_spec t' t) as [->|N]; [injection H as ->; exists r; now left|]. destruct (IH H) as [r' I]; exists r'; now right.
Qed.

Lemma map_all_app {A B} (f : A -> option B) : forall l1 l2 r, map_all f (l1 ++ l2) = Some r -> exists r1 r2, r = r1 ++ r2 /\ map_all f l1 = Some r1 /\ map_all f l2 = Some r2.
Proof.
  induction l1 as [|a l1 IH]; intros l2 r H; cbn [map_all app] in *; [exists [], r; auto|]. destruct (f a) as [b|]; [|discriminate]. destruct (map_all f (l1 ++ l2)) as [q|] eqn:E; [|discriminate]. injection H as <-.
  destruct (IH _ _ E) as (r1 & r2 & -> & -> & E2). exists (b :: r1), r2. auto.
Qed.
Lemma map_all_split {A B} (f : A -> option B) : forall l r, map_all f l = Some r -> forall r1 b r2, r = r1 ++ b :: r2 -> exists l1 a l2, l = l1 ++ a :: l2 /\ map_all f l1 = Some r1 /\ f a = Some b /\ map_all f l2 = Some r2.
Proof.
  induction l as [|a l IH]; intros r H r1 b r2 E; cbn [map_all] in H; [injection H as <-; destruct r1; discriminate|]. destruct (f a) as [b0|] eqn:F; [|discriminate]. destruct (map_all f l) as [q|] eqn:Q; [|discriminate]. injection H as <-.
  destruct r1 as [|x r1]; cbn [app] in E; injection E as -> ->.
  - exists [], a, l. auto.
  - destruct (IH _ eq_refl r1 b r2 eq_refl) as (l1 & a' & l2 & -> & E1 & F' & E2). exists (a :: l1), a', l2. split; [reflexivity|]. cbn [map_all]. rewrite F, E1. auto.
Qed.
Lemma map_all_in {A B} (f : A -> option B) : forall l r, map_all f l = Some r -> forall b, In b r <-> exists a, In a l /\ f a = Some b.
Proof.
  intros l r H b. apply map_all_iff in H. induction H as [|a b' l r F H IH]; [split; [intros []|intros (? & [] & _)]|]. cbn [In]. rewrite IH. split.
  - intros [-> |(x & I & E)]; eauto.
  - intros (x & [-> |I] & E); [left; congruence|eauto].
Qed.

Lemma map_all_nodup {A B} (f : A -> option B) : forall l r, map_all f l = Some r -> NoDup l -> (forall a a' b, In a l -> In a' l -> f a = Some b -> f a' = Some b -> a = a') -> NoDup r.
Proof.
  intros l r H. pose proof H as H0. apply map_all_iff in H. clear H0. induction H as [|a b l r F H IH]; intros ND INJ; [constructor|]. inversion ND as [|? ? N1 N2]; subst. constructor.
  - intros I. apply map_all_iff in H. apply (map_all_in _ _ _ H) in I as (a' & I & F'). assert (a = a') by (eapply INJ; [now left|now right|exact F|exact F']). now subst.
  - apply IH; [exact N2|]. intros x y c I1 I2. apply INJ; now right.
Qed.

(** The kinds that a frame advances: each that has been handed out, once, by priority. *)
Definition in_order (ks : list kind) : Prop := forall a b l1 l2 l3, ks = l1 ++ a :: l2 ++ b :: l3 -> (kind_priority a <= kind_priority b)%Z.
Lemma handed_out ops e tr : erun prio engine_init ops = Some (e, tr) -> ~ In EReset ops -> library ops ->
  forall t o, In (EProcessor t, RProcessor (Some o)) tr -> exists x, nth_error (heap e) o = Some x /\ o_factory x = t /\ kind_of t <> None.
Proof.
  intros H NR LIB t o I. destruct (C14_one_processor_per_type prio _ _ _ H NR) as (_ & OBJ). pose proof (erun_ops _ _ _ _ H) as OPS. apply in_split in I as (pre & post & EQ). destruct (OBJ pre t (Some o) post EQ) as (_ & X). destruct (X o eq_refl) as (x & E1 & _ & _ & F). exists x. split; [exact E1|].
  destruct (first_registered_in _ _ _ F) as [r I]. destruct (LIB t (o_factory x)) as [Q1 Q2]; [|split; [congruence|now rewrite <- Q1]].
  rewrite <- OPS, EQ, map_app. apply in_or_app. left. apply in_map_iff. exists (ERegister t (o_factory x), r). auto.
Qed.
Lemma frame_objects ops e tr l : erun prio engine_init ops = Some (e, tr) -> ~ In EReset ops -> EngineModel.advance (heap e) (sorted e) = Some l ->
  NoDup l /\ (forall o, In o l <-> exists t, In (EProcessor t, RProcessor (Some o)) tr) /\
  (forall a b x y l1 l2 l3, l = l1 ++ a :: l2 ++ b :: l3 -> nth_error (heap e) a = Some x -> nth_error (heap e) b = Some y ->
     (prio (o_factory x) < prio (o_factory y) \/ (prio (o_factory x) = prio (o_factory y) /\ (a < b)%nat))%Z).
Proof.
  intros H NR A.
  assert (H' : erun prio engine_init (ops ++ [EFrame]) = Some (e, tr ++ [(EFrame, RFrame l)])). { apply erun_snoc; [exact H|]. cbn [estep]. now rewrite A. }
  assert (NR' : ~ In EReset (ops ++ [EFrame])). { intros I. apply in_app_or in I as [I|[I|[]]]; [now apply NR|discriminate]. }
  exact (C15_frame_order prio _ _ _ tr l [] H' NR' eq_refl).
Qed.
Lemma objects_have_kinds ops e tr l : erun prio engine_init ops = Some (e, tr) -> ~ In EReset ops -> library ops -> EngineModel.advance (heap e) (sorted e) = Some l ->
  forall o, In o l -> exists k, kind_of_object (heap e) o = Some k.
Proof.
  intros H NR LIB A o I. destruct (frame_objects _ _ _ _ H NR A) as (_ & IN & _). apply IN in I as [t I]. destruct (handed_out _ _ _ H NR LIB _ _ I) as (x & E & F & K). unfold kind_of_object. rewrite E, F. destruct (kind_of t); [eauto|congruence].
Qed.
Lemma frame_kinds : forall ops e tr l ks, erun prio engine_init ops = Some (e, tr) -> ~ In EReset ops -> library ops ->
  EngineModel.advance (heap e) (sorted e) = Some l -> map_all (kind_of_object (heap e)) l = Some ks ->
  NoDup ks /\ (forall k, In k ks <-> made tr k) /\ in_order ks.
Proof.
  intros ops e tr l ks H NR LIB A K. destruct (frame_objects _ _ _ _ H NR A) as (ND & IN & PR). destruct (C14_one_processor_per_type prio _ _ _ H NR) as (ONE & _). pose proof (handed_out _ _ _ H NR LIB) as KIND.
  assert (KO : forall k o, In (EProcessor (number k), RProcessor (Some o)) tr -> kind_of_object (heap e) o = Some k).
  { intros k o I. destruct (KIND _ _ I) as (x & E & F & _). unfold kind_of_object. rewrite E, F. apply kind_of_number. }
  assert (OK : forall k o, In o l -> kind_of_object (heap e) o = Some k -> In (EProcessor (number k), RProcessor (Some o)) tr).
  { intros k o I E. apply IN in I as [t I]. destruct (KIND _ _ I) as (x & E1 & F & _). unfold kind_of_object in E. rewrite E1 in E. apply kind_of_iff in E. rewrite F in E. now subst t. }
  split; [|split].
  - apply (map_all_nodup _ _ _ K ND). intros o o' k I I' E E'. apply OK in E, E'; auto. now apply (ONE _ _ _ _ E E').
  - intros k. rewrite (map_all_in _ _ _ K k). split.
    + intros (o & I & E). exists o. now apply OK.
    + intros (o & I). exists o. split; [apply IN; eauto|now apply KO].
  - intros a b l1 l2 l3 EQ. destruct (map_all_split _ _ _ K l1 a (l2 ++ b :: l3) EQ) as (m1 & oa & m & El & _ & Fa & Em). destruct (map_all_split _ _ _ Em l2 b l3 eq_refl) as (m2 & ob & m3 & El2 & _ & Fb & _). subst m.
    unfold kind_of_object in Fa, Fb. destruct (nth_error (heap e) oa) as [x|] eqn:Ea; [|discriminate]. destruct (nth_error (heap e) ob) as [y|] eqn:Eb; [|discriminate].
    specialize (PR oa ob x y m1 m2 m3 El Ea Eb). unfold prio in PR. rewrite Fa, Fb in PR. lia.
Qed.

(** ** What one frame does *)
Section Frame.
Context {O : Type} (fm : mat3 -> quat).
Notation W := (world O).
Definition same (k : kind) (w w' : W) : Prop :=
  match k with
  | KSpline => w_splines w' = w_splines w | KConst => w_consts w' = w_consts w | KOvershoot => w_overshoots w' = w_overshoots w | KEase => w_eases w' = w_eases w | KSpring => w_springs w' = w_springs w
  | KMatrix => w_matrices w' = w_matrices w | KSqt => w_sqts w' = w_sqts w | KRig => w_rigs w' = w_rigs w /\ w_time w' = w_time w
  end.
(** What the frame does to one processor; [v] has the values that the others show. *)
Definition advanced (k : kind) (dt : Z) (w v w' : W) : Prop :=
  match k with
  | KSpline => EvaluatorModel.advance_frame (IZR dt) (w_splines w) = Some (w_splines w')
  | KConst => w_consts w' = map (const_frame dt) (w_consts w)
  | KOvershoot => OvershootModel.advance_frame (Z.to_nat dt) dt (w_overshoots w) = Some (w_overshoots w')
  | KEase => map_all (ease_frame dt) (w_eases w) = Some (w_eases w')
  | KSpring => map_all (spring_frame dt) (w_springs w) = Some (w_springs w')
  | KMatrix => forallb (fun d => ops_ok v (md_ops d)) (w_matrices w) = true /\ matrix_frame (ref_class v) (w_matrices w) = Some (w_matrices w')
  | KSqt => forallb (fun d => ops_ok v (qd_ops d)) (w_sqts w) = true /\ sqt_frame (ref_class v) (w_sqts w) = Some (w_sqts w')
  | KRig => forallb (fun d => bones_ok v (motivators d)) (w_rigs w) = true /\ rig_frame (bone_refs fm v) dt (w_time w) (w_rigs w) = Some (w_time w', w_rigs w')
  end.
Lemma same_refl k w : same k w w.
Proof. destruct k; cbn; auto. Qed.
Lemma same_trans k w1 w2 w3 : same k w1 w2 -> same k w2 w3 -> same k w1 w3.
Proof. destruct k; cbn; intuition congruence. Qed.
Lemma advance_kind_is k dt w w' : advance_kind fm k dt w = Some w' -> advanced k dt w w w' /\ forall k', k' <> k -> same k' w w'.
Proof.
  intros H. destruct k; cbn [advance_kind] in H;
    try match goal with |- context [advanced KConst] => injection H as <-; split; [reflexivity|intros [] N; cbn; auto; congruence] end;
    try (destruct (forallb _ _) eqn:B; [|discriminate]);
    match type of H with match ?x with _ => _ end = _ => destruct x as [l|] eqn:E; [|discriminate] end; injection H as <-; cbn [advanced]; cbn;
    (split; [try exact E; try (split; [exact B|]; try exact E; destruct l; exact E)|intros [] N; cbn; auto; congruence]).
Qed.

(** Only the values of the scalar motivators matter to matrices, and only those and the matrices to rigs. *)
Lemma same_class w v : (forall k, (kind_priority k < 2)%Z -> same k w v) -> ref_class v = ref_class w /\ forall ops, ops_ok v ops = ops_ok w ops.
Proof.
  intros H. pose proof (H KSpline ltac:(cbn; lia)) as H1. pose proof (H KConst ltac:(cbn; lia)) as H2. pose proof (H KOvershoot ltac:(cbn; lia)) as H3. pose proof (H KEase ltac:(cbn; lia)) as H4. pose proof (H KSpring ltac:(cbn; lia)) as H5. cbn in H1, H2, H3, H4, H5.
  unfold ref_class, ops_ok, scalar. rewrite H1, H2, H3, H4, H5. auto.
Qed.
Lemma same_bones w v : (forall k, (kind_priority k < 3)%Z -> same k w v) -> bone_refs fm v = bone_refs fm w /\ forall ms, bones_ok v ms = bones_ok w ms.
Proof.
  intros H. destruct (same_class w v) as [C _]; [intros k K; apply H; lia|]. pose proof (H KMatrix ltac:(cbn; lia)) as H1. pose proof (H KSqt ltac:(cbn; lia)) as H2. cbn in H1, H2.
  unfold bone_refs, bones_ok, bone_at. rewrite C, H1, H2. auto.
Qed.
Lemma forallb_ext {A} (f g : A -> bool) l : (forall x, f x = g x) -> forallb f l = forallb g l.
Proof. intros H. induction l as [|a l IH]; cbn; [reflexivity|]. now rewrite H, IH. Qed.
Lemma advanced_view k dt w v v' w' : (forall j, (kind_priority j < kind_priority k)%Z -> same j v v') -> advanced k dt w v w' -> advanced k dt w v' w'.
Proof.
  intros H. destruct k; cbn [advanced]; auto.
  - destruct (same_class v v' H) as [-> E]. intros [A B]. split; [|exact B]. rewrite <- A. apply forallb_ext. intros d. apply E.
  - destruct (same_class v v' H) as [-> E]. intros [A B]. split; [|exact B]. rewrite <- A. apply forallb_ext. intros d. apply E.
  - destruct (same_bones v v' H) as [-> E]. intros [A B]. split; [|exact B]. rewrite <- A. apply forallb_ext. intros d. apply E.
Qed.
Lemma advanced_from k dt w u v w' : same k w u -> advanced k dt u v w' -> advanced k dt w v w'.
Proof. destruct k; cbn; intros H; rewrite ?H; auto; destruct H as [-> ->]; auto. Qed.
Lemma advanced_to k dt w v u w' : same k u w' -> advanced k dt w v u -> advanced k dt w v w'.
Proof. destruct k; cbn; intros H; rewrite ?H; auto; destruct H as [-> ->]; auto. Qed.

Lemma in_order_tail a l : in_order (a :: l) -> in_order l /\ forall b, In b l -> (kind_priority a <= kind_priority b)%Z.
Proof.
  intros H. split.
  - intros x y l1 l2 l3 ->. apply (H x y (a :: l1) l2 l3 eq_refl).
  - intros b I. apply in_split in I as (l1 & l2 & ->). apply (H a b [] l1 l2 eq_refl).
Qed.
Lemma advance_kinds_are dt : forall ks w w', NoDup ks -> in_order ks -> advance_kinds fm ks dt w = Some w' ->
  forall k, (In k ks -> advanced k dt w w' w') /\ (~ In k ks -> same k w w').
Proof.
  induction ks as [|a ks IH]; intros w w' ND IO H k; cbn [advance_kinds] in H.
  - injection H as <-. split; [intros []|intros _; apply same_refl].
  - destruct (advance_kind fm a dt w) as [u|] eqn:A; [|discriminate]. inversion ND as [|? ? N1 N2]; subst. destruct (in_order_tail _ _ IO) as [IO' LE]. destruct (advance_kind_is _ _ _ _ A) as [AD SM]. specialize (IH u w' N2 IO' H). split.
    + intros [->|I].
      * apply (advanced_to k dt w w' u w'); [apply IH; exact N1|]. apply (advanced_view k dt w w w' u); [|exact AD]. intros j J. apply same_trans with u; [apply SM; intros ->; lia|]. apply IH. intros I. specialize (LE j I). lia.
      * apply (advanced_from k dt w u w' w'); [apply SM; intros ->; contradiction|]. now apply IH.
    + intros N. cbn in N. apply same_trans with u; [apply SM; intros ->; tauto|]. apply IH. tauto.
Qed.
Lemma world_frame_is ops e tr dt w w' : erun prio engine_init ops = Some (e, tr) -> ~ In EReset ops -> library ops -> world_frame fm e dt w = Some w' ->
  forall k, (made tr k -> advanced k dt w w' w') /\ (~ made tr k -> same k w w').
Proof.
  intros H NR LIB F k. unfold world_frame in F. destruct (EngineModel.advance (heap e) (sorted e)) as [l|] eqn:A; [|discriminate]. destruct (map_all (kind_of_object (heap e)) l) as [ks|] eqn:K; [|discriminate].
  destruct (frame_kinds _ _ _ _ _ H NR LIB A K) as (ND & IN & IO). pose proof (advance_kinds_are dt ks w w' ND IO F k) as R. now rewrite IN in R.
Qed.

(** ** Specification: what matrices and rigs are made of *)
(** The amount of an operation: its motivator's value, or its constant. *)
(** What a scalar motivator shows in a state: the second half of its data, for a spline the
    value the evaluator has computed. *)
Definition scalar_shown (w : W) (r : ref) (v : R) : Prop :=
  let i := r_index r in
  match r_kind r with
  | KSpline => exists s, getz (w_splines w) i = Some s /\ cur_y s = v
  | KConst => exists u, getz (w_consts w) i = Some (u, v)
  | KOvershoot => exists d, getz (w_overshoots w) i = Some (d, v)
  | KEase => exists d, getz (w_eases w) i = Some (d, v)
  | KSpring => exists d, getz (w_springs w) i = Some (d, v)
  | _ => False
  end.
Definition amount (w : W) (o : op ref) (v : R) : Prop := match op_motivator o with Some r => scalar_shown w r v | None => v = op_const o end.
(** The product of the elementary matrices of the operations, in order. *)
Definition matrix_current (w : W) (d : mdata ref) : Prop :=
  exists es, Forall2 (fun o e => exists v, amount w o v /\ elementary (op_type o) v = Some e) (md_ops d) es /\ md_matrix d = product es.
(** First scaled, then rotated by the quaternion at unit length, then moved. *)
Definition sqt_current (w : W) (d : qdata ref) : Prop :=
  exists vs u r, Forall2 (amount w) (qd_ops d) vs /\ let l := combine (map op_type (qd_ops d)) vs in
    unit_of u (last_quaternion l) /\ (forall v, mat_vec3 r v = rotated u v) /\ qd_matrix d = mmul (translating (last_translation l)) (mmul (rotating r) (scaling (last_scale l))).
(** The matrix of a bone's motivator. *)
Definition bone_matrix (w : W) (r : ref) (m : mat4) : Prop :=
  match r_kind r with
  | KMatrix => exists d, getz (w_matrices w) (r_index r) = Some d /\ m = md_matrix d
  | KSqt => exists d, getz (w_sqts w) (r_index r) = Some d /\ m = qd_matrix d
  | _ => False
  end.
(** Every bone's global transform is the product along its ancestors; with several animations
    a bone's own transform is blended (C57, C58, C79). *)
Definition rig_current (w : W) (d : rig_data ref O) : Prop :=
  let n := num_bones (defining d) in
  exists local, (forall i, (0 <= i < n)%Z ->
      ((len (weights d) <= 1)%Z -> match getz (motivators d) i with Some (Some r) => bone_matrix w r (local i) | Some None => local i = identity4 | None => False end) /\
      ((1 < len (weights d))%Z -> bone_blended (bone_refs fm w) (motivators d) n (weights d) i = Some (local i))) /\
    (forall i, (0 <= i < n)%Z -> exists l g, lineage (ra_parents (defining d)) i l /\ getz (globals d) i = Some g /\ from_affine g = along (root_bone d) local l) /\
    ((0 <= root_bone d < n)%Z -> from_affine (root_transform d) = local (root_bone d)).
(** A rig as its constructor and BlendToAnim leave it (C56, C59, C63). *)
Definition sound_rig (d : rig_data ref O) : Prop :=
  parents_first (ra_parents (defining d)) (num_bones (defining d)) /\ len (globals d) = num_bones (defining d) /\ (num_bones (defining d) <= len (motivators d))%Z.

(** *** Proofs *)
Lemma op_value_amount w ops : ops_ok w ops = true -> Forall (fun o => amount w o (op_value (ref_class w) o)) ops.
Proof.
  unfold ops_ok. intros H. apply Forall_forall. intros o I. rewrite forallb_forall in H. specialize (H o I). unfold amount, op_value. destruct (op_motivator o) as [r|]; [|reflexivity]. destruct (scalar w r) as [v|] eqn:E; [|discriminate].
  cbn [ref_class m_value]. rewrite E. unfold scalar in E. unfold scalar_shown. cbv zeta. destruct (r_kind r); try discriminate; destruct (getz _ _) as [x|]; try discriminate; injection E as <-; try destruct x; eexists; repeat split.
Qed.
Lemma elementary_all {M I S} (k : mclass M I S) : forall ops r, calculate_result_matrix k ops = Some r -> exists es, Forall2 (fun o e => elementary (op_type o) (op_value k o) = Some e) ops es.
Proof.
  intros ops r H. assert (A : forall o, In o ops -> elementary (op_type o) (op_value k o) <> None). { intros o J N. rewrite C51_unsupported in H by (exists o; auto). discriminate. }
  clear H. induction ops as [|o ops IH]; [exists []; constructor|]. destruct IH as [es E]; [intros o2 J; apply A; now right|]. destruct (elementary (op_type o) (op_value k o)) as [e|] eqn:X; [|destruct (A o (or_introl eq_refl) X)]. exists (e :: es). now constructor.
Qed.
Lemma matrix_update_current (w v : W) d d' : ref_class v = ref_class w -> ops_ok w (md_ops d) = true -> mdata_update (ref_class v) d = Some d' -> md_ops d' = md_ops d /\ matrix_current w d'.
Proof.
  intros -> OK H. unfold mdata_update in H. destruct (calculate_result_matrix _ _) as [r|] eqn:E; [|discriminate]. destruct (elementary_all _ _ _ E) as [es F]. rewrite (C51_product _ _ _ _ _ _ F) in E. injection E as <-. injection H as <-. split; [reflexivity|].
  exists es. cbn [md_ops md_matrix fst]. split; [|reflexivity]. apply op_value_amount in OK. clear -F OK. induction F as [|o e ops es E F IH]; constructor; inversion OK; subst; eauto.
Qed.
Lemma component_last {M I S} (k : mclass M I S) is (ops : list (op M)) d : component k is ops d = last_value is (map (fun o => (op_type o, op_value k o)) ops) d.
Proof.
  unfold component, last_value. rewrite <- map_rev. induction (rev ops) as [|o l IH]; cbn [map find fst]; [reflexivity|]. destruct (is (op_type o)); [reflexivity|exact IH].
Qed.
Lemma sqt_update_current (w v : W) d d' : ref_class v = ref_class w -> ops_ok w (qd_ops d) = true -> qdata_update (ref_class v) d = Some d' -> qd_ops d' = qd_ops d /\ sqt_current w d'.
Proof.
  intros -> OK U. destruct (forallb (fun o => sqt_type (op_type o)) (qd_ops d)) eqn:T; [|rewrite C53_unsupported in U by exact T; discriminate].
  assert (NZ : quaternion_part (ref_class w) (qd_ops d) <> Quat 0 0 0 0) by (intros Z; rewrite qdata_update_eq, Z, qnormalize_zero in U by exact T; discriminate).
  destruct (C53_update_partial _ _ _ (ref_class w) d T NZ) as (d2 & r & E & MX & UN & RO & _ & OPS). rewrite U in E. injection E as <-. split; [exact OPS|]. unfold sqt_current. rewrite OPS.
  exists (map (op_value (ref_class w)) (qd_ops d)), (qd_rotation d'), r. apply op_value_amount in OK. split; [clear -OK; induction OK; cbn [map]; constructor; assumption|].
  assert (C : combine (map op_type (qd_ops d)) (map (op_value (ref_class w)) (qd_ops d)) = map (fun o => (op_type o, op_value (ref_class w) o)) (qd_ops d)). { clear. induction (qd_ops d) as [|o l IH]; cbn; [reflexivity|now rewrite IH]. }
  cbv zeta. rewrite C. unfold last_quaternion, last_translation, last_scale. rewrite <- !component_last. repeat split; auto; apply UN.
Qed.
Lemma loop_some f parents root : forall fuel i st st', global_loop fuel i f parents root st = Some st' -> forall j, (i <= j < i + Z.of_nat fuel)%Z -> exists m, f j = Some m.
Proof.
  induction fuel as [|fuel IH]; intros i st st' H j J; cbn [global_loop] in H; [lia|]. destruct (f i) as [m|] eqn:F; [|discriminate]. destruct (global_step _ _ _ _ _) as [st2|]; [|discriminate]. destruct (Z.eq_dec j i) as [->|N]; [eauto|]. apply (IH _ _ _ H). lia.
Qed.
Lemma map_all_back {A B} (f : A -> option B) l r : map_all f l = Some r -> forall i y, getz r i = Some y -> exists x, getz l i = Some x /\ f x = Some y.
Proof.
  intros H i y E. destruct (getz_in_range l i) as [x X]; [apply getz_Some in E; rewrite (map_all_len _ _ _ H) in E; exact E|]. destruct (map_all_getz _ _ _ H i x X) as (y' & F & E'). exists x. split; [exact X|congruence].
Qed.
Lemma getz_in {A} (l : list A) i x : getz l i = Some x -> In x l.
Proof. intros E. destruct (getz_split _ _ _ E) as (X & Y & -> & _). apply in_or_app. right. now left. Qed.
Lemma matrix_current_affine w d : matrix_current w d -> affine4 (md_matrix d).
Proof. intros (es & F & ->). apply product_affine. clear -F. induction F as [|o e l es (v & _ & E) F IH]; constructor; [exact (MatrixProps.elementary_affine _ _ _ E)|exact IH]. Qed.
Lemma sqt_current_affine w d : sqt_current w d -> affine4 (qd_matrix d).
Proof. intros (vs & u & r & _ & _ & _ & ->). rewrite <- transform_product. apply transform_affine. Qed.

Lemma bone_at_matrix w r b : bone_at w r = Some b -> bone_matrix w r (b_value (bone_refs fm w) r).
Proof.
  intros E. cbn [bone_refs b_value]. rewrite E. unfold bone_at in E. unfold bone_matrix. destruct (r_kind r); try discriminate.
  - destruct (getz (w_matrices w) (r_index r)) as [d|]; [|discriminate]. injection E as <-. exists d. split; reflexivity.
  - destruct (getz (w_sqts w) (r_index r)) as [d|]; [|discriminate]. injection E as <-. exists d. split; reflexivity.
Qed.
Lemma rig_update_current w d d' : bones_ok w (motivators d) = true -> sound_rig d -> (forall r m, In (Some r) (motivators d) -> bone_matrix w r m -> affine4 m) -> update_global_transforms (bone_refs fm w) d = Some d' ->
  motivators d' = motivators d /\ weights d' = weights d /\ defining d' = defining d /\ root_bone d' = root_bone d /\ rig_current w d'.
Proof.
  intros OK (PF & LG & LM) AF U. assert (BO : forall r, In (Some r) (motivators d) -> exists b, bone_at w r = Some b). { intros r I. unfold bones_ok in OK. rewrite forallb_forall in OK. specialize (OK _ I). cbn in OK. destruct (bone_at w r); [eauto|discriminate]. }
  destruct (Z_le_gt_dec (len (weights d)) 1) as [L1|G1].
  - destruct (C56_single _ _ (bone_refs fm w) d L1 PF LG LM) as (d2 & E & (D1 & D2 & D3 & _ & D5 & D6 & D7 & D8 & _)). { intros b I. destruct (BO b I) as [x X]. eapply AF; [exact I|]. eapply bone_at_matrix. exact X. }
    rewrite U in E. injection E as <-. split; [exact D5|]. split; [exact D6|]. split; [exact D7|]. split; [exact D8|]. exists (shown (bone_refs fm w) d). rewrite D5, D6, D7, D8. split; [|split; [exact D2|exact D3]].
    intros i Hi. split; [|lia]. intros _. unfold shown. destruct (getz_in_range (motivators d) i) as [m E]; [lia|]. rewrite E. destruct m as [r|]; [|reflexivity]. destruct (BO r (getz_in _ _ _ E)) as [x X]. eapply bone_at_matrix. exact X.
  - assert (SOME : forall i, (0 <= i < num_bones (defining d))%Z -> exists m, bone_blended (bone_refs fm w) (motivators d) (num_bones (defining d)) (weights d) i = Some m).
    { intros i Hi. unfold update_global_transforms in U. cbv zeta in U. destruct (Z.leb_spec (len (weights d)) 1); [lia|]. destruct (global_loop _ _ _ _ _ _) as [st|] eqn:GL; [|discriminate]. apply (loop_some _ _ _ _ _ _ _ GL). lia. }
    set (local := fun i => match bone_blended (bone_refs fm w) (motivators d) (num_bones (defining d)) (weights d) i with Some m => m | None => identity4 end).
    assert (LO : forall i, (0 <= i < num_bones (defining d))%Z -> bone_blended (bone_refs fm w) (motivators d) (num_bones (defining d)) (weights d) i = Some (local i)). { intros i Hi. unfold local. destruct (SOME i Hi) as [m ->]. reflexivity. }
    destruct (C56_blended _ _ (bone_refs fm w) d local ltac:(lia) PF LG LO) as (d2 & E & (D1 & D2 & D3 & _ & D5 & D6 & D7 & D8 & _)).
    rewrite U in E. injection E as <-. split; [exact D5|]. split; [exact D6|]. split; [exact D7|]. split; [exact D8|]. exists local. rewrite D5, D6, D7, D8. split; [|split; [exact D2|exact D3]].
    intros i Hi. split; [lia|]. intros _. now apply LO.
Qed.

(** ** C113 *)
(** A frame of the engine: every processor that has been handed out advances once, the others
    keep what they had; every matrix and rig is then made of the values that the motivators
    show after the frame. *)
Theorem C113_frame : forall ops e tr dt w w', erun prio engine_init ops = Some (e, tr) -> ~ In EReset ops -> library ops -> world_frame fm e dt w = Some w' ->
  (made tr KSpline -> EvaluatorModel.advance_frame (IZR dt) (w_splines w) = Some (w_splines w')) /\ (~ made tr KSpline -> w_splines w' = w_splines w) /\
  (made tr KConst -> w_consts w' = map (const_frame dt) (w_consts w)) /\ (~ made tr KConst -> w_consts w' = w_consts w) /\
  (made tr KOvershoot -> OvershootModel.advance_frame (Z.to_nat dt) dt (w_overshoots w) = Some (w_overshoots w')) /\ (~ made tr KOvershoot -> w_overshoots w' = w_overshoots w) /\
  (made tr KEase -> map_all (ease_frame dt) (w_eases w) = Some (w_eases w')) /\ (~ made tr KEase -> w_eases w' = w_eases w) /\
  (made tr KSpring -> map_all (spring_frame dt) (w_springs w) = Some (w_springs w')) /\ (~ made tr KSpring -> w_springs w' = w_springs w) /\
  (made tr KMatrix -> len (w_matrices w') = len (w_matrices w) /\ forall i d', getz (w_matrices w') i = Some d' -> (exists d, getz (w_matrices w) i = Some d /\ md_ops d' = md_ops d) /\ matrix_current w' d') /\
  (~ made tr KMatrix -> w_matrices w' = w_matrices w) /\
  (made tr KSqt -> len (w_sqts w') = len (w_sqts w) /\ forall i d', getz (w_sqts w') i = Some d' -> (exists d, getz (w_sqts w) i = Some d /\ qd_ops d' = qd_ops d) /\ sqt_current w' d') /\
  (~ made tr KSqt -> w_sqts w' = w_sqts w) /\
  (made tr KRig -> w_time w' = (w_time w + dt)%Z /\ len (w_rigs w') = len (w_rigs w) /\
     forall i d', getz (w_rigs w') i = Some d' -> exists d, getz (w_rigs w) i = Some d /\ motivators d' = motivators d /\ weights d' = weights d /\ defining d' = defining d /\ root_bone d' = root_bone d /\
       (sound_rig d -> (forall r, In (Some r) (motivators d) -> made tr (r_kind r)) -> rig_current w' d')) /\
  (~ made tr KRig -> w_rigs w' = w_rigs w /\ w_time w' = w_time w).
Proof.
  intros ops e tr dt w w' H NR LIB F. pose proof (world_frame_is _ _ _ _ _ _ H NR LIB F) as X.
  assert (MX : made tr KMatrix -> len (w_matrices w') = len (w_matrices w) /\ forall i d', getz (w_matrices w') i = Some d' -> (exists d, getz (w_matrices w) i = Some d /\ md_ops d' = md_ops d) /\ matrix_current w' d').
  { intros M. destruct (X KMatrix) as [A _]. destruct (A M) as [B E]. split; [exact (map_all_len _ _ _ E)|]. intros i d' G. destruct (map_all_back _ _ _ E i d' G) as (d & G0 & U). rewrite forallb_forall in B. specialize (B d (getz_in _ _ _ G0)).
    destruct (matrix_update_current w' w' d d' eq_refl B U) as [OP CU]. split; [exists d; auto|exact CU]. }
  assert (QX : made tr KSqt -> len (w_sqts w') = len (w_sqts w) /\ forall i d', getz (w_sqts w') i = Some d' -> (exists d, getz (w_sqts w) i = Some d /\ qd_ops d' = qd_ops d) /\ sqt_current w' d').
  { intros M. destruct (X KSqt) as [A _]. destruct (A M) as [B E]. split; [exact (map_all_len _ _ _ E)|]. intros i d' G. destruct (map_all_back _ _ _ E i d' G) as (d & G0 & U). rewrite forallb_forall in B. specialize (B d (getz_in _ _ _ G0)).
    destruct (sqt_update_current w' w' d d' eq_refl B U) as [OP CU]. split; [exists d; auto|exact CU]. }
  do 10 (split; [first [exact (proj1 (X KSpline))|exact (proj2 (X KSpline))|exact (proj1 (X KConst))|exact (proj2 (X KConst))|exact (proj1 (X KOvershoot))|exact (proj2 (X KOvershoot))|exact (proj1 (X KEase))|exact (proj2 (X KEase))|exact (proj1 (X KSpring))|exact (proj2 (X KSpring))]|]).
  split; [exact MX|]. split; [exact (proj2 (X KMatrix))|]. split; [exact QX|]. split; [exact (proj2 (X KSqt))|]. split; [|exact (proj2 (X KRig))].
  intros M. destruct (X KRig) as [A _]. destruct (A M) as [B E]. unfold rig_frame in E. destruct (map_all _ (w_rigs w)) as [r|] eqn:MA; [|discriminate]. unfold add_int in E. destruct (_ && _)%bool; [|discriminate]. injection E as T R. rewrite <- R. split; [symmetry; exact T|]. split; [exact (map_all_len _ _ _ MA)|].
  intros i d' G. destruct (map_all_back _ _ _ MA i d' G) as (d & G0 & U). exists d. split; [exact G0|]. rewrite forallb_forall in B. specialize (B d (getz_in _ _ _ G0)).
  assert (KEEP : motivators d' = motivators d /\ weights d' = weights d /\ defining d' = defining d /\ root_bone d' = root_bone d). { unfold update_global_transforms in U. cbv zeta in U. destruct (global_loop _ _ _ _ _ _) as [[g rt]|]; [|discriminate]. injection U as <-. auto. }
  destruct KEEP as (K1 & K2 & K3 & K4). do 4 (split; [assumption|]). intros SR MR.
  apply (rig_update_current w' d d' B SR); [|exact U]. intros r0 m I BM. specialize (MR r0 I). unfold bone_matrix in BM. destruct (r_kind r0); try contradiction; destruct BM as (x & G1 & ->).
  - apply (matrix_current_affine w'). now apply (proj2 (MX MR) _ _ G1).
  - apply (sqt_current_affine w'). now apply (proj2 (QX MR) _ _ G1).
Qed.
End Frame.
Print Assumptions C113_frame.
