(** Theorems about quaternion keyframes (C66), cubic keyframes (C81) and the operations made
    from converted keyframes (C82). *)
From Verif Require Import RBase BaseFacts RangeModel CurveModel CompactSplineModel MatrixModel KeyframeModel KeyframeSpec KeyframeSplines KeyframeProofs KeyframeProps.
Local Open Scope Z_scope.

(** * C66 *)
(** Linear quaternion keyframes: each output is the input or its negation, the first is the
    input, and consecutive outputs are on the same side.  Missing: the other interpolations,
    see below. *)
Lemma all4 (P : Z -> Prop) : (forall c, 0 <= c < 4 -> P c) -> P 0 /\ P 1 /\ P 2 /\ P 3.
Proof. intros H. repeat split; apply H; lia. Qed.
Theorem C66_linear_partial : forall data chans, kd_type data = Linear -> quaternion_nodes data = Some chans ->
  forall f, 0 <= f < kd_count data -> exists q p, node_quat chans f = Some q /\ key_quat data f = Some p /\ (q = p \/ q = map Ropp p) /\ (f = 0 -> q = p) /\
    forall q', node_quat chans (f + 1) = Some q' -> (0 <= dot q q')%R.
Proof.
  intros data chans T RN. destruct (run_linear data 4 _ chans RN (quat_frames data) T) as (done & L & [Q1 Q2] & LC & H).
  { split; [intros f t k G|intros f t k t' k' G _]; exfalso; apply getz_Some in G; change (len (@nil (R * keyframe))) with 0 in G; lia. }
  { intros. eapply quat_frames_snoc; eauto. reflexivity. }
  change (Z.of_nat (Z.to_nat 4)) with 4 in LC.
  assert (NQ : forall f, 0 <= f < kd_count data -> exists t k, getz done f = Some (t, k) /\ node_quat chans f = Some (kf_values k) /\ len (kf_values k) = 4).
  { intros f F. destruct (getz_in_range done f) as [[t k] G]; [lia|]. exists t, k. split; [exact G|]. destruct (Q1 _ _ _ G) as (_ & L4 & _). split; [|exact L4].
    assert (NV : forall c, 0 <= c < 4 -> node_value chans f c = getz (kf_values k) c).
    { intros c C. destruct (getz_in_range chans c) as [ns GN]; [lia|]. destruct (H _ _ GN) as (_ & _ & K). destruct (K f ltac:(lia)) as (t1 & v1 & _ & V1 & E1 & E2).
      unfold node_value. rewrite GN, E1, E2. cbn [uy]. rewrite Reqb_t by reflexivity. unfold fvalue in V1. rewrite G in V1. now rewrite V1. }
    unfold node_quat. rewrite !NV by lia. destruct (len4 _ L4) as (a & b & c & d & ->). reflexivity. }
  intros f F. destruct (NQ f F) as (t & k & G & N & L4). destruct (Q1 _ _ _ G) as (_ & _ & V). exists (kf_values k).
  assert (KV : forall c v, 0 <= c < 4 -> getz (kd_values data) (f * 4 + c) = Some v -> key_value data 4 f c = Some v) by (intros c v C E; unfold key_value; replace (f <? kd_count data) with true by lia; exact E).
  destruct (len4 _ L4) as (a & b & c & d & E). rewrite E in *.
  assert (KQ : (exists p, key_quat data f = Some p /\ ([a; b; c; d] = p \/ [a; b; c; d] = map Ropp p) /\ (f = 0 -> [a; b; c; d] = p))).
  { destruct V as [V|[FP V]]; apply all4 in V; destruct V as (V0 & V1 & V2 & V3).
    - exists [a; b; c; d]. split; [|auto]. unfold key_quat.
      rewrite (KV 0 a), (KV 1 b), (KV 2 c), (KV 3 d); try lia; symmetry; assumption || reflexivity.
    - destruct V0 as (v0 & A0 & B0), V1 as (v1 & A1 & B1), V2 as (v2 & A2 & B2), V3 as (v3 & A3 & B3). exists [v0; v1; v2; v3].
      split; [unfold key_quat; rewrite (KV 0 v0), (KV 1 v1), (KV 2 v2), (KV 3 v3) by (assumption || lia); reflexivity|].
      change (Some a = Some (- v0)%R) in B0. change (Some b = Some (- v1)%R) in B1. change (Some c = Some (- v2)%R) in B2. change (Some d = Some (- v3)%R) in B3.
      injection B0 as ->. injection B1 as ->. injection B2 as ->. injection B3 as ->. split; [right; reflexivity|lia]. }
  destruct KQ as (p & K1 & K2 & K3). exists p. split; [exact N|]. split; [exact K1|]. split; [exact K2|]. split; [exact K3|].
  intros q' N'. destruct (Z.lt_ge_cases (f + 1) (kd_count data)) as [LT|GE].
  - destruct (NQ (f + 1) ltac:(lia)) as (t' & k' & G' & N2 & _). assert (q' = kf_values k') as -> by congruence. rewrite <- E. eapply Q2; eassumption.
  - exfalso. destruct (run_lengths _ _ _ _ RN) as (_ & _ & LN). unfold node_quat, node_value in N'. destruct (getz chans 0) as [ns|] eqn:GN; [|discriminate].
    rewrite (getz_None ns (2 * (f + 1))) in N'; [discriminate|]. rewrite (LN ns) by (eapply getz_in; exact GN). lia.
Qed.
Print Assumptions C66_linear_partial.

(** Other interpolations are not filtered... *)
Lemma frames_same data f g : (forall frame cur prev, g frame cur prev = get_array_value data 4 frame cur prev) ->
  forall n frame cur prev chans, frames_loop data g f n frame cur prev chans = frames_loop data (get_array_value data 4) f n frame cur prev chans.
Proof.
  intros E. induction n as [|n IH]; intros frame cur prev chans; cbn [frames_loop]; [reflexivity|]. destruct (getz (kd_times data) frame); [|reflexivity].
  rewrite E. destruct (get_array_value data 4 frame cur prev) as [c'|]; [|reflexivity]. destruct (channels_loop _ _ _); [apply IH|reflexivity].
Qed.
Theorem C66_others_unchanged : forall data, kd_type data <> Linear -> quaternion_nodes data = array_nodes data 4.
Proof.
  intros data T. unfold quaternion_nodes, array_nodes, add_keyframe_data. destruct (0 <=? kd_count data); [|reflexivity]. apply frames_same. intros frame cur prev.
  unfold get_quaternion_value. destruct (get_array_value data 4 frame cur prev); [|reflexivity]. destruct (kd_type data); [congruence| |]; reflexivity.
Qed.
Print Assumptions C66_others_unchanged.
(** ... so the curves between cubic keyframes q and -q, the same orientation, go through zero. *)
Definition flip : keyframe_data := KData [0; 1]%R [0; 0; 0; 0;  1; 0; 0; 0;  0; 0; 0; 0;   0; 0; 0; 0;  -1; 0; 0; 0;  0; 0; 0; 0]%R 2 CubicSpline 1000%R.
Theorem C66_cubic_refuted : exists chans q q', quaternion_nodes flip = Some chans /\ node_quat chans 0 = Some q /\ node_quat chans 1 = Some q' /\
  q' = map Ropp q /\ dot q q' = (-1)%R.
Proof.
  rewrite C66_others_unchanged by discriminate.
  destruct (run_progress flip 4 (get_array_value flip 4)) as [chans RN]; try (cbn; lia); [|intros; cbn; lra|].
  { intros frame k F S. apply array_value_progress; [lia|exact F|cbn; lia|exact S]. }
  change (array_nodes flip 4 = Some chans) in RN. exists chans, [1; 0; 0; 0]%R, [-1; 0; 0; 0]%R. destruct (run_lengths _ _ _ _ RN) as (L & _ & _). change (Z.of_nat (Z.to_nat 4)) with 4 in L.
  assert (NV : forall f c v, 0 <= f < 2 -> 0 <= c < 4 -> cubic_value flip 4 f c = Some v -> node_value chans f c = Some v).
  { intros f c v F C V. destruct (getz_in_range chans c) as [ns GN]; [lia|]. destruct (array_cubic flip 4 chans c ns eq_refl RN GN) as [_ K]. destruct (K f F) as (t & v1 & l & r & _ & V1 & _ & _ & E1 & E2).
    unfold node_value. rewrite GN, E1, E2. cbn [uy]. rewrite Reqb_t by reflexivity. congruence. }
  split; [exact RN|]. unfold node_quat.
  rewrite (NV 0 0 1%R), (NV 0 1 0%R), (NV 0 2 0%R), (NV 0 3 0%R), (NV 1 0 (-1)%R), (NV 1 1 0%R), (NV 1 2 0%R), (NV 1 3 0%R) by (lia || reflexivity).
  split; [reflexivity|]. split; [reflexivity|]. split; [|cbn [dot]; ring]. cbn [map]. rewrite Ropp_0. reflexivity.
Qed.
Print Assumptions C66_cubic_refuted.
(** A case of linear keyframes: q and -q. *)
Definition linear_flip : keyframe_data := KData [0; 1]%R [1; 0; 0; 0;  -1; 0; 0; 0]%R 2 Linear 1000%R.
Example C66_case : exists chans, quaternion_nodes linear_flip = Some chans /\ node_quat chans 0 = Some [1; 0; 0; 0]%R /\ node_quat chans 1 = Some (map Ropp [-1; 0; 0; 0]%R).
Proof.
  destruct (run_progress linear_flip 4 (get_quaternion_value linear_flip)) as [chans RN]; try (cbn; lia); [|discriminate|].
  { intros frame k F S. destruct (array_value_progress linear_flip 4 frame k ltac:(lia) F ltac:(cbn; lia) S) as (k' & E & S'). unfold get_quaternion_value. rewrite E. cbn [kd_type linear_flip].
    destruct (0 <? frame); [|eauto]. destruct S as (S1 & _), S' as (S1' & S2' & S3'). destruct (len4 _ S1) as (a & b & c & d & ->). destruct (len4 _ S1') as (a' & b' & c' & d' & E'). rewrite E'.
    destruct (Rltb _ _); eexists; (split; [reflexivity|]); repeat split; auto. }
  change (quaternion_nodes linear_flip = Some chans) in RN. exists chans. split; [exact RN|].
  destruct (C66_linear_partial linear_flip chans eq_refl RN 0 ltac:(cbn; lia)) as (q & p & N & K & _ & E & D). specialize (E eq_refl). subst q.
  destruct (C66_linear_partial linear_flip chans eq_refl RN 1 ltac:(cbn; lia)) as (q' & p' & N' & K' & PM & _ & _). specialize (D q' N').
  change (Some [1; 0; 0; 0]%R = Some p) in K. injection K as <-. change (Some [-1; 0; 0; 0]%R = Some p') in K'. injection K' as <-. split; [exact N|]. rewrite N'. f_equal.
  destruct PM as [-> | ->]; [cbn [dot] in D; lra|reflexivity].
Qed.

(** * C81 *)
(** Cubic keyframes: the nodes have the keyframe's value at its time, its left tangent before
    and its right tangent after, per millisecond. *)
Theorem C81_cubic : forall data ch chans c ns, kd_type data = CubicSpline -> array_nodes data ch = Some chans -> getz chans c = Some ns ->
  len ns = 2 * kd_count data /\ forall f, 0 <= f < kd_count data -> exists t v l r, key_time data f = Some t /\
    cubic_value data ch f c = Some v /\ cubic_left data ch f c = Some l /\ cubic_right data ch f c = Some r /\
    getz ns (2 * f) = Some (UNode t v (l / kd_ms data)) /\ getz ns (2 * f + 1) = Some (UNode t v (r / kd_ms data)).
Proof. exact array_cubic. Qed.
Print Assumptions C81_cubic.
(** The Hermite cubic between two keyframes starts and ends at their values with their
    tangents, per unit of time. *)
Theorem C81_curve : forall data ch chans c ns f t t' v v' r l', kd_type data = CubicSpline -> array_nodes data ch = Some chans -> getz chans c = Some ns -> 0 <= f ->
  key_time data f = Some t -> key_time data (f + 1) = Some t' -> cubic_value data ch f c = Some v -> cubic_value data ch (f + 1) c = Some v' ->
  cubic_right data ch f c = Some r -> cubic_left data ch (f + 1) c = Some l' -> (t < t')%R -> (0 < kd_ms data)%R ->
  exists a b, getz ns (2 * f + 1) = Some a /\ getz ns (2 * (f + 1)) = Some b /\ ux a = t /\ ux b = t' /\
    let k := cubic_init (uy a) (uderivative a) (uy b) (uderivative b) (t' - t)%R in
    keval k 0 = v /\ keval k (t' - t)%R = v' /\ (kderiv k 0 * kd_ms data = r)%R /\ (kderiv k (t' - t)%R * kd_ms data = l')%R.
Proof.
  intros data ch chans c ns f t t' v v' r l' TY A GC F T T' V V' RR LL LT MS. destruct (array_cubic data ch chans c ns TY A GC) as [LN FF].
  assert (f + 1 < kd_count data) by (unfold key_time in T'; destruct (Z.ltb_spec (f + 1) (kd_count data)); [assumption|discriminate]).
  destruct (FF f ltac:(lia)) as (t1 & v1 & l1 & r1 & T1 & V1 & _ & R1 & _ & E1). destruct (FF (f + 1) ltac:(lia)) as (t2 & v2 & l2 & r2 & T2 & V2 & L2 & _ & E2 & _).
  assert (t1 = t) as -> by congruence. assert (v1 = v) as -> by congruence. assert (t2 = t') as -> by congruence. assert (v2 = v') as -> by congruence.
  assert (r1 = r) as -> by congruence. assert (l2 = l') as -> by congruence.
  eexists _, _. split; [exact E1|]. split; [exact E2|]. cbn [ux uy uderivative]. split; [reflexivity|]. split; [reflexivity|].
  unfold keval, kderiv, cubic_init. cbn [k3 k2 k1 k0]. rewrite Rltb_t by lra. repeat split; field; lra.
Qed.
Print Assumptions C81_curve.
(** A case: one channel, keyframes at 0 s and 1 s. *)
Definition cubic_demo : keyframe_data := KData [0; 1]%R [5; 2; 7;  1; 4; 3]%R 2 CubicSpline 1000%R.
Example C81_case : exists chans ns, array_nodes cubic_demo 1 = Some chans /\ getz chans 0 = Some ns /\ getz ns 1 = Some (UNode (0 * 1000) 2 (7 / 1000)) /\ getz ns 2 = Some (UNode (1 * 1000) 4 (1 / 1000)).
Proof.
  destruct (run_progress cubic_demo 1 (get_array_value cubic_demo 1)) as [chans RN]; try (cbn; lia); [|intros; cbn; lra|].
  { intros frame k F S. apply array_value_progress; [lia|exact F|cbn; lia|exact S]. }
  destruct (run_lengths _ _ _ _ RN) as (L & _ & _). destruct (getz_in_range chans 0) as [ns G]; [cbn in L; lia|]. exists chans, ns. split; [exact RN|]. split; [exact G|].
  destruct (C81_cubic cubic_demo 1 chans 0 ns eq_refl RN G) as [_ K]. destruct (K 0 ltac:(cbn; lia)) as (t & v & l & r & T & V & _ & RR & _ & E). destruct (K 1 ltac:(cbn; lia)) as (t' & v' & l' & r' & T' & V' & LL & _ & E' & _).
  change (Some (0 * 1000)%R = Some t) in T. injection T as <-. change (Some 2%R = Some v) in V. injection V as <-. change (Some 7%R = Some r) in RR. injection RR as <-.
  change (Some (1 * 1000)%R = Some t') in T'. injection T' as <-. change (Some 4%R = Some v') in V'. injection V' as <-. change (Some 1%R = Some l') in LL. injection LL as <-. auto.
Qed.

(** * C82 *)
(** Where the components W, X, Y, Z are among the four values, by order. *)
Definition component (order : quaternion_order) (i : Z) : Z :=
  match order with OrderWXYZ => i | OrderXYZW => if i =? 0 then 3 else i - 1 end.
Definition quaternion_types : list mtype := [QuaternionW; QuaternionX; QuaternionY; QuaternionZ].
(** Three consecutive types. *)
Definition vector_types (base : mtype) : option (list mtype) :=
  match base with
  | RotateX => Some [RotateX; RotateY; RotateZ] | TranslateX => Some [TranslateX; TranslateY; TranslateZ] | ScaleX => Some [ScaleX; ScaleY; ScaleZ] | _ => None
  end.
Definition curve_op (id : Z) (t : mtype) (s : spline) : anim_op := OpInit (Some tt) (id mod 256) t (USpline s).
Definition value_op (id : Z) (t : mtype) (v : R) : anim_op := OpInit None (id mod 256) t (UValue v).

(** Quaternion curves: operations W, X, Y, Z with consecutive ids, after those there were,
    each with the spline of its own component. *)
Ltac opt H := match type of H with context [match ?e with Some _ => _ | None => _ end] =>
  lazymatch e with context [match _ with Some _ => _ | None => _ end] => fail | _ => let E := fresh "E" in destruct e eqn:E; cbn iota in H; try discriminate H end end.
Theorem C82_quaternion_ops : forall ops base_id order data ops', add_quaternion_ops ops base_id order data = Some ops' ->
  exists chans new, quaternion_nodes data = Some chans /\ ops' = ops ++ new /\ len new = 4 /\
    forall i, 0 <= i < 4 -> exists ns s t, getz chans (component order i) = Some ns /\ create_from_nodes ns = Some s /\ getz quaternion_types i = Some t /\
      getz new i = Some (curve_op (base_id + i) t s).
Proof.
  intros ops base_id order data ops' H. unfold add_quaternion_ops in H. destruct (quaternion_nodes data) as [chans|]; [|discriminate].
  destruct (quaternion_curves 4 0 base_id order chans) as [new|] eqn:Q; [|discriminate]. injection H as <-. exists chans, new. split; [reflexivity|]. split; [reflexivity|].
  cbn [quaternion_curves] in Q. change (type_plus QuaternionW 0) with (Some QuaternionW) in Q. change (type_plus QuaternionW (0 + 1)) with (Some QuaternionX) in Q.
  change (type_plus QuaternionW (0 + 1 + 1)) with (Some QuaternionY) in Q. change (type_plus QuaternionW (0 + 1 + 1 + 1)) with (Some QuaternionZ) in Q. cbn iota in Q.
  repeat opt Q. injection Q as <-.
  repeat match goal with X : Some _ = Some _ |- _ => injection X as <- end.
  split; [reflexivity|]. intros i I. assert (i = 0 \/ i = 1 \/ i = 2 \/ i = 3) as [-> |[-> |[-> | ->]]] by lia; destruct order;
    (eexists _, _, _; split; [eassumption|]; split; [eassumption|]; split; [reflexivity|reflexivity]).
Qed.
Print Assumptions C82_quaternion_ops.

(** In a buffer, the four splines are those same ones, in the same order W, X, Y, Z. *)
Theorem C82_buffer : forall data order out used, add_quaternion_curves data order = Some (out, used) ->
  exists chans, quaternion_nodes data = Some chans /\ len out = 4 /\
    forall i, 0 <= i < 4 -> exists ns off s, getz chans (component order i) = Some ns /\ create_from_nodes ns = Some s /\ getz out i = Some (off, s).
Proof.
  intros data order out used H. unfold add_quaternion_curves in H. destruct (quaternion_nodes data) as [chans|] eqn:Q; [|discriminate]. exists chans. split; [reflexivity|].
  destruct (run_lengths _ _ _ _ Q) as (L & _ & _). change (Z.of_nat (Z.to_nat 4)) with 4 in L.
  destruct chans as [|n0 [|n1 [|n2 [|n3 [|n4 rest]]]]]; try (unfold len in L; cbn in L; lia). 
  destruct order; cbn [reorder] in H; destruct (splines_ok _ _ _ _ _ H) as (S1 & S2 & _); (split; [exact S1|]); intros i I;
    (destruct (getz_in_range out i) as [[off s] G]; [rewrite S1; exact I|]); destruct (S2 _ _ _ G) as (ns & G1 & G2); exists ns, off, s;
    (split; [|split; [exact G2|exact G]]); [exact G1|].
  assert (i = 0 \/ i = 1 \/ i = 2 \/ i = 3) as [-> |[-> |[-> | ->]]] by lia; exact G1.
Qed.
Print Assumptions C82_buffer.

(** Vectors: three operations of the consecutive types. *)
Theorem C82_vector_ops : forall ops base base_id data ops' ts, vector_types base = Some ts -> add_vector3_curves ops base base_id data = Some ops' ->
  exists chans new, array_nodes data 3 = Some chans /\ ops' = ops ++ new /\ len new = 3 /\
    forall i, 0 <= i < 3 -> exists ns s t, getz chans i = Some ns /\ create_from_nodes ns = Some s /\ getz ts i = Some t /\ getz new i = Some (curve_op (base_id + i) t s).
Proof.
  intros ops base base_id data ops' ts TS H. unfold add_vector3_curves in H. destruct (array_nodes data 3) as [chans|]; [|discriminate].
  destruct (vector3_curves 3 0 base base_id chans) as [new|] eqn:Q; [|discriminate]. injection H as <-. exists chans, new. split; [reflexivity|]. split; [reflexivity|].
  cbn [vector3_curves] in Q.
  destruct base; try discriminate; injection TS as <-;
  match type of Q with context [type_plus ?b 0] =>
    let a := eval cbv in (type_plus b 0) in let c := eval cbv in (type_plus b 1) in let d := eval cbv in (type_plus b 2) in
    change (type_plus b 0) with a in Q; change (type_plus b (0 + 1)) with c in Q; change (type_plus b (0 + 1 + 1)) with d in Q end;
  cbn iota in Q; repeat opt Q; injection Q as <-;
  (split; [reflexivity|]); intros i I; assert (i = 0 \/ i = 1 \/ i = 2) as [-> |[-> | ->]] by lia;
    (eexists _, _, _; split; [eassumption|]; split; [eassumption|]; split; [reflexivity|reflexivity]).
Qed.
Print Assumptions C82_vector_ops.

(** Constants: an operation for each value further than 0.00001 from the one that does nothing. *)
Definition matters (o : anim_op) : bool :=
  match i_union o with UValue v => if Rle_dec (Rabs (v - default_value (i_type o))) (1 / 100000) then false else true | _ => true end.
Lemma matters_value id t v : matters (value_op id t v) = negb (is_default_value t v).
Proof.
  unfold matters, value_op, is_default_value, nearly_equal. cbn [i_union i_type]. destruct (Rle_dec _ _) as [L|L].
  - rewrite !Rleb_t; [reflexivity| |]; revert L; rabs; lra.
  - apply Rnot_le_lt in L. destruct (Rleb_spec (- (1 / 100000)) (default_value t - v)); [|reflexivity]. destruct (Rleb_spec (default_value t - v) (1 / 100000)); [|reflexivity]. exfalso. revert L. rabs; lra.
Qed.
Theorem C82_vector_constants : forall ops base base_id x y z ts, vector_types base = Some ts ->
  exists tx ty tz, ts = [tx; ty; tz] /\ add_vector3_constants ops base base_id [x; y; z] =
    Some (ops ++ filter matters [value_op (base_id + 0) tx x; value_op (base_id + 1) ty y; value_op (base_id + 2) tz z]).
Proof.
  intros ops base base_id x y z ts TS. unfold add_vector3_constants. cbn [vector3_constants filter].
  destruct base; try discriminate; injection TS as <-; eexists _, _, _; (split; [reflexivity|]); rewrite !matters_value;
  match goal with |- context [type_plus ?b 0] =>
    let a := eval cbv in (type_plus b 0) in let c := eval cbv in (type_plus b 1) in let d := eval cbv in (type_plus b 2) in
    change (type_plus b 0) with a; change (type_plus b (0 + 1)) with c; change (type_plus b (0 + 1 + 1)) with d end;
  change (getz [x; y; z] 0) with (Some x); change (getz [x; y; z] (0 + 1)) with (Some y); change (getz [x; y; z] (0 + 1 + 1)) with (Some z); cbn iota;
  repeat match goal with |- context [is_default_value ?t ?v] => destruct (is_default_value t v) end; reflexivity.
Qed.
Print Assumptions C82_vector_constants.
Theorem C82_quaternion_constants : forall ops base_id order a b c d w x y z,
  getz [a; b; c; d] (component order 0) = Some w -> getz [a; b; c; d] (component order 1) = Some x -> getz [a; b; c; d] (component order 2) = Some y -> getz [a; b; c; d] (component order 3) = Some z ->
  add_quaternion_constants ops base_id [a; b; c; d] order =
    Some (ops ++ filter matters [value_op (base_id + 0) QuaternionW w; value_op (base_id + 1) QuaternionX x; value_op (base_id + 2) QuaternionY y; value_op (base_id + 3) QuaternionZ z]).
Proof.
  intros ops base_id order a b c d w x y z W X Y ZZ. unfold add_quaternion_constants. cbn [quaternion_constants filter]. rewrite !matters_value.
  change (type_plus QuaternionW 0) with (Some QuaternionW). change (type_plus QuaternionW (0 + 1)) with (Some QuaternionX).
  change (type_plus QuaternionW (0 + 1 + 1)) with (Some QuaternionY). change (type_plus QuaternionW (0 + 1 + 1 + 1)) with (Some QuaternionZ). cbn iota.
  assert (C : forall i t, getz quaternion_types i = Some t -> index_for_component t order = component order i).
  { intros i t G. pose proof (getz_Some _ _ _ G) as I. change (len quaternion_types) with 4 in I. assert (i = 0 \/ i = 1 \/ i = 2 \/ i = 3) as [-> |[-> |[-> | ->]]] by lia; cbn in G; injection G as <-; destruct order; reflexivity. }
  rewrite (C 0 QuaternionW eq_refl), (C 1 QuaternionX eq_refl), (C 2 QuaternionY eq_refl), (C 3 QuaternionZ eq_refl), W, X, Y, ZZ.
  repeat match goal with |- context [is_default_value ?t ?v] => destruct (is_default_value t v) end; reflexivity.
Qed.
Print Assumptions C82_quaternion_constants.
(** A case: scales 1, 2, 1 need one operation. *)
Example C82_case : add_vector3_constants [] ScaleX 10 [1; 2; 1]%R = Some [value_op 11 ScaleY 2].
Proof.
  destruct (C82_vector_constants [] ScaleX 10 1 2 1 _ eq_refl) as (tx & ty & tz & E & ->). injection E as <- <- <-. cbn [filter app]. rewrite !matters_value. unfold is_default_value, nearly_equal.
  change (default_value ScaleX) with 1%R. change (default_value ScaleY) with 1%R. change (default_value ScaleZ) with 1%R.
  rewrite (Rleb_t (- (1 / 100000)) (1 - 1)), (Rleb_t (1 - 1)), (Rleb_f (- (1 / 100000)) (1 - 2)) by lra. reflexivity.
Qed.
(** A case of quaternion curves: one keyframe. *)
Definition one_quat : keyframe_data := KData [0]%R [0; 0; 0; 1]%R 1 Step 1000%R.
Example C82_curves_case : (exists out used, add_quaternion_curves one_quat OrderXYZW = Some (out, used)) /\
  exists ops, add_quaternion_ops [] 20 OrderXYZW one_quat = Some ops.
Proof.
  assert (CR : chronological one_quat).
  { assert (K : forall f t, key_time one_quat f = Some t -> f = 0 /\ t = 0%R).
    { intros f t H. unfold key_time in H. destruct (f <? kd_count one_quat); [|discriminate]. destruct (getz (kd_times one_quat) f) eqn:E; [|discriminate]. pose proof (getz_Some _ _ _ E) as B. change (len (kd_times one_quat)) with 1 in B.
      assert (f = 0) as -> by lia. change (Some 0%R = Some r) in E. injection E as <-. injection H as <-. split; [reflexivity|]. cbn. ring. }
    split; [intros f t t' A B; apply K in A, B; lia|intros f t A; apply K in A; lra]. }
  destruct (C68_succeeds one_quat 4) as (out & used & H); try (cbn; lia); [exact CR|discriminate|].
  unfold add_quaternion_curves, add_quaternion_ops. rewrite C66_others_unchanged by discriminate. unfold add_array_curves in H. destruct (array_nodes one_quat 4) as [chans|] eqn:A; [|discriminate].
  destruct (run_lengths _ _ _ _ A) as (L & _ & _). change (Z.of_nat (Z.to_nat 4)) with 4 in L.
  destruct chans as [|n0 [|n1 [|n2 [|n3 [|n4 rest]]]]]; try (unfold len in L; cbn in L; lia). cbn [create_splines] in H.
  destruct (create_from_nodes n0) as [s0|] eqn:E0; [|discriminate]. destruct (create_from_nodes n1) as [s1|] eqn:E1; [|discriminate]. destruct (create_from_nodes n2) as [s2|] eqn:E2; [|discriminate]. destruct (create_from_nodes n3) as [s3|] eqn:E3; [|discriminate].
  split.
  - cbn [reorder create_splines]. rewrite E3, E0, E1, E2. eauto.
  - cbn [quaternion_curves]. change (type_plus QuaternionW 0) with (Some QuaternionW). change (type_plus QuaternionW (0 + 1)) with (Some QuaternionX).
    change (type_plus QuaternionW (0 + 1 + 1)) with (Some QuaternionY). change (type_plus QuaternionW (0 + 1 + 1 + 1)) with (Some QuaternionZ).
    cbn beta iota. change (index_for_component QuaternionW OrderXYZW) with 3. change (index_for_component QuaternionX OrderXYZW) with 0. change (index_for_component QuaternionY OrderXYZW) with 1. change (index_for_component QuaternionZ OrderXYZW) with 2.
    change (getz [n0; n1; n2; n3] 0) with (Some n0). change (getz [n0; n1; n2; n3] 1) with (Some n1). change (getz [n0; n1; n2; n3] 2) with (Some n2). change (getz [n0; n1; n2; n3] 3) with (Some n3).
    cbn beta iota. rewrite E3. cbn iota. rewrite E0, E1, E2. eauto.
Qed.
