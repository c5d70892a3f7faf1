(** C57: the weights of a rig.  C58: blended transforms.  C59 for several animations.  C79:
    when a blend has an orientation. *)
From Verif Require Import RBase BaseFacts MathfuModel OvershootModel SimpleModel EvaluatorModel SplineTargetModel RangeModel MatrixModel MatrixProps SqtProps RigModel RigProps.
From Coq Require Import Lia.
Local Open Scope R_scope.

(** ** C57 *)
Definition Rsum (l : list R) : R := fold_right Rplus 0 l.
(** Weights that are not negative and sum to 1. *)
Definition normalised (ws : list R) : Prop := Forall (fun w => 0 <= w) ws /\ Rsum ws = 1.

Lemma Rsum_div ws t : Rsum (map (fun w => w / t) ws) = Rsum ws / t.
Proof. induction ws as [|w ws IH]; cbn [map Rsum fold_right]; [unfold Rdiv; ring|]. fold (Rsum (map (fun w => w / t) ws)) (Rsum ws). rewrite IH. unfold Rdiv. ring. Qed.
Lemma normalised_div ws : Forall (fun w => 0 <= w) ws -> 0 < Rsum ws -> normalised (map (fun w => w / Rsum ws) ws).
Proof.
  intros F P. split.
  - apply Forall_forall. intros x Hx. apply in_map_iff in Hx as (w & <- & Hw). rewrite Forall_forall in F. specialize (F w Hw). apply Rmult_le_pos; [exact F|]. left. now apply Rinv_0_lt_compat.
  - rewrite Rsum_div. field. lra.
Qed.
Lemma totals_ok {O} : forall ws (anims : list (rig_anim O)) t0 m0 t m, totals ws anims t0 m0 = Some (t, m) -> Forall (fun w => 0 <= w) ws /\ t = t0 + Rsum ws /\ (m0 <= m)%Z /\ (forall a, In a anims -> ra_end a <= m)%Z /\ (m = m0 \/ exists a, In a anims /\ m = ra_end a).
Proof.
  induction ws as [|w ws IH]; intros [|a anims] t0 m0 t m E; cbn [totals] in E; try discriminate.
  - injection E as <- <-. split; [constructor|]. split; [cbn; ring|]. split; [lia|]. split; [intros a []|now left].
  - destruct (Rleb_spec 0 w); [|discriminate]. destruct (IH _ _ _ _ _ E) as (F & -> & M & Ma & Mc). split; [now constructor|]. split; [cbn [Rsum fold_right]; fold (Rsum ws); ring|]. split; [lia|]. split.
    + intros x [->|Hx]; [lia|now apply Ma].
    + destruct Mc as [->|(x & Hx & ->)]; [|right; exists x; split; [now right|reflexivity]]. destruct (Z.max_spec m0 (ra_end a)) as [[_ ->]|[_ ->]]; [right; exists a; split; [now left|reflexivity]|now left].
Qed.
Lemma totals_succeeds {O} : forall ws (anims : list (rig_anim O)) t0 m0, length ws = length anims -> Forall (fun w => 0 <= w) ws -> exists r, totals ws anims t0 m0 = Some r.
Proof.
  induction ws as [|w ws IH]; intros [|a anims] t0 m0 L F; try discriminate; cbn [totals]; [eauto|]. inversion F; subst. rewrite Rleb_t by assumption. apply IH; [now injection L|assumption].
Qed.

(** After BlendToAnims the weights are the given ones divided by their sum. *)
Theorem C57_blend_to_anims : forall B O (c : bclass B O) args t (d d' : rig_data B O), blend_to_anims c args t d = Some d' ->
  normalised (weights d') /\ len (weights d') = len args /\ (forall i a, getz args i = Some a -> getz (weights d') i = Some (snd a / Rsum (map snd args))).
Proof.
  intros B O c args t d d'. unfold blend_to_anims. cbv zeta. destruct (totals _ _ _ _) as [[total mt]|] eqn:E; [|discriminate]. destruct (Rltb_spec 0 total) as [P|]; [|discriminate]. destruct (add_int t mt); [|discriminate]. destruct (blend_anims _ _ _ _ _ _ _); [|discriminate]. intros [= <-]. cbn [weights].
  apply totals_ok in E as (F & -> & _). rewrite Rplus_0_l in *. rewrite <- (map_map snd (fun w => w / Rsum (map snd args))). split; [now apply normalised_div|]. split; [now rewrite !len_map|].
  intros i a Ha. destruct (getz_split _ _ _ Ha) as (X & Y & -> & L). rewrite !map_app. cbn [map]. apply getz_app. now rewrite !len_map.
Qed.
Print Assumptions C57_blend_to_anims.

Lemma weights_total_ok : forall ws t0 t, weights_total ws t0 = Some t -> Forall (fun w => 0 <= w) ws /\ t = t0 + Rsum ws.
Proof.
  induction ws as [|w ws IH]; intros t0 t E; cbn [weights_total] in E; [injection E as <-; split; [constructor|cbn; ring]|]. destruct (Rleb_spec 0 w); [|discriminate]. destruct (IH _ _ E) as [F ->]. split; [now constructor|cbn [Rsum fold_right]; fold (Rsum ws); ring].
Qed.
Lemma assign_nil old t : assign_weights old [] t = repeat 0 (length old).
Proof. induction old as [|w old IH]; cbn [assign_weights length repeat]; [reflexivity|now rewrite IH]. Qed.
Lemma assign_ok : forall ws old t, (length ws <= length old)%nat -> assign_weights old ws t = map (fun w => w / t) ws ++ repeat 0 (length old - length ws).
Proof.
  induction ws as [|w ws IH]; intros [|o old] t L; cbn [assign_weights map app length] in *; try (exfalso; lia); try reflexivity; [now rewrite assign_nil|]. rewrite IH by lia. reflexivity.
Qed.
Lemma Rsum_app a b : Rsum (a ++ b) = Rsum a + Rsum b.
Proof. unfold Rsum. induction a as [|x a IH]; cbn [app fold_right]; [ring|]. rewrite IH. ring. Qed.
Lemma Rsum_zeros n : Rsum (repeat 0 n) = 0.
Proof. unfold Rsum. induction n as [|n IH]; cbn [repeat fold_right]; [reflexivity|]. rewrite IH. ring. Qed.
(** SetWeights with at most as many weights as there are animations; the other animations get
    the weight 0.  Partial: with more weights than animations see below. *)
Theorem C57_set_weights_partial : forall B O ws (d d' : rig_data B O), (len ws <= len (weights d))%Z -> set_weights ws d = Some d' ->
  normalised (weights d') /\ len (weights d') = len (weights d) /\
  (forall i w, getz ws i = Some w -> getz (weights d') i = Some (w / Rsum ws)) /\ (forall i, (len ws <= i < len (weights d))%Z -> getz (weights d') i = Some 0).
Proof.
  intros B O ws d d' L. unfold set_weights. destruct (weights_total ws 0) as [t|] eqn:E; [|discriminate]. destruct (Rltb_spec 0 t) as [P|]; [|discriminate]. intros [= <-]. cbn [weights].
  apply weights_total_ok in E as (F & ->). rewrite Rplus_0_l in *. rewrite assign_ok by (unfold len in L; lia). destruct (normalised_div ws F P) as [N S]. split; [split|split; [|split]].
  - apply Forall_app. split; [exact N|]. apply Forall_forall. intros x Hx. apply repeat_spec in Hx. lra.
  - rewrite Rsum_app, Rsum_zeros, S. ring.
  - rewrite len_app, len_map, len_repeat. unfold len in *. lia.
  - intros i w Hw. pose proof (getz_Some _ _ _ Hw). rewrite getz_app1 by (rewrite len_map; lia). destruct (getz_split _ _ _ Hw) as (X & Y & -> & LX). rewrite map_app. cbn [map]. apply getz_app. now rewrite len_map.
  - intros i Hi. rewrite getz_app2 by (rewrite len_map; lia). apply getz_repeat. rewrite len_map. unfold len in *. lia.
Qed.
Print Assumptions C57_set_weights_partial.
(** SetWeights divides by the sum of all the weights given, also of those that no animation
    takes. *)
Theorem C57_set_weights_refuted : forall B O (d : rig_data B O), weights d = [1 / 2; 1 / 2] -> exists d', set_weights [1; 1; 2] d = Some d' /\ Rsum (weights d') = 1 / 2.
Proof.
  intros B O d W. unfold set_weights. cbn [weights_total]. rewrite !Rleb_t by lra. rewrite Rltb_t by lra. eexists. split; [reflexivity|]. cbn [weights]. rewrite W. cbn. lra.
Qed.
Print Assumptions C57_set_weights_refuted.

(** Whatever is done to a rig, when it blends several animations their weights are
    normalised: BlendToAnim, BlendToAnims, SetWeights (with no more weights than animations)
    and frames, in any order. *)
Inductive reached {B O} (c : bclass B O) : rig_data B O -> Prop :=
| reached_new anim root t d : rig_new c anim root t = Some d -> reached c d
| reached_anim d anim p t d' : reached c d -> blend_to_anim c anim p t d = Some d' -> reached c d'
| reached_anims d args t d' : reached c d -> blend_to_anims c args t d = Some d' -> reached c d'
| reached_weights d ws d' : reached c d -> (len ws <= len (weights d))%Z -> set_weights ws d = Some d' -> reached c d'
| reached_frame d d' : reached c d -> update_global_transforms c d = Some d' -> reached c d'.
Lemma update_weights {B O} (c : bclass B O) d d' : update_global_transforms c d = Some d' -> weights d' = weights d /\ motivators d' = motivators d /\ defining d' = defining d.
Proof. unfold update_global_transforms. cbv zeta. destruct (global_loop _ _ _ _ _ _) as [[g r]|]; [|discriminate]. intros [= <-]. auto. Qed.
Theorem C57_history_partial : forall B O (c : bclass B O) d, reached c d -> (2 <= len (weights d))%Z -> normalised (weights d).
Proof.
  intros B O c d H. induction H as [anim root t d E|d anim p t d' H IH E|d args t d' H IH E|d ws d' H IH L E|d d' H IH E]; intros W.
  - unfold rig_new in E. apply update_weights in E as (E & _). cbn [weights] in E. rewrite E in W. cbn in W. lia.
  - exfalso. unfold blend_to_anim in E. destruct (add_int _ _); [|discriminate]. cbv zeta in E. destruct (fits _ _) as [[|]|]; try discriminate. destruct (blend_bones _ _ _ _ _ _ _ _); [|discriminate]. injection E as <-. cbn [weights] in W. rewrite len_resize in W; lia.
  - now apply (C57_blend_to_anims _ _ _ _ _ _ _ E).
  - now apply (C57_set_weights_partial _ _ _ _ _ L E).
  - destruct (update_weights _ _ _ E) as (EE & _). rewrite EE in *. auto.
Qed.
Print Assumptions C57_history_partial.

(** ** C58 *)
Definition pose : Type := (vec3 * quat * vec3)%type.
(** The pose that a motivator has; the defaults before it is valid. *)
Definition has_pose {B O} (c : bclass B O) (ms : list (option B)) (i : Z) (x : pose) : Prop :=
  getz ms i = Some None /\ x = (V3 0 0 0, Quat 1 0 0 0, V3 1 1 1) \/ exists b, getz ms i = Some (Some b) /\ b_parts c b = Some x.
(** The poses of bone [i] of [n] in the animations: those of the motivators i, i + n, i + 2 n … *)
Definition bone_poses {B O} (c : bclass B O) (ms : list (option B)) (n i : Z) (xs : list pose) : Prop :=
  forall j x, getz xs j = Some x -> has_pose c ms (i + j * n) x.
Definition wsum3 (ws : list R) (vs : list vec3) : vec3 := fold_right add3 (V3 0 0 0) (map (fun wv => scale3 (fst wv) (snd wv)) (combine ws vs)).
Definition wsumq (ws : list R) (qs : list quat) : quat := fold_right qadd (Quat 0 0 0 0) (map (fun wq => qscale (fst wq) (snd wq)) (combine ws qs)).
(** A quaternion, negated if it is on the other side of [q0]. *)
Definition same_side (q0 q : quat) : quat := if Rltb (qdot q0 q) 0 then qneg q else q.
Definition position (x : pose) : vec3 := fst (fst x).
Definition rotation (x : pose) : quat := snd (fst x).
Definition scale_ (x : pose) : vec3 := snd x.

Lemma add3_assoc a b d : add3 (add3 a b) d = add3 a (add3 b d).
Proof. destruct a, b, d. unfold add3. cbn. f_equal; ring. Qed.
Lemma qadd_assoc a b d : qadd (qadd a b) d = qadd a (qadd b d).
Proof. destruct a, b, d. unfold qadd. cbn. f_equal; ring. Qed.
Lemma has_pose_get {B O} (c : bclass B O) ms i x : has_pose c ms i x -> exists m, getz ms i = Some m /\ match m with Some b => b_parts c b | None => Some (default_translation, default_quaternion, default_scale) end = Some x.
Proof. intros [(E & ->)|(b & E & P)]; [exists None|exists (Some b)]; split; auto. Qed.
Lemma blend_parts_later {B O} (c : bclass B O) ms n i : forall ws j first st xs, (1 <= j)%Z -> length xs = length ws -> (forall k x, getz xs k = Some x -> has_pose c ms (i + (j + k) * n) x) ->
  blend_parts c ms n i j ws first st = Some (add3 (fst (fst st)) (wsum3 ws (map position xs)), qadd (snd (fst st)) (wsumq ws (map (fun x => same_side first (rotation x)) xs)), add3 (snd st) (wsum3 ws (map scale_ xs))).
Proof.
  induction ws as [|w ws IH]; intros j first [[p q] s] [|x xs] J L H; try discriminate; cbn [blend_parts].
  - cbn. destruct p, q, s. unfold add3, qadd. cbn. apply f_equal. f_equal; [f_equal|]; f_equal; ring.
  - destruct (has_pose_get c ms (i + j * n) x) as (m & Em & Ep). { specialize (H 0%Z x eq_refl). now rewrite Z.add_0_r in H. }
    rewrite Em, Ep. destruct x as [[xp xq] xs_]. destruct (Z.eqb_spec j 0); [lia|]. cbn beta iota.
    rewrite (IH (j + 1)%Z first _ xs); [|lia|now injection L|].
    2: { intros k y Hk. pose proof (getz_Some _ _ _ Hk). specialize (H (k + 1)%Z y). replace (j + 1 + k)%Z with (j + (k + 1))%Z by lia. apply H. rewrite (getz_app2 [(xp, xq, xs_)] xs) by (change (len [(xp, xq, xs_)]) with 1%Z; lia). change (len [(xp, xq, xs_)]) with 1%Z. now replace (k + 1 - 1)%Z with k by lia. }
    cbn [fst snd]. unfold wsum3, wsumq. cbn [map combine fold_right fst snd]. rewrite !add3_assoc, qadd_assoc. unfold position at 2, rotation at 2, scale_ at 2. cbn [fst snd]. apply f_equal. f_equal. f_equal. f_equal. f_equal.
    unfold same_side. destruct (Rltb (qdot first xq) 0); [|reflexivity]. destruct xq. unfold qscale, qneg. cbn. f_equal; ring.
Qed.
Lemma same_side_self q : same_side q q = q.
Proof. unfold same_side. destruct (Rltb_spec (qdot q q) 0); [|reflexivity]. exfalso. destruct q. unfold qdot in *. cbn in *. nra. Qed.
Lemma add3_0_l a : add3 (V3 0 0 0) a = a.
Proof. destruct a. unfold add3. cbn. f_equal; ring. Qed.
Lemma qadd_0_l a : qadd (Quat 0 0 0 0) a = a.
Proof. destruct a. unfold qadd. cbn. f_equal; ring. Qed.
Lemma blend_parts_ok {B O} (c : bclass B O) ms n i ws x xs : length (x :: xs) = length ws -> bone_poses c ms n i (x :: xs) ->
  blend_parts c ms n i 0 ws qidentity (V3 0 0 0, Quat 0 0 0 0, V3 0 0 0) =
    Some (wsum3 ws (map position (x :: xs)), wsumq ws (map (fun y => same_side (rotation x) (rotation y)) (x :: xs)), wsum3 ws (map scale_ (x :: xs))).
Proof.
  destruct ws as [|w ws]; intros L H; [discriminate|]. cbn [blend_parts]. destruct (has_pose_get c ms (i + 0 * n) x (H 0%Z x eq_refl)) as (m & Em & Ep). rewrite Em, Ep. destruct x as [[p q] s]. cbn [Z.eqb]. cbv iota beta.
  rewrite (blend_parts_later c ms n i ws (0 + 1)%Z q _ xs); [|lia|now injection L|].
  2: { intros k y Hk. pose proof (getz_Some _ _ _ Hk). replace (0 + 1 + k)%Z with (k + 1)%Z by lia. apply H. rewrite (getz_app2 [(p, q, s)] xs) by (change (len [(p, q, s)]) with 1%Z; lia). change (len [(p, q, s)]) with 1%Z. now replace (k + 1 - 1)%Z with k by lia. }
  cbn [fst snd]. rewrite !add3_0_l, qadd_0_l. cbn [map]. change (rotation (p, q, s)) with q. rewrite same_side_self. unfold wsum3, wsumq. cbn [combine map fold_right fst snd]. reflexivity.
Qed.

(** The blended transform of a bone is made of the weighted sums of the positions and of the
    scales, and of the normalised weighted sum of the quaternions on the side of the first. *)
Theorem C58_sums : forall B O (c : bclass B O) ms n ws i x xs m, length (x :: xs) = length ws -> bone_poses c ms n i (x :: xs) -> bone_blended c ms n ws i = Some m ->
  exists u, unit_of u (wsumq ws (map (fun y => same_side (rotation x) (rotation y)) (x :: xs))) /\
    m = transform (wsum3 ws (map position (x :: xs))) (to_matrix u) (wsum3 ws (map scale_ (x :: xs))).
Proof.
  intros B O c ms n ws i x xs m L H. unfold bone_blended. rewrite (blend_parts_ok c ms n i ws x xs L H). set (q := wsumq _ _).
  destruct (qnormalize q) as [u|] eqn:E; [|discriminate]. intros [= <-]. exists u. split; [|reflexivity].
  destruct (qnormalize_unit q) as (u' & E' & U); [intros Z0; rewrite Z0, qnormalize_zero in E; discriminate|]. congruence.
Qed.
Print Assumptions C58_sums.
(** Weighted sums with normalised weights stay between any bounds of the summands. *)
Lemma wsum3_coord (f : vec3 -> R) : (forall a b, f (add3 a b) = f a + f b) -> (forall k a, f (scale3 k a) = k * f a) -> f (V3 0 0 0) = 0 ->
  forall ws vs, f (wsum3 ws vs) = Rsum (map (fun wv => fst wv * f (snd wv)) (combine ws vs)).
Proof.
  intros A S Z0. induction ws as [|w ws IH]; intros [|v vs]; cbn [combine map]; try exact Z0. unfold wsum3, Rsum in *. cbn [combine map fold_right fst snd]. now rewrite A, S, IH.
Qed.
Theorem C58_convex : forall f ws vs lo hi, f = x3 \/ f = y3 \/ f = z3 -> normalised ws -> length vs = length ws -> (forall v, In v vs -> lo <= f v <= hi) -> lo <= f (wsum3 ws vs) <= hi.
Proof.
  intros f ws vs lo hi Hf [F S] L H.
  rewrite (wsum3_coord f); try (destruct Hf as [->|[->| ->]]; intros; reflexivity).
  assert (G : lo * Rsum ws <= Rsum (map (fun wv => fst wv * f (snd wv)) (combine ws vs)) <= hi * Rsum ws); [|rewrite S in G; lra].
  clear S. revert vs L H. induction F as [|w ws W F IH]; intros [|v vs] L H; try discriminate; unfold Rsum in *; cbn [combine map fold_right fst snd]; [lra|].
  destruct (IH vs ltac:(now injection L) ltac:(intros; apply H; now right)). destruct (H v (or_introl eq_refl)). nra.
Qed.
Print Assumptions C58_convex.

(** Two quaternions for one orientation. *)
Definition same_orientation (p q : quat) : Prop := p = q \/ p = qneg q.
Lemma wsumq_const : forall ws (qs : list quat) q, length qs = length ws -> (forall x, In x qs -> x = q) -> wsumq ws qs = qscale (Rsum ws) q.
Proof.
  induction ws as [|w ws IH]; intros [|x qs] q L H; try discriminate.
  - unfold wsumq, qscale. cbn. destruct q. cbn. f_equal; ring.
  - unfold wsumq in *. cbn [combine map fold_right fst snd]. rewrite (IH qs q) by (try (now injection L); intros; apply H; now right). rewrite (H x (or_introl eq_refl)). unfold qadd, qscale. cbn [Rsum fold_right]. fold (Rsum ws). destruct q. cbn. f_equal; ring.
Qed.
Lemma wsum3_const : forall ws (vs : list vec3) v, length vs = length ws -> (forall x, In x vs -> x = v) -> wsum3 ws vs = scale3 (Rsum ws) v.
Proof.
  induction ws as [|w ws IH]; intros [|x vs] v L H; try discriminate.
  - unfold wsum3, scale3. cbn. destruct v. cbn. f_equal; ring.
  - unfold wsum3 in *. cbn [combine map fold_right fst snd]. rewrite (IH vs v) by (try (now injection L); intros; apply H; now right). rewrite (H x (or_introl eq_refl)). unfold add3, scale3. cbn [Rsum fold_right]. fold (Rsum ws). destruct v. cbn. f_equal; ring.
Qed.
Lemma qscale_1 q : qscale 1 q = q.
Proof. destruct q. unfold qscale. cbn. f_equal; ring. Qed.
Lemma scale3_1 v : scale3 1 v = v.
Proof. destruct v. unfold scale3. cbn. f_equal; ring. Qed.
Lemma qnormalize_unit_id q : qdot q q = 1 -> qnormalize q = Some q.
Proof. intros E. unfold qnormalize. cbv zeta. rewrite E, sqrt_1, Reqb_f by lra. apply f_equal. replace (1 / 1) with 1 by field. apply qscale_1. Qed.
Lemma qneg_dot_l p q : qdot (qneg p) q = - qdot p q.
Proof. destruct p, q. unfold qdot, qneg. cbn. ring. Qed.
Lemma qneg_dot_r p q : qdot p (qneg q) = - qdot p q.
Proof. destruct p, q. unfold qdot, qneg. cbn. ring. Qed.
Lemma qneg_neg q : qneg (qneg q) = q.
Proof. destruct q. unfold qneg. cbn. f_equal; ring. Qed.
(** Animations that agree on a bone, up to the sign of the quaternion, give the common
    transform, whatever the normalised weights. *)
Theorem C58_same : forall B O (c : bclass B O) ms n ws i xs p q s, xs <> [] -> length xs = length ws -> normalised ws -> bone_poses c ms n i xs -> qdot q q = 1 ->
  (forall x, In x xs -> position x = p /\ same_orientation (rotation x) q /\ scale_ x = s) -> bone_blended c ms n ws i = Some (transform p (to_matrix q) s).
Proof.
  intros B O c ms n ws i [|x xs] p q s Ne L [_ S] H U A; [congruence|]. unfold bone_blended. rewrite (blend_parts_ok c ms n i ws x xs L H).
  rewrite (wsum3_const ws (map position (x :: xs)) p), (wsum3_const ws (map scale_ (x :: xs)) s), (wsumq_const ws _ (rotation x)).
  - rewrite S, qscale_1, !scale3_1. destruct (A x (or_introl eq_refl)) as (_ & [-> | ->] & _).
    + now rewrite qnormalize_unit_id.
    + rewrite qnormalize_unit_id by (rewrite qneg_dot_l, qneg_dot_r; lra). now rewrite to_matrix_neg.
  - now rewrite map_length.
  - intros y Hy. apply in_map_iff in Hy as (z & <- & Hz). destruct (A x (or_introl eq_refl)) as (_ & Ox & _). destruct (A z Hz) as (_ & Oz & _). unfold same_side.
    destruct Ox as [-> | ->], Oz as [-> | ->]; rewrite ?qneg_dot_l, ?qneg_dot_r, ?qneg_neg, U; first [rewrite Rltb_t by lra | rewrite Rltb_f by lra]; rewrite ?qneg_neg; reflexivity.
  - now rewrite map_length.
  - intros y Hy. apply in_map_iff in Hy as (z & <- & Hz). apply (A z Hz).
  - now rewrite map_length.
  - intros y Hy. apply in_map_iff in Hy as (z & <- & Hz). apply (A z Hz).
Qed.
Print Assumptions C58_same.
(** For a whole rig: it displays the common pose. *)
Theorem C58_rig : forall B O (c : bclass B O) (d : rig_data B O) P Q Sc, (1 < len (weights d))%Z -> normalised (weights d) ->
  parents_first (ra_parents (defining d)) (num_bones (defining d)) -> len (globals d) = num_bones (defining d) ->
  (forall i, (0 <= i < num_bones (defining d))%Z -> qdot (Q i) (Q i) = 1 /\ exists xs, length xs = length (weights d) /\ bone_poses c (motivators d) (num_bones (defining d)) i xs /\
     forall x, In x xs -> position x = P i /\ same_orientation (rotation x) (Q i) /\ scale_ x = Sc i) ->
  exists d', update_global_transforms c d = Some d' /\ displays d d' (fun i => transform (P i) (to_matrix (Q i)) (Sc i)).
Proof.
  intros B O c d P Q Sc W N Pf L H. apply C56_blended; try assumption. intros i Hi. destruct (H i Hi) as (U & xs & Lx & Bp & A). apply (C58_same B O c _ _ _ _ xs); try assumption.
  intros ->. destruct (weights d); [cbn in W; lia|discriminate].
Qed.
Print Assumptions C58_rig.
Example C58_case : bone_poses demo_bones [None; Some (moved 3); None; Some (moved 5)] 2 1 [(V3 3 0 0, qidentity, V3 1 1 1); (V3 5 0 0, qidentity, V3 1 1 1)] /\ normalised [1 / 4; 3 / 4].
Proof.
  split.
  - intros j x Hj. pose proof (getz_Some _ _ _ Hj) as [J0 J1]. change (len _) with 2%Z in J1. assert (C : (j = 0 \/ j = 1)%Z) by lia. destruct C as [-> | ->]; injection Hj as <-; right; eexists; split; reflexivity.
  - split; [repeat constructor; lra|unfold Rsum; cbn; lra].
Qed.

(** ** C79: a blend has an orientation *)
Lemma qdot_add a b d : qdot a (qadd b d) = qdot a b + qdot a d.
Proof. destruct a, b, d. unfold qdot, qadd. cbn. ring. Qed.
Lemma qdot_scale_r a k b : qdot a (qscale k b) = k * qdot a b.
Proof. destruct a, b. unfold qdot, qscale. cbn. ring. Qed.
Lemma same_side_dot q0 q : 0 <= qdot q0 (same_side q0 q).
Proof. unfold same_side. destruct (Rltb_spec (qdot q0 q) 0); [rewrite qneg_dot_r|]; lra. Qed.
Lemma wsumq_side q0 : forall ws (qs : list quat), Forall (fun w => 0 <= w) ws -> 0 <= qdot q0 (wsumq ws (map (same_side q0) qs)).
Proof.
  intros ws qs F. revert qs. induction F as [|w ws W F IH]; intros [|q qs]; try (unfold wsumq, qdot; cbn; lra). unfold wsumq in *. cbn [map combine fold_right fst snd]. rewrite qdot_add, qdot_scale_r. specialize (IH qs). pose proof (same_side_dot q0 q). nra.
Qed.
(** If the first animation has a positive weight the blend of unit quaternions is defined. *)
Theorem C79_first_weight_partial : forall B O (c : bclass B O) ms n w ws i x xs, length xs = length ws -> bone_poses c ms n i (x :: xs) -> 0 < w -> Forall (fun w => 0 <= w) ws -> qdot (rotation x) (rotation x) = 1 ->
  exists m, bone_blended c ms n (w :: ws) i = Some m.
Proof.
  intros B O c ms n w ws i x xs L H W F U. unfold bone_blended. rewrite (blend_parts_ok c ms n i (w :: ws) x xs); [|cbn; now rewrite L|exact H]. set (q := wsumq _ _).
  destruct (qnormalize_unit q) as (u & E & _); [|rewrite E; eauto].
  assert (D : 0 < qdot (rotation x) q).
  { unfold q. cbn [map]. unfold wsumq. cbn [combine map fold_right fst snd]. rewrite qdot_add, qdot_scale_r, same_side_self, U. pose proof (wsumq_side (rotation x) ws (map rotation xs) F) as G. rewrite map_map in G. unfold wsumq in G. lra. }
  intros Z0. rewrite Z0 in D. unfold qdot in D. cbn in D. lra.
Qed.
Print Assumptions C79_first_weight_partial.
(** The sides are taken relative to the first animation even if its weight is 0: two opposite
    quaternions of one orientation can then cancel, and the blend is undefined although all
    animations with a positive weight agree. *)
Definition posed : bclass quat unit := BClass quat unit (fun _ => Some qidentity) (fun _ _ b => Some b) (fun b => transform (V3 0 0 0) (to_matrix b) (V3 1 1 1)) (fun b => Some (V3 0 0 0, b, V3 1 1 1)) (fun _ => Some 0%Z) (fun b => Some b).
Theorem C79_zero_weight_refuted : exists ms ws, normalised ws /\ bone_poses posed ms 1 0 [(V3 0 0 0, Quat 1 0 0 0, V3 1 1 1); (V3 0 0 0, Quat 0 1 0 0, V3 1 1 1); (V3 0 0 0, Quat 0 (- (1)) 0 0, V3 1 1 1)] /\
  same_orientation (Quat 0 1 0 0) (Quat 0 (- (1)) 0 0) /\ ws = [0; 1 / 2; 1 / 2] /\ bone_blended posed ms 1 ws 0 = None.
Proof.
  exists [Some (Quat 1 0 0 0); Some (Quat 0 1 0 0); Some (Quat 0 (- (1)) 0 0)], [0; 1 / 2; 1 / 2].
  assert (Bp : bone_poses posed [Some (Quat 1 0 0 0); Some (Quat 0 1 0 0); Some (Quat 0 (- (1)) 0 0)] 1 0 [(V3 0 0 0, Quat 1 0 0 0, V3 1 1 1); (V3 0 0 0, Quat 0 1 0 0, V3 1 1 1); (V3 0 0 0, Quat 0 (- (1)) 0 0, V3 1 1 1)]).
  { intros j x Hj. pose proof (getz_Some _ _ _ Hj) as [J0 J1]. change (len _) with 3%Z in J1. assert (C : (j = 0 \/ j = 1 \/ j = 2)%Z) by lia. destruct C as [-> |[-> | ->]]; injection Hj as <-; right; eexists; split; reflexivity. }
  split; [split; [repeat constructor; lra|unfold Rsum; cbn; lra]|]. split; [exact Bp|]. split; [right; unfold qneg; cbn; f_equal; ring|]. split; [reflexivity|].
  unfold bone_blended. erewrite blend_parts_ok; [|shelve|exact Bp]. Unshelve. 2: reflexivity. cbn [map]. unfold rotation. cbn [fst snd]. rewrite same_side_self. unfold same_side, qdot. cbn [qw qx qy qz]. rewrite !Rltb_f by lra.
  replace (wsumq _ _) with (Quat 0 0 0 0); [now rewrite qnormalize_zero|]. unfold wsumq, qadd, qscale. cbn. f_equal; lra.
Qed.
Print Assumptions C79_zero_weight_refuted.

(** ** C59 for several animations *)
(** Classes whose calls succeed. *)
Definition total_calls {B O} (c : bclass B O) : Prop := (forall s, exists b, b_init c s = Some b) /\ (forall ops p b, exists b', b_blend c ops p b = Some b') /\ (forall b, exists b', b_clone c b = Some b').
Lemma blend_bones_total {B O} (c : bclass B O) from anim p n base : total_calls c -> (n <= len (ra_anims anim))%Z -> (0 <= base)%Z ->
  forall fuel j (ms : list (option B)), (0 <= j)%Z -> (j + Z.of_nat fuel = n)%Z -> (base + n <= len ms)%Z ->
  exists ms', blend_bones c fuel from base j anim p ms = Some ms' /\ len ms' = len ms /\ (forall k, ~ (base + j <= k < base + n)%Z -> getz ms' k = getz ms k) /\
    (forall k, (j <= k < n)%Z -> exists ma b b', getz (ra_anims anim) k = Some ma /\ b_blend c (ma_ops ma) p b = Some b' /\ getz ms' (base + k) = Some (Some b')).
Proof.
  intros (Ti & Tb & Tc) La Hb. induction fuel as [|fuel IH]; intros j ms J E L; cbn [blend_bones].
  - exists ms. split; [reflexivity|]. split; [reflexivity|]. split; [reflexivity|]. intros k Hk. lia.
  - destruct (getz_in_range (ra_anims anim) j) as [ma Ea]; [lia|]. destruct (getz_in_range ms (base + j)) as [m Em]; [lia|]. destruct (getz_in_range ms j) as [mj Ej]; [lia|].
    unfold blend_bone, anim_at. rewrite Ea, Em.
    assert (X : exists o b, match from with Keep => Some m | Clone => o <- getz ms j ;; match o with Some b => b' <- b_clone c b ;; Some (Some b') | None => Some None end | Fresh => b <- b_init c (ma_sqt ma) ;; Some (Some b) end = Some o /\
       match o with Some b => Some b | None => b_init c (ma_sqt ma) end = Some b).
    { destruct from.
      - exists m. destruct m as [b|]; [eauto|]. destruct (Ti (ma_sqt ma)) as [b Eb]. eauto.
      - rewrite Ej. destruct mj as [b|]; [destruct (Tc b) as [b' ->]; eauto|]. exists None. destruct (Ti (ma_sqt ma)) as [b Eb]. eauto.
      - destruct (Ti (ma_sqt ma)) as [b ->]. eauto. }
    destruct X as (o & b & -> & ->). destruct (Tb (ma_ops ma) p b) as [b' Eb']. rewrite Eb'. destruct (setz_Some ms (base + j) (Some b')) as [ms1 E1]; [lia|]. rewrite E1. pose proof (setz_len _ _ _ _ E1) as L1.
    destruct (IH (j + 1)%Z ms1 ltac:(lia) ltac:(lia) ltac:(lia)) as (ms' & E' & L' & Out & In'). exists ms'. split; [exact E'|]. split; [lia|]. split.
    + intros k Hk. rewrite Out by lia. apply (getz_setz_neq _ _ _ _ _ E1). lia.
    + intros k Hk. destruct (Z.eq_dec k j) as [->|Ne]; [|apply In'; lia]. exists ma, b, b'. split; [exact Ea|]. split; [exact Eb'|]. rewrite Out by lia. apply (getz_setz_eq _ _ _ _ E1).
Qed.
Definition compatible {O} (anim def : rig_anim O) : Prop := matches_hierarchy anim def = Some true \/ (num_bones def = 1 /\ 1 <= num_bones anim)%Z.
Lemma compatible_fits {O} (anim def : rig_anim O) : compatible anim def -> fits anim def = Some true /\ (num_bones def <= len (ra_anims anim))%Z.
Proof.
  intros H. pose proof (num_bones_le anim). split.
  - unfold fits. destruct ((num_bones def =? 1)%Z || (num_bones anim =? 1)%Z)%bool eqn:E; [reflexivity|]. destruct H as [H|[H _]]; [exact H|]. rewrite H in E. discriminate.
  - destruct H as [H|H]; [apply matches_count in H; lia|lia].
Qed.
Lemma blend_anims_total {B O} (c : bclass B O) old def : total_calls c -> forall args i (ms : list (option B)), (0 <= i)%Z -> ((i + len args) * num_bones def <= len ms)%Z -> (forall a, In a args -> compatible (fst a) def) ->
  exists ms', blend_anims c args i old (num_bones def) def ms = Some ms' /\ len ms' = len ms /\ (forall k, (k < i * num_bones def)%Z -> getz ms' k = getz ms k) /\
    (forall a x k, getz args a = Some x -> (0 <= k < num_bones def)%Z -> exists ma b b', getz (ra_anims (fst x)) k = Some ma /\ b_blend c (ma_ops ma) (snd x) b = Some b' /\ getz ms' ((i + a) * num_bones def + k) = Some (Some b')).
Proof.
  intros T. pose proof (num_bones_range def) as N. induction args as [|[anim p] args IH]; intros i ms I0 L F; cbn [blend_anims].
  - exists ms. split; [reflexivity|]. split; [reflexivity|]. split; [reflexivity|]. intros a x k Ha. apply getz_Some in Ha. change (len _) with 0%Z in Ha. lia.
  - destruct (compatible_fits anim def (F (anim, p) (or_introl eq_refl))) as [Fi La]. rewrite Fi. rewrite len_cons in L.
    pose proof (len_nonneg args). destruct (blend_bones_total c (if (old <=? i)%Z then if (old =? 1)%Z then Clone else Fresh else Keep) anim p (num_bones def) (i * num_bones def) T La ltac:(nia) (Z.to_nat (num_bones def)) 0%Z ms ltac:(lia) ltac:(lia) ltac:(nia)) as (ms1 & -> & L1 & Out & In').
    destruct (IH (i + 1)%Z ms1 ltac:(lia)) as (ms' & E & L' & Out' & Rest); [nia|intros; apply F; now right|]. exists ms'. split; [exact E|]. split; [lia|]. split.
    + intros k Hk. rewrite Out' by nia. apply Out. lia.
    + intros a x k Ha Hk. pose proof (getz_Some _ _ _ Ha) as A. rewrite len_cons in A. destruct (Z.eq_dec a 0) as [->|Na].
      * injection Ha as <-. destruct (In' k ltac:(lia)) as (ma & b & b' & A1 & A2 & A3). exists ma, b, b'. split; [exact A1|]. split; [exact A2|]. rewrite Z.add_0_r. rewrite Out' by nia. exact A3.
      * replace (i + a)%Z with (i + 1 + (a - 1))%Z by lia. apply Rest; [|exact Hk]. change ((anim, p) :: args) with ([(anim, p)] ++ args) in Ha. rewrite getz_app2 in Ha by (change (len [(anim, p)]) with 1%Z; lia). exact Ha.
Qed.
(** BlendToAnims accepts compatible animations with weights that are not all zero, and bone
    [k] of animation [a] is blended to that animation's operations for bone [k]. *)
Theorem C59_anims_partial : forall B O (c : bclass B O) (d : rig_data B O) args t latest_end, total_calls c ->
  (forall a, In a args -> compatible (fst (fst a)) (defining d) /\ 0 <= snd a) -> 0 < Rsum (map snd args) ->
  latest (map (fun a => ra_end (fst (fst a))) args) latest_end -> (-2147483648 <= t + latest_end <= 2147483647)%Z ->
  exists d', blend_to_anims c args t d = Some d' /\ len (motivators d') = (num_bones (defining d) * len args)%Z /\ end_time d' = (t + latest_end)%Z /\ defining d' = defining d /\
    (forall a x k, getz args a = Some x -> (0 <= k < num_bones (defining d))%Z -> exists ma b b', getz (ra_anims (fst (fst x))) k = Some ma /\ b_blend c (ma_ops ma) (snd (fst x)) b = Some b' /\ getz (motivators d') (a * num_bones (defining d) + k) = Some (Some b')).
Proof.
  intros B O c d args t le T F P [Le1 Le2] Te. unfold blend_to_anims. cbv zeta. pose proof (num_bones_range (defining d)) as N. pose proof (len_nonneg args) as La.
  destruct (totals_succeeds (map snd args) (map (fun a => fst (fst a)) args) 0 0) as [[total mt] Et]; [now rewrite !map_length| |].
  { apply Forall_forall. intros w Hw. apply in_map_iff in Hw as (a & <- & Ha). now apply F. }
  rewrite Et. apply totals_ok in Et as (_ & -> & M0 & Ma & Mc). rewrite Rplus_0_l. rewrite Rltb_t by exact P.
  assert (mt = le) as ->.
  { assert (mt <= le)%Z. { destruct Mc as [->|(a & Ha & ->)]; apply Le1; [now left|]. right. apply in_map_iff in Ha as (x & <- & Hx). apply in_map_iff. eauto. }
    assert (le <= mt)%Z. { destruct Le2 as [<-|Hl]; [lia|]. apply in_map_iff in Hl as (x & <- & Hx). apply Ma. apply in_map_iff. eauto. } lia. }
  rewrite add_int_ok by exact Te.
  destruct (blend_anims_total c (len (weights d)) (defining d) T (map fst args) 0 (resize (motivators d) (num_bones (defining d) * len args) None)) as (ms & E & L & _ & Rest).
  - lia.
  - rewrite len_map, len_resize; nia.
  - intros a Ha. apply in_map_iff in Ha as (x & <- & Hx). now apply F.
  - rewrite E. eexists. split; [reflexivity|]. cbn [motivators end_time defining]. rewrite len_resize in L by nia. split; [exact L|]. split; [reflexivity|]. split; [reflexivity|].
    intros a x k Ha Hk. destruct (Rest a (fst x) k) as (ma & b & b' & A1 & A2 & A3); [|exact Hk|].
    + destruct (getz_split _ _ _ Ha) as (X & Y & -> & LX). rewrite map_app. cbn [map]. apply getz_app. now rewrite len_map.
    + exists ma, b, b'. split; [exact A1|]. split; [exact A2|]. rewrite Z.add_0_l in A3. exact A3.
Qed.
Print Assumptions C59_anims_partial.
Example C59_anims_case : total_calls demo_bones /\ compatible demo_anim demo_anim /\ latest [ra_end demo_anim; 20%Z] 100 /\ 0 < Rsum [0; 2].
Proof. split; [repeat split; cbn; eauto|]. split; [left; reflexivity|]. split; [split; [intros x [<-|[<-|[<-|[]]]]; cbn; lia|right; now left]|unfold Rsum; cbn; lra]. Qed.
