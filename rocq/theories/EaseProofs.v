From Verif Require Import RBase RangeModel RangeProofs FloatModel FloatProofs CurveModel CurveProofs CurveUtilModel.
From Coq Require Import Sorted.

(** [g] moved right by [s] touches [f] at [u]. *)
Definition tangent (f g : quad) (u s : R) : Prop :=
  qeval f u = qeval g (u - s) /\ qderiv f u = qderiv g (u - s).

Lemma tangent_iff f g u s : q2 f - q2 g <> 0 ->
  (tangent f g u s <->
   qeval (s_quadratic f g) s = 0 /\ u = - ((q1 f - q1 g) + 2 * q2 g * s) / (2 * (q2 f - q2 g))).
Proof.
  intros P. unfold tangent, s_quadratic, qsub, qeval, qderiv. cbn [q2 q1 q0].
  set (A := q2 f) in *. set (B := q1 f). set (C := q0 f). set (a := q2 g) in *. set (b := q1 g). set (c := q0 g).
  split.
  - intros [V D]. assert (U : u = - (B - b + 2 * a * s) / (2 * (A - a))).
    { apply (Rmult_eq_reg_l (2 * (A - a))); [|lra]. replace (2 * (A - a) * (- (B - b + 2 * a * s) / (2 * (A - a)))) with (- (B - b + 2 * a * s)) by (field; lra). lra. }
    split; [|exact U].
    assert (E1 : q1 f = - (2 * (A - a) * u) + b - 2 * a * s) by (unfold B in *; lra). fold B in E1.
    assert (E2 : C = (a * (u - s) + b) * (u - s) + c - (A * u + B) * u) by lra.
    rewrite E2, E1. ring.
  - intros [Q U].
    assert (L : 2 * (A - a) * u = - (B - b + 2 * a * s)) by (rewrite U; field; lra).
    split; [|lra].
    apply (Rmult_eq_reg_l (4 * (A - a))); [|lra].
    apply Rminus_diag_uniq.
    replace (4 * (A - a) * ((A * u + B) * u + C) - 4 * (A - a) * ((a * (u - s) + b) * (u - s) + c))
      with (2 * (A - a) * u * (2 * (A - a) * u) + 2 * (2 * (A - a) * u) * (B - b + 2 * a * s) + 4 * (A - a) * (C - c - a * s * s + b * s)) by ring.
    rewrite L. lra.
Qed.

Lemma last_root_in l x : last_root l = Some x -> In x l.
Proof.
  revert x. induction l as [|y [|z l] IH]; intros x; cbn [last_root]; [discriminate|intros [= ->]; now left|].
  intros E. right. now apply IH.
Qed.
Lemma last_root_some l x : In x l -> exists y, last_root l = Some y.
Proof.
  revert x. induction l as [|y [|z l] IH]; intros x; [easy|eexists; reflexivity|]. intros _.
  destruct (IH z ltac:(now left)) as [w E]. exists w. exact E.
Qed.
Lemma last_root_max l x y : Sorted Rlt l -> last_root l = Some x -> In y l -> y <= x.
Proof.
  revert x y. induction l as [|z [|w l] IH]; intros x y S; cbn [last_root]; [discriminate|intros [= ->] [->|[]]; lra|].
  intros E Hy. inversion S as [|? ? S' H]; subst. inversion H as [|? ? H']; subst.
  destruct Hy as [<-|Hy]; [|now apply IH]. specialize (IH x w S' E ltac:(now left)). lra.
Qed.

(** The shift, when the quadratic in the shift is solved exactly. *)
Lemma shift_ok f g t : 0 < t -> q2 f - q2 g <> 0 -> well_conditioned (normalized (s_quadratic f g)) ->
  (exists s, qeval (s_quadratic f g) s = 0) ->
  exists u s, tangent f g u s /\ (forall u' s', tangent f g u' s' -> s' <= s) /\
    shift_for_unique_intersection f g t = Some (Some (if Rltb (Rabs u) (t * kEpsilonXPercent) then 0 else u, s)).
Proof.
  intros Ht P W [s0 Hs0]. destruct (roots_ok _ W) as (l & E & S & L & H).
  destruct (last_root_some l s0 (proj2 (H s0) Hs0)) as [s Es].
  pose proof (last_root_in _ _ Es) as Is. apply H in Is.
  set (u := - ((q1 f - q1 g) + 2 * q2 g * s) / (2 * (q2 f - q2 g))).
  assert (T : tangent f g u s) by (apply tangent_iff; auto).
  exists u, s. split; [exact T|]. split.
  { intros u' s' T'. apply (tangent_iff f g u' s' P) in T'. apply (last_root_max l s s' S Es). now apply H. }
  unfold shift_for_unique_intersection. rewrite E, Es. unfold qsub. cbn [q2 q1 q0].
  rewrite Reqb_f by lra. fold u.
  assert (Z : qeval (Quad (q2 f - q2 g) (q1 f - q1 g + 2 * q2 g * s) (q0 f - q0 g - q2 g * s * s + q1 g * s)) u = 0).
  { destruct T as [V _]. unfold qeval in V |- *. cbn [q2 q1 q0]. lra. }
  rewrite Z, Rabs_R0, Rleb_t; [reflexivity|]. unfold kEpsilonXPercent. lra.
Qed.

(** When the curves bend opposite ways and the end lies on the in-curve's side, a
    shift exists. *)
Lemma shift_exists A B C a b c : (A - a) * (A * b * b - a * B * B + 4 * a * A * (C - c)) >= 0 -> a * A < 0 ->
  exists s, qeval (s_quadratic (Quad A B C) (Quad a b c)) s = 0.
Proof.
  intros D N. set (q := s_quadratic _ _).
  assert (ED : discriminant q = 16 * ((A - a) * (A * b * b - a * B * B + 4 * a * A * (C - c)))).
  { unfold q, discriminant, s_quadratic, qsub. cbn [q2 q1 q0]. ring. }
  assert (DP : 0 <= discriminant q) by lra. assert (N2 : q2 q <> 0) by (unfold q, s_quadratic; cbn; lra).
  exists ((- q1 q + sqrt (discriminant q)) / (2 * q2 q)).
  apply (Rmult_eq_reg_l (4 * q2 q)); [|lra]. rewrite qeval_square.
  replace (2 * q2 q * ((- q1 q + sqrt (discriminant q)) / (2 * q2 q)) + q1 q) with (sqrt (discriminant q)) by (field; assumption).
  rewrite sqrt_sqrt by assumption. ring.
Qed.

(** A root of k/2 x^2 + B x - k' with k k' >= 0 on the far side of zero. *)
Lemma root_side sg al B d : 0 < al -> sg = 1 \/ sg = -1 -> 0 <= sg * d ->
  exists x y, x <= 0 <= y /\ qeval (Quad (1 / 2 * (sg * al)) B (- d)) x = 0 /\ qeval (Quad (1 / 2 * (sg * al)) B (- d)) y = 0.
Proof.
  intros Ha Hs Hd. set (D := B * B + 2 * al * (sg * d)). assert (DP : B * B <= D) by (unfold D; nra).
  assert (DP0 : 0 <= D) by (pose proof (Rle_0_sqr B) as Q; unfold Rsqr in Q; lra).
  pose proof (sqrt_sqrt D DP0) as SS. pose proof (sqrt_pos D) as SP. set (t := sqrt D) in *.
  assert (TB : - t <= sg * B <= t) by (destruct Hs as [->| ->]; split; nra).
  assert (IA : 0 < / al) by now apply Rinv_0_lt_compat.
  exists ((- (sg * B) - t) * / al), ((- (sg * B) + t) * / al). split; [nra|].
  assert (AI : al * / al = 1) by (field; lra).
  split; apply (Rmult_eq_reg_l (2 * sg * al)); try (destruct Hs as [->| ->]; lra); unfold qeval; cbn [q2 q1 q0]; rewrite Rmult_0_r.
  - transitivity ((sg * sg) * (al * / al) * (al * / al) * (sg * B + t) * (sg * B + t) + 2 * sg * (al * / al) * B * (- (sg * B) - t) - 2 * al * (sg * d)); [field; lra|].
    rewrite AI. replace (2 * al * (sg * d)) with (t * t - B * B) by (rewrite SS; unfold D; ring). destruct Hs as [->| ->]; ring.
  - transitivity ((sg * sg) * (al * / al) * (al * / al) * (- (sg * B) + t) * (- (sg * B) + t) + 2 * sg * (al * / al) * B * (- (sg * B) + t) - 2 * al * (sg * d)); [field; lra|].
    rewrite AI. replace (2 * al * (sg * d)) with (t * t - B * B) by (rewrite SS; unfold D; ring). destruct Hs as [->| ->]; ring.
Qed.

Definition fly_sign (start_value end_value : R) : R := if Rleb start_value end_value then 1 else -1.
Lemma fly_sign_ok a b : (fly_sign a b = 1 \/ fly_sign a b = -1) /\ 0 <= fly_sign a b * (b - a).
Proof. unfold fly_sign. destruct (Rleb_spec a b); split; auto; lra. Qed.

Lemma fly_out_ok C c B al : 0 < al ->
  well_conditioned (normalized (Quad (1 / 2 * (fly_sign C c * al)) B (C - c))) ->
  exists x, fly_out C c B al = Some (eieo_single (quad_with_origin C B (fly_sign C c * al)) x) /\ 0 <= x /\
    qeval (quad_with_origin C B (fly_sign C c * al)) x = c.
Proof.
  intros Ha W. destruct (fly_sign_ok C c) as [Hs Hd]. destruct (roots_ok _ W) as (l & E & S & L & H).
  destruct (root_side (fly_sign C c) al B (c - C) Ha Hs Hd) as (_ & y & [_ Hy] & _ & Ey).
  replace (- (c - C)) with (C - c) in Ey by ring. apply H in Ey.
  unfold fly_out. change (if Rleb C c then 1 else -1) with (fly_sign C c).
  unfold xs_for_value, quad_with_origin. cbn [q2 q1 q0]. rewrite E.
  assert (V : forall x, In x l -> qeval (Quad (1 / 2 * (fly_sign C c * al)) B C) x = c).
  { intros x Hx. apply H in Hx. unfold qeval in *. cbn [q2 q1 q0] in *. lra. }
  destruct (sorted_cases l S L) as [->|[(r & ->)|(r0 & r1 & -> & H01)]]; [easy| |].
  - assert (r = y) as -> by (destruct Ey as [|[]]; assumption). rewrite Rleb_t by assumption. eexists. split; [reflexivity|]. split; [assumption|]. apply V. now left.
  - destruct (Rleb_spec 0 r0) as [G|G].
    + eexists. split; [reflexivity|]. split; [assumption|]. apply V. now left.
    + assert (r1 = y) as -> by (destruct Ey as [|[|[]]]; [lra|assumption]). rewrite Rleb_t by assumption.
      eexists. split; [reflexivity|]. split; [assumption|]. apply V. right; now left.
Qed.

Lemma fly_in_ok C c b be : 0 < be ->
  well_conditioned (normalized (Quad (1 / 2 * (fly_sign c C * be)) b (c - C))) ->
  exists x, fly_in C c b be = Some (eieo_single (qshift_right (quad_with_origin c b (fly_sign c C * be)) x) x) /\ 0 <= x /\
    qeval (quad_with_origin c b (fly_sign c C * be)) (- x) = C.
Proof.
  intros Ha W. destruct (fly_sign_ok c C) as [Hs Hd]. destruct (roots_ok _ W) as (l & E & S & L & H).
  destruct (root_side (fly_sign c C) be b (C - c) Ha Hs Hd) as (x & _ & [Hx _] & Ex & _).
  replace (- (C - c)) with (c - C) in Ex by ring. apply H in Ex.
  unfold fly_in. change (if Rleb c C then 1 else -1) with (fly_sign c C).
  unfold xs_for_value, quad_with_origin. cbn [q2 q1 q0]. rewrite E.
  assert (V : forall x, In x l -> qeval (Quad (1 / 2 * (fly_sign c C * be)) b c) x = C).
  { intros z Hz. apply H in Hz. unfold qeval in *. cbn [q2 q1 q0] in *. lra. }
  destruct (sorted_cases l S L) as [->|[(r & ->)|(r0 & r1 & -> & H01)]]; [easy| |].
  - assert (r = x) as -> by (destruct Ex as [|[]]; assumption). rewrite Rleb_t by assumption. exists (- x).
    split; [reflexivity|]. split; [lra|]. rewrite Ropp_involutive. apply V. now left.
  - assert (R0 : r0 <= 0) by (destruct Ex as [|[|[]]]; lra). rewrite Rleb_t by assumption. exists (- r0).
    split; [reflexivity|]. split; [lra|]. rewrite Ropp_involutive. apply V. now left.
Qed.
