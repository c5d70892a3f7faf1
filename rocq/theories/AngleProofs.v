From Verif Require Import RBase VecModel AngleModel.

Definition valid_angle (a : R) : Prop := - PI < a <= PI.
Definition congruent (a b : R) : Prop := exists k : Z, a = b + 2 * PI * IZR k.

Ltac pipos := pose proof PI_RGT_0.

Lemma congruent_refl a : congruent a a.
Proof. exists 0%Z. simpl. ring. Qed.
Lemma congruent_sym a b : congruent a b -> congruent b a.
Proof. intros [k H]. exists (- k)%Z. rewrite opp_IZR. rewrite H. ring. Qed.
Lemma congruent_trans a b c : congruent a b -> congruent b c -> congruent a c.
Proof. intros [k H] [l H']. exists (k + l)%Z. rewrite plus_IZR, H, H'. ring. Qed.

Lemma congruent_valid_eq a b : valid_angle a -> valid_angle b -> congruent a b -> a = b.
Proof.
  intros A B [k H]. pipos. unfold valid_angle in *.
  destruct (Z.eq_dec k 0) as [->|N]; [rewrite H; simpl; ring|]. exfalso.
  destruct (Z.lt_ge_cases k 0).
  - assert (IZR k <= -1) by (apply IZR_le; lia). assert (PI * IZR k <= PI * -1) by (apply Rmult_le_compat_l; lra). lra.
  - assert (1 <= IZR k) by (apply IZR_le; lia). assert (PI * 1 <= PI * IZR k) by (apply Rmult_le_compat_l; lra). lra.
Qed.

Lemma in_range_true a : valid_angle a -> in_range a = true.
Proof. intros [A B]. unfold in_range. now rewrite Rltb_t, Rleb_t by lra. Qed.
Lemma mk_angle_some a : valid_angle a -> mk_angle a = Some a.
Proof. intros V. unfold mk_angle. now rewrite in_range_true. Qed.
Lemma mk_angle_inv a r : mk_angle a = Some r -> r = a /\ valid_angle a.
Proof.
  unfold mk_angle, in_range. destruct (Rltb_spec (- PI) a); [|discriminate]. destruct (Rleb_spec a PI); [|discriminate].
  simpl. intros E. injection E as <-. split; [reflexivity|]. split; assumption.
Qed.

Lemma wrap_ok a : valid_angle (wrap_angle a) /\ congruent (wrap_angle a) a.
Proof.
  pipos. unfold wrap_angle. set (q := Rfloor (a / (2 * PI))).
  destruct (Rfloor_bounds (a / (2 * PI))) as [L U]. fold q in L, U.
  assert (E : a = (a / (2 * PI)) * (2 * PI)) by (field; lra).
  assert (L' : IZR q * (2 * PI) <= a) by (rewrite E; apply Rmult_le_compat_r; lra).
  assert (U' : a < (IZR q + 1) * (2 * PI)) by (rewrite E; apply Rmult_lt_compat_r; lra).
  destruct (Rleb_spec (a - (IZR q + 1) * (2 * PI)) (- PI)); split.
  - unfold valid_angle. lra.
  - exists (- q)%Z. rewrite opp_IZR. ring.
  - unfold valid_angle. lra.
  - exists (- (q + 1))%Z. rewrite opp_IZR, plus_IZR. ring.
Qed.

Lemma mod3_ok a : - (3 * PI) < a < 3 * PI -> exists r, mod_within_three_pi a = Some r /\ valid_angle r /\ congruent r a.
Proof.
  pipos. intros [L U]. unfold mod_within_three_pi. rewrite (Rltb_t _ _ L), (Rltb_t _ _ U). simpl.
  destruct (Rleb_spec a (- PI)).
  - destruct (Rltb_spec PI (a + 2 * PI)); [lra|]. eexists. rewrite in_range_true by (unfold valid_angle; lra).
    split; [reflexivity|]. split; [unfold valid_angle; lra|]. exists 1%Z. ring.
  - destruct (Rltb_spec PI a).
    + eexists. rewrite in_range_true by (unfold valid_angle; lra).
      split; [reflexivity|]. split; [unfold valid_angle; lra|]. exists (-1)%Z. ring.
    + eexists. rewrite in_range_true by (unfold valid_angle; lra).
      split; [reflexivity|]. split; [unfold valid_angle; lra|]. apply congruent_refl.
Qed.

Lemma add_ok a b : valid_angle a -> valid_angle b -> exists r, angle_add a b = Some r /\ valid_angle r /\ congruent r (a + b).
Proof. pipos. unfold valid_angle. intros. apply mod3_ok. lra. Qed.
Lemma sub_ok a b : valid_angle a -> valid_angle b -> exists r, angle_sub a b = Some r /\ valid_angle r /\ congruent r (a - b).
Proof. pipos. unfold valid_angle. intros. apply mod3_ok. lra. Qed.
Lemma neg_ok a : valid_angle a -> exists r, angle_neg a = Some r /\ valid_angle r /\ congruent r (- a).
Proof.
  pipos. unfold valid_angle. intros V. unfold angle_neg, mod_if_negative_pi. destruct (Rleb_spec (- a) (- PI)).
  - exists PI. rewrite mk_angle_some by (unfold valid_angle; lra). split; [reflexivity|]. split; [lra|].
    exists 1%Z. replace a with PI by lra. ring.
  - exists (- a). rewrite mk_angle_some by (unfold valid_angle; lra). split; [reflexivity|]. split; [lra|]. apply congruent_refl.
Qed.

(** ** Clamp *)
Definition on_arc (center max_diff x : R) : Prop :=
  exists e, - max_diff <= e <= max_diff /\ congruent x (center + e).

Lemma congruent_add a b c : congruent a b -> congruent (c + a) (c + b).
Proof. intros [k H]. exists k. rewrite H. ring. Qed.

Lemma far_end d m e (k : Z) : m < d <= PI -> - m <= e <= m -> 0 <= m -> d - m <= Rabs (d - e - 2 * PI * IZR k).
Proof.
  intros D E M. pipos. destruct (Z.eq_dec k 0) as [->|N]; [rabs; lra|]. destruct (Z.lt_ge_cases k 0).
  - assert (IZR k <= -1) by (apply IZR_le; lia). assert (PI * IZR k <= PI * -1) by (apply Rmult_le_compat_l; lra). rabs; lra.
  - assert (1 <= IZR k) by (apply IZR_le; lia). assert (PI * 1 <= PI * IZR k) by (apply Rmult_le_compat_l; lra). rabs; lra.
Qed.

Lemma clamp_ok a c m : valid_angle a -> valid_angle c -> 0 <= m <= PI ->
  exists r, angle_clamp a c m = Some r /\ valid_angle r /\ on_arc c m r /\
    (on_arc c m a -> r = a) /\
    (~ on_arc c m a -> congruent r (c + m) \/ congruent r (c - m)) /\
    (forall y, on_arc c m y -> exists r', congruent r' r /\ Rabs (r' - a) <= Rabs (y - a)).
Proof.
  intros A C M. pipos. unfold angle_clamp. rewrite (Rleb_t 0 m), (Rleb_t m PI) by lra. cbn [andb].
  destruct (sub_ok a c A C) as (d & Ed & Vd & Cd). rewrite Ed.
  assert (Cad : congruent a (c + d)).
  { destruct Cd as [k Hk]. exists (- k)%Z. rewrite opp_IZR, Hk. ring. }
  assert (Vm : valid_angle (mclamp d (- m) m)).
  { unfold valid_angle, mclamp in *. minmax; lra. }
  rewrite (mk_angle_some _ Vm).
  destruct (add_ok c (mclamp d (- m) m) C Vm) as (r & Er & Vr & Cr). exists r. split; [exact Er|]. split; [exact Vr|].
  assert (Hin : - m <= mclamp d (- m) m <= m) by (unfold mclamp; minmax; lra).
  assert (Harc : on_arc c m r) by (exists (mclamp d (- m) m); auto).
  split; [exact Harc|].
  destruct (Rle_dec (Rabs d) m) as [Hd|Hd].
  - assert (Em : mclamp d (- m) m = d) by (unfold mclamp; rabs; minmax; lra).
    assert (r = a).
    { apply congruent_valid_eq; auto. rewrite Em in Cr. eapply congruent_trans; [exact Cr|]. now apply congruent_sym. }
    subst r. split; [auto|]. split; [intros N; elim N; exact Harc|].
    intros y _. exists a. split; [apply congruent_refl|]. replace (a - a) with 0 by ring. rewrite Rabs_R0. apply Rabs_pos.
  - assert (Hno : ~ on_arc c m a).
    { intros (e & He & Ce). apply Hd.
      assert (Cde : congruent d e).
      { apply (congruent_trans d (a - c)); [exact Cd|]. destruct Ce as [k Hk]. exists k. rewrite Hk. ring. }
      destruct (Req_dec e (- PI)) as [He'|He'].
      - assert (m = PI) by lra. subst m. unfold valid_angle in Vd. rabs; lra.
      - rewrite (congruent_valid_eq d e Vd); [rabs; lra| |exact Cde]. unfold valid_angle. lra. }
    split; [tauto|].
    assert (Sg : (m < d /\ mclamp d (- m) m = m) \/ (d < - m /\ mclamp d (- m) m = - m)).
    { unfold mclamp. rabs; [left|right]; minmax; lra. }
    destruct Cad as [ka Hka].
    destruct Sg as [[Hs Em]|[Hs Em]]; rewrite Em in Cr.
    + split; [intros _; now left|]. intros y (e & He & [k Hk]).
      exists (c + m + 2 * PI * IZR ka). split.
      { apply (congruent_trans _ (c + m)); [exists ka; ring|now apply congruent_sym]. }
      rewrite Hka, Hk. pose proof (far_end d m e (k - ka) ltac:(unfold valid_angle in Vd; lra) He ltac:(lra)) as F.
      rewrite minus_IZR in F.
      replace (c + m + 2 * PI * IZR ka - (c + d + 2 * PI * IZR ka)) with (- (d - m)) by ring.
      replace (c + e + 2 * PI * IZR k - (c + d + 2 * PI * IZR ka)) with (- (d - e - 2 * PI * (IZR k - IZR ka))) by ring.
      rewrite !Rabs_Ropp. rewrite (Rabs_pos_eq (d - m)) by lra. exact F.
    + split; [intros _; right; exact Cr|]. intros y (e & He & [k Hk]).
      exists (c - m + 2 * PI * IZR ka). split.
      { apply (congruent_trans _ (c + - m)); [exists ka; ring|now apply congruent_sym]. }
      rewrite Hka, Hk. pose proof (far_end (- d) m (- e) (ka - k) ltac:(unfold valid_angle in Vd; lra) ltac:(lra) ltac:(lra)) as F.
      rewrite minus_IZR in F.
      replace (c - m + 2 * PI * IZR ka - (c + d + 2 * PI * IZR ka)) with (- d - m) by ring.
      replace (c + e + 2 * PI * IZR k - (c + d + 2 * PI * IZR ka)) with (- d - - e - 2 * PI * (IZR ka - IZR k)) by ring.
      rewrite (Rabs_pos_eq (- d - m)) by lra. exact F.
Qed.

(** ** Vectors *)
Lemma sqrt1_pos u : 0 < sqrt (1 + u²).
Proof. apply sqrt_lt_R0. pose proof (Rle_0_sqr u). lra. Qed.

Lemma atan2_range y x : valid_angle (atan2 y x).
Proof.
  pipos. unfold atan2, valid_angle. pose proof (atan_bound (y / x)) as B.
  destruct (Rltb_spec 0 x); [lra|]. destruct (Rltb_spec x 0).
  - destruct (Rleb_spec 0 y).
    + assert (atan (y / x) <= 0).
      { assert (Hyx : y / x <= 0).
        { unfold Rdiv. assert (/ x < 0) by now apply Rinv_lt_0_compat. nra. }
        destruct (Rle_lt_or_eq_dec _ _ Hyx) as [H0|H0]; [apply atan_increasing in H0; rewrite atan_0 in H0; lra|].
        rewrite H0, atan_0. lra. }
      lra.
    + assert (0 < atan (y / x)).
      { assert (Hyx : 0 < y / x).
        { unfold Rdiv. assert (/ x < 0) by now apply Rinv_lt_0_compat. nra. }
        apply atan_increasing in Hyx. rewrite atan_0 in Hyx. exact Hyx. }
      lra.
  - destruct (Rltb_spec 0 y); [lra|]. destruct (Rltb_spec y 0); lra.
Qed.

(** atan2 gives the direction of (x, y). *)
Lemma atan2_polar y x : x <> 0 \/ y <> 0 -> exists r, 0 < r /\ x = r * cos (atan2 y x) /\ y = r * sin (atan2 y x).
Proof.
  intros N. unfold atan2.
  pose proof (sqrt1_pos (y / x)) as S. set (s := sqrt (1 + (y / x)²)) in *.
  assert (Sx : forall u, u <> 0 -> u = (u * s) * (1 / s)) by (intros; field; lra).
  assert (Sy : x <> 0 -> y = (x * s) * (y / x / s)) by (intros; field; split; lra).
  destruct (Rltb_spec 0 x).
  - exists (x * s). split; [apply Rmult_lt_0_compat; lra|]. rewrite cos_atan, sin_atan. fold s. split; [apply Sx|apply Sy]; lra.
  - destruct (Rltb_spec x 0).
    + assert (0 < - x * s) by (apply Rmult_lt_0_compat; lra).
      exists (- x * s). split; [assumption|]. destruct (Rleb_spec 0 y).
      * rewrite neg_cos, neg_sin, cos_atan, sin_atan. fold s. split; [rewrite (Sx x) at 1 by lra|rewrite Sy at 1 by lra]; ring.
      * replace (atan (y / x) - PI) with (- (- atan (y / x) + PI)) by ring.
        rewrite cos_neg, sin_neg, neg_cos, neg_sin, cos_neg, sin_neg, cos_atan, sin_atan. fold s.
        split; [rewrite (Sx x) at 1 by lra|rewrite Sy at 1 by lra]; ring.
    + assert (x = 0) by lra. destruct (Rltb_spec 0 y).
      * exists y. rewrite cos_PI2, sin_PI2. lra.
      * destruct (Rltb_spec y 0).
        -- exists (- y). rewrite cos_neg, sin_neg, cos_PI2, sin_PI2. lra.
        -- exfalso. destruct N; lra.
Qed.

(** An angle is determined by its cosine and sine. *)
Lemma cos_1_small x : - (2 * PI) < x < 2 * PI -> cos x = 1 -> x = 0.
Proof.
  intros B H. pipos. assert (S : sin (x / 2) = 0).
  { replace x with (2 * (x / 2)) in H by lra. rewrite cos_2a_sin in H. nra. }
  destruct (Rtotal_order x 0) as [L|[E|G]]; [|assumption|]; exfalso.
  - assert (0 < sin (- (x / 2))) by (apply sin_gt_0; lra). rewrite sin_neg in *. lra.
  - assert (0 < sin (x / 2)) by (apply sin_gt_0; lra). lra.
Qed.

Lemma direction_unique a b r : valid_angle a -> valid_angle b -> 0 < r ->
  cos a = r * cos b -> sin a = r * sin b -> a = b.
Proof.
  intros A B Hr C S. pose proof (sin2_cos2 a) as Pa. pose proof (sin2_cos2 b) as Pb. unfold Rsqr in *.
  assert (r = 1).
  { assert (r * r = 1) by (rewrite C, S in Pa; nra). nra. }
  subst r. assert (H : cos (a - b) = 1) by (rewrite cos_minus; nra).
  apply cos_1_small in H; [lra|]. unfold valid_angle in *. lra.
Qed.

Lemma mod_neg_valid a : valid_angle a -> mod_if_negative_pi a = a.
Proof. unfold valid_angle, mod_if_negative_pi. intros. destruct (Rleb_spec a (- PI)); lra. Qed.

(** The coordinates along the two axes of a system. *)
Definition zero_coord (sys : vsystem) (v : vec3) : R :=
  match sys with XY | XZ => vx v | YZ | YX => vy v | ZX | ZY => vz v end.
Definition ninety_coord (sys : vsystem) (v : vec3) : R :=
  match sys with YX | ZX => vx v | XY | ZY => vy v | XZ | YZ => vz v end.

Lemma from_vector_atan2 sys v : from_vector sys v = Some (atan2 (ninety_coord sys v) (zero_coord sys v)).
Proof.
  unfold from_vector. pose proof (atan2_range (ninety_coord sys v) (zero_coord sys v)) as V.
  assert (E : forall t, valid_angle t -> mk_angle (mod_if_negative_pi t) = Some t).
  { intros t Ht. rewrite mod_neg_valid by assumption. now apply mk_angle_some. }
  destruct sys; cbn in *; apply E; assumption.
Qed.

Lemma from_vector_ok sys v : exists a, from_vector sys v = Some a /\ valid_angle a /\
  (zero_coord sys v <> 0 \/ ninety_coord sys v <> 0 ->
   exists r, 0 < r /\ zero_coord sys v = r * cos a /\ ninety_coord sys v = r * sin a).
Proof. eexists. split; [apply from_vector_atan2|]. split; [apply atan2_range|]. apply atan2_polar. Qed.

Lemma vector_round_trip sys a : valid_angle a -> from_vector sys (to_vector sys a) = Some a.
Proof.
  intros V. rewrite from_vector_atan2. f_equal.
  assert (Ez : zero_coord sys (to_vector sys a) = cos a) by (destruct sys; reflexivity).
  assert (En : ninety_coord sys (to_vector sys a) = sin a) by (destruct sys; reflexivity).
  rewrite Ez, En. destruct (atan2_polar (sin a) (cos a)) as (r & Hr & C & S).
  { destruct (Req_dec (cos a) 0) as [H|H]; [right|now left]. intros H'. pose proof (sin2_cos2 a) as P. rewrite H, H' in P.
    unfold Rsqr in P. lra. }
  symmetry. apply (direction_unique a _ r); auto. apply atan2_range.
Qed.

Lemma congruent_cos_sin a b : congruent a b -> cos a = cos b /\ sin a = sin b.
Proof.
  intros [k ->]. destruct (Z.lt_ge_cases k 0).
  - replace b with (b + 2 * PI * IZR k + 2 * INR (Z.to_nat (- k)) * PI) at 2 4.
    + rewrite cos_period, sin_period. auto.
    + rewrite INR_IZR_INZ, Z2Nat.id, opp_IZR by lia. ring.
  - replace (b + 2 * PI * IZR k) with (b + 2 * INR (Z.to_nat k) * PI).
    + rewrite cos_period, sin_period. auto.
    + rewrite INR_IZR_INZ, Z2Nat.id by lia. ring.
Qed.

Lemma rotation_ok sys a : valid_angle a -> exists m, to_rotation_matrix sys a = Some m /\
  (forall b, mapply m (to_vector sys b) = to_vector sys (b + a)) /\
  mapply m (vector_system_up sys) = vector_system_up sys.
Proof.
  intros V. destruct (neg_ok a V) as (n & En & Vn & Cn). apply congruent_cos_sin in Cn. rewrite cos_neg, sin_neg in Cn.
  destruct Cn as [Cn Sn].
  destruct sys; cbn [to_rotation_matrix]; rewrite ?En; eexists; (split; [reflexivity|]);
    unfold xy_matrix, xz_matrix, yz_matrix; rewrite ?Cn, ?Sn;
    (split; [intros b; unfold to_vector; rewrite cos_plus, sin_plus|]);
    apply vec3_eq; cbn; ring.
Qed.

Lemma lat_long_ok lat long sys :
  vdot (lat_long lat long sys) (lat_long lat long sys) = 1 /\
  vdot (lat_long lat long sys) (vector_system_up sys) = sin lat.
Proof.
  unfold lat_long. pose proof (sin2_cos2 lat) as P. pose proof (sin2_cos2 long) as Q. unfold Rsqr in *.
  set (rr := Rabs (cos lat)). assert (Er : rr * rr = cos lat * cos lat).
  { unfold rr. rewrite <- Rabs_mult. apply Rabs_pos_eq. nra. }
  assert (K : rr * rr * (sin long * sin long + cos long * cos long) + sin lat * sin lat = 1) by (rewrite Q, Er; lra).
  split; [etransitivity; [|exact K]|]; destruct sys; unfold vdot, vadd, vscale, vector_system_up, to_vector, vneg, kAxisX, kAxisY, kAxisZ; cbn [vx vy vz]; ring.
Qed.
