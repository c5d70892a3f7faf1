(** Properties C21, C22, C77 of Angle, over exact reals. [valid_angle] is
    membership in (-pi, pi], [congruent] is equality modulo 2 pi
    (AngleProofs.v:3-4). *)
From Verif Require Import RBase VecModel AngleModel AngleProofs.

(** C21 *)
Theorem C21_angle_operations : forall a b s x,
  valid_angle a -> valid_angle b ->
  (exists r, angle_add a b = Some r /\ valid_angle r /\ congruent r (a + b)) /\
  (exists r, angle_sub a b = Some r /\ valid_angle r /\ congruent r (a - b)) /\
  (exists r, angle_neg a = Some r /\ valid_angle r /\ congruent r (- a)) /\
  (valid_angle (angle_mul a s) /\ congruent (angle_mul a s) (a * s)) /\
  (s <> 0 -> exists r, angle_div a s = Some r /\ valid_angle r /\ congruent r (a / s)) /\
  (exists r, from_radians x = Some r /\ valid_angle r /\ congruent r x) /\
  (exists r, from_degrees x = Some r /\ valid_angle r /\ congruent r (x * PI / 180)) /\
  (- (3 * PI) < x < 3 * PI -> exists r, from_within_three_pi x = Some r /\ valid_angle r /\ congruent r x) /\
  (angle_abs a = Some (Rabs a)).
Proof.
  intros a b s x A B. split; [now apply add_ok|]. split; [now apply sub_ok|]. split; [now apply neg_ok|].
  split; [apply wrap_ok|]. split.
  { intros S. unfold angle_div. rewrite Reqb_f by assumption. eexists. split; [reflexivity|]. apply wrap_ok. }
  split. { exists (wrap_angle x). unfold from_radians. rewrite mk_angle_some by apply wrap_ok. split; [reflexivity|]. apply wrap_ok. }
  split. { exists (wrap_angle (x * (PI / 180))). unfold from_degrees, from_radians. rewrite mk_angle_some by apply wrap_ok.
    split; [reflexivity|]. replace (x * PI / 180) with (x * (PI / 180)) by lra. apply wrap_ok. }
  split. { intros X. destruct (mod3_ok x X) as (r & E & V & C). exists r. unfold from_within_three_pi. rewrite E.
    rewrite mk_angle_some by assumption. auto. }
  unfold angle_abs. apply mk_angle_some. unfold valid_angle in *. pipos. rabs; lra.
Qed.

(** Each direction has exactly one representation, so == on angles is equality
    modulo 2 pi and the result of every operation above is unique. *)
Theorem C21_representation_unique : forall a b, valid_angle a -> valid_angle b -> congruent a b -> a = b.
Proof. exact congruent_valid_eq. Qed.

(** FromWithinThreePi documents (-3pi, 3pi] (angle.h:330) but its assert rejects 3pi. *)
Theorem C21_three_pi_refuted : from_within_three_pi (3 * PI) = None.
Proof.
  unfold from_within_three_pi, mod_within_three_pi. rewrite (Rltb_f (3 * PI) (3 * PI)) by lra. now rewrite andb_false_r.
Qed.

(** C22.  [on_arc c m x] (AngleProofs.v): x is within m of c on the circle.  The
    last clause says no point of the arc is nearer to [a], going either way round. *)
Theorem C22_clamp_nearest : forall a c m, valid_angle a -> valid_angle c -> 0 <= m <= PI ->
  exists r, angle_clamp a c m = Some r /\ valid_angle r /\ on_arc c m r /\
    (on_arc c m a -> r = a) /\
    (~ on_arc c m a -> congruent r (c + m) \/ congruent r (c - m)) /\
    (forall y, on_arc c m y -> exists r', congruent r' r /\ Rabs (r' - a) <= Rabs (y - a)).
Proof. exact clamp_ok. Qed.

(** C77 *)
Theorem C77_vector_round_trip : forall sys a, valid_angle a -> from_vector sys (to_vector sys a) = Some a.
Proof. exact vector_round_trip. Qed.
Theorem C77_from_vector_direction : forall sys v, exists a, from_vector sys v = Some a /\ valid_angle a /\
  (zero_coord sys v <> 0 \/ ninety_coord sys v <> 0 ->
   exists r, 0 < r /\ zero_coord sys v = r * cos a /\ ninety_coord sys v = r * sin a).
Proof. exact from_vector_ok. Qed.
(** The rotation matrix of a system adds the angle and leaves the axis alone. *)
Theorem C77_rotation_matrix : forall sys a, valid_angle a -> exists m, to_rotation_matrix sys a = Some m /\
  (forall b, mapply m (to_vector sys b) = to_vector sys (b + a)) /\
  mapply m (vector_system_up sys) = vector_system_up sys.
Proof. exact rotation_ok. Qed.
Theorem C77_unit_sphere : forall lat long sys,
  vdot (lat_long lat long sys) (lat_long lat long sys) = 1 /\
  vdot (lat_long lat long sys) (vector_system_up sys) = sin lat.
Proof. exact lat_long_ok. Qed.
(** "positive since we use a right-hand system" (angle.h:511-515) is false for the
    systems XZ and ZX: their up vector is the opposite of zero axis x ninety axis. *)
Theorem C77_up_is_right_handed_refuted : forall sys,
  vcross (to_vector sys 0) (to_vector sys (PI / 2)) =
  match sys with XZ | ZX => vneg (vector_system_up sys) | _ => vector_system_up sys end.
Proof. intros sys. unfold to_vector. rewrite cos_0, sin_0, cos_PI2, sin_PI2. destruct sys; apply vec3_eq; cbn; ring. Qed.

(** Concrete cases: pi + pi wraps to 0, pi negates to pi, clamping pi to 0 +- 1. *)
Example C21_case : valid_angle PI /\ angle_add PI PI = Some 0 /\ angle_neg PI = Some PI.
Proof.
  pipos. assert (V : valid_angle PI) by (unfold valid_angle; lra). split; [assumption|]. split.
  - destruct (add_ok PI PI V V) as (r & E & Vr & C). rewrite E. f_equal. apply congruent_valid_eq; auto.
    + unfold valid_angle; lra.
    + eapply congruent_trans; [exact C|]. exists 1%Z. ring.
  - destruct (neg_ok PI V) as (r & E & Vr & C). rewrite E. f_equal. apply congruent_valid_eq; auto.
    eapply congruent_trans; [exact C|]. exists (-1)%Z. ring.
Qed.
Example C22_case : valid_angle PI /\ valid_angle 0 /\ 0 <= 1 <= PI /\ angle_clamp PI 0 1 = Some 1.
Proof.
  pose proof PI2_1 as P. pipos. unfold valid_angle. repeat (split; [lra|]).
  unfold angle_clamp, angle_sub, angle_add, mod_within_three_pi, mk_angle, in_range, mclamp.
  rewrite (Rleb_t 0 1), (Rleb_t 1 PI) by lra. cbn [andb].
  replace (PI - 0) with PI by ring. rewrite (Rltb_t (- (3 * PI)) PI), (Rltb_t PI (3 * PI)), (Rleb_f PI (- PI)), (Rltb_f PI PI) by lra.
  cbn [andb]. rewrite (Rltb_t (- PI) PI), (Rleb_t PI PI) by lra. cbn [andb].
  rewrite (Rmin_right PI 1) by lra. rewrite (Rmax_right (-(1)) 1) by lra.
  rewrite (Rltb_t (- PI) 1), (Rleb_t 1 PI) by lra. cbn [andb].
  replace (0 + 1) with 1 by ring. rewrite (Rltb_t (- (3 * PI)) 1), (Rltb_t 1 (3 * PI)) by lra. cbn [andb].
  rewrite (Rleb_f 1 (- PI)) by lra. rewrite (Rltb_f PI 1) by lra. rewrite (Rltb_t (- PI) 1), (Rleb_t 1 PI) by lra. reflexivity.
Qed.

Print Assumptions C21_angle_operations.
Print Assumptions C21_representation_unique.
Print Assumptions C21_three_pi_refuted.
Print Assumptions C22_clamp_nearest.
Print Assumptions C77_vector_round_trip.
Print Assumptions C77_from_vector_direction.
Print Assumptions C77_rotation_matrix.
Print Assumptions C77_unit_sphere.
Print Assumptions C77_up_is_right_handed_refuted.
