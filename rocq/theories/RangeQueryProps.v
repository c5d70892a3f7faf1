(** C88: the queries of ranges, and degrees. *)
From Verif Require Import RBase RangeModel RangeProofs AngleModel AngleProofs.

(** Membership, with each combination of the ends. *)
Theorem C88_membership : forall r x,
  (contains r x = true <-> start_ r <= x <= end_ r) /\
  (contains_excl_start r x = true <-> start_ r < x <= end_ r) /\
  (contains_excl_end r x = true <-> start_ r <= x < end_ r) /\
  (strictly_contains r x = true <-> start_ r < x < end_ r).
Proof.
  intros r x. unfold contains, contains_excl_start, contains_excl_end, strictly_contains. rewrite !andb_true_iff.
  destruct (Rleb_spec (start_ r) x), (Rleb_spec x (end_ r)), (Rltb_spec (start_ r) x), (Rltb_spec x (end_ r)); repeat split; intros; try lra; try discriminate; auto; try tauto; destruct H; try discriminate; try lra.
Qed.
Print Assumptions C88_membership.

(** With a tolerance: the points whose distance from a valid range is at most that fraction
    of its length. *)
Theorem C88_tolerance : forall r x p, valid r = true -> 0 <= p ->
  (contains_with_tolerance r x p = true <-> distance_from r x <= p * length_ r).
Proof.
  intros r x p V P. apply valid_iff in V. unfold contains_with_tolerance, distance_from, clamp, length_. rewrite andb_true_iff. set (q := (end_ r - start_ r) * p).
  replace (p * (end_ r - start_ r)) with q by (unfold q; ring). assert (0 <= q) by (apply Rmult_le_pos; lra).
  destruct (Rleb_spec (start_ r - q) x), (Rleb_spec x (end_ r + q)); split; intros Q; try (destruct Q; discriminate); try (split; reflexivity); revert Q; minmax; rabs; lra.
Qed.
Print Assumptions C88_tolerance.

(** Percent and Lerp are inverses on a range that is not a point; the middle is half way, as
    far from one end as from the other. *)
Theorem C88_percent : forall r x, length_ r <> 0 ->
  lerp r (percent r x) = x /\ percent r (lerp r x) = x /\
  percent r (start_ r) = 0 /\ percent r (end_ r) = 1 /\ percent r (middle r) = 1 / 2 /\
  middle r - start_ r = end_ r - middle r.
Proof. intros r x L. unfold lerp, percent, middle, length_ in *. repeat split; try (field; lra); lra. Qed.
Print Assumptions C88_percent.

(** Clamped, it is the percent of the clamped value. *)
Theorem C88_percent_clamped : forall r x, start_ r < end_ r ->
  percent_clamped r x = percent r (clamp r x) /\ 0 <= percent_clamped r x <= 1.
Proof.
  intros r x L. unfold percent_clamped, percent, clamp, length_. cbn [start_ end_]. set (n := end_ r - start_ r). assert (N : 0 < n) by (unfold n; lra).
  assert (K : forall a b, a <= b -> a / n <= b / n) by (intros a b A; unfold Rdiv; apply Rmult_le_compat_r; [left; now apply Rinv_0_lt_compat|exact A]).
  pose proof (Rinv_0_lt_compat _ N). assert (E1 : 1 = n / n) by (field; lra). assert (E0 : 0 = 0 / n) by (field; lra). split; [|minmax; lra].
  destruct (Rle_dec x (start_ r)) as [A|A].
  - replace (Rmax (start_ r) _) with (start_ r) by (minmax; lra). pose proof (K (x - start_ r) 0 ltac:(lra)). rewrite Rminus_eq_0, <- E0. minmax; lra.
  - destruct (Rle_dec x (end_ r)) as [B|B].
    + replace (Rmax (start_ r) _) with x by (minmax; lra). pose proof (K 0 (x - start_ r) ltac:(lra)). pose proof (K (x - start_ r) n ltac:(unfold n; lra)). minmax; lra.
    + replace (Rmax (start_ r) _) with (end_ r) by (minmax; lra). fold n. pose proof (K n (x - start_ r) ltac:(unfold n; lra)). rewrite <- E1. minmax; lra.
Qed.
Print Assumptions C88_percent_clamped.

(** Scaling by a positive number scales the members, and by any number the length; scaling
    by a negative one turns a valid range into an invalid one. *)
Theorem C88_scale : forall r s x,
  length_ (scale r s) = s * length_ r /\
  (0 < s -> contains (scale r s) (s * x) = contains r x) /\
  (s < 0 -> start_ r < end_ r -> valid (scale r s) = false).
Proof.
  intros r s x. split; [unfold scale, length_; cbn; ring|]. split.
  - intros P. unfold contains, scale. cbn [start_ end_].
    assert (K : forall a b, Rleb (s * a) (s * b) = Rleb a b) by (intros a b; destruct (Rleb_spec a b) as [L|L]; [apply Rleb_t, Rmult_le_compat_l; lra|apply Rleb_f, Rmult_lt_compat_l; lra]).
    now rewrite !K.
  - intros N L. unfold valid, scale. cbn [start_ end_]. apply Rleb_f. assert (0 < - s * (end_ r - start_ r)) by (apply Rmult_lt_0_compat; lra). lra.
Qed.
Print Assumptions C88_scale.

(** CreateValidRange: the smallest valid range with both numbers, in whichever order they come. *)
Theorem C88_create : forall a b,
  valid (create_valid_range a b) = true /\ create_valid_range a b = create_valid_range b a /\
  (forall x, contains (create_valid_range a b) x = true <-> a <= x <= b \/ b <= x <= a) /\
  length_ (create_valid_range a b) = Rabs (a - b).
Proof.
  intros a b. unfold create_valid_range, length_. split; [apply valid_iff; cbn; minmax; lra|]. split; [f_equal; [apply Rmin_comm|apply Rmax_comm]|]. split; [|cbn; minmax; rabs; lra].
  intros x. destruct (C88_membership (Rg (Rmin a b) (Rmax a b)) x) as [-> _]. cbn [start_ end_]. minmax; lra.
Qed.
Print Assumptions C88_create.

(** Degrees: an angle made from degrees has, in degrees, the equivalent in (-180, 180]; and
    an angle's degrees give back the angle. *)
Theorem C88_degrees : forall d, exists a (k : Z), from_degrees d = Some a /\ to_degrees a = d + IZR k * 360 /\ -180 < to_degrees a <= 180.
Proof.
  intros d. pose proof PI_RGT_0 as P. pose proof (Rinv_0_lt_compat _ P) as Q. unfold from_degrees, from_radians. destruct (wrap_ok (d * (PI / 180))) as [V [k K]]. set (a := wrap_angle _) in *. rewrite mk_angle_some by exact V.
  unfold valid_angle in V. exists a. unfold to_degrees. assert (E : 180 / PI * a = 180 * (a / PI)) by (field; lra).
  assert (-1 < a / PI <= 1). { split; [apply Rmult_lt_reg_r with PI|apply Rmult_le_reg_r with PI]; try exact P; unfold Rdiv; rewrite Rmult_assoc, Rinv_l by lra; lra. }
  exists k. split; [reflexivity|]. split; [rewrite K; field; lra|]. rewrite E. lra.
Qed.
Print Assumptions C88_degrees.
Theorem C88_degrees_back : forall a, valid_angle a -> from_degrees (to_degrees a) = Some a.
Proof.
  intros a V. pose proof PI_RGT_0 as P. unfold from_degrees, to_degrees, from_radians. replace (180 / PI * a * (PI / 180)) with a by (field; lra).
  destruct (wrap_ok a) as [W C]. rewrite (congruent_valid_eq _ _ W V C). now apply mk_angle_some.
Qed.
Print Assumptions C88_degrees_back.

(** A case: 30 percent of [2, 12] is 5; 15 is outside by less than half of the length; 540 degrees. *)
Example C88_case : length_ (Rg 2 12) <> 0 /\ percent (Rg 2 12) 5 = 3 / 10 /\ valid (Rg 2 12) = true /\ contains_with_tolerance (Rg 2 12) 15 (1 / 2) = true /\ contains (Rg 2 12) 15 = false.
Proof.
  unfold length_, percent, contains_with_tolerance, contains, length_. cbn [start_ end_]. split; [lra|]. split; [field|]. split; [apply valid_iff; cbn; lra|].
  rewrite !Rleb_t by lra. rewrite (Rleb_f 15) by lra. auto.
Qed.
