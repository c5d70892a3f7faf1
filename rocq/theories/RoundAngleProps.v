(** Angles in single precision (C114). *)
From Verif Require Import RBase RoundModel RoundProofs AngleModel RoundAngleModel.

(** * Statements' vocabulary *)
(** An angle as the class promises it: a single in (-pi, pi], pi being the constant. *)
Definition f_valid (a : R) : Prop := single a /\ - kPi < a <= kPi.
(** [r] is [x] up to whole turns and an error of at most [eps]. *)
Definition turns_within (eps r x : R) : Prop := exists k, Rabs (r - (x + IZR k * kTwoPi)) <= eps.
(** The type in which C++ evaluates the result of floor: `float`, `double` or wider. *)
Definition at_least_single (wide : R -> R) : Prop :=
  exists p emin, (24 <= p)%Z /\ (emin <= -149)%Z /\ rounds (fmt p emin) wide.

(** * Proofs *)
Lemma P24 : (0 < 24)%Z. Proof. lia. Qed.
Ltac consts := unfold kPi, kTwoPi, kThreePi, kMinUniqueAngle, kDegreesToRadians, kRadiansToDegrees in *.
Lemma pow2_m22 : pow2 (-22) = / 4194304.
Proof. change (-22)%Z with (- (22))%Z. rewrite pow2_inv, pow2_IZR by lia. reflexivity. Qed.
Lemma pow2_m21 : pow2 (-21) = / 2097152.
Proof. change (-21)%Z with (- (21))%Z. rewrite pow2_inv, pow2_IZR by lia. reflexivity. Qed.
Lemma pow2_m24 : pow2 (-24) = / 16777216.
Proof. change (-24)%Z with (- (24))%Z. rewrite pow2_inv, pow2_IZR by lia. reflexivity. Qed.
Lemma pow2_m40 : pow2 (-40) = / 1099511627776.
Proof. change (-40)%Z with (- (40))%Z. rewrite pow2_inv, pow2_IZR by lia. reflexivity. Qed.
Lemma pow2_3 : pow2 3 = 8. Proof. now rewrite pow2_IZR. Qed.

Lemma kPi_single : single kPi.
Proof. exists 13176795%Z, (-22)%Z. rewrite pow2_m22. consts. (split; [cbn; lia|split; [lia|lra]]). Qed.
Lemma kMin_single : single kMinUniqueAngle.
Proof. exists (-13176794)%Z, (-22)%Z. rewrite pow2_m22. consts. (split; [cbn; lia|split; [lia|lra]]). Qed.
Lemma kTwoPi_single : single kTwoPi.
Proof. exists 13176795%Z, (-21)%Z. rewrite pow2_m21. consts. (split; [cbn; lia|split; [lia|lra]]). Qed.

(** Singles of magnitude two and more are multiples of 2^-22. *)
Lemma grid22 x : single x -> 2 <= Rabs x -> exists n, x = IZR n / 4194304.
Proof.
  intros S L. destruct (fmt_grid 24 (-149) x 1 P24 S) as [n E]; [rewrite pow2_1; easy|].
  exists n. rewrite E. change (1 + 1 - 24)%Z with (-22)%Z. rewrite pow2_m22. lra.
Qed.
Lemma single22 n : Rabs (IZR n / 4194304) <= 4 -> single (IZR n / 4194304).
Proof.
  intros L. replace (IZR n / 4194304) with (IZR n * pow2 (-22)) in * by (rewrite pow2_m22; lra).
  apply fmt_of_grid; [lia|lia|]. change (24 + -22)%Z with 2%Z. rewrite (pow2_IZR 2) by lia. cbn. easy.
Qed.
Lemma min_unique x : single x -> - kPi < x -> kMinUniqueAngle <= x.
Proof.
  intros S L. destruct (Rle_lt_dec kMinUniqueAngle x) as [|C]; [easy|exfalso].
  destruct (grid22 x S) as [n ->]; [consts; rabs; lra|].
  assert (-13176795 < n)%Z by (apply lt_IZR; consts; lra).
  assert (n < -13176794)%Z by (apply lt_IZR; consts; lra). lia.
Qed.
Lemma in_range_iff x : single x -> f_in_range x = true <-> - kPi < x <= kPi.
Proof.
  intros S. unfold f_in_range. rewrite andb_true_iff, !Rleb_true. split; intros [A B]; split; try easy.
  - consts; lra.
  - now apply min_unique.
Qed.
Lemma f_angle_ok x : single x -> - kPi < x <= kPi -> f_angle x = Some x.
Proof. intros S V. unfold f_angle. now rewrite (proj2 (in_range_iff x S) V). Qed.

Section S.
Variable rnd : R -> R.
Hypothesis H : rounds single rnd.

Lemma rnd_single x : single (rnd x). Proof. exact (rnd_fmt _ _ _ H x). Qed.
Lemma rnd_exact22 n : Rabs (IZR n / 4194304) <= 4 -> rnd (IZR n / 4194304) = IZR n / 4194304.
Proof. intros L. apply (rnd_id _ _ _ H), single22, L. Qed.

Lemma mod_ok a : single a -> - kThreePi < a < kThreePi ->
  exists r k, f_mod_within_three_pi rnd a = Some r /\ f_valid r /\ r = a + IZR k * kTwoPi.
Proof.
  intros S [A B]. unfold f_mod_within_three_pi. rewrite (Rltb_t _ _ A), (Rltb_t _ _ B). cbn [andb].
  destruct (Rltb_spec a kMinUniqueAngle) as [C|C].
  - destruct (grid22 a S) as [n ->]; [consts; rabs; lra|].
    assert (-39530384 < n)%Z by (apply lt_IZR; consts; lra).
    assert (n < -13176794)%Z by (apply lt_IZR; consts; lra).
    set (m := (n + 26353590)%Z).
    assert (E : IZR n / 4194304 + kTwoPi = IZR m / 4194304) by (unfold m; rewrite plus_IZR; consts; lra).
    assert (M : -13176794 < IZR m <= 13176795) by (split; [apply IZR_lt|apply IZR_le]; lia).
    assert (M4 : Rabs (IZR m / 4194304) <= 4) by (rabs; lra).
    rewrite E, rnd_exact22 by easy.
    rewrite (Rltb_f kPi) by (consts; lra).
    assert (V : - kPi < IZR m / 4194304 <= kPi) by (consts; lra).
    pose proof (single22 m M4) as SM. rewrite (proj2 (in_range_iff _ SM) V).
    exists (IZR m / 4194304), 1%Z. split; [easy|]. split; [now split|]. lra.
  - destruct (Rltb_spec kPi a) as [D|D].
    + destruct (grid22 a S) as [n ->]; [consts; rabs; lra|].
      assert (n < 39530384)%Z by (apply lt_IZR; consts; lra).
      assert (13176795 < n)%Z by (apply lt_IZR; consts; lra).
      set (m := (n - 26353590)%Z).
      assert (E : IZR n / 4194304 - kTwoPi = IZR m / 4194304) by (unfold m; rewrite minus_IZR; consts; lra).
      assert (M : -13176795 < IZR m <= 13176795) by (split; [apply IZR_lt|apply IZR_le]; lia).
      assert (M4 : Rabs (IZR m / 4194304) <= 4) by (rabs; lra).
      rewrite E, rnd_exact22 by easy.
      assert (V : - kPi < IZR m / 4194304 <= kPi) by (consts; lra).
      pose proof (single22 m M4) as SM. rewrite (proj2 (in_range_iff _ SM) V).
      exists (IZR m / 4194304), (-1)%Z. split; [easy|]. split; [now split|]. lra.
    + assert (V : - kPi < a <= kPi) by (consts; lra). rewrite (proj2 (in_range_iff _ S) V).
      exists a, 0%Z. split; [easy|]. split; [now split|]. lra.
Qed.

Lemma sum_ok x : Rabs x <= kTwoPi -> exists r, f_mod_within_three_pi rnd (rnd x) = Some r /\ f_valid r /\
  turns_within (pow2 (-22)) r x.
Proof.
  intros L. assert (A : rnd x <= kTwoPi) by (apply (rnd_le_fmt _ _ _ H); [apply kTwoPi_single|revert L; rabs; lra]).
  assert (B : - kTwoPi <= rnd x) by (apply (rnd_ge_fmt _ _ _ H); [apply fmt_opp, kTwoPi_single|revert L; rabs; lra]).
  destruct (mod_ok (rnd x) (rnd_single x)) as (r & k & E & V & Q); [consts; lra|].
  exists r. split; [easy|]. split; [easy|]. exists k. rewrite Q.
  replace (rnd x + IZR k * kTwoPi - (x + IZR k * kTwoPi)) with (rnd x - x) by ring.
  apply (rnd_err 24 (-149) P24 rnd H x 3); [lia|]. rewrite pow2_3. consts. lra.
Qed.
Lemma add_ok a b : f_valid a -> f_valid b ->
  exists r, f_add rnd a b = Some r /\ f_valid r /\ turns_within (pow2 (-22)) r (a + b).
Proof. intros [_ A] [_ B]. apply sum_ok. consts. rabs; lra. Qed.
Lemma sub_ok a b : f_valid a -> f_valid b ->
  exists r, f_sub rnd a b = Some r /\ f_valid r /\ turns_within (pow2 (-22)) r (a - b).
Proof. intros [_ A] [_ B]. apply sum_ok. consts. rabs; lra. Qed.
Lemma neg_ok a : f_valid a ->
  exists r, f_neg a = Some r /\ f_valid r /\ turns_within 0 r (- a) /\ (a <> kPi -> r = - a).
Proof.
  intros [S A]. unfold f_neg, f_mod_if_negative_pi. destruct (Rltb_spec (- a) kMinUniqueAngle) as [C|C].
  - assert (a = kPi).
    { destruct (Rle_lt_dec a (- kMinUniqueAngle)) as [D|D]; [lra|].
      assert (- a <= - kPi); [|lra]. apply Rnot_lt_le. intros E.
      apply min_unique in E; [lra|now apply fmt_opp]. }
    subst a. exists kPi. assert (V : - kPi < kPi <= kPi) by (consts; lra).
    split; [apply f_angle_ok; [apply kPi_single|easy]|]. split; [split; [apply kPi_single|easy]|]. split; [|easy].
    exists 1%Z. replace (kPi - (- kPi + 1 * kTwoPi)) with 0 by (consts; lra). rewrite Rabs_R0. lra.
  - assert (V : - kPi < - a <= kPi) by (consts; lra).
    assert (S' : single (- a)) by now apply fmt_opp.
    exists (- a). split; [now apply f_angle_ok|]. split; [now split|]. split; [|easy].
    exists 0%Z. replace (- a - (- a + 0 * kTwoPi)) with 0 by lra. rewrite Rabs_R0. lra.
Qed.
Lemma abs_ok a : f_valid a -> f_abs a = Some (Rabs a) /\ f_valid (Rabs a).
Proof.
  intros [S A]. assert (V : - kPi < Rabs a <= kPi) by (consts; rabs; lra).
  assert (S' : single (Rabs a)) by now apply fmt_abs.
  split; [now apply f_angle_ok|now split].
Qed.
Lemma clamp_ok a c m : f_valid a -> f_valid c -> single m -> 0 <= m <= kPi ->
  exists d r, f_clamp rnd a c m = Some r /\ f_valid r /\
    f_valid d /\ turns_within (pow2 (-22)) d (a - c) /\
    turns_within (pow2 (-22)) r (c + Rmax (- m) (Rmin d m)) /\
    (Rabs d <= m -> turns_within (pow2 (-21)) r a).
Proof.
  intros VA VC S M. unfold f_clamp. rewrite (Rleb_t 0 m), (Rleb_t m kPi) by lra. cbn [andb].
  destruct (sub_ok a c VA VC) as (d & -> & VD & TD). exists d.
  assert (V : f_valid (mclamp d (- m) m)).
  { destruct VD as [SD D]. unfold mclamp. split.
    - assert (single (- m)) by now apply fmt_opp. minmax; easy.
    - assert (- m < kPi /\ - kPi <= - m) by lra. destruct (Req_dec m kPi); minmax; lra. }
  rewrite (f_angle_ok _ (proj1 V) (proj2 V)).
  destruct (add_ok c _ VC V) as (r & E & VR & TR). exists r. split; [exact E|]. do 3 (split; [assumption|]).
  split; [exact TR|]. intros L. destruct TD as [j J], TR as [k K]. exists (j + k)%Z.
  assert (Q : mclamp d (- m) m = d) by (unfold mclamp; revert L; rabs; minmax; lra). rewrite Q in K.
  assert (T2 : pow2 (-21) = 2 * pow2 (-22)) by (rewrite pow2_m21, pow2_m22; lra).
  rewrite plus_IZR, T2.
  replace (r - (a + (IZR j + IZR k) * kTwoPi)) with ((r - (c + d + IZR k * kTwoPi)) + (d - (a - c + IZR j * kTwoPi))) by ring.
  eapply Rle_trans; [apply Rabs_triang|]. lra.
Qed.

Lemma rel_of p emin w : (24 <= p)%Z -> (emin <= -149)%Z -> rounds (fmt p emin) w ->
  forall x, Rabs (w x - x) <= Rabs x / 16777216 + / 1099511627776.
Proof.
  intros P E W x. eapply Rle_trans; [apply (rnd_rel p emin ltac:(lia) w W)|].
  apply Rplus_le_compat.
  - apply Rmult_le_compat_l; [apply Rabs_pos|]. rewrite <- pow2_m24. apply pow2_le. lia.
  - rewrite <- pow2_m40. apply pow2_le. lia.
Qed.

Lemma wrap_ok wide a : at_least_single wide -> Rabs a <= 16777216 -> single a ->
  let r := f_wrap_angle rnd wide a in f_valid r /\ turns_within ((Rabs a + 40) * pow2 (-24)) r a.
Proof.
  intros (p & emin & P & E & W) L S. unfold f_wrap_angle.
  pose proof (rel_of _ _ _ P E W) as RW. pose proof (rel_of 24 (-149) rnd ltac:(lia) ltac:(lia) H) as RR.
  set (u := a / kTwoPi). assert (AU : a = u * kTwoPi) by (unfold u; consts; field).
  pose proof (RR u) as RU. set (q := rnd u) in *. destruct (Rfloor_bounds q) as [F1 F2]. set (n := Rfloor q) in *.
  assert (UB : Rabs u <= 2670177).
  { rewrite AU in L. rewrite Rabs_mult, (Rabs_pos_eq kTwoPi) in L by (consts; lra). consts. lra. }
  assert (NB : Rabs (IZR n + 1) <= 2670179) by (revert RU UB; rabs; lra).
  assert (WN : wide (IZR n + 1) = IZR n + 1).
  { apply (rnd_id _ _ _ W). replace (IZR n + 1) with (IZR (n + 1) * pow2 0) by (rewrite plus_IZR; cbn; lra).
    apply fmt_grid_in; [lia| |lia].
    assert (Z.abs (n + 1) <= 2670179)%Z by (apply le_IZR; rewrite abs_IZR, plus_IZR; easy).
    transitivity (2 ^ 24)%Z; [cbn; lia|]. apply Z.pow_le_mono_r; lia. }
  rewrite WN. set (N := IZR n + 1) in *.
  pose proof (RW (N * kTwoPi)) as RY. set (y := wide (N * kTwoPi)) in *.
  pose proof (RW (a - y)) as RV. set (v := wide (a - y)) in *.
  pose proof (RR v) as RZ. set (z := rnd v) in *.
  assert (ND : -(1 + 17 / 100) <= u - N <= 17 / 100).
  { unfold N in *. clear - F1 F2 RU UB. generalize dependent (IZR n). intros. rabs; lra. }
  assert (AN : -(7 + 36 / 100) <= a - N * kTwoPi <= 107 / 100).
  { clear - AU ND. replace (a - N * kTwoPi) with ((u - N) * kTwoPi) by (rewrite AU; ring).
    revert ND. generalize (u - N). intros w ND. consts. lra. }
  assert (NT : Rabs (N * kTwoPi) <= Rabs a + 736 / 100) by (clear - AN; generalize dependent (N * kTwoPi); intros; rabs; lra).
  assert (EY : Rabs (y - N * kTwoPi) <= (Rabs a + 8) / 16777216) by lra.
  assert (AY : -(839 / 100) <= a - y <= 21 / 10) by (clear - EY L AN; generalize dependent (N * kTwoPi); intros; rabs; lra).
  assert (EV : Rabs (v - (a - y)) <= 9 / 16777216) by (clear - RV AY; rabs; lra).
  assert (EZ : Rabs (z - v) <= 9 / 16777216) by (clear - RZ EV AY; rabs; lra).
  assert (BZ : -(84 / 10) <= z <= 22 / 10) by (clear - EV EZ AY; rabs; lra).
  rewrite pow2_m24.
  destruct (Rleb_spec z (- kPi)) as [C|C].
  - pose proof (RR (z + kTwoPi)) as RT.
    assert (T1 : rnd (z + kTwoPi) <= kPi) by (apply (rnd_le_fmt _ _ _ H); [apply kPi_single|consts; lra]).
    set (t := rnd (z + kTwoPi)) in *.
    assert (BT : Rabs (z + kTwoPi) <= 4) by (clear - BZ C; consts; rabs; lra).
    assert (ET : Rabs (t - (z + kTwoPi)) <= 9 / 16777216) by lra. split.
    + split; [unfold t; apply rnd_single|]. split; [|easy]. clear - ET BZ. consts. rabs; lra.
    + exists (- n)%Z. rewrite opp_IZR. unfold N in *.
      replace (t - (a + - IZR n * kTwoPi)) with
        ((t - (z + kTwoPi)) + ((z - v) + ((v - (a - y)) - (y - (IZR n + 1) * kTwoPi)))) by ring.
      eapply Rle_trans; [apply Rabs_triang|]. eapply Rle_trans; [apply Rplus_le_compat_l, Rabs_triang|].
      eapply Rle_trans; [apply Rplus_le_compat_l, Rplus_le_compat_l, Rabs_triang|]. rewrite Rabs_Ropp. lra.
  - split.
    + split; [unfold z; apply rnd_single|]. consts. lra.
    + exists (- n - 1)%Z. rewrite minus_IZR, opp_IZR. unfold N in *.
      replace (z - (a + (- IZR n - 1) * kTwoPi)) with
        ((z - v) + ((v - (a - y)) - (y - (IZR n + 1) * kTwoPi))) by ring.
      eapply Rle_trans; [apply Rabs_triang|].
      eapply Rle_trans; [apply Rplus_le_compat_l, Rabs_triang|]. rewrite Rabs_Ropp. lra.
Qed.
End S.

(** * Theorems *)
(** angle.h:62-63: no float lies strictly between -pi and kMinUniqueAngle, so that
    IsAngleInRange decides exactly the range (-pi, pi]. *)
Theorem C114_range : forall a, single a -> f_in_range a = true <-> - kPi < a <= kPi.
Proof. exact in_range_iff. Qed.
Print Assumptions C114_range.

(** FromWithinThreePi is exact: no rounding error, one turn more or less. *)
Theorem C114_three_pi : forall rnd a, rounds single rnd -> single a -> - kThreePi < a < kThreePi ->
  exists r k, f_from_within_three_pi rnd a = Some r /\ f_valid r /\ r = a + IZR k * kTwoPi.
Proof.
  intros rnd a H S A. destruct (mod_ok rnd H a S A) as (r & k & E & V & Q). exists r, k.
  unfold f_from_within_three_pi. rewrite E, (f_angle_ok _ (proj1 V) (proj2 V)). easy.
Qed.
Print Assumptions C114_three_pi.

(** No assert of the operators fails on valid angles; results are valid; the error is at
    most 2^-22, in negation and absolute value none. *)
Theorem C114_operators : forall rnd a b, rounds single rnd -> f_valid a -> f_valid b ->
  (exists r, f_add rnd a b = Some r /\ f_valid r /\ turns_within (pow2 (-22)) r (a + b)) /\
  (exists r, f_sub rnd a b = Some r /\ f_valid r /\ turns_within (pow2 (-22)) r (a - b)) /\
  (exists r, f_neg a = Some r /\ f_valid r /\ turns_within 0 r (- a)) /\
  f_abs a = Some (Rabs a) /\ f_valid (Rabs a).
Proof.
  intros rnd a b H A B. split; [now apply add_ok|]. split; [now apply sub_ok|]. split; [|now apply abs_ok].
  destruct (neg_ok a A) as (r & ? & ? & ? & _). now exists r.
Qed.
Print Assumptions C114_operators.

(** Clamp: [d] is the difference it computes, and what it returns. *)
Theorem C114_clamp : forall rnd a c m, rounds single rnd -> f_valid a -> f_valid c -> single m -> 0 <= m <= kPi ->
  exists d r, f_clamp rnd a c m = Some r /\ f_valid r /\
    f_valid d /\ turns_within (pow2 (-22)) d (a - c) /\
    turns_within (pow2 (-22)) r (c + Rmax (- m) (Rmin d m)) /\
    (Rabs d <= m -> turns_within (pow2 (-21)) r a).
Proof. intros. now apply clamp_ok. Qed.
Print Assumptions C114_clamp.

(** FromRadians and scaling work up to 2^24 radians. *)
Theorem C114_radians_partial : forall rnd wide x, rounds single rnd -> at_least_single wide ->
  single x -> Rabs x <= 16777216 ->
  exists r, f_from_radians rnd wide x = Some r /\ f_valid r /\ turns_within ((Rabs x + 40) * pow2 (-24)) r x.
Proof.
  intros rnd wide x H W S L. destruct (wrap_ok rnd H wide x W L S) as [V T].
  exists (f_wrap_angle rnd wide x). unfold f_from_radians. rewrite (f_angle_ok _ (proj1 V) (proj2 V)). easy.
Qed.
Print Assumptions C114_radians_partial.

Theorem C114_scale_partial : forall rnd wide a s, rounds single rnd -> at_least_single wide ->
  f_valid a -> single s -> Rabs (a * s) <= 16777216 ->
  let r := f_mul rnd wide a s in f_valid r /\ turns_within ((Rabs (a * s) + 42) * pow2 (-23)) r (a * s).
Proof.
  intros rnd wide a s H W A S L. unfold f_mul.
  pose proof (rel_of 24 (-149) rnd ltac:(lia) ltac:(lia) H (a * s)) as E. set (x := a * s) in *.
  assert (B : Rabs (rnd x) <= 16777216).
  { assert (Q : single 16777216) by (exists 1%Z, 24%Z; rewrite pow2_IZR by lia; (split; [cbn; lia|split; [lia|cbn; lra]])).
    assert (rnd x <= 16777216) by (apply (rnd_le_fmt _ _ _ H); [easy|revert L; rabs; lra]).
    assert (- (16777216) <= rnd x) by (apply (rnd_ge_fmt _ _ _ H); [now apply fmt_opp|revert L; rabs; lra]).
    rabs; lra. }
  destruct (wrap_ok rnd H wide (rnd x) W B (rnd_single rnd H x)) as [V [k K]]. split; [easy|]. exists k.
  set (r := f_wrap_angle _ _ _) in *.
  replace (r - (x + IZR k * kTwoPi)) with ((r - (rnd x + IZR k * kTwoPi)) + (rnd x - x)) by ring.
  eapply Rle_trans; [apply Rabs_triang|].
  assert (P23 : pow2 (-23) = 2 * pow2 (-24)) by (rewrite <- pow2_succ; f_equal).
  rewrite P23. rewrite pow2_m24 in *. assert (Rabs (rnd x) <= Rabs x + Rabs (rnd x - x)) by (rabs; lra).
  lra.
Qed.
Print Assumptions C114_scale_partial.

Lemma round_single_rounds : rounds single round_single.
Proof. apply round_even_rounds. lia. Qed.
Lemma round_double_rounds : rounds double round_double.
Proof. apply round_even_rounds. lia. Qed.

(** … but not for every float, although FromRadians promises so (angle.h:340-343):
    FromRadians(201326592.0f) fails the assert of the constructor, whether floor returns a
    float or a double. *)
Theorem C114_radians_refuted :
  single 201326592 /\
  f_from_radians round_single round_single 201326592 = None /\
  f_from_radians round_single round_double 201326592 = None.
Proof.
  assert (Q : round_single (201326592 / kTwoPi) = 32042122).
  { unfold round_single. rewrite (round_even_at 24 (-149) _ 25 16021061).
    - change (25 - 24)%Z with 1%Z. rewrite pow2_1. lra.
    - lia.
    - rewrite !pow2_IZR by lia. cbn. consts. rabs; lra.
    - left. change (25 - 24)%Z with 1%Z. change (1 - 1)%Z with 0%Z. rewrite pow2_1, pow2_0. consts. rabs; lra. }
  assert (FL : Rfloor 32042122 = 32042122%Z) by (apply Rfloor_unique; lra).
  assert (S9 : single (-9)) by (exists (-9)%Z, 0%Z; rewrite pow2_0; (split; [cbn; lia|split; [lia|lra]])).
  assert (S10 : single (-10)) by (exists (-10)%Z, 0%Z; rewrite pow2_0; (split; [cbn; lia|split; [lia|lra]])).
  assert (S16 : single (-16)) by (exists (-16)%Z, 0%Z; rewrite pow2_0; (split; [cbn; lia|split; [lia|lra]])).
  assert (S35 : single (-7 / 2)).
  { exists (-7)%Z, (-1)%Z. change (pow2 (-1)) with (pow2 (- (1))). rewrite pow2_inv, pow2_1. split; [cbn; lia|split; [lia|lra]]. }
  pose proof round_single_rounds as RS. pose proof round_double_rounds as RD.
  split; [|split].
  - exists 3%Z, 26%Z. rewrite pow2_IZR by lia. split; [cbn; lia|split; [lia|cbn; lra]].
  - unfold f_from_radians, f_wrap_angle. rewrite Q, FL.
    assert (N : round_single (32042122 + 1) = 32042124).
    { unfold round_single. rewrite (round_even_at 24 (-149) _ 25 16021062).
      - change (25 - 24)%Z with 1%Z. rewrite pow2_1. lra.
      - lia.
      - rewrite !pow2_IZR by lia. cbn. rabs; lra.
      - right. change (25 - 24)%Z with 1%Z. change (1 - 1)%Z with 0%Z. rewrite pow2_1, pow2_0.
        split; [rabs; lra|reflexivity]. }
    rewrite N.
    assert (Y : round_single (32042124 * kTwoPi) = 201326608).
    { unfold round_single. rewrite (round_even_at 24 (-149) _ 28 12582913).
      - change (28 - 24)%Z with 4%Z. rewrite pow2_IZR by lia. cbn. lra.
      - lia.
      - rewrite !pow2_IZR by lia. cbn. consts. rabs; lra.
      - left. change (28 - 24)%Z with 4%Z. rewrite !pow2_IZR by lia. cbn. consts. rabs; lra. }
    rewrite Y. replace (201326592 - 201326608) with (-16) by lra.
    rewrite !(rnd_id _ _ _ RS (-16)) by exact S16.
    rewrite (Rleb_t (-16)) by (consts; lra).
    assert (round_single (-16 + kTwoPi) <= -9) by (apply (rnd_le_fmt _ _ _ RS); [easy|consts; lra]).
    unfold f_angle, f_in_range. rewrite (Rleb_f kMinUniqueAngle) by (consts; lra). reflexivity.
  - unfold f_from_radians, f_wrap_angle. rewrite Q, FL.
    assert (N : round_double (32042122 + 1) = 32042123).
    { replace (32042122 + 1) with 32042123 by lra. apply (rnd_id _ _ _ RD).
      exists 32042123%Z, 0%Z. rewrite pow2_0. split; [cbn; lia|split; [lia|lra]]. }
    rewrite N.
    assert (Y : round_double (32042123 * kTwoPi) = 422212486135785 / 2097152).
    { replace (32042123 * kTwoPi) with (422212486135785 / 2097152) by (consts; lra). apply (rnd_id _ _ _ RD).
      exists 422212486135785%Z, (-21)%Z. rewrite pow2_m21. split; [cbn; lia|split; [lia|lra]]. }
    rewrite Y.
    assert (V : round_double (201326592 - 422212486135785 / 2097152) = - 21069801 / 2097152).
    { replace (201326592 - 422212486135785 / 2097152) with (- 21069801 / 2097152) by lra. apply (rnd_id _ _ _ RD).
      exists (- 21069801)%Z, (-21)%Z. rewrite pow2_m21. split; [cbn; lia|split; [lia|lra]]. }
    rewrite V.
    assert (Z1 : round_single (- 21069801 / 2097152) <= -10) by (apply (rnd_le_fmt _ _ _ RS); [easy|lra]).
    set (z := round_single (- 21069801 / 2097152)) in *.
    rewrite (Rleb_t z) by (consts; lra).
    assert (round_single (z + kTwoPi) <= -7 / 2) by (apply (rnd_le_fmt _ _ _ RS); [easy|consts; lra]).
    unfold f_angle, f_in_range. rewrite (Rleb_f kMinUniqueAngle) by (consts; lra). reflexivity.
Qed.
Print Assumptions C114_radians_refuted.

(** ToDegrees stays in [-180, 180] … *)
Theorem C114_degrees_partial : forall rnd a, rounds single rnd -> f_valid a -> -180 <= f_to_degrees rnd a <= 180.
Proof.
  intros rnd a H [S [A B]]. apply min_unique in A; [|easy]. unfold f_to_degrees.
  assert (S180 : single 180) by (exists 180%Z, 0%Z; rewrite pow2_0; (split; [cbn; lia|split; [lia|lra]])).
  assert (SM : single (-180)) by (replace (-180) with (- (180)) by lra; now apply fmt_opp).
  split.
  - apply (rnd_ge_fmt _ _ _ H); [easy|]. consts. lra.
  - eapply Rle_trans; [apply (rnd_mono _ _ _ H _ (kRadiansToDegrees * kPi)); consts; lra|].
    destruct (Rle_lt_dec (rnd (kRadiansToDegrees * kPi)) 180) as [|C]; [easy|exfalso].
    destruct (fmt_grid 24 (-149) _ 7 P24 (rnd_single rnd H (kRadiansToDegrees * kPi))) as [n E].
    { rewrite pow2_IZR by lia. cbn. rabs; lra. }
    change (7 + 1 - 24)%Z with (- (16))%Z in E. rewrite pow2_inv, pow2_IZR in E by lia. cbn in E. rewrite E in C.
    assert (11796480 < n)%Z by (apply lt_IZR; lra).
    assert (11796481 <= IZR n) by (apply IZR_le; lia).
    destruct (H (kRadiansToDegrees * kPi)) as [_ N]. specialize (N _ S180). rewrite E in N. revert N. consts. rabs; lra.
Qed.
Print Assumptions C114_degrees_partial.
(** … but isn't in (-180, 180] (angle.h:146): the smallest valid angle is -180 degrees. *)
Theorem C114_degrees_refuted : f_valid kMinUniqueAngle /\ f_to_degrees round_single kMinUniqueAngle = -180.
Proof.
  split; [split; [apply kMin_single|consts; lra]|].
  unfold f_to_degrees, round_single. rewrite (round_even_at 24 (-149) _ 8 (-11796480)).
  - change (8 - 24)%Z with (- (16))%Z. rewrite pow2_inv, pow2_IZR by lia. cbn. lra.
  - lia.
  - rewrite !pow2_IZR by lia. cbn. consts. rabs; lra.
  - left. change (8 - 24)%Z with (- (16))%Z. change (- (16) - 1)%Z with (- (17))%Z.
    rewrite !pow2_inv, !pow2_IZR by lia. cbn. consts. rabs; lra.
Qed.
Print Assumptions C114_degrees_refuted.

(** angle.h:505-506: "if no clamping happened, we're left with *this" — up to rounding
    only: clamping 2^-30 to half a circle around 1 gives 0. *)
Theorem C114_clamp_refuted : forall rnd, rounds single rnd ->
  let a := pow2 (-30) in f_valid a /\ f_valid 1 /\ f_clamp rnd a 1 kPi = Some 0.
Proof.
  intros rnd H a.
  assert (P30 : pow2 (-30) = / 1073741824).
  { change (-30)%Z with (- (30))%Z. rewrite pow2_inv, pow2_IZR by lia. reflexivity. }
  assert (PA : a = / 1073741824) by exact P30.
  assert (VA : f_valid a).
  { split; [exists 1%Z, (-30)%Z; split; [cbn; lia|split; [lia|unfold a; lra]]|]. rewrite PA. consts. lra. }
  assert (S1 : single 1) by (exists 1%Z, 0%Z; rewrite pow2_0; (split; [cbn; lia|split; [lia|lra]])).
  assert (SM : single (-1)) by (replace (-1) with (- (1)) by lra; now apply fmt_opp).
  split; [easy|]. split; [split; [easy|consts; lra]|]. clearbody a.
  assert (D : rnd (a - 1) = -1).
  { assert (L : -1 <= rnd (a - 1)) by (apply (rnd_ge_fmt _ _ _ H); [easy|rewrite PA; lra]).
    destruct (Req_dec (rnd (a - 1)) (-1)) as [|C]; [easy|exfalso].
    pose proof (rnd_err 24 (-149) P24 rnd H (a - 1) 0 ltac:(lia)) as E. rewrite pow2_0 in E.
    change (0 - 24 - 1)%Z with (- (25))%Z in E. rewrite pow2_inv, pow2_IZR in E by lia. cbn in E.
    assert (E1 : Rabs (rnd (a - 1) - (a - 1)) <= / 33554432) by (apply E; rewrite PA; rabs; lra).
    assert (B : rnd (a - 1) <= - (15 / 16)) by (revert E1; rewrite PA; rabs; lra).
    destruct (fmt_grid 24 (-149) _ (-1) P24 (rnd_single rnd H (a - 1))) as [n G].
    { change (-1)%Z with (- (1))%Z. rewrite pow2_inv, pow2_1. rabs; lra. }
    change (-1 + 1 - 24)%Z with (-24)%Z in G. rewrite pow2_m24 in G. rewrite G in *.
    assert (-16777216 <= n)%Z by (apply le_IZR; lra).
    assert (n <> -16777216)%Z by (intros ->; lra).
    assert (-16777215 <= IZR n) by (apply IZR_le; lia).
    destruct (H (a - 1)) as [_ N]. specialize (N _ SM). rewrite G in N. revert N. rewrite PA. rabs; lra. }
  assert (M1 : f_mod_within_three_pi rnd (-1) = Some (-1)).
  { unfold f_mod_within_three_pi. rewrite !Rltb_t by (consts; lra). cbn [andb].
    rewrite (Rltb_f (-1)) by (consts; lra). rewrite (Rltb_f kPi) by (consts; lra).
    unfold f_in_range. rewrite !Rleb_t by (consts; lra). reflexivity. }
  unfold f_clamp. rewrite (Rleb_t 0 kPi), (Rleb_t kPi kPi) by (consts; lra). cbn [andb].
  unfold f_sub. rewrite D, M1.
  replace (mclamp (-1) (- kPi) kPi) with (-1) by (unfold mclamp; minmax; consts; lra).
  rewrite (f_angle_ok (-1)) by (easy || (consts; lra)).
  unfold f_add. replace (1 + -1) with 0 by lra. rewrite (rnd_id _ _ _ H 0) by (apply fmt_0; lia).
  unfold f_mod_within_three_pi. rewrite !Rltb_t by (consts; lra). cbn [andb].
  rewrite (Rltb_f 0) by (consts; lra). rewrite (Rltb_f kPi) by (consts; lra).
  unfold f_in_range. rewrite !Rleb_t by (consts; lra). reflexivity.
Qed.
Print Assumptions C114_clamp_refuted.

(** The hypotheses can be met: IEEE's rounding, and angles at both ends of the range. *)
Example C114_case : rounds single round_single /\ at_least_single round_single /\ at_least_single round_double /\
  f_valid kPi /\ f_valid kMinUniqueAngle /\ - kThreePi < 8 < kThreePi /\ single 8.
Proof.
  split; [apply round_single_rounds|]. split; [exists 24%Z, (-149)%Z; split; [lia|split; [lia|apply round_single_rounds]]|].
  split; [exists 53%Z, (-1074)%Z; split; [lia|split; [lia|apply round_double_rounds]]|].
  split; [split; [apply kPi_single|consts; lra]|]. split; [split; [apply kMin_single|consts; lra]|].
  split; [consts; lra|]. exists 1%Z, 3%Z. rewrite pow2_3. split; [cbn; lia|split; [lia|lra]].
Qed.
(** Adding half a turn to half a turn gives no turn, in floats too. *)
Example C114_case_turn : forall rnd, rounds single rnd -> f_add rnd kPi kPi = Some 0.
Proof.
  intros rnd H. unfold f_add. replace (kPi + kPi) with kTwoPi by (consts; lra).
  rewrite (rnd_id _ _ _ H kTwoPi kTwoPi_single). unfold f_mod_within_three_pi.
  rewrite !(Rltb_t _ _) by (consts; lra). cbn [andb].
  rewrite (Rltb_f kTwoPi) by (consts; lra). rewrite (Rltb_t kPi) by (consts; lra).
  replace (kTwoPi - kTwoPi) with 0 by lra. rewrite (rnd_id _ _ _ H 0) by (apply fmt_0; lia).
  unfold f_in_range. rewrite !Rleb_t by (consts; lra). reflexivity.
Qed.
