(** The overshoot simulation in single precision (C117). *)
From Verif Require Import RBase RangeModel OvershootModel RoundModel RoundProofs RoundRangeModel RoundRangeProps RoundOvershootModel.

(** A simulation on the circle (-h, h], as `overshoot` angles use it: all parameters that
    matter are singles, frames are cut into pieces, and a piece moves by less than a whole
    turn: some single is between h + m, which no value and move pass, and 3h.  For moves of
    up to half a turn 2h is one ([half_turn]). *)
Definition circular (i : oinit) (h m : R) : Prop :=
  o_modular i = true /\ o_range i = Some (Rg (- h) h) /\ single h /\ 0 < h /\
  o_max_delta i = Some m /\ single m /\ 0 <= m /\ (exists far, single far /\ h + m <= far < 3 * h) /\
  single (o_max_velocity i) /\ 0 <= o_max_velocity i /\ (0 < o_max_delta_time i)%Z.
Definition on_circle (h x : R) : Prop := single x /\ - h < x <= h.
(** A state that respects the range and the speed limit. *)
Definition sound (h : R) (x : odata * R) : Prop :=
  on_circle h (snd x) /\ on_circle h (target_value (fst x)) /\ single (velocity (fst x)) /\
  Rabs (velocity (fst x)) <= o_max_velocity (init_of (fst x)).

Lemma clamp_between_single x m : single x -> single m -> single (clamp_between x (- m) m).
Proof. intros X M. assert (single (- m)) by now apply fmt_opp. unfold clamp_between. minmax; easy. Qed.
Lemma clamp_between_bounds x m : 0 <= m -> - m <= clamp_between x (- m) m <= m.
Proof. intros M. unfold clamp_between. minmax; lra. Qed.
Lemma half_turn h m : single h -> 0 < h -> m <= h -> exists far, single far /\ h + m <= far < 3 * h.
Proof. intros S P M. exists (2 * h). split; [replace (2 * h) with (h - - h) by lra; now apply sym_benign|lra]. Qed.
Lemma single_0 : single 0. Proof. apply fmt_0. lia. Qed.

Section S.
Variable rnd : R -> R.
Hypothesis H : rounds single rnd.
Variables h m : R.

Lemma normalize_ok d x : circular (init_of d) h m -> single x -> Rabs x < 3 * h ->
  exists r k, f_normalize_diff rnd d x = Some r /\ on_circle h r /\ r = x + IZR k * (2 * h).
Proof.
  intros (MO & RG & SH & H0 & _) X B. unfold f_normalize_diff. rewrite MO, RG. cbn [start_ end_].
  destruct (C115_symmetric rnd h x H SH H0 X) as (r & k & E & V & Q); [revert B; rabs; lra|].
  exists r, k. split; [easy|]. split; [|easy]. split; [|easy].
  unfold f_normalize in E. destruct (f_contains _ _ _); [|discriminate]. injection E as <-. apply (rnd_fmt _ _ _ H).
Qed.
Lemma rnd_within x far : single far -> Rabs x <= far -> Rabs (rnd x) <= far.
Proof.
  intros S B.
  assert (rnd x <= far) by (apply (rnd_le_fmt _ _ _ H); [easy|revert B; rabs; lra]).
  assert (- far <= rnd x) by (apply (rnd_ge_fmt _ _ _ H); [now apply fmt_opp|revert B; rabs; lra]).
  rabs; lra.
Qed.

(** One step: it snaps to the target and stops, or moves by at most [m] and whole turns. *)
Lemma step_ok dt x : circular (init_of (fst x)) h m -> sound h x ->
  exists x', f_step rnd dt x = Some x' /\ sound h x' /\
    init_of (fst x') = init_of (fst x) /\ target_value (fst x') = target_value (fst x) /\
    ((velocity (fst x') = 0 /\ snd x' = target_value (fst x)) \/
     exists delta k, Rabs delta <= m /\ snd x' = rnd (snd x + delta) + IZR k * (2 * h)).
Proof.
  destruct x as [[v t i] y]. cbn [fst snd init_of target_value velocity]. intros C (Y & T & SV & V).
  cbn [fst snd init_of target_value velocity] in *. pose proof C as (MO & RG & SH & H0 & MD & SM & M & (far & SF & FAR) & SX & MX & DT).
  assert (C' : forall w, circular (init_of (OData w t i)) h m) by (intros; exact C).
  unfold f_step, f_calculate_velocity. cbn [fst snd init_of target_value velocity].
  destruct (normalize_ok (OData v t i) (rnd (t - y)) (C' v) (rnd_fmt _ _ _ H _)) as (diff & kd & -> & D & _).
  { apply Rle_lt_trans with (2 * h); [|lra]. destruct Y as [_ Y], T as [_ T]. apply rnd_within; [|rabs; lra].
    replace (2 * h) with (h - - h) by lra; now apply sym_benign. }
  cbv zeta. set (un := rnd (v + _)).
  set (w := if at_target i diff (clamp_velocity i un) then 0 else clamp_velocity i un).
  assert (W : single w /\ Rabs w <= o_max_velocity i).
  { unfold w. destruct (at_target i diff _); [rewrite Rabs_R0; split; [apply single_0|easy]|].
    unfold clamp_velocity. split; [apply clamp_between_single; [apply (rnd_fmt _ _ _ H)|easy]|].
    pose proof (clamp_between_bounds un (o_max_velocity i) MX). rabs; lra. }
  clearbody w. unfold f_calculate_value. cbn [fst snd init_of target_value velocity].
  destruct (Reqb_spec w 0) as [->|NZ].
  - exists (OData 0 t i, t). split; [easy|]. cbn [fst snd init_of target_value velocity].
    split; [|split; [easy|split; [easy|left; easy]]].
    split; [easy|]. split; [easy|]. exact W.
  - unfold clamp_delta. rewrite MD. set (q := rnd (rnd (IZR dt) * w)).
    pose proof (clamp_between_bounds q m ltac:(lra)) as QB.
    set (delta := clamp_between q (- m) m) in *.
    destruct (normalize_ok (OData w t i) (rnd (y + delta)) (C' w) (rnd_fmt _ _ _ H _)) as (r & k & -> & RC & E).
    { apply Rle_lt_trans with far; [|lra]. destruct Y as [_ Y]. apply rnd_within; [easy|]. clear - Y QB FAR. rabs; lra. }
    assert (CR : clamp_range i r = r).
    { unfold clamp_range. rewrite RG. unfold clamp. cbn [start_ end_]. destruct RC as [_ RC]. minmax; lra. }
    rewrite CR. exists (OData w t i, r). split; [easy|]. cbn [fst snd init_of target_value velocity].
    split; [|split; [easy|split; [easy|right]]].
    + split; [easy|]. split; [easy|]. exact W.
    + exists delta, k. split; [rabs; lra|easy].
Qed.

Lemma index_ok fuel : forall t x, (Z.to_nat t <= fuel)%nat -> circular (init_of (fst x)) h m -> sound h x ->
  exists x', f_advance_index rnd fuel t x = Some x' /\ sound h x' /\
    init_of (fst x') = init_of (fst x) /\ target_value (fst x') = target_value (fst x).
Proof.
  induction fuel as [|fuel IH]; intros t x F C I; cbn [f_advance_index]; destruct (Z.ltb_spec 0 t) as [P|P].
  - lia.
  - now exists x.
  - cbv zeta. set (dt := Z.min t _). destruct (step_ok dt x C I) as (x1 & -> & I1 & E1 & T1 & _).
    assert (0 < o_max_delta_time (init_of (fst x)))%Z by apply C.
    destruct (IH (t - dt)%Z x1) as (x2 & -> & I2 & E2 & T2); [lia|now rewrite E1|easy|].
    exists x2. split; [easy|]. split; [easy|]. split; congruence.
  - now exists x.
Qed.
End S.

(** However long it runs: no assert fails, the value stays on the circle, the speed limit
    holds, and the target is kept. *)
Theorem C117_runs : forall rnd h m delta_times x, rounds single rnd -> circular (init_of (fst x)) h m -> sound h x ->
  exists x', f_frames rnd delta_times x = Some x' /\ sound h x' /\
    init_of (fst x') = init_of (fst x) /\ target_value (fst x') = target_value (fst x).
Proof.
  intros rnd h m delta_times x H. revert x. induction delta_times as [|t l IH]; intros x C I; cbn [f_frames].
  - now exists x.
  - destruct (index_ok rnd H h m (Z.to_nat t) t x ltac:(lia) C I) as (x1 & -> & I1 & E1 & T1).
    destruct (IH x1) as (x2 & -> & I2 & E2 & T2); [now rewrite E1|easy|].
    exists x2. split; [easy|]. split; [easy|]. split; congruence.
Qed.
Print Assumptions C117_runs.

(** Each step stops at the target or moves by at most max_delta, up to one rounding and
    whole turns. *)
Theorem C117_step : forall rnd h m dt x, rounds single rnd -> circular (init_of (fst x)) h m -> sound h x ->
  exists x', f_step rnd dt x = Some x' /\
    ((velocity (fst x') = 0 /\ snd x' = target_value (fst x)) \/
     exists delta k, Rabs delta <= m /\ snd x' = rnd (snd x + delta) + IZR k * (2 * h)).
Proof.
  intros rnd h m dt x H C I. destruct (step_ok rnd H h m dt x C I) as (x' & E & _ & _ & _ & D). now exists x'.
Qed.
Print Assumptions C117_step.

(** At rest on its target it stays there: rounding adds no drift. *)
Lemma rest_step rnd h m dt x : rounds single rnd -> circular (init_of (fst x)) h m -> sound h x ->
  velocity (fst x) = 0 -> snd x = target_value (fst x) -> f_step rnd dt x = Some x.
Proof.
  intros H C I V0 Y0. destruct x as [[v t i] y]. cbn [fst snd velocity target_value init_of] in *. subst v y.
  pose proof C as (MO & RG & SH & H0 & MD & SM & M & (far & SF & FAR) & SX & MX & DT). pose proof single_0 as S0.
  unfold f_step, f_calculate_velocity. cbn [fst snd init_of target_value velocity].
  replace (t - t) with 0 by lra. rewrite (rnd_id _ _ _ H 0 S0).
  assert (N : f_normalize_diff rnd (OData 0 t i) 0 = Some 0).
  { unfold f_normalize_diff. cbn [init_of]. rewrite MO, RG. cbn [start_ end_]. unfold f_normalize, f_adjustment.
    rewrite (Rleb_f 0 (- h)), (Rltb_f h 0) by lra. rewrite Rplus_0_l, (rnd_id _ _ _ H 0 S0).
    unfold f_contains. rewrite (Rltb_t (- h) 0), (Rleb_t 0 h) by lra. reflexivity. }
  rewrite N. cbv zeta. rewrite !Rmult_0_l, !(rnd_id _ _ _ H 0 S0), !Rmult_0_l, !(rnd_id _ _ _ H 0 S0), Rmult_0_r, Rplus_0_l, !(rnd_id _ _ _ H 0 S0).
  replace (clamp_velocity i 0) with 0 by (unfold clamp_velocity, clamp_between; minmax; lra).
  destruct (at_target i 0 0); unfold f_calculate_value; cbn [velocity target_value]; rewrite (Reqb_t 0 0) by easy; reflexivity.
Qed.
Theorem C117_rests : forall rnd h m delta_times x, rounds single rnd -> circular (init_of (fst x)) h m -> sound h x ->
  velocity (fst x) = 0 -> snd x = target_value (fst x) -> f_frames rnd delta_times x = Some x.
Proof.
  intros rnd h m delta_times x H C I V Y. induction delta_times as [|t l IH]; [easy|]. cbn [f_frames].
  assert (A : forall fuel t, (Z.to_nat t <= fuel)%nat -> f_advance_index rnd fuel t x = Some x).
  { assert (D : (0 < o_max_delta_time (init_of (fst x)))%Z) by apply C. clear IH.
    induction fuel as [|fuel IH]; intros u F; cbn [f_advance_index]; destruct (Z.ltb_spec 0 u); [lia|easy| |easy].
    cbv zeta. rewrite (rest_step rnd h m _ x H C I V Y). apply IH. lia. }
  now rewrite A.
Qed.
Print Assumptions C117_rests.

(** A range that is not modular clamps: whatever the rounding, no frame fails, the value
    stays in it and the speed limit holds. *)
Definition clamped (i : oinit) (r : range) (m : R) : Prop :=
  o_modular i = false /\ o_range i = Some r /\ start_ r <= end_ r /\ o_max_delta i = Some m /\
  0 <= o_max_velocity i /\ (0 < o_max_delta_time i)%Z.
Definition inside (r : range) (x : odata * R) : Prop :=
  start_ r <= snd x <= end_ r /\ start_ r <= target_value (fst x) <= end_ r /\
  Rabs (velocity (fst x)) <= o_max_velocity (init_of (fst x)).
Lemma clamped_step rnd r m dt x : clamped (init_of (fst x)) r m -> inside r x ->
  exists x', f_step rnd dt x = Some x' /\ inside r x' /\
    init_of (fst x') = init_of (fst x) /\ target_value (fst x') = target_value (fst x).
Proof.
  destruct x as [[v t i] y]. unfold inside. cbn [fst snd init_of target_value velocity].
  intros (MO & RG & SE & MD & MX & DT) (Y & T & V).
  unfold f_step, f_calculate_velocity, f_normalize_diff. cbn [fst snd init_of target_value velocity]. rewrite MO. cbv zeta.
  set (un := rnd (v + _)).
  match goal with |- context [if at_target i ?a ?b then 0 else ?b] => set (w := if at_target i a b then 0 else b) end.
  assert (W : Rabs w <= o_max_velocity i).
  { unfold w. destruct (at_target i _ _); [rewrite Rabs_R0; easy|]. unfold clamp_velocity.
    pose proof (clamp_between_bounds un (o_max_velocity i) MX). rabs; lra. }
  clearbody w. unfold f_calculate_value. cbn [fst snd init_of target_value velocity].
  destruct (Reqb_spec w 0) as [->|NZ]; [now exists (OData 0 t i, t)|].
  unfold clamp_delta, f_normalize_diff. rewrite MD. cbn [init_of]. rewrite MO.
  eexists. split; [reflexivity|]. cbn [fst snd init_of target_value velocity].
  split; [|easy]. split; [|easy]. unfold clamp_range. rewrite RG. unfold clamp. minmax; lra.
Qed.
Lemma clamped_index rnd r m fuel : forall t x, (Z.to_nat t <= fuel)%nat -> clamped (init_of (fst x)) r m -> inside r x ->
  exists x', f_advance_index rnd fuel t x = Some x' /\ inside r x' /\
    init_of (fst x') = init_of (fst x) /\ target_value (fst x') = target_value (fst x).
Proof.
  induction fuel as [|fuel IH]; intros t x F C I; cbn [f_advance_index]; destruct (Z.ltb_spec 0 t) as [P|P].
  - lia.
  - now exists x.
  - cbv zeta. set (dt := Z.min t _). destruct (clamped_step rnd r m dt x C I) as (x1 & -> & I1 & E1 & T1).
    assert (0 < o_max_delta_time (init_of (fst x)))%Z by apply C.
    destruct (IH (t - dt)%Z x1) as (x2 & -> & I2 & E2 & T2); [lia|now rewrite E1|easy|].
    exists x2. split; [easy|]. split; [easy|]. split; congruence.
  - now exists x.
Qed.
Theorem C117_clamped : forall rnd r m delta_times x, clamped (init_of (fst x)) r m -> inside r x ->
  exists x', f_frames rnd delta_times x = Some x' /\ inside r x' /\
    init_of (fst x') = init_of (fst x) /\ target_value (fst x') = target_value (fst x).
Proof.
  intros rnd r m delta_times x. revert x. induction delta_times as [|t l IH]; intros x C I; cbn [f_frames].
  - now exists x.
  - destruct (clamped_index rnd r m (Z.to_nat t) t x ltac:(lia) C I) as (x1 & -> & I1 & E1 & T1).
    destruct (IH x1) as (x2 & -> & I2 & E2 & T2); [now rewrite E1|easy|].
    exists x2. split; [easy|]. split; [easy|]. split; congruence.
Qed.
Print Assumptions C117_clamped.

(** Setting a target or a value on the circle (SetTargets) keeps the hypotheses. *)
Theorem C117_set_targets : forall h nodes x x', set_target_index nodes x = Some x' -> sound h x ->
  Forall (fun n => on_circle h (fst (fst n)) /\ single (snd (fst n)) /\ Rabs (snd (fst n)) <= o_max_velocity (init_of (fst x))) nodes ->
  sound h x' /\ init_of (fst x') = init_of (fst x).
Proof.
  intros h nodes [[v t i] y] x' E I F. destruct nodes as [|[[w vel] time] rest]; [discriminate|]. cbn [set_target_index fst snd velocity target_value init_of] in *.
  injection E as <-. inversion F as [|? ? [F1 [F2 F3]] F4]; subst. cbn [fst snd] in *. destruct I as (I1 & I2 & I3 & I4). cbn [fst snd velocity target_value init_of] in *.
  destruct (time =? 0)%Z.
  - destruct rest as [|[[w' vel'] time'] rest]; cbn [fst snd velocity target_value init_of].
    + split; [|easy]. repeat split; cbn; try easy; apply F1 || apply I2.
    + inversion F4 as [|? ? [G1 _] _]; subst. cbn [fst snd] in *. split; [|easy]. repeat split; cbn; try easy; apply F1 || apply G1.
  - split; [|easy]. repeat split; cbn; try easy; apply F1 || apply I1.
Qed.
Print Assumptions C117_set_targets.

(** A move of a whole turn is too much, although with exact arithmetic it is not: next to
    -1 the sum with -2 rounds to -3, Normalize maps it to -1, which the range excludes, and
    its assert fails. *)
Definition turn_init : oinit := OInit (Some (Rg (-1) 1)) true 2 (Some 2) (SettledAt 0 0) 0 0 1.
Definition turn_state : odata * R := (OData (-2) (1 / 2) turn_init, -1 + pow2 (-24)).
Lemma single_int n : (Z.abs n <= 2 ^ 24)%Z -> single (IZR n).
Proof. intros N. rewrite <- (Rmult_1_r (IZR n)), <- pow2_0. apply fmt_grid_in; [lia|lia|lia]. Qed.
Lemma turn_value : single (-1 + pow2 (-24)).
Proof.
  replace (-1 + pow2 (-24)) with (IZR (1 - 2 ^ 24) * pow2 (-24)); [apply fmt_grid_in; [lia|lia|lia]|].
  rewrite minus_IZR, <- (pow2_IZR 24) by lia. rewrite Rmult_minus_distr_r, <- pow2_add. change (24 + -24)%Z with 0%Z. rewrite pow2_0. lra.
Qed.
Lemma pow2_half : pow2 (-1) = / 2.
Proof. change (-1)%Z with (- (1))%Z. rewrite pow2_inv, pow2_1. reflexivity. Qed.
Lemma half_single : single (1 / 2).
Proof. replace (1 / 2) with (IZR 1 * pow2 (-1)); [apply fmt_grid_in; lia|]. rewrite pow2_half. lra. Qed.
Theorem C117_whole_turn_fails : forall rnd, rounds single rnd ->
  sound 1 turn_state /\ (exists x, step 1 turn_state = Some x) /\ f_frames rnd [1%Z] turn_state = None.
Proof.
  intros rnd H. pose proof (pow2_pos (-24)) as P. assert (Q : pow2 (-24) < 1 / 8).
  { apply Rle_lt_trans with (pow2 (-4)); [apply pow2_le; lia|]. change (-4)%Z with (- (4))%Z. rewrite pow2_inv, (pow2_IZR 4) by lia. change (2 ^ 4)%Z with 16%Z. lra. }
  pose proof turn_value as TV. pose proof half_single as HS. pose proof single_0 as S0.
  assert (S1 : single 1) by (apply (single_int 1); lia).
  assert (S2 : single (-2)) by (apply (single_int (-2)); lia).
  assert (E3 : rnd (-1 + pow2 (-24) + -2) = -3).
  { rewrite (rnd_at 24 (-149) P24 rnd H _ 2 (-3 * 2 ^ 22)).
    - change (2 - 24)%Z with (-22)%Z. rewrite mult_IZR, <- pow2_IZR, Rmult_assoc, <- pow2_add by lia. change (22 + -22)%Z with 0%Z. rewrite pow2_0. lra.
    - change (2 - 1)%Z with 1%Z. rewrite (pow2_IZR 2), pow2_1 by lia. change (2 ^ 2)%Z with 4%Z. rabs; lra.
    - lia.
    - change (2 - 24)%Z with (-22)%Z. rewrite mult_IZR, <- pow2_IZR, Rmult_assoc, <- pow2_add by lia. change (22 + -22)%Z with 0%Z. rewrite pow2_0.
      change (-22 - 1)%Z with (-24 + 1)%Z. rewrite pow2_succ. rabs; lra. }
  set (e := pow2 (-24)) in *. unfold turn_state. fold e.
  assert (D : exists r, f_normalize rnd (-1) 1 (rnd (1 / 2 - (-1 + e))) = Some r /\ r <> 0).
  { set (x := rnd (1 / 2 - (-1 + e))). assert (X : 1 <= x <= 3 / 2).
    { split; [apply (rnd_ge_fmt _ _ _ H); [easy|lra]|]. apply (rnd_le_fmt _ _ _ H); [|lra].
      replace (3 / 2) with (IZR 3 * pow2 (-1)) by (rewrite pow2_half; lra). apply fmt_grid_in; lia. }
    destruct (C115_symmetric rnd 1 x H S1 ltac:(lra) (rnd_fmt _ _ _ H _) ltac:(lra)) as (r & k & E & V & K).
    change (- (1)) with (-1) in E. exists r. split; [easy|]. intros ->. 
    assert (k = -1)%Z as ->; [|lra].
    assert (-1 < IZR k + 1 < 1) as [B1 B2] by lra. rewrite <- plus_IZR in B1, B2. apply lt_IZR in B1, B2. lia. }
  assert (CV : clamp_velocity turn_init (-2) = -2) by (unfold clamp_velocity, clamp_between; cbn; minmax; lra).
  assert (AT : forall r, r <> 0 -> at_target turn_init r (-2) = false).
  { intros r NZ. unfold at_target, is_settled. cbn. rewrite (Rleb_f (Rabs r) 0); [easy|]. apply Rabs_pos_lt in NZ. lra. }
  split; [|split].
  - repeat split; cbn [fst snd velocity target_value init_of turn_init o_max_velocity]; try easy; try lra. rewrite Rabs_left; lra.
  - unfold step, calculate_velocity, normalize_diff, normalize_range. cbn [fst snd init_of target_value velocity turn_init o_modular o_range].
    unfold normalize, modular_adjustment, contains_excl_start, length_. cbn [start_ end_].
    rewrite (Rleb_f (1 / 2 - (-1 + e)) (-1)), (Rltb_t 1 (1 / 2 - (-1 + e))) by lra.
    rewrite Rltb_t, Rleb_t by lra. cbn [andb]. cbv zeta. fold turn_init.
    replace (o_accel_per_difference turn_init) with 0 by reflexivity. rewrite Rmult_0_r, Rmult_0_l, Rmult_0_r, Rplus_0_r, CV, AT by lra.
    unfold calculate_value. cbn [velocity init_of target_value]. rewrite Reqb_f by lra.
    unfold clamp_delta. cbn [turn_init o_max_delta]. replace (clamp_between (1 * -2) (- (2)) 2) with (-2) by (unfold clamp_between; minmax; lra).
    unfold normalize_diff, normalize_range. cbn [fst snd init_of target_value velocity turn_init o_modular o_range].
    unfold normalize, modular_adjustment, contains_excl_start, length_. cbn [start_ end_].
    rewrite (Rleb_t (-1 + e + -2) (-1)), Rltb_t, Rleb_t by lra. cbn [andb]. eexists. reflexivity.
  - destruct D as (r & D & NZ). enough (SN : f_step rnd 1 (OData (-2) (1 / 2) turn_init, -1 + e) = None).
    { unfold f_frames. change (Z.to_nat 1) with 1%nat. cbn [f_advance_index fst init_of turn_init o_max_delta_time].
      change (0 <? 1)%Z with true. change (Z.min 1 1) with 1%Z. cbv iota zeta. fold turn_init. rewrite SN. reflexivity. }
    unfold f_step, f_calculate_velocity, f_normalize_diff.
    cbn [fst snd init_of target_value velocity turn_init o_modular o_range start_ end_]. rewrite D. cbv zeta. fold turn_init.
    replace (o_accel_per_difference turn_init) with 0 by reflexivity.
    rewrite Rmult_0_r, !(rnd_id _ _ _ H 0 S0), Rmult_0_l, !(rnd_id _ _ _ H 0 S0), Rmult_0_r, !(rnd_id _ _ _ H 0 S0), Rplus_0_r, (rnd_id _ _ _ H _ S2), CV, AT by easy.
    unfold f_calculate_value. cbn [velocity init_of target_value]. rewrite Reqb_f by lra.
    unfold clamp_delta. cbn [turn_init o_max_delta]. rewrite (rnd_id _ _ _ H _ S1), Rmult_1_l, (rnd_id _ _ _ H _ S2).
    replace (clamp_between (-2) (- (2)) 2) with (-2) by (unfold clamp_between; minmax; lra).
    unfold f_normalize_diff. cbn [fst snd init_of target_value velocity turn_init o_modular o_range start_ end_]. rewrite E3.
    unfold f_normalize, f_adjustment, f_length. rewrite (Rleb_t (-3) (-1)) by lra.
    replace (1 - -1) with (IZR 2) by lra. rewrite (rnd_id _ _ _ H 2 (single_int 2 ltac:(lia))).
    replace (-3 + 2) with (IZR (-1)) by lra. rewrite (rnd_id _ _ _ H (-1) (single_int (-1) ltac:(lia))).
    unfold f_contains. rewrite Rltb_f by lra. reflexivity.
Qed.
Print Assumptions C117_whole_turn_fails.

(** A simulation between the hypotheses: on (-1, 1], moving by up to half a turn. *)
Definition case_init : oinit := OInit (Some (Rg (- (1)) 1)) true 2 (Some 1) (SettledAt (1 / 2) 1) 1 2 10.
Example C117_case : circular case_init 1 1 /\ sound 1 (OData 2 (1 / 2) case_init, - (1 / 2)).
Proof.
  assert (S1 : single 1) by (apply (single_int 1); lia). assert (S2 : single 2) by (apply (single_int 2); lia).
  pose proof half_single as HS. split.
  - repeat split; cbn; try easy; try lra; try lia. apply half_turn; [easy|lra|lra].
  - repeat split; cbn; try easy; try lra; [now apply fmt_opp|]. rabs; lra.
Qed.
(** Setting a target on the circle from there. *)
Example C117_case_target : exists x', set_target_index [(-1 / 2, 0, 5%Z)] (OData 2 (1 / 2) case_init, - (1 / 2)) = Some x' /\ target_value (fst x') = -1 / 2.
Proof. eexists. split; [reflexivity|reflexivity]. Qed.
Example C117_case_clamped : clamped (OInit (Some (Rg 0 10)) false 2 (Some 3) (SettledAt (1 / 2) 1) 1 2 10) (Rg 0 10) 3 /\
  inside (Rg 0 10) (OData 1 7 (OInit (Some (Rg 0 10)) false 2 (Some 3) (SettledAt (1 / 2) 1) 1 2 10), 2).
Proof. unfold clamped, inside. cbn. repeat split; try easy; try lra; try lia. rabs; lra. Qed.
