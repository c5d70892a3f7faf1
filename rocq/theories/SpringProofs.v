From Verif Require Import RBase RangeModel RangeProofs FloatModel CurveModel CurveUtilModel.
From Coq Require Import Lia.

(** Internal value and slope of one portion of the spring curve. *)
Definition portion_value (c : context) (x : R) : R := peak c + coeff c * (x - peak_x c) * (x - peak_x c).
Definition portion_slope (c : context) (x : R) : R := 2 * coeff c * (x - peak_x c).

(** Two portions meet: the second starts where the first ends, with the same value
    and slope. *)
Definition joined (c c' : context) : Prop :=
  valid_end c = Some (valid_start c') /\
  portion_value c (valid_start c') = portion_value c' (valid_start c') /\
  portion_slope c (valid_start c') = portion_slope c' (valid_start c').

(** A portion bends towards the target and ends at its peak or at the target. *)
Definition bends_to_target (c : context) : Prop :=
  coeff c * peak c < 0 /\
  exists e, valid_end c = Some e /\ (peak_x c = e \/ (peak_x c < e /\ portion_value c e = 0)).

Definition at_peak (c : context) : Prop := valid_end c = Some (peak_x c).

Lemma sq_opp_div p k : k * p < 0 -> 0 < - p / k.
Proof.
  intros H. assert (k <> 0) by nra. assert (p <> 0) by nra.
  replace (- p / k) with (- (k * p) * / (k * k)) by (field; assumption).
  apply Rmult_lt_0_compat; [lra|]. apply Rinv_0_lt_compat. nra.
Qed.
Lemma sqrt_unique x y : 0 <= x -> x * x = y -> sqrt y = x.
Proof. intros H <-. now rewrite sqrt_square. Qed.

Lemma next_ok s c : 0 < bias_ s -> bends_to_target c ->
  exists c', next_context s c = Some c' /\ bends_to_target c' /\ joined c c' /\
    (exists e, valid_end c' = Some e /\ valid_start c' < e) /\
    ((at_peak c /\ peak c' = peak c /\ ~ at_peak c' /\ coeff c' = coeff c * bias_ s /\ peak_x c' = peak_x c) \/
     (~ at_peak c /\ peak c' = - bias_ s * peak c /\ at_peak c' /\ coeff c' = - coeff c / bias_ s)).
Proof.
  intros Hb (N & e & Ee & HE). unfold next_context. rewrite Ee.
  assert (K : coeff c <> 0) by nra. assert (PK : peak c <> 0) by nra.
  destruct (Reqb_spec (peak_x c) e) as [E|E].
  - cbn [orb]. assert (N' : coeff c * bias_ s * peak c < 0) by nra.
    rewrite Reqb_f by nra. cbn [negb]. pose proof (sq_opp_div _ _ N') as W. rewrite Rleb_t by lra.
    set (w := sqrt _). assert (WP : 0 < w) by (now apply sqrt_lt_R0). assert (WW : w * w = - peak c / (coeff c * bias_ s)) by (apply sqrt_sqrt; lra).
    eexists. split; [reflexivity|]. unfold bends_to_target, joined, at_peak, portion_value, portion_slope. cbn [coeff peak peak_x valid_start valid_end].
    split; [|split; [|split]].
    + split; [assumption|]. exists (e + w). split; [reflexivity|]. right. split; [lra|]. rewrite E. replace (e + w - e) with w by ring.
      rewrite Rmult_assoc, WW. field. split; [lra|assumption].
    + rewrite E. split; [assumption|]. split; ring.
    + exists (e + w). split; [reflexivity|lra].
    + left. rewrite E. split; [assumption|]. split; [reflexivity|]. split; [|split; reflexivity]. intros [= Q]. lra.
  - destruct HE as [HE|[HE V]]; [congruence|]. cbn [orb]. rewrite Reqb_f by lra. cbn [negb].
    assert (N' : - coeff c / bias_ s * (- peak c * bias_ s) < 0) by (replace (- coeff c / bias_ s * (- peak c * bias_ s)) with (coeff c * peak c) by (field; lra); assumption).
    rewrite Reqb_f by (intros Q; rewrite Q, Rmult_0_l in N'; lra). cbn [negb]. pose proof (sq_opp_div _ _ N') as W. rewrite Rleb_t by lra.
    unfold portion_value in V.
    assert (EW : sqrt (- (- peak c * bias_ s) / (- coeff c / bias_ s)) = bias_ s * (e - peak_x c)).
    { apply sqrt_unique; [apply Rmult_le_pos; lra|]. assert (EP : peak c = - coeff c * (e - peak_x c) * (e - peak_x c)) by lra. rewrite EP. field. split; lra. }
    rewrite EW. set (w := bias_ s * (e - peak_x c)) in *. assert (WP : 0 < w) by (unfold w; apply Rmult_lt_0_compat; lra).
    eexists. split; [reflexivity|]. unfold bends_to_target, joined, at_peak, portion_value, portion_slope. cbn [coeff peak peak_x valid_start valid_end].
    split; [|split; [|split]].
    + split; [assumption|]. exists (e + w). split; [reflexivity|]. now left.
    + split; [assumption|]. split.
      * rewrite V. assert (EP : peak c = - coeff c * (e - peak_x c) * (e - peak_x c)) by lra. rewrite EP. unfold w. field. lra.
      * unfold w. field. lra.
    + exists (e + w). split; [reflexivity|lra].
    + right. split; [|split; [ring|split; reflexivity]]. rewrite Ee. intros [= Q]. congruence.
Qed.

(** Any number of steps. *)
Fixpoint step_n (s : spring) (n : nat) (c : context) : option context :=
  match n with O => Some c | S n' => c' <- step_n s n' c ;; next_context s c' end.

Lemma step_n_ok s c n : 0 < bias_ s -> bends_to_target c -> exists c', step_n s n c = Some c' /\ bends_to_target c'.
Proof.
  intros Hb B. induction n as [|n (c' & E & B')]; [now exists c|]. cbn [step_n]. rewrite E.
  destruct (next_ok s c' Hb B') as (c'' & E' & B'' & _). now exists c''.
Qed.

Lemma step_two s c : 0 < bias_ s -> bends_to_target c ->
  exists c1 c2, next_context s c = Some c1 /\ next_context s c1 = Some c2 /\ bends_to_target c2 /\ peak c2 = - bias_ s * peak c.
Proof.
  intros Hb B. destruct (next_ok s c Hb B) as (c1 & E1 & B1 & _ & _ & D1).
  destruct (next_ok s c1 Hb B1) as (c2 & E2 & B2 & _ & _ & D2). exists c1, c2. repeat (split; [assumption|]).
  destruct D1 as [(A1 & P1 & NA & _)|(A1 & P1 & NA & _)], D2 as [(A2 & P2 & _)|(A2 & P2 & _)]; try contradiction; rewrite P2, P1; ring.
Qed.
Lemma step_n_peaks s c n : 0 < bias_ s -> bends_to_target c ->
  exists c', step_n s (2 * n) c = Some c' /\ bends_to_target c' /\ peak c' = (- bias_ s) ^ n * peak c.
Proof.
  intros Hb B. induction n as [|n (c' & E & B' & P)]; [exists c; cbn; split; [reflexivity|]; split; [assumption|ring]|].
  destruct (step_two s c' Hb B') as (c1 & c2 & E1 & E2 & B2 & P2).
  replace (2 * S n)%nat with (S (S (2 * n))) by lia. cbn [step_n]. rewrite E, E1. exists c2. split; [assumption|]. split; [assumption|].
  rewrite P2, P. cbn [pow]. ring.
Qed.

(** ** The family of portions *)
(** A damped or growing spring away from its target. *)
Definition alive (s : spring) : Prop :=
  0 < bias_ s /\ bias_ s <> 1 /\ sqrt_b s = sqrt (bias_ s) /\ start_away_coeff s * start_peak s < 0 /\
  r_ s = sqrt (- start_peak s / start_away_coeff s) * (1 + bias_ s) / (sqrt_b s - bias_ s).

Definition width (s : spring) : R := sqrt (- start_peak s / start_away_coeff s).
Definition sign (n : Z) : R := if Z.even n then 1 else -1.
Definition peak_pos (s : spring) (n : Z) : R := r_ s * (1 - powerRZ (sqrt_b s) n).
Definition zero_pos (s : spring) (n : Z) : R := peak_pos s n + powerRZ (sqrt_b s) n * (width s / sqrt_b s).
Definition toward_portion (s : spring) (n : Z) : context :=
  Ctx (sign n * (start_away_coeff s * bias_ s)) (sign n * (start_peak s * powerRZ (bias_ s) n)) (peak_pos s n) (peak_pos s n) (Some (zero_pos s n)).
Definition away_portion (s : spring) (n : Z) : context :=
  Ctx (sign (n + 1) * start_away_coeff s) (sign (n + 1) * (start_peak s * powerRZ (bias_ s) (n + 1))) (peak_pos s (n + 1)) (zero_pos s n) (Some (peak_pos s (n + 1))).

Section Alive.
Variable s : spring.
Hypothesis A : alive s.
Let b := bias_ s.
Let S := sqrt_b s.
Let d := width s.

Lemma b_pos : 0 < b. Proof. apply A. Qed.
Lemma S_pos : 0 < S. Proof. destruct A as (H & _ & E & _). unfold S. rewrite E. now apply sqrt_lt_R0. Qed.
Lemma SS : S * S = b. Proof. destruct A as (H & _ & E & _). unfold S. rewrite E. apply sqrt_sqrt. unfold b. lra. Qed.
Lemma S_ne1 : S <> 1. Proof. intros E. pose proof SS as Q. rewrite E in Q. destruct A as (_ & N & _). unfold b in Q. lra. Qed.
Lemma d_pos : 0 < d. Proof. apply sqrt_lt_R0. apply sq_opp_div. apply A. Qed.
Lemma dd : d * d * start_away_coeff s = - start_peak s.
Proof.
  assert (H : start_away_coeff s * start_peak s < 0) by apply A. unfold d, width. rewrite sqrt_sqrt by (pose proof (sq_opp_div _ _ H); lra).
  field. nra.
Qed.
Lemma S_pow n : 0 < powerRZ S n. Proof. apply powerRZ_lt, S_pos. Qed.
Lemma S_pow_succ n : powerRZ S (n + 1) = powerRZ S n * S.
Proof. pose proof S_pos. rewrite powerRZ_add by lra. now rewrite powerRZ_1. Qed.
Lemma b_pow n : powerRZ b n = powerRZ S n * powerRZ S n.
Proof. pose proof S_pos. rewrite <- SS. apply powerRZ_mult. Qed.
Lemma r_eq : r_ s = d * (1 + b) / (S * (1 - S)).
Proof. destruct A as (_ & _ & _ & _ & E). rewrite E. fold b S. fold (width s). fold d. rewrite <- SS. f_equal. ring. Qed.
Lemma r_ne : r_ s <> 0.
Proof.
  rewrite r_eq. pose proof d_pos. pose proof b_pos. pose proof S_pos. pose proof S_ne1.
  intros E. apply (Rmult_eq_compat_r (S * (1 - S))) in E. unfold Rdiv in E. rewrite Rmult_assoc, Rinv_l in E by nra. nra.
Qed.
Lemma peak_pos_succ n : peak_pos s (n + 1) = zero_pos s n + powerRZ S n * (d * S).
Proof.
  pose proof S_pos. pose proof S_ne1. unfold zero_pos, peak_pos. fold S d. rewrite S_pow_succ, r_eq, <- SS. field. split; lra.
Qed.
Lemma sign_succ n : sign (n + 1) = - sign n.
Proof. unfold sign. rewrite Z.even_add. cbn. destruct (Z.even n); cbn; ring. Qed.
Lemma sign_sq n : sign n * sign n = 1.
Proof. unfold sign. destruct (Z.even n); ring. Qed.
Lemma zero_gt n : peak_pos s n < zero_pos s n < peak_pos s (n + 1).
Proof.
  rewrite peak_pos_succ. unfold zero_pos. fold S d. pose proof (S_pow n). pose proof S_pos. pose proof d_pos.
  assert (0 < d / S) by now apply Rdiv_lt_0_compat. assert (0 < powerRZ S n * (d / S)) by now apply Rmult_lt_0_compat.
  assert (0 < powerRZ S n * (d * S)) by (apply Rmult_lt_0_compat; [assumption|now apply Rmult_lt_0_compat]). lra.
Qed.

Lemma toward_bends n : bends_to_target (toward_portion s n).
Proof.
  pose proof (zero_gt n) as Z. pose proof (sign_sq n) as Q. pose proof b_pos as B. pose proof S_pos as SP.
  assert (HA : start_away_coeff s * start_peak s < 0) by apply A.
  split; cbn [coeff peak peak_x valid_end toward_portion].
  - replace (sign n * (start_away_coeff s * bias_ s) * (sign n * (start_peak s * powerRZ (bias_ s) n)))
      with (sign n * sign n * (bias_ s * powerRZ (bias_ s) n) * (start_away_coeff s * start_peak s)) by ring.
    rewrite Q. assert (0 < b * powerRZ b n) by (apply Rmult_lt_0_compat; [assumption|now apply powerRZ_lt]). unfold b in *. nra.
  - exists (zero_pos s n). split; [reflexivity|]. right. split; [lra|]. unfold portion_value. cbn [coeff peak peak_x toward_portion].
    unfold zero_pos. fold S d b. rewrite b_pow. replace (peak_pos s n + powerRZ S n * (d / S) - peak_pos s n) with (powerRZ S n * (d / S)) by ring.
    transitivity (sign n * (powerRZ S n * powerRZ S n) * (start_peak s + d * d * start_away_coeff s * (b / (S * S)))); [field; lra|].
    rewrite SS, dd. field. lra.
Qed.
Lemma away_bends n : bends_to_target (away_portion s n).
Proof.
  pose proof (sign_sq (n + 1)) as Q. pose proof b_pos as B.
  assert (HA : start_away_coeff s * start_peak s < 0) by apply A.
  split; cbn [coeff peak peak_x valid_end away_portion].
  - replace (sign (n + 1) * start_away_coeff s * (sign (n + 1) * (start_peak s * powerRZ (bias_ s) (n + 1))))
      with (sign (n + 1) * sign (n + 1) * powerRZ (bias_ s) (n + 1) * (start_away_coeff s * start_peak s)) by ring.
    rewrite Q. assert (0 < powerRZ b (n + 1)) by now apply powerRZ_lt. unfold b in *. nra.
  - eexists. split; [reflexivity|]. now left.
Qed.

Lemma ctx_eq a1 a2 a3 a4 a5 b1 b2 b3 b4 b5 : a1 = b1 -> a2 = b2 -> a3 = b3 -> a4 = b4 -> a5 = b5 -> Ctx a1 a2 a3 a4 (Some a5) = Ctx b1 b2 b3 b4 (Some b5).
Proof. congruence. Qed.

(** Stepping goes through the family in order. *)
Lemma next_toward n : next_context s (toward_portion s n) = Some (away_portion s n).
Proof.
  pose proof (zero_gt n) as Z. destruct (next_ok s _ b_pos (toward_bends n)) as (c' & E & _).
  rewrite E. f_equal. revert E. unfold next_context. cbn [valid_end peak_x coeff peak toward_portion].
  rewrite Reqb_f by lra. cbn [orb].
  pose proof b_pos as B. pose proof S_pos as SP. pose proof (S_pow n) as PN. pose proof d_pos as D.
  rewrite Reqb_f by (fold b; lra). cbn [negb]. destruct (Reqb _ _); [discriminate|]. destruct (Rleb _ _); [|discriminate]. cbn [negb]. intros [= <-].
  fold b. assert (BN : powerRZ b (n + 1) = powerRZ b n * b) by (rewrite powerRZ_add, powerRZ_1 by lra; reflexivity).
  assert (HA : start_away_coeff s * start_peak s < 0) by apply A. assert (HN : start_away_coeff s <> 0) by nra.
  assert (W : sqrt (- (- (sign n * (start_peak s * powerRZ b n)) * b) / (- (sign n * (start_away_coeff s * b)) / b)) = powerRZ S n * (d * S)).
  { apply sqrt_unique. { apply Rmult_le_pos; [lra|]. apply Rmult_le_pos; lra. }
    rewrite b_pow. replace (start_peak s) with (- (d * d * start_away_coeff s)) by (rewrite dd; ring).
    assert (sign n <> 0) by (unfold sign; destruct (Z.even n); lra). rewrite <- SS. field. repeat split; lra. }
  rewrite W. unfold away_portion. rewrite <- peak_pos_succ. apply ctx_eq; try reflexivity.
  - rewrite sign_succ. field. lra.
  - rewrite sign_succ. fold b. rewrite BN. ring.
Qed.
Lemma next_away n : next_context s (away_portion s n) = Some (toward_portion s (n + 1)).
Proof.
  destruct (next_ok s _ b_pos (away_bends n)) as (c' & E & _).
  rewrite E. f_equal. revert E. unfold next_context. cbn [valid_end peak_x coeff peak away_portion].
  rewrite Reqb_t by reflexivity. cbn [orb].
  destruct (Reqb _ _); [discriminate|]. destruct (Rleb _ _); [|discriminate]. cbn [negb]. intros [= <-].
  set (m := (n + 1)%Z).
  pose proof b_pos as B. pose proof S_pos as SP. pose proof (S_pow m) as PN. pose proof d_pos as D.
  assert (HA : start_away_coeff s * start_peak s < 0) by apply A. assert (HN : start_away_coeff s <> 0) by nra.
  assert (W : sqrt (- (sign m * (start_peak s * powerRZ (bias_ s) m)) / (sign m * start_away_coeff s * bias_ s)) = powerRZ S m * (d / S)).
  { apply sqrt_unique. { apply Rmult_le_pos; [lra|]. apply Rmult_le_pos; [lra|]. apply Rlt_le. now apply Rinv_0_lt_compat. }
    fold b. rewrite b_pow. replace (start_peak s) with (- (d * d * start_away_coeff s)) by (rewrite dd; ring).
    assert (sign m <> 0) by (unfold sign; destruct (Z.even m); lra). rewrite <- SS. field. repeat split; lra. }
  rewrite W. unfold toward_portion. apply ctx_eq; try reflexivity. ring.
Qed.

Lemma S_pow_exp n : powerRZ S n = exp (IZR n * ln S).
Proof. rewrite powerRZ_Rpower by apply S_pos. reflexivity. Qed.

(** The iteration found by logarithm contains [x]. *)
Lemma iteration_contains x : 0 < 1 - x / r_ s ->
  let n := Rfloor (ln (1 - x / r_ s) * (1 / ln (sqrt_b s))) in
  peak_pos s n <= x < peak_pos s (n + 1).
Proof.
  intros L n. fold S in n. set (l := 1 - x / r_ s) in *. pose proof (Rfloor_bounds (ln l * (1 / ln S))) as F. fold n in F.
  pose proof r_ne as RN. assert (EX : x = r_ s * (1 - l)) by (unfold l; field; assumption).
  unfold peak_pos. fold S. rewrite !S_pow_exp, plus_IZR. clearbody n l. rewrite EX.
  assert (EL : exp (ln l) = l) by now apply exp_ln. rewrite <- EL.
  pose proof S_pos as SP. pose proof S_ne1 as S1. pose proof d_pos as D. pose proof b_pos as B.
  destruct (Rtotal_order S 1) as [H|[H|H]]; [|contradiction|].
  - assert (LS : ln S < 0) by (rewrite <- ln_1; now apply ln_increasing).
    assert (RP : 0 < r_ s) by (rewrite r_eq; apply Rdiv_lt_0_compat; apply Rmult_lt_0_compat; lra).
    assert (E1 : ln l <= IZR n * ln S).
    { replace (ln l) with (ln l * (1 / ln S) * ln S) by (field; lra). nra. }
    assert (E2 : (IZR n + 1) * ln S < ln l).
    { replace (ln l) with (ln l * (1 / ln S) * ln S) by (field; lra). nra. }
    apply exp_increasing in E2. assert (E1' : exp (ln l) <= exp (IZR n * ln S)) by (destruct E1 as [E1|E1]; [left; now apply exp_increasing|rewrite E1; lra]).
    split; nra.
  - assert (LS : 0 < ln S) by (rewrite <- ln_1; now apply ln_increasing; lra).
    assert (RP : r_ s < 0).
    { rewrite r_eq. replace (d * (1 + b) / (S * (1 - S))) with (- (d * (1 + b) / (S * (S - 1)))) by (field; lra).
      apply Ropp_lt_gt_0_contravar. apply Rdiv_lt_0_compat; apply Rmult_lt_0_compat; lra. }
    assert (E1 : IZR n * ln S <= ln l).
    { replace (ln l) with (ln l * (1 / ln S) * ln S) by (field; lra). nra. }
    assert (E2 : ln l < (IZR n + 1) * ln S).
    { replace (ln l) with (ln l * (1 / ln S) * ln S) by (field; lra). nra. }
    apply exp_increasing in E2. assert (E1' : exp (IZR n * ln S) <= exp (ln l)) by (destruct E1 as [E1|E1]; [left; now apply exp_increasing|rewrite E1; lra]).
    split; nra.
Qed.

Lemma rem_even n : negb (Z.rem n 2 =? 0)%Z = negb (Z.even n).
Proof.
  f_equal. rewrite Zeven_mod. unfold Zeq_bool. destruct (Z.eqb_spec (Z.rem n 2) 0) as [E|E].
  - apply Z.rem_mod_eq_0 in E; [|easy]. now rewrite E.
  - assert (n mod 2 <> 0)%Z by (intros Q; apply E; now apply Z.rem_mod_eq_0).
    pose proof (Z.mod_pos_bound n 2 ltac:(lia)). assert (n mod 2 = 1)%Z as -> by lia. reflexivity.
Qed.
Lemma swap_sign n v : (if negb (Z.rem n 2 =? 0)%Z then - v else v) = sign n * v.
Proof. rewrite rem_even. unfold sign. destruct (Z.even n); cbn [negb]; ring. Qed.

(** Jumping to [x] gives the portion of the family that contains it. *)
Lemma context_in_family external_x : let x := to_internal_x s external_x in
  1 / 100 < 1 - x / r_ s ->
  exists n, (peak_pos s n <= x < zero_pos s n /\ calculate_context s external_x = Some (toward_portion s n)) \/
            (zero_pos s n <= x < peak_pos s (n + 1) /\ calculate_context s external_x = Some (away_portion s n)).
Proof.
  intros x L. pose proof (iteration_contains x ltac:(lra)) as I. cbv zeta in I.
  unfold calculate_context. fold x. rewrite Reqb_f by apply A. rewrite Reqb_f by apply r_ne. rewrite Rleb_f by assumption.
  set (n := Rfloor _) in *. exists n.
  assert (P1 : r_ s * (1 - powerRZ (sqrt_b s) n) = peak_pos s n) by reflexivity.
  assert (P2 : r_ s * (1 - powerRZ (sqrt_b s) n * sqrt_b s) = peak_pos s (n + 1)) by (unfold peak_pos; fold S; now rewrite S_pow_succ).
  cbv zeta. rewrite P1, P2.
  assert (Z : lerp (Rg (peak_pos s n) (peak_pos s (n + 1))) (1 / (1 + bias_ s)) = zero_pos s n).
  { unfold lerp. cbn [start_ end_]. rewrite peak_pos_succ. unfold zero_pos. fold S d b. pose proof b_pos. pose proof S_pos. rewrite <- SS. field. split; [lra|rewrite SS; lra]. }
  rewrite Z. destruct (Rltb_spec x (zero_pos s n)) as [T|T].
  - left. split; [lra|]. rewrite !swap_sign. f_equal. unfold toward_portion. apply ctx_eq; try reflexivity. fold S b. now rewrite b_pow.
  - right. split; [lra|]. rewrite !swap_sign. f_equal. unfold away_portion. apply ctx_eq; try reflexivity.
    fold S b. rewrite b_pow, S_pow_succ. rewrite <- SS. ring.
Qed.

Lemma peak_pos_mono m n : (m < n)%Z -> peak_pos s m < peak_pos s n.
Proof.
  intros H. assert (forall k, peak_pos s m < peak_pos s (m + 1 + Z.of_nat k)) as Q.
  { induction k as [|k IH]; [rewrite Z.add_0_r; pose proof (zero_gt m); lra|].
    replace (m + 1 + Z.of_nat (Datatypes.S k))%Z with (m + 1 + Z.of_nat k + 1)%Z by lia. pose proof (zero_gt (m + 1 + Z.of_nat k)). lra. }
  replace n with (m + 1 + Z.of_nat (Z.to_nat (n - m - 1)))%Z by lia. apply Q.
Qed.
End Alive.

(** The portions numbered in order: even ones toward the target, odd ones away. *)
Definition portion (s : spring) (k : Z) : context :=
  if Z.even k then toward_portion s (k / 2) else away_portion s (k / 2).
Definition pos (s : spring) (k : Z) : R := if Z.even k then peak_pos s (k / 2) else zero_pos s (k / 2).

Lemma half_cases k : exists n, (k = 2 * n /\ Z.even k = true /\ k / 2 = n)%Z \/ (k = 2 * n + 1 /\ Z.even k = false /\ k / 2 = n)%Z.
Proof.
  exists (k / 2)%Z. pose proof (Z.div_mod k 2 ltac:(lia)) as D. pose proof (Z.mod_pos_bound k 2 ltac:(lia)) as B.
  rewrite Zeven_mod. unfold Zeq_bool. destruct (Z.eq_dec (k mod 2) 0) as [E|E].
  - left. split; [lia|]. split; [now rewrite E|reflexivity].
  - right. assert (k mod 2 = 1)%Z as E1 by lia. split; [lia|]. split; [now rewrite E1|reflexivity].
Qed.
Lemma even_double n : Z.even (2 * n) = true /\ (2 * n / 2 = n)%Z /\ Z.even (2 * n + 1) = false /\ ((2 * n + 1) / 2 = n)%Z.
Proof.
  repeat split; [now rewrite Z.even_mul| rewrite Z.mul_comm; now apply Z.div_mul| rewrite Z.even_add, Z.even_mul; reflexivity|].
  rewrite Z.add_comm, Z.mul_comm, Z.div_add by easy. reflexivity.
Qed.
Lemma portion_double s n : portion s (2 * n) = toward_portion s n /\ portion s (2 * n + 1) = away_portion s n /\
  pos s (2 * n) = peak_pos s n /\ pos s (2 * n + 1) = zero_pos s n /\ pos s (2 * n + 1 + 1) = peak_pos s (n + 1).
Proof.
  destruct (even_double n) as (A & B & C & D). destruct (even_double (n + 1)) as (A' & B' & _).
  replace (2 * n + 1 + 1)%Z with (2 * (n + 1))%Z by ring.
  unfold portion, pos. now rewrite A, B, C, D, A', B'.
Qed.
Lemma portion_ok s k : alive s ->
  bends_to_target (portion s k) /\ next_context s (portion s k) = Some (portion s (k + 1)) /\
  valid_start (portion s k) = pos s k /\ valid_end (portion s k) = Some (pos s (k + 1)) /\ pos s k < pos s (k + 1).
Proof.
  intros A. destruct (half_cases k) as (n & [(-> & _)|(-> & _)]); destruct (portion_double s n) as (E1 & E2 & P1 & P2 & P3).
  - rewrite E1, E2, P1, P2. repeat split; try (now apply toward_bends); try (now apply next_toward). now apply zero_gt.
  - destruct (portion_double s (n + 1)) as (E1' & _). replace (2 * n + 1 + 1)%Z with (2 * (n + 1))%Z in * by ring.
    rewrite E2, E1', P2, P3. repeat split; try (now apply away_bends); try (now apply next_away). now apply zero_gt.
Qed.
Lemma pos_mono s j k : alive s -> (j < k)%Z -> pos s j < pos s k.
Proof.
  intros A H. assert (forall i, pos s j < pos s (j + 1 + Z.of_nat i)) as Q.
  { induction i as [|i IH]; [rewrite Z.add_0_r; apply (portion_ok s j A)|].
    replace (j + 1 + Z.of_nat (S i))%Z with (j + 1 + Z.of_nat i + 1)%Z by lia. pose proof (portion_ok s (j + 1 + Z.of_nat i) A). lra. }
  replace k with (j + 1 + Z.of_nat (Z.to_nat (k - j - 1)))%Z by lia. apply Q.
Qed.
Lemma pos_order s j k x y : alive s -> x <= y -> pos s j <= x -> y < pos s (k + 1) -> (j <= k)%Z.
Proof.
  intros A H1 H2 H3. destruct (Z_le_gt_dec j k) as [|G]; [assumption|]. exfalso.
  destruct (Z.eq_dec j (k + 1)) as [->|N]; [lra|]. pose proof (pos_mono s (k + 1) j A ltac:(lia)). lra.
Qed.

Lemma jump_ok s external_x : alive s -> let x := to_internal_x s external_x in 1 / 100 < 1 - x / r_ s ->
  exists k, calculate_context s external_x = Some (portion s k) /\ pos s k <= x < pos s (k + 1).
Proof.
  intros A x L. destruct (context_in_family s A external_x L) as (n & [(B & E)|(B & E)]); destruct (portion_double s n) as (E1 & E2 & P1 & P2 & P3).
  - exists (2 * n)%Z. rewrite E1, P1, P2. auto.
  - exists (2 * n + 1)%Z. rewrite E2, P2, P3. auto.
Qed.
Lemma step_n_portion s j k : alive s -> step_n s k (portion s j) = Some (portion s (j + Z.of_nat k)).
Proof.
  intros A. induction k as [|k IH]; [now rewrite Z.add_0_r|]. cbn [step_n]. rewrite IH.
  replace (j + Z.of_nat (S k))%Z with (j + Z.of_nat k + 1)%Z by lia. now apply portion_ok.
Qed.
Lemma portion_valid s k external_x : alive s -> let x := to_internal_x s external_x in pos s k <= x <= pos s (k + 1) ->
  valid_x s external_x (portion s k) = true.
Proof.
  intros A x B. unfold valid_x. destruct (portion_ok s k A) as (_ & _ & -> & -> & _). fold x.
  unfold contains_with_tolerance. cbn [start_ end_]. unfold length_. cbn [start_ end_]. rewrite !Rleb_t; [reflexivity|lra|lra].
Qed.
(** Any portion whose closed range has [x] gives the value and slope there. *)
Lemma portion_value_unique s j k x : alive s -> pos s j <= x <= pos s (j + 1) -> pos s k <= x < pos s (k + 1) ->
  portion_value (portion s j) x = portion_value (portion s k) x /\ portion_slope (portion s j) x = portion_slope (portion s k) x.
Proof.
  intros A B1 B2. pose proof (pos_order s j k x x A ltac:(lra) ltac:(lra) ltac:(lra)) as O.
  destruct (Z.eq_dec j k) as [->|N]; [auto|].
  assert (K : k = (j + 1)%Z).
  { destruct (Z.eq_dec k (j + 1)) as [|N2]; [assumption|]. pose proof (pos_mono s (j + 1) k A ltac:(lia)). lra. }
  subst k. assert (x = pos s (j + 1)) by lra. subst x.
  destruct (portion_ok s j A) as (Bd & En & _ & Ee & _). destruct (next_ok s _ (proj1 A) Bd) as (c' & E' & _ & (J1 & J2 & J3) & _).
  rewrite En in E'. injection E' as <-. destruct (portion_ok s (j + 1) A) as (_ & _ & Es & _). rewrite Es in *. auto.
Qed.
