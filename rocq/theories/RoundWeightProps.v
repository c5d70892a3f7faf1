(** C126: the weights of rigs in single precision. *)
From Verif Require Import RBase Base BaseFacts RoundModel RoundProofs RoundWeightModel BlendProps.
From Coq Require Import Lia.
Local Open Scope R_scope.

(** The mean of [ps] weighted by [ws], exactly. *)
Fixpoint wsum (ws ps : list R) : R := match ws, ps with w :: ws', p :: ps' => w * p + wsum ws' ps' | _, _ => 0 end.
Definition mean (ws ps : list R) : R := wsum ws ps / Rsum ws.

Section Single.
Variable rnd : R -> R.
Hypothesis H : rounds single rnd.
Local Notation u := (pow2 (-24)).

Lemma u_value : u = / 16777216.
Proof. change (-24)%Z with (- (24))%Z. rewrite pow2_inv, pow2_IZR by lia. reflexivity. Qed.
Lemma eta_small : pow2 (-149 - 1) <= u * u * pow2 (-100).
Proof. rewrite <- !pow2_add. apply pow2_le. lia. Qed.
Lemma h100 : pow2 (-100) <= 1.
Proof. rewrite <- pow2_0. apply pow2_le. lia. Qed.

(** Sums of numbers of the format have no absolute error, only a relative one. *)
Lemma add_error x y : single x -> single y -> Rabs (rnd (x + y) - (x + y)) <= u * Rabs (x + y) /\ (0 <= x + y -> Rabs (rnd (x + y) - (x + y)) <= u * rnd (x + y)).
Proof.
  intros X Y. assert (G : exists n, x + y = IZR n * pow2 (-149)).
  { destruct (fmt_grid0 _ _ _ X) as [a ->]. destruct (fmt_grid0 _ _ _ Y) as [b ->]. exists (a + b)%Z. rewrite plus_IZR. ring. }
  set (z := x + y) in *. pose proof (pow2_pos (-24)) as U.
  destruct (Rle_lt_dec (Rabs z) (pow2 (24 + -149))) as [C|C].
  - destruct G as [n G]. assert (F : single z) by (rewrite G in *; apply fmt_of_grid; [lia|lia|exact C]).
    rewrite (rnd_id 24 (-149) rnd H z F). replace (z - z) with 0 by ring. rewrite Rabs_R0. pose proof (Rabs_pos z). split; intros; apply Rmult_le_pos; lra.
  - pose proof (pow2_pos (24 + -149)) as P. assert (AX : 0 < Rabs z) by lra. pose proof (mag_exists _ AX) as [M1 M2]. cbn zeta in *.
    set (k := (Rfloor (ln (Rabs z) / ln 2) + 1)%Z) in *.
    assert (K : (24 + -149 < k)%Z) by (apply pow2_lt_inv; lra).
    assert (E : Rabs (rnd z - z) <= pow2 (k - 1) * u).
    { eapply Rle_trans; [apply (rnd_err 24 (-149) ltac:(lia) rnd H z k); [lia|lra]|]. rewrite <- pow2_add. apply pow2_le. lia. }
    split; [nra|]. intros Z0. rewrite Rabs_pos_eq in M1 by lra.
    assert (pow2 (k - 1) <= rnd z).
    { apply (rnd_ge_fmt 24 (-149) rnd H); [|exact M1]. rewrite <- (Rmult_1_l (pow2 (k - 1))). apply fmt_grid_in; [lia|cbn; lia|lia]. }
    nra.
Qed.

Lemma total_facts : forall ws t T, single t -> 0 <= t -> Forall single ws -> f_weights_total rnd ws t = Some T ->
  single T /\ t <= T /\ Forall (fun w => 0 <= w <= T) ws /\ Rabs (T - (t + Rsum ws)) <= IZR (len ws) * u * T.
Proof.
  induction ws as [|w ws IH]; intros t T St Pt F E; cbn [f_weights_total] in E.
  - injection E as <-. cbn. split; [assumption|]. split; [lra|]. split; [constructor|]. rewrite Rplus_0_r, Rminus_eq_0, Rabs_R0. lra.
  - destruct (Rleb_spec 0 w) as [W|]; [|discriminate]. inversion F as [|? ? Sw F']; subst.
    assert (N : t <= rnd (t + w)) by (apply (rnd_ge_fmt 24 (-149) rnd H); [exact St|lra]).
    assert (N2 : w <= rnd (t + w)) by (apply (rnd_ge_fmt 24 (-149) rnd H); [exact Sw|lra]).
    destruct (IH (rnd (t + w)) T) as (A & B & C & D); [apply (rnd_fmt 24 (-149) rnd H)|lra|assumption|assumption|].
    split; [assumption|]. split; [lra|]. split; [constructor; [lra|assumption]|].
    destruct (add_error t w St Sw) as [_ Q]. specialize (Q ltac:(lra)).
    rewrite len_cons, plus_IZR. cbn [Rsum fold_right]. fold (Rsum ws). pose proof (pow2_pos (-24)).
    assert (u * rnd (t + w) <= u * T) by nra.
    replace (T - (t + (w + Rsum ws))) with ((T - (rnd (t + w) + Rsum ws)) + (rnd (t + w) - (t + w))) by ring.
    eapply Rle_trans; [apply Rabs_triang|]. nra.
Qed.

(** The sum of the distances between the weights of a rig and the exact ones. *)
Fixpoint off (l ws : list R) (s : R) : R := match l, ws with x :: l', w :: ws' => Rabs (x - w / s) + off l' ws' s | _, _ => 0 end.

Lemma quotient_error w T : 0 < T -> 0 <= w -> Rabs (rnd (w / T) - w / T) <= u * (w / T) + u * u.
Proof.
  intros P W. pose proof (rnd_rel 24 (-149) ltac:(lia) rnd H (w / T)) as E. change (- (24))%Z with (-24)%Z in E.
  assert (0 <= w / T) by (apply Rmult_le_pos; [lra|left; now apply Rinv_0_lt_compat]). rewrite (Rabs_pos_eq (w / T)) in E by assumption.
  pose proof eta_small. pose proof h100. pose proof (pow2_pos (-24)). pose proof (pow2_pos (-100)). nra.
Qed.

Lemma off_bound : forall ws T S, 0 < T -> 0 < S -> Forall (fun w => 0 <= w) ws ->
  off (map (fun w => rnd (w / T)) ws) ws S <= Rsum ws * (u / T + Rabs (/ T - / S)) + IZR (len ws) * (u * u).
Proof.
  induction ws as [|w ws IH]; intros T S PT PS F; [cbn; lra|]. inversion F as [|? ? W F']; subst.
  cbn [map off Rsum fold_right]. fold (Rsum ws). specialize (IH T S PT PS F'). rewrite len_cons, plus_IZR.
  pose proof (quotient_error w T PT W) as Q.
  assert (D : Rabs (w / T - w / S) = w * Rabs (/ T - / S)).
  { replace (w / T - w / S) with (w * (/ T - / S)) by (unfold Rdiv; ring). now rewrite Rabs_mult, (Rabs_pos_eq w). }
  assert (Rabs (rnd (w / T) - w / S) <= u * (w / T) + u * u + w * Rabs (/ T - / S)).
  { rewrite <- D. replace (rnd (w / T) - w / S) with ((rnd (w / T) - w / T) + (w / T - w / S)) by ring. eapply Rle_trans; [apply Rabs_triang|]. lra. }
  replace (u * (w / T)) with (w * (u / T)) in * by (unfold Rdiv; ring). lra.
Qed.

Lemma rnd_div_self T : single T -> 0 < T -> rnd (T / T) = 1.
Proof.
  intros _ P. replace (T / T) with 1 by (field; lra). apply (rnd_id 24 (-149) rnd H). rewrite <- (Rmult_1_l 1). rewrite <- pow2_0 at 2. apply fmt_grid_in; cbn; lia.
Qed.

Lemma Rsum_nonneg ws : Forall (fun w => 0 <= w) ws -> 0 <= Rsum ws.
Proof. induction 1; cbn [Rsum fold_right]; [lra|]. fold (Rsum l). lra. Qed.

Lemma weights_off ws T : Forall single ws -> f_weights_total rnd ws 0 = Some T -> 0 < T ->
  0 < Rsum ws /\ off (map (fun w => rnd (w / T)) ws) ws (Rsum ws) <= IZR (len ws) * pow2 (-23).
Proof.
  intros F E P. destruct (total_facts ws 0 T) as (ST & _ & W & D); [apply fmt_0; lia|lra|assumption|assumption|]. rewrite Rplus_0_l in D.
  assert (W0 : Forall (fun w => 0 <= w) ws) by (eapply Forall_impl; [|exact W]; cbn; intros; lra).
  assert (SP : 0 < Rsum ws).
  { destruct (Rsum_nonneg ws W0) as [|Z]; [assumption|]. exfalso. assert (T0 : f_weights_total rnd ws 0 = Some 0); [|rewrite E in T0; injection T0; lra].
    clear - W0 Z H. induction W0 as [|w ws A B IH]; [reflexivity|]. cbn [Rsum fold_right] in Z. fold (Rsum ws) in Z. pose proof (Rsum_nonneg ws B). cbn [f_weights_total]. rewrite Rleb_t by lra.
    replace (0 + w) with 0 by lra. rewrite (rnd_id 24 (-149) rnd H) by (apply fmt_0; lia). apply IH. lra. }
  split; [assumption|]. set (S := Rsum ws) in *. set (n := IZR (len ws)) in *.
  assert (P23 : pow2 (-23) = 2 * u) by (rewrite <- pow2_succ; f_equal).
  pose proof (off_bound ws T S P SP W0) as B. fold S n in B. pose proof u_value as UV. pose proof (pow2_pos (-24)) as U.
  destruct ws as [|w [|w2 ws']].
  - cbn in S. subst S. lra.
  - assert (n = 1) by (unfold n; reflexivity). cbn [f_weights_total] in E. destruct (Rleb_spec 0 w); [|discriminate]. inversion F; subst.
    rewrite Rplus_0_l, (rnd_id 24 (-149) rnd H w) in E by assumption. injection E as <-. unfold S. cbn [map off Rsum fold_right]. rewrite !Rplus_0_r, (rnd_div_self w) by assumption.
    replace (1 - w / w) with 0 by (field; lra). rewrite Rabs_R0. nra.
  - assert (N2 : 2 <= n). { unfold n. apply IZR_le. rewrite !len_cons. unfold len. lia. }
    assert (HD : S * Rabs (/ T - / S) <= n * u).
    { replace (/ T - / S) with ((S - T) / (T * S)) by (field; lra). unfold Rdiv. rewrite Rabs_mult, (Rabs_pos_eq (/ (T * S))) by (left; apply Rinv_0_lt_compat; nra).
      rewrite Rabs_minus_sym. apply Rmult_le_reg_r with T; [assumption|]. replace (S * (Rabs (T - S) * / (T * S)) * T) with (Rabs (T - S)) by (field; lra). lra. }
    assert (ST1 : S / T <= 1 + n * u).
    { apply Rmult_le_reg_r with T; [assumption|]. replace (S / T * T) with S by (field; lra). revert D. rabs; lra. }
    rewrite P23. replace (S * (u / T + Rabs (/ T - / S))) with (u * (S / T) + S * Rabs (/ T - / S)) in B by (unfold Rdiv; ring).
    assert (u * (S / T) <= u * (1 + n * u)) by (apply Rmult_le_compat_l; lra).
    assert (u * u * n <= u * n * (1 / 4)) by (rewrite UV; lra). nra.
Qed.

Lemma off_sum : forall l ws s, s <> 0 -> length l = length ws -> Rabs (Rsum l - Rsum ws / s) <= off l ws s.
Proof.
  induction l as [|x l IH]; intros [|w ws] s N L; try discriminate; cbn [off Rsum fold_right].
  - unfold Rdiv. rewrite Rmult_0_l, Rminus_0_r, Rabs_R0. lra.
  - fold (Rsum l) (Rsum ws). specialize (IH ws s N ltac:(injection L; auto)). replace (x + Rsum l - (w + Rsum ws) / s) with ((x - w / s) + (Rsum l - Rsum ws / s)) by (field; assumption).
    eapply Rle_trans; [apply Rabs_triang|]. lra.
Qed.
Lemma off_wsum : forall l ws ps s M, s <> 0 -> 0 <= M -> length l = length ws -> length ps = length ws -> Forall (fun p => Rabs p <= M) ps -> Rabs (wsum l ps - wsum ws ps / s) <= off l ws s * M.
Proof.
  induction l as [|x l IH]; intros [|w ws] [|p ps] s M N PM L L2 F; try discriminate; cbn [off wsum].
  - unfold Rdiv. rewrite !Rmult_0_l, Rminus_0_r, Rabs_R0. lra.
  - inversion F as [|? ? A F']; subst. specialize (IH ws ps s M N PM ltac:(injection L; auto) ltac:(injection L2; auto) F').
    replace (x * p + wsum l ps - (w * p + wsum ws ps) / s) with ((x - w / s) * p + (wsum l ps - wsum ws ps / s)) by (field; assumption).
    eapply Rle_trans; [apply Rabs_triang|]. rewrite Rabs_mult. pose proof (Rabs_pos (x - w / s)). nra.
Qed.

(** Rounded accumulation: [W] is the weight so far, [k] the number of terms. *)
Lemma accumulate_error : forall ws ps acc E W k M, pow2 (-100) <= M -> length ps = length ws -> Forall (fun p => Rabs p <= M) ps -> Forall (fun w => 0 <= w) ws ->
  single acc -> 0 <= W -> 0 <= k -> W + Rsum ws <= 2 -> k + IZR (len ws) <= 1048576 -> Rabs E <= M * W -> Rabs (acc - E) <= (u * W + 5 * u * k) * M ->
  Rabs (f_blend_coordinate rnd ws ps acc - (E + wsum ws ps)) <= (u * (W + Rsum ws) + 5 * u * (k + IZR (len ws))) * M.
Proof.
  induction ws as [|w ws IH]; intros [|p ps] acc E W k M HM L FP FW SA PW PK TW TK BE BA; try discriminate.
  - cbn [f_blend_coordinate wsum Rsum fold_right]. change (len (@nil R)) with 0%Z. rewrite !Rplus_0_r. exact BA.
  - inversion FP as [|? ? AP FP']; subst. inversion FW as [|? ? AW FW']; subst. cbn [Rsum fold_right] in *. fold (Rsum ws) in *. rewrite len_cons, plus_IZR in *.
    pose proof (pow2_pos (-24)) as U. pose proof u_value as UV. pose proof (pow2_pos (-100)) as P1. pose proof (Rsum_nonneg ws FW') as SP.
    assert (LN : 0 <= IZR (len ws)) by (apply IZR_le; unfold len; lia).
    assert (M0 : 0 < M) by lra.
    assert (Q : Rabs (rnd (p * w) - p * w) <= u * M * w + u * u * M).
    { pose proof (rnd_rel 24 (-149) ltac:(lia) rnd H (p * w)) as Q. change (- (24))%Z with (-24)%Z in Q. rewrite Rabs_mult, (Rabs_pos_eq w) in Q by assumption.
      pose proof eta_small. assert (u * u * pow2 (-100) <= u * u * M) by (apply Rmult_le_compat_l; nra). assert (Rabs p * w * u <= M * w * u) by (apply Rmult_le_compat_r; [lra|]; apply Rmult_le_compat_r; lra). lra. }
    assert (EN : Rabs (E + w * p) <= M * (W + w)).
    { eapply Rle_trans; [apply Rabs_triang|]. rewrite Rabs_mult, (Rabs_pos_eq w) by assumption. nra. }
    set (z := acc + rnd (p * w)).
    assert (DZ : Rabs (z - (E + w * p)) <= (u * W + 5 * u * k) * M + (u * M * w + u * u * M)).
    { unfold z. replace (acc + rnd (p * w) - (E + w * p)) with ((acc - E) + (rnd (p * w) - p * w)) by ring. eapply Rle_trans; [apply Rabs_triang|]. lra. }
    assert (ZB : Rabs z <= 4 * M).
    { replace z with ((z - (E + w * p)) + (E + w * p)) by ring. eapply Rle_trans; [apply Rabs_triang|].
      assert (M * (W + w) <= M * 2) by (apply Rmult_le_compat_l; lra).
      assert (C1 : u * W + 5 * u * k + u * w + u * u <= 1) by (rewrite UV; lra).
      assert ((u * W + 5 * u * k + u * w + u * u) * M <= 1 * M) by (apply Rmult_le_compat_r; lra). lra. }
    destruct (add_error acc (rnd (p * w)) SA (rnd_fmt 24 (-149) rnd H _)) as [AE _]. fold z in AE.
    cbn [f_blend_coordinate wsum]. fold z.
    replace (E + (w * p + wsum ws ps)) with ((E + w * p) + wsum ws ps) by ring.
    match goal with |- _ <= ?b * M => replace b with (u * ((W + w) + Rsum ws) + 5 * u * ((k + 1) + IZR (len ws))) by ring end.
    apply IH; try assumption; try lra.
    + now injection L.
    + apply (rnd_fmt 24 (-149) rnd H).
    + replace (rnd z - (E + w * p)) with ((rnd z - z) + (z - (E + w * p))) by ring. eapply Rle_trans; [apply Rabs_triang|].
      assert (u * Rabs z <= u * (4 * M)) by (apply Rmult_le_compat_l; lra). assert (u * u * M <= u * M) by (apply Rmult_le_compat_r; [lra|]; rewrite UV; lra). lra.
Qed.
End Single.

Lemma getz_in {A} (l : list A) i x : getz l i = Some x -> In x l.
Proof. unfold getz. destruct (i <? 0)%Z; [discriminate|]. apply nth_error_In. Qed.
Lemma in_getz {A} (l : list A) x : In x l -> exists i, getz l i = Some x.
Proof. intros I. apply In_nth_error in I as [n N]. exists (Z.of_nat n). unfold getz. destruct (Z.ltb_spec (Z.of_nat n) 0); [lia|]. now rewrite Nat2Z.id. Qed.

(** The weights that BlendToAnims gives to a rig are between 0 and 1, zero for zero and in
    the order of the weights given; their sum is 1 up to 2^-23 for each animation. *)
Theorem C126_weights : forall rnd ws l, rounds single rnd -> Forall single ws -> f_blend_weights rnd ws = Some l ->
  len l = len ws /\ Rabs (Rsum l - 1) <= IZR (len ws) * pow2 (-23) /\
  (forall i w x, getz ws i = Some w -> getz l i = Some x -> 0 <= x <= 1 /\ (w = 0 -> x = 0)) /\
  (forall i j v w x y, getz ws i = Some v -> getz ws j = Some w -> getz l i = Some x -> getz l j = Some y -> v <= w -> x <= y).
Proof.
  intros rnd ws l H F E. unfold f_blend_weights in E. destruct (f_weights_total rnd ws 0) as [T|] eqn:ET; [|discriminate]. destruct (Rltb_spec 0 T) as [P|]; [|discriminate]. injection E as <-.
  destruct (weights_off rnd H ws T F ET P) as [SP OB].
  destruct (total_facts rnd H ws 0 T) as (ST & _ & W & D); [apply fmt_0; lia|lra|assumption|assumption|].
  assert (G : forall i w x, getz ws i = Some w -> getz (map (fun w => rnd (w / T)) ws) i = Some x -> x = rnd (w / T) /\ 0 <= w <= T).
  { intros i w x A B. rewrite Forall_forall in W. split; [|apply W; eapply getz_in; exact A]. unfold getz in *. destruct (i <? 0)%Z; [discriminate|]. rewrite nth_error_map, A in B. now injection B. }
  assert (I0 : 0 < / T) by now apply Rinv_0_lt_compat.
  split; [unfold len; now rewrite map_length|]. split; [|split].
  - eapply Rle_trans; [|exact OB]. pose proof (off_sum (map (fun w => rnd (w / T)) ws) ws (Rsum ws) ltac:(lra) ltac:(now rewrite map_length)) as Q. replace (Rsum ws / Rsum ws) with 1 in Q by (field; lra). exact Q.
  - intros i w x A B. destruct (G i w x A B) as [-> [W0 W1]]. split; [split|].
    + apply (rnd_ge_fmt 24 (-149) rnd H); [apply fmt_0; lia|]. apply Rmult_le_pos; lra.
    + rewrite <- (rnd_div_self rnd H T ST P). apply (rnd_mono 24 (-149) rnd H). apply Rmult_le_compat_r; lra.
    + intros ->. unfold Rdiv. rewrite Rmult_0_l. apply (rnd_id 24 (-149) rnd H), fmt_0. lia.
  - intros i j v w x y A B C C' L. destruct (G i v x A C) as [-> _]. destruct (G j w y B C') as [-> _]. apply (rnd_mono 24 (-149) rnd H). apply Rmult_le_compat_r; lra.
Qed.
Print Assumptions C126_weights.

(** SetWeights gives those weights to the animations; the animations it has no weight for
    get zero. *)
Theorem C126_set_weights : forall rnd ws old l, (len ws <= len old)%Z -> f_set_weights rnd ws old = Some l ->
  exists l1, f_blend_weights rnd ws = Some l1 /\ l = l1 ++ repeat 0 (length old - length ws).
Proof.
  intros rnd ws old l L E. unfold f_set_weights in E. unfold f_blend_weights. destruct (f_weights_total rnd ws 0) as [T|]; [|discriminate]. destruct (Rltb 0 T); [|discriminate]. injection E as <-.
  eexists. split; [reflexivity|]. revert ws L. induction old as [|o old IH]; intros [|w ws] L; cbn [f_assign_weights map app length repeat Nat.sub].
  - reflexivity.
  - unfold len in L. cbn in L. lia.
  - rewrite IH by (unfold len; cbn; lia). cbn [map app length]. now rewrite Nat.sub_0_r.
  - f_equal. apply IH. unfold len in *. cbn in L. lia.
Qed.
Print Assumptions C126_set_weights.

(** A single animation has the weight 1, exactly. *)
Theorem C126_one : forall rnd w l, rounds single rnd -> single w -> f_blend_weights rnd [w] = Some l -> l = [1].
Proof.
  intros rnd w l H S E. unfold f_blend_weights in E. cbn [f_weights_total] in E. destruct (Rleb_spec 0 w) as [W|]; [|discriminate]. rewrite Rplus_0_l, (rnd_id 24 (-149) rnd H w S) in E.
  destruct (Rltb_spec 0 w) as [P|]; [|discriminate]. injection E as <-. cbn [map]. now rewrite (rnd_div_self rnd H w S P).
Qed.
Print Assumptions C126_one.

(** A blended coordinate is the weighted mean of the animations' coordinates, up to 2^-20
    of the largest for each animation. *)
Theorem C126_mean : forall rnd ws l ps M, rounds single rnd -> Forall single ws -> f_blend_weights rnd ws = Some l ->
  length ps = length ws -> (len ws <= 1048576)%Z -> Forall (fun p => Rabs p <= M) ps -> pow2 (-100) <= M ->
  Rabs (f_blend_coordinate rnd l ps 0 - mean ws ps) <= IZR (len ws) * pow2 (-20) * M.
Proof.
  intros rnd ws l ps M H F E L N FP HM. destruct (C126_weights rnd ws l H F E) as (LL & SL & B & _).
  pose proof (u_value) as UV. pose proof (pow2_pos (-24)) as U. pose proof (pow2_pos (-100)) as P1.
  assert (P23 : pow2 (-23) = 2 * pow2 (-24)) by (rewrite <- pow2_succ; f_equal).
  assert (P20 : pow2 (-20) = 16 * pow2 (-24)). { change (-20)%Z with (4 + -24)%Z. rewrite pow2_add, (pow2_IZR 4) by lia. reflexivity. }
  assert (LE : length l = length ws) by (unfold len in LL; lia).
  unfold f_blend_weights in E. destruct (f_weights_total rnd ws 0) as [T|] eqn:ET; [|discriminate]. destruct (Rltb_spec 0 T) as [P|]; [|discriminate]. injection E as E.
  destruct (weights_off rnd H ws T F ET P) as [SP OB]. rewrite E in OB.
  set (n := IZR (len ws)) in *. assert (NB : n <= 1048576) by (apply IZR_le; lia).
  assert (N1 : 1 <= n). { destruct ws; [cbn in SP; lra|]. unfold n. rewrite len_cons. apply IZR_le. unfold len. lia. }
  assert (W2 : 0 + Rsum l <= 2) by (revert SL; rewrite P23, UV; rabs; lra).
  assert (WP : Forall (fun w => 0 <= w) l).
  { apply Forall_forall. intros x X. apply in_getz in X as [i X]. pose proof (getz_Some _ _ _ X) as R. destruct (getz_in_range ws i) as [w W]; [lia|]. now apply (B i w x). }
  pose proof (accumulate_error rnd H l ps 0 0 0 0 M HM ltac:(lia) FP WP ltac:(apply fmt_0; lia) ltac:(lra) ltac:(lra) W2 ltac:(rewrite LL; fold n; lra)) as A.
  rewrite Rmult_0_r, Rabs_R0, Rminus_0_r, Rabs_R0 in A. specialize (A ltac:(lra) ltac:(nra)). rewrite LL in A. fold n in A. rewrite !Rplus_0_l in A.
  pose proof (off_wsum l ws ps (Rsum ws) M ltac:(lra) ltac:(lra) LE L FP) as O. fold (mean ws ps) in O.
  assert (O2 : off l ws (Rsum ws) * M <= n * pow2 (-23) * M) by (apply Rmult_le_compat_r; lra).
  assert (A2 : (pow2 (-24) * Rsum l + 5 * pow2 (-24) * n) * M <= (pow2 (-24) * 2 * n + 5 * pow2 (-24) * n) * M) by (apply Rmult_le_compat_r; [lra|]; nra).
  replace (f_blend_coordinate rnd l ps 0 - mean ws ps) with ((f_blend_coordinate rnd l ps 0 - wsum l ps) + (wsum l ps - mean ws ps)) by ring.
  eapply Rle_trans; [apply Rabs_triang|]. rewrite P23 in O2. rewrite P20. assert (0 <= n * pow2 (-24) * M) by (apply Rmult_le_pos; [apply Rmult_le_pos|]; lra). lra.
Qed.
Print Assumptions C126_mean.

(** A bone that is at [p] in all the animations is shown at [p], up to as much. *)
Theorem C126_same_pose : forall rnd ws l p, rounds single rnd -> Forall single ws -> f_blend_weights rnd ws = Some l ->
  (len ws <= 1048576)%Z -> pow2 (-100) <= Rabs p ->
  Rabs (f_blend_coordinate rnd l (repeat p (length ws)) 0 - p) <= IZR (len ws) * pow2 (-20) * Rabs p.
Proof.
  intros rnd ws l p H F E N HP. assert (SP : Rsum ws <> 0).
  { unfold f_blend_weights in E. destruct (f_weights_total rnd ws 0) as [T|] eqn:ET; [|discriminate]. destruct (Rltb_spec 0 T) as [P|]; [|discriminate]. destruct (weights_off rnd H ws T F ET P). lra. }
  assert (MP : mean ws (repeat p (length ws)) = p).
  { unfold mean. replace (wsum ws (repeat p (length ws))) with (Rsum ws * p); [field; assumption|]. clear. induction ws as [|w ws IH]; cbn [length repeat wsum Rsum fold_right]; [ring|]. fold (Rsum ws). rewrite <- IH. ring. }
  pose proof (C126_mean rnd ws l (repeat p (length ws)) (Rabs p) H F E ltac:(apply repeat_length) N) as Q. rewrite MP in Q. apply Q; [|assumption].
  apply Forall_forall. intros x X. apply repeat_spec in X. subst. lra.
Qed.
Print Assumptions C126_same_pose.

(** ** Not exactly *)
Lemma single_Z n : (Z.abs n <= 2 ^ 24)%Z -> single (IZR n).
Proof. intros L. rewrite <- (Rmult_1_r (IZR n)), <- pow2_0. apply fmt_grid_in; lia. Qed.
Section Witness.
Variable rnd : R -> R.
Hypothesis H : rounds single rnd.
Lemma third : rnd (1 / 3) = 11184811 / 33554432.
Proof.
  rewrite (rnd_at 24 (-149) ltac:(lia) rnd H (1 / 3) (-1) 11184811); try lia.
  - change (-1 - 24)%Z with (- (25))%Z. rewrite pow2_inv, pow2_IZR by lia. change (2 ^ 25)%Z with 33554432%Z. lra.
  - change (-1 - 1)%Z with (- (2))%Z. change (-1)%Z with (- (1))%Z. rewrite !pow2_inv, !pow2_IZR by lia. change (2 ^ 2)%Z with 4%Z. change (2 ^ 1)%Z with 2%Z. rabs; lra.
  - change (-1 - 24 - 1)%Z with (- (26))%Z. change (-1 - 24)%Z with (- (25))%Z. rewrite !pow2_inv, !pow2_IZR by lia. change (2 ^ 25)%Z with 33554432%Z. change (2 ^ 26)%Z with 67108864%Z. rabs; lra.
Qed.
Lemma two_thirds : rnd (2 / 3) = 11184811 / 16777216.
Proof.
  rewrite (rnd_at 24 (-149) ltac:(lia) rnd H (2 / 3) 0 11184811); try lia.
  - change (0 - 24)%Z with (- (24))%Z. rewrite pow2_inv, pow2_IZR by lia. change (2 ^ 24)%Z with 16777216%Z. lra.
  - change (0 - 1)%Z with (- (1))%Z. rewrite pow2_0, !pow2_inv, !pow2_IZR by lia. change (2 ^ 1)%Z with 2%Z. rabs; lra.
  - change (0 - 24 - 1)%Z with (- (25))%Z. change (0 - 24)%Z with (- (24))%Z. rewrite !pow2_inv, !pow2_IZR by lia. change (2 ^ 25)%Z with 33554432%Z. change (2 ^ 24)%Z with 16777216%Z. rabs; lra.
Qed.
Lemma seven_thirds : rnd (7 * (11184811 / 33554432)) = 9786710 / 4194304.
Proof.
  rewrite (rnd_at 24 (-149) ltac:(lia) rnd H _ 2 9786710); try lia.
  - change (2 - 24)%Z with (- (22))%Z. rewrite pow2_inv, pow2_IZR by lia. change (2 ^ 22)%Z with 4194304%Z. lra.
  - change (2 - 1)%Z with 1%Z. rewrite !pow2_IZR by lia. change (2 ^ 1)%Z with 2%Z. change (2 ^ 2)%Z with 4%Z. rabs; lra.
  - change (2 - 24 - 1)%Z with (- (23))%Z. change (2 - 24)%Z with (- (22))%Z. rewrite !pow2_inv, !pow2_IZR by lia. change (2 ^ 23)%Z with 8388608%Z. change (2 ^ 22)%Z with 4194304%Z. rabs; lra.
Qed.
Lemma fourteen_thirds : rnd (7 * (11184811 / 16777216)) = 9786710 / 2097152.
Proof.
  rewrite (rnd_at 24 (-149) ltac:(lia) rnd H _ 3 9786710); try lia.
  - change (3 - 24)%Z with (- (21))%Z. rewrite pow2_inv, pow2_IZR by lia. change (2 ^ 21)%Z with 2097152%Z. lra.
  - change (3 - 1)%Z with 2%Z. rewrite !pow2_IZR by lia. change (2 ^ 3)%Z with 8%Z. change (2 ^ 2)%Z with 4%Z. rabs; lra.
  - change (3 - 24 - 1)%Z with (- (22))%Z. change (3 - 24)%Z with (- (21))%Z. rewrite !pow2_inv, !pow2_IZR by lia. change (2 ^ 21)%Z with 2097152%Z. change (2 ^ 22)%Z with 4194304%Z. rabs; lra.
Qed.
Lemma total_ints : f_weights_total rnd [1; 2] 0 = Some 3 /\ f_weights_total rnd [1; 1; 1] 0 = Some 3.
Proof.
  cbn [f_weights_total]. rewrite !(Rleb_t 0) by lra. rewrite !Rplus_0_l. rewrite !(rnd_id 24 (-149) rnd H 1) by (apply single_Z; lia).
  replace (1 + 2) with 3 by ring. replace (1 + 1) with 2 by ring. rewrite (rnd_id 24 (-149) rnd H 2), (rnd_id 24 (-149) rnd H 3) by (apply single_Z; lia).
  replace (2 + 1) with 3 by ring. rewrite (rnd_id 24 (-149) rnd H 3) by (apply single_Z; lia). auto.
Qed.
End Witness.

(** Three animations of equal weight have weights of which the sum is 1 + 2^-25. *)
Theorem C126_sum_refuted : forall rnd, rounds single rnd -> exists l, f_blend_weights rnd [1; 1; 1] = Some l /\ Rsum l = 1 + 1 / 33554432.
Proof.
  intros rnd H. unfold f_blend_weights. destruct (total_ints rnd H) as [_ ->]. rewrite Rltb_t by lra. eexists. split; [reflexivity|]. cbn [map]. rewrite (third rnd H). cbn. lra.
Qed.
Print Assumptions C126_sum_refuted.

(** Two animations of weights 1 and 2 that both have a bone at 7: it is not shown at 7. *)
Theorem C126_same_pose_refuted : forall rnd, rounds single rnd -> exists l, f_blend_weights rnd [1; 2] = Some l /\ f_blend_coordinate rnd l [7; 7] 0 = 7 + 1 / 2097152.
Proof.
  intros rnd H. unfold f_blend_weights. destruct (total_ints rnd H) as [-> _]. rewrite Rltb_t by lra. eexists. split; [reflexivity|]. cbn [map]. rewrite (third rnd H), (two_thirds rnd H).
  cbn [f_blend_coordinate]. rewrite (seven_thirds rnd H), (fourteen_thirds rnd H). rewrite Rplus_0_l, (rnd_id 24 (-149) rnd H (9786710 / 4194304)).
  - replace (9786710 / 4194304 + 9786710 / 2097152) with (14680065 / 2097152) by field. rewrite (rnd_id 24 (-149) rnd H); [field|].
    replace (14680065 / 2097152) with (14680065 * pow2 (-21)); [apply fmt_grid_in; lia|]. change (-21)%Z with (- (21))%Z. rewrite pow2_inv, pow2_IZR by lia. change (2 ^ 21)%Z with 2097152%Z. field.
  - replace (9786710 / 4194304) with (9786710 * pow2 (-22)); [apply fmt_grid_in; lia|]. change (-22)%Z with (- (22))%Z. rewrite pow2_inv, pow2_IZR by lia. change (2 ^ 22)%Z with 4194304%Z. field.
Qed.
Print Assumptions C126_same_pose_refuted.

(** IEEE rounding and the weights 1, 0 and 2 meet the hypotheses. *)
Example C126_case : rounds single (round_even 24 (-149)) /\ Forall single [1; 0; 2] /\ exists l, f_blend_weights (round_even 24 (-149)) [1; 0; 2] = Some l /\ f_set_weights (round_even 24 (-149)) [1; 0; 2] [1; 0; 0; 0] = Some (l ++ [0]).
Proof.
  assert (H : rounds single (round_even 24 (-149))) by (apply round_even_rounds; lia). split; [exact H|]. split; [repeat apply Forall_cons; try apply Forall_nil; apply single_Z; lia|].
  assert (T : f_weights_total (round_even 24 (-149)) [1; 0; 2] 0 = Some 3).
  { cbn [f_weights_total]. rewrite !(Rleb_t 0) by lra. rewrite Rplus_0_l, (rnd_id 24 (-149) _ H 1) by (apply single_Z; lia). rewrite Rplus_0_r, (rnd_id 24 (-149) _ H 1) by (apply single_Z; lia). replace (1 + 2) with 3 by ring. now rewrite (rnd_id 24 (-149) _ H 3) by (apply single_Z; lia). }
  unfold f_blend_weights, f_set_weights. rewrite T, Rltb_t by lra. eexists. split; reflexivity.
Qed.
