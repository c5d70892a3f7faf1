(** Modular arithmetic of ranges in single precision (C115). *)
From Verif Require Import RBase RoundModel RoundProofs RoundRangeModel.

Lemma P24 : (0 < 24)%Z. Proof. lia. Qed.

(** * Ranges on which the code's rounding is harmless *)
(** The length is a single, zero is in the range, and the end is at least as far out as
    the start: (0, L], (-h, h], ... *)
Definition benign (s e : R) : Prop := single s /\ single e /\ single (e - s) /\ s < e /\ s <= 0 /\ - s <= e.

Section S.
Variable rnd : R -> R.
Hypothesis H : rounds single rnd.
Variables s e : R.
Hypothesis B : benign s e.
Local Notation L := (e - s).

Lemma len_exact : f_length rnd s e = L.
Proof. unfold f_length. apply (rnd_id _ _ _ H), B. Qed.
Lemma contains_iff x : f_contains s e x = true <-> s < x <= e.
Proof. unfold f_contains. now rewrite andb_true_iff, Rltb_true, Rleb_true. Qed.

(** A positive number that is a sum of singles doesn't round to zero. *)
Lemma pos_sum x y : single x -> single y -> 0 < x + y -> 0 < rnd (x + y).
Proof.
  intros X Y Q. destruct (fmt_grid0 _ _ _ X) as [n N], (fmt_grid0 _ _ _ Y) as [m M].
  set (t := pow2 (-149)) in *. pose proof (pow2_pos (-149)) as T0. fold t in T0.
  assert (TS : single t) by (exists 1%Z, (-149)%Z; split; [cbn; lia|split; [lia|unfold t; lra]]).
  assert (t <= x + y).
  { rewrite N, M, <- Rmult_plus_distr_r, <- plus_IZR in *.
    assert (0 < IZR (n + m)) by (apply Rmult_lt_reg_r with t; lra).
    assert (1 <= n + m)%Z by (apply lt_IZR in H0; lia). apply IZR_le in H1. nra. }
  pose proof (rnd_ge_fmt _ _ _ H _ _ TS H0). lra.
Qed.

(** One step up, from at most the start. *)
Lemma up_le x : x <= s -> rnd (x + L) <= e.
Proof. intros X. apply (rnd_le_fmt _ _ _ H); [apply B|lra]. Qed.
Lemma up_gt x : single x -> s - L < x -> s < rnd (x + L).
Proof.
  destruct B as (S1 & S2 & S3 & B1 & B2 & B3). intros X Q.
  destruct (Rlt_le_dec 0 (x + L)) as [C|C].
  - pose proof (pos_sum x L X S3 C). lra.
  - rewrite (rnd_id _ _ _ H); [lra|].
    replace (x + L) with (- (- x - L)) by lra. apply fmt_opp, sterbenz; [lia|now apply fmt_opp|easy|lra|lra|lra].
Qed.
(** One step down, from above the end. *)
Lemma down_gt x : single x -> e < x -> s < rnd (x - L).
Proof.
  destruct B as (S1 & S2 & S3 & B1 & B2 & B3). intros X Q.
  destruct (Rle_lt_dec x (2 * L)) as [C|C].
  - rewrite (rnd_id _ _ _ H); [lra|]. apply sterbenz; [lia|easy|easy|lra|lra|lra].
  - assert (L <= rnd (x - L)) by (apply (rnd_ge_fmt _ _ _ H); [easy|lra]). lra.
Qed.
Lemma down_le x : x <= e + L -> rnd (x - L) <= e.
Proof. intros X. apply (rnd_le_fmt _ _ _ H); [apply B|lra]. Qed.

Lemma adjust_ok x : single x -> s - L < x <= e + L ->
  exists k, rnd (x + f_adjustment rnd s e x) = rnd (x + IZR k * L) /\ s < rnd (x + IZR k * L) <= e.
Proof.
  intros X [Q1 Q2]. unfold f_adjustment. rewrite len_exact. destruct (Rleb_spec x s) as [C|C].
  - exists 1%Z. rewrite Rmult_1_l. split; [easy|]. split; [now apply up_gt|now apply up_le].
  - destruct (Rltb_spec e x) as [D|D].
    + exists (-1)%Z. replace (x + -1 * L) with (x - L) by lra. split; [f_equal; lra|].
      split; [now apply down_gt|now apply down_le].
    + exists 0%Z. rewrite Rmult_0_l. split; [easy|]. rewrite Rplus_0_r, (rnd_id _ _ _ H x X). lra.
Qed.
Lemma wild_range x r : f_normalize_wild rnd s e x = Some r -> s < r <= e.
Proof.
  unfold f_normalize_wild. destruct (negb _); [|discriminate]. destruct (f_contains s e _) eqn:C; [|discriminate].
  apply contains_iff in C. intros [= <-]. exact C.
Qed.
Lemma close_range fuel : forall (below : bool) x n r, single x -> (if below then x <= s else e < x) ->
  f_close_loop rnd s e fuel below x n = Some r -> s < r <= e.
Proof.
  induction fuel as [|fuel IH]; intros below x n r X Q E; [discriminate|]. cbn [f_close_loop] in E. rewrite len_exact in E.
  destruct (4 <? n)%Z; [now apply wild_range in E|]. destruct below.
  - destruct (Rleb_spec (rnd (x + L)) s) as [C|C].
    + apply IH in E; [easy|apply (rnd_fmt _ _ _ H)|easy].
    + injection E as <-. pose proof (up_le x Q). lra.
  - destruct (Rltb_spec e (rnd (x - L))) as [C|C].
    + apply IH in E; [easy|apply (rnd_fmt _ _ _ H)|easy].
    + injection E as <-. pose proof (down_gt x X Q). lra.
Qed.
End S.

(** Normalize: on benign ranges, a value within a length of the bounds is normalised by
    adding a whole number of lengths, rounded once. *)
Theorem C115_normalize_partial : forall rnd s e x, rounds single rnd -> benign s e -> single x ->
  s - (e - s) < x <= e + (e - s) ->
  exists r k, f_normalize rnd s e x = Some r /\ s < r <= e /\ r = rnd (x + IZR k * (e - s)).
Proof.
  intros rnd s e x H B X Q. destruct (adjust_ok rnd H s e B x X Q) as (k & E & V).
  exists (rnd (x + IZR k * (e - s))), k. unfold f_normalize. rewrite E, (proj2 (contains_iff s e _) V). easy.
Qed.
Print Assumptions C115_normalize_partial.

(** On a range around zero there is no rounding error at all. *)
Lemma sym_benign h : single h -> 0 < h -> benign (- h) h.
Proof.
  intros S P. split; [now apply fmt_opp|]. split; [easy|]. split; [|lra].
  destruct S as (m & e & A & E & ->). exists m, (e + 1)%Z. rewrite pow2_succ. split; [easy|split; [lia|lra]].
Qed.
Lemma sym_exact rnd h x : rounds single rnd -> single h -> 0 < h -> single x -> - (3 * h) < x <= 3 * h ->
  exists k, rnd (x + f_adjustment rnd (- h) h x) = x + IZR k * (2 * h) /\ - h < x + IZR k * (2 * h) <= h.
Proof.
  intros H S P X Q. pose proof (sym_benign h S P) as B. destruct (adjust_ok rnd H _ _ B x X) as (k & E & V); [lra|].
  unfold f_adjustment in *. rewrite (len_exact rnd H _ _ B) in *. assert (S2 : single (2 * h)) by (replace (2 * h) with (h - - h) by lra; apply B).
  clear k E V. destruct (Rleb_spec x (- h)) as [C|C].
  - exists 1%Z. rewrite (rnd_id _ _ _ H); [lra|].
    replace (x + (h - - h)) with (- (- x - 2 * h)) by lra. apply fmt_opp, sterbenz; [lia|now apply fmt_opp|easy|lra|lra|lra].
  - destruct (Rltb_spec h x) as [D|D].
    + exists (-1)%Z. rewrite (rnd_id _ _ _ H); [lra|].
      replace (x + - (h - - h)) with (x - 2 * h) by lra. apply sterbenz; [lia|easy|easy|lra|lra|lra].
    + exists 0%Z. rewrite Rplus_0_r, (rnd_id _ _ _ H x X). lra.
Qed.
Theorem C115_symmetric : forall rnd h x, rounds single rnd -> single h -> 0 < h -> single x -> - (3 * h) < x <= 3 * h ->
  exists r k, f_normalize rnd (- h) h x = Some r /\ - h < r <= h /\ r = x + IZR k * (2 * h).
Proof.
  intros rnd h x H S P X Q. destruct (sym_exact rnd h x H S P X Q) as (k & E & V).
  exists (x + IZR k * (2 * h)), k. unfold f_normalize. rewrite E, (proj2 (contains_iff (- h) h _) V). easy.
Qed.
Print Assumptions C115_symmetric.

(** In general the assert of Normalize fails: 2^-30 is within a length of the bounds of
    (1, 2], and of those of (-1, 0]. *)
Lemma one_tiny rnd : rounds single rnd -> rnd (1 + pow2 (-30)) = 1.
Proof.
  intros H. assert (P30 : pow2 (-30) = / 1073741824).
  { change (-30)%Z with (- (30))%Z. rewrite pow2_inv, pow2_IZR by lia. reflexivity. }
  rewrite (rnd_at 24 (-149) P24 rnd H _ 1 8388608).
  - change (1 - 24)%Z with (- (23))%Z. rewrite pow2_inv, pow2_IZR by lia. cbn. lra.
  - rewrite pow2_1, P30. change (1 - 1)%Z with 0%Z. rewrite pow2_0. rabs; lra.
  - lia.
  - rewrite P30. change (1 - 24)%Z with (- (23))%Z. change (- (23) - 1)%Z with (- (24))%Z.
    rewrite !pow2_inv, !pow2_IZR by lia. cbn. rabs; lra.
Qed.
Lemma minus_one_tiny rnd : rounds single rnd -> rnd (pow2 (-30) - 1) = -1.
Proof.
  intros H. assert (P30 : pow2 (-30) = / 1073741824).
  { change (-30)%Z with (- (30))%Z. rewrite pow2_inv, pow2_IZR by lia. reflexivity. }
  rewrite (rnd_at 24 (-149) P24 rnd H _ 0 (-16777216)).
  - change (0 - 24)%Z with (- (24))%Z. rewrite pow2_inv, pow2_IZR by lia. cbn. lra.
  - rewrite pow2_0, P30. change (0 - 1)%Z with (- (1))%Z. rewrite pow2_inv, pow2_1. rabs; lra.
  - lia.
  - rewrite P30. change (0 - 24)%Z with (- (24))%Z. change (- (24) - 1)%Z with (- (25))%Z.
    rewrite !pow2_inv, !pow2_IZR by lia. cbn. rabs; lra.
Qed.
Lemma int_single n : (Z.abs n < 2 ^ 24)%Z -> single (IZR n).
Proof. intros A. exists n, 0%Z. rewrite pow2_0. split; [easy|split; [lia|lra]]. Qed.
Lemma tiny : single (pow2 (-30)) /\ 0 < pow2 (-30) < 1.
Proof.
  split; [exists 1%Z, (-30)%Z; split; [cbn; lia|split; [lia|lra]]|].
  change (-30)%Z with (- (30))%Z. rewrite pow2_inv, pow2_IZR by lia. cbn. lra.
Qed.

Theorem C115_normalize_refuted : forall rnd, rounds single rnd -> let x := pow2 (-30) in
  single x /\ 1 - (2 - 1) < x <= 2 + (2 - 1) /\ f_normalize rnd 1 2 x = None /\
  (-1) - (0 - -1) < x <= 0 + (0 - -1) /\ f_normalize rnd (-1) 0 x = None.
Proof.
  intros rnd H x. destruct tiny as [S T]. fold x in S, T. split; [easy|].
  assert (L1 : f_length rnd 1 2 = 1) by (unfold f_length; replace (2 - 1) with 1 by lra; apply (rnd_id _ _ _ H), int_single; cbn; lia).
  assert (L2 : f_length rnd (-1) 0 = 1) by (unfold f_length; replace (0 - -1) with 1 by lra; apply (rnd_id _ _ _ H), int_single; cbn; lia).
  split; [lra|]. split; [|split; [lra|]].
  - unfold f_normalize, f_adjustment. rewrite L1, (Rleb_t x 1) by lra. replace (x + 1) with (1 + pow2 (-30)) by (unfold x; lra). cbv zeta. rewrite (one_tiny rnd H).
    unfold f_contains. rewrite (Rltb_f 1 1) by lra. reflexivity.
  - unfold f_normalize, f_adjustment. rewrite L2, (Rleb_f x (-1)), (Rltb_t 0 x) by lra.
    replace (x + - (1)) with (pow2 (-30) - 1) by (unfold x; lra). cbv zeta. rewrite (minus_one_tiny rnd H).
    unfold f_contains. rewrite (Rltb_f (-1) (-1)) by lra. reflexivity.
Qed.
Print Assumptions C115_normalize_refuted.

(** NormalizeCloseValue: on benign ranges whatever it returns is normalised. *)
Theorem C115_close_partial : forall rnd s e x r, rounds single rnd -> benign s e -> single x ->
  f_normalize_close rnd s e x = Some r -> s < r <= e.
Proof.
  intros rnd s e x r H B X E. unfold f_normalize_close in E.
  destruct (Rleb_spec x s) as [C|C]; cbn [negb andb] in E; [now apply (close_range rnd H s e B) in E|].
  destruct (Rltb_spec e x) as [D|D]; cbn [negb andb] in E; [now apply (close_range rnd H s e B) in E|].
  injection E as <-. lra.
Qed.
Print Assumptions C115_close_partial.
(** In general it isn't ("still guaranteed to return a normalized value", range.h:120):
    in (-1, 0] it takes 2^-30 to the excluded start. *)
Theorem C115_close_refuted : forall rnd, rounds single rnd -> f_normalize_close rnd (-1) 0 (pow2 (-30)) = Some (-1).
Proof.
  intros rnd H. destruct tiny as [S T]. set (x := pow2 (-30)) in *.
  assert (L2 : f_length rnd (-1) 0 = 1) by (unfold f_length; replace (0 - -1) with 1 by lra; apply (rnd_id _ _ _ H), int_single; cbn; lia).
  unfold f_normalize_close. rewrite (Rleb_f x (-1)), (Rltb_t 0 x) by lra. cbn [negb andb f_close_loop].
  rewrite L2. change (4 <? 0)%Z with false. cbn iota. assert (M : rnd (x - 1) = -1) by exact (minus_one_tiny rnd H). rewrite !M, (Rltb_f 0 (-1)) by lra. reflexivity.
Qed.
Print Assumptions C115_close_refuted.

(** NormalizeWildValue on a range around zero: up to 2^22 half-lengths away. *)
Section Wild.
Variable rnd : R -> R.
Hypothesis H : rounds single rnd.
Lemma rel1 v : Rabs (rnd v - v) <= Rabs v / 16777216 + pow2 (-150).
Proof.
  eapply Rle_trans; [apply (rnd_rel 24 (-149) P24 rnd H)|]. change (-24)%Z with (- (24))%Z. rewrite (pow2_inv 24), (pow2_IZR 24) by lia.
  change (-149 - 1)%Z with (-150)%Z. change (2 ^ 24)%Z with 16777216%Z. lra.
Qed.
Lemma rel_scaled h v : pow2 (-100) <= h -> Rabs (rnd (v * h) / h - v) <= Rabs v / 16777216 + / 1099511627776.
Proof.
  intros B. pose proof (pow2_pos (-100)) as P. assert (H0 : 0 < h) by lra.
  assert (T : pow2 (-150) <= h * / 1099511627776).
  { assert (E : pow2 (-150) <= pow2 (-100) * pow2 (- (40))) by (rewrite <- pow2_add; apply pow2_le; lia).
    rewrite (pow2_inv 40), (pow2_IZR 40) in E by lia. change (2 ^ 40)%Z with 1099511627776%Z in E. lra. }
  apply Rmult_le_reg_r with h; [easy|].
  rewrite <- (Rabs_pos_eq h) at 3 by lra. rewrite <- Rabs_mult.
  replace ((rnd (v * h) / h - v) * h) with (rnd (v * h) - v * h) by (field; lra).
  eapply Rle_trans; [apply rel1|]. rewrite Rabs_mult, (Rabs_pos_eq h) by lra. lra.
Qed.
Lemma wild_ok h x : single h -> pow2 (-100) <= h -> single x -> Rabs x <= 4194304 * h ->
  exists r k, f_normalize_wild rnd (- h) h x = Some r /\ - h < r <= h /\
    Rabs (r - (x + IZR k * (2 * h))) <= (Rabs x + 16 * h) * / 16777216.
Proof.
  intros S B X Q. pose proof (pow2_pos (-100)) as P. assert (H0 : 0 < h) by lra.
  unfold f_normalize_wild. rewrite (len_exact rnd H _ _ (sym_benign h S H0)).
  rewrite (Reqb_f (h - - h)) by lra. cbn [negb].
  set (x' := x / h). assert (EX : x = x' * h) by (unfold x'; field; lra).
  assert (QX : Rabs x' <= 4194304).
  { rewrite EX, Rabs_mult, (Rabs_pos_eq h) in Q by lra. now apply Rmult_le_reg_r in Q. }
  replace (x - - h) with ((x' + 1) * h) by (rewrite EX; ring).
  pose proof (rel_scaled h (x' + 1) B) as RD. set (d := rnd ((x' + 1) * h)) in *. set (d' := d / h) in *.
  replace (d / (h - - h)) with (d' / 2) by (unfold d'; field; lra).
  pose proof (rel1 (d' / 2)) as RU. set (u := rnd (d' / 2)) in *.
  assert (T : pow2 (-150) <= / 1099511627776).
  { replace (/ 1099511627776) with (pow2 (- (40))) by (rewrite pow2_inv, pow2_IZR by lia; reflexivity). apply pow2_le. lia. }
  destruct (Rfloor_bounds u) as [F1 F2]. set (n := Rfloor u) in *.
  replace (IZR n * (h - - h)) with (2 * IZR n * h) by ring.
  pose proof (rel_scaled h (2 * IZR n) B) as RY. set (y := rnd (2 * IZR n * h)) in *. set (y' := y / h) in *.
  assert (EY : y = y' * h) by (unfold y'; field; lra).
  replace (x - y) with ((x' - y') * h) by (rewrite EX, EY; ring).
  pose proof (rel_scaled h (x' - y') B) as RC. set (c := rnd ((x' - y') * h)) in *. set (c' := c / h) in *.
  assert (EC : c = c' * h) by (unfold c'; field; lra).
  clearbody d' u n y' c'.
  assert (D1 : Rabs (d' - (x' + 1)) <= 26 / 100) by (clear - RD QX; rabs; lra).
  assert (U1 : Rabs (u - d' / 2) <= 13 / 100) by (clear - RU T D1 QX; rabs; lra).
  assert (N1 : - (16 / 10) <= x' - 2 * IZR n <= 16 / 10) by (clear - D1 U1 F1 F2; rabs; lra).
  assert (Y0 : Rabs (2 * IZR n) <= Rabs x' + 2) by (clear - N1; rabs; lra).
  assert (Y1 : Rabs (y' - 2 * IZR n) <= (Rabs x' + 3) / 16777216) by lra.
  assert (C0 : Rabs (x' - y') <= 2) by (clear - Y1 N1 QX; rabs; lra).
  assert (C1 : Rabs (c' - (x' - y')) <= 3 / 16777216) by lra.
  assert (C2 : - (3) < c' <= 3) by (clear - C0 C1; rabs; lra).
  destruct (sym_exact rnd h c H S H0 (rnd_fmt _ _ _ H _)) as (k & E & V).
  { rewrite EC. split; nra. }
  exists (c + IZR k * (2 * h)), (k - n)%Z. rewrite E, (proj2 (contains_iff (- h) h _) V). split; [easy|]. split; [easy|].
  replace (c + IZR k * (2 * h) - (x + IZR (k - n) * (2 * h))) with (((c' - (x' - y')) - (y' - 2 * IZR n)) * h)
    by (rewrite minus_IZR, EC, EX; ring).
  rewrite Rabs_mult, (Rabs_pos_eq h) by lra.
  replace ((Rabs x + 16 * h) * / 16777216) with ((Rabs x' + 16) / 16777216 * h).
  - apply Rmult_le_compat_r; [lra|]. eapply Rle_trans; [apply Rabs_triang|]. rewrite Rabs_Ropp. lra.
  - rewrite EX, Rabs_mult, (Rabs_pos_eq h) by lra. field.
Qed.
End Wild.
Theorem C115_wild_partial : forall rnd h x, rounds single rnd -> single h -> pow2 (-100) <= h -> single x ->
  Rabs x <= 4194304 * h ->
  exists r k, f_normalize_wild rnd (- h) h x = Some r /\ - h < r <= h /\
    Rabs (r - (x + IZR k * (2 * h))) <= (Rabs x + 16 * h) * / 16777216.
Proof. intros rnd h x H. now apply wild_ok. Qed.
Print Assumptions C115_wild_partial.

(** "x can be any value" (range.h:155)?  In (-3.5, 3.5], NormalizeWildValue(235035600.0f)
    fails its assert. *)
Theorem C115_wild_refuted : forall rnd, rounds single rnd ->
  single 235035600 /\ single (7 / 2) /\ f_normalize_wild rnd (- (7 / 2)) (7 / 2) 235035600 = None.
Proof.
  intros rnd H.
  assert (SX : single 235035600) by (exists 14689725%Z, 4%Z; rewrite pow2_IZR by lia; split; [cbn; lia|split; [lia|cbn; lra]]).
  assert (SH : single (7 / 2)).
  { exists 7%Z, (- (1))%Z. rewrite pow2_inv, pow2_1. split; [cbn; lia|split; [lia|lra]]. }
  split; [easy|]. split; [easy|]. unfold f_normalize_wild, f_adjustment.
  rewrite (len_exact rnd H _ _ (sym_benign (7 / 2) SH ltac:(lra))).
  replace (7 / 2 - - (7 / 2)) with 7 by lra. rewrite (Reqb_f 7 0) by lra. cbn [negb].
  assert (D : rnd (235035600 - - (7 / 2)) = 235035600).
  { rewrite (rnd_at 24 (-149) P24 rnd H _ 28 14689725).
    - change (28 - 24)%Z with 4%Z. rewrite pow2_IZR by lia. cbn. lra.
    - rewrite !pow2_IZR by lia. cbn. rabs; lra.
    - lia.
    - change (28 - 24)%Z with 4%Z. rewrite !pow2_IZR by lia. cbn. rabs; lra. }
  rewrite D.
  assert (U : rnd (235035600 / 7) = 33576516).
  { rewrite (rnd_at 24 (-149) P24 rnd H _ 26 8394129).
    - change (26 - 24)%Z with 2%Z. rewrite pow2_IZR by lia. cbn. lra.
    - rewrite !pow2_IZR by lia. cbn. rabs; lra.
    - lia.
    - change (26 - 24)%Z with 2%Z. rewrite !pow2_IZR by lia. cbn. rabs; lra. }
  rewrite U. assert (FL : Rfloor 33576516 = 33576516%Z) by (apply Rfloor_unique; lra). rewrite FL.
  assert (Y : rnd (33576516 * 7) = 235035616).
  { rewrite (rnd_at 24 (-149) P24 rnd H _ 28 14689726).
    - change (28 - 24)%Z with 4%Z. rewrite pow2_IZR by lia. cbn. lra.
    - rewrite !pow2_IZR by lia. cbn. rabs; lra.
    - lia.
    - change (28 - 24)%Z with 4%Z. rewrite !pow2_IZR by lia. cbn. rabs; lra. }
  rewrite Y. replace (235035600 - 235035616) with (-16) by lra.
  rewrite (rnd_id _ _ _ H (-16)) by (apply int_single; cbn; lia).
  rewrite (Rleb_t (-16)) by lra. replace (-16 + 7) with (-9) by lra.
  rewrite (rnd_id _ _ _ H (-9)) by (apply int_single; cbn; lia).
  unfold f_contains. rewrite (Rltb_f (- (7 / 2))) by lra. reflexivity.
Qed.
Print Assumptions C115_wild_refuted.

(** The hypotheses can be met, with a rounding step that isn't exact. *)
Example C115_case : benign 0 1 /\ benign (-1) 2 /\ single (- pow2 (-30)) /\
  0 - (1 - 0) < - pow2 (-30) <= 1 + (1 - 0) /\ pow2 (-100) <= 1.
Proof.
  destruct tiny as [S T].
  assert (S0 : single 0) by (apply int_single; cbn; lia). assert (S1 : single 1) by (apply int_single; cbn; lia).
  assert (S2 : single 2) by (apply int_single; cbn; lia). assert (S3 : single 3) by (apply int_single; cbn; lia).
  assert (SM : single (-1)) by (apply int_single; cbn; lia).
  split; [|split; [|split; [now apply fmt_opp|split; [lra|]]]].
  - unfold benign. replace (1 - 0) with 1 by lra. repeat (split; [easy|]). lra.
  - unfold benign. replace (2 - -1) with 3 by lra. repeat (split; [easy|]). lra.
  - rewrite <- pow2_0. apply pow2_le. lia.
Qed.
