(** C38: the two strategies for updating the positions.  Also the cases in which C35
    and C37 fail. *)
From Verif Require Import RBase BaseFacts RangeModel RangeProofs CurveModel CurveProofs CompactSplineModel CompactSplineSpec CompactSplineProofs CompactSplineIndex CompactSplineEvalProps EvaluatorModel EvaluatorSpec EvaluatorProofs EvaluatorPlay EvaluatorProps EvaluatorOpProps EvaluatorBlendProps.

(** The number of indices whose segment ends during the frame. *)
Definition ended (delta : R) (ev : evaluator) : Z :=
  len (filter (fun s => match cubic_x_end s with Some e => Rltb e (cubic_x s + delta * rate s) | None => false end) ev).
Lemma ended_cons delta s ev : ended delta (s :: ev) = ((if past_end (step_x delta s) then 1 else 0) + ended delta ev)%Z.
Proof.
  unfold ended. cbn [filter]. unfold past_end. cbn [step_x cubic_x_end cubic_x].
  destruct (match cubic_x_end s with Some e => Rltb e (cubic_x s + delta * rate s) | None => false end); [rewrite len_cons|]; lia.
Qed.

Lemma write_bytes_ok : forall bs m a, (0 <= a)%Z -> (a + len bs <= len m)%Z -> exists m', write_bytes m a bs = Some m' /\ len m' = len m /\
  (forall j, ~ (a <= j < a + len bs)%Z -> getz m' j = getz m j) /\ (forall j, (0 <= j < len bs)%Z -> getz m' (a + j) = getz bs j).
Proof.
  induction bs as [|b bs IH]; intros m a A L; cbn [write_bytes].
  - exists m. split; [reflexivity|]. split; [reflexivity|]. split; [auto|]. intros j J. cbn in J. lia.
  - rewrite len_cons in L. pose proof (len_nonneg bs). destruct (setz_Some m a b ltac:(lia)) as [m1 S]. rewrite S. pose proof (setz_len _ _ _ _ S) as L1.
    destruct (IH m1 (a + 1)%Z ltac:(lia) ltac:(lia)) as (m' & W & L' & OUT & INN). exists m'. split; [exact W|]. split; [lia|]. split.
    + intros j J. rewrite len_cons in J. rewrite OUT by lia. eapply getz_setz_neq; eauto. lia.
    + intros j J. rewrite len_cons in J. destruct (Z.eq_dec j 0) as [->|N].
      * rewrite Z.add_0_r, OUT by lia. rewrite (getz_setz_eq _ _ _ _ S). reflexivity.
      * replace (a + j)%Z with (a + 1 + (j - 1))%Z by lia. rewrite INN by lia. change (b :: bs) with ([b] ++ bs). rewrite getz_app2 by (cbn; lia). reflexivity.
Qed.
Lemma read_written m a v : (0 <= v < 65536)%Z -> (forall j, (0 <= j < 4)%Z -> getz m (a + j) = getz (int_bytes v) j) -> read_int m a = Some v.
Proof.
  intros V H. unfold read_int. rewrite <- (Z.add_0_r a) at 1. rewrite !H by lia. unfold int_bytes.
  assert (G : forall a b c d : Z, getz [a; b; c; d] 0 = Some a /\ getz [a; b; c; d] 1 = Some b /\ getz [a; b; c; d] 2 = Some c /\ getz [a; b; c; d] 3 = Some d) by (intros; repeat split; reflexivity).
  destruct (G (v mod 256)%Z ((v / 256) mod 256)%Z ((v / 65536) mod 256)%Z ((v / 16777216) mod 256)%Z) as (-> & -> & -> & ->).
  f_equal. assert (v / 65536 = 0)%Z as -> by (apply Z.div_small; lia). assert (v / 16777216 = 0)%Z as -> by (apply Z.div_small; lia). change (0 mod 256)%Z with 0%Z.
  assert ((v / 256) mod 256 = v / 256)%Z as -> by (apply Z.mod_small; split; [apply Z.div_pos; lia|apply Z.div_lt_upper_bound; lia]).
  pose proof (Z.div_mod v 256 ltac:(lia)). lia.
Qed.
Lemma read_int_ext m m' a : (forall j, (0 <= j < 4)%Z -> getz m' (a + j) = getz m (a + j)) -> read_int m' a = read_int m a.
Proof. intros H. unfold read_int. pose proof (H 0%Z ltac:(lia)) as H0. rewrite Z.add_0_r in H0. rewrite H0, !H by lia. reflexivity. Qed.
Lemma read_ints_ok m : forall l a, (forall k v, getz l k = Some v -> read_int m (a + 4 * k) = Some v) -> read_ints m a (length l) = Some l.
Proof.
  induction l as [|v l IH]; intros a H; cbn [read_ints length]; [reflexivity|].
  pose proof (H 0%Z v eq_refl) as H0. replace (a + 4 * 0)%Z with a in H0 by lia. rewrite H0. rewrite IH; [reflexivity|].
  intros k w K. replace (a + 4 + 4 * k)%Z with (a + 4 * (k + 1))%Z by lia. apply H. change (v :: l) with ([v] ++ l). pose proof (getz_Some _ _ _ K). rewrite getz_app2 by (cbn; lia).
  cbn. replace (k + 1 - 1)%Z with k by lia. exact K.
Qed.

Lemma mask_ok delta : forall ev m a, (0 <= a)%Z -> (a + len ev <= len m)%Z -> exists m', update_and_get_mask delta ev m a = Some (map (step_x delta) ev, m') /\ len m' = len m /\
  (forall j, (j < a)%Z -> getz m' j = getz m j) /\
  forall k s, getz ev k = Some s -> getz m' (a + k) = Some (if past_end (step_x delta s) then 255 else 0)%Z.
Proof.
  induction ev as [|s ev IH]; intros m a A L; cbn [update_and_get_mask map].
  - exists m. split; [reflexivity|]. split; [reflexivity|]. split; [auto|]. intros k s K. rewrite getz_None in K by (cbn; lia). discriminate.
  - rewrite len_cons in L. pose proof (len_nonneg ev). destruct (setz_Some m a (if past_end (step_x delta s) then 255 else 0)%Z ltac:(lia)) as [m1 S]. rewrite S. pose proof (setz_len _ _ _ _ S) as L1.
    destruct (IH m1 (a + 1)%Z ltac:(lia) ltac:(lia)) as (m' & U & L' & B & G). rewrite U. exists m'. split; [reflexivity|]. split; [lia|]. split.
    + intros j J. rewrite B by lia. eapply getz_setz_neq; eauto. lia.
    + intros k t K. pose proof (getz_Some _ _ _ K). destruct (Z.eq_dec k 0) as [->|N].
      * cbn in K. injection K as <-. rewrite Z.add_0_r, B by lia. eapply getz_setz_eq; eauto.
      * replace (a + k)%Z with (a + 1 + (k - 1))%Z by lia. apply G. change (s :: ev) with ([s] ++ ev) in K. rewrite getz_app2 in K by (cbn; lia). cbn in K. exact K.
Qed.
Lemma one_step_fst delta : forall ev i, fst (update_one_step delta i ev) = map (step_x delta) ev.
Proof.
  induction ev as [|s ev IH]; intros i; cbn [update_one_step map]; [reflexivity|]. specialize (IH (i + 1)%Z). destruct (update_one_step delta (i + 1) ev). cbn [fst] in *. now rewrite IH.
Qed.
Lemma one_step_len delta : forall ev i, len (snd (update_one_step delta i ev)) = ended delta ev.
Proof.
  induction ev as [|s ev IH]; intros i; cbn [update_one_step]; [reflexivity|]. specialize (IH (i + 1)%Z). destruct (update_one_step delta (i + 1) ev). cbn [snd] in *. rewrite ended_cons.
  destruct (past_end (step_x delta s)); [rewrite len_cons|]; lia.
Qed.

Lemma convert_ok delta a : forall ev i m l0, (0 <= i)%Z -> (i + len ev <= 65536)%Z -> (0 <= a)%Z -> (a + i + len ev <= len m)%Z ->
  (forall k v, getz l0 k = Some v -> read_int m (4 * k) = Some v) ->
  (forall k s, getz ev k = Some s -> getz m (a + i + k) = Some (if past_end (step_x delta s) then 255 else 0)%Z) ->
  (forall k, (0 <= k < len ev)%Z -> (4 * (len l0 + ended delta (firstn (Z.to_nat k) ev)) + 3 < a + i + k)%Z) ->
  exists m', convert_mask m a i (length ev) (len l0) = Some (m', len (l0 ++ snd (update_one_step delta i ev))) /\
    forall k v, getz (l0 ++ snd (update_one_step delta i ev)) k = Some v -> read_int m' (4 * k) = Some v.
Proof.
  induction ev as [|s ev IH]; intros i m l0 I N A L R MK C; cbn [convert_mask length update_one_step].
  - exists m. cbn [snd]. rewrite app_nil_r. auto.
  - rewrite len_cons in *. pose proof (len_nonneg ev). pose proof (len_nonneg l0). pose proof (C 0%Z ltac:(lia)) as C0. change (firstn (Z.to_nat 0) (s :: ev)) with (@nil slot) in C0. change (ended delta []) with 0%Z in C0.
    rewrite Z.mod_small by lia.
    destruct (write_bytes_ok (int_bytes i) m (4 * len l0)) as (m1 & W & L1 & OUT & INN); [lia|change (len (int_bytes i)) with 4%Z; lia|]. change (len (int_bytes i)) with 4%Z in OUT, INN.
    rewrite W. pose proof (MK 0%Z s eq_refl) as M0. rewrite Z.add_0_r in M0, C0. rewrite OUT, M0 by lia.
    assert (RV : read_int m1 (4 * len l0) = Some i) by (apply read_written; [lia|exact INN]).
    assert (R1 : forall k v, getz l0 k = Some v -> read_int m1 (4 * k) = Some v).
    { intros k v K. rewrite <- (R k v K). apply read_int_ext. intros j J. apply OUT. pose proof (getz_Some _ _ _ K). lia. }
    assert (MK1 : forall k t, getz ev k = Some t -> getz m1 (a + (i + 1) + k) = Some (if past_end (step_x delta t) then 255 else 0)%Z).
    { intros k t K. pose proof (getz_Some _ _ _ K). rewrite OUT by lia. replace (a + (i + 1) + k)%Z with (a + i + (k + 1))%Z by lia. apply MK. change (s :: ev) with ([s] ++ ev). rewrite getz_app2 by (cbn; lia).
      cbn. replace (k + 1 - 1)%Z with k by lia. exact K. }
    assert (CN : forall k, (0 <= k < len ev)%Z -> (4 * (len l0 + (if past_end (step_x delta s) then 1 else 0) + ended delta (firstn (Z.to_nat k) ev)) + 3 < a + (i + 1) + k)%Z).
    { intros k K. specialize (C (k + 1)%Z ltac:(lia)). replace (Z.to_nat (k + 1)) with (S (Z.to_nat k)) in C by lia. cbn [firstn] in C. rewrite ended_cons in C. lia. }
    destruct (past_end (step_x delta s)) eqn:PE.
    + destruct (IH (i + 1)%Z m1 (l0 ++ [i])) as (m' & E & H').
      { lia. } { lia. } { lia. } { lia. }
      { intros k v K. destruct (Z.eq_dec k (len l0)) as [->|NE]; [rewrite getz_app in K by reflexivity; injection K as <-; exact RV|].
        pose proof (getz_Some _ _ _ K) as KR. rewrite len_app in KR. change (len [i]) with 1%Z in KR. rewrite getz_app1 in K by lia. auto. }
      { exact MK1. }
      { intros k K. rewrite len_app. change (len [i]) with 1%Z. apply CN, K. }
      rewrite len_app in E. change (len [i]) with 1%Z in E. change (255 =? 0)%Z with false. cbv iota. rewrite E.
      destruct (update_one_step delta (i + 1) ev) as [rest l]. cbn [snd] in *. rewrite <- app_assoc in *. cbn [app] in *. exists m'. auto.
    + change (0 =? 0)%Z with true. cbv iota. destruct (IH (i + 1)%Z m1 l0) as (m' & E & H'); [lia|lia|lia|lia|exact R1|exact MK1|intros k K; specialize (CN k K); lia|].
      rewrite E. destruct (update_one_step delta (i + 1) ev) as [rest l]. cbn [snd] in *. exists m'. auto.
Qed.

(** The strategies agree as long as the list of indices that is being written does
    not catch up with the mask that is being read in the same buffer. *)
Theorem C38_agree_partial : forall delta ev scratch, len scratch = (4 * len ev)%Z -> (len ev <= 65536)%Z ->
  (forall k, (0 <= k < len ev)%Z -> (4 * ended delta (firstn (Z.to_nat k) ev) + 3 < 4 * (len ev / 2) + k)%Z) ->
  advance_frame_two_steps delta ev scratch = advance_frame delta ev.
Proof.
  intros delta ev m LM LE C. unfold advance_frame_two_steps, update_two_steps, advance_frame, num_indices. pose proof (len_nonneg ev).
  assert (D : (2 * (len ev / 2) <= len ev)%Z) by (apply Z.mul_div_le; lia). assert (D0 : (0 <= len ev / 2)%Z) by (apply Z.div_pos; lia).
  assert (B : (4 * (len ev / 2) + len ev <= len m)%Z) by lia.
  destruct (mask_ok delta ev m (4 * (len ev / 2)) ltac:(lia) B) as (m1 & E & L1 & _ & G). rewrite E. cbn [fst snd].
  destruct (convert_ok delta (4 * (len ev / 2)) ev 0 m1 []) as (m2 & E2 & R); try lia.
  { intros k v K. rewrite getz_None in K by (cbn; lia). discriminate. }
  { intros k s K. replace (4 * (len ev / 2) + 0 + k)%Z with (4 * (len ev / 2) + k)%Z by lia. auto. }
  { intros k K. specialize (C k K). change (len []) with 0%Z. lia. }
  change (len []) with 0%Z in E2. rewrite E2. cbn [fst snd app] in *. pose proof (one_step_fst delta ev 0) as F.
  destruct (update_one_step delta 0 ev) as [ev1 l]. cbn [fst snd] in *. subst ev1.
  replace (Z.to_nat (len l)) with (length l) by (unfold len; lia). rewrite read_ints_ok; [reflexivity|]. intros k v K. replace (0 + 4 * k)%Z with (4 * k)%Z by lia. auto.
Qed.
Print Assumptions C38_agree_partial.

Lemma ended_firstn delta : forall ev k, (ended delta (firstn k ev) <= ended delta ev)%Z.
Proof.
  induction ev as [|s ev IH]; intros [|k]; cbn [firstn]; [lia|lia| |rewrite !ended_cons; specialize (IH k); lia].
  change (ended delta []) with 0%Z. unfold ended. apply len_nonneg.
Qed.
(** In particular they agree if fewer than half of the segments end in the frame. *)
Theorem C38_few_ends_partial : forall delta ev scratch, len scratch = (4 * len ev)%Z -> (len ev <= 65536)%Z -> (ended delta ev < len ev / 2)%Z ->
  advance_frame_two_steps delta ev scratch = advance_frame delta ev.
Proof. intros delta ev m LM LE E. apply C38_agree_partial; auto. intros k K. pose proof (ended_firstn delta ev (Z.to_nat k)). lia. Qed.
Print Assumptions C38_few_ends_partial.

(** With a single index the mask is overwritten before it is read: a segment that
    ends is never replaced by the next one. *)
Theorem C38_single_index : forall delta s scratch, len scratch = 4%Z ->
  advance_frame_two_steps delta [s] scratch = Some [evaluate_slot (step_x delta s)].
Proof.
  intros delta s m L. destruct m as [|a [|b [|c [|d [|? ?]]]]]; try (unfold len in L; cbn in L; lia). unfold advance_frame_two_steps, update_two_steps.
  repeat (progress (cbn -[step_x past_end evaluate_slot]; change (Pos.to_nat 1) with 1%nat; change (Pos.to_nat 2) with 2%nat; change (Pos.to_nat 3) with 3%nat)); reflexivity.
Qed.
Print Assumptions C38_single_index.

(** * One index playing [peak], with the model evaluated step by step. *)
Lemma peak_piece i : (i = 0 \/ i = 1)%Z -> range_x peak i = Some (IZR i, Some (IZR i + 1)) /\ node_x_at peak i = Some (IZR i) /\
  exists c, create_cubic_init peak i = Some c /\ forall t, keval (cubic_of c) t = if (i =? 0)%Z then 3 * t * t - 2 * t * t * t else 1 - 3 * t * t + 2 * t * t * t.
Proof.
  intros I. assert (NX : forall k y d, node_x (Node k y d) 1 = IZR k) by (intros; unfold node_x; cbn [nx]; ring). destruct I as [->| ->].
  - change (range_x peak 0) with (Some (node_x (Node 0 0 0) 1, Some (node_x (Node 1 65535 0) 1))). change (node_x_at peak 0) with (Some (node_x (Node 0 0 0) 1)).
    change (create_cubic_init peak 0) with (Some (create_cubic_between peak (Node 0 0 0) (Node 1 65535 0))).
    rewrite !NX. split; [f_equal; f_equal; f_equal; ring|]. split; [reflexivity|]. eexists. split; [reflexivity|]. intros t.
    unfold cubic_of, create_cubic_between, width_x. cbn [ci_start_y ci_start_derivative ci_end_y ci_end_derivative ci_width_x y_range x_granularity peak nx].
    rewrite peak_y0, peak_y1, !flat_slope. unfold cubic_init. rewrite Rltb_t by (cbn; lra). unfold keval. cbn [k3 k2 k1 k0]. change (1 - 0)%Z with 1%Z. cbn [Z.eqb]. field.
  - change (range_x peak 1) with (Some (node_x (Node 1 65535 0) 1, Some (node_x (Node 2 0 0) 1))). change (node_x_at peak 1) with (Some (node_x (Node 1 65535 0) 1)).
    change (create_cubic_init peak 1) with (Some (create_cubic_between peak (Node 1 65535 0) (Node 2 0 0))).
    rewrite !NX. split; [f_equal; f_equal; f_equal; lra|]. split; [reflexivity|]. eexists. split; [reflexivity|]. intros t.
    unfold cubic_of, create_cubic_between, width_x. cbn [ci_start_y ci_start_derivative ci_end_y ci_end_derivative ci_width_x y_range x_granularity peak nx].
    rewrite peak_y0, peak_y1, !flat_slope. unfold cubic_init. rewrite Rltb_t by (cbn; lra). unfold keval. cbn [k3 k2 k1 k0]. change (2 - 1)%Z with 1%Z. cbn [Z.eqb]. field.
Qed.
(** The index is in segment [i] of the peak, at [x]. *)
Definition on_peak (s : slot) (i : Z) (x : R) : Prop :=
  source s = Some peak /\ rate s = 1 /\ offset_y s = 0 /\ scale_y s = 1 /\ repeats s = false /\ x_index s = i /\ cubic_x s = x - IZR i /\ cubic_x_end s = Some 1 /\
  forall t, keval (curve s) t = if (i =? 0)%Z then 3 * t * t - 2 * t * t * t else 1 - 3 * t * t + 2 * t * t * t.
Lemma on_peak_evaluate s i x : on_peak s i x -> on_peak (evaluate_slot s) i x.
Proof. intros H. exact H. Qed.
Lemma peak_init s x k i : source s = Some peak -> rate s = 1 -> offset_y s = 0 -> scale_y s = 1 -> repeats s = false ->
  ((x_index s + 1) mod 65536 = 0 \/ (x_index s + 1) mod 65536 = 1)%Z -> (0 <= k <= 2)%Z -> IZR k <= x + 1 / 2 < IZR k + 1 ->
  i = (if (k =? 2)%Z then 1 else if (k =? 1)%Z then (x_index s + 1) mod 65536 else 0)%Z ->
  exists s', init_cubic s x = Some s' /\ on_peak s' i x.
Proof.
  intros S RA OF SC RE G K X I. unfold init_cubic. rewrite S, RE. unfold index_for_x_allowing_repeat. rewrite (peak_index x _ k K X G), <- I. cbn [negb orb].
  assert (I01 : (i = 0 \/ i = 1)%Z) by (rewrite I; destruct (k =? 2)%Z; auto; destruct (k =? 1)%Z; auto).
  destruct (peak_piece i I01) as (R & _ & c & C & E). rewrite R, C. eexists. split; [reflexivity|]. unfold on_peak.
  cbn [source rate offset_y scale_y repeats x_index cubic_x cubic_x_end curve fst]. do 7 (split; [auto|]).
  split; [unfold length_x; cbn; f_equal; ring|]. intros t. rewrite SC, OF. destruct (scaled_eval (cubic_of c) 1 0 t) as [-> _]. rewrite E. ring.
Qed.
(** Start playing the peak at [x]. *)
Lemma peak_starts x k : (0 <= k <= 2)%Z -> IZR k <= x + 1 / 2 < IZR k + 1 ->
  exists s, set_splines (set_num_indices [] 1) 0 1 (Some [peak]) (playback_from x) = Some [s] /\ on_peak s (if (k =? 2)%Z then 1 else 0)%Z x.
Proof.
  intros K X. destruct (peak_init (Slot 1 0 1 (Some peak) kInvalidSplineIndex false range_default 0 (Some 0) (Cubic 0 0 0 0) 0) x k (if (k =? 2)%Z then 1 else 0)%Z) as (s & E & P); auto.
  { cbn [x_index]. change ((kInvalidSplineIndex + 1) mod 65536)%Z with 0%Z. destruct (k =? 2)%Z, (k =? 1)%Z; reflexivity. }
  exists (evaluate_slot s). split; [|exact P].
  change (set_splines (set_num_indices [] 1) 0 1 (Some [peak]) (playback_from x)) with
    (ev' <- (s' <- (s' <- init_cubic (Slot 1 0 1 (Some peak) kInvalidSplineIndex false range_default 0 (Some 0) (Cubic 0 0 0 0) 0) x ;; Some (evaluate_slot s')) ;; Some [s']) ;; Some ev').
  rewrite E. reflexivity.
Qed.

(** A reachable case in which the strategies differ: one index plays a spline past its
    end. *)
Theorem C38_agree_refuted : exists s1 s2 s3, set_splines (set_num_indices [] 1) 0 1 (Some [peak]) (playback_from 0) = Some [s1] /\
  advance_frame 3 [s1] = Some [s2] /\ advance_frame_two_steps 3 [s1] [0; 0; 0; 0]%Z = Some [s3] /\ cur_y s2 = 0 /\ cur_y s3 = -27.
Proof.
  destruct (peak_starts 0 0 ltac:(lia) ltac:(lra)) as (s1 & E1 & P). change (if (0 =? 2)%Z then 1%Z else 0%Z) with 0%Z in P.
  assert (OK : start_ok peak (playback_from 0)). { split; [apply peak_ok|]. split; [intros; discriminate|]. cbn. lra. }
  assert (SM : Forall (fun d => small_step peak (d * playback_rate (playback_from 0))) [3]) by (constructor; [unfold small_step; cbn; lra|constructor]).
  destruct (C37_no_failure (set_num_indices [] 1) [peak] (playback_from 0) [3] eq_refl) as (ev1 & ev2 & E1' & E2).
  { constructor; [split; [exact OK|exact SM]|constructor]. } { repeat constructor. }
  change (length [peak]) with 1%nat in E1'. rewrite E1 in E1'. injection E1' as <-.
  destruct (C37_tracks _ 0 [peak] _ _ [3] ev2 0 peak E1 E2 eq_refl OK SM) as (s2 & x2 & G2 & PL & W); [right; cbn; lra|].
  cbn [wrapped repeat_ playback_from start_at sum map playback_rate] in W. destruct PL as (_ & _ & v & d & SA & Y & _). cbn [y_scale y_offset playback_from] in Y.
  assert (V : v = 0).
  { destruct SA as [sx SX L V D|ex EX L V D|j a c A C L _ SV].
    - unfold start_x in SX. change (front peak) with (Some (Node 0 0 0)) in SX. injection SX as <-. unfold node_x in L. cbn in L. lra.
    - unfold end_y in V. change (back peak) with (Some (Node 2 0 0)) in V. cbn [y_range peak] in V. rewrite peak_y0 in V. congruence.
    - pose proof (getz_Some _ _ _ C) as R. pose proof (getz_Some _ _ _ A) as R'. unfold len in R, R'. cbn in R, R'. assert (j = 0 \/ j = 1)%Z as [->| ->] by lia.
      + cbn in C. injection C as <-. unfold node_x in L. cbn in L. lra.
      + cbn in C. injection C as <-. unfold node_x in L. cbn in L. lra. }
  exists s1, s2. eexists. split; [exact E1|]. cbn [advance_frames] in E2. destruct (advance_frame 3 [s1]) as [ev2'|] eqn:A; [|discriminate]. injection E2 as ->.
  destruct (advance_frame_getz _ _ _ A) as [L2 _]. destruct ev2 as [|t [|? ?]]; try (unfold len in L2; cbn in L2; lia). cbn in G2. injection G2 as ->.
  split; [reflexivity|]. split; [apply C38_single_index; reflexivity|]. split; [rewrite Y, V; ring|].
  destruct P as (_ & RA & _ & _ & _ & _ & CX & _ & CV). cbn [evaluate_slot step_x cur_y curve cubic_x]. rewrite CV, CX, RA. cbn [Z.eqb]. lra.
Qed.
Print Assumptions C38_agree_refuted.

(** Near a node the evaluator may use the other segment than CalculatedSlowly. *)
Theorem C37_slowly_refuted : exists s1 s2 y, set_splines (set_num_indices [] 1) 0 1 (Some [peak]) (playback_from 0) = Some [s1] /\
  advance_frame (5/4) [s1] = Some [s2] /\ slot_x s2 = Some (5/4) /\ calculated_slowly peak (5/4) CurveValue = Some y /\ cur_y s2 <> y.
Proof.
  destruct (peak_starts 0 0 ltac:(lia) ltac:(lra)) as (s1 & E1 & (S & RA & OF & SC & RE & XI & CX & CE & CV)). change (if (0 =? 2)%Z then 1%Z else 0%Z) with 0%Z in *.
  destruct (peak_init (step_x (5/4) s1) (5/4) 1 1) as (s2 & E2 & P2); auto; try lia; try lra.
  { cbn [step_x x_index]. rewrite XI. right. reflexivity. } { cbn [step_x x_index]. rewrite XI. reflexivity. }
  exists s1, (evaluate_slot s2). eexists. split; [exact E1|]. split.
  { rewrite advance_frame_slots. cbn [map all_some]. unfold advance_slot, past_end. cbn [step_x cubic_x_end cubic_x]. rewrite CE, CX, RA, Rltb_t by lra.
    unfold reinit_slot, slot_x, cubic_start_x. cbn [step_x source x_index cubic_x]. rewrite S, XI. destruct (peak_piece 0 ltac:(lia)) as (_ & -> & _).
    rewrite CX, RA. replace (0 + (0 - 0 + 5 / 4 * 1)) with (5 / 4) by lra. replace (0 - 0 + 5 / 4 * 1) with (cubic_x (step_x (5/4) s1)) by (cbn [step_x cubic_x]; rewrite CX, RA; lra).
    assert (Q : Slot 1 (offset_y s1) (scale_y s1) (Some peak) 0 (repeats s1) (modular_range s1) (cubic_x (step_x (5/4) s1)) (Some 1) (curve s1) (cur_y s1) = step_x (5/4) s1) by (unfold step_x; cbn [cubic_x]; rewrite RA, S, XI, CE; reflexivity).
    rewrite ?Q. unfold step_x in *. rewrite E2. reflexivity. }
  destruct P2 as (S2 & _ & _ & _ & _ & XI2 & CX2 & _ & CV2). split; [|split].
  - unfold slot_x, cubic_start_x. cbn [evaluate_slot source x_index cubic_x]. rewrite S2, XI2. destruct (peak_piece 1 ltac:(lia)) as (_ & -> & _). rewrite CX2. f_equal. lra.
  - apply peak_slowly. lra.
  - cbn [evaluate_slot cur_y]. rewrite CV2, CX2. cbn [Z.eqb]. lra.
Qed.
Print Assumptions C37_slowly_refuted.

(** Going backwards does not change the segment: the last one is extrapolated. *)
Theorem C37_backwards_refuted : exists s1 s2, set_splines (set_num_indices [] 1) 0 1 (Some [peak]) (playback_from (7/4)) = Some [s1] /\
  advance_frame (-7/4) [s1] = Some [s2] /\ slot_x s2 = Some 0 /\ start_x peak = Some 0 /\ start_y peak = Some 0 /\ cur_y s2 = -4.
Proof.
  destruct (peak_starts (7/4) 2 ltac:(lia) ltac:(lra)) as (s1 & E1 & (S & RA & OF & SC & RE & XI & CX & CE & CV)). change (if (2 =? 2)%Z then 1%Z else 0%Z) with 1%Z in *.
  exists s1, (evaluate_slot (step_x (-7/4) s1)). split; [exact E1|]. split.
  { rewrite advance_frame_slots. cbn [map all_some]. unfold advance_slot, past_end. cbn [step_x cubic_x_end cubic_x]. rewrite CE, CX, RA, Rltb_f by lra. reflexivity. }
  split; [|split; [|split]].
  - unfold slot_x, cubic_start_x. cbn [evaluate_slot step_x source x_index cubic_x]. rewrite S, XI. destruct (peak_piece 1 ltac:(lia)) as (_ & -> & _). rewrite CX, RA. f_equal. lra.
  - unfold start_x. change (front peak) with (Some (Node 0 0 0)). unfold node_x. cbn. f_equal. ring.
  - unfold start_y. change (front peak) with (Some (Node 0 0 0)). cbn [y_range peak]. now rewrite peak_y0.
  - cbn [evaluate_slot step_x cur_y curve cubic_x]. rewrite CV, CX, RA. cbn [Z.eqb]. lra.
Qed.
Print Assumptions C37_backwards_refuted.

(** Hypotheses of C38: four indices, one of which ends its segment. *)
Example C38_case : ended 1 [clear_slot slot_default; slot_default; clear_slot slot_default; clear_slot slot_default] = 1%Z /\
  (1 < len [clear_slot slot_default; slot_default; clear_slot slot_default; clear_slot slot_default] / 2)%Z.
Proof. split; [|reflexivity]. rewrite !ended_cons. unfold past_end. cbn [step_x clear_slot slot_default cubic_x_end cubic_x rate]. rewrite Rltb_t by lra. reflexivity. Qed.
