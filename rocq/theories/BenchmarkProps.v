(** C127: the statistics of the benchmarks.  The definitions of this file are the
    specification: sums, counts and what is recorded, in unbounded integers. *)
From Verif Require Import RBase Base BaseFacts BenchmarkModel.
From Coq Require Import Lia.
Local Open Scope Z_scope.

Definition total (l : list Z) : Z := fold_right Z.add 0 l.
Definition squares (a : Z) (l : list Z) : Z := total (map (fun t => (t - a) * (t - a)) l).
(** [t] is a time of the clock. *)
Definition is_time (t : Z) : Prop := 0 <= t < 2 ^ 64.
(** [q] is [x / n], rounded to a nearest integer. *)
Definition rounded_quotient (x n q : Z) : Prop := 2 * Z.abs (n * q - x) <= n.

Lemma u64_range x : 0 <= u64 x < two64.
Proof. unfold u64. apply Z.mod_pos_bound. reflexivity. Qed.
Lemma u64_small x : 0 <= x < two64 -> u64 x = x.
Proof. apply Z.mod_small. Qed.
Lemma u64_le x : 0 <= x -> u64 x <= x.
Proof. intros H. unfold u64. apply Z.mod_le; [exact H|reflexivity]. Qed.
Lemma u64_add x y x' y' : u64 x = u64 x' -> u64 y = u64 y' -> u64 (x + y) = u64 (x' + y').
Proof. unfold u64. intros A B. rewrite Z.add_mod, A, B, <- Z.add_mod by discriminate. reflexivity. Qed.
Lemma fold_sum (f : Z -> Z) : forall l a, 0 <= a < two64 -> fold_left (fun s t => u64 (s + f t)) l a = u64 (a + total (map f l)).
Proof.
  induction l as [|t l IH]; intros a A; cbn [fold_left map total fold_right].
  - rewrite Z.add_0_r, u64_small by exact A. reflexivity.
  - rewrite IH by apply u64_range. unfold u64. rewrite Z.add_mod_idemp_l by discriminate. f_equal. unfold total. ring.
Qed.
Lemma quotient x n : 0 < n -> rounded_quotient x n ((x + n / 2) / n).
Proof.
  intros N. unfold rounded_quotient. pose proof (Z.div_mod (x + n / 2) n ltac:(lia)) as E. pose proof (Z.mod_pos_bound (x + n / 2) n N).
  pose proof (Z.div_mod n 2 ltac:(lia)). pose proof (Z.mod_pos_bound n 2 ltac:(lia)). lia.
Qed.
Lemma total_bounds lo hi : forall l, (forall t, In t l -> lo <= t <= hi) -> lo * len l <= total l <= hi * len l.
Proof.
  induction l as [|t l IH]; intros H; [cbn; lia|]. rewrite len_cons. cbn [total fold_right]. fold (total l). specialize (IH ltac:(intros; apply H; now right)). specialize (H t (or_introl eq_refl)). nia.
Qed.

(** ** Average *)
(** While the sum fits, Average is the mean, rounded; it lies between the least and the
    greatest sample. *)
Theorem C127_average : forall samples, samples <> [] -> (forall t, In t samples -> is_time t) -> total samples + len samples / 2 < 2 ^ 64 ->
  exists a, average samples = Some a /\ rounded_quotient (total samples) (len samples) a /\
    forall lo hi, (forall t, In t samples -> lo <= t <= hi) -> lo <= a <= hi.
Proof.
  intros l NE T F. pose proof (len_pos _ NE) as P. unfold average. cbv zeta. replace (0 <? len l) with true by lia.
  rewrite (fold_sum (fun t => t)) by (unfold two64; lia). rewrite map_id, Z.add_0_l. pose proof (total_bounds 0 (2 ^ 64 - 1) l ltac:(intros t I; specialize (T t I); unfold is_time in T; lia)) as B.
  pose proof (Z.div_pos (len l) 2 ltac:(lia) ltac:(lia)). change (2 ^ 64) with two64 in F. rewrite (u64_small (total l)) by lia. rewrite u64_small by lia.
  eexists. split; [reflexivity|]. split; [now apply quotient|]. intros lo hi H1. pose proof (total_bounds lo hi l H1). pose proof (quotient (total l) (len l) P) as Q. unfold rounded_quotient in Q. nia.
Qed.
Print Assumptions C127_average.
(** Otherwise it need not: two samples of 2^63. *)
Theorem C127_average_refuted : exists samples, (forall t, In t samples -> is_time t /\ 2 ^ 63 <= t) /\ average samples = Some 0.
Proof. exists [2 ^ 63; 2 ^ 63]. split; [intros t [<- |[<- |[]]]; unfold is_time; lia|reflexivity]. Qed.
Print Assumptions C127_average_refuted.

(** ** Standard deviation *)
(** Differences below the average wrap around, but their squares do not care: while the sum
    of the squares fits, the result is the square root of their mean, both rounded. *)
Theorem C127_deviation : forall samples a, samples <> [] -> squares a samples + len samples / 2 < 2 ^ 64 ->
  exists d D, standard_deviation samples a = Some d /\ rounded_quotient (squares a samples) (len samples) D /\ 0 <= D /\ (Rabs (IZR d - sqrt (IZR D)) <= 1 / 2)%R.
Proof.
  intros l a NE F. pose proof (len_pos _ NE) as P. unfold standard_deviation. cbv zeta. replace (0 <? len l) with true by lia.
  assert (DS : deviation_sum l a = u64 (squares a l)).
  { unfold deviation_sum. cbv zeta. rewrite (fold_sum (fun t => u64 (u64 (t - a) * u64 (t - a)))) by (unfold two64; lia). rewrite Z.add_0_l. unfold squares. clear. induction l as [|t l IH]; [reflexivity|].
    cbn [map]. set (f := fun t => u64 (u64 (t - a) * u64 (t - a))) in *. set (g := fun t => (t - a) * (t - a)) in *. change (total (f t :: map f l)) with (f t + total (map f l)). change (total (g t :: map g l)) with (g t + total (map g l)).
    apply u64_add; [|exact IH]. unfold f, g, u64. rewrite Z.mod_mod by discriminate. symmetry. apply Z.mul_mod. discriminate. }
  assert (B : 0 <= squares a l). { unfold squares. clear. induction l as [|t l IH]; [cbn; lia|]. cbn [map]. unfold total in *. cbn [fold_right]. pose proof (Z.square_nonneg (t - a)). lia. }
  pose proof (Z.div_pos (len l) 2 ltac:(lia) ltac:(lia)). change (2 ^ 64) with two64 in F. rewrite DS, (u64_small (squares a l)) by lia. rewrite u64_small by lia.
  do 2 eexists. split; [reflexivity|]. split; [now apply quotient|]. split; [apply Z.div_pos; lia|].
  match goal with |- context [Rfloor ?x] => pose proof (Rfloor_bounds x) as R end. rabs; lra.
Qed.
Print Assumptions C127_deviation.

(** ** Least and greatest *)
Theorem C127_min_max : forall samples, samples <> [] -> (forall t, In t samples -> is_time t) ->
  In (fst (min_max samples)) samples /\ In (snd (min_max samples)) samples /\ forall t, In t samples -> fst (min_max samples) <= t <= snd (min_max samples).
Proof.
  assert (G : forall l m, let r := fold_left (fun m t => (Z.min (fst m) t, Z.max (snd m) t)) l m in
    (fst r = fst m \/ In (fst r) l) /\ (snd r = snd m \/ In (snd r) l) /\ fst r <= fst m /\ snd m <= snd r /\ forall t, In t l -> fst r <= t <= snd r).
  { induction l as [|t l IH]; intros m; cbn [fold_left]; cbv zeta.
    - repeat split; try (now left); try lia; destruct H.
    - destruct (IH (Z.min (fst m) t, Z.max (snd m) t)) as (A & B & C & D & E). cbn [fst snd] in *. set (r := fold_left _ l _) in *. split; [|split; [|split; [lia|split; [lia|]]]].
      + destruct A as [A|A]; [|right; now right]. destruct (Z.min_spec (fst m) t) as [[_ M]|[_ M]]; rewrite M in A; [now left|right; left; congruence].
      + destruct B as [B|B]; [|right; now right]. destruct (Z.max_spec (snd m) t) as [[_ M]|[_ M]]; rewrite M in B; [right; left; congruence|now left].
      + intros x [<- |X]; [lia|auto]. }
  intros l NE T. destruct (G l (two64 - 1, 0)) as (A & B & C & D & E). cbn [fst snd] in *. fold (min_max l) in *. destruct l as [|t l]; [congruence|].
  pose proof (E t (or_introl eq_refl)) as Et. pose proof (T t (or_introl eq_refl)) as Tt. unfold is_time in Tt. change (2 ^ 64) with two64 in Tt. split; [|split; [|exact E]].
  - destruct A as [A|A]; [|exact A]. left. lia.
  - destruct B as [B|B]; [|exact B]. left. lia.
Qed.
Print Assumptions C127_min_max.

(** ** Histogram *)
(** The samples of bucket [k], of [n] that divide the times from [lo] to [hi]: all are in
    bucket 0 if there is nothing to divide. *)
Definition in_bucket (lo hi n k t : Z) : bool :=
  if lo =? hi then k =? 0 else (k * (hi - lo) <=? (n - 1) * (t - lo)) && ((n - 1) * (t - lo) <? (k + 1) * (hi - lo)).
Definition count (p : Z -> bool) (l : list Z) : Z := len (filter p l).

Lemma bucket_range lo hi n t : 0 < n < two64 -> 0 <= lo -> lo <= t <= hi -> hi < two64 -> lo < hi -> 0 <= bucket_of lo hi n t < n.
Proof.
  intros N L T H W. unfold bucket_of. rewrite (u64_small (hi - lo)), (u64_small (n - 1)), (u64_small (t - lo)) by lia. pose proof (u64_range ((n - 1) * (t - lo))) as U. pose proof (u64_le ((n - 1) * (t - lo)) ltac:(nia)) as V.
  split; [apply Z.div_pos; lia|]. apply Z.div_lt_upper_bound; [lia|]. nia.
Qed.
Lemma fill_ok lo hi n : 0 < n < two64 -> 0 <= lo -> hi < two64 -> lo < hi -> forall l b, len b = n -> (forall t, In t l -> lo <= t <= hi) -> (forall c, In c b -> 0 <= c < 65536) ->
  exists b', fill_buckets lo hi n l b = Some b' /\ len b' = n /\ (forall c, In c b' -> 0 <= c < 65536) /\
    (forall k c, getz b k = Some c -> getz b' k = Some ((c + count (fun t => bucket_of lo hi n t =? k) l) mod 65536)) /\
    (total b + len l < 65536 -> total b' = total b + len l).
Proof.
  intros N L H W. induction l as [|t l IH]; intros b Lb T C; cbn [fill_buckets].
  - exists b. split; [reflexivity|]. split; [exact Lb|]. split; [exact C|]. split; [|cbn; lia]. intros k c G. cbn. rewrite Z.add_0_r, Z.mod_small; [exact G|]. apply C. apply getz_split in G. destruct G as (X & Y & -> & _). apply in_elt.
  - cbv zeta. pose proof (bucket_range lo hi n t N L (T t (or_introl eq_refl)) H W) as B. set (k0 := bucket_of lo hi n t) in *. replace (k0 <? n) with true by lia.
    destruct (getz_in_range b k0 ltac:(lia)) as [c0 G0]. rewrite G0. destruct (setz_Some b k0 ((c0 + 1) mod 65536) ltac:(lia)) as [b1 S1]. rewrite S1.
    pose proof (getz_split _ _ _ G0) as (X & Y & EB & LX). pose proof (setz_app X c0 Y k0 ((c0 + 1) mod 65536) ltac:(lia)) as S2. rewrite <- EB, S1 in S2. injection S2 as E1.
    assert (C0 : 0 <= c0 < 65536) by (apply C; rewrite EB; apply in_elt). pose proof (Z.mod_pos_bound (c0 + 1) 65536 ltac:(lia)) as M.
    destruct (IH b1) as (b' & E & L' & C' & G' & S').
    + rewrite (setz_len _ _ _ _ S1). exact Lb.
    + intros x I. apply T. now right.
    + intros c I. rewrite E1 in I. apply in_app_or in I. destruct I as [I|[<- |I]]; [apply C; rewrite EB; apply in_or_app; now left|exact M|apply C; rewrite EB; apply in_or_app; right; now right].
    + exists b'. split; [exact E|]. split; [exact L'|]. split; [exact C'|]. split.
      * intros k c G. unfold count. cbn [filter]. fold k0. destruct (Z.eqb_spec k0 k) as [<- |NK].
        -- rewrite G0 in G. injection G as <-. rewrite (G' k0 _ (getz_setz_eq _ _ _ _ S1)). rewrite len_cons. unfold count. rewrite Z.add_mod_idemp_l by lia. do 2 f_equal. lia.
        -- rewrite (G' k c); [reflexivity|]. rewrite (getz_setz_neq _ _ _ _ _ S1) by congruence. exact G.
      * rewrite len_cons. intros F. assert (TB : total b = total X + c0 + total Y) by (rewrite EB; unfold total; clear; induction X; cbn [app fold_right]; lia).
        assert (T1 : total b1 = total X + (c0 + 1) mod 65536 + total Y) by (rewrite E1; unfold total; clear; induction X; cbn [app fold_right]; lia).
        assert (PX : forall Z0, (forall c, In c Z0 -> 0 <= c) -> 0 <= total Z0) by (clear; induction Z0 as [|z Z0 IH]; intros Q; [cbn; lia|]; cbn [total fold_right]; fold (total Z0); specialize (IH ltac:(intros; apply Q; now right)); specialize (Q z (or_introl eq_refl)); lia).
        pose proof (PX X ltac:(intros c I; apply C; rewrite EB; apply in_or_app; now left)). pose proof (PX Y ltac:(intros c I; apply C; rewrite EB; apply in_or_app; right; now right)). pose proof (len_nonneg l).
        rewrite Z.mod_small in T1 by lia. rewrite S' by lia. lia.
Qed.
Lemma total_zeros n : total (repeat 0 n) = 0.
Proof. induction n; [reflexivity|]. cbn [repeat total fold_right]. exact IHn. Qed.
Lemma getz_zeros n k c : getz (repeat 0 n) k = Some c -> c = 0.
Proof. intros G. apply getz_split in G. destruct G as (X & Y & E & _). apply (repeat_spec n 0 c). rewrite E. apply in_elt. Qed.

(** The histogram has all its buckets and never fails.  Fewer than 65536 samples are each
    counted once; while the products fit, they are counted in their bucket. *)
Theorem C127_histogram : forall lo hi n samples, 0 < n < 2 ^ 64 -> is_time lo -> is_time hi -> lo <= hi -> (forall t, In t samples -> lo <= t <= hi) ->
  exists b, histogram lo hi n samples = Some b /\ len b = n /\ (len samples < 65536 -> total b = len samples) /\
    ((n - 1) * (hi - lo) < 2 ^ 64 -> forall k c, getz b k = Some c -> c = count (in_bucket lo hi n k) samples mod 65536).
Proof.
  intros lo hi n l N [L1 L2] [H1 H2] LH T. change (2 ^ 64) with two64 in *. unfold histogram. cbv zeta. rewrite u64_small by lia. assert (LR : len (repeat 0 (Z.to_nat n)) = n) by (rewrite len_repeat; lia).
  destruct (Z.eqb_spec (hi - lo) 0) as [Z0|Z0].
  - assert (R : exists m, repeat 0 (Z.to_nat n) = 0 :: repeat 0 m /\ Z.of_nat m = n - 1) by (exists (Nat.pred (Z.to_nat n)); split; [destruct (Z.to_nat n) eqn:E; [lia|reflexivity]|lia]). destruct R as (m & -> & M).
    change (setz (0 :: repeat 0 m) 0 (len l mod 65536)) with (setz ([] ++ 0 :: repeat 0 m) 0 (len l mod 65536)). rewrite setz_app by reflexivity. cbn [app]. eexists. split; [reflexivity|]. split; [rewrite len_cons, len_repeat; lia|]. split.
    + intros F. cbn [total fold_right]. fold (total (repeat 0 m)). rewrite total_zeros. pose proof (len_nonneg l). rewrite Z.mod_small by lia. lia.
    + intros _ k c G. unfold count, in_bucket. replace (lo =? hi) with true by lia. destruct (Z.eqb_spec k 0) as [-> |NK].
      * cbn in G. injection G as <-. replace (filter (fun _ => true) l) with l; [reflexivity|]. clear. induction l; cbn; congruence.
      * pose proof (getz_Some _ _ _ G) as K. change (0 :: repeat 0 m) with ([0] ++ repeat 0 m) in *. change (len l mod 65536 :: repeat 0 m) with ([len l mod 65536] ++ repeat 0 m) in *. rewrite getz_app2 in G by (cbn; lia). apply getz_zeros in G. subst c.
        replace (filter (fun _ => false) l) with (@nil Z); [reflexivity|]. clear. induction l; cbn; congruence.
  - destruct (fill_ok lo hi n N L1 H2 ltac:(lia) l (repeat 0 (Z.to_nat n)) LR T) as (b & E & L & C & G & S).
    { intros c I. apply repeat_spec in I. lia. }
    exists b. split; [exact E|]. split; [exact L|]. split; [intros F; rewrite S; rewrite total_zeros; lia|].
    intros F k c K. pose proof (getz_Some _ _ _ K) as KR. destruct (getz_in_range (repeat 0 (Z.to_nat n)) k ltac:(lia)) as [z Gz]. pose proof (getz_zeros _ _ _ Gz) as ->. rewrite (G k 0 Gz), Z.add_0_l in K. assert (EC : c = count (fun t => bucket_of lo hi n t =? k) l mod 65536) by congruence. rewrite EC. f_equal. unfold count. f_equal.
    apply filter_ext_in. intros t I. specialize (T t I). unfold in_bucket, bucket_of. replace (lo =? hi) with false by lia. rewrite (u64_small (hi - lo)), (u64_small (n - 1)), (u64_small (t - lo)) by lia. rewrite u64_small by nia.
    set (v := (n - 1) * (t - lo)). set (w := hi - lo) in *. assert (W : 0 < w) by lia. pose proof (Z.div_mod v w ltac:(lia)) as DM. pose proof (Z.mod_pos_bound v w W) as MB.
    destruct (Z.eqb_spec (v / w) k) as [<- |NK]; [nia|]. symmetry. apply Bool.andb_false_iff. destruct (Z_lt_le_dec k (v / w)); [right|left]; nia.
Qed.
Print Assumptions C127_histogram.
(** Of 65536 equal samples none is counted. *)
Theorem C127_count_refuted : forall t, is_time t -> histogram t t 80 (repeat t (Z.to_nat 65536)) = Some (repeat 0 80).
Proof. intros t _. unfold histogram. cbv zeta. rewrite Z.sub_diag, len_repeat, Z2Nat.id by lia. reflexivity. Qed.
Print Assumptions C127_count_refuted.
(** When the product wraps around, the least and the greatest sample share a bucket. *)
Theorem C127_bucket_refuted : exists b, histogram 0 (2 ^ 64 - 1) 80 [0; 2 ^ 64 - 1] = Some b /\ getz b 0 = Some 2.
Proof. eexists. split; vm_compute; reflexivity. Qed.
Print Assumptions C127_bucket_refuted.

(** ** The drawing *)
(** [big] is the largest of the buckets from [from] to [upto], or 0. *)
Definition largest (b : list Z) (from upto big : Z) : Prop :=
  (forall j c, from <= j < upto -> getz b j = Some c -> c <= big) /\ (big = 0 \/ exists j, from <= j < upto /\ getz b j = Some big).
Lemma biggest_ok : forall f j m b, 0 <= j -> j + Z.of_nat f <= len b -> exists big, biggest_from f j m b = Some big /\ m <= big /\
  (forall k c, j <= k < j + Z.of_nat f -> getz b k = Some c -> c <= big) /\ (big = m \/ exists k, j <= k < j + Z.of_nat f /\ getz b k = Some big).
Proof.
  induction f as [|f IH]; intros j m b J L; cbn [biggest_from].
  - exists m. split; [reflexivity|]. split; [lia|]. split; [lia|now left].
  - destruct (getz_in_range b j ltac:(lia)) as [c G]. rewrite G. destruct (IH (j + 1) (Z.max m c) b ltac:(lia) ltac:(lia)) as (big & E & M & A & B). exists big. split; [exact E|]. split; [lia|]. split.
    + intros k c' K GK. destruct (Z.eq_dec k j) as [-> |NK]; [rewrite G in GK; injection GK as <-; lia|]. apply (A k c'); [lia|exact GK].
    + destruct B as [B|(k & K & B)]; [|right; exists k; split; [lia|exact B]]. destruct (Z.max_spec m c) as [[_ X]|[_ X]]; rewrite X in B; [right; exists j; split; [lia|congruence]|now left].
Qed.
(** The drawing has [height] rows of [width] columns; the column of a bucket with [c] samples is
    filled, from the last row upwards, where [c * height] exceeds the row's share of the largest
    bucket other than the first. *)
Theorem C127_drawing : forall width height b, 1 <= width <= len b -> 0 < height <= 65536 -> (forall c, In c b -> 0 <= c < 65536) ->
  exists rows big, picture width height b = Some rows /\ len rows = height /\ largest b 1 width big /\
    forall i j, 0 <= i < height -> 0 <= j < width -> exists r c, getz rows i = Some r /\ len r = width /\ getz b j = Some c /\ getz r j = Some ((height - 1 - i) * big <? c * height).
Proof.
  intros w h b W H C. unfold picture, biggest_bucket. destruct (biggest_ok (Z.to_nat (w - 1)) 1 0 b ltac:(lia) ltac:(lia)) as (big & E & B0 & B1 & B2). rewrite E. exists (map (fun i => row w h big b (Z.of_nat i)) (seq 0 (Z.to_nat h))), big. split; [reflexivity|].
  split; [unfold len; rewrite map_length, seq_length; lia|]. replace (1 + Z.of_nat (Z.to_nat (w - 1))) with w in * by lia. split; [split; [exact B1|exact B2]|].
  assert (BB : big < 65536). { destruct B2 as [-> |(k & _ & G)]; [lia|]. apply getz_split in G. destruct G as (X & Y & -> & _). apply C. apply in_elt. }
  intros i j I J. destruct (getz_in_range b j ltac:(lia)) as [c G]. exists (row w h big b i), c. split; [|split; [|split; [exact G|]]].
  - unfold getz. replace (i <? 0) with false by lia. rewrite (map_nth_error _ (Z.to_nat i) _ (d := Z.to_nat i)); [now rewrite Z2Nat.id by lia|]. rewrite (nth_error_nth' _ 0%nat) by (rewrite seq_length; lia). rewrite seq_nth by lia. reflexivity.
  - unfold row. rewrite len_map. unfold len in *. rewrite firstn_length. lia.
  - unfold row, getz. replace (j <? 0) with false by lia. rewrite (map_nth_error _ _ _ (d := c)).
    + f_equal. unfold bucket_cutoff. rewrite Z.mod_small by nia. replace (h - i - 1) with (h - 1 - i) by lia. set (v := (h - 1 - i) * big). pose proof (Z.div_mod v h ltac:(lia)). pose proof (Z.mod_pos_bound v h ltac:(lia)).
      destruct (Z.ltb_spec (v / h) c), (Z.ltb_spec v (c * h)); try reflexivity; nia.
    + pose proof (getz_firstn b (Z.to_nat w) j) as F. replace (j <? Z.of_nat (Z.to_nat w)) with true in F by lia. rewrite G in F. unfold getz in F. replace (j <? 0) with false in F by lia. exact F.
Qed.
Print Assumptions C127_drawing.

(** ** All of the statistics *)
Theorem C127_statistics : forall capacity samples, kWidth <= capacity < 2 ^ 64 -> samples <> [] -> (forall t, In t samples -> is_time t) ->
  exists r b, statistics capacity samples = Some r /\ average samples = Some (rp_average r) /\ standard_deviation samples (rp_average r) = Some (rp_deviation r) /\
    In (rp_min r) samples /\ In (rp_max r) samples /\ (forall t, In t samples -> rp_min r <= t <= rp_max r) /\
    histogram (rp_min r) (rp_max r) capacity samples = Some b /\ picture kWidth kHeight b = Some (rp_rows r).
Proof.
  intros cap l CP NE T. destruct (C127_min_max l NE T) as (A & B & D). unfold statistics. destruct (min_max l) as [lo hi]. cbn [fst snd] in *. pose proof (len_pos _ NE) as P.
  assert (EA : exists a, average l = Some a) by (unfold average; cbv zeta; replace (0 <? len l) with true by lia; eauto). destruct EA as [a EA]. rewrite EA.
  assert (ED : exists d, standard_deviation l a = Some d) by (unfold standard_deviation; cbv zeta; replace (0 <? len l) with true by lia; eauto). destruct ED as [d ED]. rewrite ED.
  unfold kWidth in CP. pose proof (D lo A). destruct (C127_histogram lo hi cap l ltac:(lia) (T _ A) (T _ B) ltac:(lia) D) as (b & EB & LB & _). rewrite EB.
  destruct (biggest_ok (Z.to_nat (kWidth - 1)) 1 0 b ltac:(lia) ltac:(unfold kWidth; lia)) as (big & E & _). assert (EP : exists rows, picture kWidth kHeight b = Some rows) by (unfold picture, biggest_bucket; rewrite E; eauto). destruct EP as [rows EP]. rewrite EP.
  exists (Report a lo hi d rows), b. cbn [rp_average rp_deviation rp_min rp_max rp_rows]. split; [reflexivity|]. split; [first [exact EA | reflexivity]|]. split; [first [exact ED | reflexivity]|]. repeat split; try assumption; try reflexivity; now apply D.
Qed.
Print Assumptions C127_statistics.
(** "Find the histogram bucket with the most samples so that we can scale the height": the
    first bucket is left out.  However many samples are in it, its column is as high as that
    of a single sample. *)
Theorem C127_scale_refuted : forall n, 0 < Z.of_nat n < 65535 -> exists r, statistics kWidth (repeat 0 n ++ [79]) = Some r /\
  forall i, 0 <= i < kHeight -> exists row, getz (rp_rows r) i = Some row /\ getz row 0 = Some true /\ getz row 79 = Some true.
Proof.
  intros n N. set (l := repeat 0 n ++ [79]). assert (T : forall t, In t l -> t = 0 \/ t = 79). { intros t I. apply in_app_or in I. destruct I as [I|[<- |[]]]; [left; now apply repeat_spec in I|now right]. }
  assert (I0 : In 0 l) by (apply in_or_app; left; destruct n; [lia|now left]). assert (I79 : In 79 l) by (apply in_or_app; right; now left).
  destruct (C127_statistics kWidth l) as (r & b & E & _ & _ & A & B & D & EB & EP); [unfold kWidth; lia|intros Z0; rewrite Z0 in I0; destruct I0|intros t I; destruct (T t I) as [-> | ->]; unfold is_time; lia|].
  pose proof (D 0 I0). pose proof (D 79 I79). assert (M0 : rp_min r = 0) by (destruct (T _ A); lia). assert (M1 : rp_max r = 79) by (destruct (T _ B); lia). rewrite M0, M1 in *.
  destruct (C127_histogram 0 79 kWidth l) as (b' & EB' & LB & _ & C); [unfold kWidth; lia|unfold is_time; lia|unfold is_time; lia|lia|intros t I; destruct (T t I); lia|]. rewrite EB in EB'. injection EB' as <-. specialize (C ltac:(unfold kWidth; lia)).
  assert (CT : forall k c, getz b k = Some c -> 0 <= c < 65536) by (intros k c G; rewrite (C k c G); apply Z.mod_pos_bound; lia).
  destruct (C127_drawing kWidth kHeight b) as (rows & big & EP' & _ & LG & CL); [unfold kWidth in *; lia|unfold kHeight; lia|intros c I; apply In_nth_error in I; destruct I as [k I]; apply (CT (Z.of_nat k)); unfold getz; replace (Z.of_nat k <? 0) with false by lia; now rewrite Nat2Z.id|]. rewrite EP in EP'. injection EP' as <-.
  assert (CN : forall p, count p l = (if p 0 then Z.of_nat n else 0) + (if p 79 then 1 else 0)).
  { intros p. unfold count, l. rewrite filter_app, len_app. f_equal; [|cbn; now destruct (p 79)]. clear. induction n as [|n IH]; [cbn; now destruct (p 0)|]. cbn [repeat filter]. destruct (p 0); [rewrite len_cons, IH; lia|exact IH]. }
  assert (V : forall k c, getz b k = Some c -> c = if k =? 0 then Z.of_nat n else if k =? 79 then 1 else 0).
  { intros k c G. pose proof (getz_Some _ _ _ G) as K. rewrite (C k c G), CN. unfold in_bucket, kWidth in *. cbn [Z.eqb]. replace ((k * (79 - 0) <=? (80 - 1) * (0 - 0)) && ((80 - 1) * (0 - 0) <? (k + 1) * (79 - 0))) with (k =? 0) by lia. replace ((k * (79 - 0) <=? (80 - 1) * (79 - 0)) && ((80 - 1) * (79 - 0) <? (k + 1) * (79 - 0))) with (k =? 79) by lia.
    rewrite Z.mod_small by (destruct (k =? 0), (k =? 79); lia). destruct (Z.eqb_spec k 0), (Z.eqb_spec k 79); lia. }
  assert (BG : big = 1).
  { destruct LG as [L1 L2]. destruct (getz_in_range b 79 ltac:(unfold kWidth in LB; lia)) as [c G]. pose proof (V 79 c G) as Vc. change (79 =? 0) with false in Vc. change (79 =? 79) with true in Vc. cbv iota in Vc. pose proof (L1 79 c ltac:(unfold kWidth; lia) G).
    destruct L2 as [L2|(j & J & L2)]; [lia|]. pose proof (V j big L2) as Vj. destruct (Z.eqb_spec j 0), (Z.eqb_spec j 79); lia. }
  exists r. split; [exact E|]. intros i I. unfold kHeight in *. destruct (CL i 0 I ltac:(unfold kWidth; lia)) as (ro & c & G1 & _ & G2 & G3). destruct (CL i 79 I ltac:(unfold kWidth; lia)) as (ro' & c' & G1' & _ & G2' & G3'). rewrite G1 in G1'. injection G1' as <-. exists ro. split; [exact G1|].
  apply V in G2, G2'. cbn [Z.eqb] in G2, G2'. cbn in G2'. split; [rewrite G3|rewrite G3']; f_equal; lia.
Qed.
Print Assumptions C127_scale_refuted.

(** ** What is recorded *)
Inductive event := Register (name : list Z) | Sample (id start end_ : Z) | Clear.
Definition happen (e : event) (g : times) : option times :=
  match e with Register name => Some (snd (register_benchmark name g)) | Sample id s e => end_benchmark id s e g | Clear => Some (clear_benchmarks g) end.
Fixpoint run (es : list event) (g : times) : option times := match es with [] => Some g | e :: l => g' <- happen e g ;; run l g' end.
(** The times recorded for [id] since they were last cleared, after those in [acc]. *)
Fixpoint recorded (id : Z) (es : list event) (acc : list Z) : list Z :=
  match es with
  | [] => acc
  | Register _ :: l => recorded id l acc
  | Sample id' s e :: l => recorded id l (if id' =? id then acc ++ [(e - s) mod 2 ^ 64] else acc)
  | Clear :: l => recorded id l []
  end.
(** An id is new, and from then on holds the name and the times recorded for it, whatever else
    is registered, recorded or cleared. *)
Theorem C127_recorded : forall g name id g1 es g2, register_benchmark name g = (id, g1) -> run es g1 = Some g2 ->
  getz g id = None /\ getz g2 id = Some (name, recorded id es []).
Proof.
  intros g name id g1 es g2 E. unfold register_benchmark in E. injection E as <- <-. intros H. split; [apply getz_None; lia|].
  assert (G : forall es acc h, getz h (len g) = Some (name, acc) -> run es h = Some g2 -> getz g2 (len g) = Some (name, recorded (len g) es acc)).
  { clear H es. induction es as [|e es IH]; intros acc h A H; cbn [run recorded] in *; [injection H as <-; exact A|]. destruct (happen e h) as [h'|] eqn:Eh; [|discriminate]. pose proof (getz_Some _ _ _ A) as AR. destruct e as [nm|id s e|]; cbn [happen] in Eh.
    - cbn [register_benchmark snd] in Eh. injection Eh as <-. apply (IH acc (h ++ [(nm, [])])); [rewrite getz_app1 by lia; exact A|exact H].
    - unfold end_benchmark in Eh. destruct (_ && _) eqn:V; [|discriminate]. destruct (getz h id) as [a|] eqn:Ga; [|discriminate]. apply (IH _ h'); [|exact H]. destruct (Z.eqb_spec id (len g)) as [-> |NI].
      + rewrite A in Ga. injection Ga as <-. cbn [fst snd] in Eh. exact (getz_setz_eq _ _ _ _ Eh).
      + rewrite (getz_setz_neq _ _ _ _ _ Eh) by congruence. exact A.
    - injection Eh as <-. apply (IH [] (clear_benchmarks h)); [|exact H]. unfold clear_benchmarks, getz in *. destruct (len g <? 0); [discriminate|]. exact (map_nth_error (fun a : list Z * list Z => (fst a, @nil Z)) _ _ A). }
  apply (G es [] (g ++ [(name, [])])); [apply getz_app; reflexivity|exact H].
Qed.
Print Assumptions C127_recorded.
(** A time is recorded for every id that was registered, and for no other. *)
Theorem C127_valid_ids : forall g id s e, (end_benchmark id s e g <> None <-> 0 <= id < len g) /\ len (snd (register_benchmark [] g)) = len g + 1 /\ len (clear_benchmarks g) = len g.
Proof.
  intros g id s e. split; [|split; [unfold register_benchmark; cbn [snd]; rewrite len_app; reflexivity|apply len_map]]. unfold end_benchmark. split.
  - intros H. destruct (_ && _) eqn:V; [lia|congruence].
  - intros H. replace ((0 <=? id) && (id <? len g)) with true by lia. destruct (getz_in_range g id H) as [a ->]. destruct (setz_Some g id (fst a, snd a ++ [u64 (e - s)]) H) as [g' ->]. discriminate.
Qed.
Print Assumptions C127_valid_ids.
(** Whatever happened, OutputBenchmarks does not fail: it reports those with samples, in order. *)
Theorem C127_output : forall es g capacity, kWidth <= capacity < 2 ^ 64 -> run es [] = Some g ->
  exists l, output_benchmarks capacity g = Some l /\ map fst l = map fst (filter (fun a => 0 <? len (snd a)) g) /\
    forall name r, In (name, r) l -> exists samples, In (name, samples) g /\ statistics capacity samples = Some r.
Proof.
  intros es g cap CP H. assert (T : forall es g, (forall a t, In a g -> In t (snd a) -> is_time t) -> forall g', run es g = Some g' -> forall a t, In a g' -> In t (snd a) -> is_time t).
  { clear. induction es as [|e es IH]; intros g T g' H; cbn [run] in H; [injection H as <-; exact T|]. destruct (happen e g) as [h|] eqn:Eh; [|discriminate]. apply (IH h); [|exact H]. intros a t A I. destruct e as [nm|id s e|]; cbn [happen] in Eh.
    - cbn [register_benchmark snd] in Eh. injection Eh as <-. apply in_app_or in A. destruct A as [A|[<- |[]]]; [apply (T a t A I)|destruct I].
    - unfold end_benchmark in Eh. destruct (_ && _); [|discriminate]. destruct (getz g id) as [a0|] eqn:Ga; [|discriminate]. pose proof (getz_split _ _ _ Ga) as (X & Y & EG & LX). subst g. rewrite setz_app in Eh by lia. injection Eh as <-. apply in_app_or in A. destruct A as [A|[<- |A]].
      + apply (T a t); [apply in_or_app; now left|exact I].
      + cbn [snd] in I. apply in_app_or in I. destruct I as [I|[<- |[]]]; [apply (T a0 t); [apply in_elt|exact I]|apply u64_range].
      + apply (T a t); [apply in_or_app; right; now right|exact I].
    - injection Eh as <-. unfold clear_benchmarks in A. apply in_map_iff in A. destruct A as (x & <- & _). destruct I. }
  specialize (T es [] ltac:(intros a t []) g H). clear H. induction g as [|[name samples] g IH]; cbn [output_benchmarks].
  - exists []. split; [reflexivity|]. split; [reflexivity|]. intros ? ? [].
  - destruct (IH ltac:(intros a t A; apply T; now right)) as (l & -> & F & S). cbn [filter snd]. destruct (Z.ltb_spec 0 (len samples)) as [P|P].
    + destruct (C127_statistics cap samples CP) as (r & b & ER & _); [intros ->; cbn in P; lia|intros t I; apply (T (name, samples) t); [now left|exact I]|]. rewrite ER. exists ((name, r) :: l). split; [reflexivity|]. split; [cbn [map fst]; now rewrite F|]. intros nm r' [I|I]; [injection I as <- <-; exists samples; split; [now left|exact ER]|]. destruct (S nm r' I) as (s & A & B). exists s. split; [now right|exact B].
    + exists l. split; [reflexivity|]. split; [exact F|]. intros nm r I. destruct (S nm r I) as (s & A & B). exists s. split; [now right|exact B].
Qed.
Print Assumptions C127_output.

(** ** Cases *)
(** Three samples of two benchmarks, one of which is cleared again before it is used. *)
Example C127_case : exists g, run [Register [97]; Register [98]; Sample 0 5 6; Clear; Sample 1 10 12; Sample 1 20 29; Sample 1 2 3] [] = Some g /\
  g = [([97], []); ([98], [2; 9; 1])] /\ recorded 1 [Sample 0 5 6; Clear; Sample 1 10 12; Sample 1 20 29; Sample 1 2 3] [] = [2; 9; 1] /\
  average [2; 9; 1] = Some 4 /\ min_max [2; 9; 1] = (1, 9) /\ histogram 1 9 5 [2; 9; 1] = Some [2; 0; 0; 0; 1] /\
  map (in_bucket 1 9 5 0) [2; 9; 1] = [true; false; true] /\ end_benchmark 2 0 1 g = None.
Proof. eexists. repeat split; reflexivity. Qed.
(** The largest bucket other than the first has 3 samples: of 3 rows, its column fills all,
    a single sample's only the last. *)
Example C127_drawing_case : picture 4 3 [9; 1; 3; 0] = Some [[true; false; true; false]; [true; false; true; false]; [true; true; true; false]] /\
  largest [9; 1; 3; 0] 1 4 3.
Proof.
  split; [reflexivity|]. split; [|right; exists 2; split; [lia|reflexivity]]. intros j c J G. assert (X : j = 1 \/ j = 2 \/ j = 3) by lia. destruct X as [-> |[-> | ->]]; cbn in G; injection G as <-; lia.
Qed.
(** The deviation of 1, 3 from their average 2 is 1. *)
Example C127_deviation_case : average [1; 3] = Some 2 /\ squares 2 [1; 3] = 2 /\ standard_deviation [1; 3] 2 = Some 1.
Proof.
  split; [reflexivity|]. split; [reflexivity|]. unfold standard_deviation. cbn -[Rfloor sqrt]. rewrite sqrt_1. f_equal. apply Rfloor_unique. cbn. lra.
Qed.
