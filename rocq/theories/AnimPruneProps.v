(** Pruning nodes (C70). *)
From Verif Require Import RBase BaseFacts CurveModel CurveProps CompactSplineModel MatrixModel RigModel AnimDataModel AnimSpec AnimCurveProps KeyframeSplines.
Local Open Scope Z_scope.

Lemma sub_int_ok a b : - 2147483648 <= a - b <= 2147483647 -> sub_int a b = Some (a - b).
Proof. intros H. unfold sub_int, add_int. replace (a + - b) with (a - b) by lia. replace ((-2147483648 <=? a - b) && (a - b <=? 2147483647)) with true by lia. reflexivity. Qed.
Lemma Rltb_iff a b : Rltb a b = true <-> (a < b)%R.
Proof. split; [apply Rltb_true|apply Rltb_t]. Qed.

Lemma on_cubic_ok c t0 tol angle : forall mids, (forall m, In m mids -> - 2147483648 <= sn_time m - t0 <= 2147483647) ->
  exists r, on_cubic c t0 tol angle mids = Some r /\
    (r = true <-> forall m, In m mids -> (Rabs (keval c (IZR (sn_time m - t0)) - sn_val m) < tol)%R /\ (Rabs (atan (kderiv c (IZR (sn_time m - t0)) - sn_der m)) < angle)%R).
Proof.
  induction mids as [|x mids IH]; intros H; [exists true; split; [reflexivity|split; [intros _ m []|reflexivity]]|]. cbn [on_cubic]. rewrite sub_int_ok by (apply H; now left).
  destruct (_ && _) eqn:E.
  - destruct IH as (r & R1 & R2); [intros m I; apply H; now right|]. exists r. split; [exact R1|]. apply andb_prop in E. destruct E as [E1 E2]. apply Rltb_iff in E1, E2. rewrite R2. split.
    + intros K m [<-|I]; [auto|now apply K].
    + intros K m I. apply K. now right.
  - exists false. split; [reflexivity|]. split; [discriminate|]. intros K. destruct (K x (or_introl eq_refl)) as [K1 K2]. apply Rltb_iff in K1, K2. now rewrite K1, K2 in E.
Qed.
Lemma in_between {A} (n : list A) i j m : 0 <= i -> i < j < len n -> (In m (firstn (Z.to_nat (j - i - 1)) (skipn (Z.to_nat (i + 1)) n)) <-> exists k, i < k < j /\ getz n k = Some m).
Proof.
  intros I J. split.
  - intros H. apply in_getz in H. destruct H as [q Q]. pose proof (getz_Some _ _ _ Q) as QR. rewrite getz_firstn in Q. destruct (Z.ltb_spec q (Z.of_nat (Z.to_nat (j - i - 1)))); [|discriminate]. rewrite getz_skipn in Q by lia. exists (i + 1 + q). split; [lia|]. rewrite <- Q. f_equal. lia.
  - intros (k & K & G). apply getz_in with (k - i - 1). rewrite getz_firstn. replace (k - i - 1 <? _) with true by lia. rewrite getz_skipn by lia. rewrite <- G. f_equal. lia.
Qed.
Lemma redundant_ok t n i j tol : times_ok n -> 0 <= i -> i + 1 < j < len n -> exists r, redundant t n i j tol = Some r /\ (r = true <-> removable t tol n i j).
Proof.
  intros T I J. unfold redundant. destruct (getz_in_range n i) as [a A]; [lia|]. destruct (getz_in_range n j) as [b B]; [lia|]. rewrite A, B.
  destruct (equal_nodes a b tol (tl_angle t)) eqn:E.
  - exists true. split; [reflexivity|]. split; [intros _|reflexivity]. exists a, b. split; [exact A|]. split; [exact B|]. left. unfold equal_nodes in E. apply andb_prop in E. destruct E as [E E3]. apply andb_prop in E. destruct E as [E1 E2].
    apply Z.eqb_eq in E1. apply Rltb_iff in E2, E3. auto.
  - rewrite sub_int_ok by (apply T; [exact (getz_in _ _ _ B)|exact (getz_in _ _ _ A)]). fold (cubic_between a b).
    destruct (on_cubic_ok (cubic_between a b) (sn_time a) tol (tl_angle t) (firstn (Z.to_nat (j - i - 1)) (skipn (Z.to_nat (i + 1)) n))) as (r & R1 & R2).
    { intros m M. apply in_between in M; [|lia|lia]. destruct M as (k & _ & M). apply T; [exact (getz_in _ _ _ M)|exact (getz_in _ _ _ A)]. }
    exists r. split; [exact R1|]. rewrite R2. split.
    + intros K. exists a, b. split; [exact A|]. split; [exact B|]. right. intros k m KR M. apply K. apply in_between; [lia|lia|eauto].
    + intros (a' & b' & A' & B' & C). assert (a' = a) as -> by congruence. assert (b' = b) as -> by congruence. destruct C as [(C1 & C2 & C3)|C].
      * unfold equal_nodes in E. apply Z.eqb_eq in C1. apply Rltb_iff in C2, C3. now rewrite C1, C2, C3 in E.
      * intros m M. apply in_between in M; [|lia|lia]. destruct M as (k & KR & M). exact (C k m KR M).
Qed.

Section Prune.
Context (t : tolerances) (tol : R) (n : list snode) (T : times_ok n).
Notation rem := (removable t tol n).
Notation flag p q := (getz p q = Some true).
Notation clear_at p q := (getz p q = Some false).

Lemma inner_ok : forall k i j p next, 0 <= i -> i + 1 < j -> j + Z.of_nat k = len n -> len p = len n -> i < next < j ->
  exists p' next', prune_inner k t n tol i j p next = Some (p', next') /\ len p' = len n /\
    (next' = next \/ (j <= next' < len n /\ rem i next')) /\ next <= next' /\
    (forall q, flag p' q <-> flag p q \/ (j <= q + 1 < len n /\ rem i (q + 1))) /\ (forall q, j <= q < len n -> rem i q -> q <= next').
Proof.
  induction k as [|k IH]; intros i j p next I J K L N; cbn [prune_inner].
  - exists p, next. split; [reflexivity|]. split; [exact L|]. split; [now left|]. split; [lia|]. split; [intros q; split; [tauto|intros [H|[H _]]; [exact H|lia]]|intros q Q; lia].
  - destruct (redundant_ok t n i j tol T I) as (r & R1 & R2); [lia|]. rewrite R1. destruct r.
    + pose proof (proj1 R2 eq_refl) as RM. destruct (setz_Some p (j - 1) true) as [p1 P1]; [lia|]. rewrite P1.
      destruct (IH i (j + 1) p1 j) as (p' & next' & E & L' & NX & NL & FL & MX); try lia. { rewrite (setz_len _ _ _ _ P1). exact L. }
      exists p', next'. split; [exact E|]. split; [exact L'|]. split; [right; destruct NX as [->|[A B]]; [split; [lia|exact RM]|split; [lia|exact B]]|]. split; [lia|]. split.
      * intros q. rewrite FL. destruct (Z.eq_dec q (j - 1)) as [->|NE].
        -- rewrite (getz_setz_eq _ _ _ _ P1). replace (j - 1 + 1) with j by lia. split; [intros _; right; split; [lia|exact RM]|intros _; now left].
        -- rewrite (getz_setz_neq _ _ _ _ _ P1 NE). split; intros [H|[H H']]; auto; right; (split; [lia|exact H']).
      * intros q Q RQ. destruct (Z.eq_dec q j) as [->|NE]; [destruct NX as [->|[A B]]; lia|apply MX; [lia|exact RQ]].
    + assert (NR : ~ rem i j) by (intros H; apply R2 in H; discriminate). destruct (IH i (j + 1) p next) as (p' & next' & E & L' & NX & NL & FL & MX); try lia.
      exists p', next'. split; [exact E|]. split; [exact L'|]. split; [destruct NX as [->|[A B]]; [now left|right; split; [lia|exact B]]|]. split; [lia|]. split.
      * intros q. rewrite FL. split; intros [H|[H H']]; auto; right; (split; [|exact H']); [lia|]. destruct (Z.eq_dec (q + 1) j) as [EQ|NE]; [rewrite EQ in H'; contradiction|lia].
      * intros q Q RQ. destruct (Z.eq_dec q j) as [->|NE]; [contradiction|apply MX; [lia|exact RQ]].
Qed.

(** Redundant up to a node implies redundant up to every node before it. *)
Definition closed : Prop := forall i j j', 0 <= i -> i + 1 < j' -> j' < j -> j < len n -> rem i j -> rem i j'.

Lemma outer_ok : forall fuel i p, 0 <= i <= len n -> len n - i < Z.of_nat fuel -> len p = len n -> (forall q, i <= q -> ~ flag p q) ->
  exists p', prune_outer fuel t n tol i p = Some p' /\ len p' = len n /\ (forall q, q < i -> getz p' q = getz p q) /\
    (i < len n -> ~ flag p' i /\ ~ flag p' (len n - 1)) /\
    (forall q, i <= q -> flag p' q -> exists a b, i <= a /\ a < q < b /\ b < len n /\ ~ flag p' a /\ ~ flag p' b /\ rem a b /\ (closed -> forall r, a < r < b -> flag p' r)).
Proof.
  induction fuel as [|fuel IH]; intros i p I F L C; [lia|]. cbn [prune_outer]. destruct (Z.ltb_spec i (len n)) as [IL|IL].
  2:{ exists p. split; [reflexivity|]. split; [exact L|]. split; [reflexivity|]. split; [lia|]. intros q Q H. now elim (C q Q). }
  assert (INN : exists p1 nx, prune_inner (Z.to_nat (len n - (i + 2))) t n tol i (i + 2) p (i + 1) = Some (p1, nx) /\ len p1 = len n /\ i < nx <= len n /\ (i + 1 < len n -> nx < len n) /\
     (forall q, flag p1 q <-> flag p q \/ (i + 2 <= q + 1 < len n /\ rem i (q + 1))) /\ (forall q, i + 2 <= q < len n -> rem i q -> q <= nx) /\ (i + 1 < nx -> rem i nx)).
  { destruct (Z.le_gt_cases (i + 2) (len n)) as [H|H].
    - destruct (inner_ok (Z.to_nat (len n - (i + 2))) i (i + 2) p (i + 1)) as (p1 & nx & E & L1 & NX & NL & FL & MX); try lia. exists p1, nx. repeat (split; [first [assumption|destruct NX as [->|[NX _]]; lia]|]).
      intros Q. destruct NX as [->|[_ NX]]; [lia|exact NX].
    - replace (Z.to_nat (len n - (i + 2))) with 0%nat by lia. exists p, (i + 1). split; [reflexivity|]. split; [exact L|]. split; [lia|]. split; [lia|]. split; [intros q; split; [tauto|intros [Q|[Q _]]; [exact Q|lia]]|]. split; [intros; lia|lia]. }
  destruct INN as (p1 & nx & E & L1 & NX & NXL & FL & MX & RN). rewrite E. cbn [fst snd].
  assert (P1 : forall q, nx <= q -> ~ flag p1 q).
  { intros q Q H. apply FL in H. destruct H as [H|[H1 H2]]; [apply (C q); [lia|exact H]|]. specialize (MX (q + 1) ltac:(lia) H2). lia. }
  destruct (IH nx p1) as (p' & E' & L' & PRE & ENDS & FLAGS); [lia|lia|exact L1|exact P1|].
  exists p'. split; [exact E'|]. split; [exact L'|]. split; [|split].
  - intros q Q. rewrite PRE by lia. destruct (getz p q) as [v|] eqn:G.
    + pose proof (getz_Some _ _ _ G). destruct (getz_in_range p1 q) as [v1 G1]; [lia|]. rewrite G1. destruct v, v1; auto.
      * assert (flag p1 q) by (apply FL; now left). congruence.
      * apply FL in G1. destruct G1 as [G1|[G1 _]]; [congruence|lia].
    + destruct (getz p1 q) as [v1|] eqn:G1; [|reflexivity]. apply getz_Some in G1. destruct (getz_in_range p q) as [v G2]; [lia|congruence].
  - intros _. assert (NI : ~ flag p' i).
    { rewrite PRE by lia. intros H. apply FL in H. destruct H as [H|[H _]]; [now apply (C i)|lia]. }
    split; [exact NI|]. destruct (Z.eq_dec (i + 1) (len n)) as [Q|Q]; [replace (len n - 1) with i by lia; exact NI|]. apply ENDS. lia.
  - intros q Q H. destruct (Z.lt_ge_cases q nx) as [QN|QN].
    + rewrite PRE in H by lia. pose proof H as H0. apply FL in H0. destruct H0 as [H0|[H1 H2]]; [now elim (C q Q)|]. specialize (MX (q + 1) ltac:(lia) H2).
      exists i, nx. split; [lia|]. split; [lia|]. assert (nx < len n) by lia. split; [lia|]. split; [rewrite PRE by lia; intros H3; apply FL in H3; destruct H3 as [H3|[H3 _]]; [now apply (C i)|lia]|].
      split; [apply ENDS; lia|]. split; [apply RN; lia|]. intros CL r RR. rewrite PRE by lia. apply FL. right. split; [lia|]. destruct (Z.eq_dec (r + 1) nx) as [->|NE]; [apply RN; lia|]. apply (CL i nx); [lia|lia|lia|lia|apply RN; lia].
    + destruct (FLAGS q QN H) as (a & b & A & AB & B & NA & NB & RM & ALL). exists a, b. repeat (split; [first [assumption|lia]|]). exact ALL.
Qed.
End Prune.

Lemma compact_ok (orig : list snode) p : forall k read write n, 0 <= write <= read -> read + Z.of_nat k = len n -> len n = len orig -> len p = len orig ->
  (forall q, read <= q -> getz n q = getz orig q) ->
  exists ks xs, compact k read write p n = Some (firstn (Z.to_nat write) n ++ xs) /\ picked orig ks xs /\ (forall q, In q ks <-> read <= q < len orig /\ getz p q <> Some true) /\
    match ks with [] => True | x :: r => chain Z.lt x r end.
Proof.
  induction k as [|k IH]; intros read write n W K L LP G; cbn [compact].
  - exists [], []. rewrite app_nil_r. split; [reflexivity|]. split; [constructor|]. split; [intros q; cbn; lia|exact I].
  - destruct (getz_in_range p read) as [f PF]; [lia|]. rewrite PF. destruct f.
    + destruct (IH (read + 1) write n) as (ks & xs & E & P & IN & CH); try lia. { intros q Q. apply G. lia. }
      exists ks, xs. split; [exact E|]. split; [exact P|]. split; [|exact CH]. intros q. rewrite IN. split; [intros [A B]; split; [lia|exact B]|]. intros [A B]. split; [|exact B]. destruct (Z.eq_dec q read) as [->|]; [congruence|lia].
    + destruct (getz_in_range n read) as [x X]; [lia|].
      assert (STEP : exists n1, (if write <? read then x <- getz n read;; setz n write x else Some n) = Some n1 /\ len n1 = len n /\ (forall q, read < q -> getz n1 q = getz n q) /\ firstn (Z.to_nat (write + 1)) n1 = firstn (Z.to_nat write) n ++ [x]).
      { destruct (Z.ltb_spec write read).
        - rewrite X. destruct (setz_Some n write x) as [n1 N1]; [lia|]. exists n1. split; [exact N1|]. split; [exact (setz_len _ _ _ _ N1)|]. split; [intros q Q; eapply getz_setz_neq; [exact N1|lia]|].
          destruct (setz_split _ _ _ _ N1) as (A & y & B & -> & LA & ->). replace (Z.to_nat (write + 1)) with (length A + 1)%nat by (unfold len in LA; lia). replace (Z.to_nat write) with (length A + 0)%nat by (unfold len in LA; lia).
          rewrite !firstn_app_2. cbn. now rewrite app_nil_r.
        - assert (write = read) as -> by lia. exists n. split; [reflexivity|]. split; [reflexivity|]. split; [reflexivity|]. destruct (getz_split _ _ _ X) as (A & B & -> & LA).
          replace (Z.to_nat (read + 1)) with (length A + 1)%nat by (unfold len in LA; lia). replace (Z.to_nat read) with (length A + 0)%nat by (unfold len in LA; lia).
          rewrite !firstn_app_2. cbn. now rewrite app_nil_r. }
      destruct STEP as (n1 & -> & L1 & G1 & FN). destruct (IH (read + 1) (write + 1) n1) as (ks & xs & E & P & IN & CH); try lia. { intros q Q. rewrite G1 by lia. apply G. lia. }
      exists (read :: ks), (x :: xs). split; [rewrite E, FN, <- app_assoc; reflexivity|]. split; [constructor; [rewrite <- G by lia; exact X|exact P]|]. split.
      * intros q. cbn [In]. rewrite IN. split; [intros [<-|[A B]]; [split; [lia|congruence]|split; [lia|exact B]]|]. intros [A B]. destruct (Z.eq_dec q read) as [->|]; [now left|right; split; [lia|exact B]].
      * destruct ks as [|y ks]; [exact I|]. cbn [chain]. split; [|exact CH]. assert (In y (y :: ks)) as H by (now left). apply IN in H. lia.
Qed.

(** What happens when everything but the first and last node is removed: the last node goes
    as well when the value and the slopes hardly change. *)
Definition constant_kept (t : tolerances) (tol : R) (kept out : list snode) : Prop :=
  out = kept \/ exists a b, kept = [a; b] /\ out = [a] /\ (Rabs (sn_val a - sn_val b) < tol)%R /\ (Rabs (atan (sn_der a)) < tl_angle t)%R /\ (Rabs (atan (sn_der b)) < tl_angle t)%R.

Lemma prune_all t tol n : times_ok n -> n <> [] ->
  exists ks kept out, pruned_nodes t tol n = Some out /\ constant_kept t tol kept out /\ picked n (0 :: ks) kept /\ chain Z.lt 0 ks /\ last ks 0 = len n - 1 /\
    (forall k, 0 <= k < len n -> ~ In k (0 :: ks) -> exists i j, In i (0 :: ks) /\ In j (0 :: ks) /\ i < k < j /\ removable t tol n i j /\ (closed t tol n -> forall r, i < r < j -> ~ In r (0 :: ks))).
Proof.
  intros T NE. assert (LN : 0 < len n) by (apply len_pos; exact NE). unfold pruned_nodes.
  destruct (outer_ok t tol n T (length n + 1) 0 (repeat false (length n))) as (p & E & LP & _ & ENDS & FL); try (unfold len; lia).
  { unfold len. now rewrite repeat_length. }
  { intros q Q H. apply getz_in in H. apply repeat_spec in H. discriminate. }
  rewrite E. destruct (compact_ok n p (length n) 0 0 n) as (ks0 & kept & C & P & IN & CH); try (unfold len in *; lia); [reflexivity|]. rewrite C. cbn [Z.to_nat firstn app].
  assert (Z0 : In 0 ks0) by (apply IN; split; [lia|apply ENDS; lia]).
  destruct ks0 as [|k0 ks]; [destruct Z0|]. assert (k0 = 0) as ->.
  { destruct Z0 as [->|Z0]; [reflexivity|]. assert (In k0 (k0 :: ks)) as K by (now left). apply IN in K. assert (forall l x y, chain Z.lt x l -> In y l -> x < y).
    { clear. induction l as [|z l IH]; intros x y H Y; [destruct Y|]. destruct H as [H1 H2], Y as [->|Y]; [exact H1|]. specialize (IH z y H2 Y). lia. }
    specialize (H ks k0 0 CH Z0). lia. }
  exists ks, kept, (if is_const t tol kept then firstn 1 kept else kept). split; [reflexivity|]. split; [|split; [exact P|split; [exact CH|split]]].
  - unfold constant_kept, is_const. destruct kept as [|a [|b [|c kept]]]; auto. destruct (_ && _) eqn:Q; [|now left]. right. exists a, b. apply andb_prop in Q. destruct Q as [Q Q3]. apply andb_prop in Q. destruct Q as [Q1 Q2]. apply Rltb_iff in Q1, Q2, Q3. auto.
  - assert (LI : In (len n - 1) (0 :: ks)) by (apply IN; split; [lia|apply ENDS; lia]).
    assert (G : forall l x y, chain Z.lt x l -> In y (x :: l) -> y <= last l x).
    { clear. induction l as [|z l IH]; intros x y H Y; [destruct Y as [<-|[]]; cbn; lia|]. rewrite last_cons. destruct H as [H1 H2]. destruct Y as [<-|Y]; [specialize (IH z z H2 (or_introl eq_refl)); lia|exact (IH z y H2 Y)]. }
    specialize (G ks 0 _ CH LI). assert (In (last ks 0) (0 :: ks)).
    { clear. revert ks. assert (forall (ks : list Z) x, In (last ks x) (x :: ks)). { induction ks as [|y ks IH]; intros x; [now left|]. rewrite last_cons. right. apply IH. } intros. apply H. }
    apply IN in H. lia.
  - intros k K NI. assert (F : getz p k = Some true).
    { destruct (getz_in_range p k) as [b B]; [lia|]. destruct b; [exact B|]. elim NI. apply IN. split; [lia|congruence]. }
    destruct (FL k ltac:(lia) F) as (a & b & A & AB & B & NA & NB & RM & ALL). exists a, b. split; [apply IN; split; [lia|exact NA]|]. split; [apply IN; split; [lia|exact NB]|]. split; [lia|]. split; [exact RM|].
    intros CL r R HI. apply IN in HI. destruct HI as [_ HI]. apply HI. exact (ALL CL r R).
Qed.

(** C70: pruning the nodes of a channel keeps nodes in their order ([0 :: ks] are the
    indices of the kept ones), with the first and the last among them.  Every node that
    goes lies between two kept nodes and within tolerance of the curve between those two.
    If nothing but the first and last node is left and the value is constant then the last
    one goes as well. *)
Theorem C70_prune_partial : forall t tol n, times_ok n -> n <> [] ->
  exists ks kept out, pruned_nodes t tol n = Some out /\ constant_kept t tol kept out /\
    picked n (0 :: ks) kept /\ chain Z.lt 0 ks /\ last ks 0 = len n - 1 /\
    (forall k m, getz n k = Some m -> ~ In k (0 :: ks) ->
      exists i j a b, In i (0 :: ks) /\ In j (0 :: ks) /\ i < k < j /\ getz n i = Some a /\ getz n j = Some b /\ near t tol a b m).
Proof.
  intros t tol n T NE. destruct (prune_all t tol n T NE) as (ks & kept & out & E & C & P & CH & L & RM). exists ks, kept, out. repeat (split; [assumption|]).
  intros k m M NI. pose proof (getz_Some _ _ _ M) as K. destruct (RM k K NI) as (i & j & I & J & IJ & (a & b & A & B & R) & _). exists i, j, a, b. repeat (split; [assumption|]).
  destruct R as [(R1 & R2 & _)|R]; [left; auto|right; exact (R k m IJ M)].
Qed.
(** C70 in full, for nodes of which this is true: when the nodes between [i] and [j] can be
    left out, so can those between [i] and any [j'] before [j].  Then no kept node lies
    between those two, so each node that goes is within tolerance of the remaining
    curve. *)
Theorem C70_remaining_curve_partial : forall t tol n, times_ok n -> n <> [] ->
  (forall i j j', 0 <= i -> i + 1 < j' -> j' < j -> j < len n -> removable t tol n i j -> removable t tol n i j') ->
  exists ks kept out, pruned_nodes t tol n = Some out /\ constant_kept t tol kept out /\ picked n (0 :: ks) kept /\ chain Z.lt 0 ks /\ last ks 0 = len n - 1 /\
    (forall k m, getz n k = Some m -> ~ In k (0 :: ks) ->
      exists i j a b, In i (0 :: ks) /\ In j (0 :: ks) /\ i < k < j /\ (forall r, i < r < j -> ~ In r (0 :: ks)) /\ getz n i = Some a /\ getz n j = Some b /\ near t tol a b m).
Proof.
  intros t tol n T NE CL. destruct (prune_all t tol n T NE) as (ks & kept & out & E & C & P & CH & L & RM). exists ks, kept, out. repeat (split; [assumption|]).
  intros k m M NI. pose proof (getz_Some _ _ _ M) as K. destruct (RM k K NI) as (i & j & I & J & IJ & (a & b & A & B & R) & ALL). exists i, j, a, b. repeat (split; [assumption|]). split; [exact (ALL CL)|]. repeat (split; [assumption|]).
  destruct R as [(R1 & R2 & _)|R]; [left; auto|right; exact (R k m IJ M)].
Qed.

Lemma atan_abs_lt x c : (0 <= c)%R -> ((Rabs (atan x) < atan c)%R <-> (Rabs x < c)%R).
Proof.
  intros C. assert (P : forall a b, (atan a < atan b -> a < b)%R) by (intros a b H; destruct (Rlt_le_dec a b) as [L|[L|L]]; [exact L|apply atan_increasing in L; lra|subst; lra]).
  split; intros H.
  - apply Rabs_def2 in H. destruct H as [H1 H2]. rewrite <- atan_opp in H2. apply P in H1, H2. apply Rabs_def1; lra.
  - apply Rabs_def2 in H. destruct H as [H1 H2]. apply Rabs_def1; [now apply atan_increasing|]. rewrite <- atan_opp. now apply atan_increasing.
Qed.

(** Slopes may change by one percent. *)
Definition c70_tolerances : tolerances := Tolerances (1/1000) (1/1000) (1/100) (atan (1/100)) (1/10).
Definition c70_nodes : list snode := [SNode 0 0 0; SNode 1000 0 (-9/1000); SNode 2000 0 (-9/1000); SNode 3000 0 0].
Lemma c70_times : times_ok c70_nodes.
Proof. unfold times_ok, c70_nodes. cbn [In]. intros x y X Y. repeat (destruct X as [<-|X]; [|]); try destruct X; repeat (destruct Y as [<-|Y]; [|]); try destruct Y; cbn [sn_time]; lia. Qed.
Lemma c70_keeps : redundant c70_tolerances c70_nodes 0 2 (1/100) = Some false.
Proof.
  destruct (redundant_ok c70_tolerances c70_nodes 0 2 (1/100) c70_times ltac:(lia)) as (r & E & H); [cbn; lia|]. rewrite E. f_equal. destruct r; [|reflexivity]. destruct (proj1 H eq_refl) as (a & b & A & B & C).
  injection A as <-. injection B as <-. destruct C as [(C & _)|C]; [cbn in C; lia|]. destruct (C 1 (SNode 1000 0 (-9/1000)) ltac:(lia) eq_refl) as [C1 _]. cbn [sn_time sn_val sn_der cubic_between] in C1. unfold cubic_between in C1. cbn [sn_time sn_val sn_der] in C1.
  change (2000 - 0) with 2000 in C1. change (1000 - 0) with 1000 in C1. unfold cubic_init, keval in C1. rewrite Rltb_t in C1 by lra. cbn [k0 k1 k2 k3] in C1. revert C1. rabs; lra.
Qed.
Lemma c70_drops : redundant c70_tolerances c70_nodes 0 3 (1/100) = Some true.
Proof.
  destruct (redundant_ok c70_tolerances c70_nodes 0 3 (1/100) c70_times ltac:(lia)) as (r & E & H); [cbn; lia|]. rewrite E. f_equal. apply H. exists (SNode 0 0 0), (SNode 3000 0 0). split; [reflexivity|]. split; [reflexivity|]. right.
  intros k m K M. unfold cubic_between. cbn [sn_time sn_val sn_der]. change (3000 - 0) with 3000. unfold cubic_init, keval, kderiv. rewrite Rltb_t by lra. cbn [k0 k1 k2 k3].
  assert (k = 1 \/ k = 2) as [-> | ->] by lia; injection M as <-; cbn [sn_time sn_val sn_der c70_tolerances tl_angle]; (split; [rabs; lra|apply atan_abs_lt; [lra|rabs; lra]]).
Qed.
(** The claim is false for all nodes: a node is marked as redundant for the curve from [i] to
    [j] although another node between them stays.  Here the nodes 0, 1 and 3 of four stay, and
    node 2, which has the value 0, is 2.25 away from the curve that remains, with a
    tolerance of 0.01. *)
Theorem C70_refuted : exists t tol n a b c m, times_ok n /\ chain (fun x y => sn_time x < sn_time y) a [b; m; c] /\ n = [a; b; m; c] /\ pruned_nodes t tol n = Some [a; b; c] /\
  tol = (1/100)%R /\ (225/100 <= Rabs (keval (cubic_between b c) (IZR (sn_time m - sn_time b)) - sn_val m))%R.
Proof.
  exists c70_tolerances, (1/100)%R, c70_nodes, (SNode 0 0 0), (SNode 1000 0 (-9/1000)), (SNode 3000 0 0), (SNode 2000 0 (-9/1000)).
  split; [exact c70_times|]. split; [cbn; lia|]. split; [reflexivity|]. split; [|split; [reflexivity|]].
  - unfold pruned_nodes. change (length c70_nodes) with 4%nat. change (4 + 1)%nat with 5%nat. cbn [prune_outer]. change (len c70_nodes) with 4. change (0 <? 4) with true. cbn iota. change (Z.to_nat (4 - (0 + 2))) with 2%nat. cbn [prune_inner].
    change (0 + 2) with 2. change (2 + 1) with 3. rewrite c70_keeps, c70_drops. cbn iota. change (setz (repeat false 4) (3 - 1) true) with (Some [false; false; true; false]). cbn [fst snd].
    change (3 <? 4) with true. cbn iota. change (Z.to_nat (4 - (3 + 2))) with 0%nat. cbn [prune_inner fst snd]. change (3 + 1) with 4. change (4 <? 4) with false. cbn iota.
    reflexivity.
  - unfold cubic_between. cbn [sn_time sn_val sn_der]. change (3000 - 1000) with 2000. change (2000 - 1000) with 1000. unfold cubic_init, keval. rewrite Rltb_t by lra. cbn [k0 k1 k2 k3]. rabs; lra.
Qed.
(** Nor does the last node always stay, and the curve need not stay near where it was
    between the nodes: a curve that rises to 2.25 and falls again in 1000 time units with
    slopes below one percent at its ends becomes constant. *)
Theorem C70_constant_refuted : exists t tol a b, sn_time a < sn_time b /\ pruned_nodes t tol [a; b] = Some [a] /\ tol = (1/100)%R /\ sn_val a = 0%R /\ (2 <= keval (cubic_between a b) 500)%R.
Proof.
  exists c70_tolerances, (1/100)%R, (SNode 0 0 (9/1000)), (SNode 1000 0 (-9/1000)). split; [cbn; lia|]. split; [|split; [reflexivity|split; [reflexivity|]]].
  - unfold pruned_nodes. change (length [SNode 0 0 (9/1000); SNode 1000 0 (-9/1000)]) with 2%nat. change (2 + 1)%nat with 3%nat. cbn [prune_outer]. change (len [SNode 0 0 (9/1000); SNode 1000 0 (-9/1000)]) with 2. change (0 <? 2) with true. cbn iota.
    change (Z.to_nat (2 - (0 + 2))) with 0%nat. cbn [prune_inner fst snd]. change (0 + 1) with 1. change (1 <? 2) with true. cbn iota. change (Z.to_nat (2 - (1 + 2))) with 0%nat. cbn [prune_inner fst snd]. change (1 + 1) with 2. change (2 <? 2) with false. cbn iota.
    cbn [repeat compact]. change (getz [false; false] 0) with (Some false). change (getz [false; false] (0 + 1)) with (Some false). cbn iota. change (0 <? 0) with false. cbn iota. change (0 + 1 <? 0 + 1) with false. cbn iota. change (Z.to_nat (0 + 1 + 1)) with 2%nat. cbn [firstn].
    unfold is_const. cbn [sn_val sn_der c70_tolerances tl_angle]. rewrite (Rltb_t (Rabs (0 - 0))) by (rabs; lra). rewrite !Rltb_t by (apply atan_abs_lt; [lra|rabs; lra]). reflexivity.
  - unfold cubic_between. cbn [sn_time sn_val sn_der]. change (1000 - 0) with 1000. unfold cubic_init, keval. rewrite Rltb_t by lra. cbn [k0 k1 k2 k3]. lra.
Qed.
(** Nodes at which redundancy passes to shorter stretches: three nodes of a straight line,
    of which the middle one goes. *)
Example C70_applies : let n := [SNode 0 0 1; SNode 10 10 1; SNode 20 20 1] in
  times_ok n /\ n <> [] /\ (forall i j j', 0 <= i -> i + 1 < j' -> j' < j -> j < len n -> removable c70_tolerances (1/100) n i j -> removable c70_tolerances (1/100) n i j') /\ removable c70_tolerances (1/100) n 0 2.
Proof.
  cbv zeta. split; [|split; [discriminate|split]].
  - unfold times_ok. cbn [In]. intros x y X Y. repeat (destruct X as [<-|X]; [|]); try destruct X; repeat (destruct Y as [<-|Y]; [|]); try destruct Y; cbn [sn_time]; lia.
  - intros i j j' I J J' L. change (len [SNode 0 0 1; SNode 10 10 1; SNode 20 20 1]) with 3 in L. lia.
  - exists (SNode 0 0 1), (SNode 20 20 1). split; [reflexivity|]. split; [reflexivity|]. right. intros k m K M. assert (k = 1) as -> by lia. injection M as <-. unfold cubic_between. cbn [sn_time sn_val sn_der c70_tolerances tl_angle].
    change (20 - 0) with 20. change (10 - 0) with 10. unfold cubic_init, keval, kderiv. rewrite Rltb_t by lra. cbn [k0 k1 k2 k3]. split; [rabs; lra|apply atan_abs_lt; [lra|rabs; lra]].
Qed.
Print Assumptions C70_prune_partial.
Print Assumptions C70_remaining_curve_partial.
Print Assumptions C70_refuted.
Print Assumptions C70_constant_refuted.
