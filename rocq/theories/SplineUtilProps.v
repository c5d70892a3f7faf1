(** Theorems about the search for farther positions (C74) and curves of constant speed (C80). *)
From Verif Require Import RBase BaseFacts SplineUtilModel.
Local Open Scope Z_scope.

(** *** Specification *)
(** The index reached from [start] by [k] steps in direction [d] among [n] positions: around
    the circle, or stopping at the ends. *)
Definition walk (wraps : bool) (n start d k : Z) : Z := if wraps then (start + d * k) mod n else Z.max 0 (Z.min (n - 1) (start + d * k)).
(** The end of the search: about half of the positions away. *)
Definition search_end (wraps : bool) (n start d : Z) : Z := walk wraps n start d (n / 2 - 1).
(** Positions [i] and [j] are at least [min_dist] apart. *)
Definition far (positions : list (list R)) (min_dist : R) (i j : Z) : Prop :=
  exists p q, getz positions i = Some p /\ getz positions j = Some q /\ (min_dist <= vlen (vsub p q))%R.

(** *** Proofs *)
Lemma mod_shift x n : 0 < n -> - n <= x < 2 * n -> x mod n = if x <? 0 then x + n else if n <=? x then x - n else x.
Proof.
  intros Hn Hx. destruct (Z.ltb_spec x 0); [|destruct (Z.leb_spec n x)]; symmetry.
  - apply (Z.mod_unique_pos _ _ (-1)); lia.
  - apply (Z.mod_unique_pos _ _ 1); lia.
  - apply (Z.mod_unique_pos _ _ 0); lia.
Qed.
Lemma normalize_spec : forall wraps n x, 0 < n -> - n <= x < 2 * n -> normalize_idx x n wraps = if wraps then x mod n else Z.max 0 (Z.min (n - 1) x).
Proof.
  intros wraps n x Hn Hx. unfold normalize_idx. destruct wraps; [symmetry; apply mod_shift; assumption|].
  destruct (Z.ltb_spec x 0); [|destruct (Z.leb_spec n x)]; lia.
Qed.
Lemma walk_range : forall wraps n start d k, 0 < n -> 0 <= walk wraps n start d k < n.
Proof. intros. unfold walk. destruct wraps; [apply Z.mod_pos_bound; lia|lia]. Qed.
Lemma walk_step : forall wraps n start d k, 0 < n -> 0 <= start < n -> d = 1 \/ d = -1 -> 0 <= k -> normalize_idx (walk wraps n start d k + d) n wraps = walk wraps n start d (k + 1).
Proof.
  intros wraps n start d k Hn Hs Hd Hk. pose proof (walk_range wraps n start d k Hn). rewrite normalize_spec by lia. unfold walk. destruct wraps.
  - rewrite Zplus_mod_idemp_l. f_equal. ring.
  - destruct Hd as [-> | ->]; lia.
Qed.
Lemma walk_0 : forall wraps n start d, 0 <= start < n -> walk wraps n start d 0 = start.
Proof. intros. unfold walk. rewrite Z.mul_0_r, Z.add_0_r. destruct wraps; [apply Z.mod_small; assumption|lia]. Qed.
Lemma end_spec : forall wraps n start d, 0 < n -> 0 <= start < n -> d = 1 \/ d = -1 ->
  normalize_idx (start + d * (Z.quot n 2 - 1)) n wraps = search_end wraps n start d.
Proof.
  intros wraps n start d Hn Hs Hd. unfold search_end, walk. rewrite Z.quot_div_nonneg by lia.
  pose proof (Z.div_pos n 2 ltac:(lia) ltac:(lia)). pose proof (Z.mul_div_le n 2 ltac:(lia)).
  rewrite normalize_spec; [reflexivity|lia|]. destruct Hd as [-> | ->]; lia.
Qed.

Section Search.
Context (positions : list (list R)) (wraps : bool) (start d : Z) (min_dist : R).
Notation n := (len positions).
Context (Hs : 0 <= start < n) (Hd : d = 1 \/ d = -1).
Notation w := (walk wraps n start d).
Notation stop k := (w k = search_end wraps n start d \/ far positions min_dist (w k) start).

Lemma far_dec : forall k p, getz positions start = Some p -> exists q, getz positions (w k) = Some q /\
  ((Rleb min_dist (vlen (vsub q p)) = true /\ far positions min_dist (w k) start) \/ (Rleb min_dist (vlen (vsub q p)) = false /\ ~ far positions min_dist (w k) start)).
Proof.
  intros k p Hp. destruct (getz_in_range positions (w k) (walk_range wraps n start d k ltac:(lia))) as [q Hq]. exists q. split; [exact Hq|].
  destruct (Rleb_spec min_dist (vlen (vsub q p))) as [L|G].
  - left. split; [reflexivity|]. exists q, p. auto.
  - right. split; [reflexivity|]. intros (q' & p' & A & B & C). rewrite Hq in A. rewrite Hp in B. injection A as <-. injection B as <-. lra.
Qed.
Lemma loop_finds : forall m k p fuel, getz positions start = Some p -> 1 <= k -> stop (k + Z.of_nat m) -> (m < fuel)%nat ->
  exists j, k <= j <= k + Z.of_nat m /\ farther_loop fuel positions wraps p (search_end wraps n start d) d min_dist (w k) = Some (w j) /\ stop j /\ forall i, k <= i < j -> ~ stop i.
Proof.
  induction m as [|m IH]; intros k p fuel Hp Hk Hst Hf; destruct fuel as [|fuel]; try lia; cbn [farther_loop].
  - replace (k + Z.of_nat 0) with k in * by lia. exists k. split; [lia|].
    destruct (Z.eqb_spec (w k) (search_end wraps n start d)) as [E|E].
    + split; [congruence|]. split; [auto|]. intros; lia.
    + destruct Hst as [Hst|Hst]; [contradiction|]. destruct (far_dec k p Hp) as (q & Hq & [[L F]|[L F]]); [|contradiction]. rewrite Hq, L. cbn. split; [reflexivity|]. split; [auto|]. intros; lia.
  - destruct (Z.eqb_spec (w k) (search_end wraps n start d)) as [E|E].
    + exists k. split; [lia|]. split; [congruence|]. split; [auto|]. intros; lia.
    + destruct (far_dec k p Hp) as (q & Hq & [[L F]|[L F]]); rewrite Hq, L; cbn.
      * exists k. split; [lia|]. split; [reflexivity|]. split; [auto|]. intros; lia.
      * rewrite walk_step by lia. destruct (IH (k + 1) p fuel Hp ltac:(lia)) as (j & Rj & Ej & Sj & Nj); [replace (k + 1 + Z.of_nat m) with (k + Z.of_nat (S m)) by lia; exact Hst|lia|].
        exists j. split; [lia|]. split; [exact Ej|]. split; [exact Sj|]. intros i Hi. destruct (Z.eq_dec i k) as [->|N]; [tauto|apply Nj; lia].
Qed.
Lemma loop_stops : forall fuel k p r, getz positions start = Some p -> 1 <= k -> farther_loop fuel positions wraps p (search_end wraps n start d) d min_dist (w k) = Some r ->
  exists j, k <= j /\ r = w j /\ stop j.
Proof.
  induction fuel as [|fuel IH]; intros k p r Hp Hk H; [discriminate|]. cbn [farther_loop] in H.
  destruct (Z.eqb_spec (w k) (search_end wraps n start d)) as [E|E]; [injection H as <-; exists k; split; [lia|]; auto|].
  destruct (far_dec k p Hp) as (q & Hq & [[L F]|[L F]]); rewrite Hq, L in H; cbn in H; [injection H as <-; exists k; split; [lia|]; auto|].
  rewrite walk_step in H by lia. apply IH in H; [|exact Hp|lia]. destruct H as (j & Hj & X). exists j. split; [lia|exact X].
Qed.

Lemma find_eq : forall fuel p, getz positions start = Some p ->
  find_farther_idx fuel positions wraps start d min_dist = farther_loop fuel positions wraps p (search_end wraps n start d) d min_dist (w 1).
Proof.
  intros fuel p Hp. unfold find_farther_idx. rewrite Hp. rewrite end_spec by (auto; lia).
  replace (start + d) with (w 0 + d) by (rewrite walk_0 by exact Hs; reflexivity). rewrite walk_step by lia. reflexivity.
Qed.
End Search.

(** *** C74: the search returns the first index along the walk from the start that is far
    enough or is the end; it terminates exactly when there is such an index. *)
Theorem C74_first_stop : forall positions wraps start d min_dist, 0 <= start < len positions -> d = 1 \/ d = -1 ->
  let at_ k := walk wraps (len positions) start d k in
  let stop k := at_ k = search_end wraps (len positions) start d \/ far positions min_dist (at_ k) start in
  ((exists fuel r, find_farther_idx fuel positions wraps start d min_dist = Some r) <-> exists k, 1 <= k /\ stop k) /\
  (forall fuel r, find_farther_idx fuel positions wraps start d min_dist = Some r -> exists k, 1 <= k /\ r = at_ k /\ stop k /\ forall i, 1 <= i < k -> ~ stop i).
Proof.
  intros positions wraps start d min_dist Hs Hd at_ stop. destruct (getz_in_range positions start Hs) as [p Hp].
  assert (forall k, 1 <= k -> stop k -> exists j, 1 <= j /\ stop j /\ (forall i, 1 <= i < j -> ~ stop i) /\ forall fuel, (Z.to_nat (k - 1) < fuel)%nat -> find_farther_idx fuel positions wraps start d min_dist = Some (at_ j)) as Fwd.
  { intros k Hk St. set (f0 := S (Z.to_nat (k - 1))).
    destruct (loop_finds positions wraps start d min_dist Hs Hd (Z.to_nat (k - 1)) 1 p f0 Hp ltac:(lia)) as (j & Rj & Ej & Sj & Nj); [replace (1 + Z.of_nat (Z.to_nat (k - 1))) with k by lia; exact St|unfold f0; lia|].
    exists j. split; [lia|]. split; [exact Sj|]. split; [exact Nj|]. intros fuel Hf.
    destruct (loop_finds positions wraps start d min_dist Hs Hd (Z.to_nat (k - 1)) 1 p fuel Hp ltac:(lia)) as (j' & Rj' & Ej' & Sj' & Nj'); [replace (1 + Z.of_nat (Z.to_nat (k - 1))) with k by lia; exact St|exact Hf|].
    assert (j' = j) as ->. { destruct (Z.lt_trichotomy j j') as [L|[L|L]]; [exfalso; apply (Nj' j); [lia|exact Sj]|auto|exfalso; apply (Nj j'); [lia|exact Sj']]. }
    rewrite (find_eq _ _ _ _ _ Hs Hd _ p Hp). exact Ej'. }
  split.
  - split.
    + intros (fuel & r & H). rewrite (find_eq _ _ _ _ _ Hs Hd _ p Hp) in H. apply loop_stops in H; [|exact Hs|exact Hd|exact Hp|lia]. destruct H as (j & Hj & _ & X). exists j. auto.
    + intros (k & Hk & St). destruct (Fwd k Hk St) as (j & _ & _ & _ & Ff). exists (S (Z.to_nat (k - 1))), (at_ j). apply Ff. lia.
  - intros fuel r H. rewrite (find_eq _ _ _ _ _ Hs Hd _ p Hp) in H. pose proof H as H'. apply loop_stops in H; [|exact Hs|exact Hd|exact Hp|lia]. destruct H as (k & Hk & _ & St).
    destruct (Fwd k Hk St) as (j & Hj & Sj & Nj & Ff). exists j. split; [exact Hj|]. split; [|split; [exact Sj|exact Nj]].
    (* more fuel gives the same result *)
    assert (forall f i f', (f <= f')%nat -> forall x, farther_loop f positions wraps p (search_end wraps (len positions) start d) d min_dist i = Some x -> farther_loop f' positions wraps p (search_end wraps (len positions) start d) d min_dist i = Some x) as Mono.
    { clear. induction f as [|f IH]; intros i f' L x H; [discriminate|]. destruct f' as [|f']; [lia|]. cbn [farther_loop] in *.
      destruct (i =? search_end wraps (len positions) start d); [exact H|]. destruct (getz positions i) as [q|]; [|discriminate]. cbn in *.
      destruct (Rleb min_dist (vlen (vsub q p))); [exact H|]. apply (IH _ f'); [lia|exact H]. }
    specialize (Ff (fuel + S (Z.to_nat (k - 1)))%nat ltac:(lia)). rewrite (find_eq _ _ _ _ _ Hs Hd _ p Hp) in Ff.
    rewrite (Mono fuel _ (fuel + S (Z.to_nat (k - 1)))%nat ltac:(lia) _ H') in Ff. congruence.
Qed.

(** *** C74: the search terminates, when the positions wrap around or there are not two or
    three of them, and the index is far enough or the end. *)
Theorem C74_terminates_partial : forall positions wraps start d min_dist, 0 <= start < len positions -> d = 1 \/ d = -1 ->
  wraps = true \/ len positions = 1 \/ 4 <= len positions ->
  exists fuel r, find_farther_idx fuel positions wraps start d min_dist = Some r /\ 0 <= r < len positions /\
    (r = search_end wraps (len positions) start d \/ far positions min_dist r start).
Proof.
  intros positions wraps start d min_dist Hs Hd Hw. destruct (C74_first_stop positions wraps start d min_dist Hs Hd) as [T U]. cbv zeta in T, U.
  assert (exists fuel r, find_farther_idx fuel positions wraps start d min_dist = Some r) as (fuel & r & H).
  { apply T. set (n := len positions) in *. destruct (Z_le_gt_dec 4 n) as [L4|L4].
    - exists (n / 2 - 1). split; [|left; reflexivity]. assert (2 <= n / 2) by (apply Z.div_le_lower_bound; lia). lia.
    - destruct wraps.
      + unfold search_end, walk. exists (n / 2 - 1 + 2 * n). assert (0 <= n / 2) by (apply Z.div_pos; lia). assert (n = 1 \/ n = 2 \/ n = 3) as Hn by lia.
        split; [lia|]. left. replace (start + d * (n / 2 - 1 + 2 * n)) with (start + d * (n / 2 - 1) + d * 2 * n) by ring. apply Z.mod_add. lia.
      + exists 1. split; [lia|]. left. unfold search_end, walk. destruct Hw as [?|[Hw|?]]; [discriminate| |lia]. rewrite Hw. lia. }
  exists fuel, r. split; [exact H|]. destruct (U fuel r H) as (k & Hk & -> & St & _). split; [apply walk_range; lia|exact St].
Qed.

(** *** C74 is false for three positions that do not wrap around: the search forward from
    the second position, when the third is near it, does not terminate. *)
Theorem C74_refuted : forall p0 p1 p2 min_dist, (vlen (vsub p2 p1) < min_dist)%R ->
  forall fuel, find_farther_idx fuel [p0; p1; p2] false 1 1 min_dist = None.
Proof.
  intros p0 p1 p2 min_dist H fuel.
  change (find_farther_idx fuel [p0; p1; p2] false 1 1 min_dist) with (farther_loop fuel [p0; p1; p2] false p1 1 1 min_dist 2).
  induction fuel as [|fuel IH]; [reflexivity|]. cbn [farther_loop]. change (2 =? 1) with false. change (getz [p0; p1; p2] 2) with (Some p2). cbv iota beta.
  rewrite Rleb_f by lra. exact IH.
Qed.

(** The same through CalculateConstSpeedCurveFromPositions: it does not return for the
    positions 0, 10, 21/2 on a line with minimum distance 1. *)
Lemma vlen1 : forall x, vlen [x] = Rabs x.
Proof. intros x. unfold vlen. cbn. rewrite Rplus_0_r. apply sqrt_Rsqr_abs. Qed.
Theorem C74_curve_refuted : forall fuel total_time, const_speed_curve fuel [[0%R]; [10%R]; [(21 / 2)%R]] total_time 1 = None.
Proof.
  intros fuel total_time. cbn [const_speed_curve]. cbn [distances vsub]. rewrite !vlen1.
  change (getz [0%R; (0 + Rabs (10 - 0))%R; (0 + Rabs (10 - 0) + Rabs (21 / 2 - 10))%R] (len [[0%R]; [10%R]; [(21 / 2)%R]] - 1)) with (Some (0 + Rabs (10 - 0) + Rabs (21 / 2 - 10))%R).
  cbv iota beta. destruct (_ || _)%bool; [reflexivity|]. change (getz [[0%R]; [10%R]; [(21 / 2)%R]] (len [[0%R]; [10%R]; [(21 / 2)%R]] - 1)) with (Some [(21 / 2)%R]). cbv iota beta. cbn [vsub]. rewrite vlen1.
  rewrite Rltb_f by (rewrite Rabs_left; lra). cbn [length derivatives_loop].
  destruct (find_farther_idx fuel [[0%R]; [10%R]; [(21 / 2)%R]] false 0 (-1) 1); [|reflexivity].
  destruct (find_farther_idx fuel [[0%R]; [10%R]; [(21 / 2)%R]] false 0 1 1); [|reflexivity].
  destruct (getz [[0%R]; [10%R]; [(21 / 2)%R]] z0); [|reflexivity]. destruct (getz [[0%R]; [10%R]; [(21 / 2)%R]] z); [|reflexivity].
  destruct (vnormalized (vsub l l0)); [|reflexivity].
  change (0 + 1) with 1. destruct (find_farther_idx fuel [[0%R]; [10%R]; [(21 / 2)%R]] false 1 (-1) 1); [|reflexivity].
  rewrite C74_refuted; [reflexivity|]. cbn [vsub]. rewrite vlen1, Rabs_right; lra.
Qed.

(** *** C80: curves of constant speed *)
(** The length of the polyline through the positions. *)
Fixpoint path_length (positions : list (list R)) : R :=
  match positions with
  | p :: (q :: _) as ps => (vlen (vsub q p) + path_length ps)%R
  | _ => 0%R
  end.
Lemma vlen_nonneg : forall v, (0 <= vlen v)%R.
Proof. intros. apply sqrt_pos. Qed.
Lemma vsq_nonneg : forall v, (0 <= vsq v)%R.
Proof. induction v as [|x v IH]; cbn; [lra|]. pose proof (Rle_0_sqr x) as H. unfold Rsqr in H. lra. Qed.
Lemma vsq_scale : forall s v, vsq (vscale s v) = (s * s * vsq v)%R.
Proof. intros s. induction v as [|x v IH]; cbn; [ring|]. unfold vscale in IH. rewrite IH. ring. Qed.
Lemma vlen_scale : forall s v, vlen (vscale s v) = (Rabs s * vlen v)%R.
Proof.
  intros s v. unfold vlen. rewrite vsq_scale, sqrt_mult_alt by (pose proof (Rle_0_sqr s); unfold Rsqr in *; lra). f_equal. apply sqrt_Rsqr_abs.
Qed.
Lemma vlen_normalized : forall v u, vnormalized v = Some u -> vlen u = 1%R.
Proof.
  intros v u H. unfold vnormalized in H. destruct (Reqb_spec (vlen v) 0) as [E|E]; [discriminate|]. injection H as <-. rewrite vlen_scale.
  pose proof (vlen_nonneg v). rewrite Rabs_right by (apply Rle_ge, Rlt_le, Rinv_0_lt_compat; lra). field. exact E.
Qed.
Lemma distances_len : forall ps d p, len (distances d p ps) = len ps.
Proof. induction ps as [|q ps IH]; intros; cbn [distances]; [reflexivity|]. rewrite !len_cons, IH. reflexivity. Qed.
Lemma getz_cons_0 {A} : forall (x : A) l, getz (x :: l) 0 = Some x.
Proof. reflexivity. Qed.
Lemma getz_cons_S {A} : forall (x : A) l i, 0 <= i -> getz (x :: l) (i + 1) = getz l i.
Proof. intros x l i Hi. change (x :: l) with ([x] ++ l). rewrite getz_app2 by (change (len [x]) with 1; lia). change (len [x]) with 1. f_equal. lia. Qed.
Lemma distances_step : forall ps d p i a b, getz (d :: distances d p ps) i = Some a -> getz (d :: distances d p ps) (i + 1) = Some b ->
  exists x y, getz (p :: ps) i = Some x /\ getz (p :: ps) (i + 1) = Some y /\ b = (a + vlen (vsub y x))%R.
Proof.
  induction ps as [|q ps IH]; intros d p i a b Ha Hb; pose proof (getz_Some _ _ _ Ha) as Ra; pose proof (getz_Some _ _ _ Hb) as Rb.
  - cbn [distances] in Rb. change (len [d]) with 1 in Rb. lia.
  - cbn [distances] in *. destruct (Z.eq_dec i 0) as [->|N].
    + cbn in Ha, Hb. injection Ha as <-. injection Hb as <-. exists p, q. auto.
    + replace i with (i - 1 + 1) in * by lia. rewrite getz_cons_S in Ha, Hb by lia. destruct (IH _ _ _ _ _ Ha Hb) as (x & y & X & Y & E). exists x, y.
      rewrite (getz_cons_S p _ (i - 1)), (getz_cons_S p _ (i - 1 + 1)) by lia. auto.
Qed.
Lemma distances_last : forall ps d p x, getz (d :: distances d p ps) (len ps) = Some x -> x = (d + path_length (p :: ps))%R.
Proof.
  induction ps as [|q ps IH]; intros d p x H.
  - cbn in H. injection H as <-. cbn. ring.
  - cbn [distances] in H. rewrite len_cons in H. replace (1 + len ps) with (len ps + 1) in H by lia. rewrite getz_cons_S in H by apply len_nonneg. apply IH in H. rewrite H.
    change (path_length (p :: q :: ps)) with (vlen (vsub q p) + path_length (q :: ps))%R. ring.
Qed.
Lemma path_nonneg : forall ps, (0 <= path_length ps)%R.
Proof. induction ps as [|p [|q ps] IH]; [cbn; lra|cbn; lra|]. change (path_length (p :: q :: ps)) with (vlen (vsub q p) + path_length (q :: ps))%R. pose proof (vlen_nonneg (vsub q p)). lra. Qed.
Lemma derivatives_speed : forall n fuel positions wraps md speed i l, derivatives_loop n fuel positions wraps md speed i = Some l -> length l = n /\ Forall (fun v => vlen v = Rabs speed) l.
Proof.
  induction n as [|n IH]; intros fuel positions wraps md speed i l H; cbn in H; [injection H as <-; auto|].
  destruct (find_farther_idx fuel positions wraps i (-1) md); [|discriminate]. cbn in H.
  destruct (find_farther_idx fuel positions wraps i 1 md); [|discriminate]. cbn in H.
  destruct (getz positions z0); [|discriminate]. cbn in H. destruct (getz positions z); [|discriminate]. cbn in H.
  destruct (vnormalized (vsub l0 l1)) as [u|] eqn:Eu; [|discriminate]. cbn in H.
  destruct (derivatives_loop n fuel positions wraps md speed (i + 1)) as [r|] eqn:Er; [|discriminate]. cbn in H. injection H as <-.
  destruct (IH _ _ _ _ _ _ _ Er) as [L Fa]. split; [cbn; congruence|]. constructor; [|exact Fa]. rewrite vlen_scale, (vlen_normalized _ _ Eu). ring.
Qed.

(** *** C80: the times start at zero, end at the total time and increase in proportion to the
    distances between the positions; each derivative has the constant speed. *)
Theorem C80_constant_speed : forall fuel positions total_time md times derivatives,
  const_speed_curve fuel positions total_time md = Some (times, derivatives) -> 2 <= len positions -> (0 < total_time)%R ->
  let speed := (path_length positions / total_time)%R in
  len times = len positions /\ len derivatives = len positions /\ getz times 0 = Some 0%R /\ getz times (len positions - 1) = Some total_time /\
  (forall i t t', getz times i = Some t -> getz times (i + 1) = Some t' ->
     exists p q, getz positions i = Some p /\ getz positions (i + 1) = Some q /\ ((t' - t) * speed)%R = vlen (vsub q p) /\ (t <= t')%R) /\
  Forall (fun v => vlen v = speed) derivatives.
Proof.
  intros fuel positions total_time md times derivatives H L T. cbv zeta. unfold const_speed_curve in H.
  destruct positions as [|p0 [|p1 ps]]; [cbn in L; lia|cbn in L; lia|].
  set (all := p0 :: p1 :: ps) in *. set (dist := 0%R :: distances 0 p0 (p1 :: ps)) in *.
  destruct (getz dist (len all - 1)) as [total|] eqn:Et; [|discriminate].
  assert (total = path_length all) as ->.
  { unfold dist, all in Et. rewrite (len_cons p0) in Et. replace (1 + len (p1 :: ps) - 1) with (len (p1 :: ps)) in Et by lia. apply distances_last in Et. rewrite Et. unfold all. ring. }
  destruct (Reqb_spec (path_length all) 0) as [E0|E0]; [discriminate|]. destruct (Reqb_spec total_time 0) as [E1|E1]; [discriminate|]. cbn [orb] in H.
  destruct (getz all (len all - 1)) as [last|]; [|discriminate].
  destruct (derivatives_loop _ fuel all _ md _ 0) as [ds|] eqn:Ed; [|discriminate].
  assert (times = map (fun d => (total_time / path_length all * d)%R) dist /\ derivatives = ds) as [-> ->] by (split; congruence). clear H.
  pose proof (path_nonneg all) as P0. assert (0 < path_length all)%R as P by lra.
  apply derivatives_speed in Ed. destruct Ed as [Ld Fd].
  assert (forall i, getz (map (fun d => (total_time / path_length all * d)%R) dist) i = match getz dist i with Some d => Some (total_time / path_length all * d)%R | None => None end) as G.
  { intros i. unfold getz. destruct (i <? 0); [reflexivity|]. rewrite nth_error_map. destruct (nth_error dist (Z.to_nat i)); reflexivity. }
  split; [|split; [|split; [|split; [|split]]]].
  - rewrite len_map. unfold dist, all. rewrite !len_cons, distances_len, len_cons. lia.
  - unfold len. rewrite Ld. reflexivity.
  - rewrite G. unfold dist. rewrite getz_cons_0. f_equal. ring.
  - rewrite G, Et. f_equal. field. lra.
  - intros i t t' Ht Ht'. rewrite G in Ht, Ht'. destruct (getz dist i) as [a|] eqn:Ea; [|discriminate]. destruct (getz dist (i + 1)) as [b|] eqn:Eb; [|discriminate].
    assert (t = (total_time / path_length all * a)%R) as -> by congruence. assert (t' = (total_time / path_length all * b)%R) as -> by congruence. clear Ht Ht'. destruct (distances_step _ _ _ _ _ _ Ea Eb) as (x & y & Hx & Hy & ->). exists x, y. split; [exact Hx|]. split; [exact Hy|].
    pose proof (vlen_nonneg (vsub y x)). split; [generalize (vlen (vsub y x)); intros D0; generalize dependent (path_length all); intros pl; intros; field; split; lra|].
    apply Rmult_le_compat_l; [|lra]. apply Rlt_le, Rdiv_lt_0_compat; lra.
  - eapply Forall_impl; [|exact Fd]. intros v Hv. cbv beta in Hv |- *. rewrite Hv. apply Rabs_right. apply Rle_ge, Rlt_le, Rdiv_lt_0_compat; lra.
Qed.

(** Eight positions on a line, 1 apart: the search from the first for a position 2 away
    reaches the third.  Two positions: the curve takes the times 0 and 2. *)
Example C74_example : find_farther_idx 9 (map (fun x => [x]) [0; 1; 2; 3; 4; 5; 6; 7]%R) false 0 1 2 = Some 2.
Proof.
  set (ps := map (fun x => [x]) [0; 1; 2; 3; 4; 5; 6; 7]%R). change (find_farther_idx 9 ps false 0 1 2) with (farther_loop 9 ps false [0%R] 3 1 2 1).
  cbn [farther_loop]. change (1 =? 3) with false. change (getz ps 1) with (Some [1%R]). cbv iota beta. cbn [vsub]. rewrite vlen1, Rleb_f by (rewrite Rabs_right; lra).
  change (normalize_idx (1 + 1) (len ps) false) with 2. change (2 =? 3) with false. change (getz ps 2) with (Some [2%R]). cbv iota beta. cbn [vsub]. rewrite vlen1, Rleb_t by (rewrite Rabs_right; lra). reflexivity.
Qed.
Example C80_example : exists ds, const_speed_curve 5 [[0%R]; [1%R]] 2 1 = Some ([0; 2]%R, ds).
Proof.
  set (ps := [[0%R]; [1%R]]).
  assert (find_farther_idx 5 ps false 0 (-1) 1 = Some 0) as A1 by reflexivity.
  assert (find_farther_idx 5 ps false 0 1 1 = Some 1) as A2.
  { change (find_farther_idx 5 ps false 0 1 1) with (farther_loop 5 ps false [0%R] 0 1 1 1). cbn [farther_loop]. change (1 =? 0) with false. change (getz ps 1) with (Some [1%R]). cbv iota beta. cbn [vsub]. rewrite vlen1, Rleb_t by (rewrite Rabs_right; lra). reflexivity. }
  assert (find_farther_idx 5 ps false 1 (-1) 1 = Some 0) as A3.
  { change (find_farther_idx 5 ps false 1 (-1) 1) with (farther_loop 5 ps false [1%R] 1 (-1) 1 0). cbn [farther_loop]. change (0 =? 1) with false. change (getz ps 0) with (Some [0%R]). cbv iota beta. cbn [vsub]. rewrite vlen1, Rleb_t by (rewrite Rabs_left; lra). reflexivity. }
  assert (find_farther_idx 5 ps false 1 1 1 = Some 1) as A4 by reflexivity.
  assert (vnormalized (vsub [1%R] [0%R]) = Some [(/ Rabs (1 - 0) * (1 - 0))%R]) as A5.
  { unfold vnormalized. cbn [vsub]. rewrite vlen1, Reqb_f by (rewrite Rabs_right; lra). reflexivity. }
  unfold const_speed_curve. unfold ps at 1. cbn [distances vsub]. rewrite !vlen1. fold ps.
  change (getz [0%R; (0 + Rabs (1 - 0))%R] (len ps - 1)) with (Some (0 + Rabs (1 - 0))%R). change (getz ps (len ps - 1)) with (Some [1%R]). cbv iota beta. cbn [vsub].
  rewrite !Reqb_f by (rewrite ?Rabs_right; lra). cbn [orb]. rewrite vlen1, Rltb_f by (rewrite Rabs_left; lra).
  change (length ps) with 2%nat. cbn [derivatives_loop]. rewrite A1, A2. change (0 + 1) with 1. rewrite A3, A4.
  change (getz ps 1) with (Some [1%R]). change (getz ps 0) with (Some [0%R]). cbv iota beta. rewrite A5. eexists. f_equal. f_equal. cbn [map]. rewrite Rabs_right by lra. f_equal; [field|]. f_equal. field.
Qed.

Print Assumptions C74_first_stop.
Print Assumptions C74_terminates_partial.
Print Assumptions C74_refuted.
Print Assumptions C74_curve_refuted.
Print Assumptions C80_constant_speed.
