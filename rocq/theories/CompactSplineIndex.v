From Verif Require Import RBase BaseFacts RangeModel RangeProofs CurveModel CurveProofs CompactSplineModel CompactSplineSpec CompactSplineProofs.
From Coq Require Import Sorting.Sorted.

Lemma sorted_getz (l : list node) : StronglySorted Z.le (map nx l) -> forall i j a b,
  getz l i = Some a -> getz l j = Some b -> (i <= j)%Z -> (nx a <= nx b)%Z.
Proof.
  induction l as [|c l IH]; intros S i j a b A B L; [apply getz_Some in A; unfold len in A; cbn in A; lia|].
  cbn [map] in S. apply StronglySorted_inv in S. destruct S as [S F].
  pose proof (getz_Some _ _ _ A) as RA. pose proof (getz_Some _ _ _ B) as RB.
  assert (G : forall k d, getz (c :: l) k = Some d -> (0 < k)%Z -> getz l (k - 1) = Some d).
  { intros k d D K. change (c :: l) with ([c] ++ l) in D. rewrite getz_app2 in D by (unfold len; cbn; lia). exact D. }
  assert (G0 : forall d, getz (c :: l) 0 = Some d -> d = c) by (intros d D; injection D as <-; reflexivity).
  destruct (Z.eq_dec i 0) as [->|I].
  - apply G0 in A. subst a. destruct (Z.eq_dec j 0) as [->|J]; [apply G0 in B; subst b; lia|].
    apply G in B; [|lia]. rewrite Forall_forall in F. apply F. apply getz_split in B. destruct B as (p & q & -> & _). apply in_map. apply in_elt.
  - apply (IH S (i - 1)%Z (j - 1)%Z); [apply G; [exact A|lia]|apply G; [exact B|lia]|lia].
Qed.

Lemma upper_bound_ok q l : StronglySorted Z.le (map nx l) ->
  (0 <= upper_bound q l <= len l)%Z /\ (forall i n, getz l i = Some n -> (i < upper_bound q l)%Z -> (nx n <= q)%Z) /\
  (forall i n, getz l i = Some n -> (upper_bound q l <= i)%Z -> (q < nx n)%Z).
Proof.
  induction l as [|c l IH]; intros S; cbn [upper_bound].
  - split; [unfold len; cbn; lia|]. split; intros i n G; apply getz_Some in G; unfold len in G; cbn in G; lia.
  - pose proof S as S0. cbn [map] in S. apply StronglySorted_inv in S. destruct S as [S F]. specialize (IH S). destruct IH as (I1 & I2 & I3).
    rewrite len_cons. destruct (Z.ltb_spec q (nx c)) as [Q|Q].
    + split; [lia|]. split; [intros i n G; apply getz_Some in G; lia|]. intros i n G L.
      pose proof (sorted_getz (c :: l) S0 0%Z i c n eq_refl G ltac:(lia)). lia.
    + assert (G : forall i n, getz (c :: l) i = Some n -> (i = 0%Z /\ n = c) \/ ((0 < i)%Z /\ getz l (i - 1) = Some n)).
      { intros i n D. pose proof (getz_Some _ _ _ D). destruct (Z.eq_dec i 0) as [->|I]; [left; injection D as <-; auto|right].
        split; [lia|]. change (c :: l) with ([c] ++ l) in D. rewrite getz_app2 in D by (unfold len; cbn; lia). exact D. }
      split; [lia|]. split; intros i n D L; apply G in D; destruct D as [[-> ->]|[P D]]; try lia; [apply (I2 _ _ D)|apply (I3 _ _ D)]; lia.
Qed.

Lemma ok_front s : spline_ok s -> exists f, front s = Some f.
Proof. intros O. apply getz_in_range. pose proof (ok_count s O). unfold num_nodes in *. lia. Qed.
Lemma ok_back s : spline_ok s -> exists b, back s = Some b.
Proof. intros O. apply getz_in_range. pose proof (ok_count s O). unfold num_nodes in *. lia. Qed.

(** IndexForX in terms of grains, for every guess. *)
Lemma index_ok s x guess : spline_ok s -> in_int_range s x -> (0 <= guess)%Z ->
  exists i f b, index_for_x s x guess = Some i /\ front s = Some f /\ back s = Some b /\
  ((i = kBeforeSplineIndex /\ (grains s x < nx f)%Z) \/
   (i = kAfterSplineIndex /\ (nx f <= grains s x)%Z /\ ((nx b < grains s x)%Z \/ (num_nodes s = 1%Z /\ nx b = grains s x))) \/
   ((0 <= i < num_nodes s - 1)%Z /\ exists a c, getz (nodes s) i = Some a /\ getz (nodes s) (i + 1) = Some c /\
      (nx a <= grains s x <= nx c)%Z /\ ((nx a < nx c)%Z \/ (i = num_nodes s - 2 /\ nx b = grains s x)%Z))).
Proof.
  intros O I GU. destruct (ok_front s O) as [f F]. destruct (ok_back s O) as [b B]. unfold index_for_x.
  rewrite (quantize_ok s x O I), F, B. set (q := grains s x). pose proof (ok_sorted s O) as S. pose proof (ok_count s O) as C.
  pose proof (ok_granularity s O) as G.
  destruct (Z.ltb_spec q (nx f)) as [QF|QF]; [exists kBeforeSplineIndex, f, b; auto 6|].
  destruct ((q =? nx b)%Z && (2 <=? num_nodes s)%Z) eqn:E1.
  { exists (num_nodes s - 2)%Z, f, b. split; [reflexivity|]. split; [reflexivity|]. split; [reflexivity|]. right. right. split; [lia|].
    destruct (getz_in_range (nodes s) (num_nodes s - 2)) as [a A]; [unfold num_nodes in *; lia|]. exists a, b.
    unfold back in B. replace (num_nodes s - 2 + 1)%Z with (num_nodes s - 1)%Z by lia.
    split; [exact A|]. split; [exact B|]. split; [|right; lia]. pose proof (sorted_getz _ S _ _ _ _ A B ltac:(lia)). lia. }
  destruct (Z.leb_spec (nx b) q) as [QB|QB]; [exists kAfterSplineIndex, f, b; split; [reflexivity|]; split; [reflexivity|]; split; [reflexivity|]; right; left; repeat split; lia|].
  assert (SEG : forall j a c, getz (nodes s) j = Some a -> getz (nodes s) (j + 1) = Some c -> width_x s a c > 0 <-> (nx a < nx c)%Z).
  { intros j a c A C'. unfold width_x. split; intros W.
    - apply Z.lt_0_sub. apply lt_IZR. apply Rmult_lt_reg_r with (x_granularity s); lra.
    - apply Rmult_gt_0_compat; [apply IZR_lt; lia|lra]. }
  assert (BIN : exists i, (i <- binary_search_index s q ;; ok <- index_contains_x s q i ;; assert ok ;; Some i) = Some i /\ (0 <= i < num_nodes s - 1)%Z /\
     exists a c, getz (nodes s) i = Some a /\ getz (nodes s) (i + 1) = Some c /\ (nx a <= q <= nx c)%Z /\ (nx a < nx c)%Z).
  { destruct (upper_bound_ok q (nodes s) S) as (U0 & U1 & U2). set (u := upper_bound q (nodes s)) in *.
    assert (UB : (1 <= u <= num_nodes s - 1)%Z).
    { unfold front in F. unfold back in B. split.
      - destruct (Z_le_dec 1 u); [assumption|]. specialize (U2 0%Z f F ltac:(lia)). lia.
      - destruct (Z_le_dec u (num_nodes s - 1)); [assumption|]. specialize (U1 _ b B ltac:(lia)). lia. }
    destruct (getz_in_range (nodes s) (u - 1)) as [a A]; [unfold num_nodes in *; lia|].
    destruct (getz_in_range (nodes s) (u - 1 + 1)) as [c Cc]; [unfold num_nodes in *; lia|].
    pose proof (U1 _ _ A ltac:(lia)). pose proof (U2 _ _ Cc ltac:(lia)).
    exists (u - 1)%Z. unfold binary_search_index. fold u. replace ((0 <=? u - 1) && (u - 1 <? num_nodes s - 1))%Z with true by lia.
    unfold index_contains_x. replace (u - 1 <? num_nodes s - 1)%Z with true by lia. rewrite A, Cc.
    replace ((nx a <=? q) && (q <=? nx c))%Z with true by lia. split; [reflexivity|]. split; [lia|]. exists a, c. repeat split; auto; lia. }
  destruct BIN as (i & BE & BI & a & c & A & C' & AC & AC2).
  assert (IC : index_contains_x s q guess = Some false \/
    ((guess < num_nodes s - 1)%Z /\ exists a c, getz (nodes s) guess = Some a /\ getz (nodes s) (guess + 1) = Some c /\
       index_contains_x s q guess = Some ((nx a <=? q) && (q <=? nx c))%Z)).
  { unfold index_contains_x. destruct (Z.ltb_spec guess (num_nodes s - 1)) as [L|L]; [right; split; [exact L|]|left; reflexivity].
    destruct (getz_in_range (nodes s) guess) as [a' A']; [unfold num_nodes in *; lia|].
    destruct (getz_in_range (nodes s) (guess + 1)) as [c' C'']; [unfold num_nodes in *; lia|]. rewrite A', C''. eauto. }
  assert (OUT : forall j, (0 <= j < num_nodes s - 1)%Z -> (exists a c, getz (nodes s) j = Some a /\ getz (nodes s) (j + 1) = Some c /\ (nx a <= q <= nx c)%Z /\ (nx a < nx c)%Z) ->
    exists i f0 b0, Some j = Some i /\ Some f = Some f0 /\ Some b = Some b0 /\
    ((i = kBeforeSplineIndex /\ (q < nx f0)%Z) \/
   (i = kAfterSplineIndex /\ (nx f0 <= q)%Z /\ ((nx b0 < q)%Z \/ (num_nodes s = 1%Z /\ nx b0 = q))) \/
   ((0 <= i < num_nodes s - 1)%Z /\ exists a c, getz (nodes s) i = Some a /\ getz (nodes s) (i + 1) = Some c /\
      (nx a <= q <= nx c)%Z /\ ((nx a < nx c)%Z \/ (i = num_nodes s - 2 /\ nx b0 = q)%Z)))).
  { intros j J (a' & c' & P1 & P2 & P3 & P4). exists j, f, b. repeat (split; [reflexivity|]). right. right. split; [exact J|]. exists a', c'. auto 6. }
  destruct IC as [IC|(L & a' & c' & A' & C'' & IC)]; rewrite IC.
  - rewrite BE. apply OUT; eauto 10.
  - destruct ((nx a' <=? q) && (q <=? nx c'))%Z eqn:E2; [|rewrite BE; apply OUT; eauto 10].
    rewrite A', C''. destruct (Rltb_spec 0 (width_x s a' c')) as [W|W]; [|rewrite BE; apply OUT; eauto 10].
    apply (SEG guess) in W; auto. apply OUT; [lia|]. exists a', c'. repeat split; auto; lia.
Qed.
