(** Recording sampled curves (C69). *)
From Verif Require Import RBase BaseFacts CurveModel CurveProps CompactSplineModel CompactSplineProofs MatrixModel RigModel AnimDataModel AnimSpec.
Local Open Scope Z_scope.

Lemma last_any {A} (l : list A) : forall x d d', last (x :: l) d = last (x :: l) d'.
Proof. induction l as [|y l IH]; intros x d d'; [reflexivity|]. exact (IH y d d'). Qed.
Lemma last_cons {A} (l : list A) x d : last (x :: l) d = last l x.
Proof. destruct l as [|y l]; [reflexivity|]. exact (last_any l y d x). Qed.
Lemma last_app {A} (l l' : list A) d : last (l ++ l') d = last l' (last l d).
Proof. revert d. induction l as [|x l IH]; intros d; [reflexivity|]. cbn [app]. rewrite !last_cons. apply IH. Qed.
Lemma chain_app {A} (P : A -> A -> Prop) : forall l x l', chain P x (l ++ l') <-> chain P x l /\ chain P (last l x) l'.
Proof. induction l as [|y l IH]; intros x l'; cbn [app chain]; [cbn; tauto|]. rewrite IH, last_cons. tauto. Qed.
Lemma getz_last {A} (l : list A) x d : getz l (len l - 1) = Some x -> last l d = x.
Proof.
  intros G. destruct (getz_split _ _ _ G) as (X & Y & -> & L). rewrite last_app, last_cons. rewrite len_app, len_cons in L. assert (len Y = 0) by lia. apply len_zero in H. now subst Y.
Qed.

Lemma snode_eqb_refl n : snode_eqb n n = true.
Proof. unfold snode_eqb. rewrite Z.eqb_refl, !Reqb_t; reflexivity. Qed.
Lemma snode_eqb_eq a b : snode_eqb a b = true -> a = b.
Proof.
  unfold snode_eqb. intros H. apply andb_prop in H. destruct H as [H H3]. apply andb_prop in H. destruct H as [H1 H2]. apply Z.eqb_eq in H1.
  destruct (Reqb_spec (sn_val a) (sn_val b)); [|discriminate]. destruct (Reqb_spec (sn_der a) (sn_der b)); [|discriminate]. destruct a, b; cbn in *; congruence.
Qed.
Lemma append_more old n ns ns' : append_curve (append_curve old n ns) (last ns n) ns' = append_curve old n (ns ++ ns').
Proof.
  unfold append_curve at 2 3. destruct (snode_eqb (last old (SNode 0 0 0)) n && negb (len old =? 0)) eqn:E.
  - apply andb_prop in E. destruct E as [E1 E2]. apply snode_eqb_eq in E1. unfold append_curve.
    rewrite last_app, E1, snode_eqb_refl, len_app. pose proof (len_nonneg ns). pose proof (len_nonneg old). replace (len old + len ns =? 0) with false by lia. cbn [negb andb]. now rewrite app_assoc.
  - unfold append_curve. rewrite last_app, last_cons, snode_eqb_refl, len_app, len_cons. pose proof (len_nonneg ns). pose proof (len_nonneg old). replace (len old + (1 + len ns) =? 0) with false by lia.
    cbn [negb andb]. now rewrite <- app_assoc.
Qed.
(** What the code does with the last node. *)
Lemma append_step n s e : (if match getz n (len n - 1) with Some b => snode_eqb b s | None => false end then n else n ++ [s]) ++ [e] = append_curve n s [e].
Proof.
  unfold append_curve. destruct (getz n (len n - 1)) as [b|] eqn:G.
  - rewrite (getz_last _ _ _ G). apply getz_Some in G. replace (len n =? 0) with false by lia. rewrite andb_true_r. destruct (snode_eqb b s); [reflexivity|]. now rewrite <- app_assoc.
  - destruct n as [|x n]; [change (len (@nil snode) =? 0) with true; rewrite andb_false_r; reflexivity|].
    pose proof (len_nonneg n). destruct (getz_in_range (x :: n) (len (x :: n) - 1)) as [b E]; [rewrite len_cons; lia|congruence].
Qed.

(** The worst of the samples of a segment. *)
Lemma worst_ok c vals first inc : forall n i w, 1 <= i -> (forall k, i <= k < i + Z.of_nat n -> exists v, getz vals (first + k) = Some v) ->
  (0 <= snd (fst w))%R -> (0 <= fst (fst w) < i /\ (fst (fst w) <> 0 -> snd w = (IZR (fst (fst w)) * inc)%R)) ->
  (forall k v, 1 <= k < i -> getz vals (first + k) = Some v -> (Rabs (keval c (IZR k * inc) - v) <= snd (fst w))%R) -> (fst (fst w) = 0 -> snd (fst w) = 0%R) ->
  exists idx diff time, worst_loop c vals first n i (IZR i * inc) inc w = Some (idx, diff, time) /\ 0 <= idx < i + Z.of_nat n /\ (idx <> 0 -> time = (IZR idx * inc)%R) /\
    (idx = 0 -> diff = 0%R) /\
    forall k v, 1 <= k < i + Z.of_nat n -> getz vals (first + k) = Some v -> (Rabs (keval c (IZR k * inc) - v) <= diff)%R.
Proof.
  induction n as [|n IH]; intros i w I G D W B Z0; cbn [worst_loop].
  - destruct w as [[idx diff] time]. cbn [fst snd] in *. exists idx, diff, time. rewrite Z.add_0_r. split; [reflexivity|]. destruct W. auto.
  - destruct (G i ltac:(lia)) as [v V]. rewrite V. set (d := Rabs (keval c (IZR i * inc) - v)).
    replace (IZR i * inc + inc)%R with (IZR (i + 1) * inc)%R by (rewrite plus_IZR; ring).
    assert (DP : (0 <= d)%R) by apply Rabs_pos.
    replace (i + Z.of_nat (S n)) with ((i + 1) + Z.of_nat n) in * by lia.
    apply IH; [lia|intros k K; apply G; lia| | | |].
    + destruct (Rltb_spec (snd (fst w)) d); cbn [fst snd]; [lra|exact D].
    + destruct (Rltb_spec (snd (fst w)) d); cbn [fst snd]; [split; [lia|reflexivity]|]. destruct W as [W1 W2]. split; [lia|exact W2].
    + intros k v' K V'. destruct (Z.eq_dec k i) as [->|N].
      * assert (v' = v) as -> by congruence. fold d. destruct (Rltb_spec (snd (fst w)) d); cbn [fst snd]; lra.
      * specialize (B k v' ltac:(lia) V'). destruct (Rltb_spec (snd (fst w)) d); cbn [fst snd]; lra.
    + destruct (Rltb_spec (snd (fst w)) d); cbn [fst snd]; [lia|exact Z0].
Qed.

Lemma Rtrunc_range x w : (0 <= x <= IZR w)%R -> 0 <= Rtrunc x <= w.
Proof.
  intros X. destruct (Rtrunc_bounds x) as [P _]. specialize (P (proj1 X)). split; [apply Rtrunc_nonneg; lra|]. apply le_IZR. lra.
Qed.

Section Record.
Context (vals ders : list R) (tol : R) (TOL : (0 <= tol)%R).

Lemma segment_ok : forall cnt a b first, (2 <= cnt)%nat -> 0 <= first -> first + Z.of_nat cnt <= len vals -> first + Z.of_nat cnt <= len ders ->
  int_min <= a -> a <= b <= int_max -> b - a <= int_max ->
  exists (steps : nat) ms n ns, (steps + 3 <= 2 * cnt)%nat /\ sample_node vals ders (first, a) n /\ Forall2 (sample_node vals ders) ms ns /\
    last ms (first, a) = (first + Z.of_nat cnt - 1, b) /\
    chain (fun x y => fst x < fst y /\ snd x <= snd y /\ fits vals ders tol x y) (first, a) ms /\
    (forall fuel rest old, segments_loop (steps + fuel) vals ders tol (Segment a b first (Z.of_nat cnt) :: rest) old = segments_loop fuel vals ders tol rest (append_curve old n ns)) /\
    (forall A B E, (IZR a <= A <= IZR a + E -> IZR b <= B <= IZR b + E -> forall m, In m ms ->
        let t := A + IZR (fst m - first) * ((B - A) / IZR (Z.of_nat cnt - 1)) in IZR (snd m) <= t <= IZR (snd m) + E + IZR (Z.of_nat cnt - 2))%R) /\
    (forall q, b - a = (Z.of_nat cnt - 1) * q -> forall m, In m ms -> snd m = a + (fst m - first) * q).
Proof.
  intros cnt. induction cnt as [cnt IH] using (well_founded_induction Wf_nat.lt_wf). intros a b first C F LV LD A0 AB W.
  unfold int_min, int_max in *.
  assert (S0 : exists v0 d0, getz vals first = Some v0 /\ getz ders first = Some d0).
  { destruct (getz_in_range vals first) as [v E]; [lia|]. destruct (getz_in_range ders first) as [d E']; [lia|]. eauto. }
  assert (S1 : exists v1 d1, getz vals (first + (Z.of_nat cnt - 1)) = Some v1 /\ getz ders (first + (Z.of_nat cnt - 1)) = Some d1).
  { destruct (getz_in_range vals (first + (Z.of_nat cnt - 1))) as [v E]; [lia|]. destruct (getz_in_range ders (first + (Z.of_nat cnt - 1))) as [d E']; [lia|]. eauto. }
  destruct S0 as (v0 & d0 & V0 & D0), S1 as (v1 & d1 & V1 & D1).
  set (c := cubic_init v0 d0 v1 d1 (IZR (b - a))). set (inc := (IZR (b - a) / IZR (Z.of_nat cnt - 1))%R).
  destruct (worst_ok c vals first inc (Z.to_nat (Z.of_nat cnt - 2)) 1 (0, 0%R, 0%R) ltac:(lia)) as (idx & diff & time & WE & WI & WT & WZ & WB); cbn [fst snd]; try lra; try lia.
  { intros k K. destruct (getz_in_range vals (first + k)) as [v E]; [lia|eauto]. }
  replace (1 + Z.of_nat (Z.to_nat (Z.of_nat cnt - 2))) with (Z.of_nat cnt - 1) in WI, WB by lia. replace (IZR 1 * inc)%R with inc in WE by ring.
  assert (INC : (0 <= inc)%R) by (unfold inc; apply Rmult_le_pos; [apply IZR_le; lia|left; apply Rinv_0_lt_compat; apply IZR_lt; lia]).
  assert (CP : (0 < IZR (Z.of_nat cnt - 1))%R) by (apply IZR_lt; lia).
  assert (IC : (IZR (Z.of_nat cnt - 1) * inc = IZR (b - a))%R) by (unfold inc; field; lra).
  assert (ONE : forall fuel rest old, segments_loop (S fuel) vals ders tol (Segment a b first (Z.of_nat cnt) :: rest) old =
     if (0 <? idx) && Rltb tol diff then
       t <- to_int time ;; mid <- add_int a t ;;
       segments_loop fuel vals ders tol (Segment a mid first (idx + 1) :: Segment mid b (first + idx) (Z.of_nat cnt - idx) :: rest) old
     else segments_loop fuel vals ders tol rest (append_curve old (SNode a v0 d0) [SNode b v1 d1])).
  { intros fuel rest old. cbn [segments_loop sg_start sg_end sg_first sg_count]. unfold sub_int, add_int at 1. replace ((-2147483648 <=? b + - a) && (b + - a <=? 2147483647)) with true by lia.
    rewrite V0, D0, V1, D1. replace (b + - a) with (b - a) by lia. fold c inc. rewrite WE. destruct ((0 <? idx) && Rltb tol diff); [reflexivity|]. now rewrite append_step. }
  destruct ((0 <? idx) && Rltb tol diff) eqn:SPLIT.
  - apply andb_prop in SPLIT. destruct SPLIT as [IP _]. assert (IX : 0 < idx < Z.of_nat cnt - 1) by lia. specialize (WT ltac:(lia)).
    assert (TR : (0 <= time <= IZR (b - a))%R).
    { rewrite WT. split; [apply Rmult_le_pos; [apply IZR_le; lia|exact INC]|]. rewrite <- IC. apply Rmult_le_compat_r; [exact INC|apply IZR_le; lia]. }
    set (q0 := Rtrunc time) in *. assert (QR : 0 <= q0 <= b - a) by (apply Rtrunc_range; exact TR). destruct (Rtrunc_bounds time) as [QB _]. specialize (QB (proj1 TR)). fold q0 in QB.
    assert (MID : exists mid, mid = a + q0) by eauto. destruct MID as [mid ME].
    destruct (IH (Z.to_nat (idx + 1)) ltac:(lia) a mid first) as (st1 & ms1 & n1 & ns1 & B1 & N1 & F1 & L1 & C1 & R1 & T1 & Q1); try lia.
    destruct (IH (Z.to_nat (Z.of_nat cnt - idx)) ltac:(lia) mid b (first + idx)) as (st2 & ms2 & n2 & ns2 & B2 & N2 & F2 & L2 & C2 & R2 & T2 & Q2); try lia.
    rewrite !Z2Nat.id in * by lia. replace (first + (idx + 1) - 1) with (first + idx) in L1 by lia. replace (first + idx + (Z.of_nat cnt - idx) - 1) with (first + Z.of_nat cnt - 1) in L2 by lia.
    assert (N12 : last ns1 n1 = n2).
    { assert (forall l l' x n, Forall2 (sample_node vals ders) l l' -> sample_node vals ders x n -> sample_node vals ders (last l x) (last l' n)).
      { clear. intros l l' x n H. revert x n. induction H as [|y m l l' HY H IH]; intros x n N; [exact N|]. rewrite !last_cons. apply IH. exact HY. }
      pose proof (H _ _ _ _ F1 N1) as H1. rewrite L1 in H1. destruct H1 as (E1 & E2 & E3), N2 as (E4 & E5 & E6). destruct (last ns1 n1) as [x1 x2 x3], n2 as [y1 y2 y3]; cbn [sn_time sn_val sn_der fst snd] in *. congruence. }
    exists (S (st1 + st2)), (ms1 ++ ms2), n1, (ns1 ++ ns2). split; [lia|]. split; [exact N1|]. split; [apply Forall2_app; assumption|].
    split; [rewrite last_app, L1; exact L2|]. split; [apply chain_app; rewrite L1; auto|]. split; [|split].
    + intros fuel rest old. cbn [Nat.add]. rewrite ONE. unfold to_int. fold q0. replace ((-2147483648 <=? q0) && (q0 <? 2147483648)) with true by lia. unfold add_int.
      replace ((-2147483648 <=? a + q0) && (a + q0 <=? 2147483647)) with true by lia. rewrite <- ME. rewrite <- Nat.add_assoc, R1, R2, <- N12, append_more. reflexivity.
    + intros AA BB E HA HB m I. set (sl := ((BB - AA) / IZR (Z.of_nat cnt - 1))%R).
      assert (SL : (BB = AA + IZR (Z.of_nat cnt - 1) * sl)%R) by (unfold sl; field; lra). set (mm := (AA + IZR idx * sl)%R).
      assert (MM : (IZR mid <= mm <= IZR mid + (E + 1))%R).
      { rewrite ME, plus_IZR. unfold mm. set (u := (IZR idx / IZR (Z.of_nat cnt - 1))%R). assert (U : (0 <= u <= 1)%R).
        { unfold u. split; [apply Rmult_le_pos; [apply IZR_le; lia|left; now apply Rinv_0_lt_compat]|]. apply Rmult_le_reg_r with (IZR (Z.of_nat cnt - 1)); [exact CP|]. unfold Rdiv. rewrite Rmult_assoc, Rinv_l, Rmult_1_l, Rmult_1_r by lra. apply IZR_le. lia. }
        assert (M1 : (AA + IZR idx * sl = (1 - u) * AA + u * BB)%R) by (rewrite SL; unfold u; field; lra).
        assert (M2 : (time = (1 - u) * IZR a + u * IZR b - IZR a)%R) by (rewrite WT; unfold inc, u; rewrite (minus_IZR b a); field; lra).
        assert ((1 - u) * IZR a <= (1 - u) * AA)%R by (apply Rmult_le_compat_l; lra). assert (u * IZR b <= u * BB)%R by (apply Rmult_le_compat_l; lra).
        assert ((1 - u) * AA <= (1 - u) * (IZR a + E))%R by (apply Rmult_le_compat_l; lra). assert (u * BB <= u * (IZR b + E))%R by (apply Rmult_le_compat_l; lra). lra. }
      assert (IZR (idx + 1 - 2) + 1 <= IZR (Z.of_nat cnt - 2))%R by (rewrite <- plus_IZR; apply IZR_le; lia). assert (IZR (Z.of_nat cnt - idx - 2) + 1 <= IZR (Z.of_nat cnt - 2))%R by (rewrite <- plus_IZR; apply IZR_le; lia).
      assert (0 <= E)%R by lra. apply in_app_or in I. destruct I as [I|I].
      * pose proof (T1 AA mm (E + 1)%R ltac:(lra) MM m I) as K. cbv zeta in K. replace ((mm - AA) / IZR (idx + 1 - 1))%R with sl in K. 2:{ unfold mm. replace (idx + 1 - 1) with idx by lia. field. apply not_0_IZR. lia. }
        lra.
      * pose proof (T2 mm BB (E + 1)%R MM ltac:(lra) m I) as K. cbv zeta in K. replace ((BB - mm) / IZR (Z.of_nat cnt - idx - 1))%R with sl in K.
        2:{ unfold mm. rewrite SL. replace (Z.of_nat cnt - idx - 1) with (Z.of_nat cnt - 1 - idx) by lia. rewrite (minus_IZR _ idx). field. rewrite <- minus_IZR. apply not_0_IZR. lia. }
        unfold mm in K. replace (AA + IZR idx * sl + IZR (fst m - (first + idx)) * sl)%R with (AA + IZR (fst m - first) * sl)%R in K by (rewrite !minus_IZR, plus_IZR; ring). lra.
    + intros q Q m I. assert (Q0 : q0 = idx * q).
      { unfold q0. rewrite WT. unfold inc. rewrite Q, mult_IZR. replace (IZR idx * (IZR (Z.of_nat cnt - 1) * IZR q / IZR (Z.of_nat cnt - 1)))%R with (IZR (idx * q)) by (rewrite mult_IZR; field; lra). apply Rtrunc_IZR; [nia|lra]. }
      apply in_app_or in I. destruct I as [I|I].
      * apply (Q1 q); [lia|exact I].
      * rewrite (Q2 q); [rewrite ME, Q0; lia|lia|exact I].
  - exists 1%nat, [(first + (Z.of_nat cnt - 1), b)], (SNode a v0 d0), [SNode b v1 d1]. split; [lia|]. split; [split; [reflexivity|auto]|]. split; [repeat constructor; assumption|].
    split; [cbn; f_equal; lia|]. split; [|split; [|split]].
    + cbn [chain fst snd]. split; [|exact I]. split; [lia|]. split; [lia|].
      assert (DT : (diff <= tol)%R).
      { destruct (Z.eq_dec idx 0) as [->|N]; [rewrite (WZ eq_refl); exact TOL|]. assert (0 <? idx = true) by lia. rewrite H in SPLIT. cbn [andb] in SPLIT. destruct (Rltb_spec tol diff); [discriminate|lra]. }
      intros na nb k v (NA1 & NA2 & NA3) (NB1 & NB2 & NB3) K V. cbn [fst snd] in *. unfold cubic_between. rewrite NA1, NB1.
      assert (sn_val na = v0) as -> by congruence. assert (sn_der na = d0) as -> by congruence. assert (sn_val nb = v1) as -> by congruence. assert (sn_der nb = d1) as -> by congruence.
      fold c. replace (first + (Z.of_nat cnt - 1) - first) with (Z.of_nat cnt - 1) by lia. fold inc. replace k with (first + (k - first)) in V by lia.
      pose proof (WB (k - first) v ltac:(lia) V). lra.
    + intros fuel rest old. apply ONE.
    + intros AA BB E HA HB m [<-|[]]. cbn [fst snd]. cbv zeta. replace (first + (Z.of_nat cnt - 1) - first) with (Z.of_nat cnt - 1) by lia.
      replace (AA + IZR (Z.of_nat cnt - 1) * ((BB - AA) / IZR (Z.of_nat cnt - 1)))%R with BB by (field; lra). assert (0 <= IZR (Z.of_nat cnt - 2))%R by (apply IZR_le; lia). lra.
    + intros q Q m [<-|[]]. cbn [fst snd]. lia.
Qed.
End Record.

Lemma segments_nil f vals ders tol n : segments_loop (S f) vals ders tol [] n = Some n.
Proof. reflexivity. Qed.

(** Reading and writing the nodes of a channel of the current bone. *)
Lemma set_nodes_ok d id old n : nodes_of d id = Some old ->
  exists d' b c, set_nodes d id n = Some d' /\ nodes_of d' id = Some n /\ getz (ad_bones d) (ad_cur d) = Some b /\ getz (bn_channels b) id = Some c /\
    ad_cur d' = ad_cur d /\ ad_tol d' = ad_tol d /\ len (ad_bones d') = len (ad_bones d) /\ (forall i, i <> ad_cur d -> getz (ad_bones d') i = getz (ad_bones d) i) /\
    exists b', getz (ad_bones d') (ad_cur d) = Some b' /\ bn_name b' = bn_name b /\ bn_parent b' = bn_parent b /\ len (bn_channels b') = len (bn_channels b) /\
      (forall i, i <> id -> getz (bn_channels b') i = getz (bn_channels b) i) /\ getz (bn_channels b') id = Some (Channel (ch_op c) (ch_id c) n).
Proof.
  unfold nodes_of, set_nodes, cur_channels, set_cur_channels. intros H. destruct (getz (ad_bones d) (ad_cur d)) as [b|] eqn:B; [|discriminate].
  destruct (getz (bn_channels b) id) as [c|] eqn:C; [|discriminate].
  destruct (setz_Some (bn_channels b) id (Channel (ch_op c) (ch_id c) n)) as [chs S1]; [now apply getz_Some in C|]. rewrite S1.
  destruct (setz_Some (ad_bones d) (ad_cur d) (Bone (bn_name b) (bn_parent b) chs)) as [bs S2]; [now apply getz_Some in B|]. rewrite S2.
  exists (with_bones d bs), b, c. cbn [with_bones ad_bones ad_cur ad_tol]. rewrite (getz_setz_eq _ _ _ _ S2). cbn [bn_channels]. rewrite (getz_setz_eq _ _ _ _ S1). cbn [ch_nodes].
  split; [reflexivity|]. split; [reflexivity|]. split; [reflexivity|]. split; [exact C|]. split; [reflexivity|]. split; [reflexivity|]. split; [exact (setz_len _ _ _ _ S2)|].
  split; [intros i N; eapply getz_setz_neq; eauto|]. eexists. split; [reflexivity|]. cbn [bn_name bn_parent bn_channels]. split; [reflexivity|]. split; [reflexivity|]. split; [exact (setz_len _ _ _ _ S1)|].
  split; [intros i N; eapply getz_setz_neq; eauto|eapply getz_setz_eq; eauto].
Qed.

(** C69: recording the samples [vals], with derivatives [ders], over the times from [t0] to
    [t1] ends.  The nodes added to the channel are some of the samples ([ms] gives, after
    the first, their indices and times): the first is sample 0 at [t0], the last is sample
    [count - 1] at [t1], indices increase and times do not decrease.  Every sample in
    between is within the tolerance of the cubic between the nodes around it, when the
    samples between those two nodes are taken to be evenly spaced.  The first node is not
    repeated if the channel already ends with it.  Other channels and bones stay as they
    were. *)
Theorem C69_records_curve : forall d id old tol t0 t1 vals ders count,
  nodes_of d id = Some old -> tolerance d id = Some tol -> (0 <= tol)%R ->
  2 <= count -> count <= len vals -> count <= len ders -> int_min <= t0 -> t0 <= t1 <= int_max -> t1 - t0 <= int_max ->
  exists d' ms n ns, add_curve d id t0 t1 vals ders count = Some d' /\ nodes_of d' id = Some (append_curve old n ns) /\
    sample_node vals ders (0, t0) n /\ Forall2 (sample_node vals ders) ms ns /\ last ms (0, t0) = (count - 1, t1) /\
    chain (fun x y => fst x < fst y /\ snd x <= snd y /\ fits vals ders tol x y) (0, t0) ms /\
    (forall i, i <> ad_cur d -> getz (ad_bones d') i = getz (ad_bones d) i) /\
    (forall b b' i, getz (ad_bones d) (ad_cur d) = Some b -> getz (ad_bones d') (ad_cur d) = Some b' -> i <> id -> getz (bn_channels b') i = getz (bn_channels b) i).
Proof.
  intros d id old tol t0 t1 vals ders count N T TP C LV LD A0 AB W.
  destruct (segment_ok vals ders tol TP (Z.to_nat count) t0 t1 0) as (st & ms & n & ns & BD & N0 & F & L & CH & RUN & _ & _); try lia.
  rewrite Z2Nat.id in * by lia. cbn [Z.add] in L.
  destruct (set_nodes_ok d id old (append_curve old n ns) N) as (d' & b & c & SE & N' & B & Cc & _ & _ & _ & OB & b' & B' & _ & _ & _ & OC & _).
  exists d', ms, n, ns. split; [|split; [exact N'|split; [exact N0|split; [exact F|split; [exact L|split; [exact CH|split; [exact OB|]]]]]]].
  - unfold add_curve. rewrite T, N. unfold curve_nodes. replace (Z.to_nat (2 * count + 1)) with (st + S (Z.to_nat (2 * count + 1) - st - 1))%nat by lia. rewrite RUN, segments_nil. exact SE.
  - intros b1 b1' i B1 B1' I. assert (b1 = b) as -> by congruence. assert (b1' = b') as -> by congruence. exact (OC i I).
Qed.

(** C69, the times of the nodes.  Sample [k] was taken at [sample_time t0 t1 count k]; its
    node is at that time or up to [count - 2] time units earlier. *)
Theorem C69_times_partial : forall vals ders tol old t0 t1 count, (0 <= tol)%R ->
  2 <= count -> count <= len vals -> count <= len ders -> int_min <= t0 -> t0 <= t1 <= int_max -> t1 - t0 <= int_max ->
  exists ms n ns, curve_nodes vals ders count t0 t1 tol old = Some (append_curve old n ns) /\ sample_node vals ders (0, t0) n /\ Forall2 (sample_node vals ders) ms ns /\
    Forall (fun m => (0 <= sample_time t0 t1 count (fst m) - IZR (snd m) <= IZR (count - 2))%R) ms.
Proof.
  intros vals ders tol old t0 t1 count TP C LV LD A0 AB W.
  destruct (segment_ok vals ders tol TP (Z.to_nat count) t0 t1 0) as (st & ms & n & ns & BD & N0 & F & L & CH & RUN & TM & _); try lia.
  rewrite Z2Nat.id in * by lia. exists ms, n, ns. split; [|split; [exact N0|split; [exact F|]]].
  - unfold curve_nodes. replace (Z.to_nat (2 * count + 1)) with (st + S (Z.to_nat (2 * count + 1) - st - 1))%nat by lia. rewrite RUN. apply segments_nil.
  - apply Forall_forall. intros m I. pose proof (TM (IZR t0) (IZR t1) 0%R ltac:(lra) ltac:(lra) m I) as K. cbv zeta in K. unfold sample_time. rewrite Z.sub_0_r, <- minus_IZR in K. lra.
Qed.

(** C69 when the samples are a whole number [q] of time units apart: every node is at the time
    its sample was taken, and every sample is within the tolerance of the recorded curve at
    the time at which it was taken. *)
Theorem C69_whole_spacing : forall vals ders tol old t0 q count, (0 <= tol)%R ->
  2 <= count -> count <= len vals -> count <= len ders -> 0 <= q -> int_min <= t0 -> t0 + (count - 1) * q <= int_max -> (count - 1) * q <= int_max ->
  exists ms n ns, curve_nodes vals ders count t0 (t0 + (count - 1) * q) tol old = Some (append_curve old n ns) /\ sample_node vals ders (0, t0) n /\ Forall2 (sample_node vals ders) ms ns /\
    Forall (fun m => snd m = t0 + fst m * q) ms /\ last ms (0, t0) = (count - 1, t0 + (count - 1) * q) /\
    chain (fun x y => fst x < fst y /\ forall nx ny k v, sample_node vals ders x nx -> sample_node vals ders y ny -> fst x < k < fst y -> getz vals k = Some v ->
      (Rabs (keval (cubic_between nx ny) (IZR (t0 + k * q) - IZR (sn_time nx)) - v) <= tol)%R) (0, t0) ms.
Proof.
  intros vals ders tol old t0 q count TP C LV LD Q A0 AB W.
  destruct (segment_ok vals ders tol TP (Z.to_nat count) t0 (t0 + (count - 1) * q) 0) as (st & ms & n & ns & BD & N0 & F & L & CH & RUN & _ & TM); try lia; try nia.
  rewrite Z2Nat.id in * by lia. cbn [Z.add] in L. specialize (TM q ltac:(lia)).
  assert (TM' : forall m, In m ms -> snd m = t0 + fst m * q) by (intros m I; rewrite (TM m I); lia).
  exists ms, n, ns. split; [|split; [exact N0|split; [exact F|split; [|split; [exact L|]]]]].
  - unfold curve_nodes. replace (Z.to_nat (2 * count + 1)) with (st + S (Z.to_nat (2 * count + 1) - st - 1))%nat by lia. rewrite RUN. apply segments_nil.
  - now apply Forall_forall.
  - assert (G : forall l x, snd x = t0 + fst x * q -> (forall m, In m l -> snd m = t0 + fst m * q) -> chain (fun x y => fst x < fst y /\ snd x <= snd y /\ fits vals ders tol x y) x l ->
      chain (fun x y => fst x < fst y /\ forall nx ny k v, sample_node vals ders x nx -> sample_node vals ders y ny -> fst x < k < fst y -> getz vals k = Some v ->
      (Rabs (keval (cubic_between nx ny) (IZR (t0 + k * q) - IZR (sn_time nx)) - v) <= tol)%R) x l).
    { clear - C. induction l as [|y l IH]; intros x X ALL H; [exact I|]. cbn [chain] in *. destruct H as ((H1 & H2 & H3) & H4). split; [split; [exact H1|]|].
      - intros nx ny k v NX NY K V. pose proof (H3 nx ny k v NX NY K V) as H. pose proof (ALL y (or_introl eq_refl)) as Y. pose proof (proj1 NX) as TX. rewrite TX, X, <- minus_IZR.
        rewrite X, Y in H. replace (t0 + fst y * q - (t0 + fst x * q)) with ((fst y - fst x) * q) in H by ring. rewrite mult_IZR in H.
        replace (IZR (k - fst x) * (IZR (fst y - fst x) * IZR q / IZR (fst y - fst x)))%R with (IZR (t0 + k * q - (t0 + fst x * q))) in H; [exact H|].
        replace (t0 + k * q - (t0 + fst x * q)) with ((k - fst x) * q) by ring. rewrite mult_IZR. field. apply not_0_IZR. lia.
      - apply IH; [exact (ALL y (or_introl eq_refl))|intros m I; apply ALL; now right|exact H4]. }
    apply G; [cbn; lia|exact TM'|exact CH].
Qed.

(** The full claim, at the times the samples were taken, is false: AddCurve stores the split
    time as an int, so a node is moved to an earlier time and a sample taken halfway between
    two whole times ends up far from the recorded curve. *)
Theorem C69_times_refuted : exists vals ders tol t0 t1 a b c,
  curve_nodes vals ders 3 t0 t1 tol [] = Some [a; b; c] /\ (0 < tol)%R /\ len vals = 3 /\ len ders = 3 /\ t0 < t1 /\
  getz vals 1 = Some (sn_val b) /\ (IZR (sn_time b) < sample_time t0 t1 3 1 < IZR (sn_time c))%R /\
  (tol < Rabs (keval (cubic_between b c) (sample_time t0 t1 3 1 - IZR (sn_time b)) - sn_val b))%R.
Proof.
  exists [0; 1; 0]%R, [0; 0; 0]%R, (1 / 4)%R, 0, 1, (SNode 0 0 0), (SNode 0 1 0), (SNode 1 0 0). split; [|].
  2:{ repeat apply conj; try reflexivity; try lra; unfold sample_time; cbn [sn_time sn_val sn_der]; change (1 - 0) with 1; change (3 - 1) with 2; try lra.
      unfold cubic_between. cbn [sn_time sn_val sn_der]. change (1 - 0) with 1. unfold keval, cubic_init. rewrite Rltb_t by lra. cbn. rabs; lra. }
  unfold curve_nodes. change (Z.to_nat (2 * 3 + 1)) with 7%nat. cbn [segments_loop sg_start sg_end sg_first sg_count].
  change (sub_int 1 0) with (Some 1). change (getz [0; 1; 0]%R 0) with (Some 0%R). change (getz [0; 0; 0]%R 0) with (Some 0%R).
  change (0 + (3 - 1)) with 2. change (getz [0; 1; 0]%R 2) with (Some 0%R). change (getz [0; 0; 0]%R 2) with (Some 0%R).
  change (Z.to_nat (3 - 2)) with 1%nat. cbn [worst_loop]. change (getz [0; 1; 0]%R (0 + 1)) with (Some 1%R). cbn [fst snd]. change (3 - 1) with 2.
  assert (K : (Rabs (keval (cubic_init 0 0 0 0 1) (1 / 2) - 1) = 1)%R) by (unfold keval, cubic_init; rewrite Rltb_t by lra; cbn; rabs; lra).
  rewrite K. rewrite (Rltb_t 0 1) by lra. change (0 <? 1) with true. rewrite (Rltb_t (1 / 4) 1) by lra. cbn [andb].
  unfold to_int. rewrite (Rtrunc_IZR 0 (1 / 2)) by (lia || lra). change ((-2147483648 <=? 0) && (0 <? 2147483648)) with true. cbn iota. change (add_int 0 0) with (Some 0). cbn iota.
  change (sub_int 0 0) with (Some 0). change (sub_int 1 0) with (Some 1). change (0 + 1) with 1. change (1 + 1) with 2. change (3 - 1) with 2. change (0 + (2 - 1)) with 1. change (1 + (2 - 1)) with 2.
  change (Z.to_nat (2 - 2)) with 0%nat. change (getz [0; 1; 0]%R 1) with (Some 1%R). change (getz [0; 0; 0]%R 1) with (Some 0%R). change (getz [0; 1; 0]%R 2) with (Some 0%R). change (getz [0; 0; 0]%R 2) with (Some 0%R).
  cbn [worst_loop andb Z.ltb Z.compare]. change (getz (@nil snode) (len (@nil snode) - 1)) with (@None snode). cbn iota. cbn [app]. change (getz [SNode 0 0 0; SNode 0 1 0] (len [SNode 0 0 0; SNode 0 1 0] - 1)) with (Some (SNode 0 1 0)).
  cbn iota. rewrite snode_eqb_refl. reflexivity.
Qed.
(** The theorems apply to three samples 10 time units apart recorded in a new channel. *)
Example C69_applies : exists d, nodes_of d 0 = Some [] /\ tolerance d 0 = Some (1 / 100)%R /\ (0 <= 1 / 100)%R /\ len [0; 5; 7]%R = 3 /\ int_min <= 0 /\ 0 <= 20 <= int_max /\ 20 = 0 + (3 - 1) * 10.
Proof.
  exists (AnimData [Bone [] (-1) [Channel TranslateX 0 []]] 0 (Tolerances (1/1000) (1/1000) (1/100) (1/10) (1/10)) false).
  unfold int_min, int_max. repeat apply conj; try reflexivity; try lra; lia.
Qed.
Print Assumptions C69_records_curve.
Print Assumptions C69_whole_spacing.
Print Assumptions C69_times_refuted.
