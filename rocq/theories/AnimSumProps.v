(** Sums of channels (C71). *)
From Verif Require Import RBase BaseFacts CurveModel CurveProps MatrixModel RigModel AnimDataModel AnimSpec AnimCurveProps AnimPruneProps AnimTimeProps AnimChannelsModel.
From Coq Require Import Sorting.Sorted.
Local Open Scope Z_scope.

(** ** What a channel plays *)
(** The value of the nodes' curve at any time: the value of the first node before it and of the last after it. *)
Fixpoint played (n : list snode) (x : R) : R :=
  match n with
  | [] => 0%R
  | a :: r =>
      match r with
      | [] => sn_val a
      | b :: _ => if Rltb x (IZR (sn_time a)) then sn_val a else if Rltb x (IZR (sn_time b)) then keval (cubic_between a b) (x - IZR (sn_time a)) else played r x
      end
  end.
(** Where [a] starts after [b] or ends before it, [a] is flat. *)
Definition flat_where_alone (a b : list snode) : Prop :=
  (sn_time (first_node b) < sn_time (first_node a) -> sn_der (first_node a) = 0%R) /\ (sn_time (end_node a) < sn_time (end_node b) -> sn_der (end_node a) = 0%R).
(** Nodes with times in order, within the half range of ints. *)
Definition in_time (n : list snode) : Prop := n <> [] /\ StronglySorted Z.lt (map sn_time n) /\ forall x, In x n -> - 1073741824 <= sn_time x <= 1073741823.

(** ** Hermite pieces *)
Lemma keval_shift c s x : keval (kshift_left c s) x = keval c (x + s) /\ kderiv (kshift_left c s) x = kderiv c (x + s).
Proof.
  unfold kshift_left. destruct (Reqb_spec s 0) as [->|_]; [rewrite Rplus_0_r; split; reflexivity|]. unfold keval, kderiv, kderiv2. cbn [k3 k2 k1 k0]. split; field.
Qed.
Lemma hermite_same c w x : (0 < w)%R -> keval (cubic_init (keval c 0) (kderiv c 0) (keval c w) (kderiv c w) w) x = keval c x.
Proof. intros W. unfold cubic_init. rewrite Rltb_t by lra. unfold keval, kderiv. cbn [k3 k2 k1 k0]. field. lra. Qed.
Lemma hermite_ends y0 d0 y1 d1 w : (0 < w)%R -> let c := cubic_init y0 d0 y1 d1 w in keval c 0 = y0 /\ kderiv c 0 = d0 /\ keval c w = y1 /\ kderiv c w = d1.
Proof. intros W. unfold cubic_init. rewrite Rltb_t by lra. unfold keval, kderiv. cbn [k3 k2 k1 k0]. repeat split; field; lra. Qed.

(** The value and slope recorded at a time. *)
Fixpoint recorded (n : list snode) (t : Z) : R * R :=
  match n with
  | [] => (0, 0)%R
  | a :: r =>
      if t =? sn_time a then (sn_val a, sn_der a)
      else match r with
      | [] => (sn_val a, 0%R)
      | b :: _ => if t <? sn_time a then (sn_val a, 0%R) else if t <? sn_time b then (keval (cubic_between a b) (IZR (t - sn_time a)), kderiv (cubic_between a b) (IZR (t - sn_time a))) else recorded r t
      end
  end.
Definition recorded_at (n : list snode) (t : Z) : R * R := match n with [a] => (sn_val a, 0%R) | _ => recorded n t end.

Lemma Rltb_IZR a b : Rltb (IZR a) (IZR b) = (a <? b).
Proof. destruct (Z.ltb_spec a b); [apply Rltb_t; now apply IZR_lt|apply Rltb_f; now apply IZR_le]. Qed.
Lemma width_pos a b : sn_time a < sn_time b -> (0 < IZR (sn_time b - sn_time a))%R.
Proof. intros H. apply IZR_lt. lia. Qed.
Lemma played_cons2 a b r x : played (a :: b :: r) x = if Rltb x (IZR (sn_time a)) then sn_val a else if Rltb x (IZR (sn_time b)) then keval (cubic_between a b) (x - IZR (sn_time a)) else played (b :: r) x.
Proof. reflexivity. Qed.
Lemma recorded_cons2 a b r t : recorded (a :: b :: r) t = if t =? sn_time a then (sn_val a, sn_der a) else if t <? sn_time a then (sn_val a, 0%R)
  else if t <? sn_time b then (keval (cubic_between a b) (IZR (t - sn_time a)), kderiv (cubic_between a b) (IZR (t - sn_time a))) else recorded (b :: r) t.
Proof. reflexivity. Qed.
Lemma recorded_value : forall n t, StronglySorted Z.lt (map sn_time n) -> n <> [] -> fst (recorded n t) = played n (IZR t).
Proof.
  induction n as [|a [|b r] IH]; intros t S NE; [congruence|cbn; destruct (t =? sn_time a); reflexivity|]. cbn [map] in S. apply StronglySorted_inv in S. destruct S as [S F]. inversion F as [|? ? AB _]; subst.
  specialize (IH t S ltac:(discriminate)). rewrite recorded_cons2, played_cons2, !Rltb_IZR. destruct (Z.eqb_spec t (sn_time a)) as [->|N].
  - rewrite Z.ltb_irrefl. destruct (Z.ltb_spec (sn_time a) (sn_time b)); [|lia]. unfold Rminus. rewrite Rplus_opp_r. symmetry. apply (hermite_ends _ _ _ _ _ (width_pos a b AB)).
  - destruct (t <? sn_time a); [reflexivity|]. destruct (t <? sn_time b); [cbn [fst]; now rewrite minus_IZR|exact IH].
Qed.
Lemma recorded_at_value n t : StronglySorted Z.lt (map sn_time n) -> n <> [] -> fst (recorded_at n t) = played n (IZR t).
Proof. intros S NE. destruct n as [|a [|b r]]; [congruence|reflexivity|]. now apply recorded_value. Qed.

Definition konst (v : R) : cubic := Cubic 0 0 0 v.
Lemma konst_eval v x : keval (konst v) x = v /\ kderiv (konst v) x = 0%R.
Proof. unfold keval, kderiv, konst. cbn [k3 k2 k1 k0]. split; ring. Qed.
(** Between two times without a node in between, a channel plays one cubic. *)
Definition piece (n : list snode) (t0 t1 : Z) (c : cubic) : Prop :=
  (forall x, (IZR t0 <= x < IZR t1)%R -> played n x = keval c (x - IZR t0)) /\
  recorded_at n t0 = (keval c 0, kderiv c 0) /\ recorded_at n t1 = (keval c (IZR (t1 - t0)), kderiv c (IZR (t1 - t0))).
Lemma last_cons_end (a b : snode) r : end_node (a :: b :: r) = end_node (b :: r).
Proof. reflexivity. Qed.
Lemma piece_many : forall n t0 t1, StronglySorted Z.lt (map sn_time n) -> n <> [] -> t0 < t1 -> (forall x, In x n -> sn_time x <= t0 \/ t1 <= sn_time x) ->
  (t1 = sn_time (first_node n) -> sn_der (first_node n) = 0%R) -> (t0 = sn_time (end_node n) -> sn_der (end_node n) = 0%R) ->
  exists c, (forall x, (IZR t0 <= x < IZR t1)%R -> played n x = keval c (x - IZR t0)) /\
    recorded n t0 = (keval c 0, kderiv c 0) /\ recorded n t1 = (keval c (IZR (t1 - t0)), kderiv c (IZR (t1 - t0))).
Proof.
  induction n as [|a [|b r] IH]; intros t0 t1 S NE T NO F1 F2; [congruence| |].
  - exists (konst (sn_val a)). destruct (konst_eval (sn_val a) 0) as [E1 E2], (konst_eval (sn_val a) (IZR (t1 - t0))) as [E3 E4]. rewrite E1, E2, E3, E4. cbn [first_node end_node hd last] in *. cbn [recorded played].
    split; [intros x X; now rewrite (proj1 (konst_eval _ _))|]. split; [destruct (Z.eqb_spec t0 (sn_time a)) as [E|E]|destruct (Z.eqb_spec t1 (sn_time a)) as [E|E]]; rewrite ?F1, ?F2 by exact E; reflexivity.
  - cbn [map] in S. apply StronglySorted_inv in S. destruct S as [S F]. inversion F as [|? ? AB FR]; subst. cbn [first_node hd] in F1. rewrite last_cons_end in F2.
    destruct (NO a (or_introl eq_refl)) as [A|A].
    + destruct (NO b (or_intror (or_introl eq_refl))) as [B|B].
      * destruct (IH t0 t1 S ltac:(discriminate) T) as (c & C1 & C2 & C3).
        { intros x X. apply NO. now right. } { cbn [first_node hd]. lia. } { exact F2. }
        exists c. split; [|split].
        -- intros x X. rewrite <- (C1 x X). rewrite played_cons2. assert (IZR (sn_time a) < IZR (sn_time b) <= IZR t0)%R by (split; [apply IZR_lt|apply IZR_le]; lia). rewrite !Rltb_f by lra. reflexivity.
        -- rewrite <- C2. rewrite recorded_cons2. destruct (Z.eqb_spec t0 (sn_time a)); [lia|]. destruct (Z.ltb_spec t0 (sn_time a)); [lia|]. destruct (Z.ltb_spec t0 (sn_time b)); [lia|]. reflexivity.
        -- rewrite <- C3. rewrite recorded_cons2. destruct (Z.eqb_spec t1 (sn_time a)); [lia|]. destruct (Z.ltb_spec t1 (sn_time a)); [lia|]. destruct (Z.ltb_spec t1 (sn_time b)); [lia|]. reflexivity.
      * set (k := cubic_between a b). exists (kshift_left k (IZR (t0 - sn_time a))). pose proof (width_pos a b AB) as W. destruct (hermite_ends (sn_val a) (sn_der a) (sn_val b) (sn_der b) _ W) as (H1 & H2 & H3 & H4). fold (cubic_between a b) in H1, H2, H3, H4. fold k in H1, H2, H3, H4.
        split; [|split].
        -- intros x X. rewrite (proj1 (keval_shift _ _ _)). rewrite played_cons2. assert (IZR (sn_time a) <= IZR t0 /\ IZR t1 <= IZR (sn_time b))%R by (split; apply IZR_le; lia). rewrite Rltb_f by lra. rewrite Rltb_t by lra. fold k. f_equal. rewrite minus_IZR. ring.
        -- destruct (keval_shift k (IZR (t0 - sn_time a)) 0) as [-> ->]. rewrite Rplus_0_l. rewrite recorded_cons2. fold k. destruct (Z.eqb_spec t0 (sn_time a)) as [E|E].
           ++ rewrite E, Z.sub_diag. now rewrite H1, H2.
           ++ destruct (Z.ltb_spec t0 (sn_time a)); [lia|]. destruct (Z.ltb_spec t0 (sn_time b)); [|lia]. reflexivity.
        -- destruct (keval_shift k (IZR (t0 - sn_time a)) (IZR (t1 - t0))) as [-> ->]. rewrite <- plus_IZR. replace (t1 - t0 + (t0 - sn_time a)) with (t1 - sn_time a) by lia. rewrite recorded_cons2. fold k. destruct (Z.eqb_spec t1 (sn_time a)); [lia|]. destruct (Z.ltb_spec t1 (sn_time a)); [lia|].
           destruct (Z.ltb_spec t1 (sn_time b)); [reflexivity|]. assert (E : t1 = sn_time b) by lia. rewrite E, H3, H4. cbn [recorded]. now rewrite Z.eqb_refl.
    + exists (konst (sn_val a)). destruct (konst_eval (sn_val a) 0) as [E1 E2], (konst_eval (sn_val a) (IZR (t1 - t0))) as [E3 E4]. rewrite E1, E2, E3, E4. split; [|split].
      * intros x X. rewrite (proj1 (konst_eval _ _)). rewrite played_cons2. assert (IZR t1 <= IZR (sn_time a))%R by (apply IZR_le; lia). now rewrite Rltb_t by lra.
      * rewrite recorded_cons2. destruct (Z.eqb_spec t0 (sn_time a)); [lia|]. destruct (Z.ltb_spec t0 (sn_time a)); [reflexivity|lia].
      * rewrite recorded_cons2. destruct (Z.eqb_spec t1 (sn_time a)) as [E|E]; [now rewrite F1|]. destruct (Z.ltb_spec t1 (sn_time a)); [reflexivity|lia].
Qed.

(** EvaluateNodes is right between nodes. *)
Lemma find_after_ok : forall r a t, StronglySorted Z.lt (map sn_time (a :: r)) -> sn_time a < t -> t < sn_time (end_node (a :: r)) -> (forall x, In x (a :: r) -> sn_time x <> t) ->
  exists p q, find_after a r t = Some (p, q) /\ In p (a :: r) /\ In q (a :: r) /\ sn_time p < t < sn_time q /\ recorded (a :: r) t = (keval (cubic_between p q) (IZR (t - sn_time p)), kderiv (cubic_between p q) (IZR (t - sn_time p))).
Proof.
  induction r as [|b r IH]; intros a t S A E NO; [cbn in E; lia|]. cbn [map] in S. apply StronglySorted_inv in S. destruct S as [S F]. inversion F as [|? ? AB FR]; subst.
  cbn [find_after]. pose proof (NO b (or_intror (or_introl eq_refl))) as NB. destruct (Z.leb_spec t (sn_time b)) as [B|B].
  - exists a, b. split; [reflexivity|]. split; [now left|]. split; [right; now left|]. split; [lia|]. rewrite recorded_cons2. destruct (Z.eqb_spec t (sn_time a)); [lia|]. destruct (Z.ltb_spec t (sn_time a)); [lia|]. destruct (Z.ltb_spec t (sn_time b)); [reflexivity|lia].
  - destruct (IH b t S ltac:(lia) E) as (p & q & FA & P & Q & PQ & RE). { intros x X. apply NO. now right. }
    exists p, q. split; [exact FA|]. split; [now right|]. split; [now right|]. split; [exact PQ|]. rewrite <- RE. rewrite recorded_cons2. destruct (Z.eqb_spec t (sn_time a)); [lia|]. destruct (Z.ltb_spec t (sn_time a)); [lia|]. destruct (Z.ltb_spec t (sn_time b)); [lia|]. reflexivity.
Qed.
Lemma recorded_after : forall n t, StronglySorted Z.lt (map sn_time n) -> n <> [] -> sn_time (end_node n) < t -> recorded n t = (sn_val (end_node n), 0%R).
Proof.
  induction n as [|a [|b r] IH]; intros t S NE E; [congruence|cbn in *; destruct (Z.eqb_spec t (sn_time a)); [lia|reflexivity]|]. cbn [map] in S. apply StronglySorted_inv in S. destruct S as [S F].
  rewrite last_cons_end in *. assert (SE : sn_time b <= sn_time (end_node (b :: r))).
  { clear - S. unfold end_node. assert (I : In (last (b :: r) (SNode 0 0 0)) (b :: r)). { destruct (b :: r) as [|y l _] eqn:Q using rev_ind; [destruct r; discriminate|]. rewrite last_last. apply in_elt. }
    destruct I as [<-|I]; [lia|]. cbn [map] in S. apply StronglySorted_inv in S. destruct S as [_ F]. rewrite Forall_forall in F. specialize (F _ (in_map sn_time _ _ I)). lia. }
  inversion F as [|? ? AB _]; subst. rewrite <- (IH t S ltac:(discriminate) E). rewrite recorded_cons2. destruct (Z.eqb_spec t (sn_time a)); [lia|]. destruct (Z.ltb_spec t (sn_time a)); [lia|]. destruct (Z.ltb_spec t (sn_time b)); [lia|]. reflexivity.
Qed.
Lemma evaluate_ok n t : in_time n -> - 1073741824 <= t <= 1073741823 -> (len n = 1 \/ forall x, In x n -> sn_time x <> t) -> evaluate_nodes n t = Some (recorded_at n t).
Proof.
  intros (NE & S & B) T NO. destruct n as [|a r]; [congruence|]. unfold evaluate_nodes. assert (L : last r a = end_node (a :: r)) by (unfold end_node; symmetry; apply last_cons). rewrite L.
  destruct r as [|b r].
  - cbn [recorded_at end_node last]. destruct (Z.ltb_spec t (sn_time a)); [reflexivity|]. destruct (Z.leb_spec (sn_time a) t); [reflexivity|lia].
  - destruct NO as [NO|NO]; [rewrite !len_cons in NO; pose proof (len_nonneg r); lia|]. cbn [recorded_at]. destruct (Z.ltb_spec t (sn_time a)) as [A|A].
    { rewrite recorded_cons2. destruct (Z.eqb_spec t (sn_time a)); [lia|]. destruct (Z.ltb_spec t (sn_time a)); [reflexivity|lia]. }
    assert (IE : In (end_node (a :: b :: r)) (a :: b :: r)).
    { unfold end_node. destruct (a :: b :: r) as [|y l _] eqn:Q using rev_ind; [discriminate|]. rewrite last_last. apply in_elt. }
    pose proof (NO a (or_introl eq_refl)) as NA. pose proof (NO _ IE) as NEQ.
    destruct (Z.leb_spec (sn_time (end_node (a :: b :: r))) t) as [E|E]; [now rewrite recorded_after by (auto; lia)|].
    destruct (find_after_ok (b :: r) a t S ltac:(lia) E NO) as (p & q & FA & P & Q & PQ & RE). rewrite FA. destruct (Z.leb_spec (sn_time p) t); [|lia]. destruct (Z.leb_spec t (sn_time q)); [|lia]. cbn [andb].
    pose proof (B p P). pose proof (B q Q). rewrite !sub_int_ok by lia. rewrite RE. reflexivity.
Qed.

(** ** Sums *)
(** [it] is where the loop is in [n], having passed the times up to [lo]. *)
Definition cursor (n it : list snode) (lo : Z) : Prop :=
  (len n = 1 /\ it = []) \/ (len n <> 1 /\ exists d, n = d ++ it /\ (forall x, In x d -> sn_time x <= lo) /\ (forall x, In x it -> lo < sn_time x)).
Lemma sorted_app (l l' : list Z) : StronglySorted Z.lt (l ++ l') -> StronglySorted Z.lt l /\ StronglySorted Z.lt l' /\ forall x y, In x l -> In y l' -> x < y.
Proof.
  induction l as [|a l IH]; intros S; [split; [constructor|]; split; [exact S|intros x y []]|]. cbn [app] in S. apply StronglySorted_inv in S. destruct S as [S F]. destruct (IH S) as (S1 & S2 & S3). rewrite Forall_forall in F. split.
  - constructor; [exact S1|]. apply Forall_forall. intros x X. apply F. apply in_or_app. now left.
  - split; [exact S2|]. intros x y [<-|X] Y; [apply F; apply in_or_app; now right|now apply S3].
Qed.
Lemma recorded_node : forall d x r, StronglySorted Z.lt (map sn_time (d ++ x :: r)) -> recorded (d ++ x :: r) (sn_time x) = (sn_val x, sn_der x).
Proof.
  induction d as [|a d IH]; intros x r S; [cbn; now rewrite Z.eqb_refl|]. specialize (IH x r). cbn [app map] in *. apply StronglySorted_inv in S. destruct S as [S F]. specialize (IH S). rewrite Forall_forall in F.
  assert (AX : sn_time a < sn_time x) by (apply F; apply in_map; apply in_elt). destruct (d ++ x :: r) as [|b l] eqn:Q; [destruct d; discriminate|]. rewrite recorded_cons2. destruct (Z.eqb_spec (sn_time x) (sn_time a)); [lia|]. destruct (Z.ltb_spec (sn_time x) (sn_time a)); [lia|].
  assert (BX : sn_time b <= sn_time x). { destruct d as [|y d]; [injection Q as <- _; lia|]. injection Q as <- <-. cbn [map] in S. apply StronglySorted_inv in S. destruct S as [_ F']. rewrite Forall_forall in F'. assert (sn_time y < sn_time x) by (apply F'; apply in_map; apply in_elt). lia. }
  destruct (Z.ltb_spec (sn_time x) (sn_time b)); [lia|exact IH].
Qed.
Lemma step_ok n it lo t : in_time n -> cursor n it lo -> lo < t -> - 1073741824 <= t <= 1073741823 -> (forall x, In x it -> t <= sn_time x) ->
  exists it', value_at_time n it t = Some (fst (recorded_at n t), snd (recorded_at n t), it') /\ cursor n it' t /\
    (it' = it /\ (forall x, In x it -> t < sn_time x) \/ exists x, it = x :: it' /\ sn_time x = t).
Proof.
  intros IT C LT B HD. pose proof IT as (NE & S & BT).
  assert (EV : (forall x, In x it -> t < sn_time x) -> value_at_time n it t = Some (fst (recorded_at n t), snd (recorded_at n t), it) /\ cursor n it t).
  { intros H. split.
    - assert (E : evaluate_nodes n t = Some (recorded_at n t)). { apply evaluate_ok; auto. destruct C as [[C _]|(_ & d & -> & D1 & _)]; [now left|]. right. intros x X. apply in_app_or in X. destruct X as [X|X]; [specialize (D1 x X)|specialize (H x X)]; lia. }
      unfold value_at_time. rewrite E. destruct it as [|x r]; [reflexivity|]. destruct (Z.eqb_spec (sn_time x) t) as [Q|Q]; [specialize (H x (or_introl eq_refl)); lia|reflexivity].
    - destruct C as [C|(L & d & E & D1 & D2)]; [now left|]. right. split; [exact L|]. exists d. split; [exact E|]. split; [intros x X; specialize (D1 x X); lia|exact H]. }
  destruct it as [|x r].
  - exists []. destruct EV as [E1 E2]; [intros x []|]. split; [exact E1|]. split; [exact E2|]. left. split; [reflexivity|intros x []].
  - destruct (Z.eq_dec (sn_time x) t) as [Q|Q].
    + destruct C as [[_ C]|(L & d & E & D1 & D2)]; [discriminate|]. exists r. subst n. assert (RE : recorded_at (d ++ x :: r) t = (sn_val x, sn_der x)).
      { rewrite <- Q. rewrite <- (recorded_node d x r S). unfold recorded_at. destruct (d ++ x :: r) as [|y [|z l]]; [reflexivity|cbn in L; lia|reflexivity]. }
      rewrite RE. unfold value_at_time. rewrite Q, Z.eqb_refl. split; [reflexivity|]. split; [|right; exists x; split; [reflexivity|exact Q]].
      right. split; [exact L|]. exists (d ++ [x]). split; [now rewrite <- app_assoc|]. split.
      * intros y Y. apply in_app_or in Y. destruct Y as [Y|[<-|[]]]; [specialize (D1 y Y)|]; lia.
      * intros y Y. rewrite map_app in S. apply sorted_app in S. destruct S as (_ & S & _). cbn [map] in S. apply StronglySorted_inv in S. destruct S as [_ F]. rewrite Forall_forall in F. specialize (F _ (in_map sn_time _ _ Y)). lia.
    + destruct EV as [E1 E2].
      * assert (SI : StronglySorted Z.lt (map sn_time (x :: r))). { destruct C as [[_ C]|(_ & d & E & _)]; [discriminate|]. subst n. rewrite map_app in S. now apply sorted_app in S. }
        intros y [<-|Y]; [specialize (HD x (or_introl eq_refl)); lia|]. cbn [map] in SI. apply StronglySorted_inv in SI. destruct SI as [_ F]. rewrite Forall_forall in F. specialize (F _ (in_map sn_time _ _ Y)). specialize (HD x (or_introl eq_refl)). lia.
      * exists (x :: r). split; [exact E1|]. split; [exact E2|]. left. split; [reflexivity|]. destruct E2 as [[_ E2]|(_ & d & _ & _ & D2)]; [discriminate|exact D2].
Qed.
Definition sum_node (na nb : list snode) (t : Z) : snode := SNode t (fst (recorded_at na t) + fst (recorded_at nb t)) (snd (recorded_at na t) + snd (recorded_at nb t)).
Lemma cursor_head n it lo : in_time n -> cursor n it lo -> forall x r, it = x :: r -> lo < sn_time x /\ - 1073741824 <= sn_time x <= 1073741823 /\ forall y, In y it -> sn_time x <= sn_time y.
Proof.
  intros (NE & S & B) C x r ->. destruct C as [[_ C]|(_ & d & -> & _ & D2)]; [discriminate|]. split; [apply D2; now left|]. split; [apply B; apply in_elt|]. rewrite map_app in S. apply sorted_app in S. destruct S as (_ & S & _). cbn [map] in S. apply StronglySorted_inv in S. destruct S as [_ F]. rewrite Forall_forall in F.
  intros y [<-|Y]; [lia|]. specialize (F _ (in_map sn_time _ _ Y)). lia.
Qed.
Lemma sum_loop_ok na nb : in_time na -> in_time nb -> forall fuel ia ib lo sum, (length ia + length ib <= fuel)%nat -> cursor na ia lo -> cursor nb ib lo ->
  exists s, sum_loop fuel na nb ia ib sum = Some (sum ++ s) /\ (forall x, In x s -> x = sum_node na nb (sn_time x)) /\ StronglySorted Z.lt (map sn_time s) /\ (forall x, In x s -> lo < sn_time x) /\
    (forall t, In t (map sn_time s) <-> In t (map sn_time ia) \/ In t (map sn_time ib)).
Proof.
  intros IA IB. induction fuel as [|fuel IH]; intros ia ib lo sum FU CA CB.
  - destruct ia; [|cbn in FU; lia]. destruct ib; [|cbn in FU; lia]. exists []. cbn [sum_loop]. rewrite app_nil_r. split; [reflexivity|]. split; [intros x []|]. split; [constructor|]. split; [intros x []|]. intros t. cbn. tauto.
  - set (tt := match ib with y :: _ => Z.min (match ia with x :: _ => sn_time x | [] => int_max end) (sn_time y) | [] => match ia with x :: _ => sn_time x | [] => int_max end end).
    destruct (match ia, ib with [], [] => true | _, _ => false end) eqn:EM.
    { destruct ia; [|discriminate]. destruct ib; [|discriminate]. exists []. cbn [sum_loop]. rewrite app_nil_r. split; [reflexivity|]. split; [intros x []|]. split; [constructor|]. split; [intros x []|]. intros t. cbn. tauto. }
    assert (T : lo < tt /\ - 1073741824 <= tt <= 1073741823 /\ (forall x, In x ia -> tt <= sn_time x) /\ (forall x, In x ib -> tt <= sn_time x) /\ ((exists x r, ia = x :: r /\ sn_time x = tt) \/ (exists x r, ib = x :: r /\ sn_time x = tt))).
    { unfold tt. destruct ia as [|x r], ib as [|y r']; [discriminate|destruct (cursor_head nb _ lo IB CB y r' eq_refl) as (H1 & H2 & H3); unfold int_max; rewrite Z.min_r by lia|destruct (cursor_head na _ lo IA CA x r eq_refl) as (H1 & H2 & H3)|destruct (cursor_head na _ lo IA CA x r eq_refl) as (H1 & H2 & H3); destruct (cursor_head nb _ lo IB CB y r' eq_refl) as (K1 & K2 & K3)].
      - split; [lia|]. split; [lia|]. split; [intros x []|]. split; [exact H3|]. right. exists y, r'. split; reflexivity.
      - split; [lia|]. split; [lia|]. split; [exact H3|]. split; [intros z []|]. left. exists x, r. split; reflexivity.
      - split; [lia|]. split; [lia|]. split; [intros z Z; specialize (H3 z Z); lia|]. split; [intros z Z; specialize (K3 z Z); lia|]. destruct (Z.min_spec (sn_time x) (sn_time y)) as [[_ ->]|[_ ->]]; [left; exists x, r|right; exists y, r']; split; reflexivity. }
    destruct T as (T1 & T2 & TA & TB & TH). destruct (step_ok na ia lo tt IA CA T1 T2 TA) as (ia' & EA & CA' & XA). destruct (step_ok nb ib lo tt IB CB T1 T2 TB) as (ib' & EB & CB' & XB).
    destruct (IH ia' ib' tt (sum ++ [sum_node na nb tt])) as (s & E & P1 & P2 & P3 & P4); auto.
    { assert (LA : (length ia' <= length ia)%nat) by (destruct XA as [[-> _]|(x & -> & _)]; cbn [length]; lia). assert (LB : (length ib' <= length ib)%nat) by (destruct XB as [[-> _]|(x & -> & _)]; cbn [length]; lia).
      destruct TH as [(x & r & -> & Q)|(x & r & -> & Q)].
      - destruct XA as [[_ XA]|(y & XA & _)]; [specialize (XA x (or_introl eq_refl)); lia|]. injection XA as _ ->. cbn [length] in *. lia.
      - destruct XB as [[_ XB]|(y & XB & _)]; [specialize (XB x (or_introl eq_refl)); lia|]. injection XB as _ ->. cbn [length] in *. lia. }
    exists (sum_node na nb tt :: s). split.
    { rewrite <- app_assoc in E. cbn [app] in E. rewrite <- E. cbn [sum_loop]. fold tt. rewrite EA, EB. destruct ia, ib; [discriminate|reflexivity..]. }
    split; [intros x [<-|X]; [reflexivity|now apply P1]|]. split; [cbn [map]; constructor; [exact P2|apply Forall_forall; intros t Q; apply in_map_iff in Q; destruct Q as (x & <- & X); exact (P3 x X)]|].
    split; [intros x [<-|X]; [exact T1|specialize (P3 x X); lia]|]. intros t. cbn [map In]. rewrite P4. change (sn_time (sum_node na nb tt)) with tt.
    assert (KA : In t (map sn_time ia) <-> (t = tt /\ exists x r, ia = x :: r /\ sn_time x = tt) \/ In t (map sn_time ia')).
    { destruct XA as [[-> XA]|(x & -> & Q)]; [split; [now right|intros [(_ & x & r & -> & Q)|K]; [specialize (XA x (or_introl eq_refl)); lia|exact K]]|]. cbn [map In]. rewrite Q. split; [intros [<-|K]; [left; split; [reflexivity|]; exists x, ia'; split; [reflexivity|exact Q]|now right]|intros [(-> & _)|K]; [now left|now right]]. }
    assert (KB : In t (map sn_time ib) <-> (t = tt /\ exists x r, ib = x :: r /\ sn_time x = tt) \/ In t (map sn_time ib')).
    { destruct XB as [[-> XB]|(x & -> & Q)]; [split; [now right|intros [(_ & x & r & -> & Q)|K]; [specialize (XB x (or_introl eq_refl)); lia|exact K]]|]. cbn [map In]. rewrite Q. split; [intros [<-|K]; [left; split; [reflexivity|]; exists x, ib'; split; [reflexivity|exact Q]|now right]|intros [(-> & _)|K]; [now left|now right]]. }
    rewrite KA, KB. split.
    + intros [<-|[K|K]]; [|now (left; right)|now (right; right)]. destruct TH as [TH|TH]; [left; left; split; [reflexivity|exact TH]|right; left; split; [reflexivity|exact TH]].
    + intros [[(-> & _)|K]|[(-> & _)|K]]; auto.
Qed.
Lemma played_late : forall n x, n <> [] -> StronglySorted Z.lt (map sn_time n) -> (forall y, In y n -> (IZR (sn_time y) <= x)%R) -> played n x = sn_val (end_node n).
Proof.
  induction n as [|a [|b r] IH]; intros x NE S H; [congruence|reflexivity|]. rewrite played_cons2, last_cons_end. cbn [map] in S. apply StronglySorted_inv in S. destruct S as [S _].
  pose proof (H a (or_introl eq_refl)). pose proof (H b (or_intror (or_introl eq_refl))). rewrite !Rltb_f by lra. apply IH; [discriminate|exact S|]. intros y Y. apply H. now right.
Qed.
Lemma played_early n x : n <> [] -> StronglySorted Z.lt (map sn_time n) -> (x <= IZR (sn_time (first_node n)))%R -> played n x = sn_val (first_node n).
Proof.
  intros NE S H. destruct n as [|a [|b r]]; [congruence|reflexivity|]. cbn [first_node hd] in *. rewrite played_cons2. destruct (Rltb_spec x (IZR (sn_time a))) as [L|L]; [reflexivity|]. cbn [map] in S. apply StronglySorted_inv in S. destruct S as [_ F]. inversion F as [|? ? AB _]; subst.
  assert (IZR (sn_time a) < IZR (sn_time b))%R by now apply IZR_lt. rewrite Rltb_t by lra. replace (x - IZR (sn_time a))%R with 0%R by lra. apply (hermite_ends _ _ _ _ _ (width_pos a b AB)).
Qed.
Lemma piece_ok n t0 t1 : StronglySorted Z.lt (map sn_time n) -> n <> [] -> t0 < t1 ->
  (len n = 1 \/ ((forall x, In x n -> sn_time x <= t0 \/ t1 <= sn_time x) /\ (t1 = sn_time (first_node n) -> sn_der (first_node n) = 0%R) /\ (t0 = sn_time (end_node n) -> sn_der (end_node n) = 0%R))) ->
  exists c, piece n t0 t1 c.
Proof.
  intros S NE T H. destruct n as [|a [|b r]]; [congruence| |].
  - exists (konst (sn_val a)). unfold piece. cbn [played recorded_at]. destruct (konst_eval (sn_val a) 0) as [-> ->], (konst_eval (sn_val a) (IZR (t1 - t0))) as [-> ->]. split; [|split; reflexivity]. intros x _. symmetry. apply (proj1 (konst_eval _ _)).
  - destruct H as [H|(H1 & H2 & H3)]; [rewrite !len_cons in H; pose proof (len_nonneg r); lia|]. destruct (piece_many _ t0 t1 S NE T H1 H2 H3) as (c & C). exists c. exact C.
Qed.
(** How a summand sees the times [s] of the sum, from [s0] on. *)
Definition seen (n : list snode) (s : list Z) : Prop :=
  len n = 1 \/ (len n <> 1 /\ (forall y, In y n -> hd 0 s < sn_time y -> In (sn_time y) (tl s)) /\ (forall t, In t s -> t < sn_time (first_node n) -> sn_der (first_node n) = 0%R) /\ (forall t, In t s -> sn_time (end_node n) < t -> sn_der (end_node n) = 0%R)).
Lemma seen_piece n t0 t1 r : StronglySorted Z.lt (map sn_time n) -> n <> [] -> t0 < t1 -> StronglySorted Z.lt (t1 :: r) -> seen n (t0 :: t1 :: r) -> exists c, piece n t0 t1 c.
Proof.
  intros S NE T SR H. apply piece_ok; auto. destruct H as [H|(L & H1 & H2 & H3)]; [now left|]. right. split.
  - intros x X. destruct (Z.le_gt_cases (sn_time x) t0) as [C|C]; [now left|]. right. specialize (H1 x X C). cbn [tl] in H1. destruct H1 as [<-|H1]; [lia|]. apply StronglySorted_inv in SR. destruct SR as [_ F]. rewrite Forall_forall in F. specialize (F _ H1). lia.
  - split; intros E; [apply (H2 t0); [now left|lia]|apply (H3 t1); [right; now left|lia]].
Qed.
Lemma seen_tl n t0 t1 r : t0 < t1 -> seen n (t0 :: t1 :: r) -> seen n (t1 :: r).
Proof.
  intros T [H|(L & H1 & H2 & H3)]; [now left|]. right. split; [exact L|]. split; [|split].
  - intros y Y HY. cbn [hd tl] in *. destruct (H1 y Y ltac:(lia)) as [E|E]; [lia|exact E].
  - intros t X. apply H2. now right.
  - intros t X. apply H3. now right.
Qed.
Definition kadd (c d : cubic) : cubic := Cubic (k3 c + k3 d) (k2 c + k2 d) (k1 c + k1 d) (k0 c + k0 d).
Lemma kadd_eval c d x : keval (kadd c d) x = (keval c x + keval d x)%R /\ kderiv (kadd c d) x = (kderiv c x + kderiv d x)%R.
Proof. unfold keval, kderiv, kadd. cbn [k3 k2 k1 k0]. split; ring. Qed.
Lemma played_sum na nb : in_time na -> in_time nb -> forall r s0 x, (forall y, In y (s0 :: r) -> y = sum_node na nb (sn_time y)) -> StronglySorted Z.lt (map sn_time (s0 :: r)) ->
  seen na (map sn_time (s0 :: r)) -> seen nb (map sn_time (s0 :: r)) -> (IZR (sn_time s0) <= x)%R -> played (s0 :: r) x = (played na x + played nb x)%R.
Proof.
  intros (NA & SA & BA) (NB & SB & BB). induction r as [|s1 r IH]; intros s0 x M S HA HB X.
  - cbn [played]. rewrite (M s0 (or_introl eq_refl)). cbn [sum_node sn_val]. rewrite !recorded_at_value by assumption.
    assert (K : forall n, n <> [] -> StronglySorted Z.lt (map sn_time n) -> seen n (map sn_time [s0]) -> played n (IZR (sn_time s0)) = played n x).
    { intros n NE SN [H|(_ & H & _)]; [destruct n as [|a [|b l]]; [congruence|reflexivity|rewrite !len_cons in H; pose proof (len_nonneg l); lia]|].
      assert (Q : forall y, In y n -> (IZR (sn_time y) <= IZR (sn_time s0))%R). { intros y Y. apply IZR_le. destruct (Z.le_gt_cases (sn_time y) (sn_time s0)); [assumption|]. destruct (H y Y ltac:(cbn [map hd]; lia)). }
      rewrite (played_late n (IZR (sn_time s0))), (played_late n x); auto. intros y Y. specialize (Q y Y). lra. }
    now rewrite (K na NA SA HA), (K nb NB SB HB).
  - cbn [map] in S. pose proof (StronglySorted_inv S) as [S' F]. inversion F as [|? ? T01 _]; subst. rewrite played_cons2. rewrite Rltb_f by lra. destruct (Rltb_spec x (IZR (sn_time s1))) as [L|L].
    + destruct (seen_piece na _ _ _ SA NA T01 S' HA) as (ca & CA1 & CA2 & CA3). destruct (seen_piece nb _ _ _ SB NB T01 S' HB) as (cb & CB1 & CB2 & CB3). rewrite (CA1 x (conj X L)), (CB1 x (conj X L)). rewrite <- (proj1 (kadd_eval ca cb _)).
      unfold cubic_between. rewrite (M s0 (or_introl eq_refl)), (M s1 (or_intror (or_introl eq_refl))). cbn [sum_node sn_time sn_val sn_der]. rewrite CA2, CA3, CB2, CB3. cbn [fst snd].
      destruct (kadd_eval ca cb 0) as [<- <-], (kadd_eval ca cb (IZR (sn_time s1 - sn_time s0))) as [<- <-]. apply hermite_same. apply IZR_lt. lia.
    + apply IH; [intros y Y; apply M; now right|exact S'| | |lra]; (eapply seen_tl; [exact T01|assumption]).
Qed.
Lemma two_nodes (x y : snode) l : (len (x :: y :: l) =? 1) = false.
Proof. apply Z.eqb_neq. rewrite !len_cons. pose proof (len_nonneg l). lia. Qed.
Lemma sum_full : forall a b, in_time a -> in_time b -> (len a = 1 \/ len b = 1 \/ (flat_where_alone a b /\ flat_where_alone b a)) ->
  exists s, sum_nodes a b = Some s /\ in_time s /\ (forall x, played s x = (played a x + played b x)%R) /\ (forall y, In y s -> y = sum_node a b (sn_time y)) /\
    ((len a = 1 /\ len b = 1 /\ len s = 1) \/ forall t, In t (map sn_time s) <-> In t (map sn_time (if len a =? 1 then [] else a)) \/ In t (map sn_time (if len b =? 1 then [] else b))).
Proof.
  intros a b IA IB H. pose proof IA as (NA & SA & BA). pose proof IB as (NB & SB & BB).
  destruct a as [|a0 a']; [congruence|]. destruct b as [|b0 b']; [congruence|]. destruct (match a', b' with [], [] => true | _, _ => false end) eqn:CC.
  { destruct a'; [|discriminate]. destruct b'; [|discriminate]. eexists. split; [reflexivity|]. split; [split; [discriminate|]; split; [constructor; constructor|]; intros x [<-|[]]; cbn; lia|]. split; [intros x; reflexivity|]. split; [intros x [<-|[]]; unfold sum_node, recorded_at; cbn [fst snd sn_time]; now rewrite Rplus_0_r|]. left. repeat split. }
  set (a := a0 :: a') in *. set (b := b0 :: b') in *. set (ia := if len a =? 1 then [] else a). set (ib := if len b =? 1 then [] else b).
  assert (SUM : sum_nodes a b = sum_loop (length a + length b) a b ia ib []) by (unfold sum_nodes, ia, ib, a, b; destruct a', b'; [discriminate|reflexivity..]). rewrite SUM. clear SUM.
  assert (CU : forall n, in_time n -> cursor n (if len n =? 1 then [] else n) (-1073741825)).
  { intros n (_ & _ & B). destruct (Z.eqb_spec (len n) 1) as [E|E]; [now left|]. right. split; [exact E|]. exists []. split; [reflexivity|]. split; [intros x []|]. intros x X. specialize (B x X). lia. }
  destruct (sum_loop_ok a b IA IB (length a + length b) ia ib (-1073741825) []) as (s & E & P1 & P2 & P3 & P4); [unfold ia, ib; destruct (len a =? 1), (len b =? 1); cbn [length]; lia|apply CU; exact IA|apply CU; exact IB|].
  exists s. split; [exact E|].
  assert (NS : s <> []). { intros ->. cbn in P4. assert (Q : In (sn_time a0) (map sn_time ia) \/ In (sn_time b0) (map sn_time ib)). { unfold ia, ib, a, b. destruct a' as [|a1 a'], b' as [|b1 b']; [discriminate| | |]; [right|left|left]; (rewrite two_nodes; now left). }
    destruct Q as [Q|Q]; [exact (proj2 (P4 (sn_time a0)) (or_introl Q))|exact (proj2 (P4 (sn_time b0)) (or_intror Q))]. }
  assert (SUB : forall n t, In t (map sn_time (if len n =? 1 then [] else n)) -> len n <> 1 /\ exists x, In x n /\ sn_time x = t).
  { intros n t Q. destruct (Z.eqb_spec (len n) 1); [destruct Q|]. split; [assumption|]. apply in_map_iff in Q. destruct Q as (x & Q & X). exists x. split; assumption. }
  assert (ENDS : forall n, in_time n -> forall x, In x n -> sn_time (first_node n) <= sn_time x <= sn_time (end_node n)).
  { intros n (_ & S & _) x X. split.
    - destruct n as [|y l]; [destruct X|]. cbn [first_node hd]. destruct X as [<-|X]; [lia|]. cbn [map] in S. apply StronglySorted_inv in S. destruct S as [_ F]. rewrite Forall_forall in F. specialize (F _ (in_map sn_time _ _ X)). lia.
    - destruct n as [|y l _] using rev_ind; [destruct X|]. unfold end_node. rewrite last_last. apply in_app_or in X. destruct X as [X|[<-|[]]]; [|lia]. rewrite map_app in S. apply sorted_app in S. destruct S as (_ & _ & S). specialize (S (sn_time x) (sn_time y) (in_map _ _ _ X) (or_introl eq_refl)). lia. }
  assert (HEAD : forall n, in_time n -> In (first_node n) n) by (intros [|y l] (Q & _); [congruence|now left]).
  assert (BACK : forall n, in_time n -> In (end_node n) n) by (intros n (Q & _); unfold end_node; destruct n as [|y l _] using rev_ind; [congruence|rewrite last_last; apply in_elt]).
  split.
  { split; [exact NS|]. split; [exact P2|]. intros x X. specialize (proj1 (P4 (sn_time x)) (in_map sn_time _ _ X)). intros [Q|Q]; apply SUB in Q; destruct Q as (_ & y & Y & <-); [exact (BA y Y)|exact (BB y Y)]. }
  split; [|split; [exact P1|right; exact P4]].
  assert (SEEN : forall n m, in_time n -> in_time m -> (forall t, In t (map sn_time s) <-> In t (map sn_time (if len n =? 1 then [] else n)) \/ In t (map sn_time (if len m =? 1 then [] else m))) -> (len n = 1 \/ len m = 1 \/ flat_where_alone n m) -> seen n (map sn_time s)).
  { intros n m IN IM PT FL. destruct (Z.eq_dec (len n) 1) as [L|L]; [now left|]. right. split; [exact L|]. destruct (Z.eqb_spec (len n) 1) as [L'|_]; [congruence|]. split; [|split].
    - intros y Y HY. assert (Q : In (sn_time y) (map sn_time s)) by (apply PT; left; now apply in_map). destruct s as [|s0 r]; [destruct Q|]. cbn [map hd tl] in *. destruct Q as [Q|Q]; [lia|exact Q].
    - intros t T TL. apply PT in T. destruct T as [T|T]; [apply in_map_iff in T; destruct T as (x & <- & X); specialize (ENDS n IN x X); lia|]. apply SUB in T. destruct T as (LM & x & X & <-). destruct FL as [FL|[FL|[FL _]]]; [congruence|congruence|]. apply FL. specialize (ENDS m IM x X). lia.
    - intros t T TL. apply PT in T. destruct T as [T|T]; [apply in_map_iff in T; destruct T as (x & <- & X); specialize (ENDS n IN x X); lia|]. apply SUB in T. destruct T as (LM & x & X & <-). destruct FL as [FL|[FL|[_ FL]]]; [congruence|congruence|]. apply FL. specialize (ENDS m IM x X). lia. }
  assert (SNA : seen a (map sn_time s)) by (apply (SEEN a b IA IB P4); destruct H as [H|[H|[H _]]]; auto).
  assert (SNB : seen b (map sn_time s)) by (apply (SEEN b a IB IA); [intros t; rewrite (P4 t); fold ia; fold ib; tauto|destruct H as [H|[H|[_ H]]]; auto]).
  intros x. destruct s as [|s0 r]; [congruence|]. destruct (Rle_lt_dec (IZR (sn_time s0)) x) as [X|X]; [now apply (played_sum a b IA IB r s0 x)|].
  assert (P0 : played (s0 :: r) x = sn_val s0) by (apply (played_early (s0 :: r)); [discriminate|exact P2|cbn [first_node hd]; lra]). rewrite P0, (P1 s0 (or_introl eq_refl)). cbn [sum_node sn_val]. rewrite !recorded_at_value by assumption.
  assert (K : forall n m, in_time n -> (forall t, In t (map sn_time (s0 :: r)) <-> In t (map sn_time (if len n =? 1 then [] else n)) \/ In t (map sn_time (if len m =? 1 then [] else m))) -> played n (IZR (sn_time s0)) = played n x).
  { intros n m IN PT. pose proof IN as (NE & SN & _). destruct (Z.eqb_spec (len n) 1) as [L|L]; [destruct n as [|y [|z l]]; [congruence|reflexivity|rewrite !len_cons in L; pose proof (len_nonneg l); lia]|].
    assert (Q : (IZR (sn_time s0) <= IZR (sn_time (first_node n)))%R). { apply IZR_le. assert (T : In (sn_time (first_node n)) (map sn_time (s0 :: r))) by (apply PT; left; apply in_map; now apply HEAD). cbn [map] in T, P2. destruct T as [<-|T]; [lia|]. apply StronglySorted_inv in P2. destruct P2 as [_ F]. rewrite Forall_forall in F. specialize (F _ T). lia. }
    rewrite !played_early by (auto; lra). reflexivity. }
  rewrite (K a b IA P4), (K b a IB); [reflexivity|]. intros t. rewrite (P4 t). fold ia. fold ib. tauto.
Qed.
(** C71 (sums): the sum of two channels plays, at every time, the sum of what they play:
    of constants, of a constant and a curve, and of curves that are flat where they are alone. *)
Theorem C71_sum_partial : forall a b, in_time a -> in_time b -> (len a = 1 \/ len b = 1 \/ (flat_where_alone a b /\ flat_where_alone b a)) ->
  exists s, sum_nodes a b = Some s /\ in_time s /\ forall x, played s x = (played a x + played b x)%R.
Proof. intros a b IA IB H. destruct (sum_full a b IA IB H) as (s & E & I & P & _). eauto. Qed.
Print Assumptions C71_sum_partial.
