(** Pruning of channels (C71). *)
From Verif Require Import RBase BaseFacts MathfuModel CurveModel CurveProps MatrixModel MatrixProps RigModel AnimDataModel AnimSpec AnimCurveProps AnimPruneProps AnimTimeProps AnimChannelsModel AnimSumProps.
From Coq Require Import Sorting.Sorted.
Local Open Scope Z_scope.

(** ** The specification *)
(** The matrix of a list of operations with their values: the product of the elementary matrices (C51). *)
Fixpoint pose (l : list (mtype * R)) : option mat4 :=
  match l with [] => Some identity4 | (op, v) :: r => e <- elementary op v ;; m <- pose r ;; Some (mmul e m) end.
(** The matrix of a bone's channels at a time. *)
Definition posed (chs : list channel) (x : R) : option mat4 := pose (map (fun c => (ch_op c, played (ch_nodes c) x)) chs).
(** [v] is what the channel plays at a time, up to the tolerance; to twice the tolerance for scales along an axis. *)
Definition near_played (t : tolerances) (x : R) (c : channel) (v : R) : Prop :=
  (Rabs (v - played (ch_nodes c) x) <
     match ch_op c with
     | RotateX | RotateY | RotateZ => tl_rotate t
     | TranslateX | TranslateY | TranslateZ => tl_translate t
     | ScaleX | ScaleY | ScaleZ => 2 * tl_scale t
     | _ => tl_scale t
     end)%R.
Definition axis_scale (op : mtype) : Prop := op = ScaleX \/ op = ScaleY \/ op = ScaleZ.
Definition translates (op : mtype) : Prop := op = TranslateX \/ op = TranslateY \/ op = TranslateZ.
Definition rotates (op : mtype) : Prop := op = RotateX \/ op = RotateY \/ op = RotateZ.
(** The time is that of a node, or not after the first node, or not before the last one. *)
Definition sampled (x : R) (n : list snode) : Prop :=
  (exists a, In a n /\ x = IZR (sn_time a)) \/ (x <= IZR (sn_time (first_node n)))%R \/ (IZR (sn_time (end_node n)) <= x)%R.
Definition flat_ends (n : list snode) : Prop := len n = 1 \/ (sn_der (first_node n) = 0%R /\ sn_der (end_node n) = 0%R).
Definition spans (t0 t1 : Z) (n : list snode) : Prop := len n = 1 \/ (sn_time (first_node n) = t0 /\ sn_time (end_node n) = t1).
(** [c] comes before [d], in the order of their ids, or they commute.  The id of a uniform scale is that
    of the z scale plus one (anim_data.cpp:196-203). *)
Definition in_order (c d : channel) : Prop :=
  (translates (ch_op c) /\ translates (ch_op d)) \/ (axis_scale (ch_op c) /\ axis_scale (ch_op d)) \/
  (ch_id c < ch_id d /\ (ch_op c = ScaleX -> ch_id c + 3 < ch_id d) /\ (ch_op c = ScaleY -> ch_id c + 2 < ch_id d) /\ (ch_op c = ScaleZ -> ch_id c + 1 < ch_id d)).
(** The channels of a bone for which pruning keeps the pose at the time [x]. *)
Record prunable (no_uniform_scale : bool) (x : R) (chs : list channel) : Prop := {
  p_nodes : forall c, In c chs -> in_time (ch_nodes c);
  p_ops : forall c, In c chs -> rotates (ch_op c) \/ translates (ch_op c) \/ axis_scale (ch_op c);
  p_once : ForallOrdPairs (fun c d => axis_scale (ch_op c) -> ch_op c <> ch_op d) chs;
  p_curves : (forall c, In c chs -> flat_ends (ch_nodes c)) \/ (exists t0 t1, forall c, In c chs -> spans t0 t1 (ch_nodes c));
  p_sampled : no_uniform_scale = true \/ forall c, In c chs -> axis_scale (ch_op c) -> sampled x (ch_nodes c);
  p_order : ForallOrdPairs in_order chs;
  p_ids : forall c, In c chs -> 0 <= ch_id c <= 252
}.

(** ** Elementary matrices *)
Definition geometric (op : mtype) : Prop := rotates op \/ translates op \/ axis_scale op \/ op = ScaleUniformly.
Definition elem (op : mtype) (v : R) : mat4 := match elementary op v with Some e => e | None => identity4 end.
Lemma elem_some op v : geometric op -> elementary op v = Some (elem op v).
Proof. unfold elem. intros [[ | ]|[[ | ]|[[ | ]|]]]; subst; try reflexivity; match goal with H : _ \/ _ |- _ => destruct H; subst; reflexivity end. Qed.
Ltac ops H := unfold geometric, rotates, translates, axis_scale in H; repeat match goal with K : _ \/ _ |- _ => destruct K end; subst.
Ltac elems := unfold elem, elementary; cbv zeta.
Lemma elem_add op v w : rotates op \/ translates op -> mmul (elem op v) (elem op w) = elem op (v + w).
Proof.
  intros H. assert (Q : op = RotateX \/ op = RotateY \/ op = RotateZ \/ op = TranslateX \/ op = TranslateY \/ op = TranslateZ) by (unfold rotates, translates in H; tauto).
  destruct Q as [-> |[-> |[-> |[-> |[-> | ->]]]]]; elems; rewrite ?cos_plus, ?sin_plus; mat_eq.
Qed.
Lemma elem_comm a b v w : (translates a /\ translates b) \/ ((axis_scale a \/ a = ScaleUniformly) /\ (axis_scale b \/ b = ScaleUniformly)) -> mmul (elem a v) (elem b w) = mmul (elem b w) (elem a v).
Proof.
  intros [[A B]|[A B]].
  - destruct A as [-> |[-> | ->]], B as [-> |[-> | ->]]; elems; mat_eq.
  - destruct A as [[-> |[-> | ->]]| ->], B as [[-> |[-> | ->]]| ->]; elems; mat_eq.
Qed.
Lemma elem_uniform a b c v : scale_xyz a b c = true -> mmul (elem a v) (mmul (elem b v) (elem c v)) = elem ScaleUniformly v.
Proof. intros H. destruct a, b, c; try discriminate H; elems; mat_eq. Qed.
Lemma scale_xyz_axes a b c : scale_xyz a b c = true -> axis_scale a /\ axis_scale b /\ axis_scale c /\ forall k, axis_scale k -> k = a \/ k = b \/ k = c.
Proof. intros H. unfold axis_scale. destruct a, b, c; try discriminate H; (split; [tauto|split; [tauto|split; [tauto|intros k; tauto]]]). Qed.
Lemma elem_default op : geometric op -> elem op (default_op_value op) = identity4.
Proof.
  intros H. assert (Q : op = RotateX \/ op = RotateY \/ op = RotateZ \/ op = TranslateX \/ op = TranslateY \/ op = TranslateZ \/ op = ScaleX \/ op = ScaleY \/ op = ScaleZ \/ op = ScaleUniformly) by (unfold geometric, rotates, translates, axis_scale in H; tauto).
  repeat match goal with K : _ \/ _ |- _ => destruct K as [-> |K] end; [..|subst]; elems; cbn [default_op_value scale_kind]; rewrite ?cos_0, ?sin_0; mat_eq.
Qed.

(** ** Curves that can be summed *)
Lemma in_ends n : in_time n -> In (first_node n) n /\ In (end_node n) n /\ forall x, In x n -> sn_time (first_node n) <= sn_time x <= sn_time (end_node n).
Proof.
  intros (NE & S & _). split; [destruct n; [congruence|now left]|]. split; [unfold end_node; destruct n as [|y l _] using rev_ind; [congruence|rewrite last_last; apply in_elt]|].
  intros x X. split.
  - destruct n as [|y l]; [destruct X|]. cbn [first_node hd]. destruct X as [<-|X]; [lia|]. cbn [map] in S. apply StronglySorted_inv in S. destruct S as [_ F]. rewrite Forall_forall in F. specialize (F _ (in_map sn_time _ _ X)). lia.
  - destruct n as [|y l _] using rev_ind; [destruct X|]. unfold end_node. rewrite last_last. apply in_app_or in X. destruct X as [X|[<-|[]]]; [|lia]. rewrite map_app in S. apply sorted_app in S. destruct S as (_ & _ & S). specialize (S (sn_time x) (sn_time y) (in_map _ _ _ X) (or_introl eq_refl)). lia.
Qed.
Lemma der_outside n t : in_time n -> len n <> 1 -> flat_ends n -> t <= sn_time (first_node n) \/ sn_time (end_node n) <= t -> snd (recorded_at n t) = 0%R.
Proof.
  intros I L [F|[F1 F2]] H; [congruence|]. pose proof I as (NE & S & _). destruct n as [|a [|b r]]; [congruence|exfalso; apply L; reflexivity|]. change (recorded_at (a :: b :: r) t) with (recorded (a :: b :: r) t).
  destruct H as [H|H].
  - cbn [first_node hd] in *. rewrite recorded_cons2. destruct (Z.eqb_spec t (sn_time a)) as [E|E]; [exact F1|]. destruct (Z.ltb_spec t (sn_time a)); [reflexivity|lia].
  - destruct (Z.eq_dec t (sn_time (end_node (a :: b :: r)))) as [-> |E]; [|rewrite recorded_after; [reflexivity|exact S|discriminate|lia]].
    destruct (exists_last NE) as (l & e & Q). rewrite Q in *. assert (EE : end_node (l ++ [e]) = e) by (unfold end_node; apply last_last). rewrite EE in *. rewrite recorded_node by exact S. exact F2.
Qed.
Lemma flat_alone a b : in_time a -> in_time b -> flat_ends a -> flat_ends b -> len a = 1 \/ len b = 1 \/ (flat_where_alone a b /\ flat_where_alone b a).
Proof. intros _ _ [A|[A1 A2]] [B|[B1 B2]]; [tauto..|]. right. right. split; split; intros; assumption. Qed.
Lemma spans_alone t0 t1 a b : spans t0 t1 a -> spans t0 t1 b -> len a = 1 \/ len b = 1 \/ (flat_where_alone a b /\ flat_where_alone b a).
Proof. intros [A|[A1 A2]] [B|[B1 B2]]; [tauto..|]. right. right. split; split; intros; lia. Qed.
Lemma union_times a b s : in_time a -> in_time b -> in_time s ->
  (forall t, In t (map sn_time s) <-> In t (map sn_time (if len a =? 1 then [] else a)) \/ In t (map sn_time (if len b =? 1 then [] else b))) ->
  (len a <> 1 -> sn_time (first_node s) <= sn_time (first_node a) /\ sn_time (end_node a) <= sn_time (end_node s)) /\
  (forall y, In y s -> (len a <> 1 /\ exists x, In x a /\ sn_time y = sn_time x) \/ (len b <> 1 /\ exists x, In x b /\ sn_time y = sn_time x)).
Proof.
  intros IA IB IS T. split.
  - intros L. destruct (in_ends a IA) as (F & E & _). destruct (in_ends s IS) as (_ & _ & B). assert (K : forall x, In x a -> sn_time (first_node s) <= sn_time x <= sn_time (end_node s)).
    { intros x X. assert (Q : In (sn_time x) (map sn_time s)). { apply T. left. destruct (Z.eqb_spec (len a) 1); [congruence|now apply in_map]. } apply in_map_iff in Q. destruct Q as (y & E1 & Y). rewrite <- E1. now apply B. }
    split; [apply (K _ F)|apply (K _ E)].
  - intros y Y. apply (in_map sn_time), T in Y. destruct Y as [Y|Y]; [left|right]; (match type of Y with In _ (map _ (if ?e =? 1 then _ else _)) => destruct (Z.eqb_spec e 1) end; [destruct Y|]; split; [assumption|]; apply in_map_iff in Y; destruct Y as (x & E & X); exists x; auto).
Qed.
(** One of the two ways in which the curves of a bone fit together. *)
Definition kind (D : list snode -> Prop) : Prop := (forall n, D n <-> flat_ends n) \/ exists t0 t1, forall n, D n <-> spans t0 t1 n.
Lemma sum_kind D a b : kind D -> in_time a -> in_time b -> D a -> D b ->
  exists s, sum_nodes a b = Some s /\ in_time s /\ (forall x, played s x = (played a x + played b x)%R) /\ D s.
Proof.
  intros K IA IB DA DB. assert (H : len a = 1 \/ len b = 1 \/ (flat_where_alone a b /\ flat_where_alone b a)).
  { destruct K as [K|(t0 & t1 & K)]; [apply K in DA; apply K in DB; now apply flat_alone|apply K in DA; apply K in DB; now apply (spans_alone t0 t1)]. }
  destruct (sum_full a b IA IB H) as (s & E & IS & P & M & T). exists s. split; [exact E|]. split; [exact IS|]. split; [exact P|].
  destruct T as [(_ & _ & L)|T]; [destruct K as [K|(t0 & t1 & K)]; apply K; now left|].
  destruct (union_times a b s IA IB IS T) as [UA UY]. assert (T' : forall t, In t (map sn_time s) <-> In t (map sn_time (if len b =? 1 then [] else b)) \/ In t (map sn_time (if len a =? 1 then [] else a))) by (intros t; rewrite (T t); tauto).
  destruct (union_times b a s IB IA IS T') as [UB _]. destruct (in_ends s IS) as (F & N & B). destruct K as [K|(t0 & t1 & K)]; apply K; apply K in DA; apply K in DB; right.
  - assert (Q : forall y, In y s -> (forall n, in_time n -> flat_ends n -> len n <> 1 -> sn_time (first_node s) <= sn_time (first_node n) /\ sn_time (end_node n) <= sn_time (end_node s) -> snd (recorded_at n (sn_time y)) = 0%R) ->
      (len a <> 1 -> sn_time (first_node s) <= sn_time (first_node a) /\ sn_time (end_node a) <= sn_time (end_node s)) -> (len b <> 1 -> sn_time (first_node s) <= sn_time (first_node b) /\ sn_time (end_node b) <= sn_time (end_node s)) -> sn_der y = 0%R).
    { intros y Y Q HA HB. rewrite (M y Y). unfold sum_node. cbn [sn_der].
      assert (Q' : forall n, in_time n -> flat_ends n -> (len n <> 1 -> sn_time (first_node s) <= sn_time (first_node n) /\ sn_time (end_node n) <= sn_time (end_node s)) -> snd (recorded_at n (sn_time y)) = 0%R).
      { intros n IN FN HN. destruct (Z.eq_dec (len n) 1) as [L|L]; [|now apply Q; auto]. destruct n as [|u [|v r]]; [discriminate L|reflexivity|]. rewrite !len_cons in L. pose proof (len_nonneg r). lia. }
      rewrite (Q' a IA DA HA), (Q' b IB DB HB). lra. }
    split; (apply Q; [assumption| |exact UA|exact UB]; intros n IN FN LN [H1 H2]; apply der_outside; auto).
  - assert (Q : (len a <> 1 \/ len b <> 1)) by (destruct (UY _ F) as [[L _]|[L _]]; auto).
    assert (Lo : forall y, In y s -> t0 <= sn_time y <= t1).
    { intros y Y. destruct (UY y Y) as [(L & x & X & ->)|(L & x & X & ->)]; [destruct DA as [DA|[<- <-]]; [congruence|]; now apply (in_ends a IA)|destruct DB as [DB|[<- <-]]; [congruence|]; now apply (in_ends b IB)]. }
    pose proof (Lo _ F). pose proof (Lo _ N). destruct Q as [L|L]; [specialize (UA L); destruct DA as [DA|[E1 E2]]; [congruence|lia]|specialize (UB L); destruct DB as [DB|[E1 E2]]; [congruence|lia]].
Qed.

(** ** Scales that agree *)
Lemma played_node n a : in_time n -> In a n -> played n (IZR (sn_time a)) = sn_val a.
Proof.
  intros (NE & S & _) A. rewrite <- recorded_at_value by assumption. assert (Q : recorded_at n (sn_time a) = recorded n (sn_time a) \/ n = [a]).
  { destruct n as [|u [|v r]]; [congruence| |now left]. destruct A as [-> |[]]. now right. }
  destruct Q as [-> | ->]; [|reflexivity]. apply in_split in A. destruct A as (d & r & ->). now rewrite recorded_node by exact S.
Qed.
Lemma nodes_match_ok tol angle : forall n0 n1 n2, length n0 = length n1 -> length n0 = length n2 -> nodes_match tol angle n0 n1 n2 = true ->
  Forall2 (fun a b => sn_time a = sn_time b /\ (Rabs (sn_val a - sn_val b) < tol)%R) n0 n1 /\ Forall2 (fun a b => sn_time a = sn_time b /\ (Rabs (sn_val a - sn_val b) < tol)%R) n0 n2.
Proof.
  assert (EQ : forall a b, equal_nodes a b tol angle = true -> sn_time a = sn_time b /\ (Rabs (sn_val a - sn_val b) < tol)%R).
  { intros a b H. unfold equal_nodes in H. apply andb_prop in H. destruct H as [H _]. apply andb_prop in H. destruct H as [H1 H2]. split; [lia|]. now destruct (Rltb_spec (Rabs (sn_val a - sn_val b)) tol). }
  induction n0 as [|a n0 IH]; intros [|b n1] [|c n2] L1 L2 H; try discriminate L1; try discriminate L2; [split; constructor|].
  cbn [nodes_match] in H. apply andb_prop in H. destruct H as [H HM]. apply andb_prop in H. destruct H as [H _]. apply andb_prop in H. destruct H as [H1 H2]. injection L1 as L1. injection L2 as L2. destruct (IH n1 n2 L1 L2 HM). split; constructor; auto.
Qed.
Lemma sampled_close tol n m x : in_time n -> in_time m -> Forall2 (fun a b => sn_time a = sn_time b /\ (Rabs (sn_val a - sn_val b) < tol)%R) n m -> sampled x n -> (Rabs (played n x - played m x) < tol)%R.
Proof.
  intros IN IM F [(a & A & ->)|[H|H]].
  - rewrite played_node by assumption. apply in_split in A. destruct A as (d & r & ->). apply Forall2_app_inv_l in F. destruct F as (d' & r' & _ & F & ->). inversion F as [|? b ? r'' [T V] _]; subst. rewrite T. rewrite played_node; [exact V|exact IM|apply in_elt].
  - pose proof IN as (NE & S & _). pose proof IM as (NE' & S' & _). destruct n as [|a n]; [congruence|]. inversion F as [|? b ? m' [T V] _]; subst. cbn [first_node hd] in H. rewrite (played_early (a :: n)), (played_early (b :: m')); auto. cbn [first_node hd]. now rewrite <- T.
  - pose proof IN as (NE & S & _). pose proof IM as (NE' & S' & _). destruct (in_ends n IN) as (_ & _ & BN). destruct (in_ends m IM) as (_ & _ & BM).
    assert (Q : sn_time (end_node n) = sn_time (end_node m) /\ (Rabs (sn_val (end_node n) - sn_val (end_node m)) < tol)%R).
    { destruct n as [|a n _] using rev_ind; [congruence|]. apply Forall2_app_inv_l in F. destruct F as (d' & r' & _ & F & ->). inversion F as [|? b ? r'' Q F']; subst. inversion F'; subst. unfold end_node. now rewrite !last_last. }
    destruct Q as [T V]. rewrite (played_late n), (played_late m); auto; intros y Y; [specialize (BM y Y)|specialize (BN y Y)]; apply Rle_trans with (2 := H); apply IZR_le; lia.
Qed.

(** ** One channel among the others *)
Lemma erase_app {A} (P l : list A) i n : 0 <= i -> 0 <= n -> erase (P ++ l) (len P + i) n = P ++ erase l i n.
Proof.
  intros I N. unfold erase, len. pose proof (len_nonneg P). rewrite <- Z.add_assoc, !Z2Nat.inj_add, Nat2Z.id by lia. rewrite firstn_app_2, <- app_assoc. f_equal. f_equal.
  rewrite skipn_app, skipn_all2 by lia. cbn [app]. f_equal. lia.
Qed.
Lemma getz_app_at {A} (P l : list A) i : 0 <= i -> getz (P ++ l) (len P + i) = getz l i.
Proof. intros I. rewrite getz_app2 by lia. f_equal. lia. Qed.
Lemma skipn_past {A} (P l : list A) k : skipn (length P + k) (P ++ l) = skipn k l.
Proof. rewrite skipn_app, skipn_all2 by lia. cbn [app]. f_equal. lia. Qed.
Lemma setz_app_at {A} (P l : list A) i x : 0 <= i -> setz (P ++ l) (len P + i) x = (l' <- setz l i x ;; Some (P ++ l')).
Proof.
  intros I. unfold setz. rewrite len_app. pose proof (len_nonneg P). replace ((0 <=? len P + i) && (len P + i <? len P + len l)) with ((0 <=? i) && (i <? len l)) by lia. destruct ((0 <=? i) && (i <? len l)) eqn:E; [|reflexivity].
  unfold len. rewrite Z2Nat.inj_add, Nat2Z.id by lia. rewrite firstn_app_2, <- app_assoc, plus_n_Sm, skipn_past. reflexivity.
Qed.
Lemma getz_app_0 {A} (P l : list A) : getz (P ++ l) (len P) = getz l 0.
Proof. rewrite getz_app2 by lia. f_equal. lia. Qed.
Lemma setz_app_0 {A} (P l : list A) x : setz (P ++ l) (len P) x = (l' <- setz l 0 x ;; Some (P ++ l')).
Proof. rewrite <- setz_app_at by lia. f_equal. lia. Qed.
Lemma erase_app_0 {A} (P l : list A) n : 0 <= n -> erase (P ++ l) (len P) n = P ++ erase l 0 n.
Proof. intros N. rewrite <- erase_app by lia. f_equal. lia. Qed.
Lemma uniform_app t P l : uniform_scale_channels t (P ++ l) (len P) = uniform_scale_channels t l 0.
Proof. unfold uniform_scale_channels. rewrite getz_app_0, !getz_app_at by lia. reflexivity. Qed.
Lemma collapse_app P l : collapse_scale (P ++ l) (len P) = (l' <- collapse_scale l 0 ;; Some (P ++ l')).
Proof.
  unfold collapse_scale. rewrite getz_app_0. destruct (getz l 0) as [c0|]; [|reflexivity]. rewrite setz_app_0. destruct (setz l 0 _) as [l1|]; [|reflexivity]. now rewrite erase_app by lia.
Qed.
Lemma summable_app P l : summable_channel (P ++ l) (len P) = (s <- summable_channel l 0 ;; Some (if 0 <=? s then len P + s else s)).
Proof.
  unfold summable_channel. rewrite getz_app_0. destruct (getz l 0) as [c|]; [|reflexivity]. f_equal.
  replace (Z.to_nat (len P + 1)) with (length P + Z.to_nat (0 + 1))%nat by (unfold len; lia). rewrite skipn_past. generalize (ch_op c) (skipn (Z.to_nat (0 + 1)) l). intros op q.
  assert (G : forall q i, 0 <= i -> summable_loop op q (len P + i) = (if 0 <=? summable_loop op q i then len P + summable_loop op q i else summable_loop op q i)).
  { clear. induction q as [|y q IH]; intros i I; cbn [summable_loop]; [reflexivity|]. destruct (mtype_eqb (ch_op y) op); [destruct (Z.leb_spec 0 i); lia|]. destruct (rotate_kind op); [reflexivity|]. destruct (translate_kind op && negb (translate_kind (ch_op y))); [reflexivity|]. destruct (scale_kind op && negb (scale_kind (ch_op y))); [reflexivity|].
    rewrite <- Z.add_assoc. apply IH. lia. }
  apply (G q (0 + 1)). lia.
Qed.
Lemma sum_app P l s : 0 <= s -> sum_channels (P ++ l) (len P) (len P + s) = (l' <- sum_channels l 0 s ;; Some (P ++ l')).
Proof.
  intros H. unfold sum_channels. rewrite getz_app_0, getz_app_at by lia. destruct (getz l 0) as [ca|]; [|reflexivity]. destruct (getz l s) as [cb|]; [|reflexivity]. destruct (sum_nodes _ _); [|reflexivity]. now rewrite setz_app_0.
Qed.
Lemma prune_channel_app t nu P l : prune_channel t nu (P ++ l) (len P) = (l' <- prune_channel t nu l 0 ;; Some (P ++ l')).
Proof.
  unfold prune_channel. rewrite uniform_app, collapse_app.
  assert (G : forall l1, (s <- summable_channel (P ++ l1) (len P) ;; c2 <- (if 0 <=? s then l <- sum_channels (P ++ l1) (len P) s ;; Some (erase l s 1) else Some (P ++ l1)) ;; c <- getz c2 (len P) ;;
    match ch_nodes c with [x] => Some (if is_default t (ch_op c) (sn_val x) then erase c2 (len P) 1 else c2) | _ => Some c2 end) =
    (l' <- (s <- summable_channel l1 0 ;; c2 <- (if 0 <=? s then l <- sum_channels l1 0 s ;; Some (erase l s 1) else Some l1) ;; c <- getz c2 0 ;;
    match ch_nodes c with [x] => Some (if is_default t (ch_op c) (sn_val x) then erase c2 0 1 else c2) | _ => Some c2 end) ;; Some (P ++ l'))).
  { intros l1. rewrite summable_app. destruct (summable_channel l1 0) as [s|]; [|reflexivity]. pose proof (len_nonneg P).
    assert (F : forall l2, (c <- getz (P ++ l2) (len P) ;; match ch_nodes c with [x] => Some (if is_default t (ch_op c) (sn_val x) then erase (P ++ l2) (len P) 1 else P ++ l2) | _ => Some (P ++ l2) end) =
      (l' <- (c <- getz l2 0 ;; match ch_nodes c with [x] => Some (if is_default t (ch_op c) (sn_val x) then erase l2 0 1 else l2) | _ => Some l2 end) ;; Some (P ++ l'))).
    { intros l2. rewrite getz_app_0, erase_app_0 by lia. destruct (getz l2 0) as [c|]; [|reflexivity]. destruct (ch_nodes c) as [|x [|]]; [reflexivity| |reflexivity]. destruct (is_default _ _ _); reflexivity. }
    destruct (Z.leb_spec 0 s) as [S0|S0].
    - destruct (Z.leb_spec 0 (len P + s)); [|lia]. rewrite sum_app by exact S0. destruct (sum_channels l1 0 s) as [l2|]; [|reflexivity]. rewrite erase_app by lia. apply F.
    - destruct (Z.leb_spec 0 s); [lia|]. apply F. }
  destruct (negb nu && uniform_scale_channels t l 0).
  - destruct (collapse_scale l 0) as [l1|]; [|reflexivity]. apply G.
  - apply G.
Qed.

(** ** Poses *)
Definition mtype_dec (a b : mtype) : {a = b} + {a <> b}.
Proof. decide equality. Defined.
Definition axis_dec (k : mtype) : {axis_scale k} + {~ axis_scale k}.
Proof. destruct k; (left; unfold axis_scale; tauto) || (right; intros [|[]]; discriminate). Defined.
Definition basic (op : mtype) : Prop := rotates op \/ translates op \/ axis_scale op.
Lemma basic_geometric op : basic op -> geometric op.
Proof. unfold basic, geometric. tauto. Qed.
Definition pair_of (x : R) (c : channel) : mtype * R := (ch_op c, played (ch_nodes c) x).
Definition total_pose (l : list (mtype * R)) : mat4 := fold_right (fun p m => mmul (elem (fst p) (snd p)) m) identity4 l.
Definition ap (g : mtype -> R -> R) (p : mtype * R) : mtype * R := (fst p, g (fst p) (snd p)).
Lemma pose_total l : (forall p, In p l -> geometric (fst p)) -> pose l = Some (total_pose l).
Proof.
  induction l as [|[op v] l IH]; intros H; [reflexivity|]. cbn [pose total_pose fold_right fst snd]. rewrite (elem_some op v (H _ (or_introl eq_refl))), IH by (intros p P; apply H; now right). reflexivity.
Qed.
Lemma total_app a b : total_pose (a ++ b) = mmul (total_pose a) (total_pose b).
Proof. induction a as [|p a IH]; [now rewrite mmul_1_l|]. cbn [app total_pose fold_right]. fold (total_pose (a ++ b)) (total_pose a). now rewrite IH, mmul_assoc. Qed.
Lemma total_cons p l : total_pose (p :: l) = mmul (elem (fst p) (snd p)) (total_pose l).
Proof. reflexivity. Qed.
Lemma ap_same g h l : (forall p, In p l -> g (fst p) (snd p) = h (fst p) (snd p)) -> map (ap g) l = map (ap h) l.
Proof. intros H. apply map_ext_in. intros p P. unfold ap. now rewrite H. Qed.
Lemma ap_id g l : (forall p, In p l -> g (fst p) (snd p) = snd p) -> map (ap g) l = l.
Proof. intros H. rewrite (map_ext_in (ap g) (fun p => p)), map_id; [reflexivity|]. intros [op v] P. unfold ap. now rewrite (H _ P). Qed.

(** ** The channels that are left *)
Record shape (D : list snode -> Prop) (O Q : list channel) : Prop := {
  s_ops : forall c, In c Q -> geometric (ch_op c);
  s_time : forall c, In c Q -> in_time (ch_nodes c);
  s_axis : forall c, In c Q -> axis_scale (ch_op c) -> In c O;
  s_once : ForallOrdPairs (fun c d => axis_scale (ch_op c) -> ch_op c <> ch_op d) Q;
  s_unif : forall u, In u Q -> ch_op u = ScaleUniformly -> forall k, axis_scale k -> exists c, In c O /\ ch_op c = k;
  s_curves : forall c, In c Q -> D (ch_nodes c);
  s_order : ForallOrdPairs in_order Q;
  s_cross : forall p, basic (ch_op p) -> (forall c, In c O -> in_order p c) -> (axis_scale (ch_op p) -> forall c, In c O -> ch_op p <> ch_op c) -> forall d, In d Q -> in_order p d
}.
Lemma pairs_remove {A} (P : A -> A -> Prop) d Q2 : forall Q1, ForallOrdPairs P (Q1 ++ d :: Q2) -> ForallOrdPairs P (Q1 ++ Q2).
Proof.
  induction Q1 as [|a Q1 IH]; cbn [app]; intros H; inversion H as [|? ? F H']; subst; [exact H'|]. constructor; [|now apply IH]. rewrite Forall_forall in *. intros y Y. apply F. apply in_app_or in Y. apply in_or_app. destruct Y; [now left|right; now right].
Qed.
Lemma pairs_mid {A} (P : A -> A -> Prop) c Q2 : forall Q1, ForallOrdPairs P (Q1 ++ c :: Q2) -> (forall a, In a Q1 -> P a c) /\ (forall d, In d Q2 -> P c d) /\ ForallOrdPairs P Q2.
Proof.
  induction Q1 as [|a Q1 IH]; cbn [app]; intros H; inversion H as [|? ? F H']; subst; rewrite Forall_forall in F.
  - split; [intros a []|]. split; assumption.
  - destruct (IH H') as (H1 & H2 & H3). split; [|split; assumption]. intros b [<-|B]; [apply F, in_elt|now apply H1].
Qed.
Lemma shape_nil D : shape D [] [].
Proof. constructor; try (intros c []); try constructor; intros; contradiction. Qed.
Lemma shape_tail D O q Q : shape D O (q :: Q) -> shape D O Q.
Proof.
  intros [H1 H2 H3 H4 H5 H6 H7 H8]. constructor; try (intros c C; intros; (apply (H1 c) || apply (H2 c) || apply (H3 c) || apply (H6 c)); try assumption; now right).
  - now inversion H4.
  - intros u U. apply H5. now right.
  - now inversion H7.
  - intros p B C F d Dd. apply H8; auto. now right.
Qed.
Lemma shape_cons D O Q c : shape D O Q -> basic (ch_op c) -> in_time (ch_nodes c) -> D (ch_nodes c) -> (forall o, In o O -> in_order c o) -> (axis_scale (ch_op c) -> forall o, In o O -> ch_op c <> ch_op o) -> shape D (c :: O) (c :: Q).
Proof.
  intros [H1 H2 H3 H4 H5 H6 H7 H8] B T DC OR ON. constructor.
  - intros d [<-|E]; [now apply basic_geometric|now apply H1].
  - intros d [<-|E]; [assumption|now apply H2].
  - intros d [<-|E] A; [now left|right; now apply H3].
  - constructor; [|exact H4]. apply Forall_forall. intros d E A K. apply (ON A d); [|exact K]. apply H3; [exact E|]. now rewrite <- K.
  - intros u [<-|U] E k K; [exfalso; rewrite E in B; destruct B as [[|[|]]|[[|[|]]|[|[|]]]]; discriminate|]. destruct (H5 u U E k K) as (o & O1 & O2). exists o. split; [now right|assumption].
  - intros d [<-|E]; [assumption|now apply H6].
  - constructor; [|exact H7]. apply Forall_forall. intros d E. apply H8; auto.
  - intros p BP C F d [<-|E]; [apply C; now left|]. apply H8; auto; [intros o Oo; apply C; now right|intros A o Oo; apply F; [assumption|now right]].
Qed.
(** An original channel that is left out. *)
Lemma shape_skip D O Q c : shape D O Q -> shape D (c :: O) Q.
Proof.
  intros [H1 H2 H3 H4 H5 H6 H7 H8]. constructor; try assumption.
  - intros d E A. right. now apply H3.
  - intros u U E k K. destruct (H5 u U E k K) as (o & O1 & O2). exists o. split; [now right|assumption].
  - intros p BP C F d E. apply H8; auto; [intros o Oo; apply C; now right|intros A o Oo; apply F; [assumption|now right]].
Qed.
Lemma shape_sum D O Q1 Q2 c d s : shape D O (c :: Q1 ++ d :: Q2) -> rotates (ch_op c) \/ translates (ch_op c) -> in_time s -> D s -> shape D O (Channel (ch_op c) (ch_id c) s :: Q1 ++ Q2).
Proof.
  intros [H1 H2 H3 H4 H5 H6 H7 H8] B T DS. assert (SUB' : forall y, In y (Q1 ++ Q2) -> In y (Q1 ++ d :: Q2)) by (intros y Y; apply in_app_or in Y; apply in_or_app; destruct Y; [now left|right; now right]). assert (SUB : forall y, In y (Q1 ++ Q2) -> In y (c :: Q1 ++ d :: Q2)) by (intros y Y; right; now apply SUB').
  assert (NA : ~ axis_scale (ch_op c)) by (intros A; destruct B as [[B|[B|B]]|[B|[B|B]]]; rewrite B in A; destruct A as [|[|]]; discriminate).
  constructor.
  - intros y [<-|Y]; [apply (H1 c); now left|apply H1; auto].
  - intros y [<-|Y]; [assumption|apply H2; auto].
  - intros y [<-|Y] A; [contradiction|apply H3; auto].
  - constructor; [apply Forall_forall; intros y _ A; contradiction|]. inversion H4; subst. now apply pairs_remove with d.
  - intros u [<-|U] E; [apply (H5 c); [now left|exact E]|apply (H5 u); [now apply SUB|exact E]].
  - intros y [<-|Y]; [assumption|apply H6; auto].
  - inversion H7 as [|? ? F H7']; subst. constructor; [|now apply pairs_remove with d]. rewrite Forall_forall in *. intros y Y. exact (F y (SUB' y Y)).
  - intros p BP C F y [<-|Y]; [exact (H8 p BP C F c (or_introl eq_refl))|apply H8; auto].
Qed.
Lemma axis_all a b c k : scale_xyz a b c = true -> axis_scale k -> k = a \/ k = b \/ k = c.
Proof. intros H. now apply scale_xyz_axes. Qed.
Lemma shape_collapse D O Q c0 c1 c2 : shape D (c0 :: O) (c0 :: c1 :: c2 :: Q) -> scale_xyz (ch_op c0) (ch_op c1) (ch_op c2) = true -> 0 <= ch_id c0 <= 252 ->
  shape D (c0 :: O) (Channel ScaleUniformly ((ch_id c0 + to_uniform (ch_op c0)) mod 256) (ch_nodes c0) :: Q) /\ forall d, In d Q -> ~ axis_scale (ch_op d).
Proof.
  intros SH XYZ ID. pose proof (shape_tail _ _ _ _ (shape_tail _ _ _ _ (shape_tail _ _ _ _ SH))) as [T1 T2 T3 T4 T5 T6 T7 T8]. destruct SH as [H1 H2 H3 H4 H5 H6 H7 H8]. destruct (scale_xyz_axes _ _ _ XYZ) as (A0 & A1 & A2 & ALL).
  assert (NOA : forall d, In d Q -> ~ axis_scale (ch_op d)).
  { intros d Dd A. inversion H4 as [|? ? F0 H4']; subst. inversion H4' as [|? ? F1 H4'']; subst. inversion H4'' as [|? ? F2 _]; subst. rewrite Forall_forall in F0, F1, F2.
    destruct (ALL _ A) as [E|[E|E]]; [apply (F0 d)|apply (F1 d)|apply (F2 d)]; auto; right; [now right|exact Dd]. }
  split; [|exact NOA]. set (u := Channel _ _ _). assert (IDU : ch_id u = ch_id c0 + to_uniform (ch_op c0) /\ 1 <= to_uniform (ch_op c0)).
  { unfold u. cbn [ch_id]. destruct A0 as [E|[E|E]]; rewrite E; cbn [to_uniform]; rewrite Z.mod_small by lia; lia. }
  constructor.
  - intros d [<-|Dd]; [right; right; right; reflexivity|now apply T1].
  - intros d [<-|Dd]; [apply (H2 c0); now left|now apply T2].
  - intros d [<-|Dd] A; [destruct A as [|[|]]; discriminate|now apply T3].
  - constructor; [|exact T4]. apply Forall_forall. intros d _ A. destruct A as [|[|]]; discriminate.
  - intros v _ _ k K. destruct (ALL k K) as [-> |[-> | ->]]; [exists c0|exists c1|exists c2]; (split; [apply H3; [cbn; tauto|assumption]|reflexivity]).
  - intros d [<-|Dd]; [apply (H6 c0); now left|now apply T6].
  - constructor; [|exact T7]. apply Forall_forall. intros d Dd. inversion H7 as [|? ? F0 _]; subst. rewrite Forall_forall in F0. specialize (F0 d ltac:(right; now right)).
    destruct F0 as [[F0 _]|[[_ F0]|(F1 & F2 & F3 & F4)]]; [exfalso; destruct A0 as [E|[E|E]]; rewrite E in F0; destruct F0 as [|[|]]; discriminate|destruct (NOA d Dd F0)|].
    right. right. split; [|split; [|split]; intros X; discriminate X]. destruct IDU as [-> _]. destruct A0 as [E|[E|E]]; rewrite E; cbn [to_uniform]; [apply F2|apply F3|apply F4]; exact E.
  - intros p BP C F d [<-|Dd]; [|now apply T8]. pose proof (C c0 (or_introl eq_refl)) as P0. assert (NP : ~ axis_scale (ch_op p)).
    { intros A. destruct (ALL _ A) as [E|[E|E]]; [apply (F A c0)|apply (F A c1)|apply (F A c2)]; auto; (apply H3; [cbn; tauto|assumption]). }
    destruct P0 as [[_ P0]|[[P0 _]|(P1 & _)]]; [exfalso; destruct A0 as [E|[E|E]]; rewrite E in P0; destruct P0 as [|[|]]; discriminate|contradiction|].
    right. right. split; [lia|]. split; [|split]; intros X; destruct NP; unfold axis_scale; tauto.
Qed.

(** ** The pose that is left *)
Definition positive (t : tolerances) : Prop := (0 < tl_scale t /\ 0 < tl_rotate t /\ 0 < tl_translate t)%R.
Definition poses (t : tolerances) (x : R) (O Q : list channel) (L : list (mtype * R)) : Prop :=
  Forall2 (fun c p => fst p = ch_op c /\ near_played t x c (snd p)) O L /\
  forall g, (forall k v, ~ axis_scale k \/ (forall c, In c Q -> ch_op c <> k) -> g k v = v) -> total_pose (map (ap g) L) = total_pose (map (ap g) (map (pair_of x) Q)).
Lemma poses_op t x O Q L p : poses t x O Q L -> In p L -> exists c, In c O /\ ch_op c = fst p.
Proof. intros [F _] P. clear Q. induction F as [|c q O L [E _] F IH]; [destruct P|]. destruct P as [<-|P]; [exists c; split; [now left|now symmetry]|]. destruct (IH P) as (d & D1 & D2). exists d. split; [now right|assumption]. Qed.
Lemma near_self t x c : positive t -> near_played t x c (played (ch_nodes c) x).
Proof. intros (P1 & P2 & P3). unfold near_played. rewrite Rminus_eq_0, Rabs_R0. destruct (ch_op c); lra. Qed.
(** Keeping to [g] on the operations of some channels. *)
Definition keep (Q : list channel) (g : mtype -> R -> R) (k : mtype) (v : R) : R := if existsb (fun c => if mtype_dec (ch_op c) k then true else false) Q then g k v else v.
Lemma keep_in Q g c v : In c Q -> keep Q g (ch_op c) v = g (ch_op c) v.
Proof. intros C. unfold keep. replace (existsb _ Q) with true; [reflexivity|]. symmetry. apply existsb_exists. exists c. split; [exact C|]. now destruct (mtype_dec _ _). Qed.
Lemma keep_out Q g k v : (forall c, In c Q -> ch_op c <> k) -> keep Q g k v = v.
Proof. intros H. unfold keep. replace (existsb _ Q) with false; [reflexivity|]. symmetry. apply Bool.not_true_is_false. intros E. apply existsb_exists in E. destruct E as (c & C & E). destruct (mtype_dec (ch_op c) k) as [K|]; [exact (H c C K)|discriminate]. Qed.
(** The condition on [g] can be met on the smaller list, if the operation of the extra channel is its own. *)
Lemma poses_smaller t x O Q L c : poses t x O Q L -> (axis_scale (ch_op c) -> forall o, In o O -> ch_op c <> ch_op o) -> forall g, (forall k v, ~ axis_scale k \/ (forall d, In d (c :: Q) -> ch_op d <> k) -> g k v = v) ->
  total_pose (map (ap g) L) = total_pose (map (ap g) (map (pair_of x) Q)).
Proof.
  intros P ON g G. pose proof P as [_ PP]. specialize (PP (keep Q g)).
  assert (C : forall k v, ~ axis_scale k \/ (forall d, In d Q -> ch_op d <> k) -> keep Q g k v = v).
  { intros k v [A|H]; [|now apply keep_out]. unfold keep. destruct (existsb _ Q); [apply G; now left|reflexivity]. }
  specialize (PP C). rewrite (ap_same (keep Q g) g (map (pair_of x) Q)) in PP by (intros p Pp; apply in_map_iff in Pp; destruct Pp as (d & <- & Dd); exact (keep_in Q g d _ Dd)).
  rewrite (ap_same (keep Q g) g L) in PP; [exact PP|]. intros p Pp. destruct (poses_op _ _ _ _ _ _ P Pp) as (o & O1 & O2). unfold keep. destruct (existsb _ Q) eqn:E; [reflexivity|]. symmetry. apply G.
  destruct (axis_dec (fst p)) as [A|A]; [|now left]. right. intros d [<-|Dd] K; [rewrite <- K in A; apply (ON A o O1); now rewrite O2|].
  enough (true = false) by discriminate. rewrite <- E. symmetry. apply existsb_exists. exists d. split; [exact Dd|]. now destruct (mtype_dec _ _).
Qed.
Lemma poses_cons t x O Q L c : positive t -> poses t x O Q L -> (axis_scale (ch_op c) -> forall o, In o O -> ch_op c <> ch_op o) -> poses t x (c :: O) (c :: Q) (pair_of x c :: L).
Proof.
  intros T P ON. split; [constructor; [split; [reflexivity|apply near_self, T]|apply P]|]. intros g G. cbn [map]. rewrite !total_cons. f_equal. now apply (poses_smaller t x O Q L c).
Qed.
(** A scale left out. *)
Lemma poses_scale t x O Q L c : poses t x O Q L -> axis_scale (ch_op c) -> (forall o, In o O -> ch_op c <> ch_op o) -> (forall d, In d Q -> ch_op d <> ch_op c) -> (Rabs (played (ch_nodes c) x - 1) < tl_scale t)%R ->
  poses t x (c :: O) Q ((ch_op c, 1%R) :: L).
Proof.
  intros P A ON OQ N. split.
  - constructor; [|apply P]. split; [reflexivity|]. cbn [snd]. unfold near_played. rewrite Rabs_minus_sym. pose proof (Rabs_pos (played (ch_nodes c) x - 1)). destruct A as [E|[E|E]]; rewrite E; lra.
  - intros g G. cbn [map]. rewrite total_cons. unfold ap at 1 2. cbn [fst snd]. rewrite (G (ch_op c)) by (right; exact OQ). replace (elem (ch_op c) 1) with identity4; [rewrite mmul_1_l; now apply P|].
    symmetry. assert (Q1 : default_op_value (ch_op c) = 1%R) by (destruct A as [E|[E|E]]; rewrite E; reflexivity). rewrite <- Q1. apply elem_default. right. right. now left.
Qed.
(** A rotation or translation left out. *)
Lemma poses_drop t x O Q L c v w : poses t x (c :: O) (Channel (ch_op c) v w :: Q) (pair_of x c :: L) -> rotates (ch_op c) \/ translates (ch_op c) -> near_played t x c (played (ch_nodes c) x - played w x) ->
  poses t x (c :: O) Q ((ch_op c, (played (ch_nodes c) x - played w x)%R) :: L).
Proof.
  intros [F P] B N. split; [inversion F; subst; constructor; [split; [reflexivity|exact N]|assumption]|]. assert (NA : ~ axis_scale (ch_op c)) by (intros A; destruct B as [[B|[B|B]]|[B|[B|B]]]; rewrite B in A; destruct A as [|[|]]; discriminate).
  intros g G. assert (G' : forall k u, ~ axis_scale k \/ (forall d, In d (Channel (ch_op c) v w :: Q) -> ch_op d <> k) -> g k u = u).
  { intros k u [K|K]; apply G; [now left|]. right. intros d Dd. apply K. now right. }
  specialize (P g G'). cbn [map] in P. change (map (ap g) ((ch_op c, (played (ch_nodes c) x - played w x)%R) :: L)) with (ap g (ch_op c, (played (ch_nodes c) x - played w x)%R) :: map (ap g) L). rewrite !total_cons in P. rewrite total_cons.
  change (fst (ap g (ch_op c, (played (ch_nodes c) x - played w x)%R))) with (ch_op c). change (fst (ap g (pair_of x c))) with (ch_op c) in P. change (fst (ap g (pair_of x (Channel (ch_op c) v w)))) with (ch_op c) in P.
  assert (E : forall u, snd (ap g (ch_op c, u)) = u) by (intros u; apply (G (ch_op c)); now left). change (pair_of x c) with (ch_op c, played (ch_nodes c) x) in P. change (pair_of x (Channel (ch_op c) v w)) with (ch_op c, played w x) in P. rewrite !E in *.
  assert (Q1 : elem (ch_op c) (played (ch_nodes c) x - played w x) = mmul (elem (ch_op c) (- played w x)) (elem (ch_op c) (played (ch_nodes c) x))) by (rewrite elem_add by exact B; f_equal; lra).
  rewrite Q1, mmul_assoc, P, <- mmul_assoc, elem_add by exact B. replace (- played w x + played w x)%R with (default_op_value (ch_op c)); [|destruct B as [[B|[B|B]]|[B|[B|B]]]; rewrite B; cbn [default_op_value scale_kind]; lra].
  rewrite elem_default, mmul_1_l; [reflexivity|]. unfold geometric. tauto.
Qed.
Lemma comm_all op v l : translates op -> (forall p, In p l -> translates (fst p)) -> mmul (elem op v) (total_pose l) = mmul (total_pose l) (elem op v).
Proof.
  intros T. induction l as [|p l IH]; intros H; [cbn; now rewrite mmul_1_l, mmul_1_r|]. rewrite total_cons, <- mmul_assoc, (elem_comm op (fst p)) by (left; split; [exact T|apply H; now left]). rewrite mmul_assoc, IH by (intros q Q; apply H; now right). now rewrite mmul_assoc.
Qed.
Lemma poses_sum t x O Q1 Q2 L c d s : poses t x O (c :: Q1 ++ d :: Q2) L -> ch_op d = ch_op c -> (rotates (ch_op c) /\ Q1 = []) \/ (translates (ch_op c) /\ forall y, In y Q1 -> translates (ch_op y)) ->
  played s x = (played (ch_nodes c) x + played (ch_nodes d) x)%R -> poses t x O (Channel (ch_op c) (ch_id c) s :: Q1 ++ Q2) L.
Proof.
  intros [F P] DC B S. split; [exact F|]. assert (RT : rotates (ch_op c) \/ translates (ch_op c)) by tauto. assert (NA : ~ axis_scale (ch_op c)) by (intros A; destruct RT as [[K|[K|K]]|[K|[K|K]]]; rewrite K in A; destruct A as [|[|]]; discriminate).
  intros g G. rewrite (P g). 2: { intros k v [K|K]; apply G; [now left|]. right. intros y [<-|Y]; [apply (K c); now left|]. apply K. right. apply in_app_or in Y. apply in_or_app. destruct Y; [now left|right; now right]. }
  assert (E : forall u, ap g (ch_op c, u) = (ch_op c, u)) by (intros u; unfold ap; cbn [fst snd]; rewrite (G (ch_op c)) by (now left); reflexivity).
  cbn [map]. rewrite !map_app. cbn [map]. change (pair_of x c) with (ch_op c, played (ch_nodes c) x). change (pair_of x d) with (ch_op d, played (ch_nodes d) x). change (pair_of x (Channel (ch_op c) (ch_id c) s)) with (ch_op c, played s x). rewrite DC. rewrite !E, !total_cons, !total_app, total_cons. cbn [fst snd]. rewrite S, <- elem_add by exact RT. rewrite mmul_assoc. f_equal. rewrite <- mmul_assoc.
  rewrite <- (mmul_assoc (elem _ _)). f_equal. destruct B as [[_ ->]|[T H]]; [cbn; now rewrite mmul_1_l, mmul_1_r|]. symmetry. apply comm_all; [exact T|]. intros p Pp. rewrite map_map in Pp. apply in_map_iff in Pp. destruct Pp as (y & <- & Y). now apply H.
Qed.
Lemma pairs_unique (l : list channel) : ForallOrdPairs (fun c d => axis_scale (ch_op c) -> ch_op c <> ch_op d) l -> forall o o', In o l -> In o' l -> axis_scale (ch_op o) -> ch_op o = ch_op o' -> o = o'.
Proof.
  induction 1 as [|a l F H IH]; intros o o' I I' A E; [destruct I|]. rewrite Forall_forall in F. destruct I as [<-|I], I' as [<-|I']; [reflexivity|destruct (F o' I' A E)|destruct (F o I); [now rewrite <- E|now symmetry]|now apply IH].
Qed.
Definition all_axes (w : R) (k : mtype) (v : R) : R := if axis_dec k then w else v.
Lemma poses_collapse t x O Q L c0 c1 c2 w : poses t x O (c0 :: c1 :: c2 :: Q) L -> (forall o o', In o O -> In o' O -> axis_scale (ch_op o) -> ch_op o = ch_op o' -> o = o') -> In c0 O -> In c1 O -> In c2 O ->
  scale_xyz (ch_op c0) (ch_op c1) (ch_op c2) = true -> (forall d, In d Q -> ~ axis_scale (ch_op d)) ->
  (Rabs (w - played (ch_nodes c0) x) < tl_scale t)%R -> (Rabs (played (ch_nodes c0) x - played (ch_nodes c1) x) < tl_scale t)%R -> (Rabs (played (ch_nodes c0) x - played (ch_nodes c2) x) < tl_scale t)%R ->
  Forall2 (fun c p => fst p = ch_op c /\ near_played t x c (snd p)) O (map (ap (all_axes w)) L) /\
  total_pose (map (ap (all_axes w)) L) = mmul (elem ScaleUniformly w) (total_pose (map (pair_of x) Q)).
Proof.
  intros [F P] UN I0 I1 I2 XYZ NOA W0 W1 W2. destruct (scale_xyz_axes _ _ _ XYZ) as (A0 & A1 & A2 & ALL). split.
  - assert (NEAR : forall o, In o O -> axis_scale (ch_op o) -> near_played t x o w).
    { intros o Oo A. assert (K : (Rabs (w - played (ch_nodes o) x) < 2 * tl_scale t)%R).
      { destruct (ALL _ A) as [E|[E|E]]; [rewrite (UN o c0 Oo I0 A E)|rewrite (UN o c1 Oo I1 A E)|rewrite (UN o c2 Oo I2 A E)]; unfold Rabs in *; repeat destruct (Rcase_abs _); lra. }
      unfold near_played. destruct A as [E|[E|E]]; rewrite E; exact K. }
    clear P I0 I1 I2 UN. revert NEAR. induction F as [|o p O L [E N] F IH]; intros NEAR; [constructor|]. cbn [map]. constructor; [|apply IH; intros o' Oo; apply NEAR; now right]. split; [exact E|].
    unfold ap, all_axes. cbn [snd]. rewrite E. destruct (axis_dec (ch_op o)) as [A|A]; [apply NEAR; [now left|exact A]|exact N].
  - rewrite P. 2: { intros k v [K|K]; unfold all_axes; (destruct (axis_dec k) as [A|A]; [|reflexivity]); [contradiction|]. exfalso. destruct (ALL k A) as [-> |[-> | ->]]; [apply (K c0)|apply (K c1)|apply (K c2)]; cbn; tauto. }
    cbn [map]. rewrite !total_cons. cbn [ap pair_of fst snd]. unfold all_axes at 1 2 3. destruct (axis_dec (ch_op c0)) as [_|]; [|contradiction]. destruct (axis_dec (ch_op c1)) as [_|]; [|contradiction]. destruct (axis_dec (ch_op c2)) as [_|]; [|contradiction].
    rewrite <- (elem_uniform _ _ _ w XYZ), !mmul_assoc. do 3 f_equal. f_equal. apply ap_id. intros p Pp. apply in_map_iff in Pp. destruct Pp as (d & <- & Dd). cbn [pair_of fst snd]. unfold all_axes. destruct (axis_dec (ch_op d)) as [A|]; [destruct (NOA d Dd A)|reflexivity].
Qed.

(** ** One step *)
Lemma summable_none op : forall l i, (forall y, In y l -> ch_op y <> op) -> summable_loop op l i = -1.
Proof.
  induction l as [|y l IH]; intros i H; cbn [summable_loop]; [reflexivity|]. assert (E : mtype_eqb (ch_op y) op = false). { pose proof (H y (or_introl eq_refl)). destruct (ch_op y), op; try reflexivity; congruence. }
  rewrite E. destruct (rotate_kind op); [reflexivity|]. destruct (translate_kind op && _); [reflexivity|]. destruct (scale_kind op && _); [reflexivity|]. apply IH. intros z Z. apply H. now right.
Qed.
Lemma summable_some op : forall l i, 0 <= i -> rotates op \/ translates op -> summable_loop op l i = -1 \/
  exists l1 d l2, l = l1 ++ d :: l2 /\ summable_loop op l i = i + len l1 /\ ch_op d = op /\ ((rotates op /\ l1 = []) \/ (translates op /\ forall y, In y l1 -> translates (ch_op y))).
Proof.
  induction l as [|y l IH]; intros i I B; cbn [summable_loop]; [now left|]. destruct (mtype_eqb (ch_op y) op) eqn:E.
  - right. exists [], y, l. split; [reflexivity|]. split; [change (len (@nil channel)) with 0; lia|]. split; [destruct (ch_op y), op; try discriminate; reflexivity|]. destruct B as [B|B]; [left|right]; (split; [exact B|]); [reflexivity|intros z []].
  - destruct B as [B|B]; [left; destruct B as [-> |[-> | ->]]; reflexivity|]. assert (K : rotate_kind op = false /\ translate_kind op = true /\ scale_kind op = false) by (destruct B as [-> |[-> | ->]]; repeat split). destruct K as (-> & -> & ->). cbn [andb].
    destruct (translate_kind (ch_op y)) eqn:TY; [|now left]. cbn [negb]. destruct (IH (i + 1) ltac:(lia) (or_intror B)) as [H|(l1 & d & l2 & -> & H & DD & C)]; [now left|]. right. exists (y :: l1), d, l2. split; [reflexivity|]. rewrite H, len_cons. split; [lia|]. split; [exact DD|].
    right. split; [exact B|]. assert (TY' : translates (ch_op y)) by (unfold translates; destruct (ch_op y); try discriminate TY; tauto). intros z [<-|Z]; [exact TY'|]. destruct C as [[_ ->]|[_ C]]; [destruct Z|now apply C].
Qed.
Definition left_out (t : tolerances) (c : channel) : bool := match ch_nodes c with [x] => is_default t (ch_op c) (sn_val x) | _ => false end.
Lemma last_part t s Q : (c <- getz (s :: Q) 0 ;; match ch_nodes c with [x] => Some (if is_default t (ch_op c) (sn_val x) then erase (s :: Q) 0 1 else s :: Q) | _ => Some (s :: Q) end) = Some (if left_out t s then Q else s :: Q).
Proof. cbn [getz Z.ltb Z.to_nat nth_error Z.compare]. unfold left_out. destruct (ch_nodes s) as [|y [|]]; reflexivity. Qed.
Lemma left_out_ok t x c : left_out t c = true -> (Rabs (played (ch_nodes c) x - default_op_value (ch_op c)) < tolerance_for_op t (ch_op c))%R.
Proof. unfold left_out. destruct (ch_nodes c) as [|y [|]]; try discriminate. unfold is_default. intros H. cbn [played]. now destruct (Rltb_spec (Rabs (sn_val y - default_op_value (ch_op c))) (tolerance_for_op t (ch_op c))). Qed.
Lemma erase_mid {A} (c : A) Q1 d Q2 : erase (c :: Q1 ++ d :: Q2) (1 + len Q1) 1 = c :: Q1 ++ Q2.
Proof.
  unfold erase. pose proof (len_nonneg Q1). replace (Z.to_nat (1 + len Q1)) with (S (length Q1)) by (unfold len; lia). replace (Z.to_nat (1 + len Q1 + 1)) with (S (length Q1 + 1)) by (unfold len; lia).
  cbn [firstn skipn]. rewrite <- (Nat.add_0_r (length Q1)) at 1. rewrite firstn_app_2, skipn_past. cbn [firstn skipn app]. now rewrite app_nil_r.
Qed.

Lemma prune_alone t nu l c Q : (if negb nu && uniform_scale_channels t l 0 then collapse_scale l 0 else Some l) = Some (c :: Q) -> summable_loop (ch_op c) Q 1 = -1 -> prune_channel t nu l 0 = Some (if left_out t c then Q else c :: Q).
Proof.
  intros E S. unfold prune_channel. rewrite E. unfold summable_channel. change (getz (c :: Q) 0) with (Some c). change (skipn (Z.to_nat (0 + 1)) (c :: Q)) with Q. cbv beta iota. change (0 + 1) with 1. rewrite S. apply last_part.
Qed.
Lemma prune_sum t nu l c Q1 d Q2 s : (if negb nu && uniform_scale_channels t l 0 then collapse_scale l 0 else Some l) = Some (c :: Q1 ++ d :: Q2) -> summable_loop (ch_op c) (Q1 ++ d :: Q2) 1 = 1 + len Q1 -> sum_nodes (ch_nodes c) (ch_nodes d) = Some s ->
  prune_channel t nu l 0 = Some (if left_out t (Channel (ch_op c) (ch_id c) s) then Q1 ++ Q2 else Channel (ch_op c) (ch_id c) s :: Q1 ++ Q2).
Proof.
  intros E S N. unfold prune_channel. rewrite E. unfold summable_channel. change (getz (c :: Q1 ++ d :: Q2) 0) with (Some c). change (skipn (Z.to_nat (0 + 1)) (c :: Q1 ++ d :: Q2)) with (Q1 ++ d :: Q2). cbv beta iota. change (0 + 1) with 1. rewrite S. pose proof (len_nonneg Q1). destruct (Z.leb_spec 0 (1 + len Q1)) as [_|]; [|lia].
  unfold sum_channels. change (getz (c :: Q1 ++ d :: Q2) 0) with (Some c). cbv beta iota. assert (GD : getz (c :: Q1 ++ d :: Q2) (1 + len Q1) = Some d) by (apply (getz_app (c :: Q1) d Q2); rewrite len_cons; lia). rewrite GD, N.
  rewrite (setz_app [] c (Q1 ++ d :: Q2) 0 _ eq_refl). cbn [app]. rewrite erase_mid. apply last_part.
Qed.

Section Step.
Context (t : tolerances) (nu : bool) (x : R) (D : list snode -> Prop) (T : positive t) (K : kind D).
Context (O Q : list channel) (L : list (mtype * R)) (c : channel).
Context (SH : shape D O Q) (PO : poses t x O Q L) (BC : basic (ch_op c)) (IC : in_time (ch_nodes c)) (DC : D (ch_nodes c)) (OC : forall o, In o O -> in_order c o)
  (ONC : ForallOrdPairs (fun c d => axis_scale (ch_op c) -> ch_op c <> ch_op d) (c :: O)) (IDC : 0 <= ch_id c <= 252) (SC : nu = true \/ (axis_scale (ch_op c) -> sampled x (ch_nodes c))).
Let step_result := exists Q' L', prune_channel t nu (c :: Q) 0 = Some Q' /\ shape D (c :: O) Q' /\ poses t x (c :: O) Q' L'.
Let fresh : axis_scale (ch_op c) -> forall o, In o O -> ch_op c <> ch_op o.
Proof. intros A o Oo. inversion ONC as [|? ? F _]; subst. rewrite Forall_forall in F. now apply F. Qed.
Let SH0 : shape D (c :: O) (c :: Q) := shape_cons D O Q c SH BC IC DC OC fresh.
Let P0 : poses t x (c :: O) (c :: Q) (pair_of x c :: L) := poses_cons t x O Q L c T PO fresh.

Lemma step_axis : axis_scale (ch_op c) -> step_result.
Proof.
  intros A. unfold step_result. assert (NQ : forall d, In d Q -> ch_op d <> ch_op c).
  { intros d Dd E. apply (fresh A d); [|now symmetry]. apply (s_axis _ _ _ SH); [exact Dd|now rewrite E]. }
  assert (TOL : tolerance_for_op t (ch_op c) = tl_scale t /\ default_op_value (ch_op c) = 1%R) by (destruct A as [E|[E|E]]; rewrite E; split; reflexivity). destruct TOL as [TOL DEF].
  destruct (negb nu && uniform_scale_channels t (c :: Q) 0) eqn:U.
  - pose proof U as UU. apply andb_prop in U. destruct U as [NU U]. destruct SC as [E|SC0]; [rewrite E in NU; discriminate|]. specialize (SC0 A). unfold uniform_scale_channels in U. destruct Q as [|c1 [|c2 Q2]]; try discriminate U.
    change (getz (c :: c1 :: c2 :: Q2) 0) with (Some c) in U. change (getz (c :: c1 :: c2 :: Q2) (0 + 1)) with (Some c1) in U. change (getz (c :: c1 :: c2 :: Q2) (0 + 2)) with (Some c2) in U. cbv beta iota in U.
    apply andb_prop in U. destruct U as [U MA]. apply andb_prop in U. destruct U as [U L2]. apply andb_prop in U. destruct U as [XYZ L1]. destruct (scale_xyz_axes _ _ _ XYZ) as (_ & A1 & A2 & _).
    destruct (nodes_match_ok (tl_scale t) (tl_angle t) (ch_nodes c) (ch_nodes c1) (ch_nodes c2) ltac:(unfold len in L1; lia) ltac:(unfold len in L2; lia) MA) as [F1 F2].
    pose proof (sampled_close _ _ _ x IC (s_time _ _ _ SH c1 (or_introl eq_refl)) F1 SC0) as W1. pose proof (sampled_close _ _ _ x IC (s_time _ _ _ SH c2 (or_intror (or_introl eq_refl))) F2 SC0) as W2.
    destruct (shape_collapse D O Q2 c c1 c2 SH0 XYZ IDC) as [SHU NOA]. set (u := Channel ScaleUniformly ((ch_id c + to_uniform (ch_op c)) mod 256) (ch_nodes c)) in *.
    assert (PR : prune_channel t nu (c :: c1 :: c2 :: Q2) 0 = Some (if left_out t u then Q2 else u :: Q2)).
    { apply prune_alone; [rewrite UU; reflexivity|]. apply summable_none. intros y Y E. change (ch_op u) with ScaleUniformly in E. destruct (s_unif _ _ _ SH y (or_intror (or_intror Y)) E _ A) as (o & O1 & O2). apply (fresh A o O1). now symmetry. }
    rewrite PR.
    assert (COL : forall w, (Rabs (w - played (ch_nodes c) x) < tl_scale t)%R -> Forall2 (fun c p => fst p = ch_op c /\ near_played t x c (snd p)) (c :: O) (map (ap (all_axes w)) (pair_of x c :: L)) /\
      total_pose (map (ap (all_axes w)) (pair_of x c :: L)) = mmul (elem ScaleUniformly w) (total_pose (map (pair_of x) Q2))).
    { intros w W. apply (poses_collapse t x (c :: O) Q2 _ c c1 c2 w P0); auto; [now apply pairs_unique|now left|right; apply (s_axis _ _ _ SH); [now left|exact A1]|right; apply (s_axis _ _ _ SH); [right; now left|exact A2]]. }
    assert (GID : forall (rest : list channel) (g : mtype -> R -> R), (forall d, In d rest -> ~ axis_scale (ch_op d)) -> (forall k v, ~ axis_scale k \/ (forall d, In d rest -> ch_op d <> k) -> g k v = v) -> forall k v, g k v = v).
    { intros rest g NR G k v. apply G. destruct (axis_dec k) as [AK|AK]; [|now left]. right. intros d Dd E. apply (NR d Dd). now rewrite E. }
    destruct (left_out t u) eqn:LO.
    + apply (left_out_ok t x) in LO. change (ch_nodes u) with (ch_nodes c) in LO. change (tolerance_for_op t (ch_op u)) with (tl_scale t) in LO. change (default_op_value (ch_op u)) with 1%R in LO. rewrite Rabs_minus_sym in LO. destruct (COL 1%R LO) as [N1 N2].
      exists Q2. eexists. split; [reflexivity|]. split; [exact (shape_tail _ _ _ _ SHU)|]. split; [exact N1|]. intros g G. pose proof (GID Q2 g NOA G) as GI. rewrite !(ap_id g) by (intros; apply GI). rewrite N2. change (elem ScaleUniformly 1) with identity4. now rewrite mmul_1_l.
    + destruct (COL (played (ch_nodes c) x)) as [N1 N2]; [rewrite Rminus_eq_0, Rabs_R0; apply T|]. exists (u :: Q2). eexists. split; [reflexivity|]. split; [exact SHU|]. split; [exact N1|]. intros g G.
      assert (NU2 : forall d, In d (u :: Q2) -> ~ axis_scale (ch_op d)) by (intros d [<-|Dd]; [intros [|[|]]; discriminate|now apply NOA]). pose proof (GID _ g NU2 G) as GI. rewrite !(ap_id g) by (intros; apply GI). rewrite N2. reflexivity.
  - rewrite (prune_alone t nu (c :: Q) c Q) by (rewrite ?U; (reflexivity || now apply summable_none)).
    destruct (left_out t c) eqn:LO; [|eauto 6]. apply (left_out_ok t x) in LO. rewrite TOL, DEF in LO. exists Q, ((ch_op c, 1%R) :: L). split; [reflexivity|]. split; [now apply shape_skip|]. now apply poses_scale; auto.
Qed.
Lemma step_other : rotates (ch_op c) \/ translates (ch_op c) -> step_result.
Proof.
  intros B. unfold step_result. assert (NA : ~ axis_scale (ch_op c)) by (intros A; destruct B as [[B|[B|B]]|[B|[B|B]]]; rewrite B in A; destruct A as [|[|]]; discriminate).
  assert (U : uniform_scale_channels t (c :: Q) 0 = false).
  { unfold uniform_scale_channels. change (getz (c :: Q) 0) with (Some c). destruct (getz (c :: Q) (0 + 1)) as [c1|]; [|reflexivity]. destruct (getz (c :: Q) (0 + 2)) as [c2|]; [|reflexivity]. destruct (scale_xyz (ch_op c) (ch_op c1) (ch_op c2)) eqn:E; [|reflexivity]. destruct NA. now apply (scale_xyz_axes _ _ _ E). }
  assert (UU : (if negb nu && uniform_scale_channels t (c :: Q) 0 then collapse_scale (c :: Q) 0 else Some (c :: Q)) = Some (c :: Q)) by (rewrite U, andb_false_r; reflexivity).
  assert (FIN : forall s Q', shape D (c :: O) (Channel (ch_op c) (ch_id c) s :: Q') -> poses t x (c :: O) (Channel (ch_op c) (ch_id c) s :: Q') (pair_of x c :: L) ->
    exists Q'' L', Some (if left_out t (Channel (ch_op c) (ch_id c) s) then Q' else Channel (ch_op c) (ch_id c) s :: Q') = Some Q'' /\ shape D (c :: O) Q'' /\ poses t x (c :: O) Q'' L').
  { intros s Q' S1 P1. destruct (left_out t _) eqn:LO; [|eauto 6]. apply (left_out_ok t x) in LO. cbn [ch_nodes ch_op] in LO. exists Q'. eexists. split; [reflexivity|]. split; [exact (shape_tail _ _ _ _ S1)|]. apply (poses_drop _ _ _ _ _ _ _ _ P1 B).
    unfold near_played. replace (played (ch_nodes c) x - played s x - played (ch_nodes c) x)%R with (- (played s x - 0))%R by lra. rewrite Rabs_Ropp. destruct B as [[E|[E|E]]|[E|[E|E]]]; rewrite E in *; exact LO. }
  destruct (summable_some (ch_op c) Q 1 ltac:(lia) B) as [E|(Q1 & d & Q2 & E & H & DD & C)].
  - rewrite (prune_alone t nu (c :: Q) c Q UU E). destruct c as [op id n]. now apply FIN.
  - assert (ID : In d Q) by (rewrite E; apply in_elt). destruct (sum_kind D (ch_nodes c) (ch_nodes d) K IC (s_time _ _ _ SH d ID) DC (s_curves _ _ _ SH d ID)) as (s & E3 & IS & PS & DS).
    rewrite (prune_sum t nu (c :: Q) c Q1 d Q2 s); [|rewrite UU; now rewrite E|now rewrite <- E|exact E3]. pose proof SH0 as S1. pose proof P0 as P1. rewrite E in S1, P1.
    apply FIN; [now apply (shape_sum D (c :: O) Q1 Q2 c d s)|]. apply (poses_sum t x (c :: O) Q1 Q2 _ c d s P1 DD C (PS x)).
Qed.
Lemma step : step_result.
Proof. pose proof BC as B0. destruct B0 as [B|[B|B]]; [apply step_other; now left|apply step_other; now right|now apply step_axis]. Qed.
End Step.

(** ** All steps *)
Lemma prune_loop_ok t nu x D : positive t -> kind D -> forall P O Q L, prunable nu x (P ++ O) -> (forall c, In c P -> D (ch_nodes c)) -> shape D O Q -> poses t x O Q L ->
  exists Q' L', prune_loop t nu (length P) (P ++ Q) = Some Q' /\ shape D (P ++ O) Q' /\ poses t x (P ++ O) Q' L'.
Proof.
  intros T K. induction P as [|c P IH] using rev_ind; intros O Q L PR DP SH PO; [exists Q, L; auto|]. rewrite <- app_assoc in PR. cbn [app] in PR. assert (IN : In c (P ++ c :: O)) by apply in_elt.
  rewrite app_length. cbn [length]. rewrite Nat.add_1_r, <- app_assoc. cbn [app prune_loop]. change (Z.of_nat (length P)) with (len P). rewrite prune_channel_app.
  destruct (pairs_mid _ _ _ _ (p_order _ _ _ PR)) as (_ & OC & _). destruct (step t nu x D T K O Q L c) as (Q' & L' & E & SH' & PO'); auto.
  - exact (p_ops _ _ _ PR c IN).
  - exact (p_nodes _ _ _ PR c IN).
  - apply DP. apply in_elt.
  - pose proof (p_once _ _ _ PR) as ON. clear - ON. induction P as [|a P IH]; [exact ON|]. inversion ON; subst. now apply IH.
  - exact (p_ids _ _ _ PR c IN).
  - destruct (p_sampled _ _ _ PR) as [H|H]; [now left|right; intros A; now apply H].
  - rewrite E. rewrite <- app_assoc. apply (IH (c :: O) Q' L'); auto. intros d Dd. apply DP. apply in_or_app. now left.
Qed.
Lemma insert_in c y : forall l, In y (insert_channel c l) <-> y = c \/ In y l.
Proof. induction l as [|a l IH]; cbn [insert_channel]; [cbn; split; intros [H|[]]; auto|]. destruct (ch_id c <=? ch_id a); cbn [In]; [split; intros [H|H]; auto|]. rewrite IH. tauto. Qed.
Lemma insert_pose x c : geometric (ch_op c) -> forall l, (forall d, In d l -> in_order c d) -> total_pose (map (pair_of x) (insert_channel c l)) = total_pose (map (pair_of x) (c :: l)).
Proof.
  intros G. induction l as [|a l IH]; intros H; cbn [insert_channel]; [reflexivity|]. destruct (Z.leb_spec (ch_id c) (ch_id a)) as [_|LT]; [reflexivity|]. cbn [map] in *. rewrite total_cons, IH by (intros d Dd; apply H; now right). cbn [map]. rewrite !total_cons, <- !mmul_assoc. f_equal. cbn [pair_of fst snd]. apply elem_comm.
  destruct (H a (or_introl eq_refl)) as [[A B]|[[A B]|(A & _)]]; [left; now split|right; split; now left|lia].
Qed.
Lemma sort_pose x : forall l, ForallOrdPairs in_order l -> (forall c, In c l -> geometric (ch_op c)) -> total_pose (map (pair_of x) (sort_channels l)) = total_pose (map (pair_of x) l) /\ (forall c, In c (sort_channels l) <-> In c l).
Proof.
  induction 1 as [|c l F H IH]; intros G; [split; [reflexivity|tauto]|]. destruct IH as [IH1 IH2]; [intros d Dd; apply G; now right|]. cbn [sort_channels fold_right]. fold (sort_channels l). rewrite Forall_forall in F. split.
  - rewrite insert_pose; [cbn [map]; now rewrite !total_cons, IH1|apply G; now left|]. intros d Dd. apply F. now apply IH2.
  - intros d. rewrite insert_in, IH2. cbn [In]. split; intros [E|E]; auto.
Qed.
Lemma combine_values t x O L : Forall2 (fun c p => fst p = ch_op c /\ near_played t x c (snd p)) O L -> combine (map ch_op O) (map snd L) = L /\ Forall2 (near_played t x) O (map snd L).
Proof. induction 1 as [|c [op v] O L [E N] F [IH1 IH2]]; [split; [reflexivity|constructor]|]. cbn [fst snd] in *. subst. split; [cbn; now rewrite IH1|constructor; assumption]. Qed.

(** C71: pruning the channels of a bone leaves its pose what it would be, had each channel played a value within its tolerance. *)
Theorem C71_pose_partial : forall t nu x b, positive t -> prunable nu x (bn_channels b) ->
  exists b' vs m, prune_bone t nu b = Some b' /\ bn_name b' = bn_name b /\ bn_parent b' = bn_parent b /\
    Forall2 (near_played t x) (bn_channels b) vs /\ pose (combine (map ch_op (bn_channels b)) vs) = Some m /\ posed (bn_channels b') x = Some m.
Proof.
  intros t nu x b T PR. assert (KD : exists D, kind D /\ forall c, In c (bn_channels b) -> D (ch_nodes c)).
  { destruct (p_curves _ _ _ PR) as [F|(t0 & t1 & F)]; [exists flat_ends; split; [left; tauto|exact F]|exists (spans t0 t1); split; [right; exists t0, t1; tauto|exact F]]. }
  destruct KD as (D & K & DP). assert (P0 : poses t x [] [] []) by (split; [constructor|reflexivity]). rewrite <- (app_nil_r (bn_channels b)) in PR.
  destruct (prune_loop_ok t nu x D T K (bn_channels b) [] [] [] PR DP (shape_nil D) P0) as (Q & L & E & SH & PO). rewrite !app_nil_r in *.
  destruct PO as [F P]. destruct (combine_values _ _ _ _ F) as [CV NV]. specialize (P (fun _ v => v) (fun _ _ _ => eq_refl)). rewrite !ap_id in P by reflexivity. destruct (sort_pose x Q (s_order _ _ _ SH) (s_ops _ _ _ SH)) as [SP SI].
  exists (Bone (bn_name b) (bn_parent b) (sort_channels Q)), (map snd L), (total_pose L). split; [unfold prune_bone; now rewrite E|]. split; [reflexivity|]. split; [reflexivity|]. split; [exact NV|]. split.
  - rewrite CV. apply pose_total. intros p Pp. apply basic_geometric. clear - F PR Pp. assert (H : forall c, In c (bn_channels b) -> basic (ch_op c)) by exact (p_ops _ _ _ PR). clear PR. induction F as [|c q O L [E _] F IH]; [destruct Pp|]. destruct Pp as [<-|Pp]; [rewrite E; apply H; now left|apply IH; [exact Pp|intros d Dd; apply H; now right]].
  - unfold posed. cbn [bn_channels]. change (fun c => (ch_op c, played (ch_nodes c) x)) with (pair_of x). rewrite P, <- SP. apply pose_total. intros p Pp. apply in_map_iff in Pp. destruct Pp as (c & <- & C). apply (s_ops _ _ _ SH). now apply SI.
Qed.
Print Assumptions C71_pose_partial.
