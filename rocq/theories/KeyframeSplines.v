(** How a CompactSpline made from a list of nodes is evaluated between two of them. *)
From Verif Require Import RBase BaseFacts RangeModel RangeProofs RangeProps CurveModel CurveProofs CompactSplineModel CompactSplineSpec CompactSplineProofs
  CompactSplineAdd CompactSplineIndex CompactSplineProps CompactSplineEvalProps KeyframeModel.
From Coq Require Import Sorting.Sorted.

Lemma in_getz {A} (l : list A) x : In x l -> exists i, getz l i = Some x.
Proof. intros I. apply in_split in I. destruct I as (p & q & ->). exists (len p). now apply getz_app. Qed.
Lemma getz_in {A} (l : list A) i x : getz l i = Some x -> In x l.
Proof. intros G. apply getz_split in G. destruct G as (p & q & -> & _). apply in_elt. Qed.

Lemma first_at_getz l i v : getz l i = Some v -> (forall j w, (j < i)%Z -> getz l j = Some w -> nx w <> nx v) -> first_at (nx v) l = Some v.
Proof.
  intros G H. destruct (getz_split _ _ _ G) as (p & q & -> & L). rewrite first_at_app.
  rewrite first_at_none; [unfold first_at; cbn; now rewrite Z.eqb_refl|]. apply Forall_forall. intros w I.
  apply in_getz in I. destruct I as [n E]. pose proof (getz_Some _ _ _ E). apply (H n); [lia|]. now rewrite getz_app1 by lia.
Qed.
Lemma last_at_getz l i v : getz l i = Some v -> (forall j w, (i < j)%Z -> getz l j = Some w -> nx w <> nx v) -> last_at (nx v) l = Some v.
Proof.
  intros G H. destruct (getz_split _ _ _ G) as (p & q & -> & L). unfold last_at. rewrite rev_app_distr. cbn [rev]. rewrite <- app_assoc, first_at_app.
  rewrite first_at_none; [unfold first_at; cbn; now rewrite Z.eqb_refl|]. apply Forall_forall. intros w I. apply in_rev in I.
  apply in_getz in I. destruct I as [n E]. pose proof (getz_Some _ _ _ E). apply (H (len p + 1 + n)%Z); [lia|].
  rewrite getz_app2 by lia. change (v :: q) with ([v] ++ q). rewrite getz_app2 by (change (len [v]) with 1%Z; lia). change (len [v]) with 1%Z.
  rewrite <- E. f_equal. lia.
Qed.
Lemma first_at_in x l v : first_at x l = Some v -> In v l /\ nx v = x.
Proof. intros F. apply find_some in F. destruct F. split; [assumption|]. now apply Z.eqb_eq. Qed.
Lemma last_at_in x l v : last_at x l = Some v -> In v l /\ nx v = x.
Proof. intros F. apply first_at_in in F. destruct F. split; [now apply in_rev|assumption]. Qed.

(** Two nodes with a gap between them are neighbours in the spline. *)
Lemma neighbours ms ns k a b i u v q :
  StronglySorted Z.le (map nx ms) -> StronglySorted Z.le (map nx ns) -> (forall n, In n ns -> In n ms) ->
  (forall n, In n ms -> first_at (nx n) ns = first_at (nx n) ms /\ last_at (nx n) ns = last_at (nx n) ms) ->
  getz ms k = Some a -> getz ms (k + 1) = Some b -> (nx a < q < nx b)%Z ->
  getz ns i = Some u -> getz ns (i + 1) = Some v -> (nx u <= q <= nx v)%Z -> u = a /\ v = b.
Proof.
  intros SM SN SUB AT A B Q U V W.
  assert (GAP : forall n, In n ms -> (nx n <= nx a \/ nx b <= nx n)%Z).
  { intros n I. apply in_getz in I. destruct I as [j J]. destruct (Z_le_gt_dec j k) as [L|L].
    - left. apply (sorted_getz _ SM _ _ _ _ J A L).
    - right. apply (sorted_getz _ SM _ _ _ _ B J). lia. }
  assert (UA : (nx u <= nx a)%Z) by (destruct (GAP u (SUB _ (getz_in _ _ _ U))); lia).
  assert (VB : (nx b <= nx v)%Z) by (destruct (GAP v (SUB _ (getz_in _ _ _ V))); lia).
  assert (LA : last_at (nx a) ns = Some a).
  { rewrite (proj2 (AT a (getz_in _ _ _ A))). apply last_at_getz with k; [exact A|]. intros j w L G.
    pose proof (sorted_getz _ SM _ _ _ _ B G ltac:(lia)). lia. }
  assert (FB : first_at (nx b) ns = Some b).
  { rewrite (proj1 (AT b (getz_in _ _ _ B))). apply first_at_getz with (k + 1)%Z; [exact B|]. intros j w L G.
    pose proof (sorted_getz _ SM _ _ _ _ G A ltac:(lia)). lia. }
  split.
  - destruct (last_at_in _ _ _ LA) as [I _]. apply in_getz in I. destruct I as [j J].
    assert (j <= i)%Z by (destruct (Z_le_gt_dec j i); [assumption|]; pose proof (sorted_getz _ SN _ _ _ _ V J ltac:(lia)); lia).
    assert (NU : nx u = nx a) by (pose proof (sorted_getz _ SN _ _ _ _ J U ltac:(lia)); lia).
    assert (last_at (nx u) ns = Some u) as LU.
    { apply last_at_getz with i; [exact U|]. intros j' w L G. pose proof (sorted_getz _ SN _ _ _ _ V G ltac:(lia)). lia. }
    rewrite NU in LU. congruence.
  - destruct (first_at_in _ _ _ FB) as [I _]. apply in_getz in I. destruct I as [j J].
    assert (i + 1 <= j)%Z by (destruct (Z_le_gt_dec (i + 1) j); [assumption|]; pose proof (sorted_getz _ SN _ _ _ _ J U ltac:(lia)); lia).
    assert (NV : nx v = nx b) by (pose proof (sorted_getz _ SN _ _ _ _ V J ltac:(lia)); lia).
    assert (first_at (nx v) ns = Some v) as FV.
    { apply first_at_getz with (i + 1)%Z; [exact V|]. intros j' w L G. pose proof (sorted_getz _ SN _ _ _ _ G U ltac:(lia)). lia. }
    rewrite NV in FV. congruence.
Qed.

Lemma granularity_pos x : 0 < recommend_x_granularity x.
Proof. unfold recommend_x_granularity, kMaxX. rcases; lra. Qed.

(** Adding nodes does not change the capacity. *)
Lemma add_nodes_max : forall k t t', add_nodes t k = Some t' -> max_nodes t' = max_nodes t.
Proof.
  induction k as [|c k IH]; intros t t'; cbn [add_nodes]; [intros E; injection E as <-; reflexivity|].
  destruct (add_node t _ _ _ _) as [t1|] eqn:A; [|discriminate]. intros E. rewrite (IH _ _ E). clear - A.
  unfold add_node in A. destruct (make_node _ _ _ _ _) as [n|]; [|discriminate].
  assert (V : forall u m u', add_node_verbatim u m = Some u' -> max_nodes u' = max_nodes u) by (intros u m u'; unfold add_node_verbatim; destruct (_ <? _)%Z; [|discriminate]; intros E; injection E as <-; reflexivity).
  destruct (back t) as [b|]; [|eauto]. destruct (_ <=? _)%Z; [|discriminate]. destruct (node_eqb _ _); [congruence|].
  destruct (_ =? _)%Z; [apply V in A; rewrite A; destruct (match getz _ _ with Some _ => _ | None => _ end); reflexivity|].
  destruct (c_method c).
  - eauto.
  - destruct (uniform_curvature _ _); [eauto|]. destruct (DualCubicModel.dual_cubic_mid_node _ _ _ _ _) as [[mx [my md]]|]; [|discriminate].
    destruct (make_node _ _ _ _ _); [|discriminate]. destruct (_ || _); [eauto|]. destruct (add_node_verbatim t _) as [t2|] eqn:V2; [|discriminate].
    rewrite (V _ _ _ A). eauto.
Qed.
Lemma init_max s0 l s : init_from_nodes s0 l = Some s -> max_nodes s = max_nodes s0.
Proof.
  unfold init_from_nodes. intros H. destruct (getz l (len l - 1)); [|discriminate]. destruct (covers _); [|discriminate]. rewrite uncompressed_calls in H.
  now rewrite (add_nodes_max _ _ _ H).
Qed.

(** What InitFromNodes makes of its nodes. *)
Lemma built l s0 s : init_from_nodes s0 l = Some s -> (0 <= max_nodes s0 <= 65534)%Z -> StronglySorted Rle (map ux l) ->
  spline_ok s /\ covers (map uy l) = Some (y_range s) /\ (exists la, getz l (len l - 1) = Some la /\ x_granularity s = recommend_x_granularity (ux la)) /\
  max_nodes s = max_nodes s0 /\
  exists ms, Forall2 (fun n m => make_node (ux n) (uy n) (uderivative n) (x_granularity s) (y_range s) = Some m) l ms /\
    StronglySorted Z.le (map nx ms) /\ (forall n, In n (nodes s) -> In n ms) /\
    (forall n, In n ms -> first_at (nx n) (nodes s) = first_at (nx n) ms /\ last_at (nx n) (nodes s) = last_at (nx n) ms).
Proof.
  unfold init_from_nodes. intros H M S. destruct (getz l (len l - 1)) as [la|] eqn:LA; [|discriminate].
  destruct (covers (map uy l)) as [r|] eqn:C; [|discriminate]. rewrite uncompressed_calls in H.
  set (g := recommend_x_granularity (ux la)) in *. assert (G : 0 < g) by apply granularity_pos.
  assert (LN : l <> []) by (intros ->; discriminate).
  assert (PL : Forall (fun c => c_method c = AddWithoutModification) (map plain_call l)) by (apply Forall_forall; intros c I; apply in_map_iff in I; destruct I as [n [<- _]]; reflexivity).
  destruct (C30_nodes s0 r g _ s ltac:(lia) G H) as (N1 & N2 & N3 & -> & -> & N6 & ms & F & B & AT & SUB).
  assert (R : start_ r <= end_ r).
  { pose proof (C20_covers (map uy l)) as K. rewrite C in K. destruct K as (K1 & K2 & _). destruct l as [|n l]; [congruence|].
    specialize (K2 (uy n) (or_introl eq_refl)). lra. }
  assert (OK : spline_ok s) by (apply (C30_built_ok s0 r g (map plain_call l)); auto; intros E; apply LN; destruct l; [reflexivity|discriminate]).
  split; [exact OK|]. split; [reflexivity|]. split; [eauto|]. split.
  { now rewrite (add_nodes_max _ _ _ H). }
  exists ms. split; [|split; [|split]].
  - clear - F. revert ms F. induction l as [|n l IH]; intros ms F; inversion F; subst; constructor; auto.
  - apply (made_sorted g r l G S ms F).
  - apply SUB, PL.
  - exact AT.
Qed.

Lemma Forall2_at {A B} (P : A -> B -> Prop) l m : Forall2 P l m -> forall i a, getz l i = Some a -> exists b, getz m i = Some b /\ P a b.
Proof.
  intros F i a G. destruct (getz_split _ _ _ G) as (p & q & -> & <-). apply Forall2_app_inv_l in F. destruct F as (p' & q' & F1 & F2 & ->).
  inversion F2 as [|? b ? q'' Q F3]; subst. exists b. split; [|exact Q]. apply getz_app. unfold len. f_equal. clear - F1. induction F1; cbn; congruence.
Qed.

(** Between two neighbouring nodes that are at least two grains apart, the spline is the
    cubic between their quantized versions. *)
Lemma between l s0 s k a b x : init_from_nodes s0 l = Some s -> (0 <= max_nodes s0 <= 65534)%Z -> StronglySorted Rle (map ux l) ->
  getz l k = Some a -> getz l (k + 1) = Some b -> in_int_range s x ->
  exists na nb, make_node (ux a) (uy a) (uderivative a) (x_granularity s) (y_range s) = Some na /\
    make_node (ux b) (uy b) (uderivative b) (x_granularity s) (y_range s) = Some nb /\
    ((nx na < grains s x < nx nb)%Z -> forall t,
       calculated_slowly s x t = Some (curve_value (cubic_of (create_cubic_between s na nb)) (x - node_x na (x_granularity s)) t)).
Proof.
  intros H M S A B I. destruct (built l s0 s H M S) as (OK & _ & _ & _ & ms & F & SM & SUB & AT).
  destruct (Forall2_at _ _ _ F _ _ A) as (na & GA & MA). destruct (Forall2_at _ _ _ F _ _ B) as (nb & GB & MB).
  exists na, nb. split; [exact MA|]. split; [exact MB|]. intros Q t.
  destruct (index_ok s x 0 OK I ltac:(lia)) as (i & f & bk & IX & FR & BK & CASES).
  pose proof (ok_sorted s OK) as SN.
  assert (INA : exists j m, getz (nodes s) j = Some m /\ nx m = nx na).
  { destruct (first_at_some (nx na) ms na (getz_in _ _ _ GA) eq_refl) as [m E]. rewrite <- (proj1 (AT na (getz_in _ _ _ GA))) in E.
    apply first_at_in in E. destruct E as [E1 E2]. apply in_getz in E1. destruct E1. eauto. }
  assert (INB : exists j m, getz (nodes s) j = Some m /\ nx m = nx nb).
  { destruct (first_at_some (nx nb) ms nb (getz_in _ _ _ GB) eq_refl) as [m E]. rewrite <- (proj1 (AT nb (getz_in _ _ _ GB))) in E.
    apply first_at_in in E. destruct E as [E1 E2]. apply in_getz in E1. destruct E1. eauto. }
  destruct INA as (ja & m1 & J1 & E1). destruct INB as (jb & m2 & J2 & E2).
  assert (nx f <= nx na)%Z by (pose proof (getz_Some _ _ _ J1); rewrite <- E1; apply (sorted_getz _ SN 0 ja); [exact FR|exact J1|lia]).
  assert (nx nb <= nx bk)%Z by (pose proof (getz_Some _ _ _ J2); rewrite <- E2; apply (sorted_getz _ SN jb (num_nodes s - 1)); [exact J2|exact BK|unfold num_nodes; lia]).
  destruct CASES as [(_ & C)|[(_ & _ & [C|[_ C]])|(R & u & v & U & V & C & _)]]; try lia.
  destruct (neighbours ms (nodes s) k na nb i u v (grains s x) SM SN SUB AT GA GB Q U V C) as [-> ->].
  apply (slowly_inside s x i); auto. pose proof (ok_count s OK). lia.
Qed.
