(** C110: an animation that is exported, loaded and played on a rig shows the exported keyframes. *)
From Verif Require Import RBase BaseFacts RangeModel RangeProofs CurveModel CurveProofs MathfuModel CompactSplineModel CompactSplineSpec CompactSplineProofs CompactSplineIndex EvaluatorModel EvaluatorSpec EvaluatorProofs EvaluatorPlay EvaluatorProps EvaluatorOpProps CompactSplineEvalProps OvershootModel SimpleModel SplineTargetModel SplineTargetProps MatrixModel MatrixProps SqtProps RigModel RigProps CloneModel CloneProps SplineClassModel TwinProps PlayProps.
From Verif Require Import CompactSplineAdd CompactSplineEvalProps AnimTableModel AnimDataModel AnimSpec KeyframeSplines FlatAnimModel PlayProps RigPlayProps FlatAnimProps FlatLoadProps.
From Coq Require Import Lia Sorting.Sorted.
Local Open Scope R_scope.

(** ** At the keyframes *)
(** Strictly ascending times of at most 65.535 seconds: every keyframe has its node. *)
Definition spaced (n : list snode) : Prop := StronglySorted Z.lt (map sn_time n) /\ forall x, In x n -> (0 <= sn_time x <= 65535)%Z.

Lemma getz_behind {A} (a : A) l i : (0 < i)%Z -> getz (a :: l) i = getz l (i - 1).
Proof. intros H. unfold getz. destruct (Z.ltb_spec i 0); [lia|]. destruct (Z.ltb_spec (i - 1) 0); [lia|]. replace (Z.to_nat i) with (S (Z.to_nat (i - 1))) by lia. reflexivity. Qed.
Lemma spaced_getz : forall l i j a b, StronglySorted Z.lt (map sn_time l) -> getz l i = Some a -> getz l j = Some b -> (i < j)%Z -> (sn_time a < sn_time b)%Z.
Proof.
  induction l as [|c l IH]; intros i j a b S A B L; [apply getz_Some in A; cbn in A; lia|]. cbn [map] in S. apply StronglySorted_inv in S. destruct S as [S F]. pose proof (getz_Some _ _ _ A). rewrite getz_behind in B by lia.
  destruct (Z.eq_dec i 0) as [->|N]; [injection A as <-; rewrite Forall_forall in F; apply F; apply in_map; eapply getz_in; exact B|]. rewrite getz_behind in A by lia. apply (IH (i - 1)%Z (j - 1)%Z); auto. lia.
Qed.
Lemma getz_end n : (0 < len n)%Z -> getz n (len n - 1) = Some (end_node n).
Proof. intros L. destruct (getz_in_range n (len n - 1)) as [b B]; [lia|]. rewrite B. f_equal. symmetry. now apply end_node_last. Qed.

(** C110: each keyframe has a time, within half a grain of its own, at which the spline has its value, up to one of
    65535 rungs between the smallest and the largest value.  The grain is a 65535th of the length.  The first
    keyframe, if it is at 0, and the last have their own times. *)
Theorem C110_keyframes : forall n s k spread, (1 < len n <= 65534)%Z -> spaced n -> holds_keyframes n s -> plays_keyframes n s -> In k n ->
  (forall a b, In a n -> In b n -> sn_val a - sn_val b <= spread) ->
  exists x, Rabs (x - IZR (sn_time k)) <= IZR (sn_time (end_node n)) / 131070 /\
    (sn_time k = 0%Z \/ k = end_node n -> x = IZR (sn_time k)) /\
    forall y d, spline_at s x y d -> 0 <= sn_val k - y <= spread / 65535.
Proof.
  intros n s k spread L (SS & TR) (G & (YI & YT) & _ & EX & made & ST & _ & BK & SO & _ & NM) (GE & OK) K SP. specialize (NM SS TR). specialize (OK ltac:(lia)).
  pose proof (getz_end n ltac:(lia)) as GN. set (e := end_node n) in *. set (g := x_granularity s) in *.
  assert (LM : len made = len n) by (eapply Forall2_len; exact ST).
  assert (T1 : (1 <= sn_time e <= 65535)%Z).
  { destruct (getz_in_range n 0) as [f F]; [lia|]. pose proof (TR f (getz_in _ _ _ F)). pose proof (TR e (getz_in _ _ _ GN)). pose proof (spaced_getz _ _ _ _ _ SS F GN ltac:(lia)). lia. }
  destruct (Z.leb_spec (sn_time e) 0) as [|_]; [lia|]. rewrite Z.max_r in EX by lia.
  assert (G1 : g <= 1) by (rewrite GE; assert (IZR (sn_time e) <= 65535) by (apply IZR_le; lia); lra).
  assert (STO : forall i m, getz made i = Some m -> exists x, getz n i = Some x /\ stores g (y_range s) x m) by (intros i m M; exact (Forall2_getz _ _ _ ST i m M)).
  assert (FLD : forall m, In m made -> (0 <= nx m)%Z). { intros m M. rewrite <- NM in M. pose proof (ok_fields s OK) as F. rewrite Forall_forall in F. destruct (F m M) as ((A & _) & _). exact A. }
  assert (AT : forall i m x, getz made i = Some m -> getz n i = Some x -> Rabs (IZR (nx m) * g - IZR (sn_time x)) <= g / 2).
  { intros i m x M X. destruct (STO i m M) as (x' & X' & H & _). rewrite X in X'. injection X' as <-. pose proof (TR x (getz_in _ _ _ X)). rewrite Z.max_r in H by lia. exact H. }
  assert (LT : forall i j a b, getz made i = Some a -> getz made j = Some b -> (i < j)%Z -> (nx a < nx b)%Z).
  { intros i j a b A B IJ. destruct (STO i a A) as (xa & XA & _), (STO j b B) as (xb & XB & _). pose proof (AT _ _ _ A XA) as HA. pose proof (AT _ _ _ B XB) as HB. pose proof (spaced_getz _ _ _ _ _ SS XA XB IJ) as TT.
    assert (TT' : IZR (sn_time xa) + 1 <= IZR (sn_time xb)) by (rewrite <- plus_IZR; apply IZR_le; lia). destruct (Z_lt_le_dec (nx a) (nx b)) as [H|H]; [exact H|exfalso]. apply IZR_le in H.
    assert (IZR (nx b) * g <= IZR (nx a) * g) by (apply Rmult_le_compat_r; lra). destruct (Req_dec g 1) as [E1|N1].
    - rewrite E1 in *. rewrite !Rmult_1_r in *. rewrite <- minus_IZR, <- abs_IZR in HA, HB. assert (Z.abs (nx a - sn_time xa) < 1)%Z by (apply lt_IZR; lra). assert (Z.abs (nx b - sn_time xb) < 1)%Z by (apply lt_IZR; lra).
      apply le_IZR in H. lia.
    - revert HA HB. rabs; intros; lra. }
  assert (SEL : exists i m, getz n i = Some k /\ getz made i = Some m /\ (k = e -> i = len n - 1)%Z).
  { destruct (in_getz _ _ K) as [i I]. pose proof (getz_Some _ _ _ I). assert (C : k = e \/ k <> e) by (destruct (Z.eq_dec i (len n - 1)) as [->|NE]; [left; congruence|right; intros ->; pose proof (spaced_getz _ _ _ _ _ SS I GN ltac:(lia)); lia]).
    destruct C as [->|NE].
    - destruct (getz_in_range made (len n - 1)) as [m M]; [lia|]. exists (len n - 1)%Z, m. auto.
    - destruct (getz_in_range made i) as [m M]; [lia|]. exists i, m. repeat (split; [assumption|]). contradiction. }
  destruct SEL as (i & m & I & M & LAST). destruct (STO i m M) as (k' & K' & HX & HY & _). rewrite I in K'. injection K' as <-. pose proof (TR k K) as TK. rewrite Z.max_r in HX by lia.
  pose proof (FLD m (getz_in _ _ _ M)) as NN. exists (node_x m g). split; [|split].
  - lra.
  - intros [Z0|E].
    + rewrite Z0 in *. unfold node_x in *. assert (nx m < 1)%Z.
      { apply lt_IZR. apply IZR_le in NN. revert HX. rabs; intros; nra. }
      replace (nx m) with 0%Z by lia. ring.
    + specialize (LAST E). unfold end_x in EX. rewrite BK, LM, <- LAST, M in EX. injection EX as EX. rewrite E. exact EX.
  - assert (SPR : end_ (y_range s) - start_ (y_range s) <= spread).
    { assert (H1 : forall b, In b n -> end_ (y_range s) <= sn_val b + spread). { intros b B. apply (YT (start_ (y_range s))). intros a A. split; [apply (YI a A)|]. specialize (SP a b A B). lra. }
      destruct (YT (end_ (y_range s) - spread) (end_ (y_range s))) as [H2 _]; [|lra]. intros b B. specialize (H1 b B). specialize (YI b B). lra. }
    intros y d AT0. assert (Y : y = node_y m (y_range s)); [|rewrite Y; lra].
    assert (NODE : forall j a, getz made j = Some a -> nx a = nx m -> a = m).
    { intros j a A E. destruct (Z_lt_dec j i) as [C|C]; [pose proof (LT _ _ _ _ A M C); lia|]. destruct (Z_lt_dec i j) as [C'|C']; [pose proof (LT _ _ _ _ M A C'); lia|]. replace j with i in A by lia. congruence. }
    assert (LE : forall a b q, 0 <= q < 1 -> IZR a * g <= IZR b * g + q * g -> (a <= b)%Z). { intros a b q Q H. assert (IZR a < IZR b + 1) by nra. rewrite <- plus_IZR in H0. apply lt_IZR in H0. lia. }
    destruct AT0 as [sx SX X SY D|ex EX' X EY D|j a b A B X W SV].
    + unfold start_x, start_y, front in *. rewrite NM in *. destruct made as [|f made']; [discriminate|]. injection SX as <-. injection SY as <-. unfold node_x in X. fold g in X. f_equal. apply (NODE 0%Z); [reflexivity|].
      assert (nx m <= nx f)%Z by (apply (LE _ _ 0); lra). destruct (Z.eq_dec i 0) as [->|NZ]; [injection M as <-; reflexivity|]. pose proof (getz_Some _ _ _ M). pose proof (LT 0%Z i f m eq_refl M ltac:(lia)). lia.
    + exfalso. rewrite EX in EX'. injection EX' as <-. destruct X as [X|[X _]].
      * unfold end_x in EX. rewrite BK in EX. destruct (getz_in_range made (len made - 1)) as [mb MB]; [pose proof (getz_Some _ _ _ M); lia|]. rewrite MB in EX. injection EX as EX. fold g in X, EX. pose proof (getz_Some _ _ _ M).
        assert (nx m <= nx mb)%Z by (destruct (Z.eq_dec i (len made - 1)) as [->|NZ]; [rewrite M in MB; injection MB as <-; lia|pose proof (LT _ _ _ _ M MB ltac:(lia)); lia]). apply IZR_le in H0. unfold node_x in *. nra.
      * unfold num_nodes in X. rewrite NM in X. lia.
    + rewrite NM in A, B. fold g in X. unfold node_x in X. assert (AM : (nx a <= nx m)%Z) by (apply (LE _ _ (1/2)); lra). assert (MB : (nx m <= nx b)%Z) by (apply (LE _ _ (1/2)); lra).
      assert (AB : (nx a < nx b)%Z) by (apply (LT _ _ _ _ A B); lia). rewrite <- NM in A, B. destruct (C33_segments_join s j a b OK A B AB) as [J1 J2]. fold g in J1, J2. rewrite NM in A, B.
      destruct (Z_le_dec i j) as [C|C].
      * assert (i = j) as -> by (destruct (Z.eq_dec i j); [assumption|pose proof (LT _ _ _ _ M A ltac:(lia)); lia]). rewrite A in M. injection M as ->. rewrite J1 in SV. congruence.
      * assert (i = j + 1)%Z as -> by (destruct (Z.eq_dec i (j + 1)); [assumption|pose proof (LT _ _ _ _ B M ltac:(lia)); lia]). rewrite B in M. injection M as ->. rewrite J2 in SV. congruence.
Qed.
Print Assumptions C110_keyframes.

(** ** On a rig *)
Lemma end_in n : n <> [] -> In (end_node n) n.
Proof. intros H. destruct n as [|x n _] using rev_ind; [congruence|]. unfold end_node. rewrite last_last. apply in_elt. Qed.
(** What the operation of a channel shows after the frames: the value of its only keyframe, or that of a spline for its
    keyframes at the position of the playback. *)
Definition channel_shows (p : playback) (deltas : list R) (c : channel) (v : R) : Prop :=
  (len (ch_nodes c) = 1%Z /\ v = sn_val (first_node (ch_nodes c))) \/
  ((1 < len (ch_nodes c))%Z /\ exists s x y d, holds_keyframes (ch_nodes c) s /\ plays_keyframes (ch_nodes c) s /\
     wrapped s (repeat_ p) (position p deltas) x /\ spline_at s x y d /\ v = y_scale p * y + y_offset p).
(** A channel that can be exported and played: C85's conditions; for a matrix operation; if the playback repeats, it
    starts at 0 or before and ends after that. *)
Definition channel_playable (p : playback) (c : channel) : Prop :=
  channel_ok c /\ (len (ch_nodes c) <= 65534)%Z /\ (ch_id c <= 254)%Z /\ matrix_type (ch_op c) /\
  (repeat_ p = true -> (1 < len (ch_nodes c))%Z -> (sn_time (first_node (ch_nodes c)) <= 0 < sn_time (end_node (ch_nodes c)))%Z).
(** At most half a minute per frame, and as much at the start. *)
Definition modest (p : playback) (deltas : list R) : Prop :=
  blend_x p <= 0 /\ 0 <= start_at p <= 32000 /\ Forall (fun d => 0 <= d * playback_rate p <= 32000) deltas.

Lemma grain_lower n s : plays_keyframes n s -> 1 / 65535 <= x_granularity s.
Proof. intros [-> _]. destruct (Z.leb_spec (sn_time (end_node n)) 0); [lra|]. assert (1 <= IZR (sn_time (end_node n))) by (apply IZR_le; lia). lra. Qed.
Lemma op_plays p deltas c o : channel_playable p c -> modest p deltas -> op_loaded (fun r => r) c o -> playable p deltas o /\ i_type o = ch_op c /\ forall v, shows p deltas o v -> channel_shows p deltas c v.
Proof.
  intros ((NE & _ & SO & _) & L4 & ID & MT & RP) (_ & SA & FD) (OI & OT & [(L1 & IN & U)|(L1 & IN & s & U & HK & PK)]).
  - unfold playable, shows. rewrite U. split; [split; [lia|exact IN]|]. split; [exact OT|]. intros v ->. left. auto.
  - pose proof (grain_lower _ _ PK) as GL. unfold playable, shows. rewrite U. split; [|split; [exact OT|]].
    + split; [lia|]. split; [|split].
      * split; [apply PK; exact L4|]. split; [|lra]. intros RT. specialize (RP RT L1). destruct HK as (G & _ & NN & EX & made & ST & _ & BK & SS & FL & _). split.
        -- destruct (Z_le_dec 2 (num_nodes s)) as [|C]; [assumption|exfalso]. assert (N1 : num_nodes s = 1%Z) by lia. unfold num_nodes in N1. destruct (nodes s) as [|a [|b l]] eqn:NS; [cbn in N1; lia| |rewrite !len_cons in N1; pose proof (len_nonneg l); lia].
           unfold end_x, back, num_nodes in *. rewrite NS in *. assert (EX' : Some (node_x a (x_granularity s)) = Some (IZR (Z.max 0 (sn_time (end_node (ch_nodes c)))))) by exact EX. clear EX. injection EX' as EX. rewrite Z.max_r in EX by lia.
           assert (LM : len made = len (ch_nodes c)) by (eapply Forall2_len; exact ST). destruct (getz_in_range made 0) as [m M]; [lia|]. destruct (Forall2_getz _ _ _ ST 0%Z m M) as (f & F & HX & _).
           assert (EF : first_node (ch_nodes c) = f) by (unfold first_node; destruct (ch_nodes c); [discriminate|injection F as ->; reflexivity]). rewrite EF in RP. rewrite Z.max_l in HX by lia.
           destruct (FL m (getz_in _ _ _ M)) as [F1 _]. destruct (first_at_some (nx m) made m (getz_in _ _ _ M) eq_refl) as [m' M']. rewrite M' in F1. unfold first_at in F1. cbn [find] in F1. destruct (Z.eqb_spec (nx a) (nx m)) as [EA|]; [|discriminate].
           unfold node_x in *. rewrite <- EA in HX. rewrite EX in HX. destruct PK as [PG _]. assert (TE : 1 <= IZR (sn_time (end_node (ch_nodes c)))) by (apply IZR_le; lia). destruct (Z.leb_spec (sn_time (end_node (ch_nodes c))) 0); [lia|]. rewrite PG in HX. revert HX. rabs; lra.
        -- eexists. split; [exact EX|]. apply IZR_lt. lia.
      * eapply Forall_impl; [|exact FD]. intros d D. unfold small_step. cbn beta in D. lra.
      * eexists. split; [exact IN|]. unfold range_of_op. destruct (rotate_op (ch_op c)); [right; exists PI; split; [apply PI_RGT_0|reflexivity]|left]. unfold valid, range_default. cbn [start_ end_]. apply Rleb_f. lra.
    + intros v (x & y & d & W & SAT & V). right. split; [exact L1|]. exists s, x, y, d. auto.
Qed.

(** The transform of a bone: the product of its operations, each at the value of its channel. *)
Definition keyframed_bone (p : playback) (deltas : list R) (b : bone) (m : mat4) : Prop :=
  exists vs es, Forall2 (channel_shows p deltas) (bn_channels b) vs /\
    Forall2 (fun cv e => elementary (ch_op (fst cv)) (snd cv) = Some e) (combine (bn_channels b) vs) es /\ m = product es.

(** C110: a skeleton is exported, loaded, and played on a rig made for it.  After the frames, the rig shows every bone
    where its channels and those of its ancestors put it. *)
Theorem C110_rig : forall from_matrix d pref name root t p deltas,
  ad_root_only d = false -> (len (ad_bones d) <= 254)%Z -> bones_ordered d -> (forall b c, In b (ad_bones d) -> In c (bn_channels b) -> channel_playable p c) ->
  (t = 0 \/ 0 <= t <= 1000000000 /\ repeats d pref = Some false /\ forall b c x, In b (ad_bones d) -> In c (bn_channels b) -> In x (ch_nodes c) -> sn_time x <= 1000000000)%Z ->
  modest p deltas -> deltas <> [] ->
  let cls := bone_class spline_class from_matrix in
  exists r a d0 d1 d2, create_flat_buffer d pref name = Some [r] /\ load_rig (fun r => r) r = Some a /\
    rig_new cls a root t = Some d0 /\ blend_to_anim cls a p t d0 = Some d1 /\ frames (rig_plays from_matrix) deltas d1 = Some d2 /\
    exists local, (forall i b, getz (ad_bones d) i = Some b -> keyframed_bone p deltas b (local i)) /\
      (forall i, (0 <= i < len (ad_bones d))%Z -> exists l g, lineage (ra_parents a) i l /\ getz (globals d2) i = Some g /\ from_affine g = along root local l) /\
      ra_parents a = map (fun b => if (bn_parent b =? -1)%Z then kInvalidBoneIdx else bn_parent b) (ad_bones d).
Proof.
  intros from_matrix d pref name root t p deltas RO LB BO PL T MO ND cls.
  destruct (C85_round_trip_partial range (fun r => r) d pref name RO LB BO (fun b c B C => proj1 (PL b c B C))) as (r & a & rep & CR & LD & RP & BL & PA & _ & _ & ET & EN).
  exists r, a. pose proof (Forall2_len _ _ _ BL) as LA. pose proof (Forall2_len _ _ _ PA) as LP. pose proof (len_nonneg (ad_bones d)) as LN.
  assert (NB : num_bones a = len (ad_bones d)) by (unfold num_bones; rewrite LA; apply Z.mod_small; lia).
  assert (PE : ra_parents a = map (fun b => if (bn_parent b =? -1)%Z then kInvalidBoneIdx else bn_parent b) (ad_bones d)).
  { clear - PA. induction PA as [|b q l l' E F IH]; [reflexivity|]. cbn [map]. now rewrite E, IH. }
  destruct (C65_parents_partial _ a a) as (mr & MH & MR); [lia|lia|unfold kMaxNumBones; lia|unfold kMaxNumBones; lia|]. assert (mr = true) as -> by (apply MR; split; reflexivity).
  assert (OPS : forall i b ma, getz (ad_bones d) i = Some b -> getz (ra_anims a) i = Some ma -> bone_playable p deltas ma /\ forall m, bone_shows p deltas ma m -> keyframed_bone p deltas b m).
  { intros i b ma B M. destruct (Forall2_getz _ _ _ BL i ma M) as (b' & B' & SQ & FO). rewrite B in B'. injection B' as <-. pose proof (getz_in _ _ _ B) as IB.
    assert (Q : Forall2 (fun c o => playable p deltas o /\ matrix_type (i_type o) /\ i_type o = ch_op c /\ forall v, shows p deltas o v -> channel_shows p deltas c v) (bn_channels b) (ma_ops ma)).
    { eapply Forall2_in; [|exact FO]. intros c o C LO. pose proof (PL b c IB C) as CP. destruct (op_plays p deltas c o CP MO LO) as (P1 & P2 & P3). destruct CP as (_ & _ & _ & MT & _). rewrite P2. auto. }
    unfold bone_playable, bone_shows. rewrite SQ. split.
    - split.
      + clear - Q. induction Q as [|c o l l' (H & _) F IH]; constructor; auto.
      + clear - Q. induction Q as [|c o l l' (_ & H & _) F IH]; intros x X; [destruct X|]. destruct X as [<-|X]; auto.
    - intros m (vs & es & FS & FE & ->). exists vs, es. split; [|split; [|reflexivity]].
      + clear - Q FS. revert vs FS. induction Q as [|c o l l' (_ & _ & _ & H) F IH]; intros vs FS; inversion FS; subst; constructor; auto.
      + clear - Q FS FE. revert vs FS es FE. induction Q as [|c o l l' (_ & _ & E & _) F IH]; intros vs FS es FE; inversion FS; subst; cbn [map combine] in *; inversion FE; subst; constructor.
        * cbn [fst snd] in *. now rewrite <- E.
        * apply IH; assumption. }
  destruct (C108_rig from_matrix a a root t p deltas) as (d0 & d1 & d2 & E0 & E1 & E2 & local & LO & GL & _).
  - intros i Hi. rewrite NB in Hi. destruct (getz_in_range (ra_parents a) i) as [q Q]; [lia|]. exists q. split; [exact Q|]. destruct (Forall2_getz _ _ _ PA i q Q) as (b & B & ->). specialize (BO i b B). destruct (Z.eqb_spec (bn_parent b) (-1)); [now left|right; lia].
  - now left.
  - assert (EB : (0 <= ra_end a <= int_max)%Z).
    { destruct rep; [rewrite ET by reflexivity; unfold int_max; lia|]. destruct (EN eq_refl) as (E1 & _ & [E|(c & C & _ & E)]); [unfold int_max; lia|]. split; [exact E1|]. rewrite <- E. apply in_flat_map in C. destruct C as (b & B & C).
      destruct (PL b c B C) as ((NE & _ & _ & TM & _) & _). apply TM. now apply end_in. }
    destruct T as [->|(T1 & T2 & T3)]; [unfold int_max in EB; lia|]. rewrite T2 in RP. injection RP as <-. destruct (EN eq_refl) as (E1 & _ & [E|(c & C & _ & E)]); [lia|].
    apply in_flat_map in C. destruct C as (b & B & C). destruct (PL b c B C) as ((NE & _) & _). assert (IE : In (end_node (ch_nodes c)) (ch_nodes c)) by now apply end_in. specialize (T3 b c _ B C IE). lia.
  - apply MO.
  - exact ND.
  - intros i ma Hi M. rewrite NB in Hi. destruct (getz_in_range (ad_bones d) i) as [b B]; [lia|]. apply (OPS i b ma B M).
  - exists d0, d1, d2. repeat (split; [assumption|]). exists local. split; [|split; [|exact PE]].
    + intros i b B. pose proof (getz_Some _ _ _ B). destruct (LO i ltac:(lia)) as (ma & M & SH). apply (OPS i b ma B M). exact SH.
    + intros i Hi. apply GL. lia.
Qed.
Print Assumptions C110_rig.

(** C110: so a channel, played once and unchanged, shows each keyframe when the playback is at its time, within half a
    grain; the last one, and one at 0, at its very time. *)
Theorem C110_channel : forall p deltas c v k spread, (1 < len (ch_nodes c) <= 65534)%Z -> spaced (ch_nodes c) -> channel_shows p deltas c v -> In k (ch_nodes c) ->
  (forall a b, In a (ch_nodes c) -> In b (ch_nodes c) -> sn_val a - sn_val b <= spread) -> repeat_ p = false -> y_scale p = 1 -> y_offset p = 0 ->
  exists x, Rabs (x - IZR (sn_time k)) <= IZR (sn_time (end_node (ch_nodes c))) / 131070 /\
    (sn_time k = 0%Z \/ k = end_node (ch_nodes c) -> x = IZR (sn_time k)) /\
    (position p deltas = x -> 0 <= sn_val k - v <= spread / 65535).
Proof.
  intros p deltas c v k spread L SP [[L1 _]|(_ & s & x & y & d & HK & PK & W & SA & V)] K SR RF YS YO; [lia|]. destruct (C110_keyframes _ s k spread L SP HK PK K SR) as (x0 & A & B & C). exists x0. split; [exact A|]. split; [exact B|].
  intros <-. unfold wrapped in W. rewrite RF in W. subst x. rewrite YS, YO in V. specialize (C y d SA). lra.
Qed.
Print Assumptions C110_channel.

(** A skeleton of two bones; the second one moves. *)
Definition nodding (t : tolerances) : anim_data :=
  AnimData [Bone [97; 58; 98] (-1) [Channel ScaleUniformly 3 [SNode 0 2 0]]; Bone [99] 0 [Channel TranslateX 0 [SNode 0 1 0; SNode 500 4 1]; Channel RotateZ 1 [SNode 0 0 0; SNode 250 1 0; SNode 500 0 0]]]%Z (-1) t false.
Example C110_case : forall t from_matrix, let p := Playback 0 0 1 0 1 true in let deltas := [100; 33 / 2; 1000] in
  exists r a d0 d1 d2, create_flat_buffer (nodding t) AlwaysRepeat [1%Z] = Some [r] /\ load_rig (fun r => r) r = Some a /\
    rig_new (bone_class spline_class from_matrix) a 0 0 = Some d0 /\ blend_to_anim (bone_class spline_class from_matrix) a p 0 d0 = Some d1 /\ frames (rig_plays from_matrix) deltas d1 = Some d2.
Proof.
  intros t fm p deltas. destruct (C85_case t) as (_ & _ & BO & OK).
  assert (C3 : channel_ok (Channel RotateZ 1 [SNode 0 0 0; SNode 250 1 0; SNode 500 0 0])).
  { unfold channel_ok, int_max; cbn [ch_nodes ch_op map sn_time]. split; [discriminate|]. split; [unfold len; cbn [length Z.of_nat Pos.of_succ_nat Pos.succ]; lia|]. split; [repeat (constructor; [|repeat constructor; lia]); constructor|]. split; [|reflexivity]. intros x [<-|[<-|[<-|[]]]]; cbn; lia. }
  destruct (C110_rig fm (nodding t) AlwaysRepeat [1%Z] 0 0 p deltas) as (r & a & d0 & d1 & d2 & A & B & C & D & E & _).
  - reflexivity.
  - unfold len. cbn [length nodding ad_bones Z.of_nat Pos.of_succ_nat Pos.succ]. lia.
  - intros i b Hb. pose proof (getz_Some _ _ _ Hb) as HR. unfold len in HR. cbn [length nodding ad_bones Z.of_nat Pos.of_succ_nat Pos.succ] in HR. assert (i = 0 \/ i = 1)%Z as [-> | ->] by lia; injection Hb as <-; cbn; lia.
  - intros b c IB IC. assert (OKC : channel_ok c).
    { destruct IB as [<-|[<-|[]]]; [apply (OK _ c (or_introl eq_refl) IC)|]. destruct IC as [<-|[<-|[]]]; [apply (OK _ _ (or_intror (or_introl eq_refl))); now left|exact C3]. }
    split; [exact OKC|]. destruct IB as [<-|[<-|[]]]; [destruct IC as [<-|[]]|destruct IC as [<-|[<-|[]]]]; cbn [ch_nodes ch_id ch_op]; (split; [unfold len; cbn [length Z.of_nat Pos.of_succ_nat Pos.succ]; lia|]); (split; [lia|]); (split; [discriminate|]); intros _ L; cbn; try lia.
    unfold len in L. cbn [length Z.of_nat Pos.of_succ_nat Pos.succ] in L. lia.
  - now left.
  - split; [cbn; lra|]. split; [cbn; lra|]. repeat constructor; cbn; lra.
  - discriminate.
  - exists r, a, d0, d1, d2. auto.
Qed.
Example C110_keyframes_case : exists s, holds_keyframes [SNode 0 0 0; SNode 250 1 0; SNode 500 0 0] s /\ plays_keyframes [SNode 0 0 0; SNode 250 1 0; SNode 500 0 0] s /\ spaced [SNode 0 0 0; SNode 250 1 0; SNode 500 0 0].
Proof.
  destruct (create_ok [SNode 0 0 0; SNode 250 1 0; SNode 500 0 0]) as (s & _ & HK & PK).
  - unfold len. cbn [length Z.of_nat Pos.of_succ_nat Pos.succ]. lia.
  - cbn [map sn_time]. repeat (constructor; [|repeat constructor; lia]); constructor.
  - exists s. split; [exact HK|]. split; [exact PK|]. split; [cbn [map sn_time]; repeat (constructor; [|repeat constructor; lia]); constructor|]. intros x [<-|[<-|[<-|[]]]]; cbn; lia.
Qed.
