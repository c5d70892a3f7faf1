(** Runs of the converter (C105). *)
From Verif Require Import RBase BaseFacts CommandLineModel RangeModel CurveModel CompactSplineModel MatrixModel MatrixProps RigModel AnimTableModel AnimDataModel AnimSpec AnimCurveProps AnimPruneProps AnimTimeProps AnimChannelsModel AnimSumProps AnimChannelsProps AnimStableProps FlatAnimModel FlatAnimProps FlatLoadProps FbxModel FbxProps PipelineModel PipelineProps.
From Coq Require Import Sorting.Sorted.
Local Open Scope Z_scope.

(** ** Times *)
Lemma skeleton_trans P Q d1 d2 d3 : same_skeleton P d1 d2 -> same_skeleton Q d2 d3 -> same_skeleton (fun n n' => exists k, P n k /\ Q k n') d1 d3.
Proof.
  intros (A1 & A2 & A3 & A4) (B1 & B2 & B3 & B4). unfold same_skeleton. rewrite B1, B2, B3. repeat (split; [assumption|]). clear - A4 B4. revert A4 B4. generalize (ad_bones d1) (ad_bones d2) (ad_bones d3). intros l1 l2 l3 A. revert l3. induction A as [|x y l1 l2 (N1 & P1 & C1) A IH]; intros l3 B; inversion B as [|? z ? l3' (N2 & P2 & C2) B']; subst; constructor; [|now apply IH].
  rewrite N2, P2. repeat (split; [assumption|]). clear - C1 C2. revert C1 C2. generalize (bn_channels x) (bn_channels y) (bn_channels z). intros m1 m2 m3 A. revert m3. induction A as [|c e m1 m2 (O1 & I1 & Q1) A IH]; intros m3 B; inversion B as [|? g ? m3' (O2 & I2 & Q2) B']; subst; constructor; [|now apply IH].
  rewrite O2, I2. repeat (split; [assumption|]). exists (ch_nodes e). auto.
Qed.
Lemma skeleton_back P d d' n' : same_skeleton P d d' -> animated d' n' -> exists b c, In b (ad_bones d) /\ In c (bn_channels b) /\ P (ch_nodes c) n'.
Proof.
  intros (_ & _ & _ & F) (b' & c' & B' & C' & -> & L').
  assert (G : forall {A B} (Q : A -> B -> Prop) l l' y, Forall2 Q l l' -> In y l' -> exists x, In x l /\ Q x y).
  { clear. intros A B Q l l' y H. induction H as [|x z l l' XZ H IH]; intros []; [subst; exists x; split; [now left|exact XZ]|]. destruct (IH H0) as (w & W & WQ). exists w. split; [now right|exact WQ]. }
  destruct (G _ _ _ _ _ _ F B') as (b & B & _ & _ & FC). destruct (G _ _ _ _ _ _ FC C') as (c & C & _ & _ & X). exists b, c. auto.
Qed.
Lemma skeleton_forth P d d' n : same_skeleton P d d' -> animated d n -> exists b' c', In b' (ad_bones d') /\ In c' (bn_channels b') /\ P n (ch_nodes c').
Proof.
  intros (_ & _ & _ & F) (b & c & B & C & -> & L).
  assert (G : forall {A B} (Q : A -> B -> Prop) l l' x, Forall2 Q l l' -> In x l -> exists y, In y l' /\ Q x y).
  { clear. intros A B Q l l' y H. induction H as [|x z l l' XZ H IH]; intros []; [subst; exists z; split; [now left|exact XZ]|]. destruct (IH H0) as (w & W & WQ). exists w. split; [now right|exact WQ]. }
  destruct (G _ _ _ _ _ _ F B) as (b' & B' & _ & _ & FC). destruct (G _ _ _ _ _ _ FC C) as (c' & C' & _ & _ & X). exists b', c'. auto.
Qed.
Lemma moved_len o n k : moved_by o n k -> len k = len n.
Proof. unfold moved_by, len. intros F. induction F; cbn [length]; lia. Qed.
Lemma moved_first o n k : n <> [] -> moved_by o n k -> sn_time (first_node k) = sn_time (first_node n) + o.
Proof. intros N F. unfold moved_by in F. destruct F as [|x y l l' (T & _) F]; [easy|]. cbn. lia. Qed.
Lemma moved_end o n k : n <> [] -> moved_by o n k -> sn_time (end_node k) = sn_time (end_node n) + o.
Proof. intros N F. unfold moved_by, end_node in *. destruct F as [|x y l l' (T & _) F]; [easy|]. clear N. revert x y T. induction F as [|a b l l' (T' & _) F IH]; intros x y T; [cbn; lia|]. exact (IH a b T'). Qed.
Lemma moved_in o n k y : moved_by o n k -> In y k -> exists x, In x n /\ sn_time y = sn_time x + o.
Proof. unfold moved_by. intros F. induction F as [|a b l l' (T & _) F IH]; intros []; [subst; exists a; split; [now left|lia]|]. destruct (IH H) as (x & X & E). exists x. split; [now right|exact E]. Qed.
Lemma moved_zero n : moved_by 0 n n.
Proof. unfold moved_by. induction n as [|x n IH]; constructor; [|exact IH]. split; [lia|auto]. Qed.
Lemma skeleton_same (P : list snode -> list snode -> Prop) d : (forall n, P n n) -> same_skeleton P d d.
Proof.
  intros H. unfold same_skeleton. repeat (split; [reflexivity|]). induction (ad_bones d) as [|b l IH]; constructor; [|exact IH]. repeat (split; [reflexivity|]). induction (bn_channels b) as [|c m IM]; constructor; auto.
Qed.
Lemma nonempty_len {A} (n : list A) : 1 < len n -> n <> [].
Proof. intros L ->. cbn in L. lia. Qed.

Lemma animated_dec d : (exists n, animated d n) \/ ~ exists n, animated d n.
Proof.
  destruct (existsb (fun b => existsb (fun c => 1 <? len (ch_nodes c)) (bn_channels b)) (ad_bones d)) eqn:E.
  - left. apply existsb_exists in E. destruct E as (b & B & E). apply existsb_exists in E. destruct E as (c & C & E). exists (ch_nodes c), b, c. repeat split; auto. lia.
  - right. intros (n & b & c & B & C & -> & L). assert (X : existsb (fun b => existsb (fun c => 1 <? len (ch_nodes c)) (bn_channels b)) (ad_bones d) = true); [|congruence]. apply existsb_exists. exists b. split; [exact B|]. apply existsb_exists. exists c. split; [exact C|lia].
Qed.

(** C105, the times: with times below 2^30 the converter's last steps succeed.  Unless the start
    time is to be kept, all curves are shifted so that the earliest starts at 0; unless the ends
    are to be staggered, all curves end together, when the last of them ended, those that ended before keeping their
    last value. *)
Theorem C105_times : forall keep_start stagger_ends d, (forall b c x, In b (ad_bones d) -> In c (bn_channels b) -> In x (ch_nodes c) -> - 2 ^ 30 < sn_time x < 2 ^ 30) ->
  exists d' lo hi, set_times keep_start stagger_ends d = Some d' /\
    (keep_start = true -> lo = 0) /\ ((forall n, ~ animated d n) -> lo = 0) /\
    same_skeleton (fun n n' => exists k, moved_by (- lo) n k /\ if stagger_ends then n' = k else extended hi k n') d d' /\
    (keep_start = false -> forall n', animated d' n' -> 0 <= sn_time (first_node n') /\ exists n0, animated d' n0 /\ sn_time (first_node n0) = 0) /\
    (stagger_ends = false -> forall n', animated d' n' -> sn_time (end_node n') = hi /\ exists n, animated d n /\ hi = sn_time (end_node n) - lo).
Proof.
  intros ks st d T. change (2 ^ 30) with 1073741824 in T.
  assert (TA : forall n x, animated d n -> In x n -> int_min < sn_time x < int_max) by (intros n x (b & c & B & C & -> & _) X; specialize (T b c x B C X); unfold int_min, int_max; lia).
  destruct (C73_span d) as (hi0 & lo0 & _ & MN & NO & SP).
  assert (LOB : -1073741824 < lo0 < 1073741824).
  { destruct (animated_dec d) as [(n & AN)|N]; [|destruct NO as [_ NO]; [intros n AN; apply N; eauto|lia]]. destruct (SP n AN (fun x => TA n x AN)) as (_ & _ & _ & n' & (b & c & B & C & -> & L) & E). rewrite <- E. apply (T b c _ B C). destruct (ch_nodes c) as [|a r]; [cbn in L; lia|now left]. }
  set (lo := if ks then 0 else lo0).
  assert (S1 : exists d1, (if ks then Some d else m <- min_animated_time d ;; o <- sub_int 0 m ;; shift_time d o) = Some d1 /\ same_skeleton (moved_by (- lo)) d d1).
  { destruct ks; [exists d; split; [reflexivity|]; apply skeleton_same; exact moved_zero|]. rewrite MN. unfold sub_int, add_int. replace ((-2147483648 <=? 0 + - lo0) && (0 + - lo0 <=? 2147483647)) with true by lia. rewrite Z.add_0_l. apply C73_shift. intros b c x B C X. specialize (T b c x B C X). unfold int_min, int_max. lia. }
  destruct S1 as (d1 & E1 & K1).
  assert (TA1 : forall n x, animated d1 n -> In x n -> int_min < sn_time x < int_max).
  { intros n x AN X. destruct (skeleton_back _ _ _ _ K1 AN) as (b & c & B & C & M). destruct (moved_in _ _ _ _ M X) as (y & Y & E). specialize (T b c y B C Y). unfold int_min, int_max, lo in *. destruct ks; lia. }
  destruct (C73_span d1) as (hi & lo1 & MX & _ & _ & SP1).
  assert (S2 : exists d', (if st then Some d1 else m <- max_animated_time d1 ;; extend_channels d1 m) = Some d' /\ same_skeleton (fun k n' => if st then n' = k else extended hi k n') d1 d').
  { destruct st; [exists d1; split; [reflexivity|]; apply skeleton_same; reflexivity|]. rewrite MX. apply C73_extend. }
  destruct S2 as (d' & E2 & K2). pose proof (skeleton_trans _ _ _ _ _ K1 K2) as K. exists d', lo, hi. split; [unfold set_times; rewrite E1; exact E2|]. split; [unfold lo; now intros ->|]. split; [intros N; unfold lo; destruct ks; [reflexivity|now apply NO]|]. split; [exact K|].
  assert (AN1 : forall k n', 1 < len n' -> (if st then n' = k else extended hi k n') -> 1 < len k /\ first_node n' = first_node k).
  { intros k n' L H. destruct st; [now subst|]. destruct H as (_ & (more & E) & Q & _). assert (L1 : 1 < len k) by (destruct (Z.le_gt_cases (len k) 1) as [U|U]; [rewrite (Q U) in L; lia|lia]). split; [exact L1|]. rewrite E. destruct k as [|a k]; [cbn in L1; lia|reflexivity]. }
  split.
  - intros -> n' AN. assert (AN' := AN). destruct AN' as (b' & c' & B' & C' & E' & L'). destruct (skeleton_back _ _ _ _ K AN) as (b & c & B & C & k & M & H). destruct (AN1 k n' L' H) as [LK FK]. pose proof (moved_len _ _ _ M) as ML. assert (A0 : animated d (ch_nodes c)) by (exists b, c; repeat split; auto; lia). destruct (SP _ A0 (fun x => TA _ x A0)) as (_ & LE & _ & n0 & A00 & F0). split.
    + rewrite FK, (moved_first _ _ _ (nonempty_len (ch_nodes c) ltac:(lia)) M). unfold lo. lia.
    + destruct (skeleton_forth _ _ _ _ K A00) as (b2 & c2 & B2 & C2 & k2 & M2 & H2). assert (L0 : 1 < len n0) by (destruct A00 as (? & ? & _ & _ & _ & L0); exact L0). assert (L2 : 1 < len (ch_nodes c2)). { destruct st; [rewrite H2, (moved_len _ _ _ M2); exact L0|]. destruct H2 as (_ & (more & E) & _). rewrite E, len_app, (moved_len _ _ _ M2). pose proof (len_nonneg more). lia. }
      exists (ch_nodes c2). split; [exists b2, c2; auto|]. destruct (AN1 k2 _ L2 H2) as [_ ->]. rewrite (moved_first _ _ _ (nonempty_len n0 L0) M2). unfold lo. lia.
  - intros -> n' AN. rewrite MX in E2. split; [exact (C73_extend_all d1 hi d' n' TA1 MX E2 AN)|]. assert (AN' := AN). destruct AN' as (b' & c' & B' & C' & E' & L'). destruct (skeleton_back _ _ _ _ K2 AN) as (b1 & c1 & B1 & C1 & H). destruct (AN1 _ n' L' H) as [LK _].
    assert (A1 : animated d1 (ch_nodes c1)) by (exists b1, c1; auto). destruct (SP1 _ A1 (fun x => TA1 _ x A1)) as (_ & _ & (n1 & AN2 & E3) & _). destruct (skeleton_back _ _ _ _ K1 AN2) as (b & c & B & C & M). pose proof (moved_len _ _ _ M) as ML. assert (L1 : 1 < len n1) by (destruct AN2 as (? & ? & _ & _ & _ & L1); exact L1).
    exists (ch_nodes c). split; [exists b, c; repeat split; auto; lia|]. rewrite <- E3. rewrite (moved_end _ _ _ (nonempty_len (ch_nodes c) ltac:(lia)) M). lia.
Qed.
Print Assumptions C105_times.

(** ** Scenes that are not animated *)
Section Total.
Context (ms : Z -> Z) (nu : bool) (span : Z * Z).
Definition gathers (t : tolerances) (n : fbx_bone) : Prop := forall i f, In (i, f) (spots n) -> exists chs, node_channels ms nu span t f = Some chs.
Lemma each_total : forall l, Forall (fun n => forall i j d, numbered n i j -> ready nu d i j -> gathers (ad_tol d) n -> exists d', gather_anim ms nu span n d = Some d') l ->
  forall i j d, numbered_all l i j -> 0 <= i -> ready nu d i j -> Forall (gathers (ad_tol d)) l -> exists d', gather_each ms nu span l d = Some d'.
Proof.
  induction 1 as [|n l N H IH]; intros i j d NA I0 RD G; inversion NA as [|? ? ? m ? N1 N2]; subst; cbn [gather_each]; [eauto|]. inversion G as [|? ? G1 G2]; subst. pose proof (numbered_le _ _ _ N1). pose proof (numbered_all_le _ _ _ N2).
  assert (RD1 : ready nu d i m) by (destruct RD as (CU & _ & J & EM & KP); repeat (split; [first [assumption|lia]|]); split; [intros k K; apply EM; lia|exact KP]). destruct (N i m d N1 RD1 G1) as [d1 E1]. rewrite E1. destruct (tree_ok ms nu span n i m d d1 N1 RD1 E1) as [S1 _]. pose proof S1 as (_ & A2 & _). apply (IH m j d1 N2 ltac:(lia) (ready_after ms nu d d1 i m j ltac:(lia) ltac:(lia) RD S1)). now rewrite A2.
Qed.
Lemma tree_total : forall n i j d, numbered n i j -> ready nu d i j -> gathers (ad_tol d) n -> exists d', gather_anim ms nu span n d = Some d'.
Proof.
  apply (bone_ind2 (fun n => forall i j d, numbered n i j -> ready nu d i j -> gathers (ad_tol d) n -> exists d', gather_anim ms nu span n d = Some d')). intros q f cs H i j d N RD G. inversion N as [? ? ? ? NA]; subst. pose proof (numbered_all_le _ _ _ NA) as LE.
  destruct (G i f (or_introl eq_refl)) as [chs NC]. rewrite gather_anim_eq. pose proof (bone_step ms nu span d i f j RD ltac:(lia)) as BS. rewrite NC in BS. pose proof (bone_done ms nu span d i f j) as BD.
  assert (SC : exists d1, set_cur_bone d i = Some d1 /\ exists d2, set_cur_channels d1 chs = Some d2).
  { destruct RD as (CU & I0 & J & _). unfold set_cur_bone. replace ((0 <=? i) && (i <? len (ad_bones d))) with true by lia. rewrite CU. cbn [Z.eqb Pos.eqb]. eexists. split; [reflexivity|]. destruct (getz_in_range (ad_bones d) i ltac:(lia)) as [b B]. destruct (getz_split _ _ _ B) as (X & Y & E & L). eexists. apply (set_cur_split (AnimData (ad_bones d) i (ad_tol d) (ad_root_only d)) b X Y chs B E). cbn. lia. }
  destruct SC as (d1 & SC & d2 & S2). rewrite SC in BS. rewrite SC, BS, S2. destruct (BD d2 chs RD ltac:(lia) NC) as [CH ST]; [rewrite SC; exact S2|]. pose proof ST as (A1 & A2 & A3 & A4 & A5 & A6). assert (I0 : 0 <= i) by apply RD.
  unfold should_recurse. pose proof (key_len _ _ A4). destruct (getz_in_range (ad_bones (reset_cur_bone d2)) i) as [b B]; [destruct RD as (_ & _ & J & _); lia|]. rewrite B. cbv beta iota. destruct (negb _ || _); [|eauto].
  apply (each_total cs H (i + 1) j _ NA ltac:(lia) (ready_after ms nu d _ i (i + 1) j ltac:(lia) ltac:(lia) RD ST)). rewrite A2. rewrite Forall_forall. intros c C k g K. apply (G k g). rewrite spots_eq. right. apply in_flat_map. eauto.
Qed.
End Total.

Definition single (c : channel) : Prop := exists v, ch_nodes c = [SNode 0 v 0].
Lemma single_dec c : single c \/ ~ single c.
Proof.
  unfold single. destruct (ch_nodes c) as [|[t v w] [|]]; try (right; intros [x E]; discriminate). destruct (Z.eq_dec t 0) as [->|T]; [|right; intros [x E]; injection E; intros; contradiction]. destruct (Req_EM_T w 0) as [->|W]; [left; eauto|right; intros [x E]; injection E; intros; contradiction].
Qed.
Lemma erase_in {A} (l : list A) i n x : In x (erase l i n) -> In x l.
Proof. unfold erase. intros H. apply in_app_or in H. destruct H as [H|H]. - revert H. generalize (Z.to_nat i). intros k H. rewrite <- (firstn_skipn k l). apply in_or_app. now left. - revert H. generalize (Z.to_nat (i + n)). intros k H. rewrite <- (firstn_skipn k l). apply in_or_app. now right. Qed.
Lemma setz_in {A} (l : list A) i x l' y : setz l i x = Some l' -> In y l' -> y = x \/ In y l.
Proof.
  unfold setz. destruct (_ && _); [|discriminate]. intros E. injection E as <-. intros H. apply in_app_or in H. destruct H as [H|[H|H]]; [right|now left|right].
  - rewrite <- (firstn_skipn (Z.to_nat i) l). apply in_or_app. now left.
  - rewrite <- (firstn_skipn (S (Z.to_nat i)) l). apply in_or_app. now right.
Qed.
Lemma getz_in {A} (l : list A) i x : getz l i = Some x -> In x l.
Proof. unfold getz. destruct (i <? 0); [discriminate|]. apply nth_error_In. Qed.
Lemma prune_single t nu l ch l' : (forall c, In c l -> single c) -> prune_channel t nu l ch = Some l' -> forall c, In c l' -> single c.
Proof.
  intros H. unfold prune_channel.
  assert (G1 : forall l1, (if negb nu && uniform_scale_channels t l ch then collapse_scale l ch else Some l) = Some l1 -> forall c, In c l1 -> single c).
  { intros l1. destruct (_ && _); [|intros E; injection E as <-; exact H]. unfold collapse_scale. destruct (getz l ch) as [c0|] eqn:G; [|discriminate]. destruct (setz l ch _) as [l2|] eqn:SZ; [|discriminate]. intros E. injection E as <-. intros c C. apply erase_in in C. destruct (setz_in _ _ _ _ _ SZ C) as [->|C']; [|now apply H]. exact (H c0 (getz_in _ _ _ G)). }
  destruct (if negb nu && uniform_scale_channels t l ch then collapse_scale l ch else Some l) as [l1|]; [|discriminate]. specialize (G1 l1 eq_refl). destruct (summable_channel l1 ch) as [s|]; [|discriminate].
  assert (G2 : forall l2, (if 0 <=? s then l0 <- sum_channels l1 ch s ;; Some (erase l0 s 1) else Some l1) = Some l2 -> forall c, In c l2 -> single c).
  { intros l2. destruct (0 <=? s); [|intros E; injection E as <-; exact G1]. unfold sum_channels. destruct (getz l1 ch) as [ca|] eqn:GA; [|discriminate]. destruct (getz l1 s) as [cb|] eqn:GB; [|discriminate]. destruct (G1 ca (getz_in _ _ _ GA)) as [va EA]. destruct (G1 cb (getz_in _ _ _ GB)) as [vb EB]. rewrite EA, EB.
    change (sum_nodes [SNode 0 va 0] [SNode 0 vb 0]) with (Some [SNode 0 (va + vb) 0]). cbv beta iota. destruct (setz l1 ch _) as [l3|] eqn:SZ; [|discriminate]. intros E. injection E as <-. intros c C. apply erase_in in C. destruct (setz_in _ _ _ _ _ SZ C) as [->|C']; [exists (va + vb)%R; reflexivity|now apply G1]. }
  destruct (if 0 <=? s then l0 <- sum_channels l1 ch s ;; Some (erase l0 s 1) else Some l1) as [l2|]; [|discriminate]. specialize (G2 l2 eq_refl). destruct (getz l2 ch) as [c0|]; [|discriminate]. destruct (ch_nodes c0) as [|a [|]]; intros E; injection E as <-; try exact G2. destruct (is_default _ _ _); [|exact G2]. intros c C. apply erase_in in C. now apply G2.
Qed.
Lemma loop_single t nu : forall k l l', (forall c, In c l -> single c) -> prune_loop t nu k l = Some l' -> forall c, In c l' -> single c.
Proof. induction k as [|k IH]; intros l l' H; cbn [prune_loop]; [intros E; injection E as <-; exact H|]. destruct (prune_channel t nu l _) as [l1|] eqn:PC; [|discriminate]. apply IH. exact (prune_single _ _ _ _ _ H PC). Qed.
Lemma static_single ms nu span t f chs : unanimated f -> node_channels ms nu span t f = Some chs -> forall c, In c chs -> single c.
Proof.
  intros U. unfold node_channels. destruct (prop_adds _ _ _ _ _) as [r|] eqn:PA; [|discriminate]. unfold prune_bone. cbn [bn_channels bn_name bn_parent]. destruct (prune_loop _ _ _ _) as [l|] eqn:PL; [|discriminate]. cbn [bn_channels]. intros E. injection E as <-. intros c C. apply (proj1 (sort_in _ _)) in C. revert c C. refine (loop_single _ _ _ _ _ _ PL). intros c C.
  apply prop_slots in PA. clear PL. revert C. induction PA as [|s x ss r S PA IH]; intros C; [destruct C|]. cbn [concat] in C. apply in_app_or in C. destruct C as [C|C]; [|now apply IH]. destruct (static_added ms t f span s U) as (x' & X & SN). assert (x' = x) as -> by congruence. now apply SN.
Qed.
Lemma static_alone ms nu span t f : positive t -> orders_ok (fd_order f) -> unanimated f -> exists chs, node_channels ms nu span t f = Some chs /\
  forall x, exists w, posed chs x = Some (fbx_matrix (fd_order f) w) /\
    forall i a name inverse, getz formula i = Some (name, inverse) -> 0 <= a < 3 -> (Rabs (w i a - amount name inverse (fp_value (fd_property f name) a)) < slack t (operation name a))%R.
Proof.
  intros PT OK U. destruct (C95_static_partial ms nu span f (AnimData [Bone [] (-1) []] 0 t false) PT OK U eq_refl) as (d' & b' & G & CU & B & _ & P); [intros i b I G; apply getz_Some in G; cbn in I, G; lia|]. exists (bn_channels b'). split; [|exact P]. apply alone_eq. exists d'. split; [exact G|]. unfold cur_channels. rewrite CU. cbn [ad_cur]. cbn [ad_cur] in B. now rewrite B.
Qed.

(** C104 for a scene that is not animated: it is exported, and the channels of a bone always play the
    FBX transform of the node's properties, up to the tolerances. *)
Theorem C104_static_partial : forall ms nu span roots t root_only, positive t -> (forall n, In n (scene_bones roots) -> orders_ok (fd_order (scene_data n)) /\ unanimated (scene_data n)) ->
  exists d, gather_flat_anim ms nu span roots (new_anim_data t root_only) = Some d /\
    (forall b c, In b (ad_bones d) -> In c (bn_channels b) -> exists v, ch_nodes c = [SNode 0 v 0]) /\
    forall i b n, getz (ad_bones d) i = Some b -> getz (scene_bones roots) i = Some n -> root_only = false \/ ~ below_animated d i ->
      forall x, exists w, posed (bn_channels b) x = Some (fbx_matrix (fd_order (scene_data n)) w) /\
        forall k a name inverse, getz formula k = Some (name, inverse) -> 0 <= a < 3 -> (Rabs (w k a - amount name inverse (fp_value (fd_property (scene_data n) name) a)) < slack t (operation name a))%R.
Proof.
  intros ms nu span roots t ro PT ST.
  assert (EX : exists d, gather_flat_anim ms nu span roots (new_anim_data t ro) = Some d).
  { unfold gather_flat_anim. rewrite gather_each_eq, gather_all_eq. change (len (ad_bones (new_anim_data t ro))) with 0. destruct (labels_good roots ltac:(apply Forall_forall; intros n _; apply label_all_good) (-1) (new_anim_data t ro)) as (NA & LE & RT & SP). cbv zeta in *. change (len (ad_bones (new_anim_data t ro))) with 0 in *.
    destruct (list_added (map skeleton_of roots) ltac:(apply Forall_forall; intros n _; apply tree_added) (-1) (new_anim_data t ro)) as (bs & E & CU & TL & RO & LB & PLC). set (d0 := gather_list (map skeleton_of roots) (-1) (new_anim_data t ro)) in *. cbn [new_anim_data ad_bones app ad_cur ad_tol ad_root_only] in E, CU, TL, RO.
    assert (EM : forall b, In b bs -> bn_channels b = []). { intros b Ib. apply In_nth_error in Ib. destruct Ib as (k & K). assert (GK : getz bs (Z.of_nat k) = Some b) by (unfold getz; replace (Z.of_nat k <? 0) with false by lia; now rewrite Nat2Z.id). pose proof (getz_Some _ _ _ GK). destruct (getz_in_range (filter need_bone (flat_map subnodes (map skeleton_of roots))) (Z.of_nat k) ltac:(lia)) as [n N]. now destruct (PLC _ b n GK N) as (_ & C & _). }
    apply (each_total ms nu span _ ltac:(apply Forall_forall; intros n _; apply tree_total) 0 _ d0 NA ltac:(lia)).
    - split; [exact CU|]. split; [lia|]. split; [lia|]. rewrite <- E in EM. split; [intros k _; unfold chans; destruct (getz (ad_bones d0) k) as [b|] eqn:G; [|reflexivity]; apply EM; exact (getz_in _ _ _ G)|]. intros b B. specialize (EM b B). destruct b as [bn bp bc]. cbn in EM. rewrite EM. apply prune_empty.
    - rewrite TL. rewrite Forall_forall. intros n N i f F. assert (IF : In f (map snd (flat_map spots (fst (labels roots 0))))) by (apply in_map_iff; exists (i, f); split; [reflexivity|apply in_flat_map; eauto]). rewrite SP in IF. apply in_map_iff in IF. destruct IF as (q & <- & Q). destruct (ST q Q) as [OK U]. destruct (static_alone ms nu span t (scene_data q) PT OK U) as (chs & NC & _). eauto. }
  destruct EX as [d E]. exists d. split; [exact E|]. pose proof (C104_scene ms nu span roots t ro d E) as SC. cbv zeta in SC. destruct SC as (_ & _ & RO & NM & _ & SC).
  assert (LB : len (ad_bones d) = len (scene_bones roots)) by (rewrite <- (len_map bn_name (ad_bones d)), NM; apply len_map). split.
  - intros b c B C. apply In_nth_error in B. destruct B as (k & K). assert (GK : getz (ad_bones d) (Z.of_nat k) = Some b) by (unfold getz; replace (Z.of_nat k <? 0) with false by lia; now rewrite Nat2Z.id). pose proof (getz_Some _ _ _ GK). destruct (getz_in_range (scene_bones roots) (Z.of_nat k) ltac:(lia)) as [n N]. destruct (SC _ b n GK N) as [S1 S2]. destruct (ST n (getz_in _ _ _ N)) as [OK U].
    destruct (single_dec c) as [SI|SI]; [exact SI|exfalso]. assert (NB : ro = false \/ ~ below_animated d (Z.of_nat k)) by (destruct ro; [right; intros BA; rewrite (S1 eq_refl BA) in C; destruct C|now left]).
    apply S2 in NB. apply alone_eq in NB. apply SI. exact (static_single _ _ _ _ _ _ U NB c C).
  - intros i b n GB GN H. destruct (SC i b n GB GN) as [_ S2]. specialize (S2 H). apply alone_eq in S2. destruct (ST n (getz_in _ _ _ GN)) as [OK U]. destruct (static_alone ms nu span t (scene_data n) PT OK U) as (chs & NC & P). assert (bn_channels b = chs) as -> by congruence. exact P.
Qed.
Print Assumptions C104_static_partial.

(** ** Runs *)
Lemma times_same ks st d : (forall b c, In b (ad_bones d) -> In c (bn_channels b) -> single c) -> set_times ks st d = Some d.
Proof.
  intros H. assert (NA : forall n, ~ animated d n) by (intros n (b & c & B & C & -> & L); destruct (H b c B C) as [v E]; rewrite E in L; cbn in L; lia).
  destruct (C73_span d) as (hi & lo & MX & MN & Z0 & _). destruct (Z0 NA) as [-> ->].
  assert (FX : forall f, (forall v, f [SNode 0 v 0] = Some [SNode 0 v 0]) -> each_channel f d = Some d).
  { intros f F. unfold each_channel. rewrite map_opt_fixed; [destruct d; reflexivity|]. intros b B. rewrite map_opt_fixed; [destruct b; reflexivity|]. intros c C. destruct (H b c B C) as [v E]. rewrite E, F. destruct c as [o i n]. cbn in *. now rewrite E. }
  unfold set_times. rewrite MN. change (sub_int 0 0) with (Some 0). cbv beta iota.
  assert (SH : shift_time d 0 = Some d) by reflexivity. rewrite SH.
  assert (EX : extend_channels d 0 = Some d) by (unfold extend_channels; apply FX; intros v; reflexivity).
  destruct ks; cbv beta iota; (destruct st; [reflexivity|]); rewrite MX; exact EX.
Qed.
Lemma skeleton_bones roots : filter need_bone (flat_map subnodes (map skeleton_of roots)) = map skeleton_of (scene_bones roots).
Proof.
  unfold scene_bones. assert (SN : forall n, subnodes (skeleton_of n) = map skeleton_of (scene_nodes n)).
  { apply scene_ind2. intros name s f cs H. rewrite scene_nodes_eq. cbn [skeleton_of scene_children map]. rewrite subnodes_eq. cbn [fbx_children]. f_equal. induction H as [|c cs C H IH]; [reflexivity|]. cbn [map flat_map]. now rewrite map_app, C, IH. }
  assert (FM : flat_map subnodes (map skeleton_of roots) = map skeleton_of (flat_map scene_nodes roots)) by (induction roots as [|n r IH]; [reflexivity|]; cbn [map flat_map]; now rewrite map_app, SN, IH). rewrite FM. generalize (flat_map scene_nodes roots). induction l as [|n l IH]; [reflexivity|]. cbn [map filter]. unfold bone_node at 1. destruct (need_bone (skeleton_of n)); cbn [map]; now rewrite IH.
Qed.
(** What the rigs in a file say about repeating. *)
Lemma file_repeats d p name rigs : create_flat_buffer d p name = Some rigs -> forall r, In r rigs -> len (ad_bones d) <= 254 /\ repeats d p = Some (fr_repeat r).
Proof.
  unfold create_flat_buffer. destruct (Z.ltb_spec kMaxNumBones (len (ad_bones d))) as [L|L]; [intros [= <-] r []|]. unfold kMaxNumBones in L.
  assert (X : forall i n nm r, export_range d p i n nm = Some r -> repeats d p = Some (fr_repeat r)).
  { intros i n nm r E. unfold export_range in E. cbv zeta in E. destruct (map_opt _ _); [|discriminate]. destruct (map_opt _ _); [|discriminate]. destruct (map_opt _ _); [|discriminate]. destruct (repeats d p); [|discriminate]. now injection E as <-. }
  destruct (negb (ad_root_only d)).
  - destruct (export_range d p 0 _ name) as [q|] eqn:E; [|discriminate]. intros [= <-] r [<-|[]]. split; [exact L|]. now apply (X _ _ _ _ E).
  - intros E r I. split; [exact L|]. revert rigs E I. generalize (filter (fun i => match getz (ad_bones d) i with Some b => negb (len (bn_channels b) =? 0) | None => false end) (indices (length (ad_bones d)) 0)). induction l as [|a l IH]; intros rigs E I; cbn [map_opt] in E; [injection E as <-; destruct I|].
    destruct (export_range d p a 1 _) as [q|] eqn:EQ; [|discriminate]. destruct (map_opt _ l) as [qs|]; [|discriminate]. injection E as <-. destruct I as [<-|I]; [now apply (X _ _ _ _ EQ)|now apply (IH qs)].
Qed.
(** C105: if the converter ends with status 0 and a file, it had the scene, was not asked to dump it, could
    write, and the file is not empty: it holds the scene's bones gathered and set in time.  Whenever the status
    is not 0 there is no file.  The tolerances are those of the command line; whether the file says that the animation
    repeats is what the command line says, if it does, and else whether every channel ends as it starts. *)
Theorem C105_run : forall args ms span scene name writable status file, run_pipeline args ms span scene name writable = Some (status, file) ->
  (forall rigs, file = Some rigs -> status = 0 /\ rigs <> [] /\ writable = true /\ debug_time args < 0 /\
     exists roots d d', scene = Some roots /\ gather_flat_anim ms (no_uniform args) span roots (new_anim_data (AnimDataModel.Tolerances (t_scale (tols args)) (t_rotate (tols args)) (t_translate (tols args)) (t_angle (tols args)) (t_repeat_angle (tols args))) (roots_only args)) = Some d /\
       set_times (preserve_start args) (stagger args) d = Some d' /\ create_flat_buffer d' (data_repeat (repeat_pref args)) name = Some rigs /\
       forall r, In r rigs -> match repeat_pref args with
         | CommandLineModel.NeverRepeat => fr_repeat r = false
         | CommandLineModel.AlwaysRepeat => fr_repeat r = true
         | CommandLineModel.RepeatIfRepeatable => (forall b c, In b (ad_bones d') -> In c (bn_channels b) -> ch_nodes c <> []) ->
             (fr_repeat r = true <-> forall b c, In b (ad_bones d') -> In c (bn_channels b) -> ends_as_it_starts (ad_tol d') c)
         end) /\
  (file = None -> status = 1 \/ (status = 0 /\ 0 <= debug_time args)).
Proof.
  intros args ms span scene name w status file. unfold run_pipeline. destruct scene as [roots|]; [|intros E; injection E as <- <-; split; [discriminate|now left]].
  destruct (Z.leb_spec 0 (debug_time args)) as [D|D]; [intros E; injection E as <- <-; split; [discriminate|auto]|].
  destruct (gather_flat_anim _ _ _ _ _) as [d|] eqn:G; [|discriminate]. destruct (set_times _ _ d) as [d'|] eqn:ST; [|discriminate]. unfold output_flat_buffer. destruct (create_flat_buffer _ _ _) as [rigs|] eqn:CF; [|discriminate].
  destruct (Z.eqb_spec (len rigs) 0) as [L|L]; [intros E; injection E as <- <-; split; [discriminate|auto]|]. destruct w; intros E; injection E as <- <-; (split; [|auto; discriminate]); [|discriminate].
  intros r E. injection E as <-. split; [reflexivity|]. split; [intros ->; now apply L|]. split; [reflexivity|]. split; [exact D|]. exists roots, d, d'. split; [reflexivity|]. split; [exact G|]. split; [exact ST|]. split; [exact CF|]. intros q Q. destruct (file_repeats _ _ _ _ CF q Q) as [LB RP]. destruct (repeat_pref args); cbn [data_repeat] in RP.
  - intros NE. destruct (C83_repeats d' ltac:(lia) NE) as (_ & _ & x & E & H). rewrite E in RP. injection RP as <-. exact H.
  - unfold repeats in RP. destruct (first_non_repeating_bone d'); [|discriminate]. now injection RP as <-.
  - now injection RP as <-.
Qed.
Print Assumptions C105_run.

(** C105, from end to end: a scene of at most 254 bones that is not animated becomes a file that loads, with
    the scene's bones, and each bone's operations are constants that make up the FBX transform of its node,
    up to the tolerances. *)
Theorem C105_static_partial : forall I (spline_init : range -> I) args ms span roots name, let t := AnimDataModel.Tolerances (t_scale (tols args)) (t_rotate (tols args)) (t_translate (tols args)) (t_angle (tols args)) (t_repeat_angle (tols args)) in
  positive t -> debug_time args < 0 -> roots_only args = false -> len (scene_bones roots) <= 254 ->
  (forall n, In n (scene_bones roots) -> orders_ok (fd_order (scene_data n)) /\ unanimated (scene_data n)) ->
  exists r a, run_pipeline args ms span (Some roots) name true = Some (0, Some [r]) /\ load_rig spline_init r = Some a /\
    ra_names a = map (fun n => bone_base_name (scene_name n)) (scene_bones roots) /\ len (ra_anims a) = len (scene_bones roots) /\ len (ra_parents a) = len (scene_bones roots) /\
    (forall i n q, getz (scene_bones roots) i = Some n -> getz (ra_parents a) i = Some q ->
       (q = kInvalidBoneIdx /\ In (skeleton_of n) (map skeleton_of roots)) \/
       (0 <= q < i /\ exists pn, getz (scene_bones roots) q = Some pn /\ In (skeleton_of n) (map skeleton_of (scene_children pn)))) /\
    (forall i n m, getz (scene_bones roots) i = Some n -> getz (ra_anims a) i = Some m -> ma_sqt m = false /\
       exists vs w, map i_union (ma_ops m) = map UValue vs /\ pose (combine (map i_type (ma_ops m)) vs) = Some (fbx_matrix (fd_order (scene_data n)) w) /\
         forall k ax name inverse, getz formula k = Some (name, inverse) -> 0 <= ax < 3 -> (Rabs (w k ax - amount name inverse (fp_value (fd_property (scene_data n) name) ax)) < slack t (operation name ax))%R).
Proof.
  intros I si args ms span roots name t PT DT RO LB ST. destruct (C104_static_partial ms (no_uniform args) span roots t (roots_only args) PT ST) as (d & G & SI & PO).
  pose proof (C104_scene ms (no_uniform args) span roots t (roots_only args) d G) as SC. cbv zeta in SC. destruct SC as (CU & TL & R' & NM & PA & _).
  assert (LD : len (ad_bones d) = len (scene_bones roots)) by (rewrite <- (len_map bn_name (ad_bones d)), NM; apply len_map).
  assert (SIN : forall b c, In b (ad_bones d) -> In c (bn_channels b) -> single c) by exact SI.
  assert (IX : forall {A} (l : list A) x, In x l -> exists i, getz l i = Some x) by (intros A l x X; apply In_nth_error in X; destruct X as (k & K); exists (Z.of_nat k); unfold getz; replace (Z.of_nat k <? 0) with false by lia; now rewrite Nat2Z.id).
  assert (POS : forall i b n, getz (ad_bones d) i = Some b -> getz (scene_bones roots) i = Some n -> forall x, exists w, posed (bn_channels b) x = Some (fbx_matrix (fd_order (scene_data n)) w) /\ forall k a name inverse, getz formula k = Some (name, inverse) -> 0 <= a < 3 -> (Rabs (w k a - amount name inverse (fp_value (fd_property (scene_data n) name) a)) < slack t (operation name a))%R) by (intros i b n B N; apply (PO i b n B N); now left).
  assert (NQ : forall b c, In b (ad_bones d) -> In c (bn_channels b) -> quaternion_op (ch_op c) = false).
  { intros b c B C. destruct (IX _ _ _ B) as [i GB]. pose proof (getz_Some _ _ _ GB). destruct (getz_in_range (scene_bones roots) i ltac:(lia)) as [n N]. destruct (POS i b n GB N 0%R) as (w & P & _). unfold posed in P. clear - P C. revert P. generalize (fbx_matrix (fd_order (scene_data n)) w). induction (bn_channels b) as [|c' l IH]; [destruct C|]. intros m. cbn [map pose]. destruct (elementary (ch_op c') _) as [e|] eqn:E; [|discriminate]. destruct (pose _) as [m'|] eqn:P'; [|discriminate]. intros _. destruct C as [->|C]; [|now apply (IH C m')]. destruct (ch_op c); try reflexivity; discriminate E. }
  destruct (C85_round_trip_partial I si d (data_repeat (repeat_pref args)) name) as (r & a & rep & CF & LR & _ & FB & FP & FN & _).
  { congruence. } { lia. } { exact (C72_scene (map skeleton_of roots) t (roots_only args) d PA). }
  { intros b c B C. destruct (SIN b c B C) as [v E]. unfold channel_ok. rewrite E. split; [discriminate|]. split; [cbn; lia|]. split; [repeat constructor|]. split; [|now apply (NQ b)]. intros x [<-|[]]. cbn. unfold int_max. lia. }
  assert (FL : forall {A B} (P : A -> B -> Prop) l l', Forall2 P l l' -> len l = len l') by (intros A B P l l' F; unfold len; induction F; cbn [length]; lia).
  exists r, a. split; [|split; [exact LR|split; [|split; [|split; [|split]]]]].
  - unfold run_pipeline. replace (0 <=? debug_time args) with false by lia. change (data_tolerances (tols args)) with t. rewrite G. rewrite (times_same _ _ d SIN). unfold output_flat_buffer. rewrite CF. reflexivity.
  - rewrite FN. transitivity (map bone_base_name (map bn_name (ad_bones d))); [now rewrite map_map|]. rewrite NM. now rewrite map_map.
  - rewrite <- (FL _ _ _ _ _ FB). exact LD.
  - rewrite <- (FL _ _ _ _ _ FP). exact LD.
  - intros i n q N Q. assert (BP : exists b, getz (ad_bones d) i = Some b /\ q = (if bn_parent b =? -1 then kInvalidBoneIdx else bn_parent b)).
    { clear - FP Q. revert i Q. induction FP as [|x y l l' E F IH]; intros i Q; [apply getz_Some in Q; cbn in Q; lia|]. pose proof (getz_Some _ _ _ Q). destruct (Z.eq_dec i 0) as [->|NZ]; [injection Q as <-; exists x; auto|]. rewrite getz_cons_pos in Q by lia. destruct (IH _ Q) as (b & B & E2). exists b. rewrite getz_cons_pos by lia. auto. }
    destruct BP as (b & B & ->). pose proof (C84_skeleton (map skeleton_of roots) t (roots_only args)) as SK. cbv zeta in SK. destruct SK as (ns & NS & _ & LN & _ & _ & _ & PL).
    rewrite skeleton_bones in NS. subst ns.
    assert (GM : forall X Y (g : X -> Y) l x, getz l i = Some x -> getz (map g l) i = Some (g x)) by (intros X Y g l x G0; unfold getz in *; destruct (i <? 0); [discriminate|]; now apply map_nth_error).
    pose proof (GM _ _ bn_parent _ _ B) as MP. rewrite PA in MP. pose proof (getz_Some _ _ _ MP) as IR. rewrite len_map in IR. destruct (getz_in_range _ i IR) as [b0 B0]. rewrite (GM _ _ bn_parent _ _ B0) in MP. injection MP as MP. destruct (PL i b0 (skeleton_of n) B0 (GM _ _ _ _ _ N)) as (_ & _ & [[P1 P2]|(P1 & pn & P2 & P3)]); rewrite MP in *.
    + left. rewrite P1. split; [reflexivity|exact P2].
    + right. replace (bn_parent b =? -1) with false by lia. split; [exact P1|]. assert (J : 0 <= bn_parent b < len (scene_bones roots)) by (apply getz_Some in P2; rewrite len_map in P2; lia). destruct (getz_in_range _ _ J) as [pn' PN]. exists pn'. split; [exact PN|].
      assert (pn = skeleton_of pn') as -> by (unfold getz in *; destruct (bn_parent b <? 0); [discriminate|]; rewrite (map_nth_error skeleton_of _ _ PN) in P2; congruence). now destruct pn'.
  - intros i n m N M. assert (BL : exists b, getz (ad_bones d) i = Some b /\ bone_loaded si b m).
    { clear - FB M. revert i M. induction FB as [|x y l l' E F IH]; intros i Q; [apply getz_Some in Q; cbn in Q; lia|]. pose proof (getz_Some _ _ _ Q). destruct (Z.eq_dec i 0) as [->|NZ]; [injection Q as <-; exists x; auto|]. rewrite getz_cons_pos in Q by lia. destruct (IH _ Q) as (b & B & E2). exists b. rewrite getz_cons_pos by lia. auto. }
    destruct BL as (b & B & SQ & FO). split; [exact SQ|]. destruct (POS i b n B N 0%R) as (w & P & BND). exists (map (fun c => played (ch_nodes c) 0%R) (bn_channels b)), w.
    assert (SB : forall c, In c (bn_channels b) -> single c) by (intros c C; apply (SIN b c); [exact (getz_in _ _ _ B)|exact C]).
    assert (K : map i_union (ma_ops m) = map UValue (map (fun c => played (ch_nodes c) 0%R) (bn_channels b)) /\ combine (map i_type (ma_ops m)) (map (fun c => played (ch_nodes c) 0%R) (bn_channels b)) = map (fun c => (ch_op c, played (ch_nodes c) 0%R)) (bn_channels b)).
    { clear - FO SB. induction FO as [|c o l l' (_ & TY & U) F IH]; [split; reflexivity|]. destruct IH as [I1 I2]; [intros; apply SB; now right|]. cbn [map combine]. rewrite I1, I2, TY. split; [|reflexivity]. f_equal. destruct (SB c (or_introl eq_refl)) as [v E]. rewrite E in *. destruct U as [(_ & _ & ->)|(L & _)]; [reflexivity|cbn in L; lia]. }
    destruct K as [K1 K2]. split; [exact K1|]. split; [rewrite K2; exact P|exact BND].
Qed.
Print Assumptions C105_static_partial.
