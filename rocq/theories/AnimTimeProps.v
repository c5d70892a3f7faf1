(** Shifting and extending animations (C73), and when they repeat (C83). *)
From Verif Require Import RBase BaseFacts CurveModel CurveProps CompactSplineModel MatrixModel RigModel AnimDataModel AnimSpec AnimCurveProps AnimPruneProps KeyframeSplines.
Local Open Scope Z_scope.

Lemma map_opt_ok {A B} (f : A -> option B) (P : A -> B -> Prop) : forall l, (forall x, In x l -> exists y, f x = Some y /\ P x y) -> exists l', map_opt f l = Some l' /\ Forall2 P l l'.
Proof.
  induction l as [|x l IH]; intros H; [exists []; split; [reflexivity|constructor]|]. destruct (H x (or_introl eq_refl)) as (y & Y & PY). destruct IH as (l' & L & F); [intros z Z; apply H; now right|].
  exists (y :: l'). cbn [map_opt]. rewrite Y, L. split; [reflexivity|now constructor].
Qed.
Lemma each_channel_ok f P d : (forall b c, In b (ad_bones d) -> In c (bn_channels b) -> exists n', f (ch_nodes c) = Some n' /\ P (ch_nodes c) n') ->
  exists d', each_channel f d = Some d' /\ same_skeleton P d d'.
Proof.
  intros H. unfold each_channel.
  destruct (map_opt_ok (fun b => chs <- map_opt (fun c => n <- f (ch_nodes c) ;; Some (Channel (ch_op c) (ch_id c) n)) (bn_channels b) ;; Some (Bone (bn_name b) (bn_parent b) chs))
    (fun b b' => bn_name b' = bn_name b /\ bn_parent b' = bn_parent b /\ Forall2 (fun c c' => ch_op c' = ch_op c /\ ch_id c' = ch_id c /\ P (ch_nodes c) (ch_nodes c')) (bn_channels b) (bn_channels b')) (ad_bones d)) as (bs & E & F).
  { intros b B. destruct (map_opt_ok (fun c => n <- f (ch_nodes c) ;; Some (Channel (ch_op c) (ch_id c) n)) (fun c c' => ch_op c' = ch_op c /\ ch_id c' = ch_id c /\ P (ch_nodes c) (ch_nodes c')) (bn_channels b)) as (cs & E & F).
    { intros c C. destruct (H b c B C) as (n' & N & PN). rewrite N. eexists. split; [reflexivity|]. cbn. auto. }
    rewrite E. eexists. split; [reflexivity|]. cbn. auto. }
  rewrite E. eexists. split; [reflexivity|]. unfold same_skeleton. cbn. auto.
Qed.

(** C73, shifting: every node moves by the offset, and nothing else changes.  The times
    must be ints afterwards. *)
Theorem C73_shift : forall d offset,
  (forall b c x, In b (ad_bones d) -> In c (bn_channels b) -> In x (ch_nodes c) -> int_min <= sn_time x + offset <= int_max) ->
  exists d', shift_time d offset = Some d' /\ same_skeleton (moved_by offset) d d'.
Proof.
  intros d offset H. unfold shift_time. destruct (Z.eqb_spec offset 0) as [->|N].
  - exists d. split; [reflexivity|]. unfold same_skeleton. repeat (split; [reflexivity|]).
    assert (G : forall {A} (Q : A -> A -> Prop) l, (forall x, Q x x) -> Forall2 Q l l) by (intros A Q; induction l; constructor; auto).
    apply G. intros b. repeat (split; [reflexivity|]). apply G. intros c. repeat (split; [reflexivity|]). apply G. intros x. split; [lia|auto].
  - apply each_channel_ok. intros b c B C. unfold shift_nodes. apply map_opt_ok. intros x X. specialize (H b c x B C X). unfold add_int. unfold int_min, int_max in H.
    replace ((-2147483648 <=? sn_time x + offset) && (sn_time x + offset <=? 2147483647)) with true by lia. eexists. split; [reflexivity|]. cbn. auto.
Qed.

Lemma end_node_get n : 1 < len n -> getz n (len n - 1) = Some (end_node n).
Proof. intros L. destruct (getz_in_range n (len n - 1)) as [x X]; [lia|]. rewrite X. f_equal. symmetry. unfold end_node. exact (getz_last _ _ _ X). Qed.

(** What extending does to the nodes of a channel. *)
Definition extended (end_time : Z) (n n' : list snode) : Prop :=
  (1 < len n -> end_time <= sn_time (end_node n') /\ sn_time (end_node n') = Z.max end_time (sn_time (end_node n))) /\
  (exists more, n' = n ++ more) /\ (len n <= 1 -> n' = n) /\ (chain (fun x y => sn_time x <= sn_time y) (first_node n) n -> chain (fun x y => sn_time x <= sn_time y) (first_node n') n') /\
  (forall x v, 1 < len n -> (x < IZR (sn_time (end_node n)))%R -> (curve_at n' x v <-> curve_at n x v)) /\
  (forall x, 1 < len n -> (IZR (sn_time (end_node n)) <= x < IZR (sn_time (end_node n')))%R -> curve_at n' x (sn_val (end_node n)) /\ forall v, chain (fun x y => sn_time x <= sn_time y) (first_node n) n -> curve_at n' x v -> v = sn_val (end_node n)) /\
  len n' <= len n + 2.

Lemma chain_sorted : forall l x i j a b, chain (fun x y => sn_time x <= sn_time y) x l -> getz l i = Some a -> getz l j = Some b -> i <= j -> sn_time x <= sn_time a <= sn_time b.
Proof.
  induction l as [|y l IH]; intros x i j a b C A B I; [apply getz_Some in A; cbn in A; lia|]. destruct C as [C1 C2].
  pose proof (getz_Some _ _ _ A) as AI. pose proof (getz_Some _ _ _ B) as BI. destruct (Z.eq_dec i 0) as [->|NI].
  - assert (a = y) as -> by (cbn in A; congruence). destruct (Z.eq_dec j 0) as [->|NJ]; [assert (b = y) as -> by (cbn in B; congruence); lia|].
    change (y :: l) with ([y] ++ l) in B. rewrite getz_app2 in B by (cbn; lia). pose proof (IH y _ _ b b C2 B B ltac:(lia)). lia.
  - change (y :: l) with ([y] ++ l) in A, B. rewrite getz_app2 in A, B by (cbn; lia). pose proof (IH y _ _ a b C2 A B ltac:(lia)). lia.
Qed.

Lemma flat_cubic v w x : (0 < w)%R -> keval (cubic_init v 0 v 0 w) x = v.
Proof. intros W. unfold keval, cubic_init. rewrite Rltb_t by exact W. cbn [k0 k1 k2 k3]. field. lra. Qed.

Lemma extend_ok end_time n : exists n', extend_nodes end_time n = Some n' /\ extended end_time n n'.
Proof.
  unfold extend_nodes. destruct (Z.leb_spec (len n) 1) as [L|L].
  { exists n. split; [reflexivity|]. unfold extended. split; [lia|]. split; [exists []; now rewrite app_nil_r|]. split; [reflexivity|]. split; [auto|]. split; [lia|]. split; lia. }
  rewrite end_node_get by lia. set (e := end_node n). destruct (Z.leb_spec end_time (sn_time e)) as [T|T].
  { exists n. split; [reflexivity|]. unfold extended. fold e. split; [lia|]. split; [exists []; now rewrite app_nil_r|]. split; [reflexivity|]. split; [auto|]. split; [tauto|]. split; [|lia]. intros x _ H. lra. }
  assert (GE : getz n (len n - 1) = Some e) by (apply end_node_get; lia).
  assert (LAST : last n (SNode 0 0 0) = e) by reflexivity.
  assert (W : (0 < IZR (end_time - sn_time e))%R) by (apply IZR_lt; lia).
  assert (HD : forall more, first_node (n ++ more) = first_node n) by (intros more; destruct n; [cbn in L; lia|reflexivity]).
  assert (CH : forall more, chain (fun x y => sn_time x <= sn_time y) (first_node n) n -> chain (fun x y => sn_time x <= sn_time y) e more -> chain (fun x y => sn_time x <= sn_time y) (first_node (n ++ more)) (n ++ more)).
  { intros more H1 H2. rewrite HD. apply chain_app. split; [exact H1|]. destruct n as [|y n]; [cbn in L; lia|]. rewrite last_cons. unfold e, end_node in H2. now rewrite last_cons in H2. }
  assert (BEFORE : forall more x v, Forall (fun m => sn_time e <= sn_time m) more -> (x < IZR (sn_time e))%R -> (curve_at (n ++ more) x v <-> curve_at n x v)).
  { intros more x v F X. split; intros (i & a & b & A & B & XR & V).
    - pose proof (getz_Some _ _ _ A) as AI. pose proof (getz_Some _ _ _ B) as BI. destruct (Z.lt_ge_cases (i + 1) (len n)) as [I|I].
      + rewrite getz_app1 in A, B by lia. exists i, a, b. auto.
      + exfalso. assert (sn_time e <= sn_time a).
        { destruct (Z.eq_dec i (len n - 1)) as [->|N]; [rewrite getz_app1, GE in A by lia; injection A as <-; lia|]. rewrite getz_app2 in A by lia. apply getz_in in A. rewrite Forall_forall in F. exact (F a A). }
        apply IZR_le in H. lra.
    - pose proof (getz_Some _ _ _ A) as AI. pose proof (getz_Some _ _ _ B) as BI. exists i, a, b. rewrite !getz_app1 by lia. auto. }
  destruct (Reqb_spec (sn_der e) 0) as [D|D]; cbn [negb]; (eexists; split; [reflexivity|]).
  - set (z := SNode end_time (sn_val e) 0). assert (EN : end_node (n ++ [z]) = z) by (unfold end_node; rewrite last_app; reflexivity).
    unfold extended. fold e. rewrite EN. cbn [z sn_time]. split; [lia|]. split; [exists [z]; reflexivity|]. split; [lia|]. split; [intros H; apply CH; [exact H|cbn; lia]|]. split; [|split].
    + intros x v _ X. apply BEFORE; [|exact X]. constructor; [cbn; lia|constructor].
    + intros x _ X. assert (FL : keval (cubic_between e z) (x - IZR (sn_time e)) = sn_val e) by (unfold cubic_between; cbn [z sn_time sn_val sn_der]; rewrite D; now apply flat_cubic). split.
      * exists (len n - 1), e, z. rewrite getz_app1 by lia. split; [exact GE|]. split; [rewrite getz_app2 by lia; replace (len n - 1 + 1 - len n) with 0 by lia; reflexivity|]. split; [exact X|now rewrite FL].
      * intros v C (i & a & b & A & B & XR & V). pose proof (getz_Some _ _ _ A) as AI. pose proof (getz_Some _ _ _ B) as BI. rewrite len_app, len_cons in BI. cbn [len length Z.of_nat] in BI. change (len (@nil snode)) with 0 in BI.
        destruct (Z.eq_dec i (len n - 1)) as [->|N].
        -- rewrite getz_app1, GE in A by lia. injection A as <-. rewrite getz_app2 in B by lia. replace (len n - 1 + 1 - len n) with 0 in B by lia. injection B as <-. now rewrite V, FL.
        -- exfalso. rewrite getz_app1 in B by lia. pose proof (chain_sorted _ _ _ _ _ _ C B GE ltac:(lia)) as K. destruct K as [_ K]. apply IZR_le in K. lra.
    + rewrite len_app. change (len [z]) with 1. lia.
  - set (m := SNode (sn_time e) (sn_val e) 0). set (z := SNode end_time (sn_val e) 0). rewrite <- app_assoc. cbn [app]. assert (EN : end_node (n ++ [m; z]) = z) by (unfold end_node; rewrite last_app; reflexivity).
    unfold extended. fold e. rewrite EN. cbn [z sn_time]. split; [lia|]. split; [exists [m; z]; reflexivity|]. split; [lia|]. split; [intros H; apply CH; [exact H|cbn; lia]|]. split; [|split].
    + intros x v _ X. apply BEFORE; [|exact X]. repeat constructor; cbn; lia.
    + intros x _ X. assert (FL : keval (cubic_between m z) (x - IZR (sn_time m)) = sn_val e) by (unfold cubic_between; cbn [m z sn_time sn_val sn_der]; now apply flat_cubic). split.
      * exists (len n), m, z. rewrite !getz_app2 by lia. replace (len n - len n) with 0 by lia. replace (len n + 1 - len n) with 1 by lia. split; [reflexivity|]. split; [reflexivity|]. split; [exact X|now rewrite FL].
      * intros v C (i & a & b & A & B & XR & V). pose proof (getz_Some _ _ _ A) as AI. pose proof (getz_Some _ _ _ B) as BI. rewrite len_app in BI. change (len [m; z]) with 2 in BI.
        destruct (Z.eq_dec i (len n)) as [->|N].
        -- rewrite getz_app2 in A, B by lia. replace (len n - len n) with 0 in A by lia. replace (len n + 1 - len n) with 1 in B by lia. injection A as <-. injection B as <-. now rewrite V, FL.
        -- exfalso. destruct (Z.eq_dec i (len n - 1)) as [->|N'].
           ++ rewrite getz_app2 in B by lia. replace (len n - 1 + 1 - len n) with 0 in B by lia. injection B as <-. cbn [m sn_time] in XR. lra.
           ++ rewrite getz_app1 in B by lia. pose proof (chain_sorted _ _ _ _ _ _ C B GE ltac:(lia)) as K. destruct K as [_ K]. apply IZR_le in K. lra.
    + rewrite len_app. change (len [m; z]) with 2. lia.
Qed.

(** C73, extending: every animated channel lasts at least until the end time; the curve is
    the same up to its old end, and keeps its end value from there on.  The old nodes stay,
    and nothing else changes. *)
Theorem C73_extend : forall d end_time, exists d', extend_channels d end_time = Some d' /\ same_skeleton (extended end_time) d d'.
Proof. intros d e. apply each_channel_ok. intros b c _ _. apply extend_ok. Qed.

Lemma max_time_ok : forall chs acc, exists m, max_time_loop chs acc = Some m /\ acc <= m /\ (forall c, In c chs -> 1 < len (ch_nodes c) -> sn_time (end_node (ch_nodes c)) <= m) /\
  (m = acc \/ exists c, In c chs /\ 1 < len (ch_nodes c) /\ sn_time (end_node (ch_nodes c)) = m).
Proof.
  induction chs as [|c chs IH]; intros acc; cbn [max_time_loop].
  - exists acc. split; [reflexivity|]. split; [lia|]. split; [intros c []|now left].
  - destruct (Z.ltb_spec 1 (len (ch_nodes c))) as [L|L].
    + rewrite end_node_get by lia. destruct (IH (Z.max acc (sn_time (end_node (ch_nodes c))))) as (m & E & A & B & C). exists m. split; [exact E|]. split; [lia|]. split.
      * intros c' [<-|I] Q; [lia|now apply B].
      * destruct C as [->|(c' & I & Q & R)]; [|right; exists c'; split; [now right|auto]]. destruct (Z.max_spec acc (sn_time (end_node (ch_nodes c)))) as [[_ ->]|[_ ->]]; [right; exists c; split; [now left|auto]|now left].
    + destruct (IH acc) as (m & E & A & B & C). exists m. split; [exact E|]. split; [lia|]. split.
      * intros c' [<-|I] Q; [lia|now apply B].
      * destruct C as [->|(c' & I & Q & R)]; [now left|right; exists c'; split; [now right|auto]].
Qed.
Lemma first_node_get n : 1 < len n -> getz n 0 = Some (first_node n).
Proof. destruct n as [|x n]; [cbn; lia|reflexivity]. Qed.
Lemma min_time_ok : forall chs acc, exists m, min_time_loop chs acc = Some m /\ m <= acc /\ (forall c, In c chs -> 1 < len (ch_nodes c) -> m <= sn_time (first_node (ch_nodes c))) /\
  (m = acc \/ exists c, In c chs /\ 1 < len (ch_nodes c) /\ sn_time (first_node (ch_nodes c)) = m).
Proof.
  induction chs as [|c chs IH]; intros acc; cbn [min_time_loop].
  - exists acc. split; [reflexivity|]. split; [lia|]. split; [intros c []|now left].
  - destruct (Z.ltb_spec 1 (len (ch_nodes c))) as [L|L].
    + rewrite first_node_get by lia. destruct (IH (Z.min acc (sn_time (first_node (ch_nodes c))))) as (m & E & A & B & C). exists m. split; [exact E|]. split; [lia|]. split.
      * intros c' [<-|I] Q; [lia|now apply B].
      * destruct C as [->|(c' & I & Q & R)]; [|right; exists c'; split; [now right|auto]]. destruct (Z.min_spec acc (sn_time (first_node (ch_nodes c)))) as [[_ ->]|[_ ->]]; [now left|right; exists c; split; [now left|auto]].
    + destruct (IH acc) as (m & E & A & B & C). exists m. split; [exact E|]. split; [lia|]. split.
      * intros c' [<-|I] Q; [lia|now apply B].
      * destruct C as [->|(c' & I & Q & R)]; [now left|right; exists c'; split; [now right|auto]].
Qed.
Lemma in_all d c : In c (all_channels d) <-> exists b, In b (ad_bones d) /\ In c (bn_channels b).
Proof. unfold all_channels. apply in_flat_map. Qed.

(** C73: MaxAnimatedTime and MinAnimatedTime are the last end and the first start of an
    animated channel, and 0 if there is none. *)
Theorem C73_span : forall d, exists hi lo, max_animated_time d = Some hi /\ min_animated_time d = Some lo /\
  ((forall n, ~ animated d n) -> hi = 0 /\ lo = 0) /\
  (forall n, animated d n -> (forall x, In x n -> int_min < sn_time x < int_max) ->
     sn_time (end_node n) <= hi /\ lo <= sn_time (first_node n) /\
     (exists n', animated d n' /\ sn_time (end_node n') = hi) /\ (exists n', animated d n' /\ sn_time (first_node n') = lo)).
Proof.
  intros d. unfold max_animated_time, min_animated_time. destruct (max_time_ok (all_channels d) int_min) as (hi & -> & HI1 & HI2 & HI3). destruct (min_time_ok (all_channels d) int_max) as (lo & -> & LO1 & LO2 & LO3).
  eexists _, _. split; [reflexivity|]. split; [reflexivity|].
  assert (AN : forall c, In c (all_channels d) -> 1 < len (ch_nodes c) -> animated d (ch_nodes c)) by (intros c C L; apply in_all in C; destruct C as (b & B & C); exists b, c; auto).
  split.
  - intros NA. destruct HI3 as [->|(c & C & L & _)]; [|elim (NA _ (AN c C L))]. destruct LO3 as [->|(c & C & L & _)]; [|elim (NA _ (AN c C L))]. rewrite !Z.eqb_refl. auto.
  - intros n (b & c & B & C & -> & L) T. assert (CI : In c (all_channels d)) by (apply in_all; eauto). specialize (HI2 c CI L). specialize (LO2 c CI L).
    pose proof (T _ (getz_in _ _ _ (end_node_get _ L))) as T1. pose proof (T _ (getz_in _ _ _ (first_node_get _ L))) as T2. replace (hi =? int_min) with false by lia. replace (lo =? int_max) with false by lia. split; [exact HI2|]. split; [exact LO2|]. split.
    + destruct HI3 as [->|(c' & C' & L' & E)]; [lia|]. exists (ch_nodes c'). auto.
    + destruct LO3 as [->|(c' & C' & L' & E)]; [lia|]. exists (ch_nodes c'). auto.
Qed.
(** C73: extending all channels to MaxAnimatedTime, as the converter does, makes all animated
    channels end together. *)
Theorem C73_extend_all : forall d hi d' n', (forall n x, animated d n -> In x n -> int_min < sn_time x < int_max) -> max_animated_time d = Some hi -> extend_channels d hi = Some d' -> animated d' n' -> sn_time (end_node n') = hi.
Proof.
  intros d hi d' n' T M E (b' & c' & B' & C' & -> & L'). destruct (C73_extend d hi) as (d1 & E1 & SK). assert (d1 = d') as -> by congruence. destruct SK as (_ & _ & _ & F).
  destruct (C73_span d) as (hi' & lo & M' & _ & _ & SP). assert (hi' = hi) as -> by congruence.
  assert (G : forall {A B} (Q : A -> B -> Prop) l l' y, Forall2 Q l l' -> In y l' -> exists x, In x l /\ Q x y).
  { clear. intros A B Q l l' y H. induction H as [|x z l l' XZ H IH]; intros []; [subst; exists x; split; [now left|exact XZ]|]. destruct (IH H0) as (w & W & WQ). exists w. split; [now right|exact WQ]. }
  destruct (G _ _ _ _ _ _ F B') as (b & B & _ & _ & FC). destruct (G _ _ _ _ _ _ FC C') as (c & C & _ & _ & (X1 & _ & X3 & _)).
  assert (L : 1 < len (ch_nodes c)) by (destruct (Z.le_gt_cases (len (ch_nodes c)) 1) as [Q|Q]; [rewrite (X3 Q) in L'; lia|lia]).
  assert (AN : animated d (ch_nodes c)) by (exists b, c; auto). destruct (SP _ AN (fun x => T _ x AN)) as (H & _). destruct (X1 L) as [_ K]. lia.
Qed.

Lemma first_channel_ok t : forall chs id, (forall c, In c chs -> ch_nodes c <> []) ->
  exists r, first_non_repeating_channel t chs id = Some r /\
    match r with None => forall c, In c chs -> ends_as_it_starts t c
               | Some k => exists c, id <= k /\ getz chs (k - id) = Some c /\ ~ ends_as_it_starts t c /\ forall q c', q < k - id -> getz chs q = Some c' -> ends_as_it_starts t c' end.
Proof.
  induction chs as [|c chs IH]; intros id NE; cbn [first_non_repeating_channel]; [exists None; split; [reflexivity|intros c []]|].
  assert (N : ch_nodes c <> []) by (apply NE; now left). assert (L : 0 < len (ch_nodes c)) by (now apply len_pos).
  assert (G0 : getz (ch_nodes c) 0 = Some (first_node (ch_nodes c))) by (destruct (ch_nodes c); [congruence|reflexivity]).
  assert (G1 : getz (ch_nodes c) (len (ch_nodes c) - 1) = Some (end_node (ch_nodes c))).
  { destruct (getz_in_range (ch_nodes c) (len (ch_nodes c) - 1)) as [x X]; [lia|]. rewrite X. f_equal. symmetry. exact (getz_last _ _ _ X). }
  rewrite G0, G1. destruct (_ && _) eqn:S.
  - assert (EC : ends_as_it_starts t c) by (apply andb_prop in S; destruct S as [S1 S2]; apply Rltb_iff in S1, S2; split; assumption).
    destruct (IH (id + 1)) as (r & E & R); [intros c' C'; apply NE; now right|]. exists r. split; [exact E|]. destruct r as [k|].
    + destruct R as (c' & K & GC & NC & BF). exists c'. split; [lia|]. split; [|split; [exact NC|]].
      * change (c :: chs) with ([c] ++ chs). rewrite getz_app2 by (cbn; lia). rewrite <- GC. f_equal. cbn. lia.
      * intros q c2 Q G. pose proof (getz_Some _ _ _ G). destruct (Z.eq_dec q 0) as [->|NQ]; [assert (c2 = c) as -> by (cbn in G; congruence); exact EC|]. change (c :: chs) with ([c] ++ chs) in G. rewrite getz_app2 in G by (cbn; lia). apply (BF (q - len [c])); [cbn; lia|exact G].
    + intros c' [<-|I]; [exact EC|now apply R].
  - exists (Some id). split; [reflexivity|]. exists c. split; [lia|]. split; [rewrite Z.sub_diag; reflexivity|]. split; [|intros q c' Q G; apply getz_Some in G; lia]. intros [S1 S2]. apply Rltb_iff in S1, S2. rewrite S1, S2 in S. discriminate.
Qed.
Lemma first_bone_ok t : forall bs i, 0 <= i -> i + len bs <= 255 -> (forall b c, In b bs -> In c (bn_channels b) -> ch_nodes c <> []) ->
  exists r, first_non_repeating t bs i = Some r /\
    match r with None => forall b c, In b bs -> In c (bn_channels b) -> ends_as_it_starts t c
               | Some (k, id) => exists b c, i <= k /\ getz bs (k - i) = Some b /\ getz (bn_channels b) id = Some c /\ ~ ends_as_it_starts t c /\
        (forall q c', q < id -> getz (bn_channels b) q = Some c' -> ends_as_it_starts t c') /\ (forall q b' c', q < k - i -> getz bs q = Some b' -> In c' (bn_channels b') -> ends_as_it_starts t c') end.
Proof.
  induction bs as [|b bs IH]; intros i I L NE; cbn [first_non_repeating].
  - change (len (@nil bone)) with 0 in L. replace (i <=? 255) with true by lia. exists None. split; [reflexivity|]. intros b c [].
  - rewrite len_cons in L. pose proof (len_nonneg bs). replace (i <=? 255) with true by lia. destruct (first_channel_ok t (bn_channels b) 0) as (r & -> & R); [intros c C; apply (NE b c); [now left|exact C]|]. destruct r as [id|].
    + exists (Some (i, id)). split; [reflexivity|]. destruct R as (c & _ & G & N & BF). exists b, c. split; [lia|]. split; [rewrite Z.sub_diag; reflexivity|]. rewrite Z.sub_0_r in G, BF. split; [exact G|]. split; [exact N|]. split; [exact BF|].
      intros q b' c' Q GQ. apply getz_Some in GQ. lia.
    + destruct (IH (i + 1)) as (r & E & R'); [lia|lia|intros b' c B C; apply (NE b' c); [now right|exact C]|]. exists r. split; [exact E|]. destruct r as [[k id]|].
      * destruct R' as (b' & c & K & G & C & N & BC & BB). exists b', c. split; [lia|]. split; [|split; [exact C|split; [exact N|split; [exact BC|]]]].
        -- change (b :: bs) with ([b] ++ bs). rewrite getz_app2 by (cbn; lia). rewrite <- G. f_equal. cbn. lia.
        -- intros q b2 c2 Q G2 C2. pose proof (getz_Some _ _ _ G2). destruct (Z.eq_dec q 0) as [->|NQ]; [assert (b2 = b) as -> by (cbn in G2; congruence); now apply R|].
           change (b :: bs) with ([b] ++ bs) in G2. rewrite getz_app2 in G2 by (cbn; lia). apply (BB (q - len [b]) b2); [cbn; lia|exact G2|exact C2].
      * intros b' c [<-|B] C; [now apply R|now apply (R' b')].
Qed.
(** C83: with at most 255 bones and no empty channel, an animation that may repeat repeats
    exactly when each channel ends as it starts; one that must repeat does, and one that
    must not does not. *)
Theorem C83_repeats : forall d, len (ad_bones d) <= 255 -> (forall b c, In b (ad_bones d) -> In c (bn_channels b) -> ch_nodes c <> []) ->
  repeats d NeverRepeat = Some false /\ repeats d AlwaysRepeat = Some true /\
  exists r, repeats d RepeatIfRepeatable = Some r /\ (r = true <-> forall b c, In b (ad_bones d) -> In c (bn_channels b) -> ends_as_it_starts (ad_tol d) c).
Proof.
  intros d L NE. destruct (first_bone_ok (ad_tol d) (ad_bones d) 0 ltac:(lia) ltac:(lia) NE) as (r & E & R). unfold repeats, first_non_repeating_bone. rewrite E. split; [reflexivity|]. split; [reflexivity|]. eexists. split; [reflexivity|].
  destruct r as [[k id]|]; cbn [fst].
  - destruct R as (b & c & _ & G & C & N & _). pose proof (getz_Some _ _ _ G) as K. unfold kInvalidBoneIdx. replace (k =? 255) with false by lia. split; [discriminate|]. intros H. elim N. apply (H b); [exact (getz_in _ _ _ G)|exact (getz_in _ _ _ C)].
  - split; [intros _; exact R|reflexivity].
Qed.

(** C83: the bone and channel reported are the first whose ends differ. *)
Theorem C83_first_reported : forall d i id, len (ad_bones d) <= 255 -> (forall b c, In b (ad_bones d) -> In c (bn_channels b) -> ch_nodes c <> []) ->
  first_non_repeating_bone d = Some (i, Some id) ->
  exists b c, getz (ad_bones d) i = Some b /\ getz (bn_channels b) id = Some c /\ ~ ends_as_it_starts (ad_tol d) c /\
    (forall q c', q < id -> getz (bn_channels b) q = Some c' -> ends_as_it_starts (ad_tol d) c') /\
    (forall q b' c', q < i -> getz (ad_bones d) q = Some b' -> In c' (bn_channels b') -> ends_as_it_starts (ad_tol d) c').
Proof.
  intros d i id L NE H. destruct (first_bone_ok (ad_tol d) (ad_bones d) 0 ltac:(lia) ltac:(lia) NE) as (r & E & R). unfold first_non_repeating_bone in H. rewrite E in H. destruct r as [[k kid]|]; [|discriminate].
  injection H as -> ->. destruct R as (b & c & _ & R). rewrite Z.sub_0_r in R. exists b, c. exact R.
Qed.

(** A bone with an animated channel, a constant one and one that is longer. *)
Definition c73_data : anim_data :=
  AnimData [Bone [104] (-1) [Channel TranslateX 0 [SNode 5 1 2; SNode 10 3 4]; Channel RotateX 1 [SNode 0 7 0]; Channel TranslateY 2 [SNode 7 0 0; SNode 30 1 0]]] 0 (Tolerances (1/1000) (1/1000) (1/100) (1/10) (1/10)) false.
Example C73_applies : (forall b c x, In b (ad_bones c73_data) -> In c (bn_channels b) -> In x (ch_nodes c) -> int_min < sn_time x < int_max) /\
  max_animated_time c73_data = Some 30 /\ min_animated_time c73_data = Some 5 /\
  exists d', shift_time c73_data (- 5) = Some d' /\ animated d' [SNode 0 1 2; SNode 5 3 4].
Proof.
  split; [|split; [reflexivity|split; [reflexivity|]]].
  - unfold int_min, int_max. intros b c x [<-|[]] C X. cbn [bn_channels] in C. repeat (destruct C as [<-|C]; [cbn [ch_nodes] in X; repeat (destruct X as [<-|X]; [cbn; lia|]); destruct X|]). destruct C.
  - eexists. split; [reflexivity|]. eexists _, _. split; [left; reflexivity|]. split; [left; reflexivity|]. split; [reflexivity|cbn; lia].
Qed.
Example C83_applies : len (ad_bones c73_data) <= 255 /\ (forall b c, In b (ad_bones c73_data) -> In c (bn_channels b) -> ch_nodes c <> []) /\
  ends_as_it_starts (ad_tol c73_data) (Channel RotateX 1 [SNode 0 7 0]) /\ ~ ends_as_it_starts (ad_tol c73_data) (Channel TranslateX 0 [SNode 5 1 2; SNode 10 3 4]).
Proof.
  split; [cbn; lia|]. split; [|split].
  - intros b c [<-|[]] C. cbn [bn_channels] in C. repeat (destruct C as [<-|C]; [discriminate|]). destruct C.
  - unfold ends_as_it_starts. cbn. rewrite !Rminus_eq_0, atan_0, Rabs_R0. lra.
  - intros [H _]. cbn in H. revert H. rabs; lra.
Qed.
Print Assumptions C73_shift.
Print Assumptions C73_extend.
Print Assumptions C73_span.
Print Assumptions C73_extend_all.
Print Assumptions C83_repeats.
