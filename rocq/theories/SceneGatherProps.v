(** Animated scenes are gathered (C104). *)
From Verif Require Import RBase BaseFacts CurveModel MatrixModel MatrixProps RigModel AnimDataModel AnimSpec AnimCurveProps AnimPruneProps AnimTimeProps AnimChannelsModel AnimSumProps AnimChannelsProps AnimStableProps FlatAnimModel FlatAnimProps FbxModel FbxProps FbxCurveProps PipelineModel PipelineProps PipelineRunProps.
From Coq Require Import Sorting.Sorted.
Local Open Scope Z_scope.

(** ** The specification *)
(** A curve of two keys or more has its keys in order, and some time in common with the span. *)
Definition curve_readable (span : Z * Z) (c : fbx_curve) : Prop :=
  len (fc_keys c) <= 1 \/ (keys_in_order (fc_keys c) /\ exists X a b Y, fc_keys c = X ++ a :: b :: Y /\ meets span a b).
Definition node_readable (span : Z * Z) (f : fbx_data) : Prop :=
  0 <= fd_order f <= 6 /\ forall name chs ch c, fp_anim (fd_property f name) = Some chs -> In ch chs -> fh_curve ch = Some c -> curve_readable span c.
(** The keys of the curves of a node. *)
Definition keys_at (f : fbx_data) (name : FbxModel.fbx_name) (axis : Z) : Z :=
  match fp_anim (fd_property f name) with Some chs => match getz chs axis with Some ch => match fh_curve ch with Some c => len (fc_keys c) | None => 0 end | None => 0 end | None => 0 end.
Definition keys_of (f : fbx_data) (name : FbxModel.fbx_name) : Z := keys_at f name 0 + keys_at f name 1 + keys_at f name 2.
Definition total_keys (f : fbx_data) : Z :=
  keys_of f LclTranslation + keys_of f RotationOffset + keys_of f RotationPivot + keys_of f PreRotation + keys_of f LclRotation + keys_of f PostRotation + keys_of f ScalingOffset + keys_of f ScalingPivot + keys_of f LclScaling.
(** The nodes of a channel: some, in the order of their times; two or more are within the times [lo] and [hi]. *)
Definition in_span (lo hi : Z) (n : list snode) : Prop :=
  n <> [] /\ StronglySorted Z.le (map sn_time n) /\ (forall x, In x n -> - 1073741824 < sn_time x <= 1073741823) /\ (1 < len n -> forall x, In x n -> lo <= sn_time x <= hi).

(** ** Pruning nodes *)
Lemma sorted_getz : forall l i j a b, StronglySorted Z.le (map sn_time l) -> getz l i = Some a -> getz l j = Some b -> i <= j -> sn_time a <= sn_time b.
Proof.
  induction l as [|c l IH]; intros i j a b S A B L; [apply getz_Some in A; cbn in A; lia|]. cbn [map] in S. apply StronglySorted_inv in S. destruct S as [S F]. pose proof (getz_Some _ _ _ A).
  destruct (Z.eq_dec j 0) as [->|NJ]; [assert (i = 0) as -> by lia; rewrite A in B; injection B as ->; lia|]. rewrite getz_cons_pos in B by lia.
  destruct (Z.eq_dec i 0) as [->|N]; [injection A as <-; rewrite Forall_forall in F; apply F; apply in_map; exact (getz_in _ _ _ B)|]. rewrite getz_cons_pos in A by lia. apply (IH (i - 1) (j - 1)); auto. lia.
Qed.
Lemma picked_sorted n : StronglySorted Z.le (map sn_time n) -> forall ks k xs, picked n (k :: ks) xs -> chain Z.lt k ks -> StronglySorted Z.le (map sn_time xs).
Proof.
  intros S ks. induction ks as [|q ks IH]; intros k xs P C; inversion P as [|? x ? xs' G P' E1 E2]; subst.
  - inversion P'; subst. cbn. repeat constructor.
  - destruct C as [KQ C]. pose proof (IH q xs' P' C) as IS. cbn [map]. constructor; [exact IS|]. inversion P' as [|? y ? ys GY P'' E3 E4]; subst. cbn [map] in *. pose proof (sorted_getz _ _ _ _ _ S G GY ltac:(lia)) as XY. constructor; [exact XY|].
    apply StronglySorted_inv in IS. destruct IS as [_ IS]. eapply Forall_impl; [|exact IS]. intros z Z. cbn in Z. lia.
Qed.
Lemma picked_len n ks xs : picked n ks xs -> len xs = len ks.
Proof. intros P. induction P as [|k x ks xs G P IH]; [reflexivity|]. rewrite !len_cons. lia. Qed.
Lemma chain_len : forall ks k hi, chain Z.lt k ks -> last ks k <= hi -> len ks <= hi - k.
Proof. induction ks as [|q ks IH]; intros k hi C L; [cbn in *; lia|]. destruct C as [KQ C]. rewrite last_cons in L. specialize (IH q hi C L). rewrite len_cons. lia. Qed.
Lemma prune_in_span t tol lo hi n : in_span lo hi n -> exists out, pruned_nodes t tol n = Some out /\ in_span lo hi out /\ len out <= len n.
Proof.
  intros (NE & SO & RG & SP).
  assert (TO : times_ok n) by (intros x y X Y; pose proof (RG x X); pose proof (RG y Y); lia).
  destruct (C70_prune_partial t tol n TO NE) as (ks & kept & out & E & CK & PI & CH & LA & _). exists out. split; [exact E|].
  assert (KN : kept <> []) by (intros ->; inversion PI). pose proof (picked_sorted n SO ks 0 kept PI CH) as KS. pose proof (picked_in _ _ _ PI) as KI. pose proof (picked_len _ _ _ PI) as KL. pose proof (chain_len ks 0 (len n - 1) CH ltac:(lia)) as CL. rewrite len_cons in KL.
  destruct CK as [-> | (u & v & -> & -> & _)].
  - split; [|lia]. split; [exact KN|]. split; [exact KS|]. split; [intros x X; apply RG; auto|]. intros L x X. apply SP; [lia|auto].
  - split; [|change (len [u]) with 1; pose proof (len_nonneg ks); lia]. split; [discriminate|]. split; [repeat constructor|]. split; [intros x [<-|[]]; apply RG, KI; now left|]. intros L. cbn in L. lia.
Qed.

(** ** Sums *)
Lemma find_after_some : forall r pre time, sn_time pre <= time -> time < sn_time (last r pre) -> exists p q, find_after pre r time = Some (p, q) /\ In p (pre :: r) /\ In q r /\ sn_time p <= time <= sn_time q.
Proof.
  induction r as [|b r IH]; intros pre time A B; [cbn in B; lia|]. cbn [find_after]. destruct (Z.leb_spec time (sn_time b)) as [L|L].
  - exists pre, b. split; [reflexivity|]. split; [now left|]. split; [now left|lia].
  - rewrite last_cons in B. destruct (IH b time ltac:(lia) B) as (p & q & E & P & Q & H). exists p, q. split; [exact E|]. split; [right; exact P|]. split; [right; exact Q|exact H].
Qed.
Lemma sub_ok a b : - 1073741824 < a <= 1073741823 -> - 1073741824 < b <= 1073741823 -> sub_int a b = Some (a - b).
Proof. intros A B. unfold sub_int, add_int. replace ((-2147483648 <=? a + - b) && (a + - b <=? 2147483647)) with true by lia. f_equal. Qed.
Lemma evaluate_some n time : n <> [] -> (forall x, In x n -> - 1073741824 < sn_time x <= 1073741823) -> - 1073741824 < time <= 1073741823 -> exists v, evaluate_nodes n time = Some v.
Proof.
  intros NE RG T. destruct n as [|a r]; [contradiction|]. cbn [evaluate_nodes]. cbv zeta. destruct (Z.ltb_spec time (sn_time a)); [eauto|]. destruct (Z.leb_spec (sn_time (last r a)) time); [eauto|].
  destruct (find_after_some r a time) as (p & q & E & P & Q & H1); [lia|lia|]. rewrite E. replace ((sn_time p <=? time) && (time <=? sn_time q)) with true by lia.
  rewrite (sub_ok (sn_time q)) by (apply RG; first [exact P|now right]). rewrite (sub_ok time) by (first [exact T|apply RG; exact P]). eauto.
Qed.
Definition tail_ok (it : list snode) : Prop := StronglySorted Z.le (map sn_time it) /\ forall x, In x it -> - 1073741824 < sn_time x <= 1073741823.
Lemma tail_tl x r : tail_ok (x :: r) -> tail_ok r /\ forall y, In y r -> sn_time x <= sn_time y.
Proof.
  intros [S G]. cbn [map] in S. apply StronglySorted_inv in S. destruct S as [S F]. split; [split; [exact S|intros y Y; apply G; now right]|]. intros y Y. rewrite Forall_forall in F. apply F. now apply in_map.
Qed.
Lemma value_at_some n it time : n <> [] -> (forall x, In x n -> - 1073741824 < sn_time x <= 1073741823) -> - 1073741824 < time <= 1073741823 -> tail_ok it ->
  exists v d it', value_at_time n it time = Some (v, d, it') /\ tail_ok it' /\ (forall x, In x it' -> In x it) /\ (length it' <= length it)%nat /\ (forall x r, it = x :: r -> sn_time x = time -> length it = S (length it')).
Proof.
  intros NE RG T O. destruct (evaluate_some n time NE RG T) as [[v d] E]. destruct it as [|x r]; cbn [value_at_time].
  - rewrite E. exists v, d, []. split; [reflexivity|]. split; [exact O|]. split; [auto|]. split; [lia|]. intros ? ? X. discriminate X.
  - destruct (Z.eqb_spec (sn_time x) time) as [H|H].
    + exists (sn_val x), (sn_der x), r. split; [reflexivity|]. split; [apply (tail_tl _ _ O)|]. split; [intros; now right|]. split; [cbn; lia|]. reflexivity.
    + rewrite E. exists v, d, (x :: r). split; [reflexivity|]. split; [exact O|]. split; [auto|]. split; [lia|]. intros y s Y. injection Y as <- _. contradiction.
Qed.
Lemma sorted_snoc (l : list snode) x : StronglySorted Z.le (map sn_time l) -> (forall y, In y l -> sn_time y <= sn_time x) -> StronglySorted Z.le (map sn_time (l ++ [x])).
Proof.
  intros S H. rewrite map_app. apply (sorted_join _ _ (sn_time x)); auto; [repeat constructor| |]; intros y Y.
  - apply in_map_iff in Y. destruct Y as (z & <- & Z). auto.
  - destruct Y as [<-|[]]. lia.
Qed.
Section Sum.
Context (na nb : list snode) (NA : na <> []) (NB : nb <> []) (RA : forall x, In x na -> - 1073741824 < sn_time x <= 1073741823) (RB : forall x, In x nb -> - 1073741824 < sn_time x <= 1073741823).
Lemma sum_step ia ib : tail_ok ia -> tail_ok ib -> ia ++ ib <> [] ->
  let t := match ia with x :: _ => sn_time x | [] => int_max end in let time := match ib with y :: _ => Z.min t (sn_time y) | [] => t end in
  - 1073741824 < time <= 1073741823 /\ (forall z, In z (ia ++ ib) -> time <= sn_time z) /\ (exists z, In z (ia ++ ib) /\ sn_time z = time) /\
  ((exists x r, ia = x :: r /\ sn_time x = time) \/ (exists y r, ib = y :: r /\ sn_time y = time)).
Proof.
  intros A B NE t time.
  assert (HA : forall x r, ia = x :: r -> - 1073741824 < sn_time x <= 1073741823 /\ forall z, In z ia -> sn_time x <= sn_time z).
  { intros x r E. rewrite E in *. split; [apply A; now left|]. intros z [<-|Z]; [lia|exact (proj2 (tail_tl _ _ A) z Z)]. }
  assert (HB : forall x r, ib = x :: r -> - 1073741824 < sn_time x <= 1073741823 /\ forall z, In z ib -> sn_time x <= sn_time z).
  { intros x r E. rewrite E in *. split; [apply B; now left|]. intros z [<-|Z]; [lia|exact (proj2 (tail_tl _ _ B) z Z)]. }
  destruct ia as [|x ra].
  - destruct ib as [|y rb]; [now destruct NE|]. destruct (HB y rb eq_refl) as [H1 H2]. assert (E : time = sn_time y) by (unfold time, t, int_max; lia). rewrite E. cbn [app].
    split; [exact H1|]. split; [exact H2|]. split; [exists y; split; [now left|reflexivity]|]. right. exists y, rb. auto.
  - destruct (HA x ra eq_refl) as [H1 H2]. destruct ib as [|y rb].
    + assert (E : time = sn_time x) by reflexivity. rewrite E. rewrite app_nil_r. split; [exact H1|]. split; [exact H2|]. split; [exists x; split; [now left|reflexivity]|]. left. exists x, ra. auto.
    + destruct (HB y rb eq_refl) as [H3 H4]. assert (E : time = Z.min (sn_time x) (sn_time y)) by reflexivity. split; [lia|]. split; [intros z Z; apply in_app_or in Z; destruct Z as [Z|Z]; [specialize (H2 z Z)|specialize (H4 z Z)]; lia|].
      destruct (Z.le_gt_cases (sn_time x) (sn_time y)) as [L|L].
      * assert (E' : sn_time x = time) by lia. split; [exists x; split; [now left|exact E']|]. left. exists x, ra. auto.
      * assert (E' : sn_time y = time) by lia. split; [exists y; split; [apply in_or_app; right; now left|exact E']|]. right. exists y, rb. auto.
Qed.
Lemma sum_loop_some : forall fuel ia ib sum, (length ia + length ib <= fuel)%nat -> tail_ok ia -> tail_ok ib -> StronglySorted Z.le (map sn_time sum) -> (forall x y, In x sum -> In y (ia ++ ib) -> sn_time x <= sn_time y) ->
  exists more, sum_loop fuel na nb ia ib sum = Some (sum ++ more) /\ StronglySorted Z.le (map sn_time (sum ++ more)) /\ (forall x, In x more -> exists y, In y (ia ++ ib) /\ sn_time x = sn_time y) /\ len more <= len ia + len ib /\ (ia ++ ib <> [] -> more <> []).
Proof.
  induction fuel as [|fuel IH]; intros ia ib sum F A B S BD.
  - destruct ia; [|cbn in F; lia]. destruct ib; [|cbn in F; lia]. exists []. cbn [sum_loop]. rewrite app_nil_r. split; [reflexivity|]. split; [exact S|]. split; [intros ? []|]. split; [cbn; lia|intros []; reflexivity].
  - assert (D : ia ++ ib = [] \/ ia ++ ib <> []) by (destruct (ia ++ ib); [now left|right; discriminate]). destruct D as [D|D].
    + destruct ia; [|discriminate]. cbn [app] in D. subst ib. exists []. cbn [sum_loop]. rewrite app_nil_r. split; [reflexivity|]. split; [exact S|]. split; [intros ? []|]. split; [cbn; lia|intros []; reflexivity].
    + pose proof (sum_step ia ib A B D) as ST. cbv zeta in ST. set (time := match ib with y :: _ => Z.min (match ia with x :: _ => sn_time x | [] => int_max end) (sn_time y) | [] => match ia with x :: _ => sn_time x | [] => int_max end end) in *.
      destruct ST as (RT & MN & EX & HD).
      assert (EQ : sum_loop (Datatypes.S fuel) na nb ia ib sum = (a <- value_at_time na ia time ;; b <- value_at_time nb ib time ;; let '(va, da, ia') := a in let '(vb, db, ib') := b in sum_loop fuel na nb ia' ib' (sum ++ [SNode time (va + vb) (da + db)]))) by (destruct ia, ib; [now destruct D|reflexivity|reflexivity|reflexivity]).
      rewrite EQ. clear EQ.
      destruct (value_at_some na ia time NA RA RT A) as (va & da & ia' & -> & A' & AI & AL & AS). destruct (value_at_some nb ib time NB RB RT B) as (vb & db & ib' & -> & B' & BI & BL & BS).
      assert (SH : (length ia' + length ib' < length ia + length ib)%nat) by (destruct HD as [(x & r & E & T)|(x & r & E & T)]; [specialize (AS x r E T)|specialize (BS x r E T)]; lia).
      assert (SUB : forall z, In z (ia' ++ ib') -> In z (ia ++ ib)) by (intros z Z; apply in_or_app; apply in_app_or in Z; destruct Z; auto).
      set (nd := SNode time (va + vb) (da + db)).
      destruct (IH ia' ib' (sum ++ [nd])) as (more & E & OS & OI & OL & _).
      * lia.
      * exact A'.
      * exact B'.
      * apply sorted_snoc; [exact S|]. intros z Z. cbn [sn_time]. destruct EX as (y & Y & <-). exact (BD z y Z Y).
      * intros p q P Q. apply SUB in Q. apply in_app_or in P. destruct P as [P|[<-|[]]]; [exact (BD p q P Q)|exact (MN q Q)].
      * exists (nd :: more). rewrite <- app_assoc in E, OS. split; [exact E|]. split; [exact OS|]. split; [|split; [rewrite len_cons; unfold len in *; lia|discriminate]].
        intros p [<-|P]; [destruct EX as (y & Y & Q); exists y; split; [exact Y|symmetry; exact Q]|]. destruct (OI p P) as (y & Y & Q). exists y. auto.
Qed.
End Sum.
Lemma sum_in_span lo hi na nb : in_span lo hi na -> in_span lo hi nb -> exists out, sum_nodes na nb = Some out /\ in_span lo hi out /\ len out <= len na + len nb.
Proof.
  intros (NA & SA & RA & PA) (NB & SB & RB & PB). unfold sum_nodes. cbv zeta.
  set (ia := if len na =? 1 then [] else na). set (ib := if len nb =? 1 then [] else nb). set (start := match na, nb with [a], [b] => [SNode 0 (sn_val a + sn_val b) 0] | _, _ => [] end).
  assert (IA : tail_ok ia) by (unfold ia; destruct (len na =? 1); split; auto; [constructor|intros ? []]). assert (IB : tail_ok ib) by (unfold ib; destruct (len nb =? 1); split; auto; [constructor|intros ? []]).
  assert (ONE : forall (l : list snode), l <> [] -> (len l = 1 /\ exists a, l = [a]) \/ 1 < len l).
  { intros [|a [|b l]] H; [contradiction|left; split; [reflexivity|eauto]|right; rewrite !len_cons; pose proof (len_nonneg l); lia]. }
  assert (LA : len ia <= len na) by (unfold ia; destruct (len na =? 1); [pose proof (len_nonneg na); cbn; lia|lia]). assert (LB : len ib <= len nb) by (unfold ib; destruct (len nb =? 1); [pose proof (len_nonneg nb); cbn; lia|lia]).
  assert (SPN : forall y, In y (ia ++ ib) -> lo <= sn_time y <= hi).
  { intros y Y. apply in_app_or in Y. unfold ia, ib in Y. destruct Y as [Y|Y].
    - destruct (ONE na NA) as [[E _]|L]; [rewrite E in Y; destruct Y|]. replace (len na =? 1) with false in Y by lia. now apply PA.
    - destruct (ONE nb NB) as [[E _]|L]; [rewrite E in Y; destruct Y|]. replace (len nb =? 1) with false in Y by lia. now apply PB. }
  assert (RNG : forall y, In y (ia ++ ib) -> - 1073741824 < sn_time y <= 1073741823) by (intros y Y; apply in_app_or in Y; destruct Y as [Y|Y]; [now apply IA|now apply IB]).
  assert (CASES : (exists a b, na = [a] /\ nb = [b]) \/ (start = [] /\ ia ++ ib <> [])).
  { unfold start, ia, ib. destruct (ONE na NA) as [[_ (a & ->)]|GA].
    - destruct (ONE nb NB) as [[_ (b & ->)]|GB]; [left; eauto|right]. replace (len nb =? 1) with false by lia. destruct nb as [|b [|b' nb']]; [contradiction|cbn in GB; lia|]. split; [reflexivity|]. cbn. discriminate.
    - right. replace (len na =? 1) with false by lia. destruct na as [|a [|a' na']]; [contradiction|cbn in GA; lia|]. split; [reflexivity|discriminate]. }
  destruct CASES as [(a & b & -> & ->)|[SE NE]].
  - eexists. split; [reflexivity|]. split; [|cbn; lia]. split; [discriminate|]. split; [repeat constructor|]. split; [intros x [<-|[]]; cbn; lia|]. intros L. cbn in L. lia.
  - destruct (sum_loop_some na nb NA NB RA RB (length na + length nb) ia ib start) as (more & E & S & I & L & N).
    + unfold len in LA, LB. lia.
    + exact IA.
    + exact IB.
    + rewrite SE. constructor.
    + rewrite SE. intros ? ? [].
    + rewrite SE in *. cbn [app] in *. exists more. split; [exact E|]. split; [|lia]. split; [now apply N|]. split; [exact S|]. split; [|intros _]; intros x X; destruct (I x X) as (y & Y & ->); auto.
Qed.

(** ** Pruning channels *)
Definition weight (chs : list channel) : Z := fold_right (fun c a => len (ch_nodes c) + a) 0 chs.
Lemma weight_cons c l : weight (c :: l) = len (ch_nodes c) + weight l. Proof. reflexivity. Qed.
Lemma weight_app a b : weight (a ++ b) = weight a + weight b.
Proof. induction a as [|c a IH]; [reflexivity|]. cbn [app]. rewrite !weight_cons, IH. lia. Qed.
Lemma weight_pos l : 0 <= weight l.
Proof. induction l as [|c l IH]; [cbn; lia|]. rewrite weight_cons. pose proof (len_nonneg (ch_nodes c)). lia. Qed.
Lemma weight_in c l : In c l -> len (ch_nodes c) <= weight l.
Proof. induction l as [|x l IH]; [intros []|]. rewrite weight_cons. intros [<-|C]; [pose proof (weight_pos l); lia|]. pose proof (len_nonneg (ch_nodes x)). specialize (IH C). lia. Qed.
Definition sound_channel (lo hi : Z) (c : channel) : Prop := in_span lo hi (ch_nodes c) /\ geometric (ch_op c) /\ 0 <= ch_id c /\ ch_id c + room (ch_op c) <= 250.
Lemma summable_found op : forall l i, summable_loop op l i = -1 \/ exists Q1 d Q2, l = Q1 ++ d :: Q2 /\ summable_loop op l i = i + len Q1.
Proof.
  induction l as [|c l IH]; intros i; cbn [summable_loop]; [now left|]. destruct (mtype_eqb (ch_op c) op); [right; exists [], c, l; split; [reflexivity|cbn; lia]|].
  destruct (rotate_kind op); [now left|]. destruct (translate_kind op && negb (translate_kind (ch_op c))); [now left|]. destruct (scale_kind op && negb (scale_kind (ch_op c))); [now left|].
  destruct (IH (i + 1)) as [->|(Q1 & d & Q2 & -> & ->)]; [now left|right]. exists (c :: Q1), d, Q2. split; [reflexivity|]. rewrite len_cons. lia.
Qed.
Section Prune.
Context (t : tolerances) (nu : bool) (lo hi : Z).
Lemma left_out_sound l c Q W : Forall (sound_channel lo hi) (c :: Q) -> weight (c :: Q) <= W -> l = (if left_out t c then Q else c :: Q) -> Forall (sound_channel lo hi) l /\ weight l <= W.
Proof. intros S L ->. destruct (left_out t c); [|auto]. inversion S; subst. split; [assumption|]. rewrite weight_cons in L. pose proof (len_nonneg (ch_nodes c)). lia. Qed.
Lemma channel_sound c Q : Forall (sound_channel lo hi) (c :: Q) -> exists l, prune_channel t nu (c :: Q) 0 = Some l /\ Forall (sound_channel lo hi) l /\ weight l <= weight (c :: Q).
Proof.
  intros S.
  assert (C1 : exists c' Q', (if negb nu && uniform_scale_channels t (c :: Q) 0 then collapse_scale (c :: Q) 0 else Some (c :: Q)) = Some (c' :: Q') /\ Forall (sound_channel lo hi) (c' :: Q') /\ weight (c' :: Q') <= weight (c :: Q)).
  { destruct (negb nu && uniform_scale_channels t (c :: Q) 0) eqn:U; [|exists c, Q; split; [reflexivity|]; split; [exact S|lia]]. apply andb_prop in U. destruct U as [_ U].
    destruct Q as [|c1 [|c2 Q]]; [discriminate U|discriminate U|]. assert (XY : scale_xyz (ch_op c) (ch_op c1) (ch_op c2) = true).
    { unfold uniform_scale_channels in U. change (getz (c :: c1 :: c2 :: Q) 0) with (Some c) in U. change (getz (c :: c1 :: c2 :: Q) (0 + 1)) with (Some c1) in U. change (getz (c :: c1 :: c2 :: Q) (0 + 2)) with (Some c2) in U. cbv beta iota in U. destruct (scale_xyz (ch_op c) (ch_op c1) (ch_op c2)); [reflexivity|discriminate U]. }
    destruct (scale_xyz_axes _ _ _ XY) as (AX & _). inversion S as [|? ? (H1 & H2 & H3 & H4) S1]; subst. inversion S1 as [|? ? _ S2]; subst. inversion S2 as [|? ? _ S3]; subst.
    exists (Channel ScaleUniformly ((ch_id c + to_uniform (ch_op c)) mod 256) (ch_nodes c)), Q. split; [reflexivity|]. split.
    - constructor; [|exact S3]. split; [exact H1|]. split; [right; right; right; reflexivity|]. cbn [ch_id ch_op room]. assert (E : to_uniform (ch_op c) = room (ch_op c)) by (destruct AX as [-> | [-> | ->]]; reflexivity). rewrite E. assert (0 <= room (ch_op c)) by (destruct AX as [-> | [-> | ->]]; cbn; lia). rewrite Z.mod_small by lia. lia.
    - rewrite !weight_cons. cbn [ch_nodes]. pose proof (len_nonneg (ch_nodes c1)). pose proof (len_nonneg (ch_nodes c2)). lia. }
  destruct C1 as (c' & Q' & E & S' & W). destruct (summable_found (ch_op c') Q' 1) as [N|(Q1 & d & Q2 & -> & N)].
  - rewrite (prune_alone t nu (c :: Q) c' Q' E N). eexists. split; [reflexivity|]. exact (left_out_sound _ c' Q' _ S' W eq_refl).
  - inversion S' as [|? ? (H1 & H2 & H3 & H4) S1]; subst. assert (SD : sound_channel lo hi d) by (rewrite Forall_forall in S1; apply S1; apply in_or_app; right; now left). destruct (sum_in_span lo hi _ _ H1 (proj1 SD)) as (s & SM & SI & SL).
    rewrite (prune_sum t nu (c :: Q) c' Q1 d Q2 s E N SM). eexists. split; [reflexivity|]. apply (left_out_sound _ (Channel (ch_op c') (ch_id c') s) (Q1 ++ Q2)); [| |reflexivity].
    + constructor; [split; [exact SI|split; [exact H2|split; [exact H3|exact H4]]]|]. apply Forall_app in S1. destruct S1 as [A B]. inversion B; subst. apply Forall_app. auto.
    + rewrite weight_cons, weight_app in W. rewrite weight_cons in W. rewrite weight_cons, weight_app. cbn [ch_nodes]. lia.
Qed.
Lemma loop_sound : forall P Q, Forall (sound_channel lo hi) (P ++ Q) -> exists l, prune_loop t nu (length P) (P ++ Q) = Some l /\ Forall (sound_channel lo hi) l /\ weight l <= weight (P ++ Q).
Proof.
  intros P. induction P as [|c P IH] using rev_ind; intros Q S; [exists Q; split; [reflexivity|split; [exact S|apply Z.le_refl]]|].
  rewrite app_length. cbn [length]. rewrite Nat.add_1_r. cbn [prune_loop]. rewrite <- app_assoc in *. cbn [app] in *. change (Z.of_nat (length P)) with (len P). rewrite prune_channel_app. apply Forall_app in S. destruct S as [SP SQ].
  destruct (channel_sound c Q SQ) as (l & -> & SL & WL). destruct (IH l) as (l' & E & S' & W'); [apply Forall_app; auto|]. exists l'. split; [exact E|]. split; [exact S'|]. rewrite weight_app in W'. rewrite weight_app. lia.
Qed.
Lemma insert_weight c : forall l, weight (insert_channel c l) = weight (c :: l).
Proof. induction l as [|x l IH]; [reflexivity|]. cbn [insert_channel]. destruct (ch_id c <=? ch_id x); [reflexivity|]. rewrite weight_cons, IH, !weight_cons. lia. Qed.
Lemma sort_weight : forall l, weight (sort_channels l) = weight l.
Proof. induction l as [|c l IH]; [reflexivity|]. change (sort_channels (c :: l)) with (insert_channel c (sort_channels l)). rewrite insert_weight, !weight_cons. now rewrite IH. Qed.
Lemma bone_sound n p chs : Forall (sound_channel lo hi) chs -> exists b, prune_bone t nu (Bone n p chs) = Some b /\ Forall (sound_channel lo hi) (bn_channels b) /\ weight (bn_channels b) <= weight chs.
Proof.
  intros S. rewrite <- (app_nil_r chs) in S. destruct (loop_sound chs [] S) as (l & E & SL & W). rewrite app_nil_r in *. unfold prune_bone. cbn [bn_channels bn_name bn_parent]. rewrite E. eexists. split; [reflexivity|]. cbn [bn_channels]. split.
  - rewrite Forall_forall in *. intros c C. apply SL. now apply sort_in.
  - rewrite sort_weight. exact W.
Qed.
End Prune.

(** ** Recording curves *)
Section Record.
Context (ms : Z -> Z) (span : Z * Z) (t : tolerances) (PT : positive t) (SP : fst span <= snd span) (CK : clock ms span) (LOW : - 2 ^ 30 < ms (fst span)).
Lemma tol_pos o : (0 <= tolerance_for_op t o)%R.
Proof. destruct PT as (A & B & C). unfold tolerance_for_op. destruct o; cbn; lra. Qed.
Lemma marks_len (P : mark -> mark -> Prop) : forall marks m hi, chain (fun x y => fst x < fst y /\ P x y) m marks -> fst (last marks m) <= hi -> len marks <= hi - fst m.
Proof. induction marks as [|k marks IH]; intros m hi C L; [cbn in *; lia|]. destruct C as [[C1 _] C]. rewrite last_cons in L. specialize (IH k hi C L). rewrite len_cons. lia. Qed.
Lemma interval_len op inv c tol : (0 <= tol)%R -> forall rest a old out, chain (fun x y => fk_time x <= fk_time y) a rest -> interval_nodes ms op inv c span tol (a :: rest) old = Some out -> len out <= len old + 16 * len rest.
Proof.
  intros T. induction rest as [|b rest IH]; intros a old out C; cbn [interval_nodes]; [intros E; injection E as <-; cbn; lia|]. destruct C as [AB C]. rewrite len_cons. destruct ((snd span <? fk_time a) || (fk_time b <? fst span)) eqn:E; [intros H; specialize (IH b old out C H); lia|].
  cbv zeta. set (t0 := Z.max (fst span) (fk_time a)). set (t1 := Z.min (snd span) (fk_time b)). assert (H0 : fst span <= t0) by (unfold t0; lia). assert (H1 : t0 <= t1) by (unfold t0, t1; lia). assert (H2 : t1 <= snd span) by (unfold t1; lia). pose proof CK as [MO IN].
  rewrite (flat_time_ok ms t0) by (apply IN; lia). rewrite (flat_time_ok ms t1) by (apply IN; lia). destruct (samples_eq op inv c t0 t1 H1) as [-> ->].
  destruct (interval_ok ms op inv c span tol T SP CK t0 t1 old H0 H1 H2) as (s & ns & marks & -> & _ & F & L & CH). intros H. specialize (IH b _ out C H).
  assert (LM : len marks <= 15) by (pose proof (marks_len _ marks (0, ms t0) 15 CH) as X; rewrite L in X; cbn [fst] in X; lia).
  assert (LN : len ns = len marks) by (clear - F; induction F as [|x y l l' _ _ IH]; [reflexivity|rewrite !len_cons; lia]).
  assert (LA : len (append_curve old s ns) <= len old + 16) by (unfold append_curve; destruct (_ && _); rewrite len_app; [|rewrite len_cons]; lia). lia.
Qed.
Lemma curve_total op inv c o : curve_readable span c -> 1 < len (fc_keys c) -> exists n, curve_channel ms t op inv c span o = Some n /\ in_span (ms (fst span)) (ms (snd span)) n /\ len n <= 16 * len (fc_keys c).
Proof.
  intros R L. destruct R as [R|[KO (X & a & b & Y & EK & ME)]]; [lia|]. unfold curve_channel. replace (1 <? len (fc_keys c)) with true by lia. destruct (fc_keys c) as [|k rest] eqn:K; [cbn in L; lia|]. pose proof (keys_in_order_chain _ _ KO) as CH.
  destruct (interval_nodes_ok ms op inv c span _ (tol_pos o) SP CK rest k [] CH) as (B & E & SO & BD & RE & _); [constructor|intros ? []|]. pose proof (interval_len op inv c _ (tol_pos o) rest k [] _ CH E) as LE. rewrite E. cbn [app] in *. change (len (@nil snode)) with 0 in LE.
  assert (IS : in_span (ms (fst span)) (ms (snd span)) B).
  { split; [|split; [exact SO|split; [|intros _; exact BD]]].
    - destruct (RE X a b Y EK ME) as (A & s & ns & B0 & marks & -> & _). now destruct A.
    - intros x Ix. specialize (BD x Ix). destruct CK as [_ IN]. pose proof (IN (snd span) ltac:(lia)). change (2 ^ 30) with 1073741824 in LOW. lia. }
  destruct (prune_in_span t (tolerance_for_op t o) _ _ _ IS) as (out & -> & IO & LO). assert (NE : 0 < len out) by (destruct out; [now destruct (proj1 IO)|rewrite len_cons; pose proof (len_nonneg out); lia]). replace (0 <? len out) with true by lia. exists out. split; [reflexivity|]. split; [exact IO|]. rewrite len_cons. lia.
Qed.

(** ** Nodes *)
Context (f : fbx_data) (RD : node_readable span f).
Lemma keys_pos name ax : 0 <= keys_at f name ax.
Proof. unfold keys_at. destruct (fp_anim _); [|lia]. destruct (getz l ax) as [h|]; [|lia]. destruct (fh_curve h); [apply len_nonneg|lia]. Qed.
Lemma not_const p op inv ax tol angle v : anim_const p op inv ax tol angle = (false, v) -> exists chs ch c, fp_anim p = Some chs /\ getz chs ax = Some ch /\ fh_curve ch = Some c /\ 1 < len (fc_keys c).
Proof.
  unfold anim_const. destruct (fp_anim p) as [chs|]; [|discriminate]. destruct (getz chs ax) as [ch|] eqn:GC; [|discriminate]. destruct (fh_curve ch) as [[keys x y z]|] eqn:FC; [|discriminate]. destruct keys as [|k [|k' rest]]; [discriminate|discriminate|]. intros _.
  exists chs, ch. eexists. split; [reflexivity|]. split; [exact GC|]. split; [exact FC|]. cbn [fc_keys]. rewrite !len_cons. pose proof (len_nonneg rest). lia.
Qed.
Lemma slot_total s : exists l, slot_adds ms t f span s = Some l /\ (forall c, In c l -> in_span (ms (fst span)) (ms (snd span)) (ch_nodes c)) /\ weight l <= 1 + 16 * keys_at f (sl_name s) (sl_axis s).
Proof.
  pose proof (keys_pos (sl_name s) (sl_axis s)) as KP. unfold slot_adds, added. cbv zeta. destruct (anim_const _ _ _ _ _ _) as [[|] v] eqn:AC.
  - cbn [andb]. destruct (is_default _ _ v); [exists []; split; [reflexivity|]; split; [intros ? []|change (weight []) with 0; lia]|]. eexists. split; [reflexivity|]. split; [|change (weight [Channel (op_plus (sl_op s) (sl_axis s)) (sl_id s) [SNode 0 v 0]]) with 1; lia]. intros c [<-|[]]. cbn [ch_nodes]. split; [discriminate|]. split; [repeat constructor|]. split; [intros x [<-|[]]; cbn; lia|]. intros L. cbn in L. lia.
  - cbn [andb]. destruct (not_const _ _ _ _ _ _ _ AC) as (chs & ch & c & E1 & E2 & E3 & L). rewrite E1, E2, E3. destruct RD as [_ RC]. destruct (curve_total (sl_op s) (sl_inv s) c (op_plus (sl_op s) (sl_axis s)) (RC _ _ _ _ E1 (getz_in _ _ _ E2) E3) L) as (n & -> & IS & LN).
    eexists. split; [reflexivity|]. split; [intros x [<-|[]]; exact IS|]. cbn [weight fold_right ch_nodes]. unfold keys_at. rewrite E1, E2, E3. lia.
Qed.
Definition prop_weight (l : list (FbxModel.fbx_name * Z * mtype * bool)) : Z := fold_right (fun p a => let '(name, _, _, _) := p in 3 + 16 * keys_of f name + a) 0 l.
Lemma order_total op inv : exists a b c, channel_order (fd_order f) op inv = Some [a; b; c] /\ forall g : Z -> Z, g a + g b + g c = g 0 + g 1 + g 2.
Proof.
  unfold channel_order. destruct (rotate_kind op); [|exists 0, 1, 2; split; [reflexivity|lia]]. destruct RD as [O _].
  assert (C : fd_order f = 0 \/ fd_order f = 1 \/ fd_order f = 2 \/ fd_order f = 3 \/ fd_order f = 4 \/ fd_order f = 5 \/ fd_order f = 6) by lia.
  destruct inv; (destruct C as [-> |[-> |[-> |[-> |[-> |[-> | ->]]]]]]; (do 3 eexists; split; [reflexivity|intros g; lia])).
Qed.
Lemma props_total : forall l, exists r, prop_adds ms span t f l = Some r /\ (forall c, In c (concat r) -> in_span (ms (fst span)) (ms (snd span)) (ch_nodes c)) /\ weight (concat r) <= prop_weight l.
Proof.
  induction l as [|[[[name id] op] inv] l (r & E & S & W)]; cbn [prop_adds prop_weight fold_right]; [exists []; split; [reflexivity|]; split; [intros ? []|cbn; lia]|]. fold (prop_weight l). pose proof (keys_pos name 0). pose proof (keys_pos name 1). pose proof (keys_pos name 2). unfold keys_of.
  destruct (three_channels _); [|exists r; split; [exact E|]; split; [exact S|lia]]. destruct (order_total op inv) as (a & b & c & -> & OG). cbn [slots_of map_opt]. destruct (slot_total (Slot name op inv a id)) as (l1 & -> & S1 & W1). destruct (slot_total (Slot name op inv b (id + 1))) as (l2 & -> & S2 & W2). destruct (slot_total (Slot name op inv c (id + 1 + 1))) as (l3 & -> & S3 & W3). rewrite E. cbn [sl_name sl_axis] in *.
  eexists. split; [reflexivity|]. cbn [app concat]. split.
  - intros x X. rewrite !in_app_iff in X. destruct X as [X|[X|[X|X]]]; auto.
  - rewrite !weight_app. specialize (OG (keys_at f name)). lia.
Qed.
Definition low_okb (s : slot) : bool := (rotate_kind (slot_mtype s) || translate_kind (slot_mtype s) || is_axis (slot_mtype s)) && (0 <=? sl_id s) && (sl_id s <=? 200).
Lemma low_slots : forallb low_okb (slots (fd_order f) kProperties) = true.
Proof.
  destruct RD as [O _]. assert (C : fd_order f = 0 \/ fd_order f = 1 \/ fd_order f = 2 \/ fd_order f = 3 \/ fd_order f = 4 \/ fd_order f = 5 \/ fd_order f = 6) by lia. destruct C as [-> |[-> |[-> |[-> |[-> |[-> | ->]]]]]]; vm_compute; reflexivity.
Qed.
Lemma node_total nu : exists chs, node_channels ms nu span t f = Some chs /\ Forall (sound_channel (ms (fst span)) (ms (snd span))) chs /\ weight chs <= 33 + 32 * total_keys f.
Proof.
  destruct (props_total kProperties) as (r & E & S & W). assert (SD : Forall (sound_channel (ms (fst span)) (ms (snd span))) (concat r)).
  { rewrite Forall_forall. intros c C. split; [now apply S|]. pose proof (prop_slots _ _ _ _ _ _ E) as PS. destruct (in_gathered _ _ _ _ _ _ _ PS C) as (s & S1 & S2 & S3). assert (K : In s (slots (fd_order f) kProperties)) by (unfold slots in *; apply in_flat_map in S1; destruct S1 as (p & P1 & P2); apply filter_In in P1; apply in_flat_map; exists p; tauto).
    pose proof low_slots as H2. rewrite forallb_forall in H2. specialize (H2 s K). unfold low_okb in H2. rewrite <- S2, <- S3 in H2. rewrite !andb_true_iff, !orb_true_iff in H2. destruct H2 as [[H2 A] B]. split; [|split; [lia|unfold room; destruct (ch_op c); lia]].
    unfold geometric, rotates, translates, axis_scale. destruct (ch_op c); cbn in H2; try (exfalso; intuition discriminate); tauto. }
  unfold node_channels. rewrite E. destruct (bone_sound t nu _ _ [] (-1) (concat r) SD) as (b & -> & SB & WB). exists (bn_channels b). split; [reflexivity|]. split; [exact SB|].
  assert (PW : prop_weight kProperties <= 33 + 32 * total_keys f); [|lia]. unfold prop_weight, kProperties, total_keys. cbn [fold_right].
  assert (KO : forall name, 0 <= keys_of f name) by (intros name; unfold keys_of; pose proof (keys_pos name 0); pose proof (keys_pos name 1); pose proof (keys_pos name 2); lia).
  pose proof (KO LclTranslation). pose proof (KO RotationOffset). pose proof (KO RotationPivot). pose proof (KO PreRotation). pose proof (KO LclRotation). pose proof (KO PostRotation). pose proof (KO ScalingOffset). pose proof (KO ScalingPivot). pose proof (KO LclScaling). lia.
Qed.
End Record.

(** ** Scenes *)
(** C104 for animated scenes: a scene whose nodes are readable is gathered.  Every channel has nodes, in the order of
    their times; those of a curve are within the span. *)
Theorem C104_gathers : forall ms nu span roots t root_only, positive t -> fst span <= snd span -> clock ms span -> - 2 ^ 30 < ms (fst span) -> (forall n, In n (scene_bones roots) -> node_readable span (scene_data n)) ->
  exists d, gather_flat_anim ms nu span roots (new_anim_data t root_only) = Some d /\
    forall i b n c, getz (ad_bones d) i = Some b -> getz (scene_bones roots) i = Some n -> In c (bn_channels b) ->
      in_span (ms (fst span)) (ms (snd span)) (ch_nodes c) /\ len (ch_nodes c) <= 33 + 32 * total_keys (scene_data n) /\ geometric (ch_op c) /\ 0 <= ch_id c <= 250.
Proof.
  intros ms nu span roots t ro PT SP CK LOW ST.
  assert (EX : exists d, gather_flat_anim ms nu span roots (new_anim_data t ro) = Some d).
  { unfold gather_flat_anim. rewrite gather_each_eq, gather_all_eq. change (len (ad_bones (new_anim_data t ro))) with 0. destruct (labels_good roots ltac:(apply Forall_forall; intros n _; apply label_all_good) (-1) (new_anim_data t ro)) as (NA & LE & RT & SPT). cbv zeta in *. change (len (ad_bones (new_anim_data t ro))) with 0 in *.
    destruct (list_added (map skeleton_of roots) ltac:(apply Forall_forall; intros n _; apply tree_added) (-1) (new_anim_data t ro)) as (bs & E & CU & TL & RO & LB & PLC). set (d0 := gather_list (map skeleton_of roots) (-1) (new_anim_data t ro)) in *. cbn [new_anim_data ad_bones app ad_cur ad_tol ad_root_only] in E, CU, TL, RO.
    assert (EM : forall b, In b bs -> bn_channels b = []). { intros b Ib. apply In_nth_error in Ib. destruct Ib as (k & K). assert (GK : getz bs (Z.of_nat k) = Some b) by (unfold getz; replace (Z.of_nat k <? 0) with false by lia; now rewrite Nat2Z.id). pose proof (getz_Some _ _ _ GK). destruct (getz_in_range (filter need_bone (flat_map subnodes (map skeleton_of roots))) (Z.of_nat k) ltac:(lia)) as [n N]. now destruct (PLC _ b n GK N) as (_ & C & _). }
    apply (each_total ms nu span _ ltac:(apply Forall_forall; intros n _; apply tree_total) 0 _ d0 NA ltac:(lia)).
    - split; [exact CU|]. split; [lia|]. split; [lia|]. rewrite <- E in EM. split; [intros k _; unfold chans; destruct (getz (ad_bones d0) k) as [b|] eqn:G; [|reflexivity]; apply EM; exact (getz_in _ _ _ G)|]. intros b B. specialize (EM b B). destruct b as [bn bp bc]. cbn in EM. rewrite EM. apply prune_empty.
    - rewrite TL. rewrite Forall_forall. intros n N i f F. assert (IF : In f (map snd (flat_map spots (fst (labels roots 0))))) by (apply in_map_iff; exists (i, f); split; [reflexivity|apply in_flat_map; eauto]). rewrite SPT in IF. apply in_map_iff in IF. destruct IF as (q & <- & Q). destruct (node_total ms span t PT SP CK LOW (scene_data q) (ST q Q) nu) as (chs & NC & _). eauto. }
  destruct EX as [d E]. exists d. split; [exact E|]. pose proof (C104_scene ms nu span roots t ro d E) as SC. cbv zeta in SC. destruct SC as (_ & _ & RO & NM & _ & SC). intros i b n c B N C.
  destruct (SC _ b n B N) as [S1 S2]. destruct (node_total ms span t PT SP CK LOW (scene_data n) (ST n (getz_in _ _ _ N)) nu) as (chs & NC & SD & W). apply alone_eq in NC.
  assert (BC : bn_channels b = [] \/ bn_channels b = chs).
  { destruct ro; [|right; specialize (S2 (or_introl eq_refl)); apply alone_eq in S2; apply alone_eq in NC; congruence]. destruct (bn_channels b) as [|x l] eqn:EB; [now left|right]. assert (NB : ~ below_animated d i) by (intros BA; specialize (S1 eq_refl BA); discriminate). specialize (S2 (or_intror NB)). apply alone_eq in S2. apply alone_eq in NC. congruence. }
  destruct BC as [BC|BC]; rewrite BC in C; [destruct C|]. rewrite Forall_forall in SD. destruct (SD c C) as (H1 & H2 & H3 & H4). pose proof (weight_in _ _ C). split; [exact H1|]. split; [lia|]. split; [exact H2|]. split; [exact H3|]. unfold room in H4. destruct (ch_op c); lia.
Qed.
Print Assumptions C104_gathers.

(** A scene with a bone that moves along x. *)
Definition c104_data : fbx_data := FbxData (fun name => match name with LclTranslation => c97_property | LclScaling => FbxProperty (fun _ => 1%R) None | _ => FbxProperty (fun _ => 0%R) None end) 0.
Definition c104_scene : list scene_node := [SceneNode [97] true c104_data [SceneNode [98] true c104_data []]].
Lemma c104_readable span : fst span <= 1000 -> 0 <= snd span -> forall n, In n (scene_bones c104_scene) -> node_readable span (scene_data n).
Proof.
  intros S1 S2. assert (RD : node_readable span c104_data).
  { split; [cbn; lia|]. intros name chs ch c E I F. destruct name; try discriminate E. injection E as <-. destruct I as [<-|[<-|[<-|[]]]]; try discriminate F. injection F as <-. right. split; [exact c97_order|]. exists [], (FbxKey 0 0 1000 1000), (FbxKey 1000 1000 1000 1000), []. split; [reflexivity|]. unfold meets. cbn. lia. }
  intros n [<-|[<-|[]]]; exact RD.
Qed.
Example c104_gathers_met : exists d, gather_flat_anim (fun t => t) false (0, 1000) c104_scene (new_anim_data (Tolerances (1 / 100) (1 / 100) (1 / 100) (1 / 100) (1 / 100)) false) = Some d /\ len (ad_bones d) = 2.
Proof.
  destruct (C104_gathers (fun t => t) false (0, 1000) c104_scene (Tolerances (1 / 100) (1 / 100) (1 / 100) (1 / 100) (1 / 100)) false) as (d & G & _).
  - unfold positive. cbn. lra.
  - cbn. lia.
  - apply c97_clock; lia.
  - cbn. lia.
  - apply c104_readable; cbn; lia.
  - exists d. split; [exact G|]. pose proof (C104_scene _ _ _ _ _ _ _ G) as SC. cbv zeta in SC. destruct SC as (_ & _ & _ & NM & _). rewrite <- (len_map bn_name), NM. reflexivity.
Qed.
