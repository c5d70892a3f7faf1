(** Theorems about the size of converted keyframes (C68). *)
From Verif Require Import RBase BaseFacts RangeModel RangeProofs RangeProps CurveModel CurveProps CompactSplineModel CompactSplineSpec CompactSplineProofs CompactSplineAdd
  CompactSplineProps CompactSplineEvalProps CompactSplineSizeProps MatrixModel KeyframeModel KeyframeSpec KeyframeSplines KeyframeProofs.
From Coq Require Import Sorting.Sorted.
Local Open Scope Z_scope.

(** * Nodes and splines of a channel *)
Lemma sorted_of (l : list R) : (forall i x y, getz l i = Some x -> getz l (i + 1) = Some y -> (x <= y)%R) -> StronglySorted Rle l.
Proof.
  intros H. apply Sorted_StronglySorted; [intros a b c; apply Rle_trans|]. induction l as [|x l IH]; [constructor|]. constructor.
  - apply IH. intros i a b A B. pose proof (getz_Some _ _ _ A). apply (H (i + 1)); change (x :: l) with ([x] ++ l); rewrite getz_app2 by (change (len [x]) with 1; lia); change (len [x]) with 1.
    + rewrite <- A. f_equal. lia.
    + rewrite <- B. f_equal. lia.
  - destruct l as [|y l]; constructor. apply (H 0); reflexivity.
Qed.
Lemma getz_map {A B} (f : A -> B) l i : getz (map f l) i = match getz l i with Some x => Some (f x) | None => None end.
Proof. unfold getz. destruct (i <? 0); [reflexivity|]. now rewrite nth_error_map; destruct (nth_error l _). Qed.

Lemma node_times data ch chans c ns : array_nodes data ch = Some chans -> getz chans c = Some ns ->
  len ns = 2 * kd_count data /\ forall j u, getz ns j = Some u -> key_time data (j / 2) = Some (ux u).
Proof.
  intros H G. assert (K : len ns = 2 * kd_count data /\ forall f, 0 <= f < kd_count data -> exists t a b, key_time data f = Some t /\ getz ns (2 * f) = Some a /\ getz ns (2 * f + 1) = Some b /\ ux a = t /\ ux b = t).
  { destruct (kd_type data) eqn:T.
    - destruct (array_linear data ch chans c ns T H G) as [L F]. split; [exact L|]. intros f FR. destruct (F f FR) as (t & v & A1 & A2 & A3 & A4). exists t. do 2 eexists. split; [exact A1|]. split; [eassumption|]. split; [eassumption|]. split; reflexivity.
    - destruct (array_step data ch chans c ns T H G) as [L F]. split; [exact L|]. intros f FR. destruct (F f FR) as (t & v & w & A1 & A2 & A3 & A4 & A5). exists t. do 2 eexists. split; [exact A1|]. split; [eassumption|]. split; [eassumption|]. split; reflexivity.
    - destruct (array_cubic data ch chans c ns T H G) as [L F]. split; [exact L|]. intros f FR. destruct (F f FR) as (t & v & l & r & A1 & A2 & A3 & A4 & A5 & A6). exists t. do 2 eexists. split; [exact A1|]. split; [eassumption|]. split; [eassumption|]. split; reflexivity. }
  destruct K as [L K]. split; [exact L|]. intros j u J. pose proof (getz_Some _ _ _ J) as JR. destruct (K (j / 2)) as (t & a & b & A1 & A2 & A3 & A4 & A5).
  { split; [apply Z.div_pos; lia|apply Z.div_lt_upper_bound; lia]. }
  pose proof (Z.div_mod j 2 ltac:(lia)) as DM. pose proof (Z.mod_pos_bound j 2 ltac:(lia)). assert (j = 2 * (j / 2) \/ j = 2 * (j / 2) + 1) as [E|E] by lia; rewrite E in J; congruence.
Qed.
Lemma nodes_sorted data ch chans c ns : chronological data -> array_nodes data ch = Some chans -> getz chans c = Some ns ->
  StronglySorted Rle (map ux ns) /\ Forall (fun n => 0 <= ux n)%R ns.
Proof.
  intros [O P] H G. destruct (node_times data ch chans c ns H G) as [L T]. split.
  - apply sorted_of. intros i x y X Y. rewrite getz_map in X, Y. destruct (getz ns i) as [u|] eqn:U; [|discriminate]. destruct (getz ns (i + 1)) as [w|] eqn:W; [|discriminate]. injection X as <-. injection Y as <-.
    pose proof (T _ _ U) as TU. pose proof (T _ _ W) as TW. pose proof (Z.div_mod i 2 ltac:(lia)). pose proof (Z.mod_pos_bound i 2 ltac:(lia)).
    pose proof (Z.div_mod (i + 1) 2 ltac:(lia)). pose proof (Z.mod_pos_bound (i + 1) 2 ltac:(lia)). assert ((i + 1) / 2 = i / 2 \/ (i + 1) / 2 = i / 2 + 1) as [E|E] by lia.
    + rewrite E in TW. assert (ux u = ux w) by congruence. lra.
    + rewrite E in TW. eapply O; eauto.
  - apply Forall_forall. intros n I. apply in_getz in I. destruct I as [i I]. apply T in I. eauto.
Qed.

Lemma splines_ok : forall chans off used out total, create_splines off used chans = Some (out, total) ->
  len out = len chans /\ (forall i o s, getz out i = Some (o, s) -> exists ns, getz chans i = Some ns /\ create_from_nodes ns = Some s) /\
  forall n, (forall ns, In ns chans -> len ns = n) -> total = used + len chans * size n /\ forall i o s, getz out i = Some (o, s) -> o = off + i * size n.
Proof.
  induction chans as [|ns chans IH]; cbn [create_splines]; intros off used out total H.
  { injection H as <- <-. split; [reflexivity|]. split; [intros i o s G; apply getz_Some in G; change (len (@nil (Z * spline))) with 0 in G; lia|].
    intros n _. change (len (@nil (list unode))) with 0. split; [lia|]. intros i o s G; apply getz_Some in G; change (len (@nil (Z * spline))) with 0 in G; lia. }
  destruct (create_from_nodes ns) as [s|] eqn:C; [|discriminate]. destruct (create_splines _ _ chans) as [[out' total']|] eqn:R; [|discriminate]. injection H as <- <-. cbn [fst snd].
  destruct (IH _ _ _ _ R) as (I1 & I2 & I3). rewrite !len_cons.
  assert (CONS : forall A (x : A) l i y, getz (x :: l) i = Some y -> (i = 0 /\ y = x) \/ (0 < i /\ getz l (i - 1) = Some y)).
  { intros A x l i y G. pose proof (getz_Some _ _ _ G). destruct (Z.eq_dec i 0) as [->|N]; [left; injection G as <-; auto|right]. split; [lia|].
    change (x :: l) with ([x] ++ l) in G. rewrite getz_app2 in G by (change (len [x]) with 1; lia). exact G. }
  assert (MX : max_nodes s = len ns) by (unfold create_from_nodes in C; destruct (_ <=? _); [|discriminate]; apply init_max in C; exact C).
  split; [lia|]. split.
  - intros i o s' G. apply CONS in G. destruct G as [[-> E]|[P G]]; [injection E as -> ->; exists ns; auto|].
    destruct (I2 _ _ _ G) as (ns' & G1 & G2). exists ns'. split; [|exact G2]. change (ns :: chans) with ([ns] ++ chans). rewrite getz_app2 by (change (len [ns]) with 1; lia). exact G1.
  - intros n N. rewrite MX, (N ns (or_introl eq_refl)) in *. destruct (I3 n) as [T O]; [intros; apply N; now right|]. split; [lia|].
    intros i o s' G. apply CONS in G. destruct G as [[-> E]|[P G]]; [injection E as -> ->; lia|]. rewrite (O _ _ _ G). lia.
Qed.

Lemma run_lengths data ch vf chans : add_keyframe_data data ch vf = Some chans -> len chans = Z.of_nat (Z.to_nat ch) /\ 0 <= kd_count data /\ forall ns, In ns chans -> len ns = 2 * kd_count data.
Proof.
  intros H. assert (C : 0 <= kd_count data) by (unfold add_keyframe_data in H; destruct (Z.leb_spec 0 (kd_count data)); [assumption|discriminate]).
  destruct (kd_type data) eqn:T.
  - destruct (run_linear data ch vf chans H (fun _ => True) T I ltac:(auto)) as (d & _ & _ & L & K). repeat split; auto. intros ns IN. apply in_getz in IN. destruct IN as [c G]. apply (K _ _ G).
  - destruct (run_step data ch vf chans H (fun _ => True) T I ltac:(auto)) as (d & _ & _ & L & K). repeat split; auto. intros ns IN. apply in_getz in IN. destruct IN as [c G]. apply (K _ _ G).
  - destruct (run_cubic data ch vf chans H (fun _ => True) T I ltac:(auto)) as (d & _ & _ & L & K). repeat split; auto. intros ns IN. apply in_getz in IN. destruct IN as [c G]. apply (K _ _ G).
Qed.

(** * C68: the buffer *)
(** A spline with room for [max] nodes occupies [16 + 6 * max] bytes. *)
Definition fills (buffer_size count : Z) (out : list (Z * spline)) : Prop :=
  (forall i off s, getz out i = Some (off, s) -> 0 <= off /\ off mod 4 = 0 /\ off + (16 + 6 * (2 * count)) <= buffer_size /\ num_nodes s <= max_nodes s /\ max_nodes s = 2 * count) /\
  (forall i j off s off' s', getz out i = Some (off, s) -> getz out j = Some (off', s') -> i < j -> off + (16 + 6 * (2 * count)) <= off').
Lemma create_max ns s : create_from_nodes ns = Some s -> len ns <= 65532 /\ max_nodes s = len ns /\ num_nodes s <= max_nodes s.
Proof.
  unfold create_from_nodes, kMaxSplineIndex. destruct (Z.leb_spec (len ns) 65532) as [LE|]; [|discriminate]. intros H. split; [exact LE|].
  assert (M : max_nodes s = len ns) by (apply init_max in H; exact H). split; [exact M|]. rewrite M. unfold init_from_nodes in H.
  destruct (getz ns _) as [la|]; [|discriminate]. destruct (covers _) as [r|]; [|discriminate]. rewrite uncompressed_calls in H.
  destruct (C30_nodes _ _ _ _ _ (len_nonneg ns : 0 <= max_nodes (Spline range_default 0 [] (len ns))) (granularity_pos (ux la)) H) as (_ & _ & K & _). exact K.
Qed.
Lemma size_even c : 0 <= c -> size (2 * c) = 20 + 12 * c.
Proof. intros C. rewrite size_eq by lia. replace (18 + 6 * (2 * c) + 3) with ((5 + 3 * c) * 4 + 1) by lia. rewrite Z.div_add_l by lia. change (1 / 4) with 0. lia. Qed.
Lemma splines_fill chans ch data out used : create_splines 0 0 chans = Some (out, used) -> len chans = ch -> 0 <= kd_count data -> (forall ns, In ns chans -> len ns = 2 * kd_count data) ->
  used = required_buffer_size (kd_count data) ch (kd_type data) /\ len out = ch /\ fills used (kd_count data) out.
Proof.
  intros H L C N. destruct (splines_ok _ _ _ _ _ H) as (S1 & S2 & S3). destruct (S3 _ N) as [T O]. rewrite size_even in * by exact C.
  assert (CH : 0 <= ch) by (subst ch; apply len_nonneg). split; [|split; [congruence|split]].
  - unfold required_buffer_size, required_node_count, kMaxSplineIndex, kInvalidSplineIndex. destruct (Z.eq_dec ch 0) as [E|E].
    + rewrite T. rewrite L, E. destruct (_ =? _); lia.
    + destruct (getz_in_range out 0) as [[o s] G]; [lia|]. destruct (S2 _ _ _ G) as (ns & G1 & G2). apply create_max in G2. rewrite (N ns (getz_in _ _ _ G1)) in G2.
      replace (65532 <? kd_count data * 2) with false by lia. replace (kd_count data * 2 =? 65535) with false by lia.
      replace (kd_count data * 2) with (2 * kd_count data) by lia. rewrite size_even by exact C. lia.
  - intros i off s G. destruct (S2 _ _ _ G) as (ns & G1 & G2). apply create_max in G2. rewrite (N ns (getz_in _ _ _ G1)) in G2. rewrite (O _ _ _ G), T.
    pose proof (getz_Some _ _ _ G). assert ((i + 1) * (20 + 12 * kd_count data) <= len chans * (20 + 12 * kd_count data)) by (apply Z.mul_le_mono_nonneg_r; lia).
    assert (0 <= i * (20 + 12 * kd_count data)) by (apply Z.mul_nonneg_nonneg; lia). repeat split; try lia.
  - intros i j off s off' s' G G' IJ. rewrite (O _ _ _ G), (O _ _ _ G'). assert ((i + 1) * (20 + 12 * kd_count data) <= j * (20 + 12 * kd_count data)) by (apply Z.mul_le_mono_nonneg_r; lia). lia.
Qed.

(** The bytes reported equal the required size, and the splines lie in them one after the other. *)
Theorem C68_exact : forall data ch out used, 0 <= ch -> add_array_curves data ch = Some (out, used) ->
  used = required_buffer_size (kd_count data) ch (kd_type data) /\ len out = ch /\ fills used (kd_count data) out.
Proof.
  intros data ch out used CH H. unfold add_array_curves in H. destruct (array_nodes data ch) as [chans|] eqn:A; [|discriminate].
  destruct (run_lengths _ _ _ _ A) as (L & C & N). apply (splines_fill chans ch data); auto. lia.
Qed.
Theorem C68_exact_quaternion : forall data order out used, add_quaternion_curves data order = Some (out, used) ->
  used = required_buffer_size (kd_count data) 4 (kd_type data) /\ len out = 4 /\ fills used (kd_count data) out.
Proof.
  intros data order out used H. unfold add_quaternion_curves in H. destruct (quaternion_nodes data) as [chans|] eqn:A; [|discriminate].
  destruct (run_lengths _ _ _ _ A) as (L & C & N). destruct (reorder order chans) as [chans'|] eqn:RO; [|discriminate]. apply (splines_fill chans' 4 data); auto.
  - destruct order; [cbn in RO; injection RO as <-; exact L|]. cbn in RO. destruct chans as [|a [|b [|c [|d [|e chans]]]]]; try discriminate. injection RO as <-. reflexivity.
  - intros ns I. apply N. destruct order; [cbn in RO; injection RO as <-; exact I|]. cbn in RO. destruct chans as [|a [|b [|c [|d [|e chans]]]]]; try discriminate. injection RO as <-. cbn in *. tauto.
Qed.

(** ** The conversion of chronological keyframes succeeds *)
Lemma channels_progress f : forall chans c, (forall i ns, getz chans i = Some ns -> exists ns', f (c + i) ns = Some ns') -> exists chans', channels_loop f c chans = Some chans'.
Proof.
  induction chans as [|ns chans IH]; intros c H; cbn [channels_loop]; [eauto|]. destruct (H 0 ns eq_refl) as [ns' E]. rewrite Z.add_0_r in E. rewrite E.
  destruct (IH (c + 1)) as [r R]; [|rewrite R; eauto]. intros i n G. pose proof (getz_Some _ _ _ G). destruct (H (i + 1) n) as [n' E'].
  - change (ns :: chans) with ([ns] ++ chans). rewrite getz_app2 by (change (len [ns]) with 1; lia). rewrite <- G. f_equal. change (len [ns]) with 1. lia.
  - exists n'. rewrite <- E'. f_equal. lia.
Qed.
Definition sized (ch : Z) (k : keyframe) : Prop := len (kf_values k) = ch /\ len (kf_left k) = ch /\ len (kf_right k) = ch.
Ltac inr := match goal with |- context [getz ?l ?i] => let x := fresh "x" in let E := fresh "E" in destruct (getz_in_range l i) as [x E]; [lia|rewrite E; cbv beta iota] end.
Ltac ins := match goal with |- context [setz ?l ?i ?y] => let x := fresh "l" in let E := fresh "E" in destruct (setz_Some l i y) as [x E]; [lia|rewrite E; apply setz_len in E; cbv beta iota] end.
Lemma channel_progress data frame t c cur prev ns ch : 0 <= frame < kd_count data -> 0 <= c < ch -> sized ch cur -> sized ch prev -> len ns = 2 * kd_count data ->
  (exists ns', linear_channel data frame t c cur prev ns = Some ns') /\ (exists ns', step_channel data frame t c cur prev ns = Some ns') /\
  (kd_ms data <> 0%R -> exists ns', cubic_channel data frame t c cur prev ns = Some ns').
Proof.
  intros F C (S1 & S2 & S3) (P1 & _) L. repeat split.
  - unfold linear_channel. inr. inr. ins. inr. ins. destruct (Z.eqb_spec (frame * 2) 0); [ins; eauto|]. inr. ins. ins. destruct (_ =? _); [ins; eauto|eauto].
  - unfold step_channel. inr. inr. ins. ins. destruct (Z.eqb_spec (frame * 2) 0); [ins; eauto|]. inr. ins. eauto.
  - intros M. unfold cubic_channel, tangent_to_ms. rewrite !Reqb_f by exact M. cbn [negb]. inr. inr. ins. inr. ins. eauto.
Qed.
Lemma frames_progress data vf f ch : (forall frame k, 0 <= frame < kd_count data -> sized ch k -> exists k', vf frame k k = Some k' /\ sized ch k') ->
  (forall frame t c cur prev ns, 0 <= frame < kd_count data -> 0 <= c < ch -> sized ch cur -> sized ch prev -> len ns = 2 * kd_count data ->
     exists ns', f data frame t c cur prev ns = Some ns' /\ len ns' = 2 * kd_count data) -> kd_count data <= len (kd_times data) ->
  forall n frame k chans, 0 <= frame -> frame + Z.of_nat n = kd_count data -> sized ch k -> len chans <= ch -> (forall ns, In ns chans -> len ns = 2 * kd_count data) ->
  exists chans', frames_loop data vf f n frame k k chans = Some chans'.
Proof.
  intros HV HF T. induction n as [|n IH]; intros frame k chans F E S LC N; cbn [frames_loop]; [eauto|].
  destruct (getz_in_range (kd_times data) frame) as [t ->]; [lia|]. destruct (HV frame k ltac:(lia) S) as (k' & -> & S').
  match goal with |- context [channels_loop ?g 0 chans] => destruct (channels_progress g chans 0) as [c1 C1] end.
  { intros i ns G. pose proof (getz_Some _ _ _ G). destruct (HF frame (to_ms t (kd_ms data)) (0 + i) k' k ns) as (ns' & A & _); try lia; auto. { apply N. eapply getz_in. exact G. } eauto. }
  rewrite C1. apply channels_ok in C1. destruct C1 as [L1 K1]. apply IH; try lia; auto.
  intros ns' I. apply in_getz in I. destruct I as [i G]. destruct (K1 _ _ G) as (ns & G1 & G2). pose proof (getz_Some _ _ _ G1).
  destruct (HF frame (to_ms t (kd_ms data)) (0 + i) k' k ns) as (ns'' & A & B); try lia; auto. { apply N. eapply getz_in. exact G1. } congruence.
Qed.
Lemma channel_lengths data frame t c cur prev ns ns' :
  (linear_channel data frame t c cur prev ns = Some ns' -> len ns' = len ns) /\ (step_channel data frame t c cur prev ns = Some ns' -> len ns' = len ns) /\
  (cubic_channel data frame t c cur prev ns = Some ns' -> len ns' = len ns).
Proof.
  unfold linear_channel, step_channel, cubic_channel, tangent_to_ms. repeat split; intros H;
    repeat match type of H with
    | context [match ?e with Some _ => _ | None => _ end] => let E := fresh "E" in destruct e eqn:E; [|discriminate]; try (apply setz_len in E)
    | (if ?b then _ else _) = _ => destruct b; try discriminate
    end; try apply setz_len in H; try (injection H as <-); lia.
Qed.
Lemma run_progress data ch vf : (forall frame k, 0 <= frame < kd_count data -> sized ch k -> exists k', vf frame k k = Some k' /\ sized ch k') ->
  0 <= ch -> 0 <= kd_count data <= len (kd_times data) -> (kd_type data = CubicSpline -> kd_ms data <> 0%R) -> exists chans, add_keyframe_data data ch vf = Some chans.
Proof.
  intros HV CH T M. unfold add_keyframe_data. replace (0 <=? kd_count data) with true by lia. apply (frames_progress data vf _ ch HV); try lia.
  - intros frame t c cur prev ns F C S P L. destruct (channel_progress data frame t c cur prev ns ch F C S P L) as (A & B & D).
    destruct (kd_type data) eqn:TY.
    + destruct A as [ns' A]. exists ns'. split; [exact A|]. apply channel_lengths in A. lia.
    + destruct B as [ns' B]. exists ns'. split; [exact B|]. apply channel_lengths in B. lia.
    + destruct (D (M eq_refl)) as [ns' E]. exists ns'. split; [exact E|]. apply channel_lengths in E. lia.
  - unfold new_keyframe, sized. cbn [kf_values kf_left kf_right]. rewrite len_repeat. lia.
  - rewrite len_repeat. lia.
  - intros ns I. apply repeat_spec in I. subst ns. rewrite len_repeat. lia.
Qed.

(** Values per keyframe and channel. *)
Definition values_per_key (t : interpolation) : Z := match t with CubicSpline => 3 | _ => 1 end.
Lemma array_value_progress data ch frame k : 0 <= ch -> 0 <= frame < kd_count data -> kd_count data * ch * values_per_key (kd_type data) <= len (kd_values data) -> sized ch k ->
  exists k', get_array_value data ch frame k k = Some k' /\ sized ch k'.
Proof.
  intros CH F L (S1 & S2 & S3). unfold get_array_value. assert (FC : (frame + 1) * ch <= kd_count data * ch) by (apply Z.mul_le_mono_nonneg_r; lia). assert (0 <= frame * ch) by (apply Z.mul_nonneg_nonneg; lia).
  assert (SL : forall st, 0 <= st -> st + ch <= len (kd_values data) -> exists r, slice (kd_values data) st ch = Some r /\ len r = ch) by (intros st A B; destruct (slice_some (kd_values data) st ch A CH B) as [r R]; exists r; split; [exact R|]; apply slice_ok in R; tauto).
  destruct (kd_type data); cbn [values_per_key] in L.
  - destruct (SL (frame * ch)) as (r & -> & R); [lia|lia|]. eexists. split; [reflexivity|]. repeat split; auto.
  - destruct (SL (frame * ch)) as (r & -> & R); [lia|lia|]. eexists. split; [reflexivity|]. repeat split; auto.
  - destruct (SL (frame * ch * 3)) as (r1 & -> & R1); [lia|lia|]. destruct (SL (frame * ch * 3 + ch)) as (r2 & -> & R2); [lia|lia|]. destruct (SL (frame * ch * 3 + ch + ch)) as (r3 & -> & R3); [lia|lia|].
    eexists. split; [reflexivity|]. repeat split; auto.
Qed.
Lemma create_progress ns : ns <> [] -> len ns <= 65532 -> StronglySorted Rle (map ux ns) -> Forall (fun n => 0 <= ux n)%R ns -> exists s, create_from_nodes ns = Some s.
Proof.
  intros N L S P. unfold create_from_nodes, kMaxSplineIndex. replace (len ns <=? 65532) with true by lia.
  destruct (C30_init_from_nodes (Spline range_default 0 [] (len ns)) ns N ltac:(cbn; lia) S P) as (s & made & E & _). eauto.
Qed.
Lemma splines_progress : forall chans off used, (forall ns, In ns chans -> exists s, create_from_nodes ns = Some s) -> exists out, create_splines off used chans = Some out.
Proof.
  induction chans as [|ns chans IH]; intros off used H; cbn [create_splines]; [eauto|]. destruct (H ns (or_introl eq_refl)) as [s ->].
  destruct (IH (off + size (max_nodes s)) (used + size (max_nodes s))) as [out ->]; [intros; apply H; now right|]. eauto.
Qed.

Theorem C68_succeeds : forall data ch, 0 <= ch -> 1 <= kd_count data <= 32766 -> chronological data -> kd_count data <= len (kd_times data) ->
  kd_count data * ch * values_per_key (kd_type data) <= len (kd_values data) -> (kd_type data = CubicSpline -> kd_ms data <> 0%R) ->
  exists out used, add_array_curves data ch = Some (out, used).
Proof.
  intros data ch CH C CR LT LV M. destruct (run_progress data ch (get_array_value data ch)) as [chans R]; try lia; auto.
  { intros frame k F S. now apply array_value_progress. }
  unfold add_array_curves, array_nodes. rewrite R. destruct (splines_progress chans 0 0) as [[out used] E]; [|eauto].
  intros ns I. destruct (run_lengths _ _ _ _ R) as (_ & _ & N). apply in_getz in I. destruct I as [c G].
  assert (L : len ns = 2 * kd_count data) by (apply N; eapply getz_in; exact G). destruct (nodes_sorted data ch chans c ns CR R G) as [S P].
  apply create_progress; auto; [|lia]. intros ->. change (len (@nil unode)) with 0 in L. lia.
Qed.

(** Without keyframes a size is required, but the conversion reads before the first node; with
    too many keyframes the required size is zero and the conversion fails an assert. *)
Theorem C68_no_keyframes_refuted : forall data ch, kd_count data = 0 -> 1 <= ch ->
  add_array_curves data ch = None /\ required_buffer_size 0 ch (kd_type data) = 20 * ch.
Proof.
  intros data ch C CH. split.
  - unfold add_array_curves. destruct (array_nodes data ch) as [chans|] eqn:R; [|reflexivity]. destruct (run_lengths _ _ _ _ R) as (L & _ & N).
    destruct chans as [|ns chans]; [change (len (@nil (list unode))) with 0 in L; lia|]. cbn [create_splines]. assert (len ns = 0) by (rewrite (N ns (or_introl eq_refl)); lia).
    destruct ns as [|u ns]; [reflexivity|]. rewrite len_cons in *. pose proof (len_nonneg ns). lia.
  - change (ch * 20 = 20 * ch). lia.
Qed.
Theorem C68_too_many : forall data ch, 32767 <= kd_count data -> 1 <= ch -> add_array_curves data ch = None /\ required_buffer_size (kd_count data) ch (kd_type data) = 0.
Proof.
  intros data ch C CH. split.
  - destruct (add_array_curves data ch) as [[out used]|] eqn:E; [|reflexivity]. unfold add_array_curves in E. destruct (array_nodes data ch) as [chans|] eqn:R; [|discriminate].
    destruct (run_lengths _ _ _ _ R) as (L & _ & N). destruct chans as [|ns chans]; [change (len (@nil (list unode))) with 0 in L; lia|]. cbn [create_splines] in E.
    destruct (create_from_nodes ns) as [s|] eqn:S; [|discriminate]. apply create_max in S. rewrite (N ns (or_introl eq_refl)) in S. lia.
  - unfold required_buffer_size, required_node_count, kMaxSplineIndex. replace (65532 <? kd_count data * 2) with true by lia. reflexivity.
Qed.
(** A case: three step keyframes of two channels need 2 * (20 + 12 * 3) bytes. *)
Definition buffer_demo : keyframe_data := KData [0; 1; 3]%R [1; 2;  3; 4;  5; 6]%R 3 Step 1000%R.
Example C68_case : exists out used, add_array_curves buffer_demo 2 = Some (out, used) /\ used = 112 /\ len out = 2.
Proof.
  destruct (C68_succeeds buffer_demo 2) as (out & used & H); try (cbn; lia); try discriminate.
  { assert (K : forall f t, key_time buffer_demo f = Some t -> (f = 0 /\ t = 0%R) \/ (f = 1 /\ t = 1000%R) \/ (f = 2 /\ t = 3000%R)).
    { intros f t H. unfold key_time in H. destruct (f <? kd_count buffer_demo); [|discriminate]. destruct (getz (kd_times buffer_demo) f) eqn:E; [|discriminate]. pose proof (getz_Some _ _ _ E) as B. change (len (kd_times buffer_demo)) with 3 in B.
      injection H as <-. assert (f = 0 \/ f = 1 \/ f = 2) as [-> |[-> | ->]] by lia; cbn in E; injection E as <-; cbn; [left|right; left|right; right]; (split; [reflexivity|ring]). }
    split; [intros f t t' A B; apply K in A, B|intros f t A; apply K in A; lra].
    destruct A as [[-> ->]|[[-> ->]|[-> ->]]], B as [[E ->]|[[E ->]|[E ->]]]; lia || lra. }
  exists out, used. destruct (C68_exact buffer_demo 2 out used ltac:(lia) H) as (U & L & _). auto.
Qed.
Print Assumptions C68_exact.
Print Assumptions C68_exact_quaternion.
Print Assumptions C68_succeeds.
Print Assumptions C68_no_keyframes_refuted.
Print Assumptions C68_too_many.
