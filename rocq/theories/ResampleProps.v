(** C102: resampling a spline. *)
From Verif Require Import RBase BaseFacts RangeModel RangeProofs CurveModel CurveProofs CompactSplineModel CompactSplineSpec CompactSplineProofs CompactSplineAdd CompactSplineIndex CompactSplineProps CompactSplineEvalProps EvaluatorModel EvaluatorSpec EvaluatorProofs EvaluatorProps ResampleModel.
From Coq Require Import Sorting.Sorted.
Local Open Scope R_scope.

(** *** Specification *)
(** The [k]-th of [n] positions from the start of the spline to its end. *)
Definition sample_x (src : spline) (n k : Z) (x : R) : Prop :=
  exists sx ex, start_x src = Some sx /\ end_x src = Some ex /\ x = sx + IZR k * ((ex - sx) / IZR (n - 1)).
(** The node is the point of [src] at [x], up to the resolution of nodes in a range of [length]. *)
Definition samples (src : spline) (length x : R) (r : range) (n : node) : Prop :=
  exists v d, spline_at src x v d /\ Rabs (node_x n (x_granularity src) - x) <= x_granularity src / 2 /\
    0 <= v - node_y n r <= length / 65535 /\ Rabs (atan d - atan (node_derivative n)) < PI / 32768.

(** *** Proofs *)
Lemma bulk_one : forall src sx delta n, (0 <= n <= 65535)%Z -> spline_ok src -> - x_granularity src / 2 <= sx <= 2147000000 * x_granularity src -> small_step src delta ->
  exists l, bulk_evaluate (Z.to_nat n) [src] sx delta n = Some l /\ len l = n /\
  forall k p, getz l k = Some p -> exists s, getz (snd p) 0 = Some s /\ slot_x s = Some (sx + IZR k * delta) /\ spline_at src (sx + IZR k * delta) (cur_y s) (slot_derivative s).
Proof.
  intros src sx delta n N OK SX ST. set (p := playback_from sx). set (splines := [src]). set (ev0 := set_num_indices [] (len splines)).
  assert (EV0 : ev0 = [slot_default]) by reflexivity.
  assert (NOSRC : Forall (fun s => source s = None \/ blend_x p <= 0) ev0) by (rewrite EV0; repeat constructor).
  assert (FK : forall k, Forall (fun sp => start_ok sp p /\ Forall (fun d => small_step sp (d * playback_rate p)) (repeat delta k)) splines).
  { intros k. constructor; [|constructor]. split; [split; [exact OK|split; [intros; discriminate|exact SX]]|].
    apply Forall_forall. intros d I. apply repeat_spec in I. subst d. cbn [playback_rate p playback_from]. now rewrite Rmult_1_r. }
  assert (L0 : len ev0 = len splines) by reflexivity.
  destruct (C37_no_failure ev0 splines p [] L0 (FK O) NOSRC) as (ev1 & _ & S1 & _).
  assert (RUN : forall k, exists ev', advance_frames ev1 (repeat delta k) = Some ev').
  { intros k. destruct (C37_no_failure ev0 splines p (repeat delta k) L0 (FK k) NOSRC) as (ev1' & ev2 & S1' & A). rewrite S1 in S1'. injection S1' as <-. eauto. }
  destruct (bulk_loop_ok delta n ltac:(lia) (Z.to_nat n) 0 ev1 ltac:(lia) ltac:(lia)) as (l & E & LL & H); [intros k _; apply RUN|].
  unfold bulk_evaluate. fold ev0 p splines. rewrite S1, E. exists l. split; [reflexivity|]. split; [lia|].
  intros k q Q. destruct (H k q Q) as [_ AQ].
  destruct (C37_tracks ev0 0 splines p ev1 (repeat delta (Z.to_nat k)) (snd q) 0 src S1 AQ eq_refl) as (s & x & GS & PL & W).
  - split; [exact OK|]. split; [intros; discriminate|exact SX].
  - apply Forall_forall. intros e I. apply repeat_spec in I. subst e. cbn [playback_rate p playback_from]. now rewrite Rmult_1_r.
  - intros s S. rewrite EV0 in S. cbn in S. injection S as <-. left. reflexivity.
  - exists s. split; [exact GS|]. pose proof (getz_Some _ _ _ Q). cbn [wrapped repeat_ p playback_from start_at playback_rate] in W. rewrite sum_repeat, Z2Nat.id in W by lia. subst x.
    destruct PL as (_ & SXX & v & d & SA & V & _ & D). split; [exact SXX|]. cbn [y_scale y_offset playback_rate p playback_from] in V, D.
    rewrite V, D. replace (1 * v + 0) with v by ring. replace (1 * (1 * d)) with d by ring. exact SA.
Qed.

(** The calls of AddNode that are made. *)
Definition point_call (p : Z * evaluator) : option call :=
  s <- getz (snd p) 0 ;; x <- slot_x s ;; Some (Call x (cur_y s) (slot_derivative s) AddWithoutModification).
Lemma add_points_calls : forall l calls, Forall2 (fun p c => point_call p = Some c) l calls -> forall s, add_points l s = add_nodes s calls.
Proof.
  intros l calls F. induction F as [|[i ev] c l calls P F IH]; intros s; [reflexivity|]. cbn [add_points add_nodes]. unfold add_point. unfold point_call in P. cbn [snd] in P.
  destruct (getz ev 0) as [sl|]; [|discriminate]. cbn in P. destruct (slot_x sl) as [x|]; [|discriminate]. cbn in P. injection P as <-. cbn. destruct (add_node _ _ _ _ _); cbn; auto.
Qed.
Lemma calls_of : forall src sx delta n (l : list (Z * evaluator)), (0 <= n)%Z -> len l = n ->
  (forall k p, getz l k = Some p -> exists s, getz (snd p) 0 = Some s /\ slot_x s = Some (sx + IZR k * delta) /\ spline_at src (sx + IZR k * delta) (cur_y s) (slot_derivative s)) ->
  exists calls, Forall2 (fun p c => point_call p = Some c) l calls /\ len calls = n /\
    forall k c, getz calls k = Some c -> c_method c = AddWithoutModification /\ c_x c = sx + IZR k * delta /\ spline_at src (c_x c) (c_y c) (c_derivative c).
Proof.
  intros src sx delta n l. revert sx n. induction l as [|p l IH]; intros sx n N L H.
  - exists []. split; [constructor|]. split; [exact L|]. intros k c G. rewrite getz_None in G by (cbn; lia). discriminate.
  - rewrite len_cons in L. pose proof (len_nonneg l) as LN. destruct (H 0%Z p eq_refl) as (s & G0 & X0 & S0). rewrite Rmult_0_l, Rplus_0_r in *.
    assert (SH : forall T (a : T) (m : list T) k, (0 <= k)%Z -> getz (a :: m) (k + 1) = getz m k).
    { intros T a m k K. change (a :: m) with ([a] ++ m). rewrite getz_app2 by (change (len [a]) with 1%Z; lia). f_equal. change (len [a]) with 1%Z. lia. }
    destruct (IH (sx + delta) (n - 1)%Z ltac:(lia) ltac:(lia)) as (calls & F & LC & HC).
    { intros k q G. pose proof (getz_Some _ _ _ G) as K. replace (sx + delta + IZR k * delta) with (sx + IZR (k + 1) * delta) by (rewrite plus_IZR; ring). apply H. rewrite SH by lia. exact G. }
    exists (Call sx (cur_y s) (slot_derivative s) AddWithoutModification :: calls). split; [constructor; [unfold point_call; rewrite G0; cbn; rewrite X0; reflexivity|exact F]|]. split; [rewrite len_cons; lia|].
    intros k c G. pose proof (getz_Some _ _ _ G) as K. destruct (Z.eq_dec k 0) as [->|N0].
    + cbn in G. injection G as <-. cbn. split; [reflexivity|]. split; [ring|exact S0].
    + replace k with ((k - 1) + 1)%Z in G by lia. rewrite SH in G by lia. destruct (HC _ _ G) as (A & B & C). split; [exact A|]. split; [|exact C]. rewrite B. replace k with ((k - 1) + 1)%Z at 2 by lia. rewrite plus_IZR. ring.
Qed.
Lemma add_strict : forall calls made s, Forall2 (makes (x_granularity s) (y_range s)) calls made -> Forall (fun c => c_method c = AddWithoutModification) calls ->
  (num_nodes s + len calls <= max_nodes s)%Z -> StronglySorted Z.lt (map nx made) -> (forall b, back s = Some b -> Forall (fun m => nx b < nx m)%Z made) ->
  add_nodes s calls = Some (with_nodes s (nodes s ++ made)).
Proof.
  induction calls as [|c calls IH]; intros made s F P L S B; inversion F as [|? m ? made' M F']; subst.
  - cbn. rewrite app_nil_r. destruct s. reflexivity.
  - cbn [add_nodes]. apply Forall_cons_iff in P. destruct P as [P1 P]. rewrite len_cons in L. pose proof (len_nonneg calls). cbn [map] in S. apply StronglySorted_inv in S. destruct S as [S SA].
    assert (AV : add_node_verbatim s m = Some (with_nodes s (nodes s ++ [m]))) by (unfold add_node_verbatim; destruct (Z.ltb_spec (num_nodes s) (max_nodes s)); [reflexivity|lia]).
    assert (A : add_node s (c_x c) (c_y c) (c_derivative c) (c_method c) = Some (with_nodes s (nodes s ++ [m]))).
    { unfold add_node. unfold makes in M. rewrite M, P1. destruct (back s) as [b|] eqn:Bk; [|exact AV]. specialize (B b eq_refl). apply Forall_cons_iff in B. destruct B as [B _].
      destruct (Z.leb_spec (nx b) (nx m)); [|lia]. unfold node_eqb. destruct (Z.eqb_spec (nx b) (nx m)); [lia|]. cbn [andb]. exact AV. }
    rewrite A. rewrite (IH made'); cbn [with_nodes x_granularity y_range max_nodes nodes]; auto.
    + rewrite <- app_assoc. reflexivity.
    + unfold num_nodes in *. cbn [nodes with_nodes]. rewrite len_app. change (len [m]) with 1%Z. lia.
    + intros b Eb. unfold back, num_nodes in Eb. cbn [nodes with_nodes] in Eb. rewrite getz_last in Eb. injection Eb as <-. clear - SA. apply Forall_forall. intros y Y. rewrite Forall_forall in SA. apply SA. now apply in_map.
Qed.
Lemma sorted_from_getz : forall l : list Z, (forall i j a b, getz l i = Some a -> getz l j = Some b -> (i < j)%Z -> (a < b)%Z) -> StronglySorted Z.lt l.
Proof.
  induction l as [|x l IH]; intros H; [constructor|].
  assert (SH : forall k, (0 <= k)%Z -> getz (x :: l) (k + 1) = getz l k).
  { intros k K. change (x :: l) with ([x] ++ l). rewrite getz_app2 by (change (len [x]) with 1%Z; lia). f_equal. change (len [x]) with 1%Z. lia. }
  constructor.
  - apply IH. intros i j a b A B L. pose proof (getz_Some _ _ _ A). pose proof (getz_Some _ _ _ B). apply (H (i + 1)%Z (j + 1)%Z); [rewrite SH by lia; exact A|rewrite SH by lia; exact B|lia].
  - apply Forall_forall. intros y Y. apply In_nth_error in Y. destruct Y as [k K]. apply (H 0%Z (Z.of_nat k + 1)%Z); [reflexivity| |lia]. rewrite SH by lia. unfold getz. destruct (Z.ltb_spec (Z.of_nat k) 0); [lia|]. rewrite Nat2Z.id. exact K.
Qed.
Lemma ends : forall src, spline_ok src -> exists sx ex, start_x src = Some sx /\ end_x src = Some ex /\ 0 <= sx <= ex /\ ex <= 65535 * x_granularity src.
Proof.
  intros src OK. pose proof (ok_granularity src OK) as G. pose proof (ok_count src OK) as CN. unfold start_x, end_x, front, back.
  destruct (getz_in_range (nodes src) 0) as [f Ef]; [unfold num_nodes in CN; lia|]. destruct (getz_in_range (nodes src) (num_nodes src - 1)) as [b Eb]; [unfold num_nodes in *; lia|].
  rewrite Ef, Eb. exists (node_x f (x_granularity src)), (node_x b (x_granularity src)). split; [reflexivity|]. split; [reflexivity|]. unfold node_x.
  pose proof (sorted_getz _ (ok_sorted src OK) _ _ _ _ Ef Eb ltac:(lia)) as L. pose proof (ok_fields src OK) as FF. rewrite Forall_forall in FF.
  assert (0 <= nx f)%Z by (apply FF; apply getz_split in Ef; destruct Ef as (? & ? & -> & _); apply in_elt). assert (nx b <= 65535)%Z by (apply FF; apply getz_split in Eb; destruct Eb as (? & ? & -> & _); apply in_elt).
  apply IZR_le in L, H, H0. split; [split|]; nra.
Qed.
Lemma resample_calls : forall s src, spline_ok src -> (2 <= max_nodes s <= 65535)%Z ->
  exists sx ex calls, start_x src = Some sx /\ end_x src = Some ex /\ 0 <= sx <= ex /\ ex <= 65535 * x_granularity src /\ len calls = max_nodes s /\
    init_from_spline s src = add_nodes (init s (lengthen (y_range src) kYRangeBufferPercent) (x_granularity src)) calls /\
    forall k c, getz calls k = Some c -> c_method c = AddWithoutModification /\ c_x c = sx + IZR k * ((ex - sx) / IZR (max_nodes s - 1)) /\ sx <= c_x c <= ex /\ spline_at src (c_x c) (c_y c) (c_derivative c).
Proof.
  intros s src OK M. destruct (ends src OK) as (sx & ex & SX & EX & B & U). pose proof (ok_granularity src OK) as G. set (delta := (ex - sx) / IZR (max_nodes s - 1)).
  assert (NP : 1 <= IZR (max_nodes s - 1)) by (apply IZR_le; lia).
  assert (D : 0 <= delta /\ IZR (max_nodes s - 1) * delta = ex - sx).
  { unfold delta. split; [apply Rmult_le_pos; [lra|left; apply Rinv_0_lt_compat; lra]|field; lra]. }
  destruct D as [D0 D1].
  destruct (bulk_one src sx delta (max_nodes s)) as (l & E & L & H); [lia|exact OK|lra|unfold small_step; split; [exact D0|]|].
  { assert (delta <= ex - sx) by (rewrite <- D1; nra). lra. }
  destruct (calls_of src sx delta (max_nodes s) l ltac:(lia) L H) as (calls & F & LC & HC).
  exists sx, ex, calls. split; [exact SX|]. split; [exact EX|]. split; [exact B|]. split; [exact U|]. split; [exact LC|]. split.
  - unfold init_from_spline. destruct (Z.ltb_spec 1 (max_nodes s)); [|lia]. cbn. rewrite SX. cbn. rewrite EX. cbn. fold delta. rewrite E. cbn. now apply add_points_calls.
  - intros k c Gc. destruct (HC k c Gc) as (A1 & A2 & A3). split; [exact A1|]. split; [exact A2|]. split; [|exact A3]. rewrite A2. pose proof (getz_Some _ _ _ Gc) as K. rewrite LC in K.
    assert (0 <= IZR k <= IZR (max_nodes s - 1)) by (split; apply IZR_le; lia). nra.
Qed.

(** *** C102 *)
(** If the curve stays within the lengthened range at the samples (for each side, 21/40 of the
    length of the range), resampling succeeds; when the samples are at least one grain apart
    there is one node for each sample. *)
Theorem C102_resample : forall s src sx ex, spline_ok src -> (2 <= max_nodes s <= 65534)%Z -> start_x src = Some sx -> end_x src = Some ex ->
  let room := 21 / 40 * (end_ (y_range src) - start_ (y_range src)) in
  (forall k x v d, (0 <= k < max_nodes s)%Z -> sample_x src (max_nodes s) k x -> spline_at src x v d -> start_ (y_range src) - room <= v <= end_ (y_range src) + room) ->
  exists t, init_from_spline s src = Some t /\ spline_ok t /\ x_granularity t = x_granularity src /\ max_nodes t = max_nodes s /\
    (forall n, In n (nodes t) -> exists k x, (0 <= k < max_nodes s)%Z /\ sample_x src (max_nodes s) k x /\ samples src (end_ (y_range src) - start_ (y_range src) + 2 * room) x (y_range t) n) /\
    (x_granularity src * IZR (max_nodes s - 1) <= ex - sx -> num_nodes t = max_nodes s /\
       forall k x, (0 <= k < max_nodes s)%Z -> sample_x src (max_nodes s) k x ->
         exists n, getz (nodes t) k = Some n /\ samples src (end_ (y_range src) - start_ (y_range src) + 2 * room) x (y_range t) n).
Proof.
  intros s src sx ex OK M SX EX room IN. pose proof (ok_granularity src OK) as G. set (g := x_granularity src) in *. set (r := lengthen (y_range src) kYRangeBufferPercent).
  destruct (resample_calls s src OK ltac:(lia)) as (sx' & ex' & calls & SX' & EX' & B & U & LC & EQ & HC). rewrite SX in SX'. injection SX' as <-. rewrite EX in EX'. injection EX' as <-. fold g in U, EQ. fold r in EQ.
  assert (RR : start_ r = start_ (y_range src) - room /\ end_ r = end_ (y_range src) + room).
  { unfold r, lengthen, kYRangeBufferPercent, length_, room. cbn. split; lra. }
  destruct RR as [R1 R2]. pose proof (ok_y_range src OK) as VR.
  assert (SMP : forall k c, getz calls k = Some c -> (0 <= k < max_nodes s)%Z /\ sample_x src (max_nodes s) k (c_x c)).
  { intros k c Gc. pose proof (getz_Some _ _ _ Gc) as K. rewrite LC in K. split; [exact K|]. destruct (HC k c Gc) as (_ & X & _). exists sx, ex. auto. }
  assert (MK : forall c, In c calls -> exists n, makes g r c n /\ samples src (end_ (y_range src) - start_ (y_range src) + 2 * room) (c_x c) r n).
  { intros c I. apply In_nth_error in I. destruct I as [k K]. assert (Gc : getz calls (Z.of_nat k) = Some c) by (unfold getz; destruct (Z.ltb_spec (Z.of_nat k) 0); [lia|]; rewrite Nat2Z.id; exact K).
    destruct (HC _ _ Gc) as (_ & X & XB & SA). destruct (SMP _ _ Gc) as [KR SM]. specialize (IN _ _ _ _ KR SM SA).
    destruct (C30_call_makes_node g r c G) as [n Mn]; [lra|rewrite R1, R2; exact IN|]. exists n. split; [exact Mn|]. exists (c_y c), (c_derivative c). split; [exact SA|]. unfold makes in Mn.
    split; [refine (C31_x_error _ _ _ _ _ _ G _ Mn); lra|]. pose proof (C31_y_error _ _ _ _ _ _ Mn) as YE. rewrite R1, R2 in YE. split; [replace (end_ (y_range src) - start_ (y_range src) + 2 * room) with (end_ (y_range src) + room - (start_ (y_range src) - room)) by ring; exact YE|].
    apply (C31_derivative_error _ _ _ _ _ _ Mn). }
  assert (EXM : exists made, Forall2 (makes g r) calls made).
  { clear - MK. induction calls as [|c calls IH]; [exists []; constructor|]. destruct IH as [made F]; [intros c' I; apply MK; now right|]. destruct (MK c (or_introl eq_refl)) as (n & Mn & _). exists (n :: made). constructor; assumption. }
  destruct EXM as [made F].
  assert (PL : Forall (fun c => c_method c = AddWithoutModification) calls).
  { apply Forall_forall. intros c I. apply In_nth_error in I. destruct I as [k K]. apply (HC (Z.of_nat k)). unfold getz. destruct (Z.ltb_spec (Z.of_nat k) 0); [lia|]. rewrite Nat2Z.id. exact K. }
  assert (F2 : forall i n, getz made i = Some n -> exists c, getz calls i = Some c /\ makes g r c n).
  { clear - F. induction F as [|c m calls made H F IH]; intros i n E; [rewrite getz_None in E by (cbn; lia); discriminate|]. unfold getz in *. destruct (i <? 0)%Z eqn:Q; [discriminate|]. destruct (Z.to_nat i) as [|j] eqn:J; [cbn in *; injection E as <-; eauto|]. cbn in *.
    specialize (IH (Z.of_nat j) n). destruct (Z.ltb_spec (Z.of_nat j) 0); [lia|]. rewrite Nat2Z.id in IH. auto. }
  assert (LM : len made = len calls) by (clear - F; induction F; [reflexivity|rewrite !len_cons; lia]).
  assert (MX : forall i n, getz made i = Some n -> nx n = Rtrunc ((sx + IZR i * ((ex - sx) / IZR (max_nodes s - 1))) / g + 1 / 2)).
  { intros i n E. destruct (F2 i n E) as (c & Gc & Mn). unfold makes in Mn. apply make_node_x in Mn; [|exact G]. destruct (HC _ _ Gc) as (_ & X & _). rewrite <- X. exact Mn. }
  assert (NP : 1 <= IZR (max_nodes s - 1)) by (apply IZR_le; lia). set (delta := (ex - sx) / IZR (max_nodes s - 1)) in *.
  assert (D0 : 0 <= delta) by (unfold delta; apply Rmult_le_pos; [lra|left; apply Rinv_0_lt_compat; lra]).
  assert (D1 : IZR (max_nodes s - 1) * delta = ex - sx) by (unfold delta; field; lra).
  assert (SRT : StronglySorted Z.le (map nx made)).
  { assert (Q : forall l i0, (forall i n, getz l i = Some n -> nx n = Rtrunc ((sx + IZR (i0 + i) * delta) / g + 1 / 2)) -> (0 <= i0)%Z -> StronglySorted Z.le (map nx l)).
    { induction l as [|n l IH]; intros i0 H I0; cbn [map]; [constructor|].
      assert (SH : forall k, (0 <= k)%Z -> getz (n :: l) (k + 1) = getz l k) by (intros k K; change (n :: l) with ([n] ++ l); rewrite getz_app2 by (change (len [n]) with 1%Z; lia); f_equal; change (len [n]) with 1%Z; lia).
      constructor.
      - apply (IH (i0 + 1)%Z); [|lia]. intros i m E. pose proof (getz_Some _ _ _ E). replace (i0 + 1 + i)%Z with (i0 + (i + 1))%Z by lia. apply H. rewrite SH by lia. exact E.
      - apply Forall_forall. intros y Y. apply in_map_iff in Y. destruct Y as (m & <- & I). apply In_nth_error in I. destruct I as [k K].
        assert (Em : getz (n :: l) (Z.of_nat k + 1) = Some m) by (rewrite SH by lia; unfold getz; destruct (Z.ltb_spec (Z.of_nat k) 0); [lia|]; rewrite Nat2Z.id; exact K).
        rewrite (H 0%Z n eq_refl), (H _ _ Em). apply Rtrunc_mono. apply Rplus_le_compat_r. apply Rmult_le_compat_r; [left; now apply Rinv_0_lt_compat|]. apply Rplus_le_compat_l. apply Rmult_le_compat_r; [exact D0|]. apply IZR_le. lia. }
    apply (Q made 0%Z); [|lia]. exact MX. }
  destruct (C30_calls_succeed s r g calls made F SRT PL ltac:(lia)) as [t ET].
  assert (NE : calls <> []) by (intros E0; rewrite E0 in LC; change (len (@nil call)) with 0%Z in LC; lia).
  destruct (C30_nodes s r g calls t ltac:(lia) G ET) as (_ & _ & _ & YT & XT & _ & made' & F' & _ & _ & NT).
  exists t. split; [rewrite EQ; exact ET|]. split; [apply (C30_built_ok s r g calls); auto; [lia|rewrite R1, R2; unfold room; lra]|]. split; [exact XT|]. rewrite YT.
  assert (MN : max_nodes t = max_nodes s).
  { destruct (add_nodes_ok calls (init s r g) [] True t G (added_init s r g ltac:(lia)) ET) as (ms & _ & _ & _ & _ & F3). exact F3. }
  split; [exact MN|]. split.
  - intros n I. specialize (NT PL n I). assert (exists c, In c calls /\ makes g r c n) as (c & Ic & Mn).
    { clear - F' NT. induction F' as [|c m calls made' H F' IH]; [contradiction|]. destruct NT as [<- | NT]; [exists c; split; [now left|exact H]|]. destruct (IH NT) as (c' & I & H'). exists c'. split; [now right|exact H']. }
    destruct (MK c Ic) as (n' & Mn' & SP). unfold makes in Mn, Mn'. rewrite Mn in Mn'. injection Mn' as <-.
    apply In_nth_error in Ic. destruct Ic as [k K]. destruct (SMP (Z.of_nat k) c) as [KR SM]; [unfold getz; destruct (Z.ltb_spec (Z.of_nat k) 0); [lia|]; rewrite Nat2Z.id; exact K|]. exists (Z.of_nat k), (c_x c). auto.
  - intros GAP. assert (DG : g <= delta) by nra.
    assert (STR : StronglySorted Z.lt (map nx made)).
    { apply sorted_from_getz. intros i j a b A C L.
      assert (QQ : forall i a, getz (map nx made) i = Some a -> a = Rtrunc ((sx + IZR i * delta) / g + 1 / 2) /\ (0 <= i)%Z).
      { clear - MX. intros i a A. pose proof (getz_Some _ _ _ A). split; [|lia]. unfold getz in A. destruct (i <? 0)%Z eqn:Q; [discriminate|]. rewrite nth_error_map in A. destruct (nth_error made (Z.to_nat i)) as [n|] eqn:Nn; [|discriminate]. cbn in A. injection A as <-. apply MX. unfold getz. rewrite Q. exact Nn. }
      destruct (QQ i a A) as [-> I0]. destruct (QQ j b C) as [-> _].
      assert (ST : (sx + IZR i * delta) / g + 1 / 2 + 1 <= (sx + IZR j * delta) / g + 1 / 2).
      { assert (IZR i + 1 <= IZR j) by (rewrite <- plus_IZR; apply IZR_le; lia). assert (g <= (IZR j - IZR i) * delta) by nra.
        replace ((sx + IZR j * delta) / g) with ((sx + IZR i * delta) / g + (IZR j - IZR i) * delta / g) by (field; lra).
        assert (1 <= (IZR j - IZR i) * delta / g); [|lra]. apply Rmult_le_reg_r with g; [lra|]. unfold Rdiv. rewrite Rmult_assoc, Rinv_l by lra. lra. }
      assert (P0 : 0 <= (sx + IZR i * delta) / g + 1 / 2).
      { assert (0 <= (sx + IZR i * delta) / g); [|lra]. apply Rmult_le_pos; [|left; now apply Rinv_0_lt_compat]. apply IZR_le in I0. nra. }
      destruct (Rtrunc_bounds ((sx + IZR i * delta) / g + 1 / 2)) as [T1 _]. specialize (T1 P0). destruct (Rtrunc_bounds ((sx + IZR j * delta) / g + 1 / 2)) as [T2 _]. specialize (T2 ltac:(lra)). apply lt_IZR. lra. }
    rewrite (add_strict calls made (init s r g) F PL) in ET; [|change (0 + len calls <= max_nodes s)%Z; lia|exact STR|discriminate]. injection ET as <-. unfold num_nodes. cbn [nodes with_nodes app]. split; [lia|].
    intros k x K (sx' & ex' & SX' & EX' & X). rewrite SX in SX'. injection SX' as <-. rewrite EX in EX'. injection EX' as <-. destruct (getz_in_range made k) as [n En]; [lia|]. exists n. split; [exact En|].
    destruct (F2 k n En) as (c & Gc & Mn). destruct (HC k c Gc) as (_ & CX & _). fold delta in X. rewrite X, <- CX.
    destruct (MK c) as (n' & Mn' & SP); [apply getz_split in Gc; destruct Gc as (? & ? & -> & _); apply in_elt|]. unfold makes in Mn, Mn'. rewrite Mn in Mn'. injection Mn' as <-. exact SP.
Qed.
Print Assumptions C102_resample.

(** A curve that bulges out of its range of y between two nodes cannot be resampled: the
    value at a sample is outside the lengthened range, where no node can be made. *)
Lemma outside_range : forall s src k x, spline_ok src -> (2 <= max_nodes s <= 65535)%Z -> (0 <= k < max_nodes s)%Z -> sample_x src (max_nodes s) k x ->
  (forall v d, spline_at src x v d -> end_ (y_range src) + 21 / 40 * (end_ (y_range src) - start_ (y_range src)) < v) -> init_from_spline s src = None.
Proof.
  intros s src k x OK M K (sx & ex & SX & EX & X) OUT. destruct (resample_calls s src OK M) as (sx' & ex' & calls & SX' & EX' & B & U & LC & EQ & HC). rewrite SX in SX'. injection SX' as <-. rewrite EX in EX'. injection EX' as <-.
  rewrite EQ. set (r := lengthen (y_range src) kYRangeBufferPercent). destruct (getz_in_range calls k) as [c Gc]; [lia|]. destruct (HC k c Gc) as (_ & CX & _ & SA). rewrite <- X in CX. rewrite CX in SA. specialize (OUT _ _ SA).
  assert (RR : end_ r = end_ (y_range src) + 21 / 40 * (end_ (y_range src) - start_ (y_range src))) by (unfold r, lengthen, kYRangeBufferPercent, length_; cbn; lra).
  destruct (add_nodes _ calls) as [t|] eqn:ET; [exfalso|reflexivity].
  destruct (C30_nodes s r _ calls t ltac:(lia) (ok_granularity src OK) ET) as (_ & _ & _ & _ & _ & _ & made & F & _).
  assert (I : In c calls) by (apply getz_split in Gc; destruct Gc as (? & ? & -> & _); apply in_elt).
  assert (Q : exists n, makes (x_granularity src) r c n).
  { clear - F I. induction F as [|a m calls made H F IH]; [contradiction|]. destruct I as [-> | I]; [eauto|auto]. }
  destruct Q as [n Mn]. unfold makes, make_node, compact_y in Mn. destruct (compact_x _ _); [|discriminate]. cbn in Mn. unfold contains in Mn. rewrite RR in Mn.
  rewrite (Rleb_f (c_y c)) in Mn by lra. rewrite andb_false_r in Mn. discriminate.
Qed.
Definition bulge : spline := Spline (Rg 0 1) 1 [Node 0 0 8192; Node 10 65535 (-8192)] 7.
Lemma bulge_ok : spline_ok bulge.
Proof. split; cbn; try lra; repeat constructor; cbn; lia. Qed.
Lemma bulge_mid v d : spline_at bulge 5 v d -> v = 3.
Proof.
  intros SA. destruct SA as [sx SX L V D|ex EX L V D|j a c A C L W SV].
  - unfold start_x in SX. change (front bulge) with (Some (Node 0 0 8192)) in SX. injection SX as <-. unfold node_x in L. cbn in L. lra.
  - unfold end_x in EX. change (back bulge) with (Some (Node 10 65535 (-8192))) in EX. injection EX as <-. unfold node_x in L. cbn in L. destruct L as [L|[L _]]; [lra|discriminate].
  - pose proof (getz_Some _ _ _ C) as R. pose proof (getz_Some _ _ _ A) as R'. unfold len in R, R'. cbn in R, R'. assert (j = 0%Z) as -> by lia.
    assert (S1 : node_derivative (Node 0 0 8192) = 1).
    { unfold node_derivative, kAngleScale. cbn [nangle]. replace (8192 * (PI / 32768)) with (PI / 4) by field. apply tan_PI4. }
    assert (S2 : node_derivative (Node 10 65535 (-8192)) = -1).
    { unfold node_derivative, kAngleScale. cbn [nangle]. replace (IZR (-8192) * (PI / 32768)) with (- (PI / 4)) by field. rewrite tan_neg, tan_PI4. reflexivity. }
    unfold segment_value in SV. change (getz (nodes bulge) 0) with (Some (Node 0 0 8192)) in SV. change (getz (nodes bulge) (0 + 1)) with (Some (Node 10 65535 (-8192))) in SV.
    cbn [y_range bulge nx x_granularity] in SV. rewrite S1, S2 in SV. change (10 - 0)%Z with 10%Z in SV. unfold cubic_init, node_x, node_y, lerp, kYScale, kMaxY in SV. cbn [nx ny start_ end_] in SV.
    rewrite Rltb_t in SV by lra. unfold keval, kderiv in SV. cbn [k3 k2 k1 k0] in SV. injection SV as <- _. field.
Qed.
Theorem C102_overshoot_refuted : ~ (forall s src, spline_ok src -> (2 <= max_nodes s <= 65534)%Z -> init_from_spline s src <> None).
Proof.
  intros H. set (s := Spline (Rg 0 0) 0 [] 3). apply (H s bulge bulge_ok); [cbn; lia|].
  apply (outside_range s bulge 1 5 bulge_ok); [cbn; lia|cbn; lia| |].
  - exists 0, 10. split; [unfold start_x; change (front bulge) with (Some (Node 0 0 8192)); unfold node_x; cbn; f_equal; lra|].
    split; [unfold end_x; change (back bulge) with (Some (Node 10 65535 (-8192))); unfold node_x; cbn; f_equal; lra|]. cbn. lra.
  - intros v d SA. apply bulge_mid in SA. cbn. lra.
Qed.
Print Assumptions C102_overshoot_refuted.

(** The hypotheses of [C102_resample] hold: the peak of three nodes, resampled at its nodes. *)
Example C102_case : let s := Spline (Rg 0 0) 0 [] 3 in
  spline_ok peak /\ start_x peak = Some 0 /\ end_x peak = Some 2 /\ x_granularity peak * IZR (max_nodes s - 1) <= 2 - 0 /\
  (forall k x v d, (0 <= k < max_nodes s)%Z -> sample_x peak (max_nodes s) k x -> spline_at peak x v d -> 0 - 21 / 40 * (1 - 0) <= v <= 1 + 21 / 40 * (1 - 0)) /\
  exists t, init_from_spline s peak = Some t /\ num_nodes t = 3%Z.
Proof.
  intros s. assert (SX : start_x peak = Some 0) by (unfold start_x; change (front peak) with (Some (Node 0 0 0)); unfold node_x; cbn; f_equal; lra).
  assert (EX : end_x peak = Some 2) by (unfold end_x; change (back peak) with (Some (Node 2 0 0)); unfold node_x; cbn; f_equal; lra).
  assert (IN : forall k x v d, (0 <= k < max_nodes s)%Z -> sample_x peak (max_nodes s) k x -> spline_at peak x v d -> 0 - 21 / 40 * (1 - 0) <= v <= 1 + 21 / 40 * (1 - 0)).
  { intros k x v d K (sx & ex & SX' & EX' & X) SA. rewrite SX in SX'. injection SX' as <-. rewrite EX in EX'. injection EX' as <-. cbn in K. assert (x = 0 \/ x = 1 \/ x = 2) as XX.
    { assert (k = 0 \/ k = 1 \/ k = 2)%Z as [-> | [-> | ->]] by lia; cbn in X; [left|right; left|right; right]; lra. }
    clear X K. destruct SA as [sx SX' L V D|ex EX' L V D|j a c A C L W SV].
    - unfold start_y in V. change (front peak) with (Some (Node 0 0 0)) in V. cbn [y_range peak] in V. rewrite peak_y0 in V. injection V as <-. lra.
    - unfold end_y in V. change (back peak) with (Some (Node 2 0 0)) in V. cbn [y_range peak] in V. rewrite peak_y0 in V. injection V as <-. lra.
    - pose proof (getz_Some _ _ _ C) as R. pose proof (getz_Some _ _ _ A) as R'. unfold len in R, R'. cbn in R, R'. assert (j = 0 \/ j = 1)%Z as [-> | ->] by lia.
      + rewrite peak_segment0 in SV. injection SV as <- _. cbn in C. injection C as <-. unfold node_x in L. cbn in L. destruct XX as [-> | [-> | ->]]; lra.
      + rewrite peak_segment1 in SV. injection SV as <- _. cbn in A. injection A as <-. unfold node_x in L. cbn in L. destruct XX as [-> | [-> | ->]]; lra. }
  assert (GP : x_granularity peak * IZR (max_nodes s - 1) <= 2 - 0) by (cbn; lra).
  split; [exact peak_ok|]. split; [exact SX|]. split; [exact EX|]. split; [exact GP|]. split; [exact IN|].
  destruct (C102_resample s peak 0 2 peak_ok ltac:(cbn; lia) SX EX IN) as (t & ET & _ & _ & _ & _ & H). destruct (H GP) as [N _]. exists t. split; [exact ET|exact N].
Qed.
