(** C35, C37: an evaluated index reports the spline it plays. *)
From Verif Require Import RBase BaseFacts RangeModel RangeProofs CurveModel CurveProofs CompactSplineModel CompactSplineSpec CompactSplineProofs CompactSplineIndex CompactSplineEvalProps EvaluatorModel EvaluatorSpec EvaluatorProofs EvaluatorPlay.
From Coq Require Import Sorting.Sorted.

Fixpoint run_slot (s : slot) (l : list R) : option slot :=
  match l with [] => Some s | d :: l' => s' <- advance_slot d s ;; run_slot s' l' end.
Lemma advance_frames_getz : forall l ev ev', advance_frames ev l = Some ev' ->
  len ev' = len ev /\ forall i, getz ev' i = (s <- getz ev i ;; run_slot s l).
Proof.
  induction l as [|d l IH]; intros ev ev' E; cbn [advance_frames run_slot] in *.
  - injection E as <-. split; [reflexivity|]. intros i. destruct (getz ev i); reflexivity.
  - destruct (advance_frame d ev) as [ev1|] eqn:A; [|discriminate]. destruct (advance_frame_getz _ _ _ A) as [L1 G1]. destruct (IH _ _ E) as [L2 G2].
    split; [lia|]. intros i. rewrite G2, G1. destruct (getz ev i); reflexivity.
Qed.
Lemma advance_frame_succeeds d ev : (forall i s, getz ev i = Some s -> advance_slot d s <> None) -> exists ev', advance_frame d ev = Some ev'.
Proof.
  intros H. rewrite advance_frame_slots. apply all_some_all. intros o I. apply in_map_iff in I. destruct I as (s & <- & I).
  apply In_nth_error in I. destruct I as [n N]. apply (H (Z.of_nat n) s). unfold getz. replace (Z.of_nat n <? 0)%Z with false by lia. now rewrite Nat2Z.id.
Qed.
Lemma advance_frames_succeeds : forall l ev, (forall i s, getz ev i = Some s -> run_slot s l <> None) -> exists ev', advance_frames ev l = Some ev'.
Proof.
  induction l as [|d l IH]; intros ev H; cbn [advance_frames]; [eauto|].
  destruct (advance_frame_succeeds d ev) as [ev1 A].
  - intros i s G N. apply (H i s G). cbn [run_slot]. now rewrite N.
  - rewrite A. apply IH. intros i s G. destruct (advance_frame_getz _ _ _ A) as [_ G1]. rewrite G1 in G. destruct (getz ev i) as [t|] eqn:T; [|discriminate].
    specialize (H i t T). cbn [run_slot] in H. now rewrite G in H.
Qed.

Lemma wrapped_refl_of sp b x y : wrapped sp b x y -> wrapped sp b y y.
Proof. unfold wrapped. destruct b; [|reflexivity]. intros (ex & k & E & _ & B). exists ex, 0%Z. split; [exact E|]. split; [rewrite Rmult_0_l; ring|exact B]. Qed.
Lemma run_placed sp p : spline_ok sp -> can_repeat sp (repeat_ p) -> forall l s x, placed s sp p x -> cur_y s = keval (curve s) (cubic_x s) ->
  wrapped sp (repeat_ p) x x -> Forall (fun d => small_step sp (d * playback_rate p)) l ->
  exists s' x', run_slot s l = Some s' /\ placed s' sp p x' /\ cur_y s' = keval (curve s') (cubic_x s') /\
    wrapped sp (repeat_ p) (x + sum (map (fun d => d * playback_rate p) l)) x'.
Proof.
  intros O CR. induction l as [|d l IH]; intros s x P Y W F; cbn [run_slot map sum].
  - exists s, x. split; [reflexivity|]. split; [exact P|]. split; [exact Y|]. replace (x + 0) with x by ring. exact W.
  - apply Forall_cons_iff in F. destruct F as [F1 F2]. destruct (step_placed s sp p x d O P CR F1 W) as (s1 & x1 & A & P1 & W1 & Y1). rewrite A.
    destruct (IH s1 x1 P1 Y1 (wrapped_refl_of _ _ _ _ W1) F2) as (s2 & x2 & R & P2 & Y2 & W2). exists s2, x2. split; [exact R|]. split; [exact P2|]. split; [exact Y2|].
    rewrite <- Rplus_assoc. eapply wrapped_add; eauto.
Qed.
Lemma evaluated_same s : cur_y s = keval (curve s) (cubic_x s) -> evaluate_slot s = s.
Proof. intros H. unfold evaluate_slot. rewrite <- H. destruct s; reflexivity. Qed.

(** The start position is not before the implicit start at zero (up to half a grain)
    and can be represented. *)
Definition start_ok (sp : spline) (p : playback) : Prop :=
  spline_ok sp /\ can_repeat sp (repeat_ p) /\ - x_granularity sp / 2 <= start_at p <= 2147000000 * x_granularity sp.
Lemma set_spline_jump s sp p : start_ok sp p -> source s = None \/ blend_x p <= 0 -> 
  exists s' x, set_spline sp p s = Some s' /\ placed s' sp p x /\ cur_y s' = keval (curve s') (cubic_x s') /\ wrapped sp (repeat_ p) (start_at p) x.
Proof.
  intros (O & CR & X) J. pose proof (ok_granularity sp O). unfold set_spline.
  assert (JE : exists s' x, jump_to_spline sp p s = Some s' /\ placed s' sp p x /\ wrapped sp (repeat_ p) (start_at p) x).
  { unfold jump_to_spline.
    destruct (init_placed (Slot (playback_rate p) (y_offset p) (y_scale p) (Some sp) kInvalidSplineIndex (repeat_ p) (modular_range s) (cubic_x s) (cubic_x_end s) (curve s) (cur_y s)) sp p (start_at p))
      as (s' & x & I & P & W & _); auto; [cbn; unfold kInvalidSplineIndex; lia|lra|]. exists s', x. auto. }
  destruct JE as (s' & x & E & P & W). exists (evaluate_slot s'), x.
  assert (D : (match source s with Some _ => if Rltb 0 (blend_x p) then blend_to_spline sp p s else jump_to_spline sp p s | None => jump_to_spline sp p s end) = jump_to_spline sp p s).
  { destruct (source s); [|reflexivity]. destruct J as [J|J]; [discriminate|]. rewrite Rltb_f by lra. reflexivity. }
  rewrite D, E. split; [reflexivity|]. split; [now apply placed_evaluate|]. split; [reflexivity|exact W].
Qed.

(** After SetSplines (without a blend) and any number of frames, an index is at the
    accumulated x, wrapped if it repeats, and reports the value and derivative of its
    spline there, whatever the other indices do. *)
Theorem C37_tracks : forall ev index l p ev1 deltas ev2 k sp,
  set_splines ev index (length l) (Some l) p = Some ev1 -> advance_frames ev1 deltas = Some ev2 ->
  getz l k = Some sp -> start_ok sp p -> Forall (fun d => small_step sp (d * playback_rate p)) deltas ->
  (forall s, getz ev (index + k) = Some s -> source s = None \/ blend_x p <= 0) ->
  exists s x, getz ev2 (index + k) = Some s /\ plays s sp p x /\
    wrapped sp (repeat_ p) (start_at p + sum (map (fun d => d * playback_rate p) deltas)) x.
Proof.
  intros ev index l p ev1 deltas ev2 k sp SS AF K OK F J. cbn [set_splines] in SS.
  destruct (set_each_getz _ _ _ _ _ _ SS) as [L1 G1]. destruct (advance_frames_getz _ _ _ AF) as [L2 G2].
  pose proof (getz_Some _ _ _ K) as KR. specialize (G1 (index + k)%Z). unfold len in KR.
  replace ((index <=? index + k) && (index + k <? index + Z.of_nat (length l)))%Z with true in G1 by lia.
  replace (index + k - index)%Z with k in G1 by lia. rewrite K in G1.
  assert (RG : forall (n : nat) ev i l', set_each_spline ev i n l' p = Some ev1 -> forall j, (i <= j < i + Z.of_nat n)%Z -> exists s, getz ev j = Some s).
  { clear. intros n. induction n as [|n IH]; intros ev i l' E j J; [lia|]. cbn [set_each_spline] in E. destruct l' as [|sp l']; [discriminate|].
    destruct (modify ev i (set_spline sp p)) as [ev'|] eqn:M; [|discriminate]. destruct (modify_getz _ _ _ _ M) as (L & R & G).
    destruct (Z.eq_dec j i) as [->|N]; [now apply getz_in_range|]. destruct (IH _ _ _ E j ltac:(lia)) as [s S]. rewrite G in S. replace (j =? i)%Z with false in S by lia. eauto. }
  destruct (RG _ _ _ _ SS (index + k)%Z ltac:(lia)) as [s0 S0]. rewrite S0 in G1.
  destruct (set_spline_jump s0 sp p OK (J s0 S0)) as (s1 & x1 & E1 & P1 & Y1 & W1). rewrite E1 in G1.
  destruct OK as (O & CR & _).
  destruct (run_placed sp p O CR deltas s1 x1 P1 Y1 (wrapped_refl_of _ _ _ _ W1) F) as (s2 & x2 & R & P2 & Y2 & W2).
  exists s2, x2. split; [rewrite G2, G1; exact R|]. split; [|eapply wrapped_add; eauto].
  rewrite <- (evaluated_same s2 Y2). now apply placed_plays.
Qed.
Print Assumptions C37_tracks.

(** Nothing fails, for any number of frames, when every index plays such a spline. *)
Theorem C37_no_failure : forall ev l p deltas, len ev = len l ->
  Forall (fun sp => start_ok sp p /\ Forall (fun d => small_step sp (d * playback_rate p)) deltas) l ->
  Forall (fun s => source s = None \/ blend_x p <= 0) ev ->
  exists ev1 ev2, set_splines ev 0 (length l) (Some l) p = Some ev1 /\ advance_frames ev1 deltas = Some ev2.
Proof.
  intros ev l p deltas LL F J. rewrite Forall_forall in F, J. assert (IN : forall A (l : list A) i x, getz l i = Some x -> In x l).
  { intros A m i x G. apply getz_split in G. destruct G as (P & Q & -> & _). apply in_elt. }
  destruct (set_each_succeeds p (length l) ev 0 l) as [ev1 E1]; [unfold len in *; lia|unfold len; lia| |].
  - intros j s sp _ G GL. replace (j - 0)%Z with j in GL by lia. destruct (set_spline_jump s sp p) as (s' & x & E & _); [apply F, (IN _ _ _ _ GL)|apply J, (IN _ _ _ _ G)|]. congruence.
  - destruct (set_each_getz _ _ _ _ _ _ E1) as [L1 G1]. destruct (advance_frames_succeeds deltas ev1) as [ev2 E2].
    + intros i s G. rewrite G1 in G. pose proof G as G'. destruct ((0 <=? i) && (i <? 0 + Z.of_nat (length l)))%Z eqn:B.
      * destruct (getz ev i) as [s0|] eqn:S0; [|discriminate]. replace (i - 0)%Z with i in G by lia. destruct (getz l i) as [sp|] eqn:SP; [|discriminate].
        destruct (F sp (IN _ _ _ _ SP)) as [OK SM]. destruct (set_spline_jump s0 sp p OK (J s0 (IN _ _ _ _ S0))) as (s1 & x1 & Q & P1 & Y1 & W1).
        rewrite Q in G. injection G as <-. destruct OK as (O & CR & _).
        destruct (run_placed sp p O CR deltas s1 x1 P1 Y1 (wrapped_refl_of _ _ _ _ W1) SM) as (s2 & x2 & R & _). congruence.
      * pose proof (getz_Some _ _ _ G). unfold len in *. lia.
    + exists ev1, ev2. split; [exact E1|exact E2].
Qed.
Print Assumptions C37_no_failure.

(** Away from the nodes the value and slope of a spline at x are the ones
    CalculatedSlowly gives. *)
Theorem C37_exact_away_from_nodes : forall s x v d, spline_ok s -> - x_granularity s / 2 <= x -> in_int_range s x ->
  (forall n, In n (nodes s) -> nx n <> grains s x) -> spline_at s x v d ->
  calculated_slowly s x CurveValue = Some v /\ calculated_slowly s x CurveDerivative = Some d.
Proof.
  intros s x v d O X I N SA. pose proof (ok_granularity s O) as G. pose proof (ok_sorted s O) as S. pose proof (ok_count s O) as CN.
  pose proof (grains_bounds s x O X) as GB.
  assert (IN : forall k n, getz (nodes s) k = Some n -> nx n <> grains s x).
  { intros k n K. apply N. apply getz_split in K. destruct K as (p & q & -> & _). apply in_elt. }
  assert (LE : forall n, IZR (nx n) * x_granularity s - x_granularity s / 2 <= x -> (nx n <= grains s x)%Z).
  { intros n L. apply Z.lt_succ_r. unfold Z.succ. apply lt_IZR. rewrite plus_IZR. apply Rmult_lt_reg_r with (x_granularity s); lra. }
  assert (GE : forall n, x < IZR (nx n) * x_granularity s + x_granularity s / 2 -> (grains s x <= nx n)%Z).
  { intros n L. apply Z.lt_succ_r. unfold Z.succ. apply lt_IZR. rewrite plus_IZR. apply Rmult_lt_reg_r with (x_granularity s); lra. }
  destruct (index_ok s x 0 O I ltac:(lia)) as (i & f & b & E & F & B & H).
  pose proof (IN _ _ B) as NB. pose proof (IN _ _ F) as NF.
  assert (FI : forall k n, getz (nodes s) k = Some n -> (nx f <= nx n <= nx b)%Z).
  { intros k n K. pose proof (getz_Some _ _ _ K). unfold front in F. unfold back in B.
    split; [apply (sorted_getz _ S _ _ _ _ F K)|apply (sorted_getz _ S _ _ _ _ K B)]; unfold num_nodes; lia. }
  destruct SA as [sx SX L V D|ex EX L V D|j a c A C L W SV].
  - unfold start_x in SX. rewrite F in SX. injection SX as <-. unfold node_x in L. pose proof (GE f ltac:(lra)).
    assert (i = kBeforeSplineIndex) as ->.
    { destruct H as [[-> H]|[(-> & H1 & H2)|(H1 & a & c & A & C & AC & W)]]; [reflexivity|exfalso; lia|exfalso; pose proof (FI _ _ A); lia]. }
    unfold calculated_slowly. rewrite E. cbn -[start_y]. rewrite V, D. auto.
  - unfold end_x in EX. rewrite B in EX. injection EX as <-. unfold node_x in L. assert (nx b <= grains s x)%Z by (apply LE; lra).
    assert (i = kAfterSplineIndex) as ->.
    { destruct H as [[-> H]|[(-> & H1 & H2)|(H1 & a & c & A & C & AC & W)]]; [exfalso; pose proof (FI _ _ B); lia|reflexivity|exfalso; pose proof (FI _ _ C); lia]. }
    unfold calculated_slowly. rewrite E. cbn -[end_y]. rewrite V, D. auto.
  - unfold node_x in L. pose proof (LE a ltac:(lra)). pose proof (GE c ltac:(lra)). pose proof (IN _ _ A). pose proof (IN _ _ C).
    pose proof (FI _ _ A). pose proof (FI _ _ C).
    destruct H as [[-> H]|[(-> & H1' & H2')|(H1' & a' & c' & A' & C' & AC & W')]]; [exfalso; lia|exfalso; lia|].
    pose proof (IN _ _ A'). pose proof (IN _ _ C').
    assert (i = j) as ->.
    { destruct (Z_lt_dec i j); [pose proof (sorted_getz _ S _ _ _ _ C' A ltac:(lia)); lia|].
      destruct (Z_lt_dec j i); [pose proof (sorted_getz _ S _ _ _ _ C A' ltac:(lia)); lia|]. lia. }
    rewrite (slowly_inside s x j a c CurveValue E ltac:(lia) A C), (slowly_inside s x j a c CurveDerivative E ltac:(lia) A C).
    unfold segment_value in SV. rewrite A, C in SV. cbv zeta in SV.
    match type of SV with Some (?p, ?q) = _ => assert (p = v /\ q = d) as [PV PD] by (split; congruence) end.
    cbn [curve_value]. unfold cubic_of, create_cubic_between, width_x. cbn [ci_start_y ci_start_derivative ci_end_y ci_end_derivative ci_width_x].
    rewrite PV, PD. auto.
Qed.
Print Assumptions C37_exact_away_from_nodes.

(** On a node that is alone at its x the value is the node's. *)
Theorem C37_value_at_node : forall s k n v d, spline_ok s -> getz (nodes s) k = Some n ->
  (forall j m, getz (nodes s) j = Some m -> nx m = nx n -> j = k) ->
  spline_at s (node_x n (x_granularity s)) v d -> v = node_y n (y_range s).
Proof.
  intros s k n v d O K U SA. pose proof (ok_granularity s O) as G. pose proof (ok_sorted s O) as S. pose proof (ok_count s O) as CN.
  assert (LT : forall a b, IZR a * x_granularity s <= IZR b * x_granularity s + x_granularity s / 2 -> (a <= b)%Z).
  { intros a b L. apply Z.lt_succ_r. unfold Z.succ. apply lt_IZR. rewrite plus_IZR. apply Rmult_lt_reg_r with (x_granularity s); lra. }
  pose proof (getz_Some _ _ _ K) as RK.
  destruct SA as [sx SX L V _|ex EX L V _|j a c A C L W SV].
  - unfold start_x in SX. destruct (front s) as [f|] eqn:F; [|discriminate]. injection SX as <-. unfold node_x in L.
    assert (L1 : (nx n <= nx f)%Z) by (apply LT; lra). unfold front in F. pose proof (sorted_getz _ S _ _ _ _ F K ltac:(lia)) as L2.
    assert (k = 0%Z) as ->. { symmetry. apply (U 0%Z f F). lia. } rewrite F in K. injection K as ->.
    unfold start_y, front in V. rewrite F in V. congruence.
  - unfold end_x in EX. destruct (back s) as [f|] eqn:F; [|discriminate]. injection EX as <-. unfold node_x in L.
    assert (L1 : (nx f <= nx n)%Z). { apply LT. lra. } unfold back in F. pose proof (sorted_getz _ S _ _ _ _ K F ltac:(unfold num_nodes; lia)) as L2.
    assert (k = (num_nodes s - 1)%Z) as ->. { symmetry. apply (U _ f F). lia. } rewrite F in K. injection K as ->.
    unfold end_y, back in V. rewrite F in V. congruence.
  - unfold node_x in L. assert (L1 : (nx a <= nx n)%Z) by (apply LT; lra). assert (L2 : (nx n <= nx c)%Z) by (apply LT; lra).
    assert (SEL : k = j \/ k = (j + 1)%Z).
    { destruct (Z_lt_dec k j) as [Q|Q]. { left. symmetry. apply (U j a A). pose proof (sorted_getz _ S _ _ _ _ K A ltac:(lia)). lia. }
      destruct (Z_lt_dec (j + 1) k) as [Q'|Q']. { right. symmetry. apply (U _ c C). pose proof (sorted_getz _ S _ _ _ _ C K ltac:(lia)). lia. } lia. }
    assert (WD : (nx a < nx c)%Z).
    { destruct (Z.eq_dec (nx a) (nx c)) as [Q|Q]; [|lia]. pose proof (U j a A ltac:(lia)). pose proof (U _ c C ltac:(lia)). lia. }
    destruct (C33_segments_join s j a c O A C WD) as [PA PC].
    destruct SEL as [-> | ->]; [rewrite A in K; injection K as ->|rewrite C in K; injection K as ->]; congruence.
Qed.
Print Assumptions C37_value_at_node.

(** * C35 *)
Lemma bulk_loop_ok delta n : (n <= 65535)%Z -> forall fuel i ev, (0 <= i)%Z -> (n - i <= Z.of_nat fuel)%Z ->
  (forall k, (k <= Z.to_nat (n - i))%nat -> exists ev', advance_frames ev (repeat delta k) = Some ev') ->
  exists l, bulk_loop fuel i n delta ev = Some l /\ len l = Z.max 0 (n - i) /\
    forall k p, getz l k = Some p -> fst p = (i + k)%Z /\ advance_frames ev (repeat delta (Z.to_nat k)) = Some (snd p).
Proof.
  intros N. induction fuel as [|fuel IH]; intros i ev I F A; cbn [bulk_loop].
  - replace (i <? n)%Z with false by lia. exists []. split; [reflexivity|]. split; [cbn; lia|]. intros k p G. rewrite getz_None in G by (cbn; lia). discriminate.
  - destruct (Z.ltb_spec i n) as [L|L].
    + destruct (A 1%nat ltac:(lia)) as [ev1 A1]. cbn [repeat advance_frames] in A1. destruct (advance_frame delta ev) as [ev1'|] eqn:AF; [|discriminate]. injection A1 as <-.
      rewrite Z.mod_small by lia. destruct (IH (i + 1)%Z ev1' ltac:(lia) ltac:(lia)) as (l & E & LL & H).
      { intros k K. destruct (A (S k) ltac:(lia)) as [ev2 A2]. cbn [repeat advance_frames] in A2. rewrite AF in A2. eauto. }
      rewrite E. exists ((i, ev) :: l). split; [reflexivity|]. split; [rewrite len_cons; lia|]. intros k p G.
      destruct (Z.eq_dec k 0) as [->|NK]; [cbn in G; injection G as <-; cbn [fst snd repeat advance_frames Z.to_nat]; split; [lia|reflexivity]|].
      pose proof (getz_Some _ _ _ G). change ((i, ev) :: l) with ([(i, ev)] ++ l) in G. rewrite getz_app2 in G by (cbn; lia). cbn [len length Z.of_nat] in G.
      change (len [(i, ev)]) with 1%Z in G. destruct (H _ _ G) as [H1 H2]. split; [lia|]. replace (Z.to_nat k) with (S (Z.to_nat (k - 1))) by lia.
      cbn [repeat advance_frames]. rewrite AF. exact H2.
    + exists []. split; [reflexivity|]. split; [cbn; lia|]. intros k p G. rewrite getz_None in G by (cbn; lia). discriminate.
Qed.
Lemma sum_repeat d k : sum (map (fun d => d * 1) (repeat d k)) = IZR (Z.of_nat k) * d.
Proof. induction k as [|k IH]; cbn [repeat map sum]; [cbn; ring|]. rewrite IH, Nat2Z.inj_succ. unfold Z.succ. rewrite plus_IZR. ring. Qed.

(** For up to 65535 points and steps that are not negative, the k-th row holds the
    values and slopes of the splines at start_x + k * delta_x. *)
Theorem C35_bulk : forall splines start_x delta num_points, (0 <= num_points <= 65535)%Z ->
  Forall (fun sp => spline_ok sp /\ - x_granularity sp / 2 <= start_x <= 2147000000 * x_granularity sp /\ small_step sp delta) splines ->
  exists rows, bulk_ys (Z.to_nat num_points) splines start_x delta num_points = Some rows /\ len rows = num_points /\
  forall k row, getz rows k = Some row -> len row = len splines /\
  forall j sp v d, getz splines j = Some sp -> getz row j = Some (v, d) -> spline_at sp (start_x + IZR k * delta) v d.
Proof.
  intros splines sx delta n N F. set (p := playback_from sx). set (ev0 := set_num_indices [] (len splines)).
  assert (EV0 : ev0 = repeat slot_default (length splines)).
  { unfold ev0, set_num_indices, resize. rewrite firstn_nil. cbn [app length]. f_equal. unfold len. lia. }
  assert (NOSRC : Forall (fun s => source s = None \/ blend_x p <= 0) ev0).
  { rewrite EV0. apply Forall_forall. intros s I. apply repeat_spec in I. subst s. left. reflexivity. }
  assert (FK : forall k, Forall (fun sp => start_ok sp p /\ Forall (fun d => small_step sp (d * playback_rate p)) (repeat delta k)) splines).
  { intros k. eapply Forall_impl; [|exact F]. intros sp (O & X & SM). split; [split; [exact O|split; [intros; discriminate|exact X]]|].
    apply Forall_forall. intros d I. apply repeat_spec in I. subst d. cbn [playback_rate p playback_from]. now rewrite Rmult_1_r. }
  assert (L0 : len ev0 = len splines) by (rewrite EV0, len_repeat; reflexivity).
  destruct (C37_no_failure ev0 splines p [] L0 (FK O) NOSRC) as (ev1 & _ & S1 & _).
  assert (RUN : forall k, exists ev', advance_frames ev1 (repeat delta k) = Some ev').
  { intros k. destruct (C37_no_failure ev0 splines p (repeat delta k) L0 (FK k) NOSRC) as (ev1' & ev2 & S1' & A). rewrite S1 in S1'. injection S1' as <-. eauto. }
  destruct (bulk_loop_ok delta n ltac:(lia) (Z.to_nat n) 0 ev1 ltac:(lia) ltac:(lia)) as (l & E & LL & H); [intros k _; apply RUN|].
  unfold bulk_ys, bulk_evaluate. fold ev0 p. rewrite S1, E. eexists. split; [reflexivity|]. split; [rewrite len_map; lia|].
  intros k row R. assert (exists q, getz l k = Some q /\ row = map (fun s => (cur_y s, slot_derivative s)) (snd q)) as (q & Q & ->).
  { pose proof (getz_Some _ _ _ R) as KR. rewrite len_map in KR. destruct (getz_in_range l k KR) as [q Q]. exists q. split; [exact Q|].
    unfold getz in R, Q. destruct (k <? 0)%Z; [discriminate|]. rewrite nth_error_map, Q in R. cbn in R. congruence. }
  destruct (H k q Q) as [_ AQ]. destruct (advance_frames_getz _ _ _ AQ) as [L2 G2].
  assert (L1 : len ev1 = len ev0) by (apply (set_each_getz _ _ _ _ _ _ S1)).
  split; [rewrite len_map; lia|]. intros j sp v d SPJ ROW.
  rewrite Forall_forall in F. destruct (F sp) as (O & X & SM); [apply getz_split in SPJ; destruct SPJ as (? & ? & -> & _); apply in_elt|].
  destruct (C37_tracks ev0 0 splines p ev1 (repeat delta (Z.to_nat k)) (snd q) j sp S1 AQ SPJ) as (s & x & GS & PL & W).
  - split; [exact O|]. split; [intros; discriminate|exact X].
  - apply Forall_forall. intros e I. apply repeat_spec in I. subst e. cbn [playback_rate p playback_from]. now rewrite Rmult_1_r.
  - intros s S. rewrite EV0 in S. apply getz_split in S. destruct S as (P & Q' & S & _). left.
    assert (I : In s (repeat slot_default (length splines))) by (rewrite S; apply in_elt). apply repeat_spec in I. subst s. reflexivity.
  - replace (0 + j)%Z with j in GS by lia. unfold getz in ROW, GS. destruct (j <? 0)%Z; [discriminate|]. rewrite nth_error_map, GS in ROW. cbn in ROW. injection ROW as <- <-.
    pose proof (getz_Some _ _ _ Q). cbn [wrapped repeat_ p playback_from start_at playback_rate] in W. rewrite sum_repeat, Z2Nat.id in W by lia. subst x.
    destruct PL as (_ & _ & v & d & SA & V & _ & D). cbn [y_scale y_offset playback_rate p playback_from] in V, D.
    rewrite V, D. replace (1 * v + 0) with v by ring. replace (1 * (1 * d)) with d by ring. exact SA.
Qed.
Print Assumptions C35_bulk.

(** With more points the counter wraps around and the loop never ends. *)
Theorem C35_many_points_refuted : forall fuel splines start_x delta num_points, (65536 <= num_points)%Z ->
  bulk_ys fuel splines start_x delta num_points = None.
Proof.
  intros fuel splines sx delta n N. unfold bulk_ys, bulk_evaluate. destruct (set_splines _ _ _ _ _) as [ev|]; [|reflexivity].
  assert (H : forall fuel i ev, (0 <= i < 65536)%Z -> bulk_loop fuel i n delta ev = None); [|rewrite H by lia; reflexivity].
  clear ev. intros f. induction f as [|f IH]; intros i ev I; cbn [bulk_loop]; replace (i <? n)%Z with true by lia; [reflexivity|].
  destruct (advance_frame delta ev) as [ev'|]; [|reflexivity]. rewrite IH by (apply Z.mod_pos_bound; lia). reflexivity.
Qed.
Print Assumptions C35_many_points_refuted.
