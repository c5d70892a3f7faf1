(** C39: blending from one spline to another. *)
From Verif Require Import RBase BaseFacts RangeModel RangeProofs CurveModel CurveProofs CompactSplineModel CompactSplineSpec CompactSplineProofs CompactSplineIndex CompactSplineEvalProps EvaluatorModel EvaluatorSpec EvaluatorProofs EvaluatorPlay EvaluatorProps EvaluatorOpProps.

(** Equal values, or equal up to a multiple of the length of a modular range. *)
Definition same_angle (r : range) (a b : R) : Prop :=
  if valid r then exists k : Z, b = a + IZR k * (end_ r - start_ r) else a = b.
(** Either not modular, or a range around zero such as -pi to pi. *)
Definition usual_range (r : range) : Prop := valid r = false \/ (start_ r < end_ r /\ start_ r <= 0 <= end_ r).

Lemma cubic_init_ends sy sd ey ed w : 0 < w -> let c := cubic_init sy sd ey ed w in
  keval c 0 = sy /\ kderiv c 0 = sd /\ keval c w = ey /\ kderiv c w = ed.
Proof.
  intros W. cbv zeta. unfold cubic_init. rewrite Rltb_t by lra. unfold keval, kderiv. cbn [k3 k2 k1 k0]. repeat split; field; lra.
Qed.
Lemma shift_right_eval c s x : keval (kshift_right c s) x = keval c (x - s) /\ kderiv (kshift_right c s) x = kderiv c (x - s).
Proof.
  unfold kshift_right, kshift_left. destruct (Reqb_spec (- s) 0) as [E|E].
  - replace (x - s) with x by lra. auto.
  - unfold keval, kderiv, kderiv2. cbn [k3 k2 k1 k0]. split; field.
Qed.

(** The y values that a blend goes from and to. *)
Lemma blend_ys r y e ys : (if valid r then start <- normalize_close r y ;; end_normalized <- normalize_close r e ;; diff <- normalize r (end_normalized - start) ;; Some (start, start + diff)
    else Some (y, e)) = Some ys -> start_ r < end_ r \/ valid r = false -> same_angle r y (fst ys) /\ same_angle r (snd ys) e.
Proof.
  unfold same_angle. intros E [L|V]; [|rewrite V in *; injection E as <-; auto].
  unfold valid in *. rewrite Rleb_t in * by lra.
  destruct (C17_proof r y L) as [(y' & _ & _ & C1 & N1 & _) _]. destruct (C17_proof r e L) as [(e' & _ & _ & C2 & N2 & _) _].
  rewrite N1, N2 in E. destruct (C17_proof r (e' - y') L) as [(z & _ & _ & C3 & _ & NZ) NN].
  destruct (normalize r (e' - y')) as [d|] eqn:ND; [|discriminate]. injection E as <-. cbn [fst snd]. split; [exact C1|].
  specialize (NZ (NN ltac:(discriminate))). injection NZ as ->.
  destruct C2 as [k2 C2], C3 as [k3 C3]. exists (- k2 - k3)%Z. rewrite minus_IZR, opp_IZR. lra.
Qed.
Lemma blend_ys_some r y e : usual_range r -> exists ys, (if valid r then start <- normalize_close r y ;; end_normalized <- normalize_close r e ;; diff <- normalize r (end_normalized - start) ;; Some (start, start + diff)
    else Some (y, e)) = Some ys.
Proof.
  intros [V|(L & Z0)]; [rewrite V; eauto|]. unfold valid. rewrite Rleb_t by lra.
  destruct (C17_proof r y L) as [(y' & _ & B1 & C1 & N1 & _) _]. destruct (C17_proof r e L) as [(e' & _ & B2 & C2 & N2 & _) _].
  rewrite N1, N2. destruct (C17_proof r (e' - y') L) as [(z & _ & _ & C3 & _ & NZ) NN]. rewrite NZ by lra. eauto.
Qed.

(** Blending is continuous in value at its start: the value does not change (or
    changes by whole turns).  The velocity is multiplied by the new playback rate. *)
Theorem C39_start : forall ev index l p ev1 k sp s, set_splines ev index (length l) (Some l) p = Some ev1 ->
  getz l k = Some sp -> getz ev (index + k) = Some s -> source s <> None -> 0 < blend_x p -> 0 < playback_rate p -> usual_range (modular_range s) ->
  exists s1, getz ev1 (index + k) = Some s1 /\ same_angle (modular_range s) (cur_y s) (cur_y s1) /\
    slot_derivative s1 = playback_rate p * slot_derivative s /\ (playback_rate p = 1 -> slot_derivative s1 = slot_derivative s).
Proof.
  intros ev index l p ev1 k sp s SS K S SRC B PR UR. cbn [set_splines] in SS. destruct (set_each_getz _ _ _ _ _ _ SS) as [_ G]. specialize (G (index + k)%Z).
  pose proof (getz_Some _ _ _ K) as KR. unfold len in KR. replace ((index <=? index + k) && (index + k <? index + Z.of_nat (length l)))%Z with true in G by lia.
  rewrite S in G. replace (index + k - index)%Z with k in G by lia. rewrite K in G. unfold set_spline in G. destruct (source s) as [old|]; [|congruence].
  rewrite Rltb_t in G by lra. 
  destruct (blend_to_spline sp p s) as [s'|] eqn:BT.
  2: { exfalso. pose proof (getz_Some _ _ _ S) as SR. destruct (set_each_getz _ _ _ _ _ _ SS) as [L1 _]. destruct (getz_in_range ev1 (index + k) ltac:(lia)) as [t T]. congruence. }
  exists (evaluate_slot s'). split; [exact G|]. unfold blend_to_spline in BT. destruct (calculate_blend_init s sp p) as [c|] eqn:CB; [|discriminate].
  destruct (index_for_x_allowing_repeat sp (start_at p) kInvalidSplineIndex (repeat_ p)) as [[i x0]|]; [|discriminate].
  destruct (node_x_at sp i) as [a|]; [|discriminate]. injection BT as <-. unfold slot_derivative at 1 3. cbn [evaluate_slot curve cubic_x cur_y rate].
  unfold calculate_blend_init in CB. destruct (index_for_x_allowing_repeat sp (start_at p + blend_x p * playback_rate p) kInvalidSplineIndex (repeat_ p)) as [[j xe]|]; [|discriminate].
  match type of CB with (e <- ?E ;; _) = _ => destruct E as [e|]; [|discriminate] end. cbv zeta in CB.
  match type of CB with (ys <- ?E ;; _) = _ => destruct E as [ys|] eqn:YS; [|discriminate] end. injection CB as <-.
  assert (W : 0 < blend_x p * playback_rate p) by (apply Rmult_lt_0_compat; lra).
  destruct (shift_right_eval (cubic_of (CInit (fst ys) (slot_derivative s) (snd ys) (snd e) (blend_x p * playback_rate p))) (x0 - a) (x0 - a)) as [-> ->].
  replace (x0 - a - (x0 - a)) with 0 by ring. unfold cubic_of. cbn [ci_start_y ci_start_derivative ci_end_y ci_end_derivative ci_width_x].
  destruct (cubic_init_ends (fst ys) (slot_derivative s) (snd ys) (snd e) _ W) as (-> & -> & _). split; [|split; [reflexivity|intros ->; ring]].
  apply (blend_ys _ _ _ _ YS). destruct UR as [V|[L _]]; auto.
Qed.
Print Assumptions C39_start.

(** The start and the end of the blend are representable positions. *)
Definition blend_ok (sp : spline) (p : playback) : Prop :=
  spline_ok sp /\ can_repeat sp (repeat_ p) /\ - x_granularity sp / 2 <= start_at p /\ 0 < blend_x p /\ 0 < playback_rate p /\
  start_at p + blend_x p * playback_rate p <= 99999 * x_granularity sp.

(** An index that is [acc] into its blend. *)
Record blending (s : slot) (sp : spline) (p : playback) (r : range) (x0 acc : R) : Prop := {
  bl_source : source s = Some sp; bl_rate : rate s = playback_rate p; bl_offset : offset_y s = y_offset p;
  bl_scale : scale_y s = y_scale p; bl_repeat : repeats s = repeat_ p; bl_index : (0 <= x_index s)%Z;
  bl_start : wrapped sp (repeat_ p) (start_at p) x0; bl_x0 : - x_granularity sp / 2 <= x0 <= Rmax (start_at p) 0;
  bl_acc : 0 <= acc <= blend_x p * playback_rate p; bl_cur : cur_y s = keval (curve s) (cubic_x s);
  bl_segment : exists a, node_x_at sp (x_index s) = Some a /\ cubic_x s = x0 - a + acc /\ cubic_x_end s = Some (x0 - a + blend_x p * playback_rate p) /\
    exists xe v d, wrapped sp (repeat_ p) (start_at p + blend_x p * playback_rate p) xe /\ spline_at sp xe v d /\
      same_angle r (keval (curve s) (x0 - a + blend_x p * playback_rate p)) (y_scale p * v + y_offset p) /\
      kderiv (curve s) (x0 - a + blend_x p * playback_rate p) = d
}.

Lemma blend_target sp i x : spline_ok sp -> held_by sp i x -> exists v d, spline_at sp x v d /\
  (if outside_spline i then y <- node_y_at sp i ;; Some (y, 0)
   else a <- node_x_at sp i ;; c <- create_cubic_init sp i ;; Some (keval (cubic_of c) (x - a), kderiv (cubic_of c) (x - a))) = Some (v, d).
Proof.
  intros O H. pose proof (ok_count sp O) as CN. destruct (segment_data sp i x O H) as (c & st & e & _ & NX & CC & SA & _).
  destruct (outside_spline i) eqn:OUT.
  - unfold held_by in H. cbv zeta in H. destruct H as [[-> (sx & SX & X)]|[[-> (ex & EX & X)]|(I & _)]].
    + unfold node_y_at. cbn -[front back start_y end_y]. pose proof SX as SX'. unfold start_x in SX'. destruct (front sp) as [f|] eqn:F; [|discriminate].
      assert (SY : start_y sp = Some (node_y f (y_range sp))) by (unfold start_y; now rewrite F). rewrite SY. do 2 eexists. split; [|reflexivity]. eapply At_before; eauto.
    + unfold node_y_at. cbn -[front back start_y end_y]. pose proof EX as EX'. unfold end_x in EX'. destruct (back sp) as [f|] eqn:F; [|discriminate].
      assert (SY : end_y sp = Some (node_y f (y_range sp))) by (unfold end_y; now rewrite F). rewrite SY. do 2 eexists. split; [|reflexivity]. exact (At_after _ _ _ _ ex EX X SY eq_refl).
    + exfalso. unfold outside_spline, kAfterSplineIndex in OUT. lia.
  - rewrite NX, CC. do 2 eexists. split; [exact SA|reflexivity].
Qed.

Lemma blend_starts s sp p : blend_ok sp p -> usual_range (modular_range s) -> exists s' x0, blend_to_spline sp p s = Some s' /\
  blending (evaluate_slot s') sp p (modular_range s) x0 0.
Proof.
  intros (O & CR & X & B & PR & XE) UR. pose proof (ok_granularity sp O) as G. set (w := blend_x p * playback_rate p) in *.
  assert (W : 0 < w) by (apply Rmult_lt_0_compat; lra). unfold blend_to_spline, calculate_blend_init. fold w.
  destruct (lookup_held sp (start_at p + w) kInvalidSplineIndex (repeat_ p) O ltac:(unfold kInvalidSplineIndex; lia) CR ltac:(lra)) as (j & xe & E1 & H1 & W1 & B1). rewrite E1.
  destruct (blend_target sp j xe O H1) as (v & d & SA & ->). cbn [fst snd].
  destruct (blend_ys_some (modular_range s) (cur_y s) (v * y_scale p + y_offset p) UR) as [ys YS]. rewrite YS.
  destruct (lookup_held sp (start_at p) kInvalidSplineIndex (repeat_ p) O ltac:(unfold kInvalidSplineIndex; lia) CR ltac:(lra)) as (i & x0 & E2 & H2 & W2 & B2). rewrite E2.
  destruct (segment_data sp i x0 O H2) as (c & st & e & _ & NX & _). rewrite NX.
  eexists. exists x0. split; [reflexivity|].
  split; cbn [evaluate_slot source rate offset_y scale_y repeats x_index cubic_x cubic_x_end curve cur_y]; auto; try lra; [eapply held_index_pos; eauto|fold w; lra|].
  exists st. split; [exact NX|]. split; [ring|]. split; [reflexivity|]. fold w. exists xe, v, d. split; [exact W1|]. split; [exact SA|].
  destruct (shift_right_eval (cubic_of (CInit (fst ys) (slot_derivative s) (snd ys) d w)) (x0 - st) (x0 - st + w)) as [-> ->].
  replace (x0 - st + w - (x0 - st)) with w by ring. unfold cubic_of. cbn [ci_start_y ci_start_derivative ci_end_y ci_end_derivative ci_width_x].
  destruct (cubic_init_ends (fst ys) (slot_derivative s) (snd ys) d _ W) as (_ & _ & -> & ->). split; [|reflexivity].
  rewrite (Rmult_comm (y_scale p) v). apply (blend_ys _ _ _ _ YS). destruct UR as [V|[L _]]; auto.
Qed.

Lemma step_blending s sp p r x0 acc delta : blend_ok sp p -> blending s sp p r x0 acc -> small_step sp (delta * playback_rate p) ->
  let total := acc + delta * playback_rate p in
  (total <= blend_x p * playback_rate p -> exists s', advance_slot delta s = Some s' /\ blending s' sp p r x0 total) /\
  (blend_x p * playback_rate p < total -> exists s' x', advance_slot delta s = Some s' /\ placed s' sp p x' /\ cur_y s' = keval (curve s') (cubic_x s') /\
     wrapped sp (repeat_ p) (start_at p + total) x').
Proof.
  intros (O & CR & X & B & PR & XE) BL (D0 & D1) total. pose proof (ok_granularity sp O) as G. set (w := blend_x p * playback_rate p) in *.
  destruct (bl_segment _ _ _ _ _ _ BL) as (a & NX & CX & CE & xe & v & d & W1 & SA & Y & DD). fold w in CE, W1, Y, DD. pose proof (bl_acc _ _ _ _ _ _ BL) as AC. fold w in AC.
  pose proof (bl_x0 _ _ _ _ _ _ BL) as BX. 
  assert (PE : past_end (step_x delta s) = Rltb (x0 - a + w) (x0 - a + total)).
  { unfold past_end. cbn [step_x cubic_x_end cubic_x]. rewrite CE, CX, (bl_rate _ _ _ _ _ _ BL). unfold total. now rewrite <- Rplus_assoc. }
  unfold advance_slot. cbv zeta. rewrite PE. split; intros T.
  - rewrite Rltb_f by lra. eexists. split; [reflexivity|]. destruct BL as [A1 A2 A3 A4 A5 A6 A7 A8 A9 A10 A11].
    split; cbn [evaluate_slot step_x source rate offset_y scale_y repeats x_index cubic_x cubic_x_end curve cur_y]; auto; [fold w; split; [unfold total; lra|exact T]|].
    exists a. split; [exact NX|]. split; [rewrite CX, A2; unfold total; ring|]. split; [exact CE|]. exists xe, v, d. auto.
  - rewrite Rltb_t by lra. unfold reinit_slot.
    assert (SX : slot_x (step_x delta s) = Some (x0 + total)).
    { unfold slot_x, cubic_start_x. cbn [step_x source x_index cubic_x]. rewrite (bl_source _ _ _ _ _ _ BL), NX, CX, (bl_rate _ _ _ _ _ _ BL). f_equal. unfold total. ring. }
    rewrite SX. assert (MX : Rmax (start_at p) 0 <= start_at p + x_granularity sp / 2) by (unfold Rmax; destruct (Rle_dec (start_at p) 0); lra).
    destruct (init_placed (step_x delta s) sp p (x0 + total)) as (s' & x' & IC & PL & WR & _); try (cbn [step_x source rate offset_y scale_y repeats x_index]; apply BL); auto.
    { unfold total. lra. }
    rewrite IC. exists (evaluate_slot s'), x'. split; [reflexivity|]. split; [now apply placed_evaluate|]. split; [reflexivity|].
    eapply wrapped_add; [apply BL|exact WR].
Qed.

Lemma run_blending sp p r : blend_ok sp p -> forall l s x0 acc, blending s sp p r x0 acc -> Forall (fun d => small_step sp (d * playback_rate p)) l ->
  let total := acc + sum (map (fun d => d * playback_rate p) l) in
  exists s', run_slot s l = Some s' /\
    ((total <= blend_x p * playback_rate p /\ blending s' sp p r x0 total) \/
     (blend_x p * playback_rate p < total /\ exists x', placed s' sp p x' /\ cur_y s' = keval (curve s') (cubic_x s') /\ wrapped sp (repeat_ p) (start_at p + total) x')).
Proof.
  intros OK. assert (O := OK). destruct O as (O & CR & _).
  induction l as [|d l IH]; intros s x0 acc BL F; cbn [run_slot map sum]; cbv zeta.
  - exists s. split; [reflexivity|]. left. rewrite Rplus_0_r. split; [apply BL|exact BL].
  - apply Forall_cons_iff in F. destruct F as [F1 F2]. destruct (step_blending s sp p r x0 acc d OK BL F1) as [S1 S2].
    destruct (Rle_lt_dec (acc + d * playback_rate p) (blend_x p * playback_rate p)) as [T|T].
    + destruct (S1 T) as (s' & E & BL'). rewrite E. destruct (IH s' x0 _ BL' F2) as (s2 & R & H). exists s2. split; [exact R|]. rewrite <- Rplus_assoc. exact H.
    + destruct (S2 T) as (s' & x' & E & PL & Y & WR). rewrite E.
      destruct (run_placed sp p O CR l s' x' PL Y (wrapped_refl_of _ _ _ _ WR) F2) as (s2 & x2 & R & P2 & Y2 & W2). exists s2. split; [exact R|]. right.
      assert (NN : 0 <= sum (map (fun d => d * playback_rate p) l)) by (clear - F2; induction F2 as [|y l' HF HT IHF]; cbn; [lra|destruct HF; lra]).
      split; [lra|]. exists x2. split; [exact P2|]. split; [exact Y2|]. rewrite <- Rplus_assoc, <- Rplus_assoc, (Rplus_assoc (start_at p)). eapply wrapped_add; eauto.
Qed.

(** At the end of the blend the value is that of the new spline at the position
    reached (up to whole turns), and from then on the index plays the new spline.  The
    derivative at the end is that of the spline without the y-scale. *)
Theorem C39_end : forall ev index l p ev1 deltas ev2 k sp s,
  set_splines ev index (length l) (Some l) p = Some ev1 -> advance_frames ev1 deltas = Some ev2 ->
  getz l k = Some sp -> getz ev (index + k) = Some s -> source s <> None -> blend_ok sp p -> usual_range (modular_range s) ->
  Forall (fun d => small_step sp (d * playback_rate p)) deltas ->
  let width := blend_x p * playback_rate p in let total := sum (map (fun d => d * playback_rate p) deltas) in
  exists s2, getz ev2 (index + k) = Some s2 /\ source s2 = Some sp /\
    (total = width -> exists x v d, wrapped sp (repeat_ p) (start_at p + total) x /\ spline_at sp x v d /\
       same_angle (modular_range s) (cur_y s2) (y_scale p * v + y_offset p) /\ slot_derivative_without_playback s2 = d) /\
    (width < total -> exists x, wrapped sp (repeat_ p) (start_at p + total) x /\ plays s2 sp p x).
Proof.
  intros ev index l p ev1 deltas ev2 k sp s SS AF K S SRC OK UR F width total. cbn [set_splines] in SS. destruct (set_each_getz _ _ _ _ _ _ SS) as [_ G]. specialize (G (index + k)%Z).
  pose proof (getz_Some _ _ _ K) as KR. unfold len in KR. replace ((index <=? index + k) && (index + k <? index + Z.of_nat (length l)))%Z with true in G by lia.
  rewrite S in G. replace (index + k - index)%Z with k in G by lia. rewrite K in G. unfold set_spline in G. destruct (source s) as [old|]; [|congruence].
  assert (O := OK). destruct O as (O & CR & _ & BX & _). rewrite Rltb_t in G by lra.
  destruct (blend_starts s sp p OK UR) as (s' & x0 & E & BL). rewrite E in G. destruct (advance_frames_getz _ _ _ AF) as [_ G2]. specialize (G2 (index + k)%Z). rewrite G in G2.
  destruct (run_blending sp p (modular_range s) OK deltas _ x0 0 BL F) as (s2 & R & H). rewrite R in G2. cbv zeta in H. rewrite Rplus_0_l in H. fold width total in H.
  exists s2. split; [exact G2|]. destruct H as [[T B2]|[T (x & P2 & Y2 & W2)]].
  - split; [apply B2|]. split; [|intros; lra]. intros TW. destruct (bl_segment _ _ _ _ _ _ B2) as (a & NX & CX & CE & xe & v & d & W1 & SA & Y & DD).
    exists xe, v, d. rewrite TW. split; [exact W1|]. split; [exact SA|]. unfold slot_derivative_without_playback. rewrite (bl_cur _ _ _ _ _ _ B2), CX, TW. auto.
  - split; [apply P2|]. split; [intros; lra|]. intros _. exists x. split; [exact W2|]. rewrite <- (evaluated_same s2 Y2). now apply placed_plays.
Qed.
Print Assumptions C39_end.

(** Nothing fails while blending. *)
Theorem C39_no_failure : forall ev l p deltas, len ev = len l ->
  Forall (fun sp => blend_ok sp p /\ Forall (fun d => small_step sp (d * playback_rate p)) deltas) l -> Forall (fun s => usual_range (modular_range s)) ev ->
  exists ev1 ev2, set_splines ev 0 (length l) (Some l) p = Some ev1 /\ advance_frames ev1 deltas = Some ev2.
Proof.
  intros ev l p deltas LL F J. rewrite Forall_forall in F, J. assert (IN : forall A (l : list A) i x, getz l i = Some x -> In x l).
  { intros A m i x G. apply getz_split in G. destruct G as (P & Q & -> & _). apply in_elt. }
  assert (ONE : forall s sp, In s ev -> In sp l -> exists s1, set_spline sp p s = Some s1 /\ run_slot s1 deltas <> None).
  { intros s sp IS IL. destruct (F sp IL) as [OK FS]. assert (O := OK). destruct O as (O & CR & X & B & PR & XE). pose proof (ok_granularity sp O).
    assert (W : 0 < blend_x p * playback_rate p) by (apply Rmult_lt_0_compat; lra).
    destruct (source s) as [old|] eqn:SRC.
    - destruct (blend_starts s sp p OK (J s IS)) as (s' & x0 & E & BL). exists (evaluate_slot s'). unfold set_spline. rewrite SRC, Rltb_t, E by lra. split; [reflexivity|].
      destruct (run_blending sp p _ OK deltas _ x0 0 BL FS) as (s2 & R & _). congruence.
    - destruct (set_spline_jump s sp p) as (s' & x & E & PL & Y & WR); [split; [exact O|]; split; [exact CR|lra]|auto|]. exists s'. split; [exact E|].
      destruct (run_placed sp p O CR deltas s' x PL Y (wrapped_refl_of _ _ _ _ WR) FS) as (s2 & x2 & R & _). congruence. }
  destruct (set_each_succeeds p (length l) ev 0 l) as [ev1 E1]; [unfold len in *; lia|unfold len; lia| |].
  - intros j s sp _ G GL. replace (j - 0)%Z with j in GL by lia. destruct (ONE s sp (IN _ _ _ _ G) (IN _ _ _ _ GL)) as (s1 & -> & _). discriminate.
  - destruct (advance_frames_succeeds deltas ev1) as [ev2 E2]; [|exists ev1, ev2; auto].
    intros i s1 G1. destruct (set_each_getz _ _ _ _ _ _ E1) as [L1 G]. pose proof (getz_Some _ _ _ G1) as IR. rewrite G in G1.
    assert (LN : len l = Z.of_nat (length l)) by reflexivity.
    replace ((0 <=? i) && (i <? 0 + Z.of_nat (length l)))%Z with true in G1 by lia. replace (i - 0)%Z with i in G1 by lia.
    destruct (getz ev i) as [s|] eqn:GE; [|discriminate]. destruct (getz l i) as [sp|] eqn:GL; [|discriminate].
    destruct (ONE s sp (IN _ _ _ _ GE) (IN _ _ _ _ GL)) as (s' & E & R). rewrite E in G1. injection G1 as <-. exact R.
Qed.
Print Assumptions C39_no_failure.

(** * Refutations *)
Lemma peak_at_quarter v d : spline_at peak (1 / 4) v d -> v = 5 / 32 /\ d = 9 / 8.
Proof.
  intros SA. destruct SA as [sx SX L V D|ex EX L V D|j a c A C L W SV].
  - unfold start_x in SX. change (front peak) with (Some (Node 0 0 0)) in SX. injection SX as <-. unfold node_x in L. cbn in L. lra.
  - unfold end_x in EX. change (back peak) with (Some (Node 2 0 0)) in EX. injection EX as <-. unfold node_x in L. cbn in L. destruct L as [L|[L _]]; [lra|lia].
  - pose proof (getz_Some _ _ _ C) as R. pose proof (getz_Some _ _ _ A) as R'. unfold len in R, R'. cbn in R, R'. assert (j = 0 \/ j = 1)%Z as [->| ->] by lia.
    + rewrite peak_segment0 in SV. injection SV as <- <-. split; field.
    + cbn in A. injection A as <-. unfold node_x in L. cbn in L. lra.
Qed.

(** Start at a quarter of a peak (slope 9/8), then blend to another spline at double speed:
    the velocity jumps to twice what it was. *)
Definition quarter : playback := Playback (1/4) 0 1 0 1 false.
Definition double_speed : playback := Playback 0 1 2 0 1 false.
Lemma quarter_ok : start_ok peak quarter.
Proof. split; [apply peak_ok|]. split; [intros; discriminate|]. cbn. lra. Qed.
Lemma playing_quarter : exists ev1 s1, set_splines (set_num_indices [] 1) 0 1 (Some [peak]) quarter = Some ev1 /\ getz ev1 0 = Some s1 /\ len ev1 = 1%Z /\
  source s1 = Some peak /\ cur_y s1 = 5 / 32 /\ slot_derivative s1 = 9 / 8 /\ modular_range s1 = range_default.
Proof.
  destruct (C37_no_failure (set_num_indices [] 1) [peak] quarter [] eq_refl) as (ev1 & ev1' & E1 & _).
  { constructor; [split; [apply quarter_ok|constructor]|constructor]. } { repeat constructor. }
  destruct (C37_tracks _ _ _ _ _ [] ev1 0 peak E1 eq_refl eq_refl quarter_ok) as (s1 & x1 & G1 & PL & W); [constructor|right; cbn; lra|].
  cbn [wrapped repeat_ quarter start_at sum map] in W. rewrite Rplus_0_r in W. subst x1. change (0 + 0)%Z with 0%Z in G1. destruct PL as (SO & SX & v & d & SA & Y & _ & D).
  destruct (peak_at_quarter _ _ SA) as [-> ->]. cbn [y_scale y_offset playback_rate quarter] in Y, D. exists ev1, s1. split; [exact E1|]. split; [exact G1|].
  destruct (set_each_getz _ _ _ _ _ _ E1) as [L G]. split; [exact L|]. split; [exact SO|]. split; [lra|]. split; [lra|].
  specialize (G 0%Z). change ((0 <=? 0)%Z && (0 <? 0 + Z.of_nat (length [peak]))%Z) with true in G. cbv iota in G.
  change (getz (set_num_indices [] 1) 0) with (Some slot_default) in G. change (getz [peak] (0 - 0)) with (Some peak) in G. rewrite G1 in G.
  unfold set_spline, jump_to_spline, init_cubic in G. cbn [source slot_default] in G.
  destruct (index_for_x_allowing_repeat _ _ _ _) as [[i x]|]; [|discriminate]. destruct (range_x peak i); [|discriminate]. destruct (create_cubic_init peak i); [|discriminate].
  injection G as ->. reflexivity.
Qed.
Theorem C39_velocity_refuted : exists ev1 s1 ev2 s2,
  set_splines (set_num_indices [] 1) 0 1 (Some [peak]) quarter = Some ev1 /\ getz ev1 0 = Some s1 /\
  set_splines ev1 0 1 (Some [peak]) double_speed = Some ev2 /\ getz ev2 0 = Some s2 /\ slot_derivative s2 <> slot_derivative s1.
Proof.
  destruct playing_quarter as (ev1 & s1 & E1 & G1 & L1 & SO & Y & D & M). assert (BO : blend_ok peak double_speed).
  { split; [apply peak_ok|]. split; [intros; discriminate|]. cbn. lra. }
  destruct ev1 as [|t [|t' ev1]]; [discriminate| |cbn in L1; lia]. cbn in G1. injection G1 as ->.
  assert (UR : usual_range (modular_range s1)) by (left; rewrite M; unfold valid, range_default; cbn; apply Rleb_f; lra).
  destruct (C39_no_failure [s1] [peak] double_speed [] eq_refl) as (ev2 & _ & E2 & _); [constructor; [split; [exact BO|constructor]|constructor]|constructor; [exact UR|constructor]|].
  destruct (C39_start [s1] 0 [peak] double_speed ev2 0 peak s1 E2 eq_refl eq_refl) as (s2 & G2 & _ & V & _); [congruence|cbn; lra|cbn; lra|exact UR|].
  exists [s1], s1, ev2, s2. split; [exact E1|]. split; [reflexivity|]. split; [exact E2|]. split; [exact G2|]. rewrite V, D. cbn. lra.
Qed.
Print Assumptions C39_velocity_refuted.

(** Blend over 1/4 to a scaled peak: at the end of the blend the slope is the one of the
    unscaled spline; one moment later it is scaled. *)
Definition scaled : playback := Playback 0 (1/4) 1 0 3 false.
Theorem C39_end_velocity_refuted : exists ev1 s1 ev2 ev3 s3,
  set_splines (set_num_indices [] 1) 0 1 (Some [peak]) quarter = Some ev1 /\ getz ev1 0 = Some s1 /\
  set_splines ev1 0 1 (Some [peak]) scaled = Some ev2 /\ advance_frame (1/4) ev2 = Some ev3 /\ getz ev3 0 = Some s3 /\
  slot_derivative_without_playback s3 = 9 / 8 /\
  (forall v d, spline_at peak (1 / 4) v d -> y_scale scaled * d = 27 / 8).
Proof.
  destruct playing_quarter as (ev1 & s1 & E1 & G1 & L1 & SO & Y & D & M). assert (BO : blend_ok peak scaled).
  { split; [apply peak_ok|]. split; [intros; discriminate|]. cbn. lra. }
  destruct ev1 as [|t [|t' ev1]]; [discriminate| |cbn in L1; lia]. cbn in G1. injection G1 as ->.
  assert (UR : usual_range (modular_range s1)) by (left; rewrite M; unfold valid, range_default; cbn; apply Rleb_f; lra).
  assert (SM : Forall (fun d => small_step peak (d * playback_rate scaled)) [1 / 4]) by (constructor; [unfold small_step; cbn; lra|constructor]).
  destruct (C39_no_failure [s1] [peak] scaled [1/4] eq_refl) as (ev2 & ev3 & E2 & E3); [constructor; [split; [exact BO|exact SM]|constructor]|constructor; [exact UR|constructor]|].
  destruct (C39_end [s1] 0 [peak] scaled ev2 [1/4] ev3 0 peak s1 E2 E3 eq_refl eq_refl) as (s3 & G3 & _ & T & _); [congruence|exact BO|exact UR|exact SM|].
  destruct T as (x & v & d & WR & SA & _ & DD); [cbn; lra|]. cbn [wrapped repeat_ scaled start_at] in WR.
  assert (x = 1 / 4) as -> by (rewrite WR; cbn; lra). destruct (peak_at_quarter _ _ SA) as [-> ->].
  exists [s1], s1, ev2, ev3, s3. split; [exact E1|]. split; [reflexivity|]. split; [exact E2|]. cbn [advance_frames] in E3. destruct (advance_frame (1 / 4) ev2); [|discriminate].
  split; [exact E3|]. split; [exact G3|]. split; [exact DD|]. intros v' d' SA'. destruct (peak_at_quarter _ _ SA') as [-> ->]. cbn. lra.
Qed.
Print Assumptions C39_end_velocity_refuted.
