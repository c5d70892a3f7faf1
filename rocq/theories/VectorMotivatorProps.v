(** C109: the coordinates of motivators of several dimensions move on their own. *)
From Verif Require Import RBase BaseFacts RangeModel CurveModel CompactSplineModel EvaluatorModel EvaluatorSpec EvaluatorProofs SplineTargetModel SplineQueryModel SplineClassModel VectorMotivatorModel.
Local Open Scope Z_scope.

(** What a call means for the coordinate at index [j]: a call about a motivator of one
    dimension, at index 0, or no call. *)
Definition own {A} (index : Z) (dimensions : nat) (j : Z) (a : A) : list A := if (index <=? j) && (j <? index + Z.of_nat dimensions) then [a] else [].
Definition coordinate (j : Z) (c : call) : list call :=
  match c with
  | Initialize i n r => own i n j (Initialize 0 1 r)
  | Remove i n => own i n j (Remove 0 1)
  | SetTargets i ts => match getz ts (j - i) with Some t => [SetTargets 0 [t]] | None => [] end
  | SetSplines i l p => match getz l (j - i) with Some sp => [SetSplines 0 [sp] p] | None => [] end
  | SetSplinesAndTargets i l p ts =>
      match getz l (j - i), getz ts (j - i) with
      | Some (Some sp), _ => [SetSplines 0 [sp] p]
      | Some None, Some t => [SetTargets 0 [t]]
      | _, _ => []
      end
  | SetSplineTime i n t => own i n j (SetSplineTime 0 1 t)
  | SetSplinePlaybackRate i n r => own i n j (SetSplinePlaybackRate 0 1 r)
  | SetSplineRepeating i n b => own i n j (SetSplineRepeating 0 1 b)
  | AdvanceFrame d => [AdvanceFrame d]
  end.

(** ** Proofs *)
(** The effect of a call on one slot. *)
Definition within (index : Z) (dimensions : nat) (j : Z) (f : slot -> option slot) (s : slot) : option slot :=
  if (index <=? j) && (j <? index + Z.of_nat dimensions) then f s else Some s.
Definition effect (j : Z) (c : call) : slot -> option slot :=
  match c with
  | Initialize i n r => within i n j (fun s => Some (slot_set_y_range r s))
  | Remove i n => within i n j (fun s => Some (clear_slot s))
  | SetTargets i ts => fun s => match getz ts (j - i) with Some t => slot_set_target t s | None => Some s end
  | SetSplines i l p => fun s => match getz l (j - i) with Some sp => set_spline sp p s | None => Some s end
  | SetSplinesAndTargets i l p ts => fun s =>
      match getz l (j - i), getz ts (j - i) with
      | Some (Some sp), _ => set_spline sp p s
      | Some None, Some t => slot_set_target t s
      | _, _ => Some s
      end
  | SetSplineTime i n t => within i n j (fun s => s' <- init_cubic s (IZR t) ;; Some (evaluate_slot s'))
  | SetSplinePlaybackRate i n r => within i n j (fun s => Some (slot_set_rate r s))
  | SetSplineRepeating i n b => within i n j (fun s => Some (slot_set_repeat b s))
  | AdvanceFrame d => advance_slot d
  end.

Lemma single_modify s f : modify_range [s] 0 1 f = (s' <- f s ;; Some [s']).
Proof. cbn. unfold modify. cbn. destruct (f s); reflexivity. Qed.
Lemma set_spline_modify ev i sp p : EvaluatorModel.set_splines ev i 1 (Some [sp]) p = modify ev i (set_spline sp p).
Proof. cbn. destruct (modify ev i _); reflexivity. Qed.
Lemma set_target_modify ev i t : (q <- set_target ev i new_local t ;; Some (snd q)) = modify ev i (slot_set_target t).
Proof.
  unfold set_target, modify, slot_set_target. destruct (getz ev i) as [s|] eqn:G; [|reflexivity]. destruct (build_target new_local s t) as [sp|]; [|reflexivity].
  rewrite set_spline_modify. unfold modify. rewrite G. destruct (set_spline sp (playback_from 0) s) as [s'|]; [|reflexivity]. destruct (setz ev i s'); reflexivity.
Qed.
Lemma set_targets_cons ev i t l : set_targets ev i (t :: l) = (ev' <- modify ev i (slot_set_target t) ;; set_targets ev' (i + 1) l).
Proof. cbn [set_targets]. rewrite <- set_target_modify. destruct (set_target ev i new_local t); reflexivity. Qed.

Lemma single_call j c s : do_calls (coordinate j c) [s] = (s' <- effect j c s ;; Some [s']).
Proof.
  assert (T : forall t, do_calls [SetTargets 0 [t]] [s] = (s' <- slot_set_target t s ;; Some [s'])).
  { intros t. cbn [do_calls do_call]. rewrite set_targets_cons. unfold modify. cbn [getz Z.ltb Z.compare nth_error Z.to_nat]. destruct (slot_set_target t s) as [s'|]; reflexivity. }
  assert (P : forall sp p, do_calls [SetSplines 0 [sp] p] [s] = (s' <- set_spline sp p s ;; Some [s'])).
  { intros sp p. cbn [do_calls do_call length]. rewrite set_spline_modify. unfold modify. cbn [getz Z.ltb Z.compare nth_error Z.to_nat]. destruct (set_spline sp p s) as [s'|]; reflexivity. }
  destruct c; cbn [coordinate effect]; unfold own, within;
    try (destruct ((index <=? j) && (j <? index + Z.of_nat dimensions)); [|reflexivity]; cbn [do_calls do_call];
         unfold set_y_ranges, clear_splines, set_xs, set_playback_rates, set_repeating; rewrite single_modify).
  - reflexivity.
  - reflexivity.
  - destruct (getz targets (j - index)); [apply T|reflexivity].
  - destruct (getz splines (j - index)); [apply P|reflexivity].
  - destruct (getz splines (j - index)) as [[sp|]|]; [apply P| |reflexivity]. destruct (getz targets (j - index)); [apply T|reflexivity].
  - destruct (init_cubic s (IZR time)); reflexivity.
  - reflexivity.
  - reflexivity.
  - cbn [do_calls do_call]. rewrite advance_frame_slots. cbn. destruct (advance_slot delta s); reflexivity.
Qed.

Lemma getz_tl {A} (a : A) l k : k <> 0 -> getz (a :: l) k = getz l (k - 1).
Proof.
  intros N. destruct (Z.ltb_spec k 0).
  - rewrite !getz_None; [reflexivity| |]; lia.
  - change (a :: l) with ([a] ++ l). rewrite getz_app2 by (cbn; lia). f_equal.
Qed.
Lemma set_targets_getz : forall ts ev i ev', set_targets ev i ts = Some ev' ->
  len ev' = len ev /\ forall j, getz ev' j = (s <- getz ev j ;; match getz ts (j - i) with Some t => slot_set_target t s | None => Some s end).
Proof.
  induction ts as [|t ts IH]; intros ev i ev' E.
  - cbn in E. injection E as <-. split; [reflexivity|]. intros j. rewrite (getz_None (@nil (list mnode))) by (cbn; lia). destruct (getz ev j); reflexivity.
  - rewrite set_targets_cons in E. destruct (modify ev i _) as [ev1|] eqn:M; [|discriminate]. destruct (modify_getz _ _ _ _ M) as (L1 & _ & G1).
    destruct (IH _ _ _ E) as (L & G). split; [lia|]. intros j. rewrite G, G1. destruct (Z.eqb_spec j i) as [->|N].
    + replace (i - i) with 0 by lia. rewrite (getz_None ts) by lia. cbn. destruct (getz ev i); [|reflexivity]. destruct (slot_set_target t s); reflexivity.
    + rewrite (getz_tl t ts) by lia. replace (j - (i + 1)) with (j - i - 1) by lia. reflexivity.
Qed.
Definition one_of (o : option spline) (p : playback) (t : list mnode) : slot -> option slot :=
  match o with Some sp => set_spline sp p | None => slot_set_target t end.
Lemma both_cons ev i o l p t ts : set_splines_and_targets ev i (o :: l) p (t :: ts) = (ev' <- modify ev i (one_of o p t) ;; set_splines_and_targets ev' (i + 1) l p ts).
Proof.
  destruct o as [sp|]; cbn [set_splines_and_targets one_of].
  - rewrite set_spline_modify. reflexivity.
  - rewrite <- set_target_modify. destruct (set_target ev i new_local t); reflexivity.
Qed.
Lemma both_getz p : forall l ts ev i ev', set_splines_and_targets ev i l p ts = Some ev' ->
  len ev' = len ev /\ len l <= len ts /\ forall j, getz ev' j = (s <- getz ev j ;; effect j (SetSplinesAndTargets i l p ts) s).
Proof.
  induction l as [|o l IH]; intros ts ev i ev' E.
  - cbn in E. injection E as <-. split; [reflexivity|]. split; [apply len_nonneg|]. intros j. cbn [effect]. rewrite (getz_None (@nil (option spline))) by (cbn; lia). destruct (getz ev j); reflexivity.
  - destruct ts as [|t ts]; [destruct o; discriminate E|]. rewrite both_cons in E. destruct (modify ev i _) as [ev1|] eqn:M; [|discriminate]. destruct (modify_getz _ _ _ _ M) as (L1 & _ & G1).
    destruct (IH _ _ _ _ E) as (L & LL & G). split; [lia|]. split; [rewrite !len_cons; lia|]. intros j. rewrite G, G1. cbn [effect]. destruct (Z.eqb_spec j i) as [->|N].
    + replace (i - i) with 0 by lia. rewrite (getz_None l) by lia. cbn. destruct (getz ev i) as [s|]; [|reflexivity]. destruct o; cbn; [destruct (set_spline s0 p s)|destruct (slot_set_target t s)]; reflexivity.
    + rewrite (getz_tl t ts), (getz_tl o l) by lia. replace (j - (i + 1)) with (j - i - 1) by lia. reflexivity.
Qed.

Lemma call_getz c ev ev' : do_call c ev = Some ev' -> len ev' = len ev /\ forall j, getz ev' j = (s <- getz ev j ;; effect j c s).
Proof.
  assert (MR : forall i n f ev', modify_range ev i n f = Some ev' -> len ev' = len ev /\ forall j, getz ev' j = (s <- getz ev j ;; within i n j f s)).
  { intros i n f e E. destruct (modify_range_getz _ _ _ _ _ E) as (L & _ & G). split; [exact L|]. intros j. rewrite G. unfold within.
    destruct ((i <=? j) && (j <? i + Z.of_nat n)); destruct (getz ev j); reflexivity. }
  intros E. destruct c; cbn [do_call effect] in *.
  - apply MR. exact E.
  - apply MR. exact E.
  - apply set_targets_getz. exact E.
  - cbn [EvaluatorModel.set_splines] in E. destruct (set_each_getz _ _ _ _ _ _ E) as (L & G). split; [exact L|]. intros j. rewrite G. destruct (getz ev j) as [s|] eqn:J.
    + destruct ((index <=? j) && (j <? index + Z.of_nat (length splines))) eqn:B.
      * destruct (getz_in_range splines (j - index)) as [sp GS]; [unfold len; lia|]. rewrite GS. reflexivity.
      * rewrite (getz_None splines) by (unfold len; lia). reflexivity.
    + destruct ((index <=? j) && _); reflexivity.
  - destruct (both_getz _ _ _ _ _ _ E) as (L & _ & G). split; [exact L|exact G].
  - apply MR. exact E.
  - apply MR. exact E.
  - apply MR. exact E.
  - apply advance_frame_getz. exact E.
Qed.
Lemma calls_app l : forall m ev, do_calls (l ++ m) ev = (ev' <- do_calls l ev ;; do_calls m ev').
Proof. induction l as [|c l IH]; intros m ev; [reflexivity|]. cbn [app do_calls]. destruct (do_call c ev); [apply IH|reflexivity]. Qed.

(** ** C109 *)
(** Any sequence of calls about any motivators leaves each index in the state that a
    motivator of one dimension reaches with the calls' coordinates for that index. *)
Theorem C109_coordinates : forall l ev ev' j s, do_calls l ev = Some ev' -> getz ev j = Some s ->
  len ev' = len ev /\ exists s', do_calls (flat_map (coordinate j) l) [s] = Some [s'] /\ getz ev' j = Some s'.
Proof.
  induction l as [|c l IH]; intros ev ev' j s E G.
  - cbn in E. injection E as <-. split; [reflexivity|]. exists s. auto.
  - cbn [do_calls] in E. destruct (do_call c ev) as [ev1|] eqn:C; [|discriminate]. destruct (call_getz _ _ _ C) as (L1 & G1). specialize (G1 j). rewrite G in G1.
    destruct (getz_in_range ev1 j) as [s1 G2]; [rewrite L1; eapply getz_Some; exact G|].
    destruct (IH _ _ _ _ E G2) as (L & s' & D & G'). split; [lia|]. exists s'. split; [|exact G'].
    cbn [flat_map]. rewrite calls_app, single_call. rewrite G2 in G1. destruct (effect j c s) as [e|]; [|discriminate G1]. injection G1 as <-. exact D.
Qed.
Print Assumptions C109_coordinates.

(** The calls succeed if the motivators of one dimension do, and the indices exist. *)
Definition fits (n : Z) (c : call) : Prop :=
  let inside i k := 0 <= i /\ i + k <= n in
  match c with
  | Initialize i k _ | Remove i k | SetSplineTime i k _ | SetSplinePlaybackRate i k _ | SetSplineRepeating i k _ => inside i (Z.of_nat k)
  | SetTargets i ts => inside i (len ts)
  | SetSplines i l _ => inside i (len l)
  | SetSplinesAndTargets i l _ ts => inside i (len l) /\ len l <= len ts
  | AdvanceFrame _ => True
  end.
Lemma modify_some ev i f s s' : getz ev i = Some s -> f s = Some s' -> exists ev', modify ev i f = Some ev'.
Proof. intros G F. unfold modify. rewrite G, F. apply setz_Some. eapply getz_Some; exact G. Qed.
Lemma targets_some : forall ts ev i, 0 <= i -> i + len ts <= len ev -> (forall j s t, getz ev j = Some s -> getz ts (j - i) = Some t -> slot_set_target t s <> None) ->
  exists ev', set_targets ev i ts = Some ev'.
Proof.
  induction ts as [|t ts IH]; intros ev i I L H; [exists ev; reflexivity|]. rewrite len_cons in L. pose proof (len_nonneg ts). rewrite set_targets_cons.
  destruct (getz_in_range ev i ltac:(lia)) as [s G]. destruct (slot_set_target t s) as [s'|] eqn:T; [|exfalso; apply (H i s t G); [replace (i - i) with 0 by lia; reflexivity|exact T]].
  destruct (modify_some ev i (slot_set_target t) s s' G T) as [ev1 M]. rewrite M. destruct (modify_getz _ _ _ _ M) as (L1 & _ & G1).
  apply IH; [lia|lia|]. intros j s1 t1 J T1. pose proof (getz_Some _ _ _ T1). rewrite G1 in J. destruct (Z.eqb_spec j i); [lia|].
  apply (H j s1 t1 J). rewrite getz_tl by lia. replace (j - i - 1) with (j - (i + 1)) by lia. exact T1.
Qed.
Lemma both_some p : forall l ts ev i, 0 <= i -> i + len l <= len ev -> len l <= len ts -> (forall j s o t, getz ev j = Some s -> getz l (j - i) = Some o -> getz ts (j - i) = Some t -> one_of o p t s <> None) ->
  exists ev', set_splines_and_targets ev i l p ts = Some ev'.
Proof.
  induction l as [|o l IH]; intros ts ev i I L LT H; [exists ev; reflexivity|]. destruct ts as [|t ts]; [rewrite len_cons in LT; pose proof (len_nonneg l); change (len (@nil (list mnode))) with 0 in LT; lia|].
  rewrite len_cons in L. rewrite !len_cons in LT. pose proof (len_nonneg l). rewrite both_cons.
  destruct (getz_in_range ev i ltac:(lia)) as [s G]. destruct (one_of o p t s) as [s'|] eqn:T; [|exfalso; apply (H i s o t G); [replace (i - i) with 0 by lia; reflexivity..|exact T]].
  destruct (modify_some ev i (one_of o p t) s s' G T) as [ev1 M]. rewrite M. destruct (modify_getz _ _ _ _ M) as (L1 & _ & G1).
  apply IH; [lia|lia|lia|]. intros j s1 o1 t1 J O1 T1. pose proof (getz_Some _ _ _ T1). rewrite G1 in J. destruct (Z.eqb_spec j i); [lia|].
  apply (H j s1 o1 t1 J); rewrite getz_tl by lia; replace (j - i - 1) with (j - (i + 1)) by lia; assumption.
Qed.
Lemma call_some c ev : fits (len ev) c -> (forall j s, getz ev j = Some s -> effect j c s <> None) -> exists ev', do_call c ev = Some ev'.
Proof.
  intros F H.
  assert (MR : forall i n f, 0 <= i -> i + Z.of_nat n <= len ev -> (forall j s, getz ev j = Some s -> within i n j f s <> None) -> exists ev', modify_range ev i n f = Some ev').
  { intros i n f I L W. apply modify_range_succeeds; [lia|]. intros j s J G. specialize (W j s G). unfold within in W. replace ((i <=? j) && (j <? i + Z.of_nat n)) with true in W by lia. exact W. }
  destruct c; cbn [do_call effect fits] in *.
  - apply MR; [lia|lia|exact H].
  - apply MR; [lia|lia|exact H].
  - apply targets_some; [lia|lia|]. intros j s t G T. specialize (H j s G). rewrite T in H. exact H.
  - cbn [EvaluatorModel.set_splines]. apply set_each_succeeds; [unfold len in *; lia|unfold len; lia|]. intros j s sp J G S. specialize (H j s G). rewrite S in H. exact H.
  - apply both_some; [lia|lia|lia|]. intros j s o t G O T. specialize (H j s G). rewrite O, T in H. destruct o; exact H.
  - apply MR; [lia|lia|exact H].
  - apply MR; [lia|lia|exact H].
  - apply MR; [lia|lia|exact H].
  - rewrite advance_frame_slots. apply all_some_all. intros o I. apply in_map_iff in I. destruct I as (s & <- & I). apply In_nth_error in I. destruct I as [k K].
    apply (H (Z.of_nat k) s). unfold getz. replace (Z.of_nat k <? 0) with false by lia. rewrite Nat2Z.id. exact K.
Qed.
Theorem C109_succeeds : forall l ev, Forall (fits (len ev)) l -> (forall j s, getz ev j = Some s -> do_calls (flat_map (coordinate j) l) [s] <> None) ->
  exists ev', do_calls l ev = Some ev'.
Proof.
  induction l as [|c l IH]; intros ev F H; [exists ev; reflexivity|]. apply Forall_cons_iff in F. destruct F as [F FL]. cbn [do_calls].
  assert (H' : forall j s, getz ev j = Some s -> exists s1, effect j c s = Some s1 /\ do_calls (flat_map (coordinate j) l) [s1] <> None).
  { intros j s G. specialize (H j s G). cbn [flat_map] in H. rewrite calls_app, single_call in H. destruct (effect j c s) as [s1|]; [eauto|]. exfalso. apply H. reflexivity. }
  destruct (call_some c ev F) as [ev1 C]; [intros j s G E; destruct (H' j s G) as (s1 & E1 & _); congruence|]. rewrite C. destruct (call_getz _ _ _ C) as (L1 & G1).
  apply IH; [rewrite L1; exact FL|]. intros j s1 J. rewrite G1 in J. destruct (getz ev j) as [s|] eqn:G; [|discriminate J]. destruct (H' j s G) as (s2 & E2 & D). rewrite E2 in J. injection J as <-. exact D.
Qed.
Print Assumptions C109_succeeds.

(** A motivator of [n] dimensions shows the vector of what motivators of one dimension
    show in the states of its coordinates. *)
Lemma collect_all (f : slot -> option R) : forall n ev i vs, len vs = Z.of_nat n -> (forall k, 0 <= k < Z.of_nat n -> exists s, getz ev (i + k) = Some s /\ f s = getz vs k) -> collect f ev i n = Some vs.
Proof.
  induction n as [|n IH]; intros ev i vs L H.
  - apply len_zero in L. subst vs. reflexivity.
  - destruct vs as [|v vs]; [change (len (@nil R)) with 0 in L; lia|]. rewrite len_cons in L. cbn [collect]. destruct (H 0 ltac:(lia)) as (s & G & F). rewrite Z.add_0_r in G. rewrite G, F. cbn [getz Z.ltb Z.compare nth_error Z.to_nat].
    rewrite (IH ev (i + 1) vs); [reflexivity|lia|]. intros k K. destruct (H (k + 1) ltac:(lia)) as (s' & G' & F'). exists s'. replace (i + 1 + k) with (i + (k + 1)) by lia. split; [exact G'|].
    rewrite F', getz_tl by lia. f_equal. lia.
Qed.
Lemma collect_one (f : slot -> option R) s : collect f [s] 0 1 = (v <- f s ;; Some [v]).
Proof. cbn. destruct (f s); reflexivity. Qed.
Lemma valid_one s : ends_valid [s] 0 1 = match source s with Some _ => true | None => false end.
Proof. unfold ends_valid, valid_index. cbn. destruct (source s); reflexivity. Qed.
Theorem C109_shown : forall q n ev i vs, In q queries -> (0 < n)%nat -> len vs = Z.of_nat n ->
  (forall k, 0 <= k < Z.of_nat n -> exists s v, getz ev (i + k) = Some s /\ getz vs k = Some v /\ q [s] 0 1%nat = Some [v]) -> q ev i n = Some vs.
Proof.
  intros q n ev i vs Q N L H.
  assert (V : (forall k, 0 <= k < Z.of_nat n -> exists s, getz ev (i + k) = Some s /\ ends_valid [s] 0 1 = true) -> ends_valid ev i n = true).
  { intros A. destruct (A 0 ltac:(lia)) as (s & G & E). destruct (A (Z.of_nat n - 1) ltac:(lia)) as (s' & G' & E'). rewrite valid_one in E, E'. rewrite Z.add_0_r in G.
    unfold ends_valid, valid_index. rewrite G. replace (i + Z.of_nat n - 1) with (i + (Z.of_nat n - 1)) by lia. rewrite G', E, E'. reflexivity. }
  assert (P : forall f : slot -> option R, (forall k, 0 <= k < Z.of_nat n -> exists s v, getz ev (i + k) = Some s /\ getz vs k = Some v /\ (assert ends_valid [s] 0 1 ;; collect f [s] 0 1) = Some [v]) ->
    (assert ends_valid ev i n ;; collect f ev i n) = Some vs).
  { intros f A. rewrite V.
    - apply collect_all; [exact L|]. intros k K. destruct (A k K) as (s & v & G & G' & E). exists s. split; [exact G|]. rewrite G'. destruct (ends_valid [s] 0 1); [|discriminate E]. rewrite collect_one in E. destruct (f s); [congruence|discriminate].
    - intros k K. destruct (A k K) as (s & v & G & _ & E). exists s. split; [exact G|]. destruct (ends_valid [s] 0 1); [reflexivity|discriminate E]. }
  repeat (destruct Q as [<-|Q]); [| | | | | |destruct Q]; try (apply P; exact H).
  apply collect_all; [exact L|]. intros k K. destruct (H k K) as (s & v & G & G' & E). exists s. split; [exact G|]. rewrite G'. unfold value in E. rewrite collect_one in E. cbn in *. congruence.
Qed.
Print Assumptions C109_shown.

(** So a motivator of several dimensions is as many motivators of one dimension, however
    many other motivators there are. *)
Theorem C109_vector : forall q l ev ev' i n states vs, In q queries -> (0 < n)%nat -> do_calls l ev = Some ev' -> len states = Z.of_nat n -> len vs = Z.of_nat n ->
  (forall k, 0 <= k < Z.of_nat n -> getz ev (i + k) = getz states k) ->
  (forall k s, getz states k = Some s -> exists e v, do_calls (flat_map (coordinate (i + k)) l) [s] = Some e /\ q e 0 1%nat = Some [v] /\ getz vs k = Some v) ->
  q ev' i n = Some vs.
Proof.
  intros q l ev ev' i n states vs Q N D LS LV S H. apply C109_shown; auto. intros k K. destruct (getz_in_range states k ltac:(lia)) as [s G].
  destruct (H k s G) as (e & v & E & W & GV). destruct (C109_coordinates l ev ev' (i + k) s D) as (_ & s' & E' & G'); [rewrite S by exact K; exact G|].
  rewrite E' in E. injection E as <-. eauto.
Qed.
Print Assumptions C109_vector.

(** A motivator of one dimension and one of two, given a spline and targets; then frames
    for splines of two motivators. *)
From Verif Require Import MatrixModel EvaluatorPlay EvaluatorProps EvaluatorOpProps PlayProps.
Example C109_case : exists ev',
  do_calls [SetTargets 1 [current1f 1 0; current1f 2 3]; SetSplines 0 [ones] (playback_from 0); SetSplinePlaybackRate 0 3 2] (set_num_indices [] 3) = Some ev'.
Proof.
  apply C109_succeeds.
  - change (len (set_num_indices [] 3)) with 3. repeat (apply Forall_cons || apply Forall_nil); unfold fits, len; cbn [length Z.of_nat Pos.of_succ_nat Pos.succ]; lia.
  - assert (D : forall v d, slot_set_target (current1f v d) slot_default <> None) by (intros v d; destruct (current_succeeds range_default v d) as [s1 E]; [left; unfold valid, range_default; cbn [start_ end_]; apply Rleb_f; lra|change (slot_set_y_range range_default slot_default) with slot_default in E; rewrite E; discriminate]).
    intros j s G. pose proof (getz_Some _ _ _ G) as J. change (len (set_num_indices [] 3)) with 3 in J.
    assert (s = slot_default) as -> by (assert (j = 0 \/ j = 1 \/ j = 2) as [-> | [-> | ->]] by lia; assert (Some slot_default = Some s) by exact G; congruence).
    assert (j = 0 \/ j = 1 \/ j = 2) as [-> | [-> | ->]] by lia; cbn [flat_map]; rewrite !calls_app, !single_call; unfold effect, within.
    + change (getz [current1f 1 0; current1f 2 3] (0 - 1)) with (@None (list mnode)). cbv iota. rewrite calls_app, single_call. unfold effect. change (getz [ones] (0 - 0)) with (Some ones). cbv iota.
      destruct (set_spline_jump slot_default ones (playback_from 0)) as (s2 & x & E2 & _); [split; [apply ones_ok|split; [intros; discriminate|cbn; lra]]|left; reflexivity|]. rewrite E2. discriminate.
    + change (getz [current1f 1 0; current1f 2 3] (1 - 1)) with (Some (current1f 1 0)). cbv iota. destruct (slot_set_target (current1f 1 0) slot_default) eqn:E; [discriminate|exfalso; exact (D _ _ E)].
    + change (getz [current1f 1 0; current1f 2 3] (2 - 1)) with (Some (current1f 2 3)). cbv iota. destruct (slot_set_target (current1f 2 3) slot_default) eqn:E; [discriminate|exfalso; exact (D _ _ E)].
Qed.
Example C109_case_frames : exists ev', do_calls [SetSplines 0 [ones; ones] (Playback (1/4) 0 1 0 1 false); AdvanceFrame 1] (set_num_indices [] 2) = Some ev'.
Proof.
  destruct (C37_no_failure (set_num_indices [] 2) [ones; ones] (Playback (1/4) 0 1 0 1 false) [1%R] eq_refl) as (ev1 & ev1' & E1 & A).
  { repeat (apply Forall_cons || apply Forall_nil); (split; [apply ones_start|]); repeat constructor; cbn; lra. }
  { repeat constructor. }
  exists ev1'. cbn [do_calls do_call]. change (length [ones; ones]) with 2%nat in *. rewrite E1. exact A.
Qed.

(** What a vector motivator shows while it plays splines: coordinate [k] is at some [x] on
    its spline; Value is the value there, Direction the slope and Velocity the slope times
    the playback rate. *)
Lemma shows_all (f : slot -> R) : forall n ev i, (forall k, 0 <= k < Z.of_nat n -> exists s, getz ev (i + k) = Some s) ->
  exists l, collect (fun s => Some (f s)) ev i n = Some l /\ len l = Z.of_nat n /\
    forall k s, 0 <= k < Z.of_nat n -> getz ev (i + k) = Some s -> getz l k = Some (f s).
Proof.
  induction n as [|n IH]; intros ev i H.
  - exists []. split; [reflexivity|]. split; [reflexivity|]. intros. lia.
  - destruct (H 0 ltac:(lia)) as [s0 G0]. rewrite Z.add_0_r in G0. destruct (IH ev (i + 1)) as (l & E & L & G).
    { intros k K. destruct (H (k + 1) ltac:(lia)) as [s S]. exists s. replace (i + 1 + k) with (i + (k + 1)) by lia. exact S. }
    exists (f s0 :: l). cbn [collect]. rewrite G0, E. split; [reflexivity|]. split; [rewrite len_cons; lia|].
    intros k s K S. destruct (Z.eq_dec k 0) as [->|N].
    + rewrite Z.add_0_r in S. change (getz (f s0 :: l) 0) with (Some (f s0)). congruence.
    + rewrite getz_tl by lia. apply G; [lia|]. replace (i + 1 + (k - 1)) with (i + k) by lia. exact S.
Qed.
Lemma calls_frames : forall deltas ev, do_calls (map AdvanceFrame deltas) ev = advance_frames ev deltas.
Proof. induction deltas as [|d l IH]; intros ev; [reflexivity|]. cbn [map do_calls do_call advance_frames]. destruct (advance_frame d ev); [apply IH|reflexivity]. Qed.
Theorem C109_plays : forall ev i l p deltas ev', do_calls (SetSplines i l p :: map AdvanceFrame deltas) ev = Some ev' -> l <> [] ->
  Forall (fun sp => start_ok sp p /\ Forall (fun d => small_step sp (d * playback_rate p)) deltas) l ->
  (forall k s, 0 <= k < len l -> getz ev (i + k) = Some s -> source s = None \/ (blend_x p <= 0)%R) ->
  exists values velocities directions,
    value ev' i (length l) = Some values /\ velocity ev' i (length l) = Some velocities /\ direction ev' i (length l) = Some directions /\
    forall k sp, getz l k = Some sp -> exists x v d, spline_at sp x v d /\
      wrapped sp (repeat_ p) (start_at p + sum (map (fun d => d * playback_rate p) deltas))%R x /\
      getz values k = Some (y_scale p * v + y_offset p)%R /\ getz directions k = Some (y_scale p * d)%R /\
      getz velocities k = Some (playback_rate p * (y_scale p * d))%R.
Proof.
  intros ev i l p deltas ev' E NE F J. cbn [do_calls do_call] in E. destruct (EvaluatorModel.set_splines ev i (length l) (Some l) p) as [ev1|] eqn:E1; [|discriminate].
  rewrite calls_frames in E. rewrite Forall_forall in F.
  assert (P : forall k sp, getz l k = Some sp -> exists s x, getz ev' (i + k) = Some s /\ plays s sp p x /\
    wrapped sp (repeat_ p) (start_at p + sum (map (fun d => d * playback_rate p) deltas))%R x).
  { intros k sp K. assert (IN : In sp l) by (apply getz_split in K; destruct K as (a & b & -> & _); apply in_elt).
    destruct (F sp IN) as [OK SM]. apply (C37_tracks ev i l p ev1 deltas ev' k sp E1 E K OK SM). intros s S. exact (J k s (getz_Some _ _ _ K) S). }
  assert (G : forall k, 0 <= k < Z.of_nat (length l) -> exists s, getz ev' (i + k) = Some s /\ source s <> None).
  { intros k K. destruct (getz_in_range l k K) as [sp S]. destruct (P k sp S) as (s & x & GS & (SO & _) & _). exists s. split; [exact GS|congruence]. }
  assert (G' : forall k, 0 <= k < Z.of_nat (length l) -> exists s, getz ev' (i + k) = Some s) by (intros k K; destruct (G k K) as (s & S & _); eauto).
  assert (V : ends_valid ev' i (length l) = true).
  { assert (N : (0 < length l)%nat) by (destruct l; [easy|cbn; lia]).
    destruct (G 0 ltac:(lia)) as (s & S & SS). destruct (G (Z.of_nat (length l) - 1) ltac:(lia)) as (s' & S' & SS').
    unfold ends_valid, valid_index. rewrite Z.add_0_r in S. replace (i + Z.of_nat (length l) - 1) with (i + (Z.of_nat (length l) - 1)) by lia.
    rewrite S, S'. destruct (source s), (source s'); easy. }
  destruct (shows_all cur_y (length l) ev' i G') as (vs & EV & _ & GV).
  destruct (shows_all slot_derivative (length l) ev' i G') as (ws & EW & _ & GW).
  destruct (shows_all slot_derivative_without_playback (length l) ev' i G') as (us & EU & _ & GU).
  exists vs, ws, us. unfold value, velocity, direction. rewrite V. split; [exact EV|]. split; [exact EW|]. split; [exact EU|].
  intros k sp K. destruct (P k sp K) as (s & x & S & (_ & _ & v & d & SA & CY & DW & DP) & W). pose proof (getz_Some _ _ _ K) as KR.
  exists x, v, d. rewrite (GV k s KR S), (GU k s KR S), (GW k s KR S), CY, DW, DP. auto.
Qed.
Print Assumptions C109_plays.
