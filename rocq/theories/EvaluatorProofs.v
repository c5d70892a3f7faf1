(** Lemmas about the evaluator: one index at a time. *)
From Verif Require Import RBase BaseFacts RangeModel RangeProofs CurveModel CurveProofs CompactSplineModel CompactSplineSpec CompactSplineProofs CompactSplineIndex CompactSplineEvalProps EvaluatorModel EvaluatorSpec.
From Coq Require Import Sorting.Sorted.

Lemma all_some_getz {A} : forall (l : list (option A)) r, all_some l = Some r -> len r = len l /\ forall i x, getz r i = Some x <-> getz l i = Some (Some x).
Proof.
  induction l as [|o l IH]; intros r E.
  - cbn in E. injection E as <-. split; [reflexivity|]. intros i x. rewrite !getz_None by (cbn; lia). split; discriminate.
  - cbn in E. destruct o as [a|]; [|discriminate]. destruct (all_some l) as [r'|] eqn:R; [|discriminate]. injection E as <-.
    destruct (IH r' eq_refl) as [L G]. split; [rewrite !len_cons, L; reflexivity|]. intros i x.
    destruct (Z.ltb_spec i 0); [rewrite !getz_None by lia; split; discriminate|].
    destruct (Z.eq_dec i 0) as [->|N]; [cbn; split; congruence|].
    change (a :: r') with ([a] ++ r'). change (Some a :: l) with ([Some a] ++ l). rewrite !getz_app2 by (cbn; lia). apply G.
Qed.
Lemma all_some_all {A} : forall (l : list (option A)), (forall o, In o l -> o <> None) -> exists r, all_some l = Some r.
Proof.
  induction l as [|o l IH]; intros H; [exists []; reflexivity|]. destruct o as [a|]; [|exfalso; apply (H None); cbn; auto].
  destruct IH as [r R]; [intros o I; apply H; cbn; auto|]. exists (a :: r). cbn. now rewrite R.
Qed.
Lemma all_some_map_getz {A B} (f : A -> option B) l r : all_some (map f l) = Some r ->
  forall i, getz r i = (x <- getz l i ;; f x).
Proof.
  revert r. induction l as [|a l IH]; intros r E i.
  - cbn in E. injection E as <-. rewrite !getz_None by (cbn; lia). reflexivity.
  - cbn in E. destruct (f a) as [b|] eqn:F; [|discriminate]. destruct (all_some (map f l)) as [r'|] eqn:R; [|discriminate]. injection E as <-.
    destruct (Z.ltb_spec i 0); [rewrite !getz_None by lia; reflexivity|].
    destruct (Z.eq_dec i 0) as [->|N]; [cbn; congruence|].
    change (b :: r') with ([b] ++ r'). change (a :: l) with ([a] ++ l). rewrite !getz_app2 by (cbn; lia). now apply IH.
Qed.

Lemma reinit_ok delta : forall ev P,
  reinit (P ++ fst (update_one_step delta (len P) ev)) (snd (update_one_step delta (len P) ev)) =
  (r <- all_some (map (fun s => if past_end (step_x delta s) then reinit_slot (step_x delta s) else Some (step_x delta s)) ev) ;; Some (P ++ r)).
Proof.
  induction ev as [|s ev IH]; intros P; [reflexivity|]. cbn [update_one_step].
  assert (L : forall t, (len P + 1)%Z = len (P ++ [t])) by (intros t; rewrite len_app; cbn; lia).
  destruct (update_one_step delta (len P + 1) ev) as [rest l] eqn:U. cbn [fst snd map all_some].
  assert (IH' : forall t, reinit (P ++ t :: rest) l = (r <- all_some (map (fun s => if past_end (step_x delta s) then reinit_slot (step_x delta s) else Some (step_x delta s)) ev) ;; Some (P ++ t :: r))).
  { intros t. specialize (IH (P ++ [t])). rewrite <- (L t), U in IH. cbn [fst snd] in IH. rewrite <- app_assoc in IH. cbn [app] in IH. rewrite IH.
    destruct (all_some _); [|reflexivity]. rewrite <- app_assoc. reflexivity. }
  destruct (past_end (step_x delta s)).
  - cbn [reinit]. unfold modify. rewrite getz_app by reflexivity. destruct (reinit_slot (step_x delta s)) as [t|]; [|reflexivity].
    rewrite setz_app by reflexivity. rewrite IH'. destruct (all_some _); reflexivity.
  - rewrite IH'. destruct (all_some _); reflexivity.
Qed.

(** Advancing the evaluator is advancing every index on its own. *)
Lemma advance_frame_slots delta ev : advance_frame delta ev = all_some (map (advance_slot delta) ev).
Proof.
  unfold advance_frame. pose proof (reinit_ok delta ev []) as H. cbn [len length Z.of_nat app] in H.
  change (len []) with 0%Z in H. destruct (update_one_step delta 0 ev) as [ev1 l]. cbn [fst snd] in H. cbn [app] in H. rewrite H. clear H.
  induction ev as [|s ev IH]; [reflexivity|]. cbn [map all_some]. unfold advance_slot at 1. cbv zeta.
  destruct (if past_end (step_x delta s) then reinit_slot (step_x delta s) else Some (step_x delta s)) as [t|]; [|reflexivity].
  destruct (all_some (map _ ev)) as [r|]; cbn [map] in *; rewrite <- IH; reflexivity.
Qed.

Lemma advance_frame_getz delta ev ev' : advance_frame delta ev = Some ev' ->
  len ev' = len ev /\ forall i, getz ev' i = (s <- getz ev i ;; advance_slot delta s).
Proof.
  rewrite advance_frame_slots. intros E. split; [|apply all_some_map_getz; exact E].
  apply all_some_getz in E. destruct E as [L _]. rewrite L. apply len_map.
Qed.

(** Loops over a range of indices. *)
Lemma modify_getz ev i f ev' : modify ev i f = Some ev' ->
  len ev' = len ev /\ (0 <= i < len ev)%Z /\ forall j, getz ev' j = if (j =? i)%Z then (s <- getz ev j ;; f s) else getz ev j.
Proof.
  unfold modify. destruct (getz ev i) as [s|] eqn:G; [|discriminate]. destruct (f s) as [s'|] eqn:F; [|discriminate]. intros S.
  split; [eapply setz_len; eauto|]. split; [eapply getz_Some; eauto|]. intros j. destruct (Z.eqb_spec j i) as [->|N].
  - rewrite G, F. eapply getz_setz_eq; eauto.
  - eapply getz_setz_neq; eauto.
Qed.
Lemma modify_range_getz f : forall count ev i ev', modify_range ev i count f = Some ev' ->
  len ev' = len ev /\ (count <> O -> 0 <= i /\ i + Z.of_nat count <= len ev)%Z /\
  forall j, getz ev' j = if ((i <=? j) && (j <? i + Z.of_nat count))%Z then (s <- getz ev j ;; f s) else getz ev j.
Proof.
  induction count as [|n IH]; intros ev i ev' E; cbn [modify_range] in E.
  - injection E as <-. split; [reflexivity|]. split; [congruence|]. intros j. replace ((i <=? j) && (j <? i + Z.of_nat 0))%Z with false by lia. reflexivity.
  - destruct (modify ev i f) as [ev1|] eqn:M; [|discriminate]. destruct (modify_getz _ _ _ _ M) as (L1 & R1 & G1).
    destruct (IH _ _ _ E) as (L2 & R2 & G2). split; [lia|]. split.
    { intros _. destruct n; [lia|]. specialize (R2 ltac:(congruence)). lia. }
    intros j. rewrite G2, G1. destruct (Z.eqb_spec j i) as [->|N].
    + replace ((i + 1 <=? i) && (i <? i + 1 + Z.of_nat n))%Z with false by lia. replace ((i <=? i) && (i <? i + Z.of_nat (S n)))%Z with true by lia. reflexivity.
    + destruct ((i + 1 <=? j) && (j <? i + 1 + Z.of_nat n))%Z eqn:B.
      * replace ((i <=? j) && (j <? i + Z.of_nat (S n)))%Z with true by lia. reflexivity.
      * replace ((i <=? j) && (j <? i + Z.of_nat (S n)))%Z with false by lia. reflexivity.
Qed.
Lemma modify_range_succeeds f : forall count ev i, (count <> O -> 0 <= i /\ i + Z.of_nat count <= len ev)%Z ->
  (forall j s, (i <= j < i + Z.of_nat count)%Z -> getz ev j = Some s -> f s <> None) -> exists ev', modify_range ev i count f = Some ev'.
Proof.
  induction count as [|n IH]; intros ev i R H; [exists ev; reflexivity|]. cbn [modify_range].
  destruct (getz_in_range ev i ltac:(lia)) as [s G]. destruct (f s) as [s'|] eqn:F; [|exfalso; apply (H i s); [lia|auto|auto]].
  destruct (setz_Some ev i s' ltac:(lia)) as [ev1 S]. assert (M : modify ev i f = Some ev1) by (unfold modify; now rewrite G, F). rewrite M.
  destruct (modify_getz _ _ _ _ M) as (L1 & R1 & G1). apply IH.
  - intros N. lia.
  - intros j t J GJ. rewrite G1 in GJ. replace (j =? i)%Z with false in GJ by lia. apply (H j t); [lia|exact GJ].
Qed.
Lemma set_each_getz p : forall count ev i l ev', set_each_spline ev i count l p = Some ev' ->
  len ev' = len ev /\
  forall j, getz ev' j = if ((i <=? j) && (j <? i + Z.of_nat count))%Z then (s <- getz ev j ;; sp <- getz l (j - i) ;; set_spline sp p s) else getz ev j.
Proof.
  induction count as [|n IH]; intros ev i l ev' E; cbn [set_each_spline] in E.
  - injection E as <-. split; [reflexivity|]. intros j. replace ((i <=? j) && (j <? i + Z.of_nat 0))%Z with false by lia. reflexivity.
  - destruct l as [|sp l]; [discriminate|]. destruct (modify ev i (set_spline sp p)) as [ev1|] eqn:M; [|discriminate].
    destruct (modify_getz _ _ _ _ M) as (L1 & R1 & G1). destruct (IH _ _ _ _ E) as (L2 & G2). split; [lia|].
    intros j. rewrite G2, G1. destruct (Z.eqb_spec j i) as [->|N].
    + replace ((i + 1 <=? i) && (i <? i + 1 + Z.of_nat n))%Z with false by lia. replace ((i <=? i) && (i <? i + Z.of_nat (S n)))%Z with true by lia.
      replace (i - i)%Z with 0%Z by lia. cbn [getz nth_error Z.ltb Z.compare Z.to_nat]. destruct (getz ev i); reflexivity.
    + destruct ((i + 1 <=? j) && (j <? i + 1 + Z.of_nat n))%Z eqn:B.
      * replace ((i <=? j) && (j <? i + Z.of_nat (S n)))%Z with true by lia. change (sp :: l) with ([sp] ++ l). rewrite (getz_app2 [sp] l) by (cbn; lia).
        replace (j - i - len [sp])%Z with (j - (i + 1))%Z by (cbn; lia). reflexivity.
      * replace ((i <=? j) && (j <? i + Z.of_nat (S n)))%Z with false by lia. reflexivity.
Qed.
Lemma set_each_succeeds p : forall count ev i l, (0 <= i /\ i + Z.of_nat count <= len ev)%Z -> (Z.of_nat count <= len l)%Z ->
  (forall j s sp, (i <= j < i + Z.of_nat count)%Z -> getz ev j = Some s -> getz l (j - i) = Some sp -> set_spline sp p s <> None) ->
  exists ev', set_each_spline ev i count l p = Some ev'.
Proof.
  induction count as [|n IH]; intros ev i l R LL H; [exists ev; reflexivity|]. cbn [set_each_spline].
  destruct l as [|sp l]; [cbn in LL; lia|]. destruct (getz_in_range ev i ltac:(lia)) as [s G].
  destruct (set_spline sp p s) as [s'|] eqn:F; [|exfalso; apply (H i s sp); [lia|auto|replace (i - i)%Z with 0%Z by lia; reflexivity|auto]].
  destruct (setz_Some ev i s' ltac:(lia)) as [ev1 S]. assert (M : modify ev i (set_spline sp p) = Some ev1) by (unfold modify; now rewrite G, F). rewrite M.
  destruct (modify_getz _ _ _ _ M) as (L1 & R1 & G1). rewrite len_cons in LL. apply IH; [lia|lia|].
  intros j t sp' J GJ GL. rewrite G1 in GJ. replace (j =? i)%Z with false in GJ by lia. apply (H j t sp'); [lia|exact GJ|].
  change (sp :: l) with ([sp] ++ l). rewrite getz_app2 by (cbn; lia). replace (j - i - len [sp])%Z with (j - (i + 1))%Z by (cbn; lia). exact GL.
Qed.
