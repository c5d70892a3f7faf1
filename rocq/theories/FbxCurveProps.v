(** Constant channels of FBX nodes (C96) and the curves that drive the others (C97). *)
From Verif Require Import RBase BaseFacts MathfuModel CurveModel MatrixModel MatrixProps RigModel AnimDataModel AnimSpec AnimCurveProps AnimPruneProps AnimChannelsModel AnimSumProps AnimChannelsProps FbxModel FbxProps.
From Coq Require Import Sorting.Sorted.
Local Open Scope Z_scope.

(** ** Constant channels *)
(** A slope, per second, is no steeper than [angle]. *)
Definition flat_slope (op : mtype) (inverse : bool) (angle d : R) : Prop := (Rabs (atan (flat_value op inverse (d / 1000))) <= angle)%R.
Definition all_but_last {A} (P : A -> Prop) (l : list A) : Prop := forall X x y Y, l = X ++ x :: y :: Y -> P x.
Lemma keys_const_spec op inv tol angle first : forall rest k, keys_const op inv tol angle first k rest = true <->
  (forall k', In k' rest -> (Rabs (flat_value op inv (fk_value k') - first) <= tol)%R) /\ all_but_last (fun k => flat_slope op inv angle (fk_left k) /\ flat_slope op inv angle (fk_right k)) (k :: rest).
Proof.
  induction rest as [|k' r IH]; intros k.
  - cbn [keys_const]. split; [|reflexivity]. intros _. split; [intros ? []|]. intros X x y Y E. destruct X as [|? [|? X]]; discriminate.
  - cbn [keys_const]. split.
    + intros H. destruct (_ || _) eqn:E; [discriminate|]. apply Bool.orb_false_elim in E. destruct E as [E E3]. apply Bool.orb_false_elim in E. destruct E as [E1 E2]. apply Rltb_false in E1, E2, E3. apply IH in H. destruct H as [H1 H2]. split.
      * intros q [<-|Q]; [lra|auto].
      * intros X x y Y EE. destruct X as [|z X]; cbn [app] in EE; injection EE as -> EE; [unfold flat_slope, flat_derivative in *; lra|exact (H2 X x y Y EE)].
    + intros [H1 H2]. destruct (H2 [] k k' r eq_refl) as [S1 S2]. unfold flat_slope in S1, S2. unfold flat_derivative. rewrite (Rltb_f _ _ S1), (Rltb_f _ _ S2), (Rltb_f _ _ (H1 k' (or_introl eq_refl))). cbn [orb]. apply IH. split; [intros q Q; apply H1; now right|]. intros X x y Y EE. apply (H2 (k :: X) x y Y). cbn [app]. now rewrite EE.
Qed.
(** The curve that drives a channel of a property, if it has keys. *)
Definition driven (p : fbx_property) (axis : Z) (c : fbx_channel) (k : fbx_key) (rest : list fbx_key) : Prop :=
  exists chs v l r, fp_anim p = Some chs /\ getz chs axis = Some c /\ fh_curve c = Some (FbxCurve (k :: rest) v l r).

(** C96.  A channel that no curve drives is constant. *)
Theorem C96_undriven : forall p op inverse axis tol angle, (forall c k rest, ~ driven p axis c k rest) -> fst (anim_const p op inverse axis tol angle) = true.
Proof.
  intros p op inv axis tol angle H. unfold anim_const. destruct (fp_anim p) as [chs|] eqn:E1; [|reflexivity]. destruct (getz chs axis) as [c|] eqn:E2; [|reflexivity]. destruct (fh_curve c) as [[[|k rest] v l r]|] eqn:E3; try reflexivity.
  exfalso. apply (H c k rest). exists chs, v, l, r. auto.
Qed.
Print Assumptions C96_undriven.
(** A channel that a curve drives is reported as constant exactly if all keys are within the tolerance of the
    first and the slopes of all keys but the last are flat; the value is that of the first key. *)
Theorem C96_driven : forall p op inverse axis tol angle c k rest, (0 <= tol)%R -> driven p axis c k rest ->
  (fst (anim_const p op inverse axis tol angle) = true <->
     (forall k', In k' (k :: rest) -> (Rabs (flat_value op inverse (fk_value k') - flat_value op inverse (fk_value k)) <= tol)%R) /\
     all_but_last (fun k' => flat_slope op inverse angle (fk_left k') /\ flat_slope op inverse angle (fk_right k')) (k :: rest)) /\
  (fst (anim_const p op inverse axis tol angle) = true -> snd (anim_const p op inverse axis tol angle) = flat_value op inverse (fk_value k)).
Proof.
  intros p op inv axis tol angle c k rest T (chs & v & l & r & E1 & E2 & E3). unfold anim_const. rewrite E1, E2, E3. cbv zeta. pose proof (keys_const_spec op inv tol angle (flat_value op inv (fk_value k)) rest k) as K.
  destruct (keys_const _ _ _ _ _ _ _); cbn [fst snd]; (split; [|try reflexivity; intros; discriminate]).
  - split; [|reflexivity]. intros _. destruct (proj1 K eq_refl) as [K1 K2]. split; [|exact K2]. intros k' [<-|Q]; [rewrite Rminus_eq_0, Rabs_R0; exact T|auto].
  - split; [discriminate|]. intros [K1 K2]. apply K. split; [intros; apply K1; now right|exact K2].
Qed.
Print Assumptions C96_driven.

(** C96, that a channel reported as constant stays within the tolerance, is false: the slopes of the last key are
    not looked at.  Of two keys with one value, the first has slope 0; the channel is taken for constant, however
    far the curve swings out before the last key. *)
Definition c96_curve (s : R) : fbx_curve :=
  FbxCurve [FbxKey 0 0 0 0; FbxKey 1000 0 (s * 1000) 0] (fun t => keval (cubic_init 0 0 0 s 1000) (IZR t)) (fun t => 1000 * kderiv (cubic_init 0 0 0 s 1000) (IZR t))%R (fun t => 1000 * kderiv (cubic_init 0 0 0 s 1000) (IZR t))%R.
Definition c96_property (s : R) : fbx_property := FbxProperty (fun _ => 0%R) (Some [FbxChannel 0 (Some (c96_curve s)); FbxChannel 0 None; FbxChannel 0 None]).
Theorem C96_refuted : forall tol angle, (0 <= tol)%R -> (0 <= angle)%R -> exists p c k rest v, driven p 0 c k rest /\ fh_curve c = Some v /\ fc_keys v = k :: rest /\
  (forall key, In key (k :: rest) -> fc_value v (fk_time key) = fk_value key) /\
  anim_const p TranslateX false 0 tol angle = (true, 0%R) /\ exists t, fk_time k < t < fk_time (last rest k) /\ (tol < Rabs (flat_value TranslateX false (fc_value v t)))%R.
Proof.
  intros tol angle T A. set (s := ((tol + 1) / 100)%R). exists (c96_property s), (FbxChannel 0 (Some (c96_curve s))), (FbxKey 0 0 0 0), [FbxKey 1000 0 (s * 1000) 0], (c96_curve s).
  assert (CI : cubic_init 0 0 0 s 1000 = Cubic (s / 1000000) (- s / 1000) 0 0) by (unfold cubic_init; rewrite Rltb_t by lra; cbn; f_equal; field).
  split; [|split; [reflexivity|split; [reflexivity|split; [|split]]]].
  - exists [FbxChannel 0 (Some (c96_curve s)); FbxChannel 0 None; FbxChannel 0 None]. do 3 eexists. split; [reflexivity|]. split; [reflexivity|]. reflexivity.
  - intros key [<-|[<-|[]]]; cbn [c96_curve fc_value fk_time fk_value]; rewrite CI; unfold keval; cbn [k0 k1 k2 k3]; field.
  - unfold anim_const, c96_property. cbn [fp_anim]. change (getz [FbxChannel 0 (Some (c96_curve s)); FbxChannel 0 None; FbxChannel 0 None] 0) with (Some (FbxChannel 0 (Some (c96_curve s)))). cbn [fh_curve c96_curve fk_value]. cbv zeta.
    replace (keys_const _ _ _ _ _ _ _) with true; [reflexivity|]. symmetry. apply keys_const_spec. split.
    + intros k' [<-|[]]. cbn. rabs; lra.
    + intros X x y Y E. destruct X as [|? [|? X]]; [injection E as <- _ _|discriminate|destruct X; discriminate]. cbn [fk_left fk_right]. unfold flat_slope, flat_value, invert_value. cbn [rotate_kind]. replace (0 / 1000)%R with 0%R by field. rewrite atan_0, Rabs_R0. split; exact A.
  - exists 500. split; [cbn; lia|]. cbn [c96_curve fc_value]. rewrite CI. unfold flat_value, invert_value, keval. cbn [rotate_kind k0 k1 k2 k3]. unfold s. rabs; lra.
Qed.
Print Assumptions C96_refuted.

(** ** Curves *)
(** Angles in degrees become radians; the inverse of a scale is its reciprocal. *)
Definition converted (op : mtype) (inverse : bool) (v : R) : R :=
  let u := match op with RotateX | RotateY | RotateZ => (v * (PI / 180))%R | _ => v end in
  if inverse then match op with ScaleX | ScaleY | ScaleZ | ScaleUniformly => (/ u)%R | _ => (- u)%R end else u.
(** Sixteen samples of a curve, from [t0] to [t1] in steps of a fifteenth, with slopes per millisecond: from
    the left, but from the right at [t0]. *)
Definition steps16 : list Z := [0; 1; 2; 3; 4; 5; 6; 7; 8; 9; 10; 11; 12; 13; 14; 15].
Definition tick (t0 t1 i : Z) : Z := t0 + i * ((t1 - t0) / 15).
Definition samples (op : mtype) (inverse : bool) (c : fbx_curve) (t0 t1 : Z) : list R := map (fun i => converted op inverse (fc_value c (tick t0 t1 i))) steps16.
Definition slopes (op : mtype) (inverse : bool) (c : fbx_curve) (t0 t1 : Z) : list R :=
  map (fun i => converted op inverse ((if i =? 0 then fc_right c t0 else fc_left c (tick t0 t1 i)) / 1000)) steps16.
(** A key interval that has a time in common with the span, and what they have in common. *)
Definition meets (span : Z * Z) (a b : fbx_key) : Prop := fk_time a <= snd span /\ fst span <= fk_time b.
(** A clock that runs forward, with room for differences of times. *)
Definition clock (ms : Z -> Z) (span : Z * Z) : Prop :=
  (forall s t, fst span <= s -> s <= t -> t <= snd span -> ms s <= ms t) /\ (forall t, fst span <= t <= snd span -> - 1073741824 <= ms t <= 1073741823).
(** The samples of an interval are recorded by consecutive nodes: the first sample, some of the others, the last
    sample; and those left out are within [tol] of the cubics. *)
Definition records (ms : Z -> Z) (op : mtype) (inverse : bool) (c : fbx_curve) (tol : R) (t0 t1 : Z) (n : list snode) : Prop :=
  exists A s ns B marks, n = A ++ s :: ns ++ B /\ sample_node (samples op inverse c t0 t1) (slopes op inverse c t0 t1) (0, ms t0) s /\
    Forall2 (sample_node (samples op inverse c t0 t1) (slopes op inverse c t0 t1)) marks ns /\ last marks (0, ms t0) = (15, ms t1) /\
    chain (fun x y => fst x < fst y /\ snd x <= snd y /\ fits (samples op inverse c t0 t1) (slopes op inverse c t0 t1) tol x y) (0, ms t0) marks.

Lemma converted_eq op inv v : flat_value op inv v = converted op inv v.
Proof. unfold flat_value, invert_value, converted. destruct op, inv; cbn [rotate_kind scale_kind]; try reflexivity; unfold Rdiv; ring. Qed.
Lemma samples_eq op inv c t0 t1 : t0 <= t1 -> sample_values op inv c t0 t1 = samples op inv c t0 t1 /\ sample_derivatives op inv c t0 t1 = slopes op inv c t0 t1.
Proof.
  intros H. unfold sample_values, sample_derivatives, samples, slopes, sample_ticks, steps16, tick, flat_derivative. rewrite Z.quot_div_nonneg by lia. cbn [seq map tl Z.of_nat Pos.of_succ_nat Pos.succ]. rewrite !converted_eq.
  change (0 =? 0) with true. cbn [Z.eqb]. split; [reflexivity|]. reflexivity.
Qed.
Lemma flat_time_ok ms t : - 1073741824 <= ms t <= 1073741823 -> flat_time ms t = Some (ms t).
Proof. intros H. unfold flat_time. replace (ms t <=? int_max) with true by (unfold int_max; lia). replace (int_min <=? ms t) with true by (unfold int_min; lia). reflexivity. Qed.
Lemma append_split old n ns : exists A, append_curve old n ns = A ++ n :: ns.
Proof.
  unfold append_curve. destruct (snode_eqb _ n && negb (len old =? 0)) eqn:E; [|now exists old]. apply andb_prop in E. destruct E as [E1 E2]. apply snode_eqb_eq in E1. exists (removelast old). rewrite <- E1.
  destruct old as [|x old]; [discriminate|]. change (last (x :: old) (SNode 0 0 0) :: ns) with ([last (x :: old) (SNode 0 0 0)] ++ ns). rewrite app_assoc, <- app_removelast_last by discriminate. reflexivity.
Qed.
Lemma append_prefix old n ns : exists B, append_curve old n ns = old ++ B /\ forall x, In x B -> In x (n :: ns).
Proof. unfold append_curve. destruct (_ && _); [exists ns|exists (n :: ns)]; (split; [reflexivity|]); auto. intros x X. now right. Qed.
Lemma chain_times (P : mark -> mark -> Prop) vals ders : forall marks ns m, Forall2 (sample_node vals ders) marks ns -> chain (fun x y => fst x < fst y /\ snd x <= snd y /\ P x y) m marks ->
  StronglySorted Z.le (snd m :: map sn_time ns) /\ forall x, In x ns -> snd m <= sn_time x <= snd (last marks m).
Proof.
  intros marks ns m F. revert m. induction F as [|k y marks ns (E & _) F IH]; intros m C; [split; [repeat constructor|intros ? []]|].
  destruct C as [(C1 & C2 & _) C]. destruct (IH k C) as [S1 S2]. rewrite last_cons. assert (K : snd k <= snd (last marks k)).
  { clear - C. revert k C. induction marks as [|z marks IH]; intros k C; [cbn; lia|]. rewrite last_cons. destruct C as [(_ & C2 & _) C]. specialize (IH z C). lia. }
  cbn [map]. rewrite E. split.
  - constructor; [exact S1|]. constructor; [exact C2|]. apply Forall_forall. intros z Z. apply StronglySorted_inv in S1. destruct S1 as [_ S1]. rewrite Forall_forall in S1. specialize (S1 z Z). lia.
  - intros x [<-|X]; [lia|]. specialize (S2 x X). lia.
Qed.
Lemma sorted_join (a b : list Z) hi : StronglySorted Z.le a -> StronglySorted Z.le b -> (forall x, In x a -> x <= hi) -> (forall x, In x b -> hi <= x) -> StronglySorted Z.le (a ++ b).
Proof.
  induction a as [|x a IH]; intros A B HA HB; [exact B|]. apply StronglySorted_inv in A. destruct A as [A A']. cbn [app]. constructor; [apply IH; auto; intros; apply HA; now right|].
  apply Forall_app. split; [exact A'|]. apply Forall_forall. intros z Z. specialize (HB z Z). specialize (HA x (or_introl eq_refl)). lia.
Qed.
Section Intervals.
Context (ms : Z -> Z) (op : mtype) (inv : bool) (c : fbx_curve) (span : Z * Z) (tol : R) (T : (0 <= tol)%R) (SP : fst span <= snd span) (CK : clock ms span).
Definition clip (t : Z) : Z := Z.min (snd span) (Z.max (fst span) t).
Lemma clip_in t : fst span <= clip t <= snd span. Proof. unfold clip. lia. Qed.
Lemma clip_le s t : s <= t -> ms (clip s) <= ms (clip t).
Proof. intros H. destruct CK as [M _]. apply M; unfold clip; lia. Qed.
Lemma interval_ok t0 t1 old : fst span <= t0 -> t0 <= t1 -> t1 <= snd span -> exists s ns marks,
  curve_nodes (samples op inv c t0 t1) (slopes op inv c t0 t1) 16 (ms t0) (ms t1) tol old = Some (append_curve old s ns) /\ sample_node (samples op inv c t0 t1) (slopes op inv c t0 t1) (0, ms t0) s /\
  Forall2 (sample_node (samples op inv c t0 t1) (slopes op inv c t0 t1)) marks ns /\ last marks (0, ms t0) = (15, ms t1) /\
  chain (fun x y => fst x < fst y /\ snd x <= snd y /\ fits (samples op inv c t0 t1) (slopes op inv c t0 t1) tol x y) (0, ms t0) marks.
Proof.
  intros H0 H1 H2. destruct CK as [MO IN]. pose proof (MO t0 t1 H0 H1 H2). pose proof (IN t0 ltac:(lia)). pose proof (IN t1 ltac:(lia)).
  destruct (segment_ok (samples op inv c t0 t1) (slopes op inv c t0 t1) tol T 16 (ms t0) (ms t1) 0) as (st & marks & s & ns & BD & N0 & F & L & CH & RUN & _ & _); try (unfold int_min, int_max; lia); try (change (0 + Z.of_nat 16 <= 16); cbn; lia); try (cbn; lia).
  exists s, ns, marks. split; [|auto]. unfold curve_nodes. change (Z.to_nat (2 * 16 + 1)) with 33%nat. change 16 with (Z.of_nat 16). replace 33%nat with (st + S (32 - st))%nat by lia. rewrite RUN. apply segments_nil.
Qed.
Lemma records_more t0 t1 n B : records ms op inv c tol t0 t1 n -> records ms op inv c tol t0 t1 (n ++ B).
Proof. intros (A & s & ns & B0 & marks & -> & H). exists A, s, ns, (B0 ++ B), marks. split; [rewrite <- app_assoc; cbn [app]; now rewrite <- app_assoc|exact H]. Qed.
Lemma interval_nodes_ok : forall rest a old, chain (fun x y => fk_time x <= fk_time y) a rest -> StronglySorted Z.le (map sn_time old) -> (forall x, In x old -> ms (fst span) <= sn_time x <= ms (clip (fk_time a))) ->
  exists B, interval_nodes ms op inv c span tol (a :: rest) old = Some (old ++ B) /\ StronglySorted Z.le (map sn_time (old ++ B)) /\ (forall x, In x (old ++ B) -> ms (fst span) <= sn_time x <= ms (snd span)) /\
    (forall X k k' Y, a :: rest = X ++ k :: k' :: Y -> meets span k k' -> records ms op inv c tol (Z.max (fst span) (fk_time k)) (Z.min (snd span) (fk_time k')) (old ++ B)) /\
    ((forall X k k' Y, a :: rest = X ++ k :: k' :: Y -> ~ meets span k k') -> B = []).
Proof.
  induction rest as [|b rest IH]; intros a old C SO BO.
  - exists []. cbn [interval_nodes]. rewrite app_nil_r. split; [reflexivity|]. split; [exact SO|]. split; [|split; [|reflexivity]].
    + intros x X. specialize (BO x X). destruct CK as [M _]. pose proof (clip_in (fk_time a)). pose proof (M (clip (fk_time a)) (snd span)). lia.
    + intros X k k' Y E. destruct X as [|? [|? X]]; discriminate.
  - destruct C as [AB C]. cbn [interval_nodes]. destruct ((snd span <? fk_time a) || (fk_time b <? fst span)) eqn:E.
    + assert (NM : ~ meets span a b) by (unfold meets; lia). destruct (IH b old C SO) as (B & E1 & E2 & E3 & E4 & E5); [intros x X; specialize (BO x X); pose proof (clip_le _ _ AB); lia|].
      exists B. split; [exact E1|]. split; [exact E2|]. split; [exact E3|]. split.
      * intros X k k' Y EE M. destruct X as [|z X]; cbn [app] in EE; [injection EE; intros; subst; tauto|injection EE as _ EE; exact (E4 X k k' Y EE M)].
      * intros N. apply E5. intros X k k' Y EE. apply (N (a :: X) k k' Y). cbn [app]. now rewrite EE.
    + cbv zeta. set (t0 := Z.max (fst span) (fk_time a)). set (t1 := Z.min (snd span) (fk_time b)).
      assert (H0 : fst span <= t0) by (unfold t0; lia). assert (H1 : t0 <= t1) by (unfold t0, t1; lia). assert (H2 : t1 <= snd span) by (unfold t1; lia). destruct CK as [MO IN].
      rewrite (flat_time_ok ms t0) by (apply IN; lia). rewrite (flat_time_ok ms t1) by (apply IN; lia). destruct (samples_eq op inv c t0 t1 H1) as [-> ->].
      destruct (interval_ok t0 t1 old H0 H1 H2) as (s & ns & marks & -> & N0 & F & L & CH). destruct (append_split old s ns) as [A EA]. destruct (append_prefix old s ns) as (B1 & EB & IB).
      destruct (chain_times _ _ _ _ _ _ F CH) as [TS TB]. rewrite L in TB. cbn [snd] in TS, TB. pose proof (MO t0 t1 H0 H1 H2) as M01. assert (S0 : sn_time s = ms t0) by apply N0.
      assert (C0 : clip (fk_time a) = t0) by (unfold clip, t0; lia). assert (C1 : clip (fk_time b) = t1) by (unfold clip, t1; lia).
      assert (TB' : forall x, In x (s :: ns) -> ms t0 <= sn_time x <= ms t1) by (intros x [<-|X]; [lia|exact (TB x X)]). rewrite C0 in BO. pose proof (MO (fst span) t0) as MS.
      assert (SB1 : StronglySorted Z.le (map sn_time B1)).
      { clear - EB TS S0. unfold append_curve in EB. destruct (_ && _); apply app_inv_head in EB; subst B1; [apply StronglySorted_inv in TS; apply TS|cbn [map]; rewrite S0; exact TS]. }
      destruct (IH b (append_curve old s ns) C) as (B & E1 & E2 & E3 & E4 & E5).
      * rewrite EB, map_app. apply (sorted_join _ _ (ms t0)); auto; intros x X; apply in_map_iff in X; destruct X as (y & <- & Y); [apply BO in Y; lia|apply IB, TB' in Y; lia].
      * intros x X. rewrite C1, EB in *. apply in_app_or in X. destruct X as [X|X]; [specialize (BO x X); lia|apply IB, TB' in X; lia].
      * exists (B1 ++ B). rewrite EB, <- app_assoc in E1, E2, E3, E4. rewrite EB. split; [exact E1|]. split; [exact E2|]. split; [exact E3|]. split.
        -- intros X k k' Y EE M. destruct X as [|z X]; cbn [app] in EE; [|injection EE as _ EE; exact (E4 X k k' Y EE M)]. injection EE as <- <- _. fold t0 t1. rewrite app_assoc. apply records_more. exists A, s, ns, [], marks. rewrite app_nil_r, <- EB. auto.
        -- intros N. exfalso. apply (N [] a b rest eq_refl). unfold meets. lia.
Qed.
End Intervals.
(** Keys in the order of their times. *)
Definition keys_in_order (keys : list fbx_key) : Prop := forall X a b Y, keys = X ++ a :: b :: Y -> fk_time a <= fk_time b.
Lemma keys_in_order_chain a rest : keys_in_order (a :: rest) -> chain (fun x y => fk_time x <= fk_time y) a rest.
Proof.
  revert a. induction rest as [|b rest IH]; intros a H; [exact I|]. split; [exact (H [] a b rest eq_refl)|]. apply IH. intros X x y Y E. apply (H (a :: X) x y Y). cbn [app]. now rewrite E.
Qed.
Definition misses (span : Z * Z) (keys : list fbx_key) : Prop := forall X a b Y, keys = X ++ a :: b :: Y -> ~ meets span a b.

(** C97.  The curve of a channel that was just allocated: the nodes are in the order of their times, within the
    span; every key interval that has a time in common with the span is recorded, from the later of the two
    starts to the earlier of the two ends; and there is no node if there is no such interval. *)
Theorem C97_intervals : forall ms op inverse c span o id d0 d ch, alloc_channel d0 o id = Some (d, ch) -> (0 <= tolerance_for_op (ad_tol d0) o)%R -> fst span <= snd span -> clock ms span -> keys_in_order (fc_keys c) ->
  exists d' n, gather_intervals ms op inverse c span ch (fc_keys c) d = Some d' /\ nodes_of d' ch = Some n /\
    StronglySorted Z.le (map sn_time n) /\ (forall x, In x n -> ms (fst span) <= sn_time x <= ms (snd span)) /\
    (forall X a b Y, fc_keys c = X ++ a :: b :: Y -> meets span a b -> records ms op inverse c (tolerance_for_op (ad_tol d0) o) (Z.max (fst span) (fk_time a)) (Z.min (snd span) (fk_time b)) n) /\
    (misses span (fc_keys c) -> n = []).
Proof.
  intros ms op inv c span o id d0 d ch AL T SP CK O. unfold alloc_channel in AL. destruct (cur_channels d0) as [chs|] eqn:CC; [|discriminate]. destruct (set_cur_channels d0 (chs ++ [Channel o id []])) as [d1|] eqn:SC; [|discriminate]. injection AL as -> <-.
  rewrite (gather_intervals_eq _ _ _ _ _ _ _ _ _ _ _ _ SC).
  assert (H : exists n, interval_nodes ms op inv c span (tolerance_for_op (ad_tol d0) o) (fc_keys c) [] = Some n /\ StronglySorted Z.le (map sn_time n) /\ (forall x, In x n -> ms (fst span) <= sn_time x <= ms (snd span)) /\
    (forall X a b Y, fc_keys c = X ++ a :: b :: Y -> meets span a b -> records ms op inv c (tolerance_for_op (ad_tol d0) o) (Z.max (fst span) (fk_time a)) (Z.min (snd span) (fk_time b)) n) /\ (misses span (fc_keys c) -> n = [])).
  { destruct (fc_keys c) as [|k rest] eqn:K.
    - exists []. split; [reflexivity|]. split; [constructor|]. split; [intros ? []|]. split; [|reflexivity]. intros X a b Y E. destruct X; discriminate.
    - destruct (interval_nodes_ok ms op inv c span _ T SP CK rest k [] (keys_in_order_chain _ _ O)) as (B & E); [constructor|intros ? []|]. exists B. exact E. }
  destruct H as (n & -> & H). destruct (set_cur_total _ _ _ (chs ++ [Channel o id n]) SC) as [d' D']. rewrite D'. exists d', n. split; [reflexivity|]. split; [apply (nodes_last _ _ _ _ _ _ D')|exact H].
Qed.
Print Assumptions C97_intervals.

(** Then nodes are pruned; what is left was among the nodes, and something is left if an interval has a time in
    common with the span. *)
Lemma picked_in n ks xs : picked n ks xs -> forall x, In x xs -> In x n.
Proof. intros P. induction P as [|k x ks xs G P IH]; intros y Y; [destruct Y|]. destruct Y as [<-|Y]; [unfold getz in G; destruct (k <? 0); [discriminate|exact (nth_error_In _ _ G)]|auto]. Qed.
Theorem C97_recorded : forall ms op inverse c span o id d0 d ch X a b Y, alloc_channel d0 o id = Some (d, ch) -> (0 <= tolerance_for_op (ad_tol d0) o)%R -> fst span <= snd span -> clock ms span -> keys_in_order (fc_keys c) ->
  fc_keys c = X ++ a :: b :: Y -> meets span a b ->
  exists d1 n d2 out, gather_intervals ms op inverse c span ch (fc_keys c) d = Some d1 /\ nodes_of d1 ch = Some n /\
    gather_curve ms op inverse c span ch d = Some d2 /\ nodes_of d2 ch = Some out /\ out <> [] /\ forall x, In x out -> In x n.
Proof.
  intros ms op inv c span o id d0 d ch X a b Y AL T SP CK O K M. destruct (C97_intervals ms op inv c span o id d0 d ch AL T SP CK O) as (d1 & n & G & N & SO & BD & RE & _). exists d1, n.
  assert (NE : n <> []) by (destruct (RE X a b Y K M) as (A & s & ns & B & marks & -> & _); destruct A; discriminate).
  assert (TO : times_ok n).
  { intros x y IX IY. apply BD in IX, IY. destruct CK as [_ IN]. pose proof (IN (fst span)). pose proof (IN (snd span)). lia. }
  destruct (C70_prune_partial (ad_tol d0) (tolerance_for_op (ad_tol d0) o) n TO NE) as (ks & kept & out & P & CKE & PI & _).
  unfold alloc_channel in AL. destruct (cur_channels d0) as [chs|] eqn:CC; [|discriminate]. destruct (set_cur_channels d0 (chs ++ [Channel o id []])) as [d'|] eqn:SC; [|discriminate]. injection AL as -> <-.
  unfold gather_curve. rewrite G. replace (1 <? len (fc_keys c)) with true by (rewrite K, len_app, !len_cons; pose proof (len_nonneg X); pose proof (len_nonneg Y); lia). cbv iota.
  rewrite (gather_intervals_eq _ _ _ _ _ _ _ _ _ _ _ _ SC) in G. destruct (interval_nodes _ _ _ _ _ _ _ _) as [n'|]; [|discriminate]. destruct (nodes_last _ _ _ _ _ _ G) as [N' TL]. rewrite N' in N. injection N as ->.
  destruct (set_cur_facts _ _ _ G) as (_ & TT & _). unfold prune_nodes. rewrite TL, N', TT, P, (set_nodes_last _ _ _ _ _ _ _ G). destruct (set_cur_total _ _ _ (chs ++ [Channel o id out]) SC) as [d2 D2]. exists d2, out.
  split; [reflexivity|]. split; [reflexivity|]. split; [exact D2|]. split; [apply (nodes_last _ _ _ _ _ _ D2)|].
  assert (KN : kept <> []) by (intros ->; inversion PI). destruct CKE as [-> | (u & v & -> & -> & _)]; [split; [exact KN|exact (picked_in _ _ _ PI)]|]. split; [discriminate|]. intros x [<-|[]]. apply (picked_in _ _ _ PI). now left.
Qed.
Print Assumptions C97_recorded.

(** A channel that is not constant, and whose key intervals all lie outside the span, is not exported: the
    assertion that it has nodes fails. *)
Theorem C97_outside : forall ms p op inverse span axis id d c k rest v, (0 <= tolerance_for_op (ad_tol d) (op_plus op axis))%R -> fst span <= snd span -> clock ms span ->
  driven p axis c k rest -> fh_curve c = Some v -> keys_in_order (fc_keys v) -> misses span (fc_keys v) ->
  fst (anim_const p op inverse axis (tolerance_for_op (ad_tol d) (op_plus op axis)) (tl_angle (ad_tol d))) = false ->
  gather_channel ms p op inverse span axis id d = None.
Proof.
  intros ms p op inv span axis id d c k rest v T SP CK (chs & v0 & l & r & E1 & E2 & E3) CV O MI NC. rewrite E3 in CV. injection CV as <-. unfold gather_channel. cbv zeta. destruct (anim_const _ _ _ _ _ _) as [const x]. cbn [fst] in NC. subst const. cbn [andb].
  destruct (alloc_channel d (op_plus op axis) id) as [[d1 ch]|] eqn:AL; [|reflexivity]. rewrite E1, E2, E3.
  destruct (C97_intervals ms op inv _ span _ id d d1 ch AL T SP CK O) as (d' & n & G & N & _ & _ & _ & Z0). specialize (Z0 MI). subst n. unfold gather_curve. destruct (1 <? len _); [|reflexivity]. rewrite G.
  unfold alloc_channel in AL. destruct (cur_channels d) as [cs|] eqn:CC; [|discriminate]. destruct (set_cur_channels d (cs ++ [Channel (op_plus op axis) id []])) as [d0|] eqn:SC; [|discriminate]. injection AL as -> <-.
  rewrite (gather_intervals_eq _ _ _ _ _ _ _ _ _ _ _ _ SC) in G. destruct (interval_nodes _ _ _ _ _ _ _ _) as [n'|]; [|discriminate]. destruct (nodes_last _ _ _ _ _ _ G) as [N' TL]. rewrite N' in N. injection N as ->.
  unfold prune_nodes. rewrite TL, N'. destruct (set_cur_facts _ _ _ G) as (_ & TT & _). rewrite TT. destruct (pruned_nodes _ _ []) as [out|] eqn:PN; [|reflexivity].
  assert (OE : out = []) by (cbn in PN; congruence). subst out. rewrite (set_nodes_last _ _ _ _ _ _ _ G). destruct (set_cur_total _ _ _ (cs ++ [Channel (op_plus op axis) id []]) SC) as [d2 D2]. rewrite D2. rewrite (proj1 (nodes_last _ _ _ _ _ _ D2)). reflexivity.
Qed.
Print Assumptions C97_outside.
(** So C97, that every driven channel with keys in order is exported, is false: keys at 0 and 1000 between which
    x goes from 0 to 1000, and a span from 2000 to 3000. *)
Definition c97_curve : fbx_curve := FbxCurve [FbxKey 0 0 1000 1000; FbxKey 1000 1000 1000 1000] IZR (fun _ => 1000%R) (fun _ => 1000%R).
Definition c97_property : fbx_property := FbxProperty (fun _ => 0%R) (Some [FbxChannel 0 (Some c97_curve); FbxChannel 0 None; FbxChannel 0 None]).
Definition c97_start : anim_data := AnimData [Bone [] (-1) []] 0 (Tolerances (1 / 100) (1 / 100) (1 / 100) (1 / 100) (1 / 100)) false.
Lemma c97_driven : driven c97_property 0 (FbxChannel 0 (Some c97_curve)) (FbxKey 0 0 1000 1000) [FbxKey 1000 1000 1000 1000].
Proof. exists [FbxChannel 0 (Some c97_curve); FbxChannel 0 None; FbxChannel 0 None]. do 3 eexists. split; [reflexivity|]. split; reflexivity. Qed.
Lemma c97_pair X a b Y : fc_keys c97_curve = X ++ a :: b :: Y -> a = FbxKey 0 0 1000 1000 /\ b = FbxKey 1000 1000 1000 1000.
Proof. intros E. destruct X as [|? [|? X]]; [injection E as <- <- _; auto|discriminate|destruct X; discriminate]. Qed.
Lemma c97_order : keys_in_order (fc_keys c97_curve).
Proof. intros X a b Y E. apply c97_pair in E. destruct E as [-> ->]. cbn. lia. Qed.
Lemma c97_clock lo hi : -1000000 <= lo -> hi <= 1000000 -> clock (fun t => t) (lo, hi).
Proof. intros L H. split; cbn [fst snd]; intros; lia. Qed.
Lemma c97_not_const : fst (anim_const c97_property TranslateX false 0 (tolerance_for_op (ad_tol c97_start) TranslateX) (tl_angle (ad_tol c97_start))) = false.
Proof.
  destruct (fst _) eqn:E; [|reflexivity]. exfalso. assert (T : (0 <= tolerance_for_op (ad_tol c97_start) TranslateX)%R) by (cbn; lra).
  apply (proj1 (proj1 (C96_driven c97_property TranslateX false 0 _ (tl_angle (ad_tol c97_start)) _ _ _ T c97_driven))) in E. destruct E as [E _].
  specialize (E _ (or_intror (or_introl eq_refl))). cbn in E. revert E. rabs; lra.
Qed.
Theorem C97_outside_refuted : exists ms p op inverse span axis d c k rest v, (0 < tolerance_for_op (ad_tol d) (op_plus op axis))%R /\ fst span < snd span /\ clock ms span /\
  driven p axis c k rest /\ fh_curve c = Some v /\ keys_in_order (fc_keys v) /\ cur_channels d = Some [] /\ forall id, gather_channel ms p op inverse span axis id d = None.
Proof.
  exists (fun t => t), c97_property, TranslateX, false, (2000, 3000), 0, c97_start, (FbxChannel 0 (Some c97_curve)), (FbxKey 0 0 1000 1000), [FbxKey 1000 1000 1000 1000], c97_curve.
  split; [cbn; lra|]. split; [cbn; lia|]. split; [apply c97_clock; lia|]. split; [exact c97_driven|]. split; [reflexivity|]. split; [exact c97_order|]. split; [reflexivity|].
  intros id. apply (C97_outside _ _ _ _ _ _ _ _ (FbxChannel 0 (Some c97_curve)) (FbxKey 0 0 1000 1000) [FbxKey 1000 1000 1000 1000] c97_curve); [cbn; lra|cbn; lia|apply c97_clock; lia|exact c97_driven|reflexivity|exact c97_order| |exact c97_not_const].
  intros X a b Y E [_ M]. apply c97_pair in E. destruct E as [-> ->]. cbn in M. lia.
Qed.
Print Assumptions C97_outside_refuted.

(** Nor is a curve recorded whose first interval ends later than an int can hold in milliseconds, about 24 days. *)
Theorem C97_late_refuted : forall ms op inverse c span ch d a b rest, fc_keys c = a :: b :: rest -> meets span a b -> int_max < ms (Z.min (snd span) (fk_time b)) -> gather_curve ms op inverse c span ch d = None.
Proof.
  intros ms op inv c span ch d a b rest K [M1 M2] L. unfold gather_curve. rewrite K. destruct (1 <? len (a :: b :: rest)); [|reflexivity]. cbn [gather_intervals]. cbv zeta. replace ((snd span <? fk_time a) || (fk_time b <? fst span)) with false by lia.
  destruct (flat_time ms (Z.max (fst span) (fk_time a))) as [f0|]; [|reflexivity]. unfold flat_time. replace (ms (Z.min (snd span) (fk_time b)) <=? int_max) with false by lia. reflexivity.
Qed.
Print Assumptions C97_late_refuted.
Example C97_late_case : meets (0, 3000) (FbxKey 0 0 1000 1000) (FbxKey 1000 1000 1000 1000) /\ int_max < 10000000 * Z.min 3000 1000.
Proof. unfold meets, int_max. cbn. lia. Qed.

(** The hypotheses of C96 and C97 are met, and something is recorded, for a span that begins between the keys. *)
Example c97_met : exists d ch d2 out, alloc_channel c97_start TranslateX 0 = Some (d, ch) /\ gather_curve (fun t => t) TranslateX false c97_curve (500, 3000) ch d = Some d2 /\ nodes_of d2 ch = Some out /\ out <> [] /\
  forall x, In x out -> 500 <= sn_time x <= 3000.
Proof.
  exists (AnimData [Bone [] (-1) [Channel TranslateX 0 []]] 0 (ad_tol c97_start) false), 0.
  assert (AL : alloc_channel c97_start TranslateX 0 = Some (AnimData [Bone [] (-1) [Channel TranslateX 0 []]] 0 (ad_tol c97_start) false, 0)) by reflexivity.
  assert (T : (0 <= tolerance_for_op (ad_tol c97_start) TranslateX)%R) by (cbn; lra).
  destruct (C97_intervals (fun t => t) TranslateX false c97_curve (500, 3000) _ _ _ _ _ AL T ltac:(cbn; lia) (c97_clock 500 3000 ltac:(lia) ltac:(lia)) c97_order) as (d1 & n & G1 & N1 & _ & B1 & _).
  destruct (C97_recorded (fun t => t) TranslateX false c97_curve (500, 3000) _ _ _ _ _ [] (FbxKey 0 0 1000 1000) (FbxKey 1000 1000 1000 1000) [] AL T ltac:(cbn; lia) (c97_clock 500 3000 ltac:(lia) ltac:(lia)) c97_order eq_refl ltac:(unfold meets; cbn; lia)) as (d1' & n' & d2 & out & G & N & GC & NO & NE & IN).
  exists d2, out. split; [exact AL|]. split; [exact GC|]. split; [exact NO|]. split; [exact NE|]. intros x X. apply IN in X. rewrite G1 in G. injection G as <-. rewrite N1 in N. injection N as <-. exact (B1 x X).
Qed.
