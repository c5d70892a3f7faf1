(** C101: setting the playback rate, or whether to repeat, reaches everything that plays. *)
From Verif Require Import RBase BaseFacts MathfuModel RangeModel MatrixModel RigModel RigProps RateModel.
Local Open Scope Z_scope.

(** *** Specification *)
(** Of an operation only the motivator changes, as [set] says. *)
Definition op_changed {M} (set : M -> option M) (o o' : op M) : Prop :=
  op_id o' = op_id o /\ op_type o' = op_type o /\ op_const o' = op_const o /\
  match op_motivator o, op_motivator o' with Some m, Some m' => set m = Some m' | None, None => True | _, _ => False end.
(** Of a bone only the operations change. *)
Definition bone_changed {M} (set : M -> option M) (b b' : bone (M := M)) : Prop :=
  match b, b' with
  | inl d, inl d' => md_matrix d' = md_matrix d /\ md_scale d' = md_scale d /\ Forall2 (op_changed set) (md_ops d) (md_ops d')
  | inr d, inr d' => qd_matrix d' = qd_matrix d /\ qd_rotation d' = qd_rotation d /\ qd_scale d' = qd_scale d /\ Forall2 (op_changed set) (qd_ops d) (qd_ops d')
  | _, _ => False
  end.
Definition valid_changed {B} (R : B -> B -> Prop) (m m' : option B) : Prop :=
  match m, m' with Some b, Some b' => R b b' | None, None => True | _, _ => False end.
(** Of a rig only the motivators change. *)
Definition rest_same {B O} (d d' : rig_data B O) : Prop :=
  globals d' = globals d /\ weights d' = weights d /\ defining d' = defining d /\ current d' = current d /\ root_bone d' = root_bone d /\ root_transform d' = root_transform d /\ end_time d' = end_time d.

(** *** Proofs *)
Lemma map_all_iff : forall A B (f : A -> option B) l l', map_all f l = Some l' <-> Forall2 (fun x y => f x = Some y) l l'.
Proof.
  intros A B f. induction l as [|x l IH]; intros l'; cbn [map_all].
  - split; [intros [= <-]; constructor|intros H; inversion H; reflexivity].
  - split.
    + intros E. destruct (f x) as [y|] eqn:Fx; [|discriminate]. destruct (map_all f l) as [r|] eqn:Er; [|discriminate]. cbn in E. injection E as <-. constructor; [exact Fx|]. apply IH. reflexivity.
    + intros H. inversion H as [|? y ? r Fx H' E1 E2]; subst. rewrite Fx. apply IH in H'. rewrite H'. reflexivity.
Qed.
Lemma map_all_rel : forall A B (f : A -> option B) (P : A -> B -> Prop), (forall x y, f x = Some y <-> P x y) -> forall l l', map_all f l = Some l' <-> Forall2 P l l'.
Proof.
  intros A B f P H l l'. rewrite map_all_iff. split; intros F; induction F; constructor; auto; now apply H.
Qed.

Section Ops.
Context {M : Type} (r : rclass M).
Lemma op_rate_iff : forall rate (o o' : op M), op_set_rate r rate o = Some o' <-> op_changed (r_rate r rate) o o'.
Proof.
  intros rate [i t m c] [i' t' m' c']. unfold op_set_rate, op_changed. cbn. destruct m as [m|].
  - destruct (r_rate r rate m) as [x|]; cbn.
    + split; [intros [= <- <- <- <-]; auto|]. intros (-> & -> & -> & E). destruct m'; [congruence|contradiction].
    + split; [discriminate|]. intros (_ & _ & _ & E). destruct m'; [discriminate|contradiction].
  - split; [intros [= <- <- <- <-]; auto|]. intros (-> & -> & -> & E). destruct m'; [contradiction|reflexivity].
Qed.
Lemma op_repeat_iff : forall b (o o' : op M), op_set_repeating r b o = Some o' <-> op_changed (r_repeat r b) o o'.
Proof.
  intros b [i t m c] [i' t' m' c']. unfold op_set_repeating, op_changed. cbn. destruct m as [m|].
  - destruct (r_repeat r b m) as [x|]; cbn.
    + split; [intros [= <- <- <- <-]; auto|]. intros (-> & -> & -> & E). destruct m'; [congruence|contradiction].
    + split; [discriminate|]. intros (_ & _ & _ & E). destruct m'; [discriminate|contradiction].
  - split; [intros [= <- <- <- <-]; auto|]. intros (-> & -> & -> & E). destruct m'; [contradiction|reflexivity].
Qed.

(** *** C101 *)
(** A matrix or SQT motivator sets the rate of every operation that has a motivator, and
    changes nothing else. *)
Theorem C101_bone_rate : forall rate (b b' : bone (M := M)), r_rate (bone_rclass r) rate b = Some b' <-> bone_changed (r_rate r rate) b b'.
Proof.
  intros rate b b'. pose proof (map_all_rel _ _ _ _ (op_rate_iff rate)) as MR. destruct b as [d|d]; cbn.
  - unfold mdata_set_rate. destruct d as [mx sc ops]. cbn. destruct (map_all (op_set_rate r rate) ops) as [l|] eqn:E; cbn.
    + pose proof (proj1 (MR _ _) E) as F. split; [intros [= <-]; cbn; auto|]. destruct b' as [[mx' sc' ops']|]; cbn; [|contradiction]. intros (-> & -> & F'). apply MR in F'. rewrite E in F'. injection F' as ->. reflexivity.
    + split; [discriminate|]. destruct b' as [[mx' sc' ops']|]; cbn; [|contradiction]. intros (-> & -> & F'). apply MR in F'. congruence.
  - unfold qdata_set_rate. destruct d as [mx ro sc ops]. cbn. destruct (map_all (op_set_rate r rate) ops) as [l|] eqn:E; cbn.
    + pose proof (proj1 (MR _ _) E) as F. split; [intros [= <-]; cbn; auto|]. destruct b' as [|[mx' ro' sc' ops']]; cbn; [contradiction|]. intros (-> & -> & -> & F'). apply MR in F'. rewrite E in F'. injection F' as ->. reflexivity.
    + split; [discriminate|]. destruct b' as [|[mx' ro' sc' ops']]; cbn; [contradiction|]. intros (-> & -> & -> & F'). apply MR in F'. congruence.
Qed.
Print Assumptions C101_bone_rate.
Theorem C101_bone_repeat : forall rep (b b' : bone (M := M)), r_repeat (bone_rclass r) rep b = Some b' <-> bone_changed (r_repeat r rep) b b'.
Proof.
  intros rep b b'. pose proof (map_all_rel _ _ _ _ (op_repeat_iff rep)) as MR. destruct b as [d|d]; cbn.
  - unfold mdata_set_repeating. destruct d as [mx sc ops]. cbn. destruct (map_all (op_set_repeating r rep) ops) as [l|] eqn:E; cbn.
    + pose proof (proj1 (MR _ _) E) as F. split; [intros [= <-]; cbn; auto|]. destruct b' as [[mx' sc' ops']|]; cbn; [|contradiction]. intros (-> & -> & F'). apply MR in F'. rewrite E in F'. injection F' as ->. reflexivity.
    + split; [discriminate|]. destruct b' as [[mx' sc' ops']|]; cbn; [|contradiction]. intros (-> & -> & F'). apply MR in F'. congruence.
  - unfold qdata_set_repeating. destruct d as [mx ro sc ops]. cbn. destruct (map_all (op_set_repeating r rep) ops) as [l|] eqn:E; cbn.
    + pose proof (proj1 (MR _ _) E) as F. split; [intros [= <-]; cbn; auto|]. destruct b' as [|[mx' ro' sc' ops']]; cbn; [contradiction|]. intros (-> & -> & -> & F'). apply MR in F'. rewrite E in F'. injection F' as ->. reflexivity.
    + split; [discriminate|]. destruct b' as [|[mx' ro' sc' ops']]; cbn; [contradiction|]. intros (-> & -> & -> & F'). apply MR in F'. congruence.
Qed.
Print Assumptions C101_bone_repeat.
End Ops.

Section Rig.
Context {B O : Type} (r : rclass B).
Local Notation rig := (rig_data B O).
Lemma rate_valid : forall rate m m', motivator_set_rate r rate m = Some m' <-> valid_changed (fun b b' => r_rate r rate b = Some b') m m'.
Proof. intros rate [b|] [b'|]; cbn; try (destruct (r_rate r rate b); cbn); split; intros H; try discriminate; try contradiction; congruence || auto. Qed.
Lemma repeat_valid : forall rep m m', motivator_set_repeating r rep m = Some m' <-> valid_changed (fun b b' => r_repeat r rep b = Some b') m m'.
Proof. intros rep [b|] [b'|]; cbn; try (destruct (r_repeat r rep b); cbn); split; intros H; try discriminate; try contradiction; congruence || auto. Qed.
Lemma with_motivators_iff : forall (d d' : rig) ms, with_motivators d ms = d' <-> rest_same d d' /\ motivators d' = ms.
Proof.
  intros d d' ms. unfold with_motivators, rest_same. split; [intros <-; cbn; auto 10|]. intros [(E1 & E2 & E3 & E4 & E5 & E6 & E7) <-]. destruct d'; cbn in *. now subst.
Qed.

(** A rig sets the rate of each of its bones, in each of its animations, and changes nothing
    else: weights, time and transforms stay. *)
Theorem C101_rate : forall rate (d d' : rig), rig_set_rate r rate d = Some d' <->
  rest_same d d' /\ Forall2 (valid_changed (fun b b' => r_rate r rate b = Some b')) (motivators d) (motivators d').
Proof.
  intros rate d d'. unfold rig_set_rate. pose proof (map_all_rel _ _ _ _ (rate_valid rate)) as MR. destruct (map_all (motivator_set_rate r rate) (motivators d)) as [ms|] eqn:E; cbn.
  - pose proof (proj1 (MR _ _) E) as F. split; [intros [= Q]; apply with_motivators_iff in Q; destruct Q as [Q ->]; auto|]. intros [Q F']. f_equal. apply with_motivators_iff. split; [exact Q|]. apply MR in F'. congruence.
  - split; [discriminate|]. intros [_ F']. apply MR in F'. congruence.
Qed.
Print Assumptions C101_rate.
Theorem C101_repeat : forall rep (d d' : rig), rig_set_repeating r rep d = Some d' <->
  rest_same d d' /\ Forall2 (valid_changed (fun b b' => r_repeat r rep b = Some b')) (motivators d) (motivators d').
Proof.
  intros rep d d'. unfold rig_set_repeating. pose proof (map_all_rel _ _ _ _ (repeat_valid rep)) as MR. destruct (map_all (motivator_set_repeating r rep) (motivators d)) as [ms|] eqn:E; cbn.
  - pose proof (proj1 (MR _ _) E) as F. split; [intros [= Q]; apply with_motivators_iff in Q; destruct Q as [Q ->]; auto|]. intros [Q F']. f_equal. apply with_motivators_iff. split; [exact Q|]. apply MR in F'. congruence.
  - split; [discriminate|]. intros [_ F']. apply MR in F'. congruence.
Qed.
Print Assumptions C101_repeat.

Lemma rates_bones_ok : forall fuel k rate (ms ms' : list (option B)), 0 <= k -> rates_bones r fuel k rate ms = Some ms' ->
  len ms' = len ms /\ (0 < Z.of_nat fuel -> k + Z.of_nat fuel <= len ms) /\
  (forall i, k <= i < k + Z.of_nat fuel -> exists m m', getz ms i = Some m /\ getz ms' i = Some m' /\ valid_changed (fun b b' => r_rate r rate b = Some b') m m') /\
  (forall i, ~ (k <= i < k + Z.of_nat fuel) -> getz ms' i = getz ms i).
Proof.
  induction fuel as [|fuel IH]; intros k rate ms ms' K E; cbn [rates_bones] in E.
  - injection E as <-. split; [reflexivity|]. split; [lia|]. split; [lia|auto].
  - destruct (getz ms k) as [m|] eqn:G; [|discriminate]. cbn in E. destruct (motivator_set_rate r rate m) as [m'|] eqn:Em; [|discriminate]. cbn in E. destruct (setz ms k m') as [ms1|] eqn:Es; [|discriminate]. cbn in E.
    apply IH in E; [|lia]. destruct E as (L & L2 & In1 & Out). pose proof (setz_len _ _ _ _ Es) as Ls. pose proof (getz_Some _ _ _ G) as RK. split; [lia|]. split; [intros _; destruct fuel; lia|]. split.
    + intros i I. destruct (Z.eq_dec i k) as [->|N].
      * exists m, m'. split; [exact G|]. rewrite Out by lia. split; [eapply getz_setz_eq, Es|apply rate_valid, Em].
      * destruct (In1 i) as (x & x' & G1 & G2 & V); [lia|]. exists x, x'. rewrite (getz_setz_neq _ _ _ _ _ Es N) in G1. auto.
    + intros i I. rewrite Out by lia. eapply getz_setz_neq; [exact Es|lia].
Qed.
Lemma rates_loop_ok : forall rates i n (ms ms' : list (option B)), 0 <= i -> 0 <= n -> rates_loop r rates i n ms = Some ms' ->
  len ms' = len ms /\ (0 < n -> 0 < len rates -> (i + len rates) * n <= len ms) /\
  (forall a j rate, getz rates a = Some rate -> 0 <= j < n -> exists m m', getz ms ((i + a) * n + j) = Some m /\ getz ms' ((i + a) * n + j) = Some m' /\ valid_changed (fun b b' => r_rate r rate b = Some b') m m') /\
  (forall k, ~ (i * n <= k < (i + len rates) * n) -> getz ms' k = getz ms k).
Proof.
  induction rates as [|rate rates IH]; intros i n ms ms' I0 N E; cbn [rates_loop] in E.
  - injection E as <-. split; [reflexivity|]. split; [change (len (@nil R)) with 0; lia|]. split; [intros a j rate G; pose proof (getz_Some _ _ _ G) as X; change (len (@nil R)) with 0 in X; lia|auto].
  - destruct (rates_bones r (Z.to_nat n) (i * n) rate ms) as [ms1|] eqn:Eb; [|discriminate]. cbn in E. apply rates_bones_ok in Eb; [|nia]. rewrite Z2Nat.id in Eb by lia. destruct Eb as (L1 & K1 & In1 & Out1).
    apply IH in E; [|lia|lia]. destruct E as (L2 & K2 & In2 & Out2). rewrite len_cons. pose proof (len_nonneg rates) as LR. split; [lia|]. split.
    { intros N0 _. destruct (Z.eq_dec (len rates) 0) as [E0|E0]; [rewrite E0; specialize (K1 N0); nia|]. specialize (K2 N0 ltac:(lia)). nia. }
    split.
    + intros a j x G J. pose proof (getz_Some _ _ _ G) as RA. rewrite len_cons in RA. destruct (Z.eq_dec a 0) as [->|NA].
      * cbn in G. injection G as <-. rewrite Z.add_0_r. destruct (In1 (i * n + j)) as (m & m' & G1 & G2 & V); [lia|]. exists m, m'. rewrite Out2 by nia. auto.
      * change (rate :: rates) with ([rate] ++ rates) in G. rewrite getz_app2 in G by (change (len [rate]) with 1; lia). change (len [rate]) with 1 in G.
        destruct (In2 (a - 1) j x G J) as (m & m' & G1 & G2 & V). replace (i + 1 + (a - 1)) with (i + a) in * by lia. exists m, m'. rewrite Out1 in G1 by nia. auto.
    + intros k K. rewrite Out2 by nia. apply Out1. nia.
Qed.

(** SetPlaybackRates sets the rate of the bones of each animation to the animation's rate;
    animations without a rate keep theirs. *)
Theorem C101_rates : forall rates (d d' : rig), rig_set_rates r rates d = Some d' ->
  rest_same d d' /\ len (motivators d') = len (motivators d) /\
  (forall a j rate, getz rates a = Some rate -> 0 <= j < num_bones (defining d) ->
     exists m m', getz (motivators d) (a * num_bones (defining d) + j) = Some m /\ getz (motivators d') (a * num_bones (defining d) + j) = Some m' /\
       valid_changed (fun b b' => r_rate r rate b = Some b') m m') /\
  (forall k, len rates * num_bones (defining d) <= k -> getz (motivators d') k = getz (motivators d) k).
Proof.
  intros rates d d' E. unfold rig_set_rates in E. destruct (rates_loop r rates 0 (num_bones (defining d)) (motivators d)) as [ms|] eqn:El; [|discriminate]. cbn in E. injection E as Q. apply with_motivators_iff in Q. destruct Q as [Q <-].
  assert (N : 0 <= num_bones (defining d)) by (unfold num_bones; apply Z.mod_pos_bound; lia). apply rates_loop_ok in El; [|lia|exact N]. destruct El as (L & _ & In1 & Out). split; [exact Q|]. split; [exact L|]. split; [exact In1|]. intros k K. apply Out. lia.
Qed.
Print Assumptions C101_rates.
(** More rates than animations: motivators are accessed out of range. *)
Theorem C101_rates_refuted : forall rates (d : rig), 0 < num_bones (defining d) -> len (motivators d) < len rates * num_bones (defining d) -> rig_set_rates r rates d = None.
Proof.
  intros rates d N L. unfold rig_set_rates. destruct (rates_loop r rates 0 (num_bones (defining d)) (motivators d)) as [ms|] eqn:El; [|reflexivity]. exfalso.
  apply rates_loop_ok in El; [|lia|lia]. destruct El as (_ & K & _). pose proof (len_nonneg rates). pose proof (len_nonneg (motivators d)). specialize (K N ltac:(nia)). lia.
Qed.
Print Assumptions C101_rates_refuted.

(** A rig that played an endless animation reports endless time, even after it was told not
    to repeat. *)
Theorem C101_time_refuted : forall (c : bclass B O) (d d' : rig), end_time d = 2147483647 -> rig_set_repeating r false d = Some d' -> rig_time_remaining c d' = Some 2147483647.
Proof. intros c d d' E H. apply C101_repeat in H. destruct H as [(_ & _ & _ & _ & _ & _ & T) _]. unfold rig_time_remaining, kMotiveTimeEndless. rewrite T, E. reflexivity. Qed.
Print Assumptions C101_time_refuted.
End Rig.

(** Two animations on three bones; the second has bones without motivators. *)
Definition demo_rates : rclass Z := RClass Z (fun _ b => Some (b + 100)) (fun rep b => Some (if rep then b + 1 else b)).
Definition demo_rig : rig_data Z Z := RigData [Some 1; Some 2; Some 3; None; Some 5; None] [] [1; 1]%R (RigAnim [MAnim false []; MAnim false []; MAnim false []] [255; 0; 0] [] 0 false) None 0 affine_identity 2147483647.
Example C101_case : exists d, rig_set_rates demo_rates [2%R] demo_rig = Some d /\ motivators d = [Some 101; Some 102; Some 103; None; Some 5; None].
Proof. eexists. split; reflexivity. Qed.
Example C101_case2 : exists d d', rig_set_rates demo_rates [2; 1]%R demo_rig = Some d /\ motivators d = [Some 101; Some 102; Some 103; None; Some 105; None] /\ rig_set_repeating demo_rates true d = Some d' /\ motivators d' = [Some 102; Some 103; Some 104; None; Some 106; None].
Proof. eexists. eexists. repeat split; reflexivity. Qed.
Example C101_refuted_case : rig_set_rates demo_rates [2; 1; 1]%R demo_rig = None /\ end_time demo_rig = 2147483647.
Proof. split; reflexivity. Qed.
