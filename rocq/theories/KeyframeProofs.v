(** The nodes that the keyframe loops produce. *)
From Verif Require Import RBase BaseFacts RangeModel CurveModel CompactSplineModel KeyframeModel KeyframeSpec KeyframeSplines.
From Coq Require Import Sorting.Sorted.
Local Open Scope Z_scope.

(** Keyframes processed so far, with their times. *)
Notation frames := (list (R * keyframe)).
Definition is_previous (k0 : keyframe) (done : frames) (k : keyframe) : Prop :=
  match done with [] => k = k0 | _ => exists t, getz done (len done - 1) = Some (t, k) end.
Lemma previous_snoc k0 done t k : is_previous k0 (done ++ [(t, k)]) k.
Proof.
  unfold is_previous. destruct (done ++ [(t, k)]) eqn:E; [destruct done; discriminate|]. rewrite <- E. exists t.
  apply getz_app. rewrite len_app. change (len [(t, k)]) with 1. lia.
Qed.

Lemma getz_snoc {A} (l : list A) x i y : getz (l ++ [x]) i = Some y -> (i < len l /\ getz l i = Some y) \/ (i = len l /\ y = x).
Proof.
  intros G. pose proof (getz_Some _ _ _ G) as R. rewrite len_app in R. change (len [x]) with 1 in R. destruct (Z.eq_dec i (len l)) as [->|N].
  - right. split; [reflexivity|]. rewrite getz_app in G by reflexivity. congruence.
  - left. split; [lia|]. now rewrite getz_app1 in G by lia.
Qed.

Lemma channels_ok f : forall chans c chans', channels_loop f c chans = Some chans' ->
  len chans' = len chans /\ forall i ns', getz chans' i = Some ns' -> exists ns, getz chans i = Some ns /\ f (c + i) ns = Some ns'.
Proof.
  induction chans as [|ns chans IH]; cbn [channels_loop]; intros c chans' H; [injection H as <-; split; [reflexivity|intros i ns' G; apply getz_Some in G; unfold len in G; cbn in G; lia]|].
  destruct (f c ns) as [n1|] eqn:E; [|discriminate]. destruct (channels_loop f (c + 1) chans) as [r|] eqn:R; [|discriminate]. injection H as <-.
  destruct (IH _ _ R) as [L K]. split; [rewrite !len_cons; lia|]. intros i ns' G. pose proof (getz_Some _ _ _ G). destruct (Z.eq_dec i 0) as [->|N].
  - injection G as <-. exists ns. split; [reflexivity|]. now rewrite Z.add_0_r.
  - change (n1 :: r) with ([n1] ++ r) in G. rewrite getz_app2 in G by (change (len [n1]) with 1; lia). change (len [n1]) with 1 in G.
    destruct (K _ _ G) as (m & M1 & M2). exists m. split.
    + change (ns :: chans) with ([ns] ++ chans). rewrite getz_app2 by (change (len [ns]) with 1; lia). exact M1.
    + rewrite <- M2. f_equal. lia.
Qed.

(** Invariants of the frame loop: [Q] of the keyframes, [I] of the nodes of a channel. *)
Lemma frames_ok data vf f k0 (Q : frames -> Prop) (I : frames -> Z -> list unode -> Prop) :
  (forall done prev t cur, Q done -> is_previous k0 done prev -> getz (kd_times data) (len done) = Some t -> vf (len done) prev prev = Some cur ->
     Q (done ++ [(to_ms t (kd_ms data), cur)])) ->
  (forall done prev t cur c ns ns', Q done -> Q (done ++ [(to_ms t (kd_ms data), cur)]) -> is_previous k0 done prev -> I done c ns -> 0 <= c ->
     f data (len done) (to_ms t (kd_ms data)) c cur prev ns = Some ns' -> I (done ++ [(to_ms t (kd_ms data), cur)]) c ns') ->
  forall n done prev chans chans', frames_loop data vf f n (len done) prev prev chans = Some chans' ->
  Q done -> is_previous k0 done prev -> (forall c ns, getz chans c = Some ns -> I done c ns) ->
  exists done', len done' = len done + Z.of_nat n /\ Q done' /\ len chans' = len chans /\ forall c ns, getz chans' c = Some ns -> I done' c ns.
Proof.
  intros HQ HI. induction n as [|n IH]; cbn [frames_loop]; intros done prev chans chans' H QD P ID.
  { injection H as <-. exists done. repeat split; auto. lia. }
  destruct (getz (kd_times data) (len done)) as [t|] eqn:T; [|discriminate]. destruct (vf (len done) prev prev) as [cur|] eqn:V; [|discriminate].
  destruct (channels_loop _ 0 chans) as [c1|] eqn:C; [|discriminate]. apply channels_ok in C. destruct C as [CL CC].
  pose proof (HQ _ _ _ _ QD P T V) as Q1.
  replace (len done + 1) with (len (done ++ [(to_ms t (kd_ms data), cur)])) in H by (rewrite len_app; reflexivity).
  destruct (IH _ _ _ _ H Q1 (previous_snoc _ _ _ _)) as (d' & D1 & D2 & D3 & D4).
  { intros c ns' G. destruct (CC _ _ G) as (ns & G1 & G2). pose proof (getz_Some _ _ _ G1). eapply HI; eauto; lia. }
  exists d'. split; [rewrite D1, len_app; change (len [(to_ms t (kd_ms data), cur)]) with 1; lia|]. split; [exact D2|]. split; [lia|exact D4].
Qed.

(** The value of a channel in a frame. *)
Definition fvalue (done : frames) (f c : Z) : option R := match getz done f with Some (_, k) => getz (kf_values k) c | None => None end.
Definition ftime (done : frames) (f : Z) : option R := match getz done f with Some (t, _) => Some t | None => None end.
(** Slope from frame [f] to the next; zero if there is none, or no time passes. *)
Definition slope (done : frames) (c f : Z) : R :=
  match ftime done f, fvalue done f c, ftime done (f + 1), fvalue done (f + 1) c with
  | Some t, Some v, Some t', Some v' => if Rltb 0 (t' - t) then ((v' - v) / (t' - t))%R else 0%R
  | _, _, _, _ => 0%R
  end.

Definition linear_inv (count : Z) (done : frames) (c : Z) (ns : list unode) : Prop :=
  len ns = 2 * count /\ (forall j, 2 * len done <= j < 2 * count -> getz ns j = Some (UNode 0 0 0)) /\
  forall f, 0 <= f < len done -> exists t v, ftime done f = Some t /\ fvalue done f c = Some v /\
    getz ns (2 * f) = Some (UNode t v (slope done c (f - 1))) /\ getz ns (2 * f + 1) = Some (UNode t v (slope done c f)).
Definition step_inv (count : Z) (done : frames) (c : Z) (ns : list unode) : Prop :=
  len ns = 2 * count /\ forall f, 0 <= f < len done -> exists t v w, ftime done f = Some t /\ fvalue done f c = Some v /\
    (if f =? 0 then w = v else fvalue done (f - 1) c = Some w) /\
    getz ns (2 * f) = Some (UNode t w 0) /\ getz ns (2 * f + 1) = Some (UNode t v 0).
Definition cubic_inv (ms : R) (count : Z) (done : frames) (c : Z) (ns : list unode) : Prop :=
  len ns = 2 * count /\ forall f, 0 <= f < len done -> exists t k v l r, getz done f = Some (t, k) /\
    getz (kf_values k) c = Some v /\ getz (kf_left k) c = Some l /\ getz (kf_right k) c = Some r /\
    getz ns (2 * f) = Some (UNode t v (l / ms)) /\ getz ns (2 * f + 1) = Some (UNode t v (r / ms)).

Lemma ftime_snoc done t k f : ftime (done ++ [(t, k)]) f = if f <? len done then ftime done f else if f =? len done then Some t else None.
Proof.
  unfold ftime. destruct (Z.ltb_spec f (len done)); [now rewrite getz_app1 by lia|]. destruct (Z.eqb_spec f (len done)) as [->|N]; [now rewrite getz_app|].
  rewrite (getz_None _ f); [reflexivity|]. rewrite len_app. change (len [(t, k)]) with 1. lia.
Qed.
Lemma fvalue_snoc done t k f c : fvalue (done ++ [(t, k)]) f c = if f <? len done then fvalue done f c else if f =? len done then getz (kf_values k) c else None.
Proof.
  unfold fvalue. destruct (Z.ltb_spec f (len done)); [now rewrite getz_app1 by lia|]. destruct (Z.eqb_spec f (len done)) as [->|N]; [now rewrite getz_app|].
  rewrite (getz_None _ f); [reflexivity|]. rewrite len_app. change (len [(t, k)]) with 1. lia.
Qed.
Lemma slope_before done t k c f : f + 1 < len done -> slope (done ++ [(t, k)]) c f = slope done c f.
Proof.
  intros H. unfold slope. rewrite !ftime_snoc, !fvalue_snoc. destruct (Z.ltb_spec f (len done)); [|lia]. now destruct (Z.ltb_spec (f + 1) (len done)); [|lia].
Qed.
Lemma slope_end done c f : len done <= f + 1 -> slope done c f = 0%R.
Proof.
  intros H. unfold slope, ftime at 2. destruct (ftime done f); [|reflexivity]. destruct (fvalue done f c); [|reflexivity].
  rewrite (getz_None done (f + 1)) by lia. reflexivity.
Qed.
Lemma slope_start done c f : f < 0 -> slope done c f = 0%R.
Proof. intros H. unfold slope, ftime at 1. now rewrite (getz_None done f) by lia. Qed.

Ltac sets := repeat match goal with H : setz ?l ?i ?x = Some ?l' |- _ =>
  let L := fresh "L" in let E := fresh "E" in let N := fresh "N" in
  assert (len l' = len l) as L by (eapply setz_len; exact H);
  assert (getz l' i = Some x) as E by (eapply getz_setz_eq; exact H);
  assert (forall j, j <> i -> getz l' j = getz l j) as N by (intros; eapply getz_setz_neq; [exact H|assumption]);
  clear H end.
Ltac gets := repeat first [assumption | reflexivity
  | match goal with E : getz ?a ?i = Some _ |- getz ?a ?k = _ => replace k with i by lia; rewrite E; reflexivity end
  | match goal with N : forall j, j <> _ -> getz ?a j = _ |- getz ?a ?k = _ => rewrite (N k) by lia end].

Lemma linear_step data k0 done prev t cur c ns ns' : linear_inv (kd_count data) done c ns -> is_previous k0 done prev ->
  linear_channel data (len done) t c cur prev ns = Some ns' -> linear_inv (kd_count data) (done ++ [(t, cur)]) c ns'.
Proof.
  intros (LN & Z & F) _ H. unfold linear_channel in H. set (n := len done) in *. pose proof (len_nonneg done : 0 <= n).
  assert (LD : len (done ++ [(t, cur)]) = n + 1) by (rewrite len_app; reflexivity).
  destruct (getz (kf_values cur) c) as [v|] eqn:V; [|discriminate]. destruct (getz ns (n * 2)) as [left|] eqn:GL; [|discriminate].
  pose proof (getz_Some _ _ _ GL) as RL. assert (left = UNode 0 0 0) as -> by (rewrite Z in GL by lia; congruence).
  destruct (setz ns (n * 2) _) as [n1|] eqn:S1; [|discriminate]. destruct (getz n1 (n * 2 + 1)) as [right|] eqn:GR; [|discriminate].
  destruct (setz n1 (n * 2 + 1) _) as [n2|] eqn:S2; [|discriminate].
  assert (right = UNode 0 0 0) as ->. { pose proof (getz_Some _ _ _ GR) as RR. rewrite (getz_setz_neq _ _ _ _ _ S1) in GR by lia. apply setz_len in S1. rewrite Z in GR by lia. congruence. }
  cbn [uderivative] in *. destruct (Z.eqb_spec (n * 2) 0) as [N0|N0].
  - assert (n = 0) by lia. sets. split; [lia|]. split.
    + intros j J. rewrite LD in J. gets. apply Z. lia.
    + intros f FR. assert (f = 0) as -> by lia. exists t, v. rewrite ftime_snoc, fvalue_snoc. fold n. replace (0 <? n) with false by lia. replace (0 =? n) with true by lia.
      split; [reflexivity|]. split; [exact V|]. rewrite slope_start, slope_end by lia. split; gets.
  - destruct (getz n2 (n * 2 - 1)) as [pr|] eqn:GP; [|discriminate]. cbv zeta in H.
    destruct (F (n - 1) ltac:(lia)) as (t0 & v0 & T0 & V0 & G0 & G1).
    set (tangent := if Rltb 0 (t - ux pr) then ((v - uy pr) / (t - ux pr))%R else 0%R) in *.
    destruct (setz n2 (n * 2 - 1) _) as [n3|] eqn:S3; [|discriminate]. destruct (setz n3 (n * 2) _) as [n4|] eqn:S4; [|discriminate].
    assert (pr = UNode t0 v0 (slope done c (n - 1))) as PR.
    { rewrite (getz_setz_neq _ _ _ _ _ S2) in GP by lia. rewrite (getz_setz_neq _ _ _ _ _ S1) in GP by lia. replace (n * 2 - 1) with (2 * (n - 1) + 1) in GP by lia. congruence. }
    assert (TS : tangent = slope (done ++ [(t, cur)]) c (n - 1)).
    { unfold slope. rewrite !ftime_snoc, !fvalue_snoc. fold n. replace (n - 1 <? n) with true by lia. replace (n - 1 + 1) with n by lia. replace (n <? n) with false by lia. rewrite Z.eqb_refl, T0, V0, V.
      unfold tangent. rewrite PR. reflexivity. }
    assert (KEY : len ns' = len ns /\ getz ns' (n * 2 - 1) = Some (UNode t0 v0 tangent) /\ getz ns' (n * 2) = Some (UNode t v tangent) /\ getz ns' (n * 2 + 1) = Some (UNode t v 0) /\
      forall j, j < n * 2 - 1 \/ n * 2 + 1 < j -> getz ns' j = getz ns j).
    { rewrite PR in S3. cbn [ux uy] in S3. clearbody tangent.
      assert (K4 : len n4 = len ns /\ getz n4 (n * 2 - 1) = Some (UNode t0 v0 tangent) /\ getz n4 (n * 2) = Some (UNode t v tangent) /\ getz n4 (n * 2 + 1) = Some (UNode t v 0) /\
        forall j, j < n * 2 - 1 \/ n * 2 + 1 < j -> getz n4 j = getz ns j).
      { clear H. sets. split; [lia|]. split; [gets|]. split; [gets|]. split; [gets|].
        intros j J. gets. }
      destruct K4 as (K1 & K2 & K3 & K4 & K5). destruct (n =? kd_count data - 1); [|injection H as <-; auto].
      clear S1 S2 S3 S4. sets. split; [lia|]. split; [gets|]. split; [gets|]. split; [gets|].
      intros j J. gets. auto. }
    destruct KEY as (K1 & K2 & K3 & K4 & K5). split; [lia|]. split.
    + intros j J. rewrite LD in J. rewrite K5 by lia. apply Z. lia.
    + intros f FR. rewrite LD in FR. rewrite ftime_snoc, fvalue_snoc. fold n. destruct (Z.ltb_spec f n) as [L|L].
      * destruct (F f ltac:(lia)) as (tf & vf & A1 & A2 & A3 & A4). exists tf, vf. split; [exact A1|]. split; [exact A2|].
        rewrite K5 by lia. rewrite slope_before by (fold n; lia). split; [exact A3|]. destruct (Z.eq_dec f (n - 1)) as [->|NE].
        -- replace (2 * (n - 1) + 1) with (n * 2 - 1) by lia. rewrite K2, <- TS. congruence.
        -- rewrite K5 by lia. rewrite slope_before by (fold n; lia). exact A4.
      * assert (f = n) as -> by lia. rewrite Z.eqb_refl. exists t, v. split; [reflexivity|]. split; [exact V|].
        replace (2 * n) with (n * 2) by lia. rewrite K3, K4, <- TS, slope_end by lia. auto.
Qed.

Lemma step_step data k0 done prev t cur c ns ns' : step_inv (kd_count data) done c ns -> is_previous k0 done prev ->
  step_channel data (len done) t c cur prev ns = Some ns' -> step_inv (kd_count data) (done ++ [(t, cur)]) c ns'.
Proof.
  intros (LN & F) P H. unfold step_channel in H. set (n := len done) in *. pose proof (len_nonneg done : 0 <= n).
  assert (LD : len (done ++ [(t, cur)]) = n + 1) by (rewrite len_app; reflexivity).
  destruct (getz (kf_values cur) c) as [v|] eqn:V; [|discriminate]. destruct (getz ns (n * 2)) as [left|] eqn:GL; [|discriminate].
  destruct (setz ns (n * 2) _) as [n1|] eqn:S1; [|discriminate]. destruct (setz n1 (n * 2 + 1) _) as [n2|] eqn:S2; [|discriminate].
  assert (KEY : exists w, len ns' = len ns /\ (if n =? 0 then w = v else fvalue done (n - 1) c = Some w) /\ getz ns' (n * 2) = Some (UNode t w 0) /\ getz ns' (n * 2 + 1) = Some (UNode t v 0) /\
      forall j, j < n * 2 -> getz ns' j = getz ns j).
  { destruct (Z.eqb_spec (n * 2) 0) as [N0|N0].
    - exists v. sets. replace (n =? 0) with true by lia. split; [lia|]. split; [reflexivity|]. split; [gets|]. split; [gets|]. intros j J. gets.
    - destruct (getz (kf_values prev) c) as [w|] eqn:W; [|discriminate]. exists w. sets. replace (n =? 0) with false by lia. split; [lia|]. split.
      + unfold fvalue. unfold is_previous in P. destruct done as [|d done]; [cbn in *; lia|]. destruct P as [tp P]. fold n in P. now rewrite P.
      + split; [gets|]. split; [gets|]. intros j J. gets. }
  destruct KEY as (w & K1 & KW & K2 & K3 & K4). split; [lia|]. intros f FR. rewrite LD in FR. rewrite ftime_snoc, !fvalue_snoc. fold n. destruct (Z.ltb_spec f n) as [L|L].
  - destruct (F f ltac:(lia)) as (tf & vf & wf & A1 & A2 & A3 & A4 & A5). exists tf, vf, wf. replace (f - 1 <? n) with true by lia. rewrite !K4 by lia. auto.
  - assert (f = n) as -> by lia. rewrite Z.eqb_refl. exists t, v, w. replace (n - 1 <? n) with true by lia. replace (2 * n) with (n * 2) by lia. auto.
Qed.

Lemma cubic_step data done prev t cur c ns ns' : cubic_inv (kd_ms data) (kd_count data) done c ns ->
  cubic_channel data (len done) t c cur prev ns = Some ns' -> cubic_inv (kd_ms data) (kd_count data) (done ++ [(t, cur)]) c ns'.
Proof.
  intros (LN & F) H. unfold cubic_channel, tangent_to_ms in H. set (n := len done) in *. pose proof (len_nonneg done : 0 <= n).
  assert (LD : len (done ++ [(t, cur)]) = n + 1) by (rewrite len_app; reflexivity).
  destruct (getz (kf_values cur) c) as [v|] eqn:V; [|discriminate]. destruct (getz (kf_left cur) c) as [l|] eqn:GL; [|discriminate].
  destruct (negb (Reqb (kd_ms data) 0)); [|discriminate]. destruct (setz ns (n * 2) _) as [n1|] eqn:S1; [|discriminate].
  destruct (getz (kf_right cur) c) as [r|] eqn:GR; [|discriminate]. sets. split; [lia|]. intros f FR. rewrite LD in FR. destruct (Z.eq_dec f n) as [->|NE].
  - exists t, cur, v, l, r. rewrite getz_app by reflexivity. repeat (split; [first [reflexivity|assumption|gets]|]). gets.
  - destruct (F f ltac:(lia)) as (tf & k & vf & lf & rf & A1 & A2 & A3 & A4 & A5 & A6). exists tf, k, vf, lf, rf. rewrite getz_app1 by (fold n; lia).
    repeat (split; [first [assumption|gets]|]). gets; assumption.
Qed.

(** * The nodes in terms of the arrays *)
Lemma slice_ok l st n r : slice l st n = Some r -> len r = n /\ forall c, 0 <= c < n -> getz r c = getz l (st + c).
Proof.
  unfold slice. destruct (_ && _) eqn:B; [|discriminate]. intros E. injection E as <-. apply andb_prop in B. destruct B as [B1 B2]. apply andb_prop in B1. destruct B1 as [B0 B1].
  assert (0 <= st /\ 0 <= n /\ st + n <= len l) as (H1 & H2 & H3) by lia. clear B0 B1 B2. split.
  - unfold len in *. rewrite firstn_length, skipn_length. lia.
  - intros c C. rewrite getz_firstn. destruct (Z.ltb_spec c (Z.of_nat (Z.to_nat n))); [|lia]. rewrite getz_skipn by lia. f_equal. lia.
Qed.
Lemma slice_some l st n : 0 <= st -> 0 <= n -> st + n <= len l -> exists r, slice l st n = Some r.
Proof. intros. unfold slice. replace ((0 <=? st) && (0 <=? n) && (st + n <=? len l)) with true by lia. eauto. Qed.

Definition frame_time (data : keyframe_data) (f : Z) (t : R) : Prop := exists t0, getz (kd_times data) f = Some t0 /\ t = to_ms t0 (kd_ms data).
(** Keyframes read from linear or step data; from cubic data; quaternions from linear data. *)
Definition array_frames (data : keyframe_data) (ch : Z) (done : frames) : Prop :=
  forall f t k, getz done f = Some (t, k) -> frame_time data f t /\ len (kf_values k) = ch /\
    forall c, 0 <= c < ch -> getz (kf_values k) c = getz (kd_values data) (f * ch + c).
Definition cubic_frames (data : keyframe_data) (ch : Z) (done : frames) : Prop :=
  forall f t k, getz done f = Some (t, k) -> frame_time data f t /\ (len (kf_values k) = ch /\ len (kf_left k) = ch /\ len (kf_right k) = ch) /\
    forall c, 0 <= c < ch -> getz (kf_values k) c = cubic_value data ch f c /\ getz (kf_left k) c = cubic_left data ch f c /\ getz (kf_right k) c = cubic_right data ch f c.
Definition quat_frames (data : keyframe_data) (done : frames) : Prop :=
  (forall f t k, getz done f = Some (t, k) -> frame_time data f t /\ len (kf_values k) = 4 /\
    ((forall c, 0 <= c < 4 -> getz (kf_values k) c = getz (kd_values data) (f * 4 + c)) \/
     (0 < f /\ forall c, 0 <= c < 4 -> exists v, getz (kd_values data) (f * 4 + c) = Some v /\ getz (kf_values k) c = Some (- v)%R))) /\
  (forall f t k t' k', getz done f = Some (t, k) -> getz done (f + 1) = Some (t', k') -> (0 <= dot (kf_values k) (kf_values k'))%R).

Lemma array_frames_snoc data ch done t cur prev out : kd_type data <> CubicSpline -> array_frames data ch done -> getz (kd_times data) (len done) = Some t ->
  get_array_value data ch (len done) out prev = Some cur -> array_frames data ch (done ++ [(to_ms t (kd_ms data), cur)]).
Proof.
  intros T Q GT V f t' k G. apply getz_snoc in G. destruct G as [[L G]|[-> E]]; [now apply Q|]. injection E as -> ->. split; [exists t; auto|].
  unfold get_array_value in V. destruct (kd_type data); try congruence; (destruct (slice _ _ _) as [v|] eqn:S; [|discriminate]); injection V as <-; cbn [kf_values]; apply slice_ok in S; exact S.
Qed.
Lemma cubic_frames_snoc data ch done t cur prev out : kd_type data = CubicSpline -> cubic_frames data ch done -> getz (kd_times data) (len done) = Some t ->
  get_array_value data ch (len done) out prev = Some cur -> cubic_frames data ch (done ++ [(to_ms t (kd_ms data), cur)]).
Proof.
  intros T Q GT V f t' k G. apply getz_snoc in G. destruct G as [[L G]|[-> E]]; [now apply Q|]. injection E as -> ->. split; [exists t; auto|].
  unfold get_array_value in V. rewrite T in V. destruct (slice _ _ _) as [l|] eqn:S1; [|discriminate]. destruct (slice _ (_ + ch) _) as [v|] eqn:S2 in V; [|discriminate].
  destruct (slice _ _ _) as [r|] eqn:S3 in V; [|discriminate]. injection V as <-. cbn [kf_values kf_left kf_right]. apply slice_ok in S1, S2, S3.
  destruct S1 as [A1 B1], S2 as [A2 B2], S3 as [A3 B3]. split; [auto|]. intros c C. rewrite B1, B2, B3 by lia. unfold cubic_value, cubic_left, cubic_right. repeat split; f_equal; lia.
Qed.
Lemma len4 (l : list R) : len l = 4 -> exists a b c d, l = [a; b; c; d].
Proof. unfold len. intros H. destruct l as [|a [|b [|c [|d [|e l]]]]]; cbn in H; try lia. eauto. Qed.
Lemma quat_frames_snoc data done t cur prev k0 : kd_type data = Linear -> len (kf_values k0) = 4 -> quat_frames data done -> is_previous k0 done prev -> getz (kd_times data) (len done) = Some t ->
  get_quaternion_value data (len done) prev prev = Some cur -> quat_frames data (done ++ [(to_ms t (kd_ms data), cur)]).
Proof.
  intros T K0 [Q1 Q2] P GT V. unfold get_quaternion_value in V. rewrite T in V. destruct (get_array_value data 4 (len done) prev prev) as [o|] eqn:A; [|discriminate].
  unfold get_array_value in A. rewrite T in A. destruct (slice _ _ _) as [v|] eqn:S; [|discriminate]. injection A as <-. apply slice_ok in S. destruct S as [L4 SV]. cbn [kf_values kf_left kf_right] in V.
  assert (FT : frame_time data (len done) (to_ms t (kd_ms data))) by (exists t; auto).
  destruct (len4 v L4) as (a & b & c & d & ->). 
  assert (NOW : ((forall c, 0 <= c < 4 -> getz (kf_values cur) c = getz (kd_values data) (len done * 4 + c)) \/
     (0 < len done /\ forall c, 0 <= c < 4 -> exists v, getz (kd_values data) (len done * 4 + c) = Some v /\ getz (kf_values cur) c = Some (- v)%R)) /\ len (kf_values cur) = 4 /\
     (0 < len done -> (0 <= dot (kf_values prev) (kf_values cur))%R)).
  { destruct (Z.ltb_spec 0 (len done)) as [L|L]; [|injection V as <-; cbn [kf_values]; split; [auto|]; split; [auto|lia]].
    assert (exists tp, getz done (len done - 1) = Some (tp, prev)) as [tp GP] by (unfold is_previous in P; destruct done; [change (len (@nil (R * keyframe))) with 0 in L; lia|exact P]).
    destruct (Q1 _ _ _ GP) as (_ & LP & _). destruct (len4 _ LP) as (a' & b' & c' & d' & PE). rewrite PE in *.
    destruct (Rltb_spec (a * a' + b * b' + c * c' + d * d')%R 0) as [D|D]; injection V as <-; cbn [kf_values dot].
    - split; [right; split; [exact L|]|]. 2: { split; [reflexivity|]. intros _. lra. }
      intros i I. pose proof (SV i I) as SI. assert (i = 0 \/ i = 1 \/ i = 2 \/ i = 3) as [->|[->|[->| ->]]] by lia;
        match type of SI with getz ?l ?j = _ => let v := eval cbv in (getz l j) in change (getz l j) with v in SI end;
        (eexists; split; [symmetry; exact SI|]); match goal with |- getz ?l ?j = _ => let v := eval cbv -[Rmult Ropp IZR] in (getz l j) in change (getz l j) with v end; f_equal; ring.
    - split; [left; exact SV|]. split; [reflexivity|]. intros _. lra. }
  destruct NOW as (N1 & N2 & N3). split.
  - intros f t' k G. apply getz_snoc in G. destruct G as [[L G]|[-> E]]; [now apply Q1|]. injection E as -> ->. auto.
  - intros f t1 k1 t2 k2 G1 G2. apply getz_snoc in G1, G2. destruct G2 as [[L2 G2]|[E2 X2]].
    + destruct G1 as [[L1 G1]|[E1 _]]; [eauto|lia].
    + injection X2 as -> ->. destruct G1 as [[L1 G1]|[E1 _]]; [|lia]. pose proof (getz_Some _ _ _ G1).
      assert (k1 = prev) as ->. { unfold is_previous in P. destruct done as [|x done']; [change (len (@nil (R * keyframe))) with 0 in *; lia|]. destruct P as [tp GP]. replace (len (x :: done') - 1) with f in GP by lia. congruence. }
      apply N3. lia.
Qed.

Lemma getz_repeat_inv {A} (x : A) n i y : getz (repeat x n) i = Some y -> y = x.
Proof. intros G. apply getz_in in G. now apply repeat_spec in G. Qed.
Lemma zeros_at n j : 0 <= j < n -> getz (repeat (UNode 0 0 0) (Z.to_nat n)) j = Some (UNode 0 0 0).
Proof.
  intros J. destruct (getz_in_range (repeat (UNode 0 0 0) (Z.to_nat n)) j) as [u U]; [rewrite len_repeat; lia|]. rewrite U. f_equal. eapply getz_repeat_inv. exact U.
Qed.

Section Run.
Context (data : keyframe_data) (ch : Z) (vf : Z -> keyframe -> keyframe -> option keyframe) (chans : list (list unode)).
Context (RUN : add_keyframe_data data ch vf = Some chans).
Let k0 := new_keyframe ch.

Lemma run_linear (Q : frames -> Prop) : kd_type data = Linear -> Q [] ->
  (forall done prev t cur, Q done -> is_previous k0 done prev -> getz (kd_times data) (len done) = Some t -> vf (len done) prev prev = Some cur ->
     Q (done ++ [(to_ms t (kd_ms data), cur)])) ->
  exists done, len done = kd_count data /\ Q done /\ len chans = Z.of_nat (Z.to_nat ch) /\ forall c ns, getz chans c = Some ns -> linear_inv (kd_count data) done c ns.
Proof.
  intros T Q0 QS. pose proof RUN as H. unfold add_keyframe_data in H. rewrite T in H. destruct (Z.leb_spec 0 (kd_count data)) as [C|]; [|discriminate].
  destruct (frames_ok data vf linear_channel k0 Q (linear_inv (kd_count data)) QS (fun done prev t cur c ns ns' _ _ P I _ E => linear_step data k0 done prev _ cur c ns ns' I P E) _ [] k0 _ _ H Q0 eq_refl) as (done & D1 & D2 & D3 & D4).
  - intros c ns G. apply getz_repeat_inv in G. subst ns. split; [rewrite len_repeat; lia|]. split; [intros j J; apply zeros_at; change (len (@nil (R * keyframe))) with 0 in J; lia|].
    intros f F. change (len (@nil (R * keyframe))) with 0 in F. lia.
  - exists done. split; [rewrite D1; change (len (@nil (R * keyframe))) with 0; lia|]. rewrite D3, len_repeat. auto.
Qed.
Lemma run_step (Q : frames -> Prop) : kd_type data = Step -> Q [] ->
  (forall done prev t cur, Q done -> is_previous k0 done prev -> getz (kd_times data) (len done) = Some t -> vf (len done) prev prev = Some cur ->
     Q (done ++ [(to_ms t (kd_ms data), cur)])) ->
  exists done, len done = kd_count data /\ Q done /\ len chans = Z.of_nat (Z.to_nat ch) /\ forall c ns, getz chans c = Some ns -> step_inv (kd_count data) done c ns.
Proof.
  intros T Q0 QS. pose proof RUN as H. unfold add_keyframe_data in H. rewrite T in H. destruct (Z.leb_spec 0 (kd_count data)) as [C|]; [|discriminate].
  destruct (frames_ok data vf step_channel k0 Q (step_inv (kd_count data)) QS (fun done prev t cur c ns ns' _ _ P I _ E => step_step data k0 done prev _ cur c ns ns' I P E) _ [] k0 _ _ H Q0 eq_refl) as (done & D1 & D2 & D3 & D4).
  - intros c ns G. apply getz_repeat_inv in G. subst ns. split; [rewrite len_repeat; lia|].
    intros f F. change (len (@nil (R * keyframe))) with 0 in F. lia.
  - exists done. split; [rewrite D1; change (len (@nil (R * keyframe))) with 0; lia|]. rewrite D3, len_repeat. auto.
Qed.
Lemma run_cubic (Q : frames -> Prop) : kd_type data = CubicSpline -> Q [] ->
  (forall done prev t cur, Q done -> is_previous k0 done prev -> getz (kd_times data) (len done) = Some t -> vf (len done) prev prev = Some cur ->
     Q (done ++ [(to_ms t (kd_ms data), cur)])) ->
  exists done, len done = kd_count data /\ Q done /\ len chans = Z.of_nat (Z.to_nat ch) /\ forall c ns, getz chans c = Some ns -> cubic_inv (kd_ms data) (kd_count data) done c ns.
Proof.
  intros T Q0 QS. pose proof RUN as H. unfold add_keyframe_data in H. rewrite T in H. destruct (Z.leb_spec 0 (kd_count data)) as [C|]; [|discriminate].
  destruct (frames_ok data vf cubic_channel k0 Q (cubic_inv (kd_ms data) (kd_count data)) QS (fun done prev t cur c ns ns' _ _ P I _ E => cubic_step data done prev _ cur c ns ns' I E) _ [] k0 _ _ H Q0 eq_refl) as (done & D1 & D2 & D3 & D4).
  - intros c ns G. apply getz_repeat_inv in G. subst ns. split; [rewrite len_repeat; lia|].
    intros f F. change (len (@nil (R * keyframe))) with 0 in F. lia.
  - exists done. split; [rewrite D1; change (len (@nil (R * keyframe))) with 0; lia|]. rewrite D3, len_repeat. auto.
Qed.
End Run.

(** Slope between two keyframes of linear data, zero where there is none. *)
Definition key_slope (data : keyframe_data) (ch c f : Z) : R :=
  match key_time data f, key_value data ch f c, key_time data (f + 1), key_value data ch (f + 1) c with
  | Some t, Some v, Some t', Some v' => if Rltb 0 (t' - t) then ((v' - v) / (t' - t))%R else 0%R
  | _, _, _, _ => 0%R
  end.

Lemma frame_at data ch done f : array_frames data ch done -> len done = kd_count data -> 0 <= f -> ftime done f = key_time data f /\
  forall c, 0 <= c < ch -> fvalue done f c = key_value data ch f c.
Proof.
  intros Q L F. unfold ftime, fvalue, key_time, key_value. destruct (Z.ltb_spec f (kd_count data)) as [B|B].
  - destruct (getz_in_range done f) as [[t k] G]; [lia|]. rewrite G. destruct (Q _ _ _ G) as ((t0 & T1 & T2) & K1 & K2). rewrite T1. split; [now rewrite T2|exact K2].
  - rewrite (getz_None done f) by lia. auto.
Qed.
Lemma key_negative data f : f < 0 -> key_time data f = None.
Proof. intros F. unfold key_time. rewrite (getz_None _ f) by lia. now destruct (_ <? _). Qed.
Lemma slope_at data ch done c f : array_frames data ch done -> len done = kd_count data -> 0 <= c < ch -> slope done c f = key_slope data ch c f.
Proof.
  intros Q L C. unfold key_slope. destruct (Z.ltb_spec f 0) as [N|N].
  - rewrite slope_start by lia. now rewrite key_negative.
  - unfold slope. destruct (frame_at data ch done f Q L N) as [-> ->]; [|exact C]. destruct (frame_at data ch done (f + 1) Q L ltac:(lia)) as [-> ->]; [reflexivity|exact C].
Qed.

Lemma array_linear data ch chans c ns : kd_type data = Linear -> array_nodes data ch = Some chans -> getz chans c = Some ns ->
  len ns = 2 * kd_count data /\ forall f, 0 <= f < kd_count data -> exists t v, key_time data f = Some t /\ key_value data ch f c = Some v /\
    getz ns (2 * f) = Some (UNode t v (key_slope data ch c (f - 1))) /\ getz ns (2 * f + 1) = Some (UNode t v (key_slope data ch c f)).
Proof.
  intros T RN G. destruct (run_linear data ch _ chans RN (array_frames data ch) T) as (done & L & Q & LC & H).
  { intros f t k E. apply getz_Some in E. change (len (@nil (R * keyframe))) with 0 in E. lia. }
  { intros. eapply array_frames_snoc; eauto. congruence. }
  assert (C : 0 <= c < ch) by (pose proof (getz_Some _ _ _ G); lia).
  destruct (H _ _ G) as (H1 & _ & H2). split; [exact H1|]. intros f F. destruct (H2 f ltac:(lia)) as (t & v & A1 & A2 & A3 & A4). exists t, v.
  destruct (frame_at data ch done f Q L ltac:(lia)) as [E1 E2]. rewrite <- E1, <- (E2 c C). rewrite !(slope_at data ch) in * by assumption. auto.
Qed.
Lemma array_step data ch chans c ns : kd_type data = Step -> array_nodes data ch = Some chans -> getz chans c = Some ns ->
  len ns = 2 * kd_count data /\ forall f, 0 <= f < kd_count data -> exists t v w, key_time data f = Some t /\ key_value data ch f c = Some v /\
    (if f =? 0 then w = v else key_value data ch (f - 1) c = Some w) /\ getz ns (2 * f) = Some (UNode t w 0) /\ getz ns (2 * f + 1) = Some (UNode t v 0).
Proof.
  intros T RN G. destruct (run_step data ch _ chans RN (array_frames data ch) T) as (done & L & Q & LC & H).
  { intros f t k E. apply getz_Some in E. change (len (@nil (R * keyframe))) with 0 in E. lia. }
  { intros. eapply array_frames_snoc; eauto. congruence. }
  assert (C : 0 <= c < ch) by (pose proof (getz_Some _ _ _ G); lia).
  destruct (H _ _ G) as (H1 & H2). split; [exact H1|]. intros f F. destruct (H2 f ltac:(lia)) as (t & v & w & A1 & A2 & A3 & A4 & A5). exists t, v, w.
  destruct (frame_at data ch done f Q L ltac:(lia)) as [E1 E2]. rewrite <- E1, <- (E2 c C). split; [exact A1|]. split; [exact A2|]. split; [|auto].
  destruct (Z.eqb_spec f 0); [exact A3|]. destruct (frame_at data ch done (f - 1) Q L ltac:(lia)) as [E1' E2']. now rewrite <- (E2' c C).
Qed.
Lemma array_cubic data ch chans c ns : kd_type data = CubicSpline -> array_nodes data ch = Some chans -> getz chans c = Some ns ->
  len ns = 2 * kd_count data /\ forall f, 0 <= f < kd_count data -> exists t v l r, key_time data f = Some t /\
    cubic_value data ch f c = Some v /\ cubic_left data ch f c = Some l /\ cubic_right data ch f c = Some r /\
    getz ns (2 * f) = Some (UNode t v (l / kd_ms data)) /\ getz ns (2 * f + 1) = Some (UNode t v (r / kd_ms data)).
Proof.
  intros T RN G. destruct (run_cubic data ch _ chans RN (cubic_frames data ch) T) as (done & L & Q & LC & H).
  { intros f t k E. apply getz_Some in E. change (len (@nil (R * keyframe))) with 0 in E. lia. }
  { intros. eapply cubic_frames_snoc; eauto. }
  assert (C : 0 <= c < ch) by (pose proof (getz_Some _ _ _ G); lia).
  destruct (H _ _ G) as (H1 & H2). split; [exact H1|]. intros f F. destruct (H2 f ltac:(lia)) as (t & k & v & l & r & A1 & A2 & A3 & A4 & A5 & A6).
  destruct (Q _ _ _ A1) as ((t0 & T1 & T2) & _ & K). destruct (K c C) as (K1 & K2 & K3). exists t, v, l, r.
  split; [unfold key_time; replace (f <? kd_count data) with true by lia; rewrite T1, T2; reflexivity|]. rewrite <- K1, <- K2, <- K3. auto 10.
Qed.
