(** C124: motivators whose initialisers come from a file. *)
From Verif Require Import RBase RangeModel OvershootModel RoundModel RoundProofs RoundOvershootModel RoundOvershootProps InitFileModel.

(** What is done with a motivator: it is given targets, or a frame passes. *)
Inductive call := SetTarget (nodes : list (R * R * Z)) | Frame (delta_time : Z).
Fixpoint run (rnd : R -> R) (calls : list call) (x : odata * R) : option (odata * R) :=
  match calls with
  | [] => Some x
  | SetTarget nodes :: l => x' <- set_target_index nodes x ;; run rnd l x'
  | Frame t :: l => x' <- f_frames rnd [t] x ;; run rnd l x'
  end.
(** Values and velocities of the nodes of all targets; a target has a node. *)
Definition targets_ok (value velocity : R -> Prop) (calls : list call) : Prop :=
  Forall (fun c => match c with SetTarget nodes => nodes <> [] /\ Forall (fun n => value (fst (fst n)) /\ velocity (snd (fst n))) nodes | Frame _ => True end) calls.

(** Setting targets keeps what is known of value, target and velocity. *)
Lemma set_target_keeps (V W : R -> Prop) nodes x : nodes <> [] -> Forall (fun n => V (fst (fst n)) /\ W (snd (fst n))) nodes ->
  V (snd x) -> V (target_value (fst x)) -> W (velocity (fst x)) ->
  exists x', set_target_index nodes x = Some x' /\ V (snd x') /\ V (target_value (fst x')) /\ W (velocity (fst x')) /\ init_of (fst x') = init_of (fst x).
Proof.
  destruct x as [[v t i] y]. cbn [fst snd velocity target_value init_of]. intros N F VY VT WV. destruct nodes as [|[[w vel] time] rest]; [easy|]. inversion F as [|? ? [F1 F2] F3]; subst. cbn [fst snd] in *.
  cbn [set_target_index]. eexists. split; [reflexivity|]. cbn [fst snd velocity target_value init_of].
  destruct (time =? 0)%Z; [|auto]. destruct rest as [|[[w' vel'] time'] rest]; [auto|]. inversion F3 as [|? ? [G1 _] _]; subst. cbn in *. auto.
Qed.

(** A value that is not modular: whatever targets within the file's limits are set and
    whatever frames pass, no call fails, the value stays between the file's min and max, and
    the velocity within its limit. *)
Theorem C124_clamped : forall rnd p b a i calls, p_base p = Some b -> p_at_target p = Some a ->
  p_modular b = false -> p_min b <= 0 <= p_max b -> 0 <= p_max_velocity p -> (0 < p_max_delta_time p)%Z ->
  overshoot_from p = Some i ->
  targets_ok (fun v => p_min b <= v <= p_max b) (fun v => Rabs v <= p_max_velocity p) calls ->
  exists x, run rnd calls (initialize_index i) = Some x /\ p_min b <= snd x <= p_max b /\ Rabs (velocity (fst x)) <= p_max_velocity p.
Proof.
  intros rnd p b a i calls B A M R0 V T E OK. unfold overshoot_from in E. rewrite B, A in E. injection E as E.
  assert (C : clamped i (Rg (p_min b) (p_max b)) (p_max_delta p)) by (subst i; repeat split; cbn; try easy; lra).
  assert (MV : o_max_velocity i = p_max_velocity p) by now subst i.
  assert (G : forall x, init_of (fst x) = i -> inside (Rg (p_min b) (p_max b)) x -> exists x', run rnd calls x = Some x' /\ inside (Rg (p_min b) (p_max b)) x' /\ init_of (fst x') = i).
  { clear R0. induction OK as [|c l O1 O2 IH]; intros x I S; [now exists x|]. destruct c as [nodes|t]; cbn [run].
    - destruct O1 as [N F]. destruct S as (S1 & S2 & S3). rewrite I, MV in S3.
      destruct (set_target_keeps (fun v => p_min b <= v <= p_max b) (fun v => Rabs v <= p_max_velocity p) nodes x N F S1 S2 S3) as (x1 & -> & P1 & P2 & P3 & P4).
      apply IH; [congruence|]. repeat split; try apply P1; try apply P2. rewrite P4, I, MV. exact P3.
    - destruct (C117_clamped rnd (Rg (p_min b) (p_max b)) (p_max_delta p) [t] x ltac:(now rewrite I) S) as (x1 & -> & S1 & I1 & _). apply IH; [congruence|exact S1]. }
  destruct (G (initialize_index i)) as (x & X & (S1 & _ & S3) & I); [reflexivity| |].
  - repeat split; cbn; try lra. rewrite Rabs_R0, MV. exact V.
  - exists x. split; [exact X|]. split; [exact S1|]. rewrite I, MV in S3. exact S3.
Qed.

(** A modular value, on a range around 0: the value stays on the circle. *)
Theorem C124_wraps : forall rnd p b a i calls h, rounds single rnd -> p_base p = Some b -> p_at_target p = Some a ->
  p_modular b = true -> p_min b = - h -> p_max b = h -> single h -> 0 < h ->
  single (p_max_delta p) -> 0 <= p_max_delta p <= h -> single (p_max_velocity p) -> 0 <= p_max_velocity p -> (0 < p_max_delta_time p)%Z ->
  overshoot_from p = Some i ->
  targets_ok (on_circle h) (fun v => single v /\ Rabs v <= p_max_velocity p) calls ->
  exists x, run rnd calls (initialize_index i) = Some x /\ on_circle h (snd x) /\ Rabs (velocity (fst x)) <= p_max_velocity p.
Proof.
  intros rnd p b a i calls h H B A M L U SH HP SD D SV V T E OK. unfold overshoot_from in E. rewrite B, A, L, U in E. injection E as E.
  assert (C : circular i h (p_max_delta p)).
  { subst i. unfold circular. cbn. rewrite M. do 7 (split; [easy || lra|]). split; [now apply half_turn|auto]. }
  assert (MV : o_max_velocity i = p_max_velocity p) by now subst i.
  assert (G : forall x, init_of (fst x) = i -> sound h x -> exists x', run rnd calls x = Some x' /\ sound h x' /\ init_of (fst x') = i).
  { induction OK as [|c l O1 O2 IH]; intros x I S; [now exists x|]. destruct c as [nodes|t]; cbn [run].
    - destruct O1 as [N F]. destruct S as (S3 & S4 & S5 & S6). rewrite I, MV in S6.
      destruct (set_target_keeps (on_circle h) (fun v => single v /\ Rabs v <= p_max_velocity p) nodes x N F S3 S4 (conj S5 S6)) as (x1 & -> & P1 & P2 & (P3 & P5) & P4).
      apply IH; [congruence|]. split; [exact P1|]. split; [exact P2|]. split; [exact P3|]. rewrite P4, I, MV. exact P5.
    - destruct (C117_runs rnd h (p_max_delta p) [t] x H ltac:(now rewrite I) S) as (x1 & -> & S1 & I1 & _). apply IH; [congruence|exact S1]. }
  assert (Z0 : single 0) by (apply fmt_0; lia).
  destruct (G (initialize_index i)) as (x & X & (S3 & _ & _ & S6) & I); [reflexivity| |].
  - split; [split; [exact Z0|cbn; lra]|]. split; [split; [exact Z0|cbn; lra]|]. cbn. split; [exact Z0|]. rewrite Rabs_R0, MV. exact V.
  - exists x. split; [exact X|]. split; [exact S3|]. rewrite I, MV in S6. exact S6.
Qed.

(** A file without a base or without at_target cannot be used. *)
Theorem C124_missing : forall p, overshoot_from p <> None <-> p_base p <> None /\ p_at_target p <> None.
Proof. intros p. unfold overshoot_from. destruct (p_base p), (p_at_target p); split; try easy; intros []; easy. Qed.

(** The range of a spline motivator: modular exactly when the file says so and gives a range;
    then that range. *)
Theorem C124_spline : forall b r, spline_range_from (Some b) = Some r ->
  (valid r = true <-> p_modular b = true /\ p_min b <= p_max b) /\ (valid r = true -> r = Rg (p_min b) (p_max b)).
Proof.
  intros b r E. injection E as <-. destruct (p_modular b).
  - unfold valid. cbn. split; [|easy]. rewrite Rleb_true. tauto.
  - unfold valid, range_default. cbn. rewrite Rleb_f by lra. easy.
Qed.

(** A max_delta_time of 0 or less: no frame with time in it ends, however many rounds. *)
Theorem C124_endless_refuted : forall p i x delta_time fuel, overshoot_from p = Some i -> (p_max_delta_time p <= 0)%Z ->
  init_of (fst x) = i -> (0 < delta_time)%Z -> advance_index fuel delta_time x = None.
Proof.
  intros p i x delta_time fuel E M. unfold overshoot_from in E. destruct (p_base p) as [b|]; [|discriminate]. destruct (p_at_target p) as [a|]; [|discriminate].
  assert (MI : (o_max_delta_time i <= 0)%Z) by (injection E as <-; exact M). clear E. revert x delta_time. induction fuel as [|fuel IH]; intros x t I T; cbn [advance_index]; (destruct (Z.ltb_spec 0 t); [|lia]); [reflexivity|].
  cbv zeta. destruct (step _ x) as [x'|] eqn:S; [|reflexivity]. apply IH; [|rewrite I in *; lia].
  unfold step in S. destruct (calculate_velocity _ _ _); [|discriminate]. destruct (calculate_value _ _ _); [|discriminate]. injection S as <-. exact I.
Qed.

(** The limits of OvershootInit are the full range unless set; those of a file are 0 and 0
    unless given: a motivator of such a file that is sent to 10 keeps showing 0, at full speed. *)
Fixpoint frames (delta_times : list Z) (x : odata * R) : option (odata * R) :=
  match delta_times with [] => Some x | t :: l => x' <- advance_index (Z.to_nat t) t x ;; frames l x' end.
Definition unlimited : overshoot_params := OvershootParams (Some default_modular) 1 1 (Some (SettledParams 1 1)) (1 / 10) 1 (p_max_delta_time default_overshoot).
Lemma stuck_step i v dt : overshoot_from unlimited = Some i -> 0 <= v <= 1 -> (0 < dt)%Z ->
  step dt (OData v 10 i, 0) = Some (OData 1 10 i, 0).
Proof.
  intros E V D. injection E as E. assert (DT : 1 <= IZR dt) by (apply IZR_le; lia).
  assert (P1 : o_modular i = false) by now subst i. assert (P2 : o_range i = Some (Rg 0 0)) by now subst i. assert (P3 : o_max_velocity i = 1) by now subst i. assert (P4 : o_max_delta i = Some 1) by now subst i.
  assert (P5 : o_at_target i = SettledAt 1 1) by now subst i. assert (P6 : o_accel_per_difference i = 1 / 10) by now subst i. clear E.
  unfold step, calculate_velocity, normalize_diff. cbn [fst snd init_of velocity target_value]. rewrite P1, P6. rewrite (Rltb_f (v * _)) by lra.
  assert (CV : clamp_velocity i (v + IZR dt * ((10 - 0) * (1 / 10) * 1)) = 1) by (unfold clamp_velocity, clamp_between; rewrite P3; minmax; lra).
  rewrite CV. unfold at_target, is_settled. rewrite P5. cbn [max_difference settled_velocity]. rewrite (Rleb_f (Rabs (10 - 0))) by (rabs; lra). cbn [andb].
  unfold calculate_value. cbn [velocity]. rewrite Reqb_f by lra. unfold clamp_delta, normalize_diff, clamp_range. cbn [init_of]. rewrite P4, P1, P2. do 2 f_equal. unfold clamp. cbn [start_ end_]. minmax; lra.
Qed.
Theorem C124_limits_refuted : exists i x, overshoot_from unlimited = Some i /\ set_target_index [(10, 0, 1000%Z)] (initialize_index i) = Some x /\
  forall delta_times, Forall (fun t => 0 < t)%Z delta_times -> delta_times <> [] ->
  exists x', frames delta_times x = Some x' /\ snd x' = 0 /\ target_value (fst x') = 10 /\ velocity (fst x') = 1.
Proof.
  destruct (overshoot_from unlimited) as [i|] eqn:E; [|discriminate]. exists i, (OData 0 10 i, 0). split; [reflexivity|]. split; [reflexivity|].
  assert (MD : o_max_delta_time i = 32767%Z) by (injection E as <-; reflexivity).
  assert (A : forall fuel t v, (Z.to_nat t <= fuel)%nat -> 0 <= v <= 1 -> (0 < t)%Z -> advance_index fuel t (OData v 10 i, 0) = Some (OData 1 10 i, 0)).
  { induction fuel as [|fuel IH]; intros t v F V T; [lia|]. cbn [advance_index]. destruct (Z.ltb_spec 0 t); [|lia]. cbv zeta. cbn [fst init_of]. rewrite MD, (stuck_step i v _ E V) by lia.
    destruct (Z.ltb_spec 0 (t - Z.min t 32767)).
    - apply IH; [lia|lra|easy].
    - destruct fuel; cbn [advance_index]; (destruct (Z.ltb_spec 0 (t - Z.min t 32767)); [lia|reflexivity]). }
  assert (G : forall l v, 0 <= v <= 1 -> Forall (fun t => 0 < t)%Z l -> l <> [] -> frames l (OData v 10 i, 0) = Some (OData 1 10 i, 0)).
  { induction l as [|t l IH]; intros v V F N; [easy|]. inversion F; subst. cbn [frames]. rewrite A by (auto; lra). destruct l as [|u l]; [reflexivity|]. apply IH; [lra|easy|easy]. }
  intros l F N. exists (OData 1 10 i, 0). rewrite (G l 0) by (auto; lra). easy.
Qed.

(** A file that meets the hypotheses of C124_clamped, and calls. *)
Example C124_case : let b := ModularParams false (-1) 5 in let a := SettledParams (1 / 10) (1 / 10) in
  let p := OvershootParams (Some b) 2 1 (Some a) (1 / 10) 3 (p_max_delta_time default_overshoot) in
  overshoot_from p <> None /\ p_min b <= 0 <= p_max b /\ 0 <= p_max_velocity p /\ (0 < p_max_delta_time p)%Z /\
  targets_ok (fun v => p_min b <= v <= p_max b) (fun v => Rabs v <= p_max_velocity p) [SetTarget [(4, 1, 100%Z)]; Frame 10; Frame 7].
Proof.
  cbn. split; [easy|]. split; [lra|]. split; [lra|]. split; [lia|]. repeat constructor; cbn; try easy; try lra. rabs; lra.
Qed.

Print Assumptions C124_clamped.
Print Assumptions C124_wraps.
Print Assumptions C124_missing.
Print Assumptions C124_spline.
Print Assumptions C124_endless_refuted.
Print Assumptions C124_limits_refuted.
