(** C125: the NEON assembly against the C++ functions it replaces, with the arithmetic
    rounded in any way. *)
From Verif Require Import RBase BaseFacts CurveModel RangeModel CompactSplineModel EvaluatorModel RoundCubicModel RoundEvaluatorModel NeonModel NeonProofs.

(** The array of floats at [a] holds [f] of the slots. *)
Definition holds (s : state) (a : Z) (f : slot -> option R) (ev : list slot) : Prop :=
  forall i sl, getz ev i = Some sl -> m s (a + 4 * i)%Z = Some (WFloat (f sl)).
(** Words that can be written. *)
Definition mapped (s : state) (a n : Z) : Prop := forall i, (0 <= i < n)%Z -> m s (a + 4 * i)%Z <> None.
(** The cubic curves at [a], with the coefficients of a curve from the lowest to the highest
    (curve.h:449, c_). *)
Definition holds_curves (s : state) (a : Z) (ev : list slot) : Prop :=
  forall i sl, getz ev i = Some sl ->
    m s (a + 16 * i)%Z = Some (WFloat (Some (k0 (curve sl)))) /\ m s (a + 16 * i + 4)%Z = Some (WFloat (Some (k1 (curve sl)))) /\
    m s (a + 16 * i + 8)%Z = Some (WFloat (Some (k2 (curve sl)))) /\ m s (a + 16 * i + 12)%Z = Some (WFloat (Some (k3 (curve sl)))).
(** [n] indices take [k] rounds of four, at least one. *)
Definition rounds_of_four (n k : Z) : Prop := (1 <= k)%Z /\ (n <= 4 * k)%Z /\ (k = 1 \/ 4 * (k - 1) < n)%Z.

(** The arguments of UpdateCubicXsAndGetMask_Neon are as its comment says: the arrays have
    room for a multiple of four, are aligned to 16 bytes, and do not overlap. *)
Record update_args (table : Z) (delta : R) (ev : list slot) (D E Rt n X M k : Z) (s : state) : Prop := {
  ua_regs : expects_update D E Rt n X M s;
  ua_table : table_at table s;
  ua_count : rounds_of_four n k /\ len ev = (4 * k)%Z;
  ua_delta : (D mod 4 = 0)%Z /\ m s D = Some (WFloat (Some delta));
  ua_aligned : (X mod 16 = 0)%Z /\ (E mod 16 = 0)%Z /\ (Rt mod 16 = 0)%Z /\ (M mod 4 = 0)%Z /\ (r s sp mod 4 = 0)%Z;
  ua_arrays : holds s X (fun sl => Some (cubic_x sl)) ev /\ holds s E cubic_x_end ev /\ holds s Rt (fun sl => Some (rate sl)) ev /\ mapped s M k;
  ua_apart : apart X (16 * k) E (16 * k) /\ apart X (16 * k) Rt (16 * k) /\ apart X (16 * k) M (4 * k) /\ apart M (4 * k) E (16 * k) /\ apart M (4 * k) Rt (16 * k)
}.
(** The same for EvaluateCubics_Neon; there must be stack below [sp]. *)
Record evaluate_args (ev : list slot) (C X n Y k : Z) (s : state) : Prop := {
  ea_regs : expects_evaluate C X n Y s;
  ea_count : rounds_of_four n k /\ len ev = (4 * k)%Z;
  ea_aligned : (C mod 32 = 0)%Z /\ (X mod 4 = 0)%Z /\ (Y mod 16 = 0)%Z /\ (r s sp mod 4 = 0)%Z;
  ea_arrays : holds_curves s C ev /\ holds s X (fun sl => Some (cubic_x sl)) ev /\ mapped s Y (4 * k) /\ mapped s (r s sp - 24) 6;
  ea_apart : apart Y (16 * k) C 64 /\ apart Y (16 * k) X (16 * k) /\
    apart (r s sp - 24) 24 C 64 /\ apart (r s sp - 24) 24 X (16 * k) /\ apart (r s sp - 24) 24 Y (16 * k)
}.

(** A mask byte (bulk_spline_evaluator.cpp:241). *)
Definition mask (rnd : R -> R) (delta : R) (sl : slot) : Z := if past_end (f_step_x rnd delta sl) then 255%Z else 0%Z.

Lemma getz_len {A} (l : list A) i : (0 <= i < len l)%Z -> exists x, getz l i = Some x.
Proof. apply getz_in_range. Qed.

(** Called like that, the function does what the C++ loop does, rounding included: the new
    xs, a byte of all ones for each index past its end, nothing else in memory, and it
    returns; but r4 and r5 are lost. *)
Theorem C125_update : forall rnd table delta ev D E Rt n X M k s, update_args table delta ev D E Rt n X M k s ->
  exists fuel s', run rnd table fuel update_neon 0 s = Some s' /\ r s' pc = r s lr /\
    holds s' X (fun sl => Some (cubic_x (f_step_x rnd delta sl))) ev /\
    (forall j a b c e, getz ev (4 * j) = Some a -> getz ev (4 * j + 1) = Some b -> getz ev (4 * j + 2) = Some c -> getz ev (4 * j + 3) = Some e ->
      m s' (M + 4 * j)%Z = Some (WBytes (mask rnd delta a) (mask rnd delta b) (mask rnd delta c) (mask rnd delta e))) /\
    (forall a, ~ (X <= a < X + 16 * k)%Z -> ~ (M <= a < M + 4 * k)%Z -> m s' a = m s a) /\
    (forall i, (6 <= i <= 11)%Z \/ i = sp -> r s' i = r s i) /\ (forall i, (8 <= i < 16)%Z -> d s' i = d s i) /\
    r s' 4%Z = (X + 16 * k)%Z /\ r s' 5%Z = (M + 4 * k)%Z.
Proof.
  intros rnd table delta ev D E Rt n X M k s [RG TB [[K [N N']] L] [AD MD] (AX & AE & AR & AM & AS) (HX & HE & HR & HM) (P1 & P2 & P3 & P4 & P5)].
  set (at_ := fun i => match getz ev i with Some sl => sl | None => slot_default end).
  assert (AT : forall i sl, getz ev i = Some sl -> at_ i = sl) by (intros i sl G; unfold at_; now rewrite G).
  destruct (update_all rnd table delta (fun i => cubic_x (at_ i)) (fun i => cubic_x_end (at_ i)) (fun i => rate (at_ i)) D E Rt n X M k 0 s) as (s' & RUN & Q1 & Q2 & Q3 & Q4 & Q5 & QP & QR & QD); auto.
  { intros i I. destruct (getz_len ev i ltac:(lia)) as [sl G]. rewrite (AT _ _ G). now apply HX. }
  { intros i I. destruct (getz_len ev i ltac:(lia)) as [sl G]. rewrite (AT _ _ G). now apply HE. }
  { intros i I. destruct (getz_len ev i ltac:(lia)) as [sl G]. rewrite (AT _ _ G). now apply HR. }
  eexists. exists s'. split; [exact RUN|]. split; [exact QP|]. split.
  { intros i sl G. rewrite Q1 by (apply getz_Some in G; lia). rewrite (AT _ _ G). reflexivity. }
  split.
  { intros j a b c e G0 G1 G2 G3. rewrite Q2 by (apply getz_Some in G0; apply getz_Some in G3; lia). rewrite (AT _ _ G0), (AT _ _ G1), (AT _ _ G2), (AT _ _ G3). reflexivity. }
  split; [exact Q3|]. split; [intros i [I| ->]; apply QR; unfold sp; lia|]. split; [exact QD|]. split; [exact Q4|exact Q5].
Qed.
Print Assumptions C125_update.

(** EvaluateCubics_Neon, called as its comment says, reads the same four curves in every
    round: index [i] gets the curve of index [i mod 4], at its own x. *)
Theorem C125_evaluate : forall rnd table ev C X n Y k s, evaluate_args ev C X n Y k s ->
  exists fuel s', run rnd table fuel evaluate_neon 0 s = Some s' /\ r s' pc = r s lr /\
    (forall i sl four, getz ev i = Some sl -> getz ev (i mod 4) = Some four ->
      m s' (Y + 4 * i)%Z = Some (WFloat (Some (f_keval rnd (curve four) (cubic_x sl))))) /\
    (forall a, ~ (Y <= a < Y + 16 * k)%Z -> ~ (r s sp - 24 <= a < r s sp)%Z -> m s' a = m s a) /\
    (forall i, (4 <= i <= 11)%Z /\ i <> 10%Z \/ i = sp -> r s' i = r s i) /\ (forall i, (8 <= i < 16)%Z -> d s' i = d s i) /\
    r s' 10%Z = 48%Z.
Proof.
  intros rnd table ev C X n Y k s [RG [[K [N N']] L] (AC & AX & AY & AS) (HC & HX & HY & HS) (P1 & P2 & P3 & P4 & P5)].
  set (at_ := fun i => match getz ev i with Some sl => sl | None => slot_default end).
  assert (AT : forall i sl, getz ev i = Some sl -> at_ i = sl) by (intros i sl G; unfold at_; now rewrite G).
  set (c := fun i => let q := curve (at_ (i / 4)%Z) in match (i mod 4)%Z with 0%Z => k0 q | 1%Z => k1 q | 2%Z => k2 q | _ => k3 q end).
  assert (CC : forall j t, (0 <= t < 4)%Z -> c (4 * j + t)%Z = match t with 0%Z => k0 (curve (at_ j)) | 1%Z => k1 (curve (at_ j)) | 2%Z => k2 (curve (at_ j)) | _ => k3 (curve (at_ j)) end).
  { intros j t T. unfold c. replace (4 * j + t)%Z with (t + j * 4)%Z by ring. rewrite Z.div_add, Z.mod_add, Z.div_small, Z.mod_small by lia. reflexivity. }
  destruct (evaluate_all rnd table c (fun i => cubic_x (at_ i)) C X Y n k 0 s) as (s' & RUN & Q1 & Q3 & Q10 & QP & QR & QD); auto.
  { intros i I. assert (J : (0 <= i / 4 < 4)%Z) by (split; [apply Z.div_pos; lia|apply Z.div_lt_upper_bound; lia]). destruct (getz_len ev (i / 4) ltac:(lia)) as [sl G].
    destruct (HC _ _ G) as (H0 & H1 & H2 & H3). pose proof (Z.div_mod i 4 ltac:(lia)) as DM. pose proof (Z.mod_pos_bound i 4 ltac:(lia)) as MB.
    rewrite DM at 2. rewrite CC, (AT _ _ G) by exact MB. assert (V : (i mod 4 = 0 \/ i mod 4 = 1 \/ i mod 4 = 2 \/ i mod 4 = 3)%Z) by lia.
    replace (C + 4 * i)%Z with (C + 16 * (i / 4) + 4 * (i mod 4))%Z by lia. destruct V as [V|[V|[V|V]]]; rewrite V.
    - rewrite Z.add_0_r. exact H0.
    - exact H1.
    - exact H2.
    - exact H3. }
  { intros i I. destruct (getz_len ev i ltac:(lia)) as [sl G]. rewrite (AT _ _ G). now apply HX. }
  eexists. exists s'. split; [exact RUN|]. split; [exact QP|]. split.
  { intros i sl four G F. rewrite Q1 by (apply getz_Some in G; lia). rewrite (AT _ _ G). unfold horner. rewrite !CC by lia. rewrite (AT _ _ F). unfold f_keval.
    rewrite (Rplus_comm (k0 _)), (Rplus_comm (k1 _)), (Rplus_comm (k2 _)). reflexivity. }
  split; [exact Q3|]. split; [intros i [I| ->]; apply QR; unfold sp; lia|]. split; [exact QD|exact Q10].
Qed.
Print Assumptions C125_evaluate.

(** So four indices get what EvaluateCubics_C gives them. *)
Theorem C125_four : forall rnd table ev C X n Y s, evaluate_args ev C X n Y 1 s ->
  exists fuel s', run rnd table fuel evaluate_neon 0 s = Some s' /\ holds s' Y (fun sl => Some (cur_y (f_evaluate_slot rnd sl))) ev.
Proof.
  intros rnd table ev C X n Y s H. destruct (C125_evaluate rnd table ev C X n Y 1 s H) as (fuel & s' & RUN & _ & V & _). exists fuel, s'. split; [exact RUN|].
  intros i sl G. destruct H as [_ [_ L] _ _ _]. rewrite (V i sl sl G); [reflexivity|]. rewrite Z.mod_small by (apply getz_Some in G; lia). exact G.
Qed.
Print Assumptions C125_four.

(** The calls in bulk_spline_evaluator.cpp do not pass what the comments say.  The number of
    indices is in the register that the code takes for the array of rates, so that it is read
    as an address, which on these systems is not mapped: the call never returns. *)
Definition null_page (s : state) : Prop := forall a, (0 <= a < 4096)%Z -> m s a = None.
Lemma run_fails rnd table code : forall l fuel at_ s (P : state -> Prop) i,
  (forall j x, getz l j = Some x -> getz code (at_ + j) = Some x) -> getz code (at_ + len l) = Some i ->
  Forall (fun x => straight x = true /\ forall s t, P s -> exec rnd table x s = Some t -> P t) l ->
  (forall s, P s -> exec rnd table i s = None) -> P s -> run rnd table fuel code at_ s = None.
Proof.
  induction l as [|x l IH]; intros fuel at_ s P i G GI F E H; (destruct fuel as [|fuel]; [reflexivity|]).
  - cbn [run]. rewrite <- (Z.add_0_r at_) at 1. change (len []) with 0%Z in GI. rewrite GI, E by exact H. reflexivity.
  - cbn [run]. pose proof (G 0%Z x eq_refl) as G0. rewrite Z.add_0_r in G0. rewrite G0. inversion F as [|? ? [FS FP] F']; subst.
    destruct (exec rnd table x s) as [t|] eqn:EX; [|reflexivity].
    assert (RUN : run rnd table fuel code (at_ + 1) t = None).
    { apply (IH fuel (at_ + 1)%Z t P i); auto.
      - intros j y J. replace (at_ + 1 + j)%Z with (at_ + (j + 1))%Z by ring. apply G. pose proof (getz_Some _ _ _ J). change (x :: l) with ([x] ++ l). rewrite getz_app2 by (change (len [x]) with 1%Z; lia). change (len [x]) with 1%Z. replace (j + 1 - 1)%Z with j by ring. exact J.
      - replace (at_ + 1 + len l)%Z with (at_ + len (x :: l))%Z by (rewrite len_cons; ring). exact GI.
      - apply (FP s); auto. }
    destruct x; try discriminate FS; exact RUN.
Qed.
Lemma store_keeps a v s t : store a v s = Some t -> r t = r s /\ (forall b, m s b = None -> m t b = None).
Proof.
  unfold store. destruct (a mod 4 =? 0)%Z; [|discriminate]. destruct (m s a) eqn:E; [|discriminate]. intros H. injection H as <-. split; [reflexivity|].
  intros b B. cbn. rewrite upd_other; [exact B|]. intros ->. rewrite E in B. discriminate.
Qed.
Lemma store2_keeps a v s t : store2 a v s = Some t -> r t = r s /\ (forall b, m s b = None -> m t b = None).
Proof.
  unfold store2. destruct (store a (fst v) s) as [u|] eqn:E; [|discriminate]. intros H. destruct (store_keeps _ _ _ _ E) as [A B]. destruct (store_keeps _ _ _ _ H) as [A' B'].
  split; [congruence|auto].
Qed.
Ltac no_store := match goal with H : _ = Some _ |- _ => cbn [exec] in H; repeat match type of H with context [match ?x with _ => _ end] => destruct x; try discriminate end; injection H as <- end.

Theorem C125_update_call_refuted : forall rnd table D E n X M s fuel, called_update D E n X M s -> null_page s -> (0 <= n < 4096)%Z ->
  run rnd table fuel update_neon 0 s = None.
Proof.
  intros rnd table D E n X M s fuel (_ & _ & R2 & _) NP N.
  apply run_fails with (l := firstn 8 update_neon) (i := Vld1 11 2 16 true) (P := fun t => r t 2%Z = n /\ null_page t); [| |cbn [firstn update_neon evaluate_neon]; repeat (apply Forall_cons; [split; [reflexivity|]|]); [..|apply Forall_nil]| |split; assumption].
  - intros j x J. pose proof (getz_Some _ _ _ J) as B. change (len (firstn 8 update_neon)) with 8%Z in B. rewrite <- J.
    assert (C : (j = 0 \/ j = 1 \/ j = 2 \/ j = 3 \/ j = 4 \/ j = 5 \/ j = 6 \/ j = 7)%Z) by lia. decompose [or] C; subst; reflexivity.
  - reflexivity.
  - intros t u [P1 P2] H. no_store; split; [exact P1|exact P2].
  - intros t u [P1 P2] H. no_store; split; [exact P1|exact P2].
  - intros t u [P1 P2] H. no_store; split; [exact P1|exact P2].
  - intros t u [P1 P2] H. no_store; split; [exact P1|exact P2].
  - intros t u [P1 P2] H. no_store; split; [exact P1|exact P2].
  - intros t u [P1 P2] H. no_store; split; [exact P1|exact P2].
  - intros t u [P1 P2] H. no_store; split; [exact P1|exact P2].
  - intros t u [P1 P2] H. no_store; split; [exact P1|exact P2].
  - intros t [P1 P2]. cbn [exec]. rewrite P1. destruct (n mod 16 =? 0)%Z; [|reflexivity]. unfold load2, load. destruct (n mod 4 =? 0)%Z; [|reflexivity]. now rewrite P2.
Qed.
Print Assumptions C125_update_call_refuted.

(** In the same way the number of curves is where the code expects the array of results. *)
Theorem C125_evaluate_call_refuted : forall rnd table C X ranges n Y s fuel, called_evaluate C X ranges n Y s -> null_page s -> (0 <= n < 4096)%Z ->
  run rnd table fuel evaluate_neon 0 s = None.
Proof.
  intros rnd table C X ranges n Y s fuel (_ & _ & _ & R3 & _) NP N.
  apply run_fails with (l := firstn 13 evaluate_neon) (i := Vst1 8 3 16) (P := fun t => r t 3%Z = n /\ null_page t); [| |cbn [firstn update_neon evaluate_neon]; repeat (apply Forall_cons; [split; [reflexivity|]|]); [..|apply Forall_nil]| |split; assumption].
  - intros j x J. pose proof (getz_Some _ _ _ J) as B. change (len (firstn 13 evaluate_neon)) with 13%Z in B. rewrite <- J.
    assert (K : (j = 0 \/ j = 1 \/ j = 2 \/ j = 3 \/ j = 4 \/ j = 5 \/ j = 6 \/ j = 7 \/ j = 8 \/ j = 9 \/ j = 10 \/ j = 11 \/ j = 12)%Z) by lia. decompose [or] K; subst; reflexivity.
  - reflexivity.
  - intros t u [P1 P2] H. cbn [exec] in H. destruct (store2 _ _ t) as [v|] eqn:S; [|discriminate]. injection H as <-. destruct (store2_keeps _ _ _ _ S) as [Q1 Q2].
    split; [cbn; rewrite Q1; exact P1|]. intros a A. cbn. apply Q2, P2, A.
  - intros t u [P1 P2] H. cbn [exec] in H. destruct (store2 _ _ t) as [v|] eqn:S; [|discriminate]. destruct (store2 _ _ v) as [w|] eqn:S'; [|discriminate]. injection H as <-.
    destruct (store2_keeps _ _ _ _ S) as [Q1 Q2]. destruct (store2_keeps _ _ _ _ S') as [Q1' Q2'].
    split; [cbn; rewrite Q1', Q1; exact P1|]. intros a A. cbn. apply Q2', Q2, P2, A.
  - intros t u [P1 P2] H. no_store; split; [exact P1|exact P2].
  - intros t u [P1 P2] H. no_store; split; [exact P1|exact P2].
  - intros t u [P1 P2] H. no_store; split; [exact P1|exact P2].
  - intros t u [P1 P2] H. no_store; split; [exact P1|exact P2].
  - intros t u [P1 P2] H. no_store; split; [exact P1|exact P2].
  - intros t u [P1 P2] H. no_store; split; [exact P1|exact P2].
  - intros t u [P1 P2] H. no_store; split; [exact P1|exact P2].
  - intros t u [P1 P2] H. no_store; split; [exact P1|exact P2].
  - intros t u [P1 P2] H. no_store; split; [exact P1|exact P2].
  - intros t u [P1 P2] H. no_store; split; [exact P1|exact P2].
  - intros t u [P1 P2] H. no_store; split; [exact P1|exact P2].
  - intros t [P1 P2]. cbn [exec]. rewrite P1. destruct (n mod 16 =? 0)%Z; [|reflexivity]. unfold store2, store. destruct (n mod 4 =? 0)%Z; [|reflexivity]. now rewrite P2.
Qed.
Print Assumptions C125_evaluate_call_refuted.

(** Eight indices whose curves are the constants 0 to 7, in memory. *)
Definition constant_slot (i : Z) : slot := Slot 1 0 1 None kInvalidSplineIndex false range_default 0 (Some 0) (Cubic 0 0 0 (IZR i)) 0.
Definition eight : list slot := map constant_slot [0; 1; 2; 3; 4; 5; 6; 7]%Z.
Definition evaluate_start : state := State
  (fun i => match i with 0 => 1024 | 1 => 2048 | 2 => 8 | 3 => 4096 | 13 => 8192 | _ => 0 end)%Z
  (fun _ => (WInt 0, WInt 0))
  (fun a => if (a <? 1024)%Z then None
            else if (a <? 2048)%Z then Some (WFloat (Some (if ((a - 1024) mod 16 =? 0)%Z then IZR ((a - 1024) / 16) else 0)))
            else if (a <? 4096)%Z then Some (WFloat (Some 0)) else Some (WInt 0)) false.
Lemma evaluate_start_args : evaluate_args eight 1024 2048 8 4096 2 evaluate_start.
Proof.
  assert (IX : forall (i : Z) sl, getz eight i = Some sl -> (0 <= i < 8)%Z /\ sl = constant_slot i).
  { intros i sl G. pose proof (getz_Some _ _ _ G) as B. change (len eight) with 8%Z in B. split; [exact B|].
    assert (K : (i = 0 \/ i = 1 \/ i = 2 \/ i = 3 \/ i = 4 \/ i = 5 \/ i = 6 \/ i = 7)%Z) by lia. decompose [or] K; subst; injection G as <-; reflexivity. }
  constructor.
  - repeat split.
  - split; [unfold rounds_of_four; lia|reflexivity].
  - repeat split.
  - repeat split.
    + destruct (IX _ _ H) as [B ->]. assert (K : (i = 0 \/ i = 1 \/ i = 2 \/ i = 3 \/ i = 4 \/ i = 5 \/ i = 6 \/ i = 7)%Z) by lia. decompose [or] K; subst; reflexivity.
    + destruct (IX _ _ H) as [B ->]. assert (K : (i = 0 \/ i = 1 \/ i = 2 \/ i = 3 \/ i = 4 \/ i = 5 \/ i = 6 \/ i = 7)%Z) by lia. decompose [or] K; subst; reflexivity.
    + destruct (IX _ _ H) as [B ->]. assert (K : (i = 0 \/ i = 1 \/ i = 2 \/ i = 3 \/ i = 4 \/ i = 5 \/ i = 6 \/ i = 7)%Z) by lia. decompose [or] K; subst; reflexivity.
    + destruct (IX _ _ H) as [B ->]. assert (K : (i = 0 \/ i = 1 \/ i = 2 \/ i = 3 \/ i = 4 \/ i = 5 \/ i = 6 \/ i = 7)%Z) by lia. decompose [or] K; subst; reflexivity.
    + intros i sl G. destruct (IX _ _ G) as [B ->]. assert (K : (i = 0 \/ i = 1 \/ i = 2 \/ i = 3 \/ i = 4 \/ i = 5 \/ i = 6 \/ i = 7)%Z) by lia. decompose [or] K; subst; reflexivity.
    + intros i I. assert (K : (i = 0 \/ i = 1 \/ i = 2 \/ i = 3 \/ i = 4 \/ i = 5 \/ i = 6 \/ i = 7)%Z) by lia. decompose [or] K; subst; discriminate.
    + intros i I. assert (K : (i = 0 \/ i = 1 \/ i = 2 \/ i = 3 \/ i = 4 \/ i = 5)%Z) by lia. decompose [or] K; subst; discriminate.
  - unfold apart. change (r evaluate_start sp) with 8192%Z. lia.
Qed.

(** The fifth of them gets 0, where the C++ function gives 4; and r10, which a function must
    restore, is not restored. *)
Theorem C125_later_refuted : forall table, exists ev C X Y s fuel s' fifth, evaluate_args ev C X 8 Y 2 s /\
  run (fun x => x) table fuel evaluate_neon 0 s = Some s' /\ getz ev 4 = Some fifth /\
  m s' (Y + 4 * 4)%Z = Some (WFloat (Some 0)) /\ cur_y (f_evaluate_slot (fun x => x) fifth) = 4 /\ r s 10%Z = 0%Z /\ r s' 10%Z = 48%Z.
Proof.
  intros table. destruct (C125_evaluate (fun x => x) table _ _ _ _ _ _ _ evaluate_start_args) as (fuel & s' & RUN & _ & V & _ & _ & _ & R10).
  exists eight, 1024%Z, 2048%Z, 4096%Z, evaluate_start, fuel, s', (constant_slot 4). split; [exact evaluate_start_args|]. split; [exact RUN|]. split; [reflexivity|].
  split; [rewrite (V 4%Z (constant_slot 4) (constant_slot 0) eq_refl eq_refl); unfold f_keval; cbn [curve cubic_x constant_slot k0 k1 k2 k3]; do 3 f_equal; ring|]. split; [unfold f_evaluate_slot, f_keval; cbn [cur_y curve cubic_x constant_slot k0 k1 k2 k3]; ring|]. split; [reflexivity|exact R10].
Qed.
Print Assumptions C125_later_refuted.

(** One index, in arrays of four as the assembly wants them. *)
Definition update_start : state := State
  (fun i => match i with 0 => 8192 | 1 => 2048 | 2 => 3072 | 3 => 1 | 13 => 16384 | _ => 0 end)%Z
  (fun _ => (WInt 0, WInt 0))
  (fun a => if (a <? 1024)%Z then None
            else if (a <? 3072)%Z then Some (WFloat (Some 0))
            else if (a <? 4096)%Z then Some (WFloat (Some 1))
            else if (a =? 8192)%Z then Some (WFloat (Some 1))
            else if (a =? 12288)%Z then Some (WBytes 0 4 8 12) else if (a =? 12292)%Z then Some (WBytes 255 255 255 255)
            else if (a =? 16384)%Z then Some (WInt 1024) else if (a =? 16388)%Z then Some (WInt 4096)
            else Some (WInt 0)) false.
Lemma update_start_args : update_args 12288 1 (repeat slot_default 4) 8192 2048 3072 1 1024 4096 1 update_start.
Proof.
  assert (IX : forall (i : Z) sl, getz (repeat slot_default 4) i = Some sl -> (i = 0 \/ i = 1 \/ i = 2 \/ i = 3)%Z /\ sl = slot_default).
  { intros i sl G. pose proof (getz_Some _ _ _ G) as B. change (len (repeat slot_default 4)) with 4%Z in B. assert (K : (i = 0 \/ i = 1 \/ i = 2 \/ i = 3)%Z) by lia.
    split; [exact K|]. decompose [or] K; subst; injection G as <-; reflexivity. }
  constructor.
  - repeat split.
  - repeat split.
  - split; [unfold rounds_of_four; lia|reflexivity].
  - repeat split.
  - repeat split.
  - split; [|split; [|split]].
    + intros i sl G. destruct (IX _ _ G) as [K ->]. decompose [or] K; subst; reflexivity.
    + intros i sl G. destruct (IX _ _ G) as [K ->]. decompose [or] K; subst; reflexivity.
    + intros i sl G. destruct (IX _ _ G) as [K ->]. decompose [or] K; subst; reflexivity.
    + intros i I. replace i with 0%Z by lia. discriminate.
  - unfold apart. lia.
Qed.

(** UpdateCubicXsAndGetMask_Neon moves three floats behind the only index; r4 and r5, which a
    function must restore, are not restored. *)
Theorem C125_past_refuted : exists table ev D E Rt X M s fuel s', update_args table 1 ev D E Rt 1 X M 1 s /\
  run (fun x => x) table fuel update_neon 0 s = Some s' /\
  m s (X + 4)%Z = Some (WFloat (Some 0)) /\ m s' (X + 4)%Z = Some (WFloat (Some 1)) /\
  r s' 4%Z <> r s 4%Z /\ r s' 5%Z <> r s 5%Z.
Proof.
  destruct (C125_update (fun x => x) _ _ _ _ _ _ _ _ _ _ _ update_start_args) as (fuel & s' & RUN & _ & V & _ & _ & _ & _ & R4 & R5).
  exists 12288%Z, (repeat slot_default 4), 8192%Z, 2048%Z, 3072%Z, 1024%Z, 4096%Z, update_start, fuel, s'. split; [exact update_start_args|]. split; [exact RUN|].
  split; [reflexivity|]. split; [|rewrite R4, R5; split; discriminate].
  pose proof (V 1%Z slot_default eq_refl) as W. change (1024 + 4 * 1)%Z with (1024 + 4)%Z in W. rewrite W. unfold f_step_x. cbn [cubic_x slot_default rate]. do 3 f_equal. ring.
Qed.
Print Assumptions C125_past_refuted.

(** States that meet the hypotheses of the theorems (of C125_update and C125_evaluate:
    update_start_args, evaluate_start_args). *)
Definition call_start : state := State
  (fun i => match i with 0 => 8192 | 1 => 8208 | 2 => 4 | 3 => 4 | 13 => 16384 | _ => 0 end)%Z
  (fun _ => (WInt 0, WInt 0)) (fun a => if (a <? 4096)%Z then None else Some (WInt 12288)) false.
Example C125_case : called_update 8192 8208 4 4 12288 call_start /\ called_evaluate 8192 8208 4 4 12288 call_start /\ null_page call_start /\
  evaluate_args (firstn 4 eight) 1024 2048 4 4096 1 (set_r 2 4 evaluate_start).
Proof.
  split; [repeat split|]. split; [repeat split|]. split.
  - intros a A. cbn. rewrite (proj2 (Z.ltb_lt a 4096)) by lia. reflexivity.
  - assert (IX : forall (i : Z) sl, getz (firstn 4 eight) i = Some sl -> (i = 0 \/ i = 1 \/ i = 2 \/ i = 3)%Z /\ sl = constant_slot i).
    { intros i sl G. pose proof (getz_Some _ _ _ G) as B. change (len (firstn 4 eight)) with 4%Z in B. assert (K : (i = 0 \/ i = 1 \/ i = 2 \/ i = 3)%Z) by lia.
      split; [exact K|]. decompose [or] K; subst; injection G as <-; reflexivity. }
    constructor.
    + repeat split.
    + split; [unfold rounds_of_four; lia|reflexivity].
    + repeat split.
    + split; [|split; [|split]].
      * intros i sl G. destruct (IX _ _ G) as [K ->]. decompose [or] K; subst; repeat split.
      * intros i sl G. destruct (IX _ _ G) as [K ->]. decompose [or] K; subst; reflexivity.
      * intros i I. assert (K : (i = 0 \/ i = 1 \/ i = 2 \/ i = 3)%Z) by lia. decompose [or] K; subst; discriminate.
      * intros i I. assert (K : (i = 0 \/ i = 1 \/ i = 2 \/ i = 3 \/ i = 4 \/ i = 5)%Z) by lia. decompose [or] K; subst; discriminate.
    + unfold apart. change (r (set_r 2 4 evaluate_start) sp) with 8192%Z. lia.
Qed.
