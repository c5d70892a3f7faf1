(** C47 for the processors built on SimpleProcessorTemplate, C48 (const) and C49
    (ease-in-ease-out). *)
From Verif Require Import RBase BaseFacts RangeModel FloatModel CurveModel CurveProofs CurveUtilModel Glue EaseProofs EaseProps OvershootModel OvershootProps SimpleModel.
From Verif Require Import IndexAllocatorModel IndexAllocatorSpec ProcessorModel ProcessorSpec ProcessorProps.
From Coq Require Import Lia.
Local Open Scope R_scope.

(** ** C47 *)
(** [out] holds, for each dimension, what [f] makes of the data and value of exactly that
    index. *)
Definition reports {T} (p : sproc T) (index : Z) (n : nat) (f : T -> R -> option R) (out : list R) : Prop :=
  len out = Z.of_nat n /\
  forall i, (0 <= i < Z.of_nat n)%Z -> exists d v, getz (data_ p) (index + i) = Some d /\ getz (values_ p) (index + i) = Some v /\ getz out i = f d v.

Lemma gather_floats_ok {T} (p : sproc T) index n f out : gather_floats p index n f = Some out -> reports p index n f out.
Proof.
  intros G. destruct (gather_getz _ _ _ _ G) as [L A]. split; [exact L|]. intros i I. specialize (A i I). rewrite Z.add_0_l in A. unfold data_at in A.
  destruct (getz_in_range out i) as [o O]; [lia|]. destruct (getz (data_ p) (index + i)) as [d|]; [|congruence]. destruct (getz (values_ p) (index + i)) as [v|]; [|congruence].
  exists d, v. auto.
Qed.

(** Whatever the data type and its accessor functions, each query reports the state of the
    indices asked for; TargetTime is the largest of the target times. *)
Theorem C47_simple : forall T (k : simple_class T) p index n,
  (forall out, s_velocities k p index n = Some out -> reports p index n (k_velocity k) out) /\
  (forall out, s_target_values k p index n = Some out -> reports p index n (k_target_value k) out) /\
  (forall out, s_target_velocities k p index n = Some out -> reports p index n (k_target_velocity k) out) /\
  (forall out, s_differences k p index n = Some out -> reports p index n (k_difference k) out) /\
  (forall t, s_target_time k p index n = Some t ->
     (forall i d, (0 <= i < Z.of_nat n)%Z -> getz (data_ p) (index + i) = Some d -> exists ti, k_target_time k d = Some ti /\ (ti <= t)%Z) /\
     (t = (-2147483648)%Z \/ exists i d, (0 <= i < Z.of_nat n)%Z /\ getz (data_ p) (index + i) = Some d /\ k_target_time k d = Some t)).
Proof.
  intros T k p index n. split; [|split; [|split; [|split]]]; try (intros out G; now apply gather_floats_ok).
  intros t H. unfold s_target_time in H. destruct (gather _ 0 n) as [ts|] eqn:G; [|discriminate]. injection H as <-.
  destruct (gather_getz _ _ _ _ G) as [L A]. unfold data_at in A.
  assert (M : forall l a, (a <= fold_left Z.max l a /\ forall x, In x l -> x <= fold_left Z.max l a)%Z /\ (fold_left Z.max l a = a \/ In (fold_left Z.max l a) l)).
  { clear. induction l as [|y l IH]; intros a; cbn [fold_left]; [split; [split; [lia|easy]|now left]|]. destruct (IH (Z.max a y)) as [[B C] D].
    split; [split; [lia|]|].
    - intros x [<-|X]; [lia|]. now apply C.
    - destruct D as [D|D]; [|right; now right]. destruct (Z.max_spec a y) as [[_ E]|[_ E]]; rewrite E in D |- *; [right; left; now rewrite D|left; now rewrite D]. }
  destruct (M ts (-2147483648)%Z) as [[B C] D]. split.
  - intros i d I E. specialize (A i I). rewrite Z.add_0_l, E in A. destruct (getz_in_range ts i) as [ti TI]; [lia|]. exists ti. split; [congruence|].
    apply C. unfold getz in TI. destruct (i <? 0)%Z; [discriminate|]. now apply nth_error_In in TI.
  - destruct D as [D|D]; [now left|right]. apply In_nth_error in D. destruct D as [j J].
    assert (JL : (j < length ts)%nat) by (apply nth_error_Some; congruence).
    assert (I : (0 <= Z.of_nat j < Z.of_nat n)%Z) by (unfold len in L; lia). exists (Z.of_nat j). specialize (A _ I). rewrite Z.add_0_l in A.
    assert (GJ : getz ts (Z.of_nat j) = nth_error ts j) by (unfold getz; destruct (Z.ltb_spec (Z.of_nat j) 0); [lia|]; now rewrite Nat2Z.id).
    rewrite GJ, J in A. destruct (getz (data_ p) (index + Z.of_nat j)) as [d|]; [|discriminate]. exists d. auto.
Qed.
Print Assumptions C47_simple.

(** Initialising a motivator writes its own indices and no others. *)
Lemma write_ok {T} (p : sproc T) i d v p' : write_index p i d v = Some p' ->
  getz (data_ p') i = Some d /\ getz (values_ p') i = Some v /\ len (data_ p') = len (data_ p) /\
  forall j, j <> i -> getz (data_ p') j = getz (data_ p) j /\ getz (values_ p') j = getz (values_ p) j.
Proof.
  unfold write_index. destruct (setz (data_ p) i d) as [ds|] eqn:E1; [|discriminate]. destruct (setz (values_ p) i v) as [vs|] eqn:E2; [|discriminate].
  intros [= <-]. cbn [data_ values_]. split; [eapply getz_setz_eq; eassumption|]. split; [eapply getz_setz_eq; eassumption|]. split; [eapply setz_len; eassumption|].
  intros j J. split; eapply getz_setz_neq; eauto.
Qed.

Lemma initialize_ok {T} (make : simple_init -> Z -> option T) init index : forall n i0 p p',
  for_dims (fun i p => d <- make init i ;; v <- deref (start_values init) i ;; write_index p (i + index) d v) i0 n p = Some p' ->
  (forall i, (i0 <= i < i0 + Z.of_nat n)%Z -> exists d v, make init i = Some d /\ deref (start_values init) i = Some v /\
     getz (data_ p') (i + index) = Some d /\ getz (values_ p') (i + index) = Some v) /\
  forall j, ~ (i0 + index <= j < i0 + index + Z.of_nat n)%Z -> getz (data_ p') j = getz (data_ p) j /\ getz (values_ p') j = getz (values_ p) j.
Proof.
  induction n as [|n IH]; intros i0 p p' H; cbn [for_dims] in H; [injection H as <-; split; [lia|auto]|].
  destruct (make init i0) as [d|] eqn:M; [|discriminate]. destruct (deref (start_values init) i0) as [v|] eqn:V; [|discriminate].
  destruct (write_index p (i0 + index) d v) as [p1|] eqn:W; [|discriminate]. destruct (write_ok _ _ _ _ _ W) as (W1 & W2 & _ & W3).
  destruct (IH _ _ _ H) as [A B]. split.
  - intros i I. destruct (Z.eq_dec i i0) as [->|N]; [|apply A; lia]. exists d, v. split; [assumption|]. split; [assumption|].
    destruct (B (i0 + index)%Z) as [-> ->]; [lia|]. auto.
  - intros j J. destruct (B j) as [-> ->]; [lia|]. apply W3. lia.
Qed.

Theorem C47_simple_initialize : forall T (make : simple_init -> Z -> option T) init index n p p',
  s_initialize make init index n p = Some p' ->
  (forall i, (0 <= i < Z.of_nat n)%Z -> exists d v, make init i = Some d /\ deref (start_values init) i = Some v /\
     getz (data_ p') (index + i) = Some d /\ getz (values_ p') (index + i) = Some v) /\
  forall j, ~ (index <= j < index + Z.of_nat n)%Z -> getz (data_ p') j = getz (data_ p) j /\ getz (values_ p') j = getz (values_ p) j.
Proof.
  intros T make init index n p p' H. destruct (initialize_ok make init index n 0%Z p p' H) as [A B]. split.
  - intros i I. rewrite Z.add_comm. apply A. lia.
  - intros j J. apply B. lia.
Qed.
Print Assumptions C47_simple_initialize.

(** A three-dimensional motivator at index 2 of a const processor. *)
Example C47_simple_case : exists p, s_initialize const_make (SimpleInit (Some [4; 5; 6]) (Some [1; 2; 3])) 2 3 (SP [7; 7; 0; 0; 0; 7] [9; 9; 0; 0; 0; 9]) = Some p /\
  s_velocities const_class p 2 3 = Some [1; 2; 3] /\ s_target_values const_class p 2 3 = Some [4; 5; 6] /\ s_target_time const_class p 2 3 = Some 0%Z.
Proof. eexists. split; [reflexivity|]. repeat split; reflexivity. Qed.

(** ** C48 *)
(** Calls that may happen in an engine in which processor [pid] is a const processor. *)
Definition const_calls (pid : nat) (o : mop (R * R)) : Prop :=
  match o with OFrame q f => q = pid -> exists dt, f = const_frame dt | ODestroy q => q <> pid | _ => True end.

(** After a motivator of a const processor is initialised, its values and velocities stay
    the ones it was given, through any history of calls and frames that do not name it. *)
Theorem C48_const : forall dflt cls before after h pid n (vel val : Z -> R), (0 < n)%Z ->
  Forall (fun o => const_calls pid o /\ ~ mentions o h) after ->
  exists S, mrun dflt cls sys_init (before ++ OInit h pid n (fun i => (vel i, val i)) :: after) = Some S /\
    view S h = Some (pid, map (fun i => (vel (Z.of_nat i), val (Z.of_nat i))) (seq 0 (Z.to_nat n))).
Proof.
  intros dflt cls before after h pid n vel val N F. destruct (motivators_refine_table dflt cls (before ++ OInit h pid n (fun i => (vel i, val i)) :: after)) as (S & RR & V).
  exists S. split; [exact RR|]. rewrite V. clear V RR S.
  assert (AR : forall (a b : list (mop (R * R))) t, arun cls t (a ++ b) = arun cls (arun cls t a) b) by (induction a as [|o a IH]; intros b t; cbn [arun app]; auto).
  rewrite AR. cbn [arun]. cbn [astep]. destruct (Z.ltb_spec 0 n); [|lia].
  set (cells := map _ (seq 0 (Z.to_nat n))). 
  assert (G : forall t, t h = Some (pid, cells) -> arun cls t after h = Some (pid, cells)).
  { clear - F. induction F as [|o l [C M] F IH]; intros t Ht; [exact Ht|]. cbn [arun]. apply IH. destruct o; cbn [astep mentions const_calls] in *.
    - destruct (0 <? dims)%Z; [|exact Ht]. unfold upd. destruct (Nat.eqb_spec h h0); [contradiction|exact Ht].
    - unfold upd. destruct (Nat.eqb_spec h h0); [contradiction|exact Ht].
    - destruct (t dst); [exact Ht|]. unfold upd. destruct (Nat.eqb_spec h dst); [tauto|]. destruct (Nat.eqb_spec h src); [tauto|exact Ht].
    - destruct (Nat.eqb dst src); unfold upd; destruct (Nat.eqb_spec h dst); try tauto. destruct (Nat.eqb_spec h src); [tauto|exact Ht].
    - destruct (Nat.eqb dst src); [unfold upd; destruct (Nat.eqb_spec h dst); [tauto|exact Ht]|].
      destruct (t src) as [[q l']|]; [destruct (k_clone (cls q))|]; unfold upd; destruct (Nat.eqb_spec h dst); try tauto; exact Ht.
    - rewrite Ht. destruct (Nat.eqb_spec pid pid0) as [<-|]; [|reflexivity]. destruct (C eq_refl) as [dt ->]. unfold const_frame. now rewrite map_id.
    - destruct (t h0) as [[q l']|]; [|exact Ht]. destruct (setz l' k v); [|exact Ht]. unfold upd. destruct (Nat.eqb_spec h h0); [contradiction|exact Ht].
    - rewrite Ht. destruct (Nat.eqb_spec pid pid0) as [<-|]; [contradiction|reflexivity]. }
  apply G. unfold upd. now rewrite Nat.eqb_refl.
Qed.
Print Assumptions C48_const.

Example C48_case : Forall (fun o => const_calls 0 o /\ ~ mentions o 0)
  [OFrame 0 (const_frame 5); OInit 1 0 2 (fun i => (0, IZR i)); OFrame 1 (fun x => (0, snd x + 1)); OInvalidate 1; OFrame 0 (const_frame 100)].
Proof. repeat apply Forall_cons; try apply Forall_nil; cbn; split; try tauto; try discriminate; intros; eauto; discriminate. Qed.

(** With start velocities left out (the default), initialising dereferences a null pointer. *)
Theorem C48_no_derivatives_refuted : forall p, s_initialize const_make (SimpleInit (Some [4]) None) 0 1 p = None.
Proof. reflexivity. Qed.
Print Assumptions C48_no_derivatives_refuted.
