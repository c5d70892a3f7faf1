(** Properties C14-C16: the engine.

    [erun prio engine_init ops = Some (e, tr)]: the calls [ops] all succeed from a
    new engine and [tr] lists each call with its result.  Failing means touching a
    destroyed processor. *)
From Verif Require Import Base EngineModel EngineProofs.

Section Props.
Variable prio : nat -> Z.

(** Calls other than Reset never touch a destroyed processor. *)
Theorem engine_runs_without_reset : forall ops, ~ In EReset ops ->
  exists e tr, erun prio engine_init ops = Some (e, tr) /\ map fst tr = ops.
Proof. exact (engine_runs prio). Qed.

(** C14: two look-ups return the same object exactly when they are for the same
    type; a look-up fails exactly when no factory was registered before it; the
    object was made by the first factory registered for the type. *)
Theorem C14_one_processor_per_type : forall ops e tr,
  erun prio engine_init ops = Some (e, tr) -> ~ In EReset ops ->
  (forall t t' o o', In (EProcessor t, RProcessor (Some o)) tr -> In (EProcessor t', RProcessor (Some o')) tr ->
     (o = o' <-> t = t')) /\
  (forall pre t r post, tr = pre ++ (EProcessor t, RProcessor r) :: post ->
     (r = None <-> first_registered t pre = None) /\
     forall o, r = Some o -> exists x, nth_error (heap e) o = Some x /\ o_type x = t /\ o_alive x = true /\
       first_registered t pre = Some (o_factory x)).
Proof. exact (C14_proof prio). Qed.

(** C15: a frame advances each processor that has been handed out, once, in order
    of priority and then of creation (objects are numbered in creation order). *)
Theorem C15_frame_order : forall ops e tr pre l post,
  erun prio engine_init ops = Some (e, tr) -> ~ In EReset ops ->
  tr = pre ++ (EFrame, RFrame l) :: post ->
  NoDup l /\ (forall o, In o l <-> exists t, In (EProcessor t, RProcessor (Some o)) pre) /\
  (forall a b x y l1 l2 l3, l = l1 ++ a :: l2 ++ b :: l3 -> nth_error (heap e) a = Some x -> nth_error (heap e) b = Some y ->
     prio (o_factory x) < prio (o_factory y) \/ (prio (o_factory x) = prio (o_factory y) /\ (a < b)%nat)).
Proof. exact (C15_proof prio). Qed.

(** C16 is false: Reset destroys every processor but leaves them all in the list
    that AdvanceFrame walks, so after any history that created a processor the next
    AdvanceFrame touches a destroyed one. *)
Theorem C16_reset_then_frame_refuted : forall ops e tr,
  erun prio engine_init ops = Some (e, tr) -> ~ In EReset ops ->
  (exists t o, In (EProcessor t, RProcessor (Some o)) tr) ->
  exists e' r, estep prio e EReset = Some (e', r) /\ estep prio e' EFrame = None.
Proof. exact (C16_refuted_proof prio). Qed.

(** What does hold: Reset itself succeeds, leaves no mapped and no living
    processor, a second Reset (as in the destructor) does nothing, and a frame is
    safe exactly if no processor had been created. *)
Theorem C16_reset_partial : forall ops e tr,
  erun prio engine_init ops = Some (e, tr) -> ~ In EReset ops ->
  exists e', reset e = Some e' /\ mapped e' = [] /\ (forall o x, nth_error (heap e') o = Some x -> o_alive x = false) /\
    length (heap e') = length (heap e) /\ reset e' = Some e' /\
    ((exists t o, In (EProcessor t, RProcessor (Some o)) tr) <-> advance (heap e') (sorted e') = None).
Proof. exact (C16_proof prio). Qed.
End Props.

Print Assumptions engine_runs_without_reset.
Print Assumptions C14_one_processor_per_type.
Print Assumptions C15_frame_order.
Print Assumptions C16_reset_then_frame_refuted.
Print Assumptions C16_reset_partial.

(** A history meeting the hypotheses: type 7 asked for before its factory exists,
    a second factory registered too late, priorities out of creation order with a
    tie (types 7 and 9), and two frames. *)
Definition demo_prio (f : nat) : Z := match f with 1%nat => 2 | 2%nat => 0 | 3%nat => 2 | _ => 5 end.
Definition demo_ops := [EProcessor 7; ERegister 7 1; ERegister 8 2; EProcessor 7; ERegister 7 4; EFrame;
                        ERegister 9 3; EProcessor 9; EProcessor 8; EProcessor 7; EFrame].
Example engine_demo : ~ In EReset demo_ops /\
  exists e, erun demo_prio engine_init demo_ops = Some (e,
    [(EProcessor 7, RProcessor None); (ERegister 7 1, RNone); (ERegister 8 2, RNone);
     (EProcessor 7, RProcessor (Some 0%nat)); (ERegister 7 4, RNone); (EFrame, RFrame [0%nat]);
     (ERegister 9 3, RNone); (EProcessor 9, RProcessor (Some 1%nat)); (EProcessor 8, RProcessor (Some 2%nat));
     (EProcessor 7, RProcessor (Some 0%nat)); (EFrame, RFrame [2%nat; 0%nat; 1%nat])]).
Proof. split; [intros H; repeat (destruct H as [H|H]; [discriminate|]); exact H|]. eexists. vm_compute. reflexivity. Qed.

(** The failing history for C16, computed. *)
Example engine_reset_demo : erun demo_prio engine_init [ERegister 7 1; EProcessor 7; EReset] <> None /\
  erun demo_prio engine_init [ERegister 7 1; EProcessor 7; EReset; EFrame] = None.
Proof. split; vm_compute; [intros H; discriminate H|reflexivity]. Qed.
