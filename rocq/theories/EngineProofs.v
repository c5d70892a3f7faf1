(** Invariant of the engine before its first Reset. *)
From Verif Require Import Base EngineModel.
From Coq Require Import Sorted Permutation.

Section P.
Variable prio : nat -> Z.

(** Priority then creation order. *)
Definition before (h : list object) (a b : nat) : Prop :=
  exists x y, nth_error h a = Some x /\ nth_error h b = Some y /\
    (prio (o_factory x) < prio (o_factory y) \/ (prio (o_factory x) = prio (o_factory y) /\ (a < b)%nat)).

Record EInv (e : engine) (tr : list (eop * result)) : Prop := {
  ei_alive : forall o x, nth_error (heap e) o = Some x -> o_alive x = true;
  ei_perm : Permutation (sorted e) (seq 0 (length (heap e)));
  ei_sorted : StronglySorted (before (heap e)) (sorted e);
  ei_mapped : forall t o, find_key t (mapped e) = Some o ->
     exists x, nth_error (heap e) o = Some x /\ o_type x = t /\ find_key t (functions e) = Some (o_factory x);
  ei_keys : forall t o, In (t, o) (mapped e) -> find_key t (mapped e) = Some o;
  ei_onto : forall o x, nth_error (heap e) o = Some x -> find_key (o_type x) (mapped e) = Some o;
  ei_funcs : forall t, find_key t (functions e) = first_registered t tr;
  ei_results : forall t r, In (EProcessor t, RProcessor (Some r)) tr -> find_key t (mapped e) = Some r;
  ei_created : forall o x, nth_error (heap e) o = Some x -> In (EProcessor (o_type x), RProcessor (Some o)) tr }.

Lemma first_registered_app t tr tr' : first_registered t (tr ++ tr') =
  match first_registered t tr with Some f => Some f | None => first_registered t tr' end.
Proof.
  induction tr as [|[op r] tr IH]; [reflexivity|]. simpl. destruct op; auto. destruct (Nat.eqb type t); auto.
Qed.

Lemma nth_snoc {A} (l : list A) x i : nth_error (l ++ [x]) i =
  if Nat.ltb i (length l) then nth_error l i else if Nat.eqb i (length l) then Some x else None.
Proof.
  destruct (Nat.ltb_spec i (length l)); [now apply nth_error_app1|].
  destruct (Nat.eqb_spec i (length l)) as [->|].
  - rewrite nth_error_app2, Nat.sub_diag by lia. reflexivity.
  - apply nth_error_None. rewrite app_length. simpl. lia.
Qed.

Lemma before_mono h x a b : before h a b -> before (h ++ [x]) a b.
Proof.
  intros (u & v & A & B & C). exists u, v.
  rewrite !nth_error_app1; [auto| |]; apply nth_error_Some; congruence.
Qed.

Lemma insert_ok h x l : (forall o y, nth_error (h ++ [x]) o = Some y -> o_alive y = true) ->
  Forall (fun o => (o < length h)%nat) l -> StronglySorted (before h) l ->
  exists l', multiset_insert prio (h ++ [x]) (length h) l = Some l' /\
    Permutation l' (length h :: l) /\ StronglySorted (before (h ++ [x])) l'.
Proof.
  intros Al Fl. induction l as [|y l IH]; intros Ss.
  { exists [length h]. split; [reflexivity|]. split; [auto|]. repeat constructor. }
  inversion Fl as [|? ? Hy Fl']; subst. inversion Ss as [|? ? Ss' Fy]; subst.
  cbn [multiset_insert]. unfold priority.
  destruct (nth_error (h ++ [x]) y) as [vy|] eqn:Ey.
  2:{ apply nth_error_None in Ey. rewrite app_length in Ey. simpl in Ey. lia. }
  rewrite (Al _ _ Ey).
  assert (Ex : nth_error (h ++ [x]) (length h) = Some x).
  { rewrite nth_error_app2, Nat.sub_diag by lia. reflexivity. }
  rewrite Ex, (Al _ _ Ex).
  destruct (Z.ltb_spec (prio (o_factory x)) (prio (o_factory vy))) as [Hlt|Hge].
  - exists (length h :: y :: l). split; [reflexivity|]. split; [auto|].
    constructor.
    + constructor; [|eapply Forall_impl; [|exact Fy]; intros; now apply before_mono].
      clear -Ss'. induction Ss'; constructor; auto. eapply Forall_impl; [|exact H]. intros; now apply before_mono.
    + constructor; [exists x, vy; auto|]. eapply Forall_impl; [|exact Fy]. intros z (u & v & A & B & C).
      exists x, v. split; [exact Ex|]. rewrite nth_error_app1 in Ey by assumption. rewrite A in Ey. injection Ey as ->.
      split; [rewrite nth_error_app1; [exact B|apply nth_error_Some; congruence]|]. left. lia.
  - destruct (IH Fl' Ss') as (l' & E & Pm & Ss2). rewrite E. exists (y :: l'). split; [reflexivity|]. split.
    { etransitivity; [apply perm_skip, Pm|apply perm_swap]. }
    constructor; [assumption|]. apply Forall_forall. intros z Hz. apply (Permutation_in _ Pm) in Hz.
    destruct Hz as [<-|Hz].
    + exists vy, x. split; [assumption|]. split; [assumption|].
      destruct (Z.eq_dec (prio (o_factory vy)) (prio (o_factory x))); [right|left]; lia.
    + rewrite Forall_forall in Fy. now apply before_mono, Fy.
Qed.

Lemma advance_ok h l : (forall o, In o l -> exists x, nth_error h o = Some x /\ o_alive x = true) -> advance h l = Some l.
Proof.
  induction l as [|o l IH]; intros H; [reflexivity|]. cbn [advance].
  destruct (H o (or_introl eq_refl)) as (x & -> & ->). rewrite IH; [reflexivity|]. intros o' Ho. apply H. now right.
Qed.

Lemma sorted_alive e tr o : EInv e tr -> In o (sorted e) -> exists x, nth_error (heap e) o = Some x /\ o_alive x = true.
Proof.
  intros I H. apply (Permutation_in _ (ei_perm _ _ I)) in H. apply in_seq in H.
  destruct (nth_error (heap e) o) as [x|] eqn:E; [|apply nth_error_None in E; lia].
  exists x. split; [reflexivity|]. eapply ei_alive; eauto.
Qed.

Lemma init_inv : EInv engine_init [].
Proof.
  constructor; simpl; try easy; try constructor; try (intros [|]; discriminate).
Qed.

Ltac inapp := apply in_app_iff.

Lemma estep_ok e tr op : EInv e tr -> op <> EReset ->
  exists e' r, estep prio e op = Some (e', r) /\ EInv e' (tr ++ [(op, r)]) /\
    (forall t o, op = EProcessor t -> r = RProcessor o -> o = find_key t (mapped e')) /\
    (forall t, op = EProcessor t -> r = RProcessor None -> first_registered t tr = None) /\
    (forall t o, find_key t (mapped e) = Some o -> find_key t (mapped e') = Some o) /\
    (exists more, heap e' = heap e ++ more) /\
    (op = EFrame -> r = RFrame (sorted e)).
Proof.
  intros I Hop. destruct op as [t f|t| |]; [| | |congruence]; cbn [estep].
  - (* register *)
    exists (register_factory e t f), RNone. split; [reflexivity|]. unfold register_factory.
    split; [|split; [discriminate|split; [discriminate|]]].
    2:{ destruct (find_key t (functions e)); cbn [mapped heap]; (split; [auto|split; [exists []; now rewrite app_nil_r|discriminate]]). }
    destruct (find_key t (functions e)) as [f0|] eqn:Ef.
    + destruct I; constructor; auto.
      * intros t'. rewrite first_registered_app, <- ei_funcs0. destruct (find_key t' (functions e)) eqn:E; [reflexivity|].
        simpl. destruct (Nat.eqb_spec t t'); [congruence|reflexivity].
      * intros t' r H. apply in_app_iff in H as [H|[H|[]]]; [auto|discriminate].
      * intros o x H. inapp. left. auto.
    + destruct I; constructor; cbn [functions mapped sorted heap]; auto.
      * intros t' o H. destruct (ei_mapped0 _ _ H) as (x & A & B & C). exists x. split; [assumption|]. split; [assumption|].
        simpl. destruct (Nat.eqb_spec t' t); [congruence|assumption].
      * intros t'. rewrite first_registered_app, <- ei_funcs0. simpl.
        destruct (Nat.eqb_spec t' t) as [->|].
        -- rewrite Ef, Nat.eqb_refl. reflexivity.
        -- destruct (find_key t' (functions e)); [reflexivity|]. destruct (Nat.eqb_spec t t'); [congruence|reflexivity].
      * intros t' r H. apply in_app_iff in H as [H|[H|[]]]; [auto|discriminate].
      * intros o x H. inapp. left. auto.
  - (* processor *)
    unfold processor. destruct (find_key t (mapped e)) as [o|] eqn:Em.
    + exists e, (RProcessor (Some o)). split; [reflexivity|]. split; [|split; [|split; [discriminate|split; [auto|split; [exists []; now rewrite app_nil_r|discriminate]]]]].
      * destruct I; constructor; auto.
        -- intros t'. rewrite first_registered_app, <- ei_funcs0. now destruct (find_key t' (functions e)).
        -- intros t' r H. apply in_app_iff in H as [H|[H|[]]]; [auto|congruence].
        -- intros o' x H. inapp. left. auto.
      * intros t' o' E1 E2. injection E1 as <-. injection E2 as <-. auto.
    + destruct (find_key t (functions e)) as [f|] eqn:Ef.
      * set (x := {| o_type := t; o_factory := f; o_alive := true |}).
        assert (Al : forall o y, nth_error (heap e ++ [x]) o = Some y -> o_alive y = true).
        { intros o y. rewrite nth_snoc. destruct (Nat.ltb o (length (heap e))); [apply (ei_alive _ _ I)|].
          destruct (Nat.eqb o (length (heap e))); [|discriminate]. intros E. injection E as <-. reflexivity. }
        destruct (insert_ok (heap e) x (sorted e) Al) as (s' & Es & Pm & Ss).
        { apply Forall_forall. intros o Ho. apply (Permutation_in _ (ei_perm _ _ I)), in_seq in Ho. lia. }
        { apply I. }
        rewrite Es. cbn [fst snd]. eexists _, _. split; [reflexivity|]. cbn [functions mapped sorted heap].
        assert (Hnew : forall o y, nth_error (heap e ++ [x]) o = Some y ->
           (nth_error (heap e) o = Some y /\ o <> length (heap e)) \/ (o = length (heap e) /\ y = x)).
        { intros o y. rewrite nth_snoc. destruct (Nat.ltb_spec o (length (heap e))); [left; split; [assumption|lia]|].
          destruct (Nat.eqb_spec o (length (heap e))); [|discriminate]. intros E. injection E as <-. right. auto. }
        assert (Hkeep : forall t' o, find_key t' (mapped e) = Some o -> t' <> t) by congruence.
        assert (Hold : forall o y, nth_error (heap e) o = Some y -> nth_error (heap e ++ [x]) o = Some y).
        { intros o y H. rewrite nth_error_app1; [assumption|apply nth_error_Some; congruence]. }
        split; [|split; [|split; [discriminate|split; [|split; [eexists; reflexivity|discriminate]]]]].
        -- constructor; cbn [functions mapped sorted heap].
           ++ exact Al.
           ++ rewrite app_length. simpl. rewrite Nat.add_1_r, seq_S. simpl.
              etransitivity; [exact Pm|]. etransitivity; [apply Permutation_cons_append|].
              apply Permutation_app_tail, I.
           ++ exact Ss.
           ++ intros t' o. simpl. destruct (Nat.eqb_spec t' t) as [->|Hne].
              ** intros E. injection E as <-. exists x. rewrite nth_error_app2, Nat.sub_diag by lia. repeat split. exact Ef.
              ** intros H. destruct (ei_mapped _ _ I _ _ H) as (y & A & B & C). exists y. auto.
           ++ intros t' o [H|H].
              ** injection H as <- <-. simpl. now rewrite Nat.eqb_refl.
              ** apply (ei_keys _ _ I) in H. simpl. destruct (Nat.eqb_spec t' t); [congruence|assumption].
           ++ intros o y H. simpl. destruct (Hnew _ _ H) as [(A & B)|(-> & ->)].
              ** pose proof (ei_onto _ _ I _ _ A) as Hf. destruct (Nat.eqb_spec (o_type y) t); [congruence|assumption].
              ** simpl. now rewrite Nat.eqb_refl.
           ++ intros t'. rewrite first_registered_app, <- (ei_funcs _ _ I). now destruct (find_key t' (functions e)).
           ++ intros t' r H. simpl. apply in_app_iff in H as [H|[H|[]]].
              ** apply (ei_results _ _ I) in H. destruct (Nat.eqb_spec t' t); [congruence|assumption].
              ** injection H as <- <-. now rewrite Nat.eqb_refl.
           ++ intros o y H. inapp. destruct (Hnew _ _ H) as [(A & B)|(-> & ->)].
              ** left. now apply (ei_created _ _ I).
              ** right. now left.
        -- intros t' o' E1 E2. injection E1 as <-. injection E2 as <-. simpl. now rewrite Nat.eqb_refl.
        -- intros t' o H. simpl. destruct (Nat.eqb_spec t' t); [congruence|assumption].
      * exists e, (RProcessor None). split; [reflexivity|]. split; [|split; [|split; [|split; [auto|split; [exists []; now rewrite app_nil_r|discriminate]]]]].
        -- destruct I; constructor; auto.
           ++ intros t'. rewrite first_registered_app, <- ei_funcs0. now destruct (find_key t' (functions e)).
           ++ intros t' r H. apply in_app_iff in H as [H|[H|[]]]; [auto|discriminate].
           ++ intros o' x H. inapp. left. auto.
        -- intros t' o' E1 E2. injection E1 as <-. injection E2 as <-. auto.
        -- intros t' E1 _. injection E1 as <-. now rewrite <- (ei_funcs _ _ I).
  - (* frame *)
    rewrite (advance_ok (heap e) (sorted e)) by (intros o Ho; eapply sorted_alive; eauto).
    exists e, (RFrame (sorted e)). split; [reflexivity|]. split; [|split; [discriminate|split; [discriminate|split; [auto|split; [exists []; now rewrite app_nil_r|auto]]]]].
    destruct I; constructor; auto.
    + intros t'. rewrite first_registered_app, <- ei_funcs0. now destruct (find_key t' (functions e)).
    + intros t' r H. apply in_app_iff in H as [H|[H|[]]]; [auto|discriminate].
    + intros o' x H. inapp. left. auto.
Qed.

Lemma erun_ok ops : forall e tr, EInv e tr -> ~ In EReset ops ->
  exists e' tr', erun prio e ops = Some (e', tr') /\ EInv e' (tr ++ tr') /\ map fst tr' = ops.
Proof.
  induction ops as [|op ops IH]; intros e tr I H.
  { exists e, []. rewrite app_nil_r. auto. }
  cbn [erun]. destruct (estep_ok e tr op I) as (e1 & r & E1 & I1 & _). { intros ->. apply H. now left. }
  rewrite E1. cbn [fst snd]. destruct (IH e1 _ I1) as (e' & tr' & E' & I' & M). { intros Hr. apply H. now right. }
  rewrite E'. exists e', ((op, r) :: tr'). cbn [fst snd]. split; [reflexivity|]. rewrite <- app_assoc in I'. split; [exact I'|].
  simpl. now rewrite M.
Qed.

(** Splitting a run at a call. *)
Lemma erun_split ops : forall e e' tr pre op r post, erun prio e ops = Some (e', tr) -> tr = pre ++ (op, r) :: post ->
  exists opre opost e1 e2, ops = opre ++ op :: opost /\ erun prio e opre = Some (e1, pre) /\
    estep prio e1 op = Some (e2, r) /\ erun prio e2 opost = Some (e', post).
Proof.
  induction ops as [|o ops IH]; intros e e' tr pre op r post E Et; cbn [erun] in E.
  { injection E as <- <-. destruct pre; discriminate. }
  destruct (estep prio e o) as [[e1 r1]|] eqn:E1; [|discriminate]. cbn [fst snd] in E.
  destruct (erun prio e1 ops) as [[e2 tr2]|] eqn:E2; [|discriminate]. cbn [fst snd] in E.
  injection E as <- <-. destruct pre as [|[o' r'] pre].
  - simpl in Et. injection Et as <- <- <-. exists [], ops, e, e1. auto.
  - simpl in Et. injection Et as <- <- Et. destruct (IH _ _ _ _ _ _ _ E2 Et) as (opre & opost & e3 & e4 & -> & A & B & C).
    exists (o :: opre), opost, e3, e4. cbn [erun]. rewrite E1. cbn [fst snd]. rewrite A. auto.
Qed.

Lemma run_inv ops e tr : erun prio engine_init ops = Some (e, tr) -> ~ In EReset ops -> EInv e tr.
Proof.
  intros E H. destruct (erun_ok ops engine_init [] init_inv H) as (e' & tr' & E' & I' & _).
  rewrite E in E'. injection E' as <- <-. exact I'.
Qed.

Lemma C14_proof ops e tr : erun prio engine_init ops = Some (e, tr) -> ~ In EReset ops ->
  (forall t t' o o', In (EProcessor t, RProcessor (Some o)) tr -> In (EProcessor t', RProcessor (Some o')) tr ->
     (o = o' <-> t = t')) /\
  (forall pre t r post, tr = pre ++ (EProcessor t, RProcessor r) :: post ->
     (r = None <-> first_registered t pre = None) /\
     forall o, r = Some o -> exists x, nth_error (heap e) o = Some x /\ o_type x = t /\ o_alive x = true /\
       first_registered t pre = Some (o_factory x)).
Proof.
  intros E H. pose proof (run_inv _ _ _ E H) as I. split.
  - intros t t' o o' H1 H2. apply (ei_results _ _ I) in H1. apply (ei_results _ _ I) in H2. split.
    + intros ->. destruct (ei_mapped _ _ I _ _ H1) as (x & A & B & _). destruct (ei_mapped _ _ I _ _ H2) as (y & A' & B' & _). congruence.
    + intros ->. congruence.
  - intros pre t r post Et. destruct (erun_split _ _ _ _ _ _ _ _ E Et) as (opre & opost & e1 & e2 & -> & Er & Es & Ep).
    assert (I1 : EInv e1 pre). { apply (run_inv opre); [exact Er|]. intros Hr. apply H. apply in_app_iff. now left. }
    destruct (estep_ok e1 pre (EProcessor t) I1 ltac:(discriminate)) as (e3 & r3 & Es' & I3 & Hr & Hn & _).
    rewrite Es in Es'. injection Es' as <- <-.
    assert (Hin : forall o, r = Some o -> In (EProcessor t, RProcessor (Some o)) tr).
    { intros o ->. rewrite Et. apply in_elt. }
    assert (Hsome : forall o, r = Some o -> first_registered t pre <> None).
    { intros o ->. specialize (Hr t (Some o) eq_refl eq_refl). symmetry in Hr.
      destruct (ei_mapped _ _ I3 _ _ Hr) as (x & _ & _ & Hf). rewrite (ei_funcs _ _ I3), first_registered_app in Hf.
      destruct (first_registered t pre); [discriminate|]. discriminate. }
    split.
    + split; [intros ->; now apply (Hn t)|]. intros Hf. destruct r as [o|]; [|reflexivity]. now destruct (Hsome o).
    + intros o Eo. specialize (Hin o Eo). apply (ei_results _ _ I) in Hin.
      destruct (ei_mapped _ _ I _ _ Hin) as (x & A & B & C). exists x. split; [assumption|]. split; [assumption|].
      split; [exact (ei_alive _ _ I _ _ A)|]. rewrite (ei_funcs _ _ I) in C. rewrite Et, first_registered_app in C.
      destruct (first_registered t pre) as [f|] eqn:Ef; [exact C|]. exfalso. now apply (Hsome o).
Qed.

Lemma C15_proof ops e tr pre l post : erun prio engine_init ops = Some (e, tr) -> ~ In EReset ops ->
  tr = pre ++ (EFrame, RFrame l) :: post ->
  NoDup l /\ (forall o, In o l <-> exists t, In (EProcessor t, RProcessor (Some o)) pre) /\
  (forall a b x y l1 l2 l3, l = l1 ++ a :: l2 ++ b :: l3 -> nth_error (heap e) a = Some x -> nth_error (heap e) b = Some y ->
     prio (o_factory x) < prio (o_factory y) \/ (prio (o_factory x) = prio (o_factory y) /\ (a < b)%nat)).
Proof.
  intros E H Et. destruct (erun_split _ _ _ _ _ _ _ _ E Et) as (opre & opost & e1 & e2 & -> & Er & Es & Ep).
  assert (I1 : EInv e1 pre). { apply (run_inv opre); [exact Er|]. intros Hr. apply H. apply in_app_iff. now left. }
  destruct (estep_ok e1 pre EFrame I1 ltac:(discriminate)) as (e3 & r3 & Es' & I3 & _ & _ & _ & Hh & Hl).
  rewrite Es in Es'. injection Es' as <- <-. specialize (Hl eq_refl). injection Hl as ->.
  assert (Hheap : exists more, heap e = heap e1 ++ more).
  { destruct Hh as (m1 & Hm1).
    assert (G : forall ops a tra b trb, EInv a tra -> ~ In EReset ops -> erun prio a ops = Some (b, trb) -> exists more, heap b = heap a ++ more).
    { clear. induction ops as [|op ops IH]; intros a tra b trb I H E; cbn [erun] in E.
      - injection E as <- <-. exists []. now rewrite app_nil_r.
      - destruct (estep_ok a tra op I) as (a1 & r & E1 & I1 & _ & _ & _ & (m & Hm) & _). { intros ->. apply H. now left. }
        rewrite E1 in E. cbn [fst snd] in E. destruct (erun prio a1 ops) as [[b' trb']|] eqn:E2; [|discriminate].
        cbn [fst snd] in E. injection E as <- <-.
        assert (Hops : ~ In EReset ops) by (intros Hr; apply H; right; exact Hr).
        destruct (IH a1 _ _ _ I1 Hops E2) as (m' & Hm').
        exists (m ++ m'). rewrite Hm', Hm. now rewrite app_assoc. }
    assert (Hops : ~ In EReset opost) by (intros Hr; apply H; apply in_app_iff; right; right; exact Hr).
    destruct (G _ _ _ _ _ I3 Hops Ep) as (m2 & Hm2).
    exists (m1 ++ m2). rewrite Hm2, Hm1. now rewrite app_assoc. }
  split; [|split].
  - eapply Permutation_NoDup; [symmetry; apply I1|apply seq_NoDup].
  - intros o. split.
    + intros Ho. destruct (sorted_alive _ _ _ I1 Ho) as (x & Hx & _). exists (o_type x). now apply (ei_created _ _ I1).
    + intros (t & Ht). apply (ei_results _ _ I1) in Ht. destruct (ei_mapped _ _ I1 _ _ Ht) as (x & Hx & _).
      eapply Permutation_in; [symmetry; apply I1|]. apply in_seq. split; [lia|]. apply nth_error_Some. congruence.
  - intros a b x y l1 l2 l3 El Ha Hb.
    pose proof (ei_sorted _ _ I1) as Ss. rewrite El in Ss.
    assert (Bf : before (heap e1) a b).
    { clear -Ss. induction l1 as [|z l1 IH]; simpl in Ss; inversion Ss as [|? ? Ss' Fy]; subst; [|auto].
      rewrite Forall_forall in Fy. apply Fy. apply in_elt. }
    destruct Bf as (x' & y' & A & B & C). destruct Hheap as (m & Hm).
    assert (Ex : forall o v, nth_error (heap e1) o = Some v -> nth_error (heap e) o = Some v).
    { intros o v Hv. rewrite Hm, nth_error_app1; [assumption|apply nth_error_Some; congruence]. }
    apply Ex in A. apply Ex in B. rewrite Ha in A. rewrite Hb in B. injection A as <-. injection B as <-. exact C.
Qed.

(** ** Reset *)
Lemma kill_ok h o x : nth_error h o = Some x -> o_alive x = true ->
  exists h', kill h o = Some h' /\ length h' = length h /\
    (forall o', o' <> o -> nth_error h' o' = nth_error h o') /\
    (exists y, nth_error h' o = Some y /\ o_alive y = false).
Proof.
  intros E A. unfold kill. rewrite E, A. eexists. split; [reflexivity|].
  assert (Ho : (o < length h)%nat) by (apply nth_error_Some; congruence).
  assert (L : length (firstn o h) = o) by (rewrite firstn_length; lia).
  split; [rewrite app_length; cbn [length]; rewrite skipn_length; lia|]. split.
  - intros o' Hne. destruct (Nat.lt_ge_cases o' o).
    + rewrite nth_error_app1 by lia. rewrite <- (firstn_skipn o h) at 2. now rewrite nth_error_app1 by lia.
    + rewrite nth_error_app2 by lia. rewrite L. destruct (o' - o)%nat as [|k] eqn:Ek; [lia|].
      cbn [nth_error]. rewrite <- (firstn_skipn (S o) h) at 2.
      rewrite nth_error_app2; rewrite firstn_length; [|lia]. f_equal. lia.
  - eexists. rewrite nth_error_app2 by lia. rewrite L, Nat.sub_diag. cbn [nth_error]. split; reflexivity.
Qed.

Lemma destroy_all_ok e : forall m h,
  (forall t o, In (t, o) m -> find_key t (functions e) <> None /\ exists x, nth_error h o = Some x /\ o_alive x = true) ->
  NoDup (map snd m) ->
  exists h', destroy_all e m h = Some h' /\ length h' = length h /\
    (forall o, ~ In o (map snd m) -> nth_error h' o = nth_error h o) /\
    (forall o, In o (map snd m) -> exists y, nth_error h' o = Some y /\ o_alive y = false).
Proof.
  induction m as [|[t o] m IH]; intros h H Nd; cbn [destroy_all].
  { exists h. simpl. repeat split; auto; tauto. }
  destruct (H t o (or_introl eq_refl)) as (Hf & x & Ex & Ax). destruct (find_key t (functions e)) as [f|]; [|congruence].
  destruct (kill_ok h o x Ex Ax) as (h1 & E1 & L1 & O1 & K1). rewrite E1.
  simpl in Nd. inversion Nd as [|? ? Hni Nd']; subst.
  destruct (IH h1) as (h' & E' & L' & O' & K').
  { intros t' o' Hin. destruct (H t' o' (or_intror Hin)) as (A & y & B & C). split; [assumption|]. exists y.
    rewrite O1; [auto|]. intros ->. apply Hni. apply in_map_iff. exists (t', o). auto. }
  { assumption. }
  rewrite E'. exists h'. split; [reflexivity|]. split; [congruence|]. split.
  - intros o' Hn. simpl in Hn. rewrite O' by tauto. apply O1. intros ->. tauto.
  - intros o' [<-|Hin]; [|now apply K']. simpl. rewrite O' by assumption. assumption.
Qed.

Lemma mapped_nodup e tr : EInv e tr -> NoDup (mapped e) -> NoDup (map snd (mapped e)).
Proof.
  intros I Nd. assert (G : forall l, incl l (mapped e) -> NoDup l -> NoDup (map snd l)).
  { induction l as [|[t o] l IH]; intros Hi Hn; [constructor|]. apply NoDup_cons_iff in Hn as (Hni & Hn). simpl. constructor.
    - intros Hin. apply in_map_iff in Hin as ([t' o'] & Eo & Hin). simpl in Eo. subst o'.
      assert (K1 : find_key t (mapped e) = Some o) by (apply (ei_keys _ _ I), Hi; now left).
      assert (K2 : find_key t' (mapped e) = Some o) by (apply (ei_keys _ _ I), Hi; now right).
      destruct (ei_mapped _ _ I _ _ K1) as (x & A & B & _). destruct (ei_mapped _ _ I _ _ K2) as (y & A' & B' & _).
      apply Hni. replace t with t' by congruence. exact Hin.
    - apply IH; [|assumption]. intros z Hz. apply Hi. now right. }
  apply G; [apply incl_refl|assumption].
Qed.

Lemma erun_mapped_nodup ops : forall e tr e' tr', EInv e tr -> NoDup (mapped e) -> ~ In EReset ops ->
  erun prio e ops = Some (e', tr') -> NoDup (mapped e').
Proof.
  induction ops as [|op ops IH]; intros e tr e' tr' I Nd H E; cbn [erun] in E; [now injection E as <- <-|].
  destruct (estep_ok e tr op I) as (e1 & r & E1 & I1 & _). { intros ->. apply H. now left. }
  rewrite E1 in E. cbn [fst snd] in E. destruct (erun prio e1 ops) as [[b trb]|] eqn:E2; [|discriminate].
  cbn [fst snd] in E. injection E as <- <-. eapply IH; [exact I1| |intros Hr; apply H; now right|exact E2].
  destruct op as [t f|t| |]; cbn [estep] in E1.
  - injection E1 as <- _. unfold register_factory. destruct (find_key t (functions e)); assumption.
  - unfold processor in E1. destruct (find_key t (mapped e)) eqn:Em; [injection E1 as <- _; assumption|].
    destruct (find_key t (functions e)); [|injection E1 as <- _; assumption].
    destruct (multiset_insert _ _ _ _); [|discriminate]. injection E1 as <- _. cbn [mapped fst]. constructor; [|assumption].
    intros Hin. apply (ei_keys _ _ I) in Hin. congruence.
  - destruct (advance _ _); [|discriminate]. injection E1 as <- _. assumption.
  - exfalso. apply H. now left.
Qed.

Lemma advance_dead h l o x : In o l -> nth_error h o = Some x -> o_alive x = false -> advance h l = None.
Proof.
  induction l as [|a l IH]; intros Hin Ex Ax; [easy|]. cbn [advance]. destruct Hin as [->|Hin].
  - now rewrite Ex, Ax.
  - destruct (nth_error h a) as [y|]; [|reflexivity]. destruct (o_alive y); [|reflexivity]. now rewrite IH.
Qed.

Lemma C16_proof ops e tr : erun prio engine_init ops = Some (e, tr) -> ~ In EReset ops ->
  exists e', reset e = Some e' /\ mapped e' = [] /\ (forall o x, nth_error (heap e') o = Some x -> o_alive x = false) /\
    length (heap e') = length (heap e) /\ reset e' = Some e' /\
    ((exists t o, In (EProcessor t, RProcessor (Some o)) tr) <-> advance (heap e') (sorted e') = None).
Proof.
  intros E H. pose proof (run_inv _ _ _ E H) as I.
  pose proof (erun_mapped_nodup ops engine_init [] _ _ init_inv ltac:(constructor) H E) as Nd.
  destruct (destroy_all_ok e (mapped e) (heap e)) as (h' & Ed & L & O & K).
  { intros t o Hin. apply (ei_keys _ _ I) in Hin. destruct (ei_mapped _ _ I _ _ Hin) as (x & A & B & C).
    split; [congruence|]. exists x. split; [assumption|eapply ei_alive; eauto]. }
  { eapply mapped_nodup; eauto. }
  unfold reset at 1. rewrite Ed. eexists. split; [reflexivity|]. cbn [mapped heap sorted].
  split; [reflexivity|].
  assert (Dead : forall o x, nth_error h' o = Some x -> o_alive x = false).
  { intros o x Hx. assert (Ho : (o < length (heap e))%nat) by (rewrite <- L; apply nth_error_Some; congruence).
    destruct (nth_error (heap e) o) as [y|] eqn:Ey; [|apply nth_error_None in Ey; lia].
    pose proof (ei_onto _ _ I _ _ Ey) as Hm. destruct (K o) as (z & Ez & Az).
    - apply in_map_iff. exists (o_type y, o). split; [reflexivity|].
      clear -Hm. induction (mapped e) as [|[k v] l IH]; [discriminate|]. simpl in *.
      destruct (Nat.eqb_spec (o_type y) k); [left; congruence|right; auto].
    - congruence. }
  split; [exact Dead|]. split; [exact L|]. split; [reflexivity|]. split.
  - intros (t & o & Hin). apply (ei_results _ _ I) in Hin. destruct (ei_mapped _ _ I _ _ Hin) as (x & Hx & _).
    assert (Ho : (o < length h')%nat) by (rewrite L; apply nth_error_Some; congruence).
    destruct (nth_error h' o) as [y|] eqn:Ey; [|apply nth_error_None in Ey; lia].
    eapply advance_dead; [|exact Ey|eapply Dead; eauto].
    eapply Permutation_in; [symmetry; apply I|]. apply in_seq. lia.
  - intros Ha. destruct (heap e) as [|x h] eqn:Eh.
    + pose proof (ei_perm _ _ I) as Pm. rewrite Eh in Pm. simpl in Pm. symmetry in Pm. apply Permutation_nil in Pm.
      rewrite Pm in Ha. discriminate.
    + exists (o_type x), 0%nat. apply (ei_created _ _ I). now rewrite Eh.
Qed.
Lemma engine_runs ops : ~ In EReset ops ->
  exists e tr, erun prio engine_init ops = Some (e, tr) /\ map fst tr = ops.
Proof.
  intros H. destruct (erun_ok ops engine_init [] init_inv H) as (e & tr & E & _ & M). eauto.
Qed.

Lemma C16_refuted_proof ops e tr : erun prio engine_init ops = Some (e, tr) -> ~ In EReset ops ->
  (exists t o, In (EProcessor t, RProcessor (Some o)) tr) ->
  exists e' r, estep prio e EReset = Some (e', r) /\ estep prio e' EFrame = None.
Proof.
  intros E H X. destruct (C16_proof _ _ _ E H) as (e' & R & _ & _ & _ & _ & A). apply A in X.
  exists e', RNone. cbn [estep]. rewrite R, X. auto.
Qed.
End P.
