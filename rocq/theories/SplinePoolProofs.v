(** Invariant of the spline pool. *)
From Verif Require Import Base BaseFacts IndexAllocatorModel IndexAllocatorSpec IndexAllocatorProofs
  IndexAllocatorWorld IndexAllocatorLemmas SplinePoolModel.
Local Open Scope Z_scope.

Definition cnt (l : list Z) (a : Z) : nat := count_occ Z.eq_dec l a.
Lemma cnt_app l l' a : cnt (l ++ l') a = (cnt l a + cnt l' a)%nat.
Proof. apply count_occ_app. Qed.
Lemma cnt_cons x l a : cnt (x :: l) a = ((if Z.eq_dec x a then 1 else 0) + cnt l a)%nat.
Proof. unfold cnt. simpl. destruct (Z.eq_dec x a); reflexivity. Qed.
Lemma cnt_nil a : cnt [] a = 0%nat. Proof. reflexivity. Qed.
Lemma cnt_perm l l' a : Permutation l l' -> cnt l a = cnt l' a.
Proof. intros P. revert a. apply (Permutation_count_occ Z.eq_dec). exact P. Qed.
Lemma cnt_in l a : In a l -> (0 < cnt l a)%nat.
Proof. apply count_occ_In. Qed.

Definition made (h : heap) (a : Z) : nat :=
  match getz (splines h) a with Some o => if by_processor o then 1%nat else 0%nat | None => 0%nat end.

(** The splines owned ([L]) and pooled are those the processor made, once each. *)
Definition Hok (L : list Z) (h : heap) : Prop := forall a, cnt (L ++ pool h) a = made h a.

Definition grows (h h' : heap) : Prop :=
  exists l, splines h' = splines h ++ l.
Definition caps (k : Z) (h : heap) : Prop := Forall (fun o => k <= max_nodes o) (splines h).
Definition lo (c : pcell) : list Z := match local c with Some a => [a] | None => [] end.
Definition good (h : heap) (c : pcell) : Prop :=
  forall a, source c = Some a ->
    exists o, getz (splines h) a = Some o /\ (by_processor o = true -> local c = Some a).

Lemma grows_refl h : grows h h.
Proof. exists []. now rewrite app_nil_r. Qed.
Lemma grows_trans a b c : grows a b -> grows b c -> grows a c.
Proof. intros (l & E) (l' & E'). exists (l ++ l'). now rewrite E', E, app_assoc. Qed.
Lemma grows_get h h' a o : grows h h' -> getz (splines h) a = Some o -> getz (splines h') a = Some o.
Proof. intros (l & ->) E. rewrite getz_app1; [exact E|]. apply getz_Some in E. lia. Qed.
Lemma good_grows h h' c : grows h h' -> good h c -> good h' c.
Proof. intros G H a E. destruct (H a E) as (o & Eo & Ho). exists o. split; [|exact Ho]. eapply grows_get; eauto. Qed.

Lemma locals_app X Y : locals (X ++ Y) = locals X ++ locals Y.
Proof. apply flat_map_app. Qed.
Lemma locals_none b : Forall (eq no_cell) b -> locals b = [].
Proof. induction 1 as [|c b <- _ IH]; [reflexivity|]. exact IH. Qed.

Lemma Hok_known L h a : Hok L h -> In a (L ++ pool h) -> exists o, getz (splines h) a = Some o /\ by_processor o = true.
Proof.
  intros H Hi. specialize (H a). apply cnt_in in Hi. unfold made in H.
  destruct (getz (splines h) a) as [o|]; [|lia]. exists o. split; [reflexivity|].
  destruct (by_processor o); [reflexivity|lia].
Qed.
Lemma Hok_perm L L' h : Permutation L L' -> Hok L h -> Hok L' h.
Proof. intros P H a. rewrite <- H. apply cnt_perm. apply Permutation_app_tail. now symmetry. Qed.

Lemma pool_find_ok h n l pos : (forall a, In a l -> exists o, getz h a = Some o) ->
  exists f, pool_find h n l pos = Some f /\
    forall i, f = Some i -> exists X a Y o, l = X ++ a :: Y /\ i = pos + len X /\
      getz h a = Some o /\ n <= max_nodes o.
Proof.
  revert pos; induction l as [|a l IH]; intros pos H; cbn [pool_find].
  { exists None. split; [reflexivity|discriminate]. }
  destruct (H a) as (o & Eo); [now left|]. rewrite Eo.
  destruct (Z.leb_spec n (max_nodes o)) as [L|L].
  - exists (Some pos). split; [reflexivity|]. intros i E. injection E as <-.
    exists [], a, l, o. cbn. repeat split; auto; lia.
  - destruct (IH (pos + 1)) as (f & Ef & Hf). { intros b Hb. apply H. now right. }
    exists f. split; [exact Ef|]. intros i E. destruct (Hf i E) as (X & b & Y & o' & -> & -> & Eo' & L').
    exists (a :: X), b, Y, o'. rewrite len_cons. repeat split; auto; lia.
Qed.

Lemma removelast_set (X Y : list Z) a b : exists p,
  getz (X ++ a :: Y) (len (X ++ a :: Y) - 1) = Some b ->
  setz (X ++ a :: Y) (len X) b = Some p /\ Permutation (a :: removelast p) (X ++ a :: Y).
Proof.
  exists (X ++ b :: Y). intros G. split; [now apply setz_app|].
  destruct Y as [|y Y'].
  - rewrite removelast_last. apply Permutation_cons_append.
  - destruct (exists_last (l := y :: Y') ltac:(discriminate)) as (Z0 & z & E). rewrite E in *.
    replace (X ++ a :: Z0 ++ [z]) with ((X ++ a :: Z0) ++ [z]) in * by (rewrite <- app_assoc; reflexivity).
    rewrite getz_app2 in G by (rewrite (len_app (X ++ a :: Z0)); change (len [z]) with 1; lia).
    rewrite (len_app (X ++ a :: Z0)) in G. change (len [z]) with 1 in G. replace (len (X ++ a :: Z0) + 1 - 1 - len (X ++ a :: Z0)) with 0 in G by lia.
    cbn in G. injection G as <-.
    replace (X ++ z :: Z0 ++ [z]) with ((X ++ z :: Z0) ++ [z]) by (rewrite <- app_assoc; reflexivity).
    rewrite removelast_last.
    etransitivity; [|apply Permutation_cons_append]. rewrite <- !Permutation_middle. apply perm_swap.
Qed.

Lemma allocate_ok L h n : Hok L h -> exists a h', allocate_spline h n = Some (a, h') /\
  Hok (a :: L) h' /\ grows h h' /\
  (exists o, getz (splines h') a = Some o /\ by_processor o = true /\ n <= max_nodes o) /\
  (forall k, k <= n -> caps k h -> caps k h').
Proof.
  intros H. unfold allocate_spline.
  destruct (pool_find_ok (splines h) n (pool h) 0) as (f & -> & Hf).
  { intros a Ha. destruct (Hok_known L h a H) as (o & Eo & _); [apply in_or_app; now right|eauto]. }
  destruct f as [i|].
  - destruct (Hf i eq_refl) as (X & a & Y & o & E & -> & Eo & Hn). rewrite Z.add_0_l.
    rewrite E. rewrite getz_app2 by lia. replace (len X - len X) with 0 by lia. cbn [getz Z.ltb nth_error].
    change (getz (a :: Y) 0) with (Some a).
    destruct (getz_in_range (X ++ a :: Y) (len (X ++ a :: Y) - 1)) as (b & Eb).
    { rewrite len_app, len_cons. pose proof (len_nonneg X). pose proof (len_nonneg Y). lia. }
    rewrite Eb. destruct (removelast_set X Y a b) as (p & Hp). destruct (Hp Eb) as (Ep & Pm). rewrite Ep.
    eexists _, _. split; [reflexivity|]. cbn [splines pool].
    destruct (Hok_known L h a H) as (o' & Eo' & Bo').
    { rewrite E. apply in_or_app; right. apply in_or_app; right. now left. }
    rewrite Eo in Eo'. injection Eo' as <-.
    repeat split.
    + intros x. specialize (H x). unfold made in *. cbn [splines pool] in *. rewrite <- H, E.
      rewrite <- !app_comm_cons. rewrite cnt_cons, (cnt_app L), (cnt_app L (X ++ a :: Y)), <- (cnt_perm _ _ x Pm), (cnt_cons a (removelast p)). lia.
    + exists []. cbn. now rewrite app_nil_r.
    + eauto.
    + intros k _ Hk. exact Hk.
  - eexists _, _. split; [reflexivity|]. cbn [splines pool]. repeat split.
    + intros x. specialize (H x). unfold made in *. cbn [splines pool].
      rewrite <- app_comm_cons, cnt_cons, H.
      destruct (Z.eq_dec (len (splines h)) x) as [<-|N].
      * rewrite getz_None by lia. rewrite getz_app2 by lia. rewrite Z.sub_diag. reflexivity.
      * destruct (Z_lt_ge_dec x (len (splines h))) as [Lt|Ge].
        { now rewrite getz_app1 by lia. }
        { rewrite (getz_None (splines h)) by lia. rewrite getz_None by (rewrite len_app; change (len [Obj true n]) with 1; lia). reflexivity. }
    + exists [Obj true n]. reflexivity.
    + exists (Obj true n). rewrite getz_app2 by lia. rewrite Z.sub_diag. cbn. repeat split; lia.
    + intros k Hk Hc. unfold caps in *. cbn [splines]. apply Forall_app. split; [exact Hc|].
      constructor; [exact Hk|constructor].
Qed.

(** One index at a time. *)
Lemma free_ok L h c : Hok (lo c ++ L) h -> Hok L (free_spline h (local c)).
Proof.
  unfold lo, free_spline. destruct (local c) as [a|]; intros H x; [|exact (H x)].
  specialize (H x). unfold made in *. cbn [splines pool] in *.
  rewrite <- H. cbn [app]. rewrite app_assoc, (cnt_app (L ++ pool h)), (cnt_cons a (L ++ pool h)), cnt_cons, cnt_nil. lia.
Qed.
Lemma free_grows h c : grows h (free_spline h (local c)).
Proof. exists []. destruct (local c); cbn; now rewrite app_nil_r. Qed.
Lemma free_caps k h c : caps k h -> caps k (free_spline h (local c)).
Proof. destruct (local c); auto. Qed.

Definition okf {A} (Pre : heap -> A -> pcell -> Prop) (Post : heap -> pcell -> Prop)
    (f : heap -> A -> pcell -> option (heap * pcell)) : Prop :=
  forall L h a c h' c', Hok (lo c ++ L) h -> Pre h a c -> f h a c = Some (h', c') ->
    Hok (lo c' ++ L) h' /\ grows h h' /\ Post h' c' /\ (forall k, k <= 7 -> caps k h -> caps k h').

Lemma set_target_ok num t0 : okf (fun h (_ : unit) c => True) good (fun h _ c => cell_set_target h num t0 c).
Proof.
  intros L h _ c h' c' H _ E. unfold cell_set_target in E.
  destruct (0 <? num) eqn:En; [|discriminate].
  destruct (local c) as [a|] eqn:Ec.
  - destruct (getz (splines h) a) as [o|] eqn:Eo; [|discriminate].
    match type of E with context [if ?b then _ else None] => destruct b; [|discriminate] end. injection E as <- <-.
    repeat split.
    + unfold lo in *. rewrite Ec in H. exact H.
    + apply grows_refl.
    + intros a' Ea. cbn in Ea. injection Ea as <-. exists o. auto.
    + auto.
  - destruct (allocate_ok (lo c ++ L) h default_max_nodes H) as (a & h1 & Ea & H1 & G & (o & Eo & Bo & Cap) & Hc).
    rewrite Ea in E. rewrite Eo in E.
    match type of E with context [if ?b then _ else None] => destruct b; [|discriminate] end. injection E as <- <-.
    repeat split.
    + unfold lo in *. rewrite Ec in H1. exact H1.
    + exact G.
    + intros a' Ea'. cbn in Ea'. injection Ea' as <-. exists o. auto.
    + intros k Hk. apply Hc. exact Hk.
Qed.

Lemma callers_good h a l : callers h a = true -> good h (PC l (Some a)).
Proof.
  unfold callers. destruct (getz (splines h) a) as [o|] eqn:E; [|discriminate].
  intros B a' Ea. cbn in Ea. injection Ea as <-. exists o. split; [exact E|].
  intros B'. now rewrite B' in B.
Qed.
Lemma callers_grows h h' a : grows h h' -> callers h a = true -> callers h' a = true.
Proof.
  unfold callers. intros G. destruct (getz (splines h) a) as [o|] eqn:E; [|discriminate].
  now rewrite (grows_get _ _ _ _ G E).
Qed.

Lemma assign_okf : okf (fun h x c => assign_ok h x = true) good cell_assign.
Proof.
  intros L h x c h' c' H Hp E. destruct x as [num t0|a]; cbn [cell_assign assign_ok] in *.
  - apply (set_target_ok num t0 L h tt c h' c' H I E).
  - injection E as <- <-. repeat split.
    + apply free_ok. exact H.
    + apply free_grows.
    + apply callers_good. eapply callers_grows; [apply free_grows|exact Hp].
    + intros k _. apply free_caps.
Qed.
Lemma remove_okf : okf (fun _ (_ : pcell) _ => True) (fun _ c => no_cell = c) cell_remove.
Proof.
  intros L h x c h' c' H _ E. injection E as <- <-. repeat split.
  - apply free_ok. exact H.
  - apply free_grows.
  - intros k _. apply free_caps.
Qed.
Lemma free_okf : okf (fun _ (_ : pcell) _ => True) (fun _ c => local c = None) cell_free.
Proof.
  intros L h x c h' c' H _ E. injection E as <- <-. repeat split.
  - apply free_ok. exact H.
  - apply free_grows.
  - intros k _. apply free_caps.
Qed.
Definition src_ok (h : heap) (x : option Z) : bool := match x with Some a => callers h a | None => true end.
Lemma source_okf : okf (fun h x c => local c = None /\ src_ok h x = true) good cell_source.
Proof.
  intros L h x c h' c' H [Hn Hx] E. injection E as <- <-. unfold lo in *. cbn [local]. repeat split.
  - exact H.
  - apply grows_refl.
  - destruct x as [a|]; [now apply callers_good|]. intros a Ea. discriminate.
  - auto.
Qed.
Lemma clone_okf : okf (fun h from c => c = no_cell) good cell_clone.
Proof.
  intros L h from c h' c' H -> E. unfold cell_clone in E.
  destruct (source from) as [a|]; [|discriminate].
  destruct (getz (splines h) a) as [o|] eqn:Eo; [|discriminate].
  destruct (allocate_ok _ h (max_nodes o) H) as (b & h1 & Ea & H1 & G & (o' & Eo' & Bo' & Cap) & Hc).
  rewrite Ea in E. injection E as <- <-. cbn [fst snd]. repeat split.
  - exact H1.
  - exact G.
  - intros a' Ea'. cbn in Ea'. injection Ea' as <-. exists o'. auto.
  - intros k Hk Hck. apply Hc; [|exact Hck].
    unfold caps in Hck. apply getz_split in Eo as (X & Y & EX & _). rewrite EX in Hck.
    apply Forall_app in Hck as [_ Hck]. now inversion Hck.
Qed.

(** Loops. *)
Fixpoint eachb {A} (f : heap -> A -> pcell -> option (heap * pcell)) (h : heap) (args : list A) (b : list pcell)
    : option (heap * list pcell) :=
  match args, b with
  | [], [] => Some (h, [])
  | a :: args', c :: b' =>
      r <- f h a c ;; r' <- eachb f (fst r) args' b' ;; Some (fst r', snd r :: snd r')
  | _, _ => None
  end.

Lemma each_eachb {A} f (args : list A) : forall h pre b post, length args = length b ->
  each f h args (pre ++ b ++ post) (len pre) =
  match eachb f h args b with Some (h', b') => Some (h', pre ++ b' ++ post) | None => None end.
Proof.
  induction args as [|a args IH]; intros h pre [|c b] post E; try discriminate; [reflexivity|].
  cbn [each eachb]. rewrite getz_app2 by lia. rewrite Z.sub_diag.
  change (getz ((c :: b) ++ post) 0) with (Some c). cbv beta iota.
  destruct (f h a c) as [[h1 c1]|]; [|reflexivity]. cbn [fst snd].
  rewrite <- app_comm_cons, (setz_app pre c (b ++ post) (len pre) c1) by reflexivity.
  replace (pre ++ c1 :: b ++ post) with ((pre ++ [c1]) ++ b ++ post) by (rewrite <- app_assoc; reflexivity).
  replace (len pre + 1) with (len (pre ++ [c1])) by (rewrite len_app; reflexivity).
  rewrite IH by (injection E; auto).
  destruct (eachb f h1 args b) as [[h2 b2]|]; [|reflexivity]. cbn [fst snd]. now rewrite <- app_assoc.
Qed.

Lemma eachb_ok {A} Pre Post f : @okf A Pre Post f ->
  (forall h h' a c, grows h h' -> Pre h a c -> Pre h' a c) ->
  (forall h h' c, grows h h' -> Post h c -> Post h' c) ->
  forall args h b L h' b', Hok (locals b ++ L) h -> Forall2 (Pre h) args b ->
    eachb f h args b = Some (h', b') ->
    Hok (locals b' ++ L) h' /\ grows h h' /\ Forall (Post h') b' /\ length b' = length b /\
    (forall k, k <= 7 -> caps k h -> caps k h').
Proof.
  intros Hf Mp Mq. induction args as [|a args IH]; intros h b L h' b' H F E; inversion F; subst; cbn [eachb] in E.
  { injection E as <- <-. repeat split; auto. apply grows_refl. }
  match goal with |- context [length (?c0 :: ?l0)] => rename c0 into c; rename l0 into l end.
  destruct (f h a c) as [[h1 c1]|] eqn:E1; [|discriminate]. cbn [fst snd] in E.
  destruct (eachb f h1 args l) as [[h2 b2]|] eqn:E2; [|discriminate]. injection E as <- <-. cbn [fst snd].
  assert (H0 : Hok (lo c ++ locals l ++ L) h). { rewrite app_assoc. exact H. }
  destruct (Hf _ _ _ _ _ _ H0 H2 E1) as (K1 & G1 & P1 & C1).
  assert (K1' : Hok (locals l ++ (lo c1 ++ L)) h1).
  { apply (Hok_perm (lo c1 ++ locals l ++ L)); [|exact K1]. rewrite !app_assoc. apply Permutation_app_tail, Permutation_app_comm. }
  assert (F1 : Forall2 (Pre h1) args l). { clear - H4 Mp G1. induction H4; constructor; eauto. }
  destruct (IH _ _ _ _ _ K1' F1 E2) as (K2 & G2 & P2 & Len & C2).
  repeat split.
  - apply (Hok_perm (locals b2 ++ lo c1 ++ L)); [|exact K2].
    change (locals (c1 :: b2)) with (lo c1 ++ locals b2). rewrite !app_assoc. apply Permutation_app_tail, Permutation_app_comm.
  - eapply grows_trans; eauto.
  - constructor; [|exact P2]. eapply Mq; eauto.
  - cbn. now rewrite Len.
  - auto.
Qed.

Lemma grows_assign h h' x : grows h h' -> assign_ok h x = true -> assign_ok h' x = true.
Proof. destruct x; cbn; [auto|]. apply callers_grows. Qed.
Lemma grows_src h h' x : grows h h' -> src_ok h x = true -> src_ok h' x = true.
Proof. destruct x; cbn; [|auto]. apply callers_grows. Qed.

(** Changing the contents of one block. *)
Lemma rep_set {D} s (arr : list D) P v b b' Q : Rep s arr (P ++ (v, b) :: Q) -> length b' = length b ->
  Rep s (data P ++ b' ++ data Q) (P ++ (v, b') :: Q).
Proof.
  intros R L. assert (Ll : len b' = len b) by (unfold len; lia). constructor.
  - rewrite (rep_counts _ _ _ R). apply layout_ext. rewrite !map_app. cbn. now rewrite L.
  - rewrite data_app. reflexivity.
  - pose proof (rep_ok _ _ _ R) as Ok. rewrite okb_app, okb_cons in *. cbn [snd] in *.
    destruct Ok as (O1 & O2 & O3). repeat split; auto. intros ->. apply O2. destruct b; [reflexivity|discriminate].
  - rewrite (rep_unused _ _ _ R). rewrite !fstarts_app. cbn [fstarts fst snd]. now rewrite Ll.
Qed.
Lemma rep_arr {D} s (arr : list D) P v b Q : Rep s arr (P ++ (v, b) :: Q) -> arr = data P ++ b ++ data Q.
Proof. intros R. rewrite (rep_data _ _ _ R), data_app. reflexivity. Qed.

(** The invariant. *)
Record PI (s : pstate) (bs : list (bool * list pcell)) : Prop := {
  pi_rep : Rep (ps_alloc s) (ps_cells s) bs;
  pi_live : Permutation (map shape (ublocks 0 bs)) (ps_live s);
  pi_free : forall b, In (false, b) bs -> Forall (eq no_cell) b;
  pi_own : Hok (locals (ps_cells s)) (ps_heap s);
  pi_good : Forall (good (ps_heap s)) (ps_cells s) }.

Lemma dims_in live i n : dims_of live i = Some n -> In (i, n) live.
Proof.
  unfold dims_of. destruct (find _ live) as [[j m]|] eqn:E; [|discriminate].
  intros H. injection H as <-. apply find_some in E as [Hi E]. cbn in E. apply Z.eqb_eq in E. now subst.
Qed.

Lemma dims_block s bs i n : PI s bs -> dims_of (ps_live s) i = Some n ->
  exists P b Q, bs = P ++ (true, b) :: Q /\ i = bsz P /\ n = len b /\ In (i, b) (ublocks 0 bs).
Proof.
  intros I E. apply dims_in in E. rewrite <- (pi_live _ _ I) in E.
  apply in_map_iff in E as ([j b] & E & Hb). unfold shape in E. cbn in E. injection E as -> <-.
  destruct (ublocks_split _ _ _ Hb) as (P & Q & -> & Ej). cbn [fst snd] in *.
  exists P, b, Q. repeat split; auto.
Qed.

Lemma perm_swap3 (A B C : list Z) : Permutation (A ++ B ++ C) (B ++ (A ++ C)).
Proof. rewrite !app_assoc. apply Permutation_app_tail, Permutation_app_comm. Qed.

(** A loop over one motivator's block. *)
Lemma block_ok {A} Pre Post f s P v b Q bs (args : list A) r :
  @okf A Pre Post f ->
  (forall h h' a c, grows h h' -> Pre h a c -> Pre h' a c) ->
  (forall h h' c, grows h h' -> Post h c -> Post h' c) ->
  bs = P ++ (v, b) :: Q -> Rep (ps_alloc s) (ps_cells s) bs -> Hok (locals (ps_cells s)) (ps_heap s) ->
  Forall (good (ps_heap s)) (data P ++ data Q) ->
  Forall2 (Pre (ps_heap s)) args b ->
  each f (ps_heap s) args (ps_cells s) (bsz P) = Some r ->
  exists b', snd r = data P ++ b' ++ data Q /\ length b' = length b /\
    Rep (ps_alloc s) (snd r) (P ++ (v, b') :: Q) /\ Hok (locals (snd r)) (fst r) /\
    Forall (Post (fst r)) b' /\ Forall (good (fst r)) (data P ++ data Q) /\ grows (ps_heap s) (fst r) /\
    (forall k, k <= 7 -> caps k (ps_heap s) -> caps k (fst r)).
Proof.
  intros Hf Mp Mq -> Rp Ho Hg F E.
  rewrite (rep_arr _ _ _ _ _ _ Rp) in E. unfold bsz in E.
  rewrite each_eachb in E by (clear - F; induction F; cbn; congruence).
  destruct (eachb f (ps_heap s) args b) as [[h' b']|] eqn:Eb; [|discriminate].
  injection E as <-. cbn [fst snd].
  assert (Ho' : Hok (locals b ++ (locals (data P) ++ locals (data Q))) (ps_heap s)).
  { apply (Hok_perm (locals (ps_cells s))); [|exact Ho].
    rewrite (rep_arr _ _ _ _ _ _ Rp), !locals_app. apply perm_swap3. }
  destruct (eachb_ok Pre Post f Hf Mp Mq _ _ _ _ _ _ Ho' F Eb) as (K & G & Po & L & C).
  exists b'. split; [reflexivity|]. split; [exact L|]. split; [eapply rep_set; eauto|].
  split. { apply (Hok_perm (locals b' ++ locals (data P) ++ locals (data Q))); [|exact K].
    rewrite !locals_app. symmetry. apply perm_swap3. }
  split; [exact Po|]. split; [|split; [exact G|exact C]].
  eapply Forall_impl; [|exact Hg]. intros c. now apply good_grows.
Qed.

Lemma good_rest h P b Q : Forall (good h) (data P ++ b ++ data Q) -> Forall (good h) (data P ++ data Q).
Proof. rewrite !Forall_app. tauto. Qed.

Lemma shapes_set P v b b' Q : length b' = length b ->
  map (@shape pcell) (ublocks 0 (P ++ (v, b) :: Q)) = map shape (ublocks 0 (P ++ (v, b') :: Q)).
Proof.
  intros L. assert (Ll : len b' = len b) by (unfold len; lia).
  rewrite !ublocks_app, !map_app. f_equal. cbn. rewrite Ll. destruct v; [|reflexivity].
  cbn [map]. unfold shape at 1 3. cbn [fst snd]. now rewrite Ll.
Qed.

Lemma free_set P b b' Q : (forall x, In (false, x) (P ++ (true, b) :: Q) -> Forall (eq no_cell) x) ->
  forall x, In (false, x) (P ++ (true, b') :: Q) -> Forall (eq no_cell) x.
Proof.
  intros H x Hx. apply H. apply in_app_iff in Hx. apply in_app_iff.
  destruct Hx as [Hx|[Hx|Hx]]; [now left|discriminate|right; now right].
Qed.

Lemma Forall2_true {A B} (Q : A -> B -> Prop) (l : list A) (l' : list B) :
  length l = length l' -> (forall a b, In a l -> In b l' -> Q a b) -> Forall2 Q l l'.
Proof.
  revert l'; induction l as [|a l IH]; intros [|b l'] E H; try discriminate; constructor.
  - apply H; now left.
  - apply IH; [injection E; auto|]. intros; apply H; now right.
Qed.

(** Allocation of a block of empty cells. *)
Lemma palloc_ok s bs n : PI s bs -> 0 < n ->
  exists a i ev cells, alloc (ps_alloc s) n = Some (a, i, ev) /\ replay no_cell (ps_cells s) ev = Some cells /\
    exists P b Q, PI (PS a ((i, n) :: ps_live s) cells (ps_heap s)) (P ++ (true, b) :: Q) /\
      i = bsz P /\ len b = n /\ Forall (eq no_cell) b /\
      exists tl, cells = ps_cells s ++ tl.
Proof.
  intros I Hn. destruct (alloc_rep no_cell _ _ _ n (pi_rep _ _ I) Hn) as (s' & i & evs & arr' & bs' & Ea & Ev & Rp' & Hc).
  exists s', i, evs, arr'. split; [exact Ea|]. split; [exact Ev|].
  destruct Hc as [(P & b & Q & E & -> & -> & Hb & ->)|[(P & b1 & b2 & Q & E & -> & -> & Hb & -> & _)|(-> & -> & -> & _)]].
  - exists P, b, Q. cbn in Ev. injection Ev as <-.
    assert (Fb : Forall (eq no_cell) b). { apply (pi_free _ _ I). rewrite E. apply in_elt. }
    split; [|repeat split; auto; exists []; now rewrite app_nil_r].
    constructor; cbn [ps_alloc ps_live ps_cells ps_heap]; [exact Rp'| | |exact (pi_own _ _ I)|exact (pi_good _ _ I)].
    + rewrite <- (pi_live _ _ I), E, !ublocks_app, !map_app. cbn. rewrite <- Permutation_middle.
      change (shape (bsz P, b)) with (bsz P, len b). rewrite Hb. reflexivity.
    + intros x Hx. apply (pi_free _ _ I). rewrite E. apply in_app_iff in Hx. apply in_app_iff.
      destruct Hx as [Hx|[Hx|Hx]]; [now left|discriminate|right; now right].
  - exists P, b1, ((false, b2) :: Q). cbn in Ev. injection Ev as <-.
    assert (Fb : Forall (eq no_cell) (b1 ++ b2)). { apply (pi_free _ _ I). rewrite E. apply in_elt. }
    apply Forall_app in Fb as [F1 F2].
    split; [|repeat split; auto; exists []; now rewrite app_nil_r].
    constructor; cbn [ps_alloc ps_live ps_cells ps_heap]; [exact Rp'| | |exact (pi_own _ _ I)|exact (pi_good _ _ I)].
    + rewrite <- (pi_live _ _ I), E, !ublocks_app, !map_app. cbn. rewrite <- Permutation_middle.
      change (shape (bsz P, b1)) with (bsz P, len b1). rewrite Hb, len_app, Hb.
      replace (bsz P + n + len b2) with (bsz P + (n + len b2)) by lia. reflexivity.
    + intros x Hx. apply in_app_iff in Hx. destruct Hx as [Hx|[Hx|[Hx|Hx]]].
      * apply (pi_free _ _ I). rewrite E. apply in_app_iff. now left.
      * discriminate.
      * injection Hx as <-. exact F2.
      * apply (pi_free _ _ I). rewrite E. apply in_app_iff. right. now right.
  - assert (Fb : Forall (eq no_cell) (repeat no_cell (Z.to_nat n))).
    { apply Forall_forall. intros x Hx. apply repeat_spec in Hx. now symmetry. }
    assert (Ec : arr' = ps_cells s ++ repeat no_cell (Z.to_nat n)).
    { rewrite (rep_data _ _ _ Rp'), data_app, (rep_data _ _ _ (pi_rep _ _ I)). cbn. now rewrite app_nil_r. }
    exists bs, (repeat no_cell (Z.to_nat n)), [].
    split; [|repeat split; auto; [rewrite len_repeat; lia|eauto]].
    constructor; cbn [ps_alloc ps_live ps_cells ps_heap]; [exact Rp'| | | |].
    + rewrite <- (pi_live _ _ I), !ublocks_app, !map_app. cbn.
      change (shape (bsz bs, repeat no_cell (Z.to_nat n))) with (bsz bs, len (repeat no_cell (Z.to_nat n))).
      rewrite len_repeat, Z2Nat.id by lia. symmetry. apply Permutation_cons_append.
    + intros x Hx. apply in_app_iff in Hx. destruct Hx as [Hx|[Hx|[]]]; [now apply (pi_free _ _ I)|discriminate].
    + rewrite Ec, locals_app, (locals_none _ Fb), app_nil_r. exact (pi_own _ _ I).
    + rewrite Ec. apply Forall_app. split; [exact (pi_good _ _ I)|].
      eapply Forall_impl; [|exact Fb]. intros c <- a Ea'. discriminate.
Qed.

Lemma data_ublocks (bs : list (bool * list pcell)) off :
  (forall b, In (false, b) bs -> Forall (eq no_cell) b) ->
  locals (data bs) = flat_map (fun u => locals (snd u)) (ublocks off bs).
Proof.
  revert off; induction bs as [|[v b] bs IH]; intros off H; [reflexivity|].
  change (data ((v, b) :: bs)) with (b ++ data bs). rewrite locals_app.
  rewrite (IH (off + len b)) by (intros x Hx; apply H; now right). cbn [ublocks fst snd].
  destruct v; [reflexivity|]. rewrite (locals_none b) by (apply H; now left). reflexivity.
Qed.

Lemma flat_map_perm {A B} (f : A -> list B) l l' : Permutation l l' -> Permutation (flat_map f l) (flat_map f l').
Proof.
  induction 1; cbn; auto.
  - now apply Permutation_app_head.
  - rewrite !app_assoc. apply Permutation_app_tail, Permutation_app_comm.
  - etransitivity; eauto.
Qed.

Lemma ublocks_cells (bs : list (bool * list pcell)) off c :
  In c (data bs) -> (exists b, In (false, b) bs /\ In c b) \/ In c (flat_map snd (ublocks off bs)).
Proof.
  revert off; induction bs as [|[v b] bs IH]; intros off Hc; [destruct Hc|].
  change (data ((v, b) :: bs)) with (b ++ data bs) in Hc. apply in_app_iff in Hc. cbn [ublocks fst snd].
  destruct Hc as [Hc|Hc].
  - destruct v; [right|left; exists b; split; [now left|exact Hc]]. cbn. apply in_app_iff. now left.
  - destruct (IH (off + len b) Hc) as [(b' & Hb & Hc')|Hi]; [left; exists b'; split; [now right|exact Hc']|].
    right. destruct v; [|exact Hi]. cbn. apply in_app_iff. now right.
Qed.
Lemma in_ublocks (bs : list (bool * list pcell)) off c : In c (flat_map snd (ublocks off bs)) -> In c (data bs).
Proof.
  revert off; induction bs as [|[v b] bs IH]; intros off Hc; [destruct Hc|].
  change (data ((v, b) :: bs)) with (b ++ data bs). apply in_app_iff. cbn [ublocks fst snd] in Hc.
  destruct v; [|right; eauto]. cbn in Hc. apply in_app_iff in Hc. destruct Hc; [now left|right; eauto].
Qed.

Lemma slice_block P (b : list pcell) Q tl : slice ((data P ++ b ++ data Q) ++ tl) (bsz P) (len b) = b.
Proof.
  unfold slice, bsz, len. rewrite !Nat2Z.id, <- !app_assoc.
  rewrite skipn_app, skipn_all, Nat.sub_diag. cbn. rewrite firstn_app, firstn_all, Nat.sub_diag, firstn_O.
  apply app_nil_r.
Qed.

Definition user_caps (k : Z) (o : pop) : Prop := match o with PUser n => k <= n | _ => True end.

Lemma pstep_ok s bs o s' : PI s bs -> pstep s o = Some s' ->
  exists bs', PI s' bs' /\ grows (ps_heap s) (ps_heap s') /\
    (forall k, k <= 7 -> user_caps k o -> caps k (ps_heap s) -> caps k (ps_heap s')).
Proof.
  intros I E.
  assert (Stay : Some s = Some s' -> exists bs', PI s' bs' /\ grows (ps_heap s) (ps_heap s') /\
    (forall k, k <= 7 -> user_caps k o -> caps k (ps_heap s) -> caps k (ps_heap s'))).
  { intros X. injection X as <-. exists bs. split; [exact I|]. split; [apply grows_refl|auto]. }
  destruct o as [n|n|src|i|i l|i l|]; cbn [pstep] in E.
  - injection E as <-. exists bs. split; [|split; [exists [Obj false n]; reflexivity|]].
    + constructor; cbn [ps_alloc ps_live ps_cells ps_heap]; [exact (pi_rep _ _ I)|exact (pi_live _ _ I)|exact (pi_free _ _ I)| |].
      * intros a. pose proof (pi_own _ _ I a) as H. cbn [pool]. rewrite H. unfold made. cbn [splines].
        destruct (Z_lt_ge_dec a (len (splines (ps_heap s)))) as [Lt|Ge]; [now rewrite getz_app1 by lia|].
        rewrite (getz_None (splines (ps_heap s))) by lia. rewrite getz_app2 by lia.
        destruct (getz [Obj false n] _) as [o|] eqn:Eo; [|reflexivity].
        apply getz_split in Eo as ([|x X] & Y & Eo & _); [injection Eo as <- _; reflexivity|].
        injection Eo as _ Eo. destruct X; discriminate.
      * eapply Forall_impl; [|exact (pi_good _ _ I)]. intros c. apply good_grows. exists [Obj false n]. reflexivity.
    + intros k _ Hk Hc. unfold caps in *. cbn. apply Forall_app. split; [exact Hc|]. constructor; [exact Hk|constructor].
  - destruct (Z.ltb_spec 0 n) as [Hn|Hn]; [|auto].
    destruct (palloc_ok s bs n I Hn) as (a & i & ev & cells & Ea & Er & P & b & Q & I' & _).
    rewrite Ea, Er in E. injection E as <-. exists (P ++ (true, b) :: Q). split; [exact I'|].
    split; [apply grows_refl|auto].
  - destruct (dims_of (ps_live s) src) as [n|] eqn:Ed; [|auto].
    destruct (dims_block s bs src n I Ed) as (P0 & b0 & Q0 & Ebs & Esrc & -> & _).
    assert (Hn : 0 < len b0).
    { pose proof (rep_ok _ _ _ (pi_rep _ _ I)) as Ok. rewrite Ebs in Ok. rewrite okb_app, okb_cons in Ok. apply len_pos. tauto. }
    destruct (palloc_ok s bs (len b0) I Hn) as (a & i & ev & cells & Ea & Er & P & b & Q & I' & Ei & Lb & Fb & tl & Etl).
    rewrite Ea, Er in E.
    assert (Es : slice cells src (len b0) = b0).
    { rewrite Etl, Esrc. pose proof (pi_rep _ _ I) as Rp. rewrite Ebs in Rp. rewrite (rep_arr _ _ _ _ _ _ Rp).
      now apply (slice_block P0). }
    rewrite Es in E.
    destruct (each cell_clone (ps_heap s) b0 cells i) as [r|] eqn:El; [|discriminate]. injection E as <-.
    set (s1 := PS a ((i, len b0) :: ps_live s) cells (ps_heap s)) in *.
    destruct (block_ok (fun _ _ c => c = no_cell) good cell_clone s1 P true b Q _ b0 r clone_okf
                ltac:(auto) (fun h h' c G => good_grows h h' c G) eq_refl (pi_rep _ _ I') (pi_own _ _ I')) as
      (b' & Eb' & Lb' & Rp' & Ho' & Fg' & Fr' & G' & C').
    { apply (good_rest _ P b Q). rewrite <- (rep_arr _ _ _ _ _ _ (pi_rep _ _ I')). exact (pi_good _ _ I'). }
    { apply Forall2_true; [unfold len in Lb; lia|]. intros x y _ Hy. symmetry. rewrite Forall_forall in Fb. auto. }
    { rewrite <- Ei. exact El. }
    exists (P ++ (true, b') :: Q). split; [|split; [exact G'|intros k Hk _; apply C'; exact Hk]].
    constructor; cbn [ps_alloc ps_live ps_cells ps_heap]; [exact Rp'| | |exact Ho'|].
    + rewrite <- (shapes_set P true b b' Q Lb'). exact (pi_live _ _ I').
    + apply (free_set P b b' Q). exact (pi_free _ _ I').
    + rewrite Eb'. rewrite !Forall_app in *. tauto.
  - destruct (dims_of (ps_live s) i) as [n|] eqn:Ed; [|auto].
    destruct (dims_block s bs i n I Ed) as (P & b & Q & -> & Ei & -> & Hu).
    pose proof (pi_rep _ _ I) as Rp.
    assert (Es : slice (ps_cells s) i (len b) = b).
    { rewrite (rep_arr _ _ _ _ _ _ Rp), <- (app_nil_r (data P ++ b ++ data Q)), Ei. now apply (slice_block P). }
    rewrite Es in E.
    destruct (each cell_remove (ps_heap s) b (ps_cells s) i) as [r|] eqn:El; [|discriminate].
    destruct (block_ok (fun _ _ _ => True) (fun _ c => no_cell = c) cell_remove s P true b Q _ b r remove_okf
                ltac:(auto) ltac:(auto) eq_refl Rp (pi_own _ _ I)) as
      (b' & Eb' & Lb' & Rp' & Ho' & Fg' & Fr' & G' & C').
    { apply (good_rest _ P b Q). rewrite <- (rep_arr _ _ _ _ _ _ Rp). exact (pi_good _ _ I). }
    { apply Forall2_true; auto. }
    { rewrite <- Ei. exact El. }
    destruct (free_rep _ _ _ _ _ Rp') as (a' & Ef & Rp2). rewrite <- Ei in Ef. rewrite Ef in E. injection E as <-.
    exists (P ++ (false, b') :: Q). split; [|split; [exact G'|intros k Hk _; apply C'; exact Hk]].
    constructor; cbn [ps_alloc ps_live ps_cells ps_heap]; [exact Rp2| | |exact Ho'|].
    + rewrite <- (filter_perm _ _ _ (pi_live _ _ I)).
      rewrite (shapes_set P true b b' Q Lb').
      pose proof (ublocks_starts_nodup 0 _ (rep_ok _ _ _ Rp')) as Nd. rewrite Ei. clear - Nd.
      rewrite ublocks_app in Nd |- *. rewrite ublocks_app. cbn in *.
      rewrite !map_app in *. cbn in *. rewrite filter_app. cbn. rewrite Z.eqb_refl. cbn.
      apply NoDup_remove_2 in Nd. rewrite in_app_iff in Nd.
      assert (Hm : forall l, map fst (map (@shape pcell) l) = map fst l) by (intros; rewrite map_map; reflexivity).
      rewrite !filter_notin; auto; rewrite Hm; auto.
    + intros x Hx. apply in_app_iff in Hx. destruct Hx as [Hx|[Hx|Hx]].
      * apply (pi_free _ _ I). apply in_app_iff. now left.
      * injection Hx as <-. exact Fg'.
      * apply (pi_free _ _ I). apply in_app_iff. right. now right.
    + rewrite Eb'. rewrite !Forall_app in *. repeat split; try tauto.
      eapply Forall_impl; [|exact Fg']. intros c <- a Ea. discriminate.
  - destruct (dims_of (ps_live s) i) as [n|] eqn:Ed; [|auto].
    destruct (dims_block s bs i n I Ed) as (P & b & Q & -> & Ei & -> & Hu).
    destruct (Z.eqb_spec (len l) (len b)) as [Ln|Ln]; cbn [andb] in E; [|auto].
    destruct (forallb (assign_ok (ps_heap s)) l) eqn:Fl; [|auto].
    pose proof (pi_rep _ _ I) as Rp.
    destruct (each cell_assign (ps_heap s) l (ps_cells s) i) as [r|] eqn:El; [|discriminate]. injection E as <-.
    destruct (block_ok (fun h x _ => assign_ok h x = true) good cell_assign s P true b Q _ l r assign_okf
                (fun h h' x c G => grows_assign h h' x G) (fun h h' c G => good_grows h h' c G) eq_refl Rp (pi_own _ _ I)) as
      (b' & Eb' & Lb' & Rp' & Ho' & Fg' & Fr' & G' & C').
    { apply (good_rest _ P b Q). rewrite <- (rep_arr _ _ _ _ _ _ Rp). exact (pi_good _ _ I). }
    { apply Forall2_true; [unfold len in Ln; lia|]. intros x y Hx _. rewrite forallb_forall in Fl. auto. }
    { rewrite <- Ei. exact El. }
    exists (P ++ (true, b') :: Q). split; [|split; [exact G'|intros k Hk _; apply C'; exact Hk]].
    constructor; cbn [ps_alloc ps_live ps_cells ps_heap]; [exact Rp'| | |exact Ho'|].
    + rewrite <- (shapes_set P true b b' Q Lb'). exact (pi_live _ _ I).
    + apply (free_set P b b' Q). exact (pi_free _ _ I).
    + rewrite Eb'. rewrite !Forall_app in *. tauto.
  - destruct (dims_of (ps_live s) i) as [n|] eqn:Ed; [|auto].
    destruct (dims_block s bs i n I Ed) as (P & b & Q & -> & Ei & -> & Hu).
    cbv zeta in E.
    set (l' := match l with Some l0 => map Some l0 | None => repeat None (Z.to_nat (len b)) end) in *.
    destruct (Z.eqb_spec (len l') (len b)) as [Ln|Ln]; cbn [andb] in E; [|auto].
    change (fun x : option Z => match x with Some a => callers (ps_heap s) a | None => true end) with (src_ok (ps_heap s)) in E.
    destruct (forallb (src_ok (ps_heap s)) l') eqn:Fl; [|auto].
    pose proof (pi_rep _ _ I) as Rp.
    assert (Es : slice (ps_cells s) i (len b) = b).
    { rewrite (rep_arr _ _ _ _ _ _ Rp), <- (app_nil_r (data P ++ b ++ data Q)), Ei. now apply (slice_block P). }
    rewrite Es in E.
    destruct (each cell_free (ps_heap s) b (ps_cells s) i) as [r|] eqn:El; [|discriminate].
    destruct (block_ok (fun _ _ _ => True) (fun _ c => local c = None) cell_free s P true b Q _ b r free_okf
                ltac:(auto) ltac:(auto) eq_refl Rp (pi_own _ _ I)) as
      (b1 & Eb1 & Lb1 & Rp1 & Ho1 & Fg1 & Fr1 & G1 & C1).
    { apply (good_rest _ P b Q). rewrite <- (rep_arr _ _ _ _ _ _ Rp). exact (pi_good _ _ I). }
    { apply Forall2_true; auto. }
    { rewrite <- Ei. exact El. }
    destruct (each cell_source (fst r) l' (snd r) i) as [r'|] eqn:El'; [|discriminate]. injection E as <-.
    set (s1 := PS (ps_alloc s) (ps_live s) (snd r) (fst r)).
    destruct (block_ok (fun h x c => local c = None /\ src_ok h x = true) good cell_source s1 P true b1 Q _ l' r' source_okf
                (fun h h' x c G H => conj (proj1 H) (grows_src h h' x G (proj2 H))) (fun h h' c G => good_grows h h' c G) eq_refl Rp1 Ho1) as
      (b' & Eb' & Lb' & Rp' & Ho' & Fg' & Fr' & G' & C').
    { exact Fr1. }
    { apply Forall2_true; [unfold len in Ln; lia|]. intros x y Hx Hy. rewrite forallb_forall in Fl. rewrite Forall_forall in Fg1.
      split; [now apply Fg1|]. eapply grows_src; [exact G1|auto]. }
    { cbn [ps_heap ps_cells s1]. rewrite <- Ei. exact El'. }
    exists (P ++ (true, b') :: Q). split; [|split; [eapply grows_trans; eauto|intros k Hk _ Hc; apply C'; [exact Hk|]; apply C1; auto]].
    constructor; cbn [ps_alloc ps_live ps_cells ps_heap]; [exact Rp'| | |exact Ho'|].
    + rewrite <- (shapes_set P true b b' Q) by congruence. exact (pi_live _ _ I).
    + apply (free_set P b b' Q). exact (pi_free _ _ I).
    + rewrite Eb'. rewrite !Forall_app in *. tauto.
  - destruct (defragment_rep no_cell _ _ _ (pi_rep _ _ I)) as (a & log & arr' & bs' & Ed & Ev & Rp' & HU & Hu & Pm' & _).
    rewrite Ed, Ev in E. injection E as <-.
    assert (Hn : forall b, In (false, b) bs' -> Forall (eq no_cell) b).
    { intros b Hb. unfold allused in HU. rewrite Forall_forall in HU. now apply HU in Hb. }
    exists bs'. split; [|split; [apply grows_refl|auto]].
    constructor; cbn [ps_alloc ps_live ps_cells ps_heap]; [exact Rp'| |exact Hn| |].
    + rewrite <- Pm', <- (pi_live _ _ I), !map_map. reflexivity.
    + apply (Hok_perm (locals (ps_cells s))); [|exact (pi_own _ _ I)].
      rewrite (rep_data _ _ _ Rp'), (rep_data _ _ _ (pi_rep _ _ I)).
      rewrite (data_ublocks bs 0 (pi_free _ _ I)), (data_ublocks bs' 0 Hn).
      rewrite <- (flat_map_perm _ _ _ Pm'). rewrite flat_map_concat_map, (flat_map_concat_map _ (map _ _)), map_map. reflexivity.
    + apply Forall_forall. intros c Hc. pose proof (pi_good _ _ I) as Hg. rewrite Forall_forall in Hg. apply Hg.
      rewrite (rep_data _ _ _ Rp') in Hc. rewrite (rep_data _ _ _ (pi_rep _ _ I)).
      destruct (ublocks_cells bs' 0 c Hc) as [(b & Hb & Hcb)|Hi].
      * unfold allused in HU. rewrite Forall_forall in HU. now apply HU in Hb.
      * apply (in_ublocks bs 0). eapply Permutation_in; [|exact Hi].
        rewrite <- (flat_map_perm _ _ _ Pm'). rewrite flat_map_concat_map, map_map, <- flat_map_concat_map. reflexivity.
Qed.

Lemma ps_init_ok : PI ps_init [].
Proof.
  constructor; cbn; auto.
  - constructor; cbn; auto. constructor.
  - tauto.
  - intros a. unfold made. rewrite getz_None; [reflexivity|]. unfold len; cbn; lia.
Qed.

Lemma prun_ok ops : forall s bs s', PI s bs -> prun s ops = Some s' ->
  exists bs', PI s' bs' /\ grows (ps_heap s) (ps_heap s') /\
    (forall k, k <= 7 -> Forall (user_caps k) ops -> caps k (ps_heap s) -> caps k (ps_heap s')).
Proof.
  induction ops as [|o ops IH]; intros s bs s' I E; cbn [prun] in E.
  { injection E as <-. exists bs. split; [exact I|]. split; [apply grows_refl|auto]. }
  destruct (pstep s o) as [s1|] eqn:E1; [|discriminate].
  destruct (pstep_ok s bs o s1 I E1) as (bs1 & I1 & G1 & C1).
  destruct (IH s1 bs1 s' I1 E) as (bs' & I' & G' & C'). exists bs'. split; [exact I'|].
  split; [eapply grows_trans; eauto|]. intros k Hk F Hc. inversion F; subst. auto.
Qed.

(** Failure. *)
Lemma eachb_total {A} Pre Post f : @okf A Pre Post f ->
  (forall h h' a c, grows h h' -> Pre h a c -> Pre h' a c) ->
  (forall L h a c, Hok (lo c ++ L) h -> caps 4 h -> Pre h a c -> f h a c <> None) ->
  forall args h b L, Hok (locals b ++ L) h -> caps 4 h -> Forall2 (Pre h) args b -> eachb f h args b <> None.
Proof.
  intros Hf Mp Ht. induction args as [|a args IH]; intros h b L H Hc F; inversion F; subst; cbn [eachb]; [discriminate|].
  match goal with F : Forall2 _ args ?l0, P : Pre h a ?c0 |- _ => rename l0 into l, c0 into c, F into F', P into Pc end.
  assert (H0 : Hok (lo c ++ locals l ++ L) h). { rewrite app_assoc. exact H. }
  destruct (f h a c) as [[h1 c1]|] eqn:E1; [|exfalso; eapply Ht; eauto]. cbn [fst snd].
  destruct (Hf _ _ _ _ _ _ H0 Pc E1) as (K1 & G1 & P1 & C1).
  assert (K1' : Hok (locals l ++ (lo c1 ++ L)) h1).
  { apply (Hok_perm (lo c1 ++ locals l ++ L)); [|exact K1]. rewrite !app_assoc. apply Permutation_app_tail, Permutation_app_comm. }
  assert (F1 : Forall2 (Pre h1) args l). { clear - F' Mp G1. induction F'; constructor; eauto. }
  destruct (eachb f h1 args l) as [r|] eqn:E2; [discriminate|]. exfalso. eapply IH; eauto. apply C1; [lia|exact Hc].
Qed.

Lemma block_total {A} Pre Post f s P v b Q (args : list A) :
  @okf A Pre Post f ->
  (forall h h' a c, grows h h' -> Pre h a c -> Pre h' a c) ->
  (forall L h a c, Hok (lo c ++ L) h -> caps 4 h -> Pre h a c -> f h a c <> None) ->
  Rep (ps_alloc s) (ps_cells s) (P ++ (v, b) :: Q) -> Hok (locals (ps_cells s)) (ps_heap s) ->
  caps 4 (ps_heap s) -> Forall2 (Pre (ps_heap s)) args b ->
  each f (ps_heap s) args (ps_cells s) (bsz P) <> None.
Proof.
  intros Hf Mp Ht Rp Ho Hc F. rewrite (rep_arr _ _ _ _ _ _ Rp). unfold bsz.
  rewrite each_eachb by (clear - F; induction F; cbn; congruence).
  assert (Ho' : Hok (locals b ++ (locals (data P) ++ locals (data Q))) (ps_heap s)).
  { apply (Hok_perm (locals (ps_cells s))); [|exact Ho].
    rewrite (rep_arr _ _ _ _ _ _ Rp), !locals_app. apply perm_swap3. }
  pose proof (eachb_total Pre Post f Hf Mp Ht args _ b _ Ho' Hc F) as N.
  destruct (eachb f (ps_heap s) args b) as [[h' b']|]; [discriminate|]. now elim N.
Qed.

Lemma caps_get k h a o : caps k h -> getz (splines h) a = Some o -> k <= max_nodes o.
Proof.
  intros Hc E. apply getz_split in E as (X & Y & E & _). unfold caps in Hc. rewrite E in Hc.
  apply Forall_app in Hc as [_ Hc]. now inversion Hc.
Qed.

Lemma assign_total L h x c : Hok (lo c ++ L) h -> caps 4 h -> assign_ok h x = true -> cell_assign h x c <> None.
Proof.
  intros H Hc Ha. destruct x as [num t0|a]; cbn [cell_assign assign_ok] in *; [|discriminate].
  apply andb_true_iff in Ha as [A1 A2]. apply Z.leb_le in A1, A2. unfold cell_set_target.
  destruct (Z.ltb_spec 0 num); [|lia].
  assert (N : forall (bo : bool), 1 + (num - (if bo then 1 else 0)) <= 4) by (intros []; lia).
  destruct (local c) as [a|] eqn:Ec.
  - destruct (Hok_known _ h a H) as (o & Eo & _). { unfold lo. rewrite Ec. now left. }
    rewrite Eo. pose proof (caps_get _ _ _ _ Hc Eo).
    match goal with |- context [?x <=? max_nodes o] => destruct (Z.leb_spec x (max_nodes o)); [discriminate|] end.
    exfalso. specialize (N (t0 || match source c with Some _ => false | None => true end)). lia.
  - destruct (allocate_ok _ h default_max_nodes H) as (a & h1 & Ea & H1 & G & (o & Eo & Bo & Cap) & _).
    rewrite Ea, Eo. unfold default_max_nodes in Cap.
    match goal with |- context [?x <=? max_nodes o] => destruct (Z.leb_spec x (max_nodes o)); [discriminate|] end.
    exfalso. specialize (N (t0 || match source c with Some _ => false | None => true end)). lia.
Qed.

Lemma clone_total L h from c : Hok (lo c ++ L) h -> c = no_cell /\ good h from /\ source from <> None -> cell_clone h from c <> None.
Proof.
  intros H (-> & Hg & Hs). unfold cell_clone. destruct (source from) as [a|] eqn:E; [|congruence].
  destruct (Hg a E) as (o & Eo & _). rewrite Eo.
  destruct (allocate_ok _ h (max_nodes o) H) as (b & h1 & Ea & _). rewrite Ea. discriminate.
Qed.

Lemma pstep_total s bs o : PI s bs -> caps 4 (ps_heap s) -> pstep s o = None ->
  exists i n, o = PClone i /\ In (i, n) (ps_live s) /\
    exists c, In c (slice (ps_cells s) i n) /\ source c = None.
Proof.
  intros I Hc E. destruct o as [n|n|src|i|i l|i l|]; cbn [pstep] in E; try discriminate.
  - destruct (Z.ltb_spec 0 n) as [Hn|Hn]; [|discriminate].
    destruct (palloc_ok s bs n I Hn) as (a & i & ev & cells & Ea & Er & _). rewrite Ea, Er in E. discriminate.
  - destruct (dims_of (ps_live s) src) as [n|] eqn:Ed; [|discriminate].
    pose proof (dims_in _ _ _ Ed) as Hin.
    destruct (dims_block s bs src n I Ed) as (P0 & b0 & Q0 & Ebs & Esrc & En & _).
    exists src, n. split; [reflexivity|]. split; [exact Hin|]. subst n.
    assert (Hn : 0 < len b0).
    { pose proof (rep_ok _ _ _ (pi_rep _ _ I)) as Ok. rewrite Ebs in Ok. rewrite okb_app, okb_cons in Ok. apply len_pos. tauto. }
    destruct (palloc_ok s bs (len b0) I Hn) as (a & i & ev & cells & Ea & Er & P & b & Q & I' & Ei & Lb & Fb & tl & Etl).
    rewrite Ea, Er in E.
    pose proof (pi_rep _ _ I) as Rp0. rewrite Ebs in Rp0.
    assert (Es : slice cells src (len b0) = b0).
    { rewrite Etl, Esrc, (rep_arr _ _ _ _ _ _ Rp0). now apply (slice_block P0). }
    assert (Es0 : slice (ps_cells s) src (len b0) = b0).
    { rewrite (rep_arr _ _ _ _ _ _ Rp0), <- (app_nil_r (data P0 ++ b0 ++ data Q0)), Esrc. now apply (slice_block P0). }
    rewrite Es in E. rewrite Es0.
    destruct (each cell_clone (ps_heap s) b0 cells i) as [r|] eqn:El; [discriminate|].
    destruct (Exists_dec (fun c => source c = None) b0) as [Hx|Hx].
    { intros c. destruct (source c); [right; discriminate|now left]. }
    { apply Exists_exists in Hx. exact Hx. }
    exfalso. set (s1 := PS a ((i, len b0) :: ps_live s) cells (ps_heap s)) in *.
    assert (Gb : Forall (good (ps_heap s)) b0).
    { pose proof (pi_good _ _ I) as Hg. rewrite (rep_arr _ _ _ _ _ _ Rp0), !Forall_app in Hg. tauto. }
    refine (block_total (fun h from c => c = no_cell /\ good h from /\ source from <> None) good cell_clone s1 P true b Q b0
              _ _ (fun L h x c H _ => clone_total L h x c H) (pi_rep _ _ I') (pi_own _ _ I') Hc _ _).
    + intros L h x c h' c' H (Hn' & _) Ec. exact (clone_okf L h x c h' c' H Hn' Ec).
    + intros h h' x c G (A1 & A2 & A3). split; [exact A1|]. split; [eapply good_grows; eauto|exact A3].
    + apply Forall2_true; [unfold len in Lb; lia|]. intros x y Hx' Hy. rewrite Forall_forall in Fb, Gb.
      split; [symmetry; auto|]. split; [now apply Gb|]. intros N. apply Hx. apply Exists_exists. eauto.
    + rewrite <- Ei. exact El.
  - destruct (dims_of (ps_live s) i) as [n|] eqn:Ed; [|discriminate].
    destruct (dims_block s bs i n I Ed) as (P & b & Q & -> & Ei & -> & Hu).
    pose proof (pi_rep _ _ I) as Rp.
    assert (Es : slice (ps_cells s) i (len b) = b).
    { rewrite (rep_arr _ _ _ _ _ _ Rp), <- (app_nil_r (data P ++ b ++ data Q)), Ei. now apply (slice_block P). }
    rewrite Es in E.
    destruct (each cell_remove (ps_heap s) b (ps_cells s) i) as [r|] eqn:El.
    + destruct (block_ok (fun _ _ _ => True) (fun _ c => no_cell = c) cell_remove s P true b Q _ b r remove_okf
                ltac:(auto) ltac:(auto) eq_refl Rp (pi_own _ _ I)) as (b' & _ & _ & Rp' & _).
      { apply (good_rest _ P b Q). rewrite <- (rep_arr _ _ _ _ _ _ Rp). exact (pi_good _ _ I). }
      { apply Forall2_true; auto. }
      { rewrite <- Ei. exact El. }
      destruct (free_rep _ _ _ _ _ Rp') as (a' & Ef & Rp2). rewrite <- Ei in Ef. rewrite Ef in E. discriminate.
    + exfalso. refine (block_total (fun _ _ _ => True) _ cell_remove s P true b Q b remove_okf ltac:(auto) _ Rp (pi_own _ _ I) Hc _ _).
      * discriminate.
      * apply Forall2_true; auto.
      * rewrite <- Ei. exact El.
  - destruct (dims_of (ps_live s) i) as [n|] eqn:Ed; [|discriminate].
    destruct (dims_block s bs i n I Ed) as (P & b & Q & -> & Ei & -> & Hu).
    destruct (Z.eqb_spec (len l) (len b)) as [Ln|Ln]; cbn [andb] in E; [|discriminate].
    destruct (forallb (assign_ok (ps_heap s)) l) eqn:Fl; [|discriminate].
    pose proof (pi_rep _ _ I) as Rp.
    destruct (each cell_assign (ps_heap s) l (ps_cells s) i) as [r|] eqn:El; [discriminate|].
    exfalso. refine (block_total (fun h x _ => assign_ok h x = true) good cell_assign s P true b Q l assign_okf
       (fun h h' x c G => grows_assign h h' x G) (fun L h x c H H4 => assign_total L h x c H H4) Rp (pi_own _ _ I) Hc _ _).
    + apply Forall2_true; [unfold len in Ln; lia|]. intros x y Hx _. rewrite forallb_forall in Fl. auto.
    + rewrite <- Ei. exact El.
  - destruct (dims_of (ps_live s) i) as [n|] eqn:Ed; [|discriminate].
    destruct (dims_block s bs i n I Ed) as (P & b & Q & -> & Ei & -> & Hu).
    cbv zeta in E.
    set (l' := match l with Some l0 => map Some l0 | None => repeat None (Z.to_nat (len b)) end) in *.
    destruct (Z.eqb_spec (len l') (len b)) as [Ln|Ln]; cbn [andb] in E; [|discriminate].
    match type of E with context [forallb ?f ?x] => destruct (forallb f x); [|discriminate] end.
    pose proof (pi_rep _ _ I) as Rp.
    assert (Es : slice (ps_cells s) i (len b) = b).
    { rewrite (rep_arr _ _ _ _ _ _ Rp), <- (app_nil_r (data P ++ b ++ data Q)), Ei. now apply (slice_block P). }
    rewrite Es in E. exfalso.
    destruct (each cell_free (ps_heap s) b (ps_cells s) i) as [r|] eqn:El.
    + rewrite (rep_arr _ _ _ _ _ _ Rp), Ei in El. unfold bsz in El. rewrite each_eachb in El by reflexivity.
      destruct (eachb cell_free (ps_heap s) b b) as [[h1 b1]|] eqn:Eb; [|discriminate]. injection El as <-.
      cbn [fst snd] in E. rewrite Ei in E. unfold bsz in E.
      assert (L1 : length b1 = length b).
      { clear - Eb. assert (G : forall (x y : list pcell) h h1 b1, eachb cell_free h x y = Some (h1, b1) -> length b1 = length y).
        { induction x as [|p x IH]; intros [|q y] h h2 b2; cbn [eachb]; try discriminate.
          - intros E. now injection E as _ <-.
          - destruct (cell_free h p q) as [[u v]|]; [|discriminate]. cbn [fst snd].
            destruct (eachb cell_free u x y) as [[u' v']|] eqn:E'; [|discriminate]. intros E. injection E as _ <-. cbn. f_equal. eauto. }
        eapply G; eauto. }
      rewrite each_eachb in E by (unfold len in Ln; lia).
      assert (L2 : length l' = length b1) by (unfold len in Ln; lia).
      destruct (eachb cell_source h1 l' b1) as [[h2 b2]|] eqn:Eb2; [discriminate|].
      revert Eb2 L2. clear. revert h1 b1. induction l' as [|x l' IH]; intros h1 [|c b1] E L; try discriminate.
      cbn [eachb cell_source fst snd] in E. specialize (IH h1 b1).
      destruct (eachb cell_source h1 l' b1) as [[? ?]|]; [discriminate|]. apply IH; [reflexivity|]. now injection L.
    + refine (block_total (fun _ _ _ => True) _ cell_free s P true b Q b free_okf ltac:(auto) _ Rp (pi_own _ _ I) Hc _ _).
      * discriminate.
      * apply Forall2_true; auto.
      * rewrite <- Ei. exact El.
  - destruct (defragment_rep no_cell _ _ _ (pi_rep _ _ I)) as (a & log & arr' & bs' & Ed & Ev & _).
    rewrite Ed, Ev in E. discriminate.
Qed.
