(** Defragment as a whole, and the invariant of client histories. *)
From Verif Require Import Base BaseFacts IndexAllocatorModel IndexAllocatorSpec
  IndexAllocatorProofs IndexAllocatorDefrag.
From Coq Require Import Permutation Sorted.

Section World.
Context {D : Type} (d : D).
Local Notation blk := (bool * list D)%type.
Implicit Types bs P Q : list blk.

Definition followb (log : list event) (b : Z * list D) : Z * list D := (follow log (fst b), snd b).

Definition is_move (e : event) : Prop := match e with EvMove _ _ _ => True | _ => False end.

Lemma followb_nil l : map (followb []) l = l.
Proof. rewrite <- (map_id l) at 2. apply map_ext. intros []; reflexivity. Qed.
Lemma followb_cons e log l : map (followb (e :: log)) l = map (followb log) (map (mv e) l).
Proof. rewrite map_map. apply map_ext. intros []; reflexivity. Qed.
Lemma follow_app l1 l2 i : follow (l1 ++ l2) i = follow l2 (follow l1 i).
Proof. apply fold_left_app. Qed.

Lemma msum_bound off bs : okb bs -> 0 <= off -> msum (ublocks off bs) <= (off + bsz bs) * bsz bs.
Proof.
  revert off; induction bs as [|b bs IH]; intros off Ok Ho; simpl; [change (bsz []) with 0; unfold bsz, len, data; simpl; rewrite Z.mul_0_r; lia|].
  apply okb_cons in Ok as [Hb Ok]. pose proof (len_pos _ Hb). pose proof (bsz_nonneg bs).
  rewrite bsz_cons. specialize (IH (off + len (snd b)) Ok ltac:(lia)).
  destruct (fst b); simpl; nia.
Qed.

Lemma split_first_free bs : fstarts 0 bs <> [] ->
  exists P h R, bs = P ++ (false, h) :: R /\ allused P.
Proof.
  intros H. destruct (split_used bs) as (Us & Q' & E & HU & [->|(f & Q & ->)]).
  - rewrite app_nil_r in E. subst. now rewrite (fstarts_allused _ _ HU) in H.
  - eauto 6.
Qed.

Lemma defrag_loop_ok : forall fuel s arr bs log,
  Rep s arr bs -> fstarts 0 bs <> [] -> msum (ublocks 0 bs) < Z.of_nat fuel ->
  exists s' log' arr' P h, defrag_loop fuel s log = Some (s', log ++ log') /\
    replay d arr log' = Some arr' /\ Rep s' arr' (P ++ [(false, h)]) /\
    unused s' = [bsz P] /\ allused P /\ Forall is_move log' /\
    Permutation (map (followb log') (ublocks 0 bs)) (ublocks 0 P).
Proof.
  induction fuel as [|fuel IH]; intros s arr bs log Rp Hf Hm.
  { exfalso. assert (0 <= msum (ublocks 0 bs)); [|lia].
    assert (Hg : forall off bs0, 0 <= off -> 0 <= msum (ublocks off bs0)); [|now apply Hg].
    clear. intros off bs; revert off; induction bs as [|b bs IH]; intros off H; simpl; [lia|].
    pose proof (len_nonneg (snd b)). specialize (IH (off + len (snd b)) ltac:(lia)).
    destruct (fst b); simpl; lia. }
  cbn [defrag_loop].
  destruct (consolidate_rep _ _ _ Rp) as (s1 & bs1 & Ec & Rp1 & Hu & Hub & Hna & Hne).
  rewrite Ec. specialize (Hne Hf).
  destruct (split_first_free bs1 Hne) as (P & h & R & E1 & HP).
  assert (Eu : unused s1 = bsz P :: fstarts (bsz P + len h) R).
  { rewrite Hu, E1, fstarts_app, (fstarts_allused _ _ HP). reflexivity. }
  assert (Hh : h <> []).
  { pose proof (rep_ok _ _ _ Rp1) as Ok. rewrite E1, okb_app, okb_cons in Ok. apply Ok. }
  assert (En : next_index (counts s1) (bsz P) = Some (bsz P + len h)).
  { rewrite (rep_counts _ _ _ Rp1), E1. now apply next_index_layout. }
  assert (Etot : num_indices s1 = bsz P + len h + bsz R).
  { unfold num_indices. rewrite (rep_counts _ _ _ Rp1), layout_len, E1, bsz_app, bsz_cons. simpl; lia. }
  destruct R as [|r R].
  - rewrite Eu. cbn [fstarts]. rewrite En. rewrite Etot.
    replace (bsz P + len h =? bsz P + len h + bsz []) with true by (rewrite bsz_nil; lia).
    exists s1, [], arr, P, h. rewrite app_nil_r. rewrite E1 in Rp1.
    repeat (split; [solve [auto]|]).
    rewrite followb_nil, <- Hub, E1, ublocks_app. simpl. now rewrite app_nil_r.
  - assert (At : (match unused s1 with
                 | [u] => n <- next_index (counts s1) u ;; Some (n =? num_indices s1)
                 | _ => Some false
                 end) = Some false).
    { rewrite Eu. destruct (fstarts _ (r :: R)); [|reflexivity]. rewrite En, Etot.
      f_equal. pose proof (rep_ok _ _ _ Rp1) as Ok. rewrite E1, okb_app, okb_cons in Ok.
      assert (0 < bsz (r :: R)) by (apply okb_pos; [apply Ok|discriminate]). lia. }
    rewrite At.
    destruct (backfill_rep d s1 arr bs1 P h (r :: R) Rp1 Hu Hna E1 HP ltac:(discriminate))
      as (s2 & e & arr2 & bs2 & Eb & Er & Rp2 & Pm & Hms & Hf2 & _).
    rewrite Eb. cbn [fst snd].
    destruct (IH s2 arr2 bs2 (log ++ [e]) Rp2 Hf2) as (s' & log' & arr' & P' & h' & El & Erp & Rp' & Hu' & HP' & Hmv & Pm').
    { rewrite Hub in Hms. lia. }
    exists s', (e :: log'), arr', P', h'. rewrite El, <- app_assoc.
    split; [reflexivity|]. split; [simpl; now rewrite Er|].
    do 3 (split; [assumption|]). split.
    + constructor; [|assumption]. destruct e; simpl in *; auto.
      revert Eb. unfold backfill_first_unused.
      repeat match goal with |- context [match ?x with _ => _ end] => destruct x; try discriminate end.
    + rewrite followb_cons, <- Hub. rewrite Pm. exact Pm'.
Qed.

Lemma replay_app arr l1 l2 : replay d arr (l1 ++ l2) = (arr' <- replay d arr l1 ;; replay d arr' l2).
Proof.
  revert arr; induction l1 as [|e l1 IH]; intros arr; simpl; [reflexivity|].
  destruct (replay_event d arr e); simpl; auto.
Qed.

Lemma replay_some_app arr l1 l2 arr1 : replay d arr l1 = Some arr1 ->
  replay d arr (l1 ++ l2) = replay d arr1 l2.
Proof. intros H. now rewrite replay_app, H. Qed.

Lemma all_used_unused s arr bs : Rep s arr bs -> unused s = [] -> allused bs.
Proof.
  intros Rp Hu. pose proof (rep_unused _ _ _ Rp) as Pm. rewrite Hu in Pm.
  apply Permutation_nil in Pm. clear - Pm. unfold allused.
  revert Pm. generalize 0. induction bs as [|b bs IH]; intros off Pm; [constructor|].
  simpl in Pm. destruct b as [[] b]; simpl in Pm; [|discriminate].
  constructor; [reflexivity|]. eapply IH; eauto.
Qed.

Lemma defragment_rep s arr bs : Rep s arr bs ->
  exists s' log arr' bs', defragment s = Some (s', log) /\ replay d arr log = Some arr' /\
    Rep s' arr' bs' /\ allused bs' /\ unused s' = [] /\
    Permutation (map (followb log) (ublocks 0 bs)) (ublocks 0 bs') /\
    (log = [] \/ exists mvs, log = mvs ++ [EvSetNum (num_indices s')] /\ Forall is_move mvs).
Proof.
  intros Rp. unfold defragment. destruct (unused s) as [|u us] eqn:Eu.
  { exists s, [], arr, bs. pose proof (all_used_unused _ _ _ Rp Eu).
    repeat (split; [solve [auto]|]). split; [now rewrite followb_nil|now left]. }
  pose proof (rep_unused _ _ _ Rp) as Pm.
  assert (Hf : fstarts 0 bs <> []).
  { intros E. rewrite E, Eu in Pm. symmetry in Pm. now apply Permutation_nil in Pm. }
  destruct (defrag_loop_ok (S (length (counts s) * length (counts s))) s arr bs [] Rp Hf)
    as (s1 & log & arr1 & P & h & El & Er & Rp1 & Hu1 & HP & Hmv & Pm1).
  { pose proof (msum_bound 0 bs (rep_ok _ _ _ Rp) ltac:(lia)).
    assert (bsz bs = Z.of_nat (length (counts s))).
    { rewrite (rep_counts _ _ _ Rp). symmetry. apply layout_len. }
    nia. }
  rewrite El, Hu1. cbn [app getz]. replace (getz [bsz P] 0) with (Some (bsz P)) by reflexivity.
  unfold set_num_indices.
  assert (Ec : resize (counts s1) (bsz P) 0 = layout P).
  { rewrite (rep_counts _ _ _ Rp1), layout_app. apply resize_shrink. symmetry; apply layout_len. }
  rewrite Ec.
  exists {| counts := layout P; unused := [] |}, (log ++ [EvSetNum (bsz P)]), (data P), P.
  split; [reflexivity|]. split.
  { rewrite (replay_some_app _ _ _ _ Er). simpl. pose proof (bsz_nonneg P).
    replace (0 <=? bsz P) with true by lia.
    rewrite (rep_data _ _ _ Rp1), data_app, resize_shrink; reflexivity. }
  split; [|split; [assumption|split; [reflexivity|split]]].
  - constructor; cbn [counts unused]; auto.
    + pose proof (rep_ok _ _ _ Rp1) as Ok. rewrite okb_app in Ok. apply Ok.
    + now rewrite (fstarts_allused _ _ HP).
  - etransitivity; [|exact Pm1]. apply Permutation_refl'. apply map_ext.
    intros [i b]. unfold followb. simpl. now rewrite follow_app.
  - right. exists log. split; [|assumption]. unfold num_indices. cbn [counts]. now rewrite layout_len.
Qed.

(** Any client array of the right length fits the same block structure. *)
Lemma Rep_relabel {E : Type} s (arr0 : list E) (bs0 : list (bool * list E)) (arr : list D) :
  Rep s arr0 bs0 -> len arr = num_indices s ->
  exists bs, Rep s arr bs /\
    map (fun b => (fst b, length (snd b))) bs = map (fun b => (fst b, length (snd b))) bs0.
Proof.
  intros Rp Hl.
  assert (G : forall (bs0 : list (bool * list E)) (arr : list D), length arr = length (data bs0) ->
    exists bs, data bs = arr /\
      map (fun b => (fst b, length (snd b))) bs = map (fun b => (fst b, length (snd b))) bs0).
  { clear. induction bs0 as [|[v b] bs0 IH]; intros arr H.
    - exists []. destruct arr; [auto|discriminate].
    - simpl in H. rewrite app_length in H.
      destruct (IH (skipn (length b) arr)) as (bs & E1 & E2); [rewrite skipn_length; lia|].
      exists ((v, firstn (length b) arr) :: bs). simpl. rewrite E1, E2, firstn_skipn.
      split; [reflexivity|]. rewrite firstn_length. do 2 f_equal. lia. }
  destruct (G bs0 arr) as (bs & E1 & E2).
  { unfold num_indices in Hl. rewrite (rep_counts _ _ _ Rp), layout_len in Hl.
    unfold bsz, len in Hl. lia. }
  exists bs. split; [|assumption].
  assert (F : forall off, fstarts off bs = fstarts off bs0).
  { clear - E2. revert bs0 E2. induction bs as [|[v b] bs IH]; intros [|[v0 b0] bs0] Eq off; try discriminate; auto.
    simpl in Eq. injection Eq as Ev El Eq. simpl. unfold len. rewrite Ev, El.
    destruct v0; rewrite (IH _ Eq); reflexivity. }
  constructor; auto.
  - rewrite (rep_counts _ _ _ Rp). clear - E2. revert bs0 E2.
    induction bs as [|[v b] bs IH]; intros [|[v0 b0] bs0] Eq; try discriminate; auto.
    simpl in *. injection Eq as Ev El Eq. now rewrite El, (IH _ Eq).
  - pose proof (rep_ok _ _ _ Rp) as Ok. clear - E2 Ok. revert bs0 E2 Ok. unfold okb.
    induction bs as [|[v b] bs IH]; intros [|[v0 b0] bs0] Eq Ok; try discriminate; auto.
    simpl in *. injection Eq as Ev El Eq. inversion Ok; subst. constructor; eauto.
    simpl in *. intros ->. destruct b0; [congruence|discriminate].
  - rewrite F. apply Rp.
Qed.

Definition shape (b : Z * list D) : Z * Z := (fst b, len (snd b)).

(** The invariant of client histories. *)
Definition WI (w : world) (arr : list D) bs : Prop :=
  Rep (w_alloc w) arr bs /\ replay d [] (w_log w) = Some arr /\
  Permutation (map shape (ublocks 0 bs)) (w_live w).

Lemma ublocks_fst_lt off bs : okb bs -> StronglySorted (fun a b => fst a + len (snd a) <= fst b) (ublocks off bs).
Proof.
  revert off; induction bs as [|b bs IH]; intros off Ok; simpl; [constructor|].
  apply okb_cons in Ok as [Hb Ok]. pose proof (len_pos _ Hb).
  destruct (fst b); [|auto]. constructor; [auto|].
  apply Forall_forall. intros x Hx. apply ublocks_range in Hx; [|assumption]. simpl. lia.
Qed.

Lemma ublocks_starts_nodup off bs : okb bs -> NoDup (map fst (ublocks off bs)).
Proof.
  revert off; induction bs as [|b bs IH]; intros off Ok; simpl; [constructor|].
  apply okb_cons in Ok as [Hb Ok]. pose proof (len_pos _ Hb).
  destruct (fst b); [|auto]. simpl. constructor; [|auto].
  intros Hin. apply in_map_iff in Hin as (x & E & Hx). apply ublocks_range in Hx; [|assumption]. lia.
Qed.

Lemma is_start_In live i : is_start live i = true <-> exists n, In (i, n) live.
Proof.
  unfold is_start. rewrite existsb_exists. split.
  - intros ([j n] & H & E). simpl in E. apply Z.eqb_eq in E. subst. eauto.
  - intros (n & H). exists (i, n). split; [assumption|]. simpl. apply Z.eqb_refl.
Qed.

Lemma filter_notin (live : list (Z * Z)) i : ~ In i (map fst live) ->
  filter (fun b => negb (fst b =? i)) live = live.
Proof.
  induction live as [|[j n] l IH]; simpl; intros H; [reflexivity|].
  destruct (Z.eqb_spec j i); [exfalso; auto|]. simpl. rewrite IH; auto.
Qed.

Lemma filter_perm {A} (f : A -> bool) l l' : Permutation l l' -> Permutation (filter f l) (filter f l').
Proof.
  induction 1; simpl; auto.
  - destruct (f x); auto.
  - destruct (f x), (f y); auto. apply perm_swap.
  - etransitivity; eauto.
Qed.

Lemma wstep_inv w o arr bs : WI w arr bs ->
  exists w' arr' bs', wstep w o = Some w' /\ WI w' arr' bs'.
Proof.
  intros (Rp & Er & Pm). destruct o as [n|i|]; simpl.
  - destruct (Z.ltb_spec 0 n) as [Hn|Hn]; [|exists w, arr, bs; exact (conj eq_refl (conj Rp (conj Er Pm)))].
    destruct (alloc_rep d _ _ _ n Rp Hn) as (s' & i & evs & arr' & bs' & Ea & Ev & Rp' & Hc).
    rewrite Ea. eexists _, arr', bs'. split; [reflexivity|].
    split; [exact Rp'|]. cbn [w_log w_live w_alloc]. split; [now rewrite (replay_some_app _ _ _ _ Er)|].
    destruct Hc as [(P & b & Q & -> & -> & -> & Hb & _)|[(P & b1 & b2 & Q & -> & -> & -> & Hb & _)|(-> & -> & _ & _)]];
      rewrite <- Pm; rewrite !ublocks_app, !map_app; simpl.
    + symmetry. change (shape (bsz P, b)) with (bsz P, len b). rewrite Hb. apply Permutation_middle.
    + symmetry. change (shape (bsz P, b1)) with (bsz P, len b1). rewrite Hb, len_app, Hb.
      replace (bsz P + n + len b2) with (bsz P + (n + len b2)) by lia. apply Permutation_middle.
    + symmetry. change (shape (bsz bs, repeat d (Z.to_nat n))) with (bsz bs, len (repeat d (Z.to_nat n))).
      rewrite len_repeat, Z2Nat.id by lia. apply Permutation_cons_append.
  - destruct (is_start (w_live w) i) eqn:Es; [|exists w, arr, bs; exact (conj eq_refl (conj Rp (conj Er Pm)))].
    apply is_start_In in Es as (n & Hin). rewrite <- Pm in Hin.
    apply in_map_iff in Hin as ([j b] & E & Hb). unfold shape in E. simpl in E. injection E as -> En.
    pose proof (ublocks_starts_nodup 0 bs (rep_ok _ _ _ Rp)) as Nd.
    destruct (ublocks_split _ _ _ Hb) as (P & Q & -> & Ej). rewrite Z.add_0_l in Ej.
    cbn [fst snd] in *.
    destruct (free_rep _ _ _ _ _ Rp) as (s' & Ef & Rp').
    rewrite Ej, Ef.
    eexists _, arr, (P ++ (false, b) :: Q). split; [reflexivity|]. split; [exact Rp'|].
    cbn [w_log w_live w_alloc]. split; [assumption|].
    rewrite <- (filter_perm _ _ _ Pm). clear - Nd.
    rewrite ublocks_app in Nd |- *. rewrite ublocks_app. simpl in *.
    rewrite !map_app in *. simpl in *. rewrite filter_app. simpl.
    rewrite Z.eqb_refl. simpl.
    apply NoDup_remove_2 in Nd. rewrite in_app_iff in Nd.
    assert (Hm : forall l, map fst (map shape l) = map fst l) by (intros; rewrite map_map; reflexivity).
    rewrite !filter_notin; auto; rewrite Hm; auto.
  - destruct (defragment_rep _ _ _ Rp) as (s' & log & arr' & bs' & Ed & Ev & Rp' & HU & Hu & Pm' & _).
    rewrite Ed. eexists _, arr', bs'. split; [reflexivity|]. split; [exact Rp'|].
    cbn [w_log w_live w_alloc]. split; [now rewrite (replay_some_app _ _ _ _ Er)|].
    rewrite <- Pm', <- Pm, !map_map. reflexivity.
Qed.

Lemma world_init_inv : WI world_init [] [].
Proof. repeat split; auto. constructor. Qed.

Lemma wrun_inv ops : forall w arr bs, WI w arr bs ->
  exists w' arr' bs', wrun w ops = Some w' /\ WI w' arr' bs'.
Proof.
  induction ops as [|o ops IH]; intros w arr bs H; simpl; [eauto 6|].
  destruct (wstep_inv w o arr bs H) as (w1 & arr1 & bs1 & E & H1). rewrite E. eauto.
Qed.

Lemma reachable_inv w : reachable w -> exists arr bs, WI w arr bs.
Proof.
  intros (ops & E). destruct (wrun_inv ops _ _ _ world_init_inv) as (w' & arr & bs & E' & H).
  rewrite E in E'. injection E' as ->. eauto.
Qed.
End World.
