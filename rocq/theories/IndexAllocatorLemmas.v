(** From the history invariant to the statements of IndexAllocatorProps.v. *)
From Verif Require Import Base BaseFacts IndexAllocatorModel IndexAllocatorSpec
  IndexAllocatorProofs IndexAllocatorDefrag IndexAllocatorWorld.
From Coq Require Import Permutation Sorted.

Lemma FOP_perm {A} (R : A -> A -> Prop) l l' : (forall a b, R a b -> R b a) ->
  Permutation l l' -> ForallOrdPairs R l -> ForallOrdPairs R l'.
Proof.
  intros Sym P. induction P; intros H; auto.
  - inversion H; subst. constructor; [|auto]. eapply Permutation_Forall; eauto.
  - inversion H as [|? ? H1 H2]; subst. inversion H2 as [|? ? H3 H4]; subst.
    inversion H1; subst. constructor; [constructor; auto|]. constructor; auto.
Qed.

Lemma disjoint_sym a b : disjoint a b -> disjoint b a.
Proof. unfold disjoint. tauto. Qed.

Section L.
Context {D : Type} (d : D).
Implicit Types bs P Q : list (bool * list D).

Lemma ublocks_disjoint off bs : okb bs -> ForallOrdPairs disjoint (map shape (ublocks off bs)).
Proof.
  intros Ok. pose proof (ublocks_fst_lt off bs Ok) as H.
  induction H as [|b l H IH Hf]; simpl; constructor; auto.
  apply Forall_map. eapply Forall_impl; [|exact Hf]. intros x Hx. left. exact Hx.
Qed.

Lemma rep_present s arr bs b : Rep s arr bs -> In b (ublocks 0 bs) -> present s (shape b).
Proof.
  intros Rp Hb. destruct (ublocks_split _ _ _ Hb) as (P & Q & E & Ef). rewrite Z.add_0_l in Ef.
  pose proof (ublocks_range _ _ _ (rep_ok _ _ _ Rp) Hb) as (H1 & H2 & H3).
  pose proof (len_pos _ H3). subst bs. destruct b as [i b]. cbn [fst snd] in *. subst i.
  unfold present, shape. cbn [fst snd]. split; [eapply valid_index_used; eauto|].
  split; [rewrite (rep_counts _ _ _ Rp); now apply count_for_index_layout|].
  unfold num_indices. rewrite (rep_counts _ _ _ Rp), layout_len. lia.
Qed.

Lemma ublocks_live s arr bs live b : Rep s arr bs -> Permutation (map shape (ublocks 0 bs)) live ->
  In b live -> exists c, In (fst b, c) (ublocks 0 bs) /\ len c = snd b.
Proof.
  intros Rp Pm Hb. rewrite <- Pm in Hb. apply in_map_iff in Hb as ([i c] & <- & Hc). eauto.
Qed.

Lemma slice_ublock bs i c : In (i, c) (ublocks 0 bs) -> slice (data bs) i (len c) = c.
Proof.
  intros H. destruct (ublocks_split _ _ _ H) as (P & Q & -> & E). cbn [fst snd] in *.
  rewrite Z.add_0_l in E. subst i. unfold slice. rewrite data_app. cbn [data flat_map snd].
  unfold bsz. rewrite !len_to_nat, skipn_len_app. apply firstn_len_app.
Qed.

Lemma data_total bs : allused bs -> bsz bs = live_total (map shape (ublocks 0 bs)).
Proof.
  generalize 0. unfold allused. induction bs as [|b bs IH]; intros off H; [reflexivity|].
  inversion H; subst. rewrite bsz_cons. simpl. rewrite H2. simpl. rewrite <- IH; auto.
Qed.
End L.

Lemma live_total_perm l l' : Permutation l l' -> live_total l = live_total l'.
Proof. induction 1; simpl; lia. Qed.

Lemma live_total_map (f : Z * Z -> Z * Z) l : (forall b, snd (f b) = snd b) ->
  live_total (map f l) = live_total l.
Proof. intros H. induction l; simpl; [reflexivity|]. rewrite H, IHl. reflexivity. Qed.

Lemma C01_proof : forall ops, exists w, wrun world_init ops = Some w /\
  Forall (present (w_alloc w)) (w_live w) /\ ForallOrdPairs disjoint (w_live w).
Proof.
  intros ops. destruct (wrun_inv tt ops _ _ _ (world_init_inv tt)) as (w & arr & bs & E & Rp & _ & Pm).
  exists w. split; [assumption|]. split.
  - eapply Permutation_Forall; [exact Pm|]. apply Forall_map, Forall_forall.
    intros b Hb. eapply rep_present; eauto.
  - eapply FOP_perm; [apply disjoint_sym|exact Pm|]. apply ublocks_disjoint, Rp.
Qed.

(** Facts about one Alloc, for a client array of any type. *)
Lemma alloc_frame {D} (d : D) w n (arr : list D) : reachable w -> 0 < n -> len arr = num_indices (w_alloc w) ->
  exists s i evs arr', alloc (w_alloc w) n = Some (s, i, evs) /\
    present s (i, n) /\ Forall (disjoint (i, n)) (w_live w) /\ Forall (present s) (w_live w) /\
    replay d arr evs = Some arr' /\ len arr' = num_indices s /\
    Forall (fun b => slice arr' (fst b) (snd b) = slice arr (fst b) (snd b)) (w_live w).
Proof.
  intros Hr Hn Hl. destruct (reachable_inv tt w Hr) as (arr0 & bs0 & Rp0 & _ & Pm0).
  destruct (Rep_relabel _ _ _ arr Rp0 Hl) as (bs & Rp & Esh).
  assert (Pm : Permutation (map shape (ublocks 0 bs)) (w_live w)).
  { rewrite <- Pm0. apply Permutation_refl'. clear - Esh. generalize 0. revert bs0 Esh.
    induction bs as [|[v b] bs IH]; intros [|[v0 b0] bs0] E off; try discriminate; [reflexivity|].
    simpl in E. injection E as -> El E. simpl. unfold len. rewrite El.
    destruct v0; simpl; [f_equal; [unfold shape, len; simpl; now rewrite El|]|]; auto. }
  destruct (alloc_rep d _ _ _ n Rp Hn) as (s & i & evs & arr' & bs' & Ea & Ev & Rp' & Hc).
  exists s, i, evs, arr'. split; [assumption|].
  assert (Hin : exists b, In (i, b) (ublocks 0 bs') /\ len b = n /\
            exists X Y, ublocks 0 bs' = X ++ (i, b) :: Y /\ ublocks 0 bs = X ++ Y).
  { destruct Hc as [(P & b & Q & -> & -> & -> & Hb & _)|[(P & b1 & b2 & Q & -> & -> & -> & Hb & _)|(-> & -> & _ & _)]].
    - exists b. rewrite !ublocks_app. simpl. split; [apply in_elt|]. split; [assumption|]. eauto.
    - exists b1. rewrite !ublocks_app. simpl. split; [apply in_elt|]. split; [assumption|].
      rewrite len_app. exists (ublocks 0 P), (ublocks (bsz P + len b1 + len b2) Q).
      split; [reflexivity|]. do 2 f_equal. lia.
    - exists (repeat d (Z.to_nat n)). rewrite !ublocks_app. simpl. split; [apply in_elt|].
      split; [rewrite len_repeat; lia|]. exists (ublocks 0 bs), []. now rewrite app_nil_r. }
  destruct Hin as (b & Hin & Lb & X & Y & EX & EY).
  assert (Hd : Forall (disjoint (i, n)) (w_live w)).
  { eapply Permutation_Forall; [exact Pm|].
    pose proof (ublocks_disjoint 0 bs' (rep_ok _ _ _ Rp')) as H. rewrite EX in H.
    apply (FOP_perm _ _ _ disjoint_sym (Permutation_map shape (Permutation_sym (Permutation_middle X Y (i, b))))) in H.
    rewrite EY. simpl in H. inversion H; subst. exact H2. }
  assert (Hs : forall c, In c (ublocks 0 bs) -> In c (ublocks 0 bs')).
  { intros c H. rewrite EY in H. rewrite EX. rewrite in_app_iff in *. simpl. tauto. }
  split; [rewrite <- Lb; apply (rep_present _ _ _ _ Rp' Hin)|]. split; [assumption|]. split; [|split; [assumption|split]].
  - eapply Permutation_Forall; [exact Pm|]. apply Forall_map, Forall_forall. intros c H.
    eapply rep_present; eauto.
  - rewrite (rep_data _ _ _ Rp'). unfold num_indices. rewrite (rep_counts _ _ _ Rp'), layout_len. reflexivity.
  - eapply Permutation_Forall; [exact Pm|]. apply Forall_map, Forall_forall. intros [j c] H.
    unfold shape. cbn [fst snd]. rewrite (rep_data _ _ _ Rp), (rep_data _ _ _ Rp').
    rewrite !slice_ublock; auto.
Qed.

Lemma C03_proof w n s i evs : reachable w -> 0 < n -> alloc (w_alloc w) n = Some (s, i, evs) ->
  ((exists u k, hole (w_alloc w) u k /\ n <= k) ->
      evs = [] /\ num_indices s = num_indices (w_alloc w) /\
      exists k, hole (w_alloc w) i k /\ n <= k /\
        forall u k', hole (w_alloc w) u k' -> n <= k' -> k <= k') /\
  ((forall u k, hole (w_alloc w) u k -> k < n) ->
      i = num_indices (w_alloc w) /\ num_indices s = num_indices (w_alloc w) + n /\
      evs = [EvSetNum (num_indices s)]).
Proof.
  intros Hr Hn Ea. destruct (reachable_inv tt w Hr) as (arr & bs & Rp & _ & Pm).
  destruct (alloc_rep tt _ _ _ n Rp Hn) as (s' & i' & evs' & arr' & bs' & Ea' & Ev & Rp' & Hc).
  rewrite Ea in Ea'. injection Ea' as <- <- <-.
  assert (N : num_indices (w_alloc w) = bsz bs) by (unfold num_indices; now rewrite (rep_counts _ _ _ Rp), layout_len).
  assert (N' : num_indices s = bsz bs') by (unfold num_indices; now rewrite (rep_counts _ _ _ Rp'), layout_len).
  destruct Hc as [(P & b & Q & E & E' & Ei & Hb & Ee)|[(P & b1 & b2 & Q & E & E' & Ei & Hb & Ee & Hmin)|(E' & Ei & Ee & Hno)]].
  - assert (Hh : hole (w_alloc w) i n).
    { split.
      - rewrite (rep_unused _ _ _ Rp), E, fstarts_app. simpl. rewrite Ei. apply in_elt.
      - rewrite (rep_counts _ _ _ Rp), E, Ei. rewrite count_for_index_layout; [simpl; now rewrite Hb|].
        simpl. intros ->. discriminate Hb || (unfold len in Hb; simpl in Hb; lia). }
    split.
    + intros _. split; [assumption|]. split.
      * rewrite N, N', E, E', !bsz_app, !bsz_cons. reflexivity.
      * exists n. split; [assumption|]. split; [lia|auto].
    + intros Hno. specialize (Hno _ _ Hh). lia.
  - assert (Hh : hole (w_alloc w) i (n + len b2)).
    { split.
      - rewrite (rep_unused _ _ _ Rp), E, fstarts_app. simpl. rewrite Ei. apply in_elt.
      - rewrite (rep_counts _ _ _ Rp), E, Ei. rewrite count_for_index_layout; [simpl; now rewrite len_app, Hb|].
        simpl. intros E0. apply app_eq_nil in E0 as [-> _]. unfold len in Hb; simpl in Hb; lia. }
    pose proof (len_nonneg b2). split.
    + intros _. split; [assumption|]. split.
      * rewrite N, N', E, E', !bsz_app, !bsz_cons. simpl. rewrite len_app. lia.
      * exists (n + len b2). split; [assumption|]. split; [lia|].
        intros u k' (Hu & Hk) Hle. destruct (Hmin u k' Hu Hk). auto.
    + intros Hno. specialize (Hno _ _ Hh). lia.
  - split.
    + intros (u & k & (Hu & Hk) & Hle). specialize (Hno u k Hu Hk). lia.
    + intros _. rewrite N, N', E', bsz_app, bsz_single, len_repeat. rewrite Z2Nat.id by lia.
      split; [assumption|]. split; [reflexivity|]. rewrite Ee, Ei. reflexivity.
Qed.

Lemma defrag_all {D} (d : D) w (arr : list D) : reachable w -> len arr = num_indices (w_alloc w) ->
  exists s log arr', defragment (w_alloc w) = Some (s, log) /\
    let moved := map (fun b => (follow log (fst b), snd b)) (w_live w) in
    unused s = [] /\ num_indices s = live_total (w_live w) /\
    Forall (present s) moved /\ ForallOrdPairs disjoint moved /\
    replay d arr log = Some arr' /\ len arr' = num_indices s /\
    Forall (fun b => slice arr' (follow log (fst b)) (snd b) = slice arr (fst b) (snd b)) (w_live w).
Proof.
  intros Hr Hl. destruct (reachable_inv tt w Hr) as (arr0 & bs0 & Rp0 & _ & Pm0).
  destruct (Rep_relabel _ _ _ arr Rp0 Hl) as (bs & Rp & Esh).
  assert (Pm : Permutation (map shape (ublocks 0 bs)) (w_live w)).
  { rewrite <- Pm0. apply Permutation_refl'. clear - Esh. generalize 0. revert bs0 Esh.
    induction bs as [|[v b] bs IH]; intros [|[v0 b0] bs0] E off; try discriminate; [reflexivity|].
    simpl in E. injection E as -> El E. simpl. unfold len. rewrite El.
    destruct v0; simpl; [f_equal; [unfold shape, len; simpl; now rewrite El|]|]; auto. }
  destruct (defragment_rep d _ _ _ Rp) as (s & log & arr' & bs' & Ed & Ev & Rp' & HU & Hu & Pm' & _).
  exists s, log, arr'. split; [assumption|]. cbv zeta.
  assert (Pm2 : Permutation (map shape (ublocks 0 bs')) (map (fun b => (follow log (fst b), snd b)) (w_live w))).
  { rewrite <- Pm', <- Pm, !map_map. reflexivity. }
  split; [assumption|]. split; [|split; [|split; [|split; [assumption|split]]]].
  - unfold num_indices. rewrite (rep_counts _ _ _ Rp'), layout_len, (data_total _ HU).
    rewrite (live_total_perm _ _ Pm2). now apply live_total_map.
  - eapply Permutation_Forall; [exact Pm2|]. apply Forall_map, Forall_forall. intros c H.
    eapply rep_present; eauto.
  - eapply FOP_perm; [apply disjoint_sym|exact Pm2|]. apply ublocks_disjoint, Rp'.
  - rewrite (rep_data _ _ _ Rp'). unfold num_indices. rewrite (rep_counts _ _ _ Rp'), layout_len. reflexivity.
  - eapply Permutation_Forall; [exact Pm|]. apply Forall_map, Forall_forall. intros [j c] H.
    unfold shape. cbn [fst snd]. rewrite (rep_data _ _ _ Rp), (rep_data _ _ _ Rp').
    assert (H' : In (follow log j, c) (ublocks 0 bs')).
    { rewrite <- Pm'. apply in_map_iff. exists (j, c). auto. }
    rewrite !slice_ublock; auto.
Qed.

Lemma C06_proof {D} (d : D) w : reachable w ->
  exists arr, replay d [] (w_log w) = Some arr /\ len arr = num_indices (w_alloc w).
Proof.
  intros Hr. destruct (reachable_inv d w Hr) as (arr & bs & Rp & Er & Pm).
  exists arr. split; [assumption|].
  rewrite (rep_data _ _ _ Rp). unfold num_indices. rewrite (rep_counts _ _ _ Rp), layout_len. reflexivity.
Qed.

Lemma copy_ascending_ok {D} (arr : list D) t s n : 0 <= t <= s -> s + Z.of_nat n <= len arr ->
  exists arr', copy_ascending arr t s n = Some arr' /\ len arr' = len arr /\
    forall i, getz arr' i = if (t <=? i) && (i <? t + Z.of_nat n) then getz arr (i - t + s) else getz arr i.
Proof.
  intros Ht. induction n as [|n IH]; intros Hn.
  - exists arr. split; [reflexivity|]. split; [reflexivity|]. intros i.
    replace ((t <=? i) && (i <? t + Z.of_nat 0)) with false by lia. reflexivity.
  - destruct IH as (a & Ea & La & Ga); [lia|]. cbn [copy_ascending]. rewrite Ea, Ga.
    replace ((t <=? s + Z.of_nat n) && (s + Z.of_nat n <? t + Z.of_nat n)) with false by lia.
    destruct (getz_in_range arr (s + Z.of_nat n)) as (x & Ex); [lia|]. rewrite Ex.
    destruct (setz_Some a (t + Z.of_nat n) x) as (a' & Ea'); [lia|]. rewrite Ea'.
    exists a'. split; [reflexivity|]. split; [rewrite (setz_len _ _ _ _ Ea'); assumption|].
    intros i. destruct (Z.eq_dec i (t + Z.of_nat n)) as [->|Hne].
    + rewrite (getz_setz_eq _ _ _ _ Ea').
      replace ((t <=? t + Z.of_nat n) && (t + Z.of_nat n <? t + Z.of_nat (S n))) with true by lia.
      rewrite <- Ex. f_equal. lia.
    + rewrite (getz_setz_neq _ _ _ _ _ Ea' Hne), Ga.
      replace ((t <=? i) && (i <? t + Z.of_nat (S n))) with ((t <=? i) && (i <? t + Z.of_nat n)) by lia.
      reflexivity.
Qed.

Lemma replay_ascending {D} (d : D) (arr arr' : list D) s e t :
  replay_event d arr (EvMove s e t) = Some arr' -> copy_ascending arr t s (Z.to_nat (e - s)) = Some arr'.
Proof.
  simpl. destruct (Z.ltb_spec t s); [|discriminate]. intros E.
  assert (B : 0 <= t /\ 0 <= e - s /\ s + (e - s) <= len arr).
  { unfold memmove in E. destruct (_ && _) eqn:E0; [lia|discriminate]. }
  destruct (copy_ascending_ok arr t s (Z.to_nat (e - s))) as (a & Ea & La & Ga); try lia.
  rewrite Ea. f_equal. apply getz_ext. intros i. rewrite Ga, (getz_memmove _ _ _ _ _ i E).
  rewrite Z2Nat.id by lia. reflexivity.
Qed.
