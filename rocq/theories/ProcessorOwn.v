(** Slots without a motivator hold reset data (for processors that swap or own
    their data), so nothing is leaked or shared when slots move. *)
From Verif Require Import Base BaseFacts IndexAllocatorModel IndexAllocatorSpec
  IndexAllocatorProofs IndexAllocatorDefrag IndexAllocatorWorld IndexAllocatorLemmas
  ProcessorModel ProcessorSpec ProcessorProofs ProcessorMove ProcessorSys ProcessorLemmas.
From Coq Require Import Permutation.

Section Own.
Context {D : Type} (dflt : D).
Implicit Types (p : proc D) (cells : list D) (bp : list (option nat)).

Record Clean cells bp : Prop := {
  cl_len : len bp = len cells;
  cl_free : forall j, getz bp j = Some None -> getz cells j = Some dflt }.

Lemma setz_range {A} (l l' : list A) i x : setz l i x = Some l' -> 0 <= i < len l.
Proof. unfold setz. destruct ((0 <=? i) && (i <? len l)) eqn:E; [lia|discriminate]. Qed.

Lemma getz_setz {A} (l l' : list A) i x j : setz l i x = Some l' -> getz l' j = if j =? i then Some x else getz l j.
Proof.
  intros E. destruct (Z.eqb_spec j i) as [->|H]; [now apply (getz_setz_eq _ _ _ _ E)|now apply (getz_setz_neq _ _ _ _ _ E)].
Qed.

Lemma fill_inv {A} n : forall (l l' : list A) i f, fill l i f n = Some l' -> len l' = len l /\
  forall j, getz l' j = if (i <=? j) && (j <? i + Z.of_nat n) then Some (f (j - i)) else getz l j.
Proof.
  induction n as [|n IH]; intros l l' i f E; cbn [fill] in E.
  - injection E as <-. split; [reflexivity|]. intros j. now replace ((i <=? j) && (j <? i + Z.of_nat 0)) with false by lia.
  - destruct (fill l i f n) as [l1|] eqn:E1; [|discriminate]. destruct (IH _ _ _ _ E1) as (L1 & G1).
    split; [rewrite (setz_len _ _ _ _ E); exact L1|]. intros j. rewrite (getz_setz _ _ _ _ _ E), G1.
    destruct (Z.eqb_spec j (i + Z.of_nat n)) as [->|Hne].
    + replace ((i <=? i + Z.of_nat n) && (i + Z.of_nat n <? i + Z.of_nat (S n))) with true by lia. do 2 f_equal. lia.
    + destruct ((i <=? j) && (j <? i + Z.of_nat n)) eqn:B; destruct ((i <=? j) && (j <? i + Z.of_nat (S n))) eqn:B'; try reflexivity; lia.
Qed.

(** Writing a block of back pointers and of cells together. *)
Lemma clean_fill cells bp cells' bp' i n v f : Clean cells bp -> fill bp i (fun _ => v) n = Some bp' ->
  len cells' = len cells ->
  (forall j, ~ (i <= j < i + Z.of_nat n) -> getz cells' j = getz cells j) ->
  (v = None -> forall j, i <= j < i + Z.of_nat n -> getz cells' j = Some dflt) -> f = v -> Clean cells' bp'.
Proof.
  intros C E L O V _. destruct (fill_inv _ _ _ _ _ E) as (Lb & G). constructor.
  - rewrite Lb, L. apply C.
  - intros j. rewrite G. destruct ((i <=? j) && (j <? i + Z.of_nat n)) eqn:B.
    + intros Hv. apply V; [congruence|lia].
    + intros Hj. rewrite O by lia. now apply C.
Qed.

Lemma clean_resize cells bp n : Clean cells bp -> Clean (resize cells n dflt) (resize bp n None).
Proof.
  intros C. destruct (Z.lt_ge_cases n 0).
  - constructor.
    + unfold resize. replace (Z.to_nat n) with 0%nat by lia. reflexivity.
    + intros j. unfold resize. replace (Z.to_nat n) with 0%nat by lia. simpl. unfold getz. destruct (j <? 0); [discriminate|].
      destruct (Z.to_nat j); discriminate.
  - constructor; [rewrite !len_resize by lia; reflexivity|]. intros j. rewrite !getz_resize by lia. rewrite (cl_len _ _ C).
    destruct ((0 <=? j) && (j <? n)); [|discriminate]. destruct (j <? len cells); [apply C|auto].
Qed.

Lemma setz_perm (l l' : list D) i x y : setz l i x = Some l' -> getz l i = Some y -> Permutation (x :: l) (y :: l').
Proof.
  intros E G. pose proof (setz_range _ _ _ _ E) as R. unfold setz in E.
  replace ((0 <=? i) && (i <? len l)) with true in E by lia. apply (f_equal (fun o => match o with Some v => v | None => l' end)) in E. subst l'.
  unfold getz in G. destruct (Z.ltb_spec i 0); [lia|].
  pose proof (nth_error_split _ _ G) as (l1 & l2 & -> & L).
  rewrite <- L. rewrite firstn_app, Nat.sub_diag, firstn_all, firstn_O, app_nil_r.
  rewrite skipn_app. rewrite (skipn_all2 l1) by lia. replace (S (length l1) - length l1)%nat with 1%nat by lia. cbn [app skipn].
  etransitivity; [|apply perm_skip, Permutation_middle]. etransitivity; [apply perm_skip; symmetry; apply Permutation_middle|].
  apply perm_swap.
Qed.

Lemma swap_perm (l l2 l3 : list D) s t x y : getz l s = Some x -> getz l t = Some y ->
  setz l t x = Some l2 -> setz l2 s y = Some l3 -> Permutation l l3.
Proof.
  intros Gs Gt E2 E3. apply Permutation_cons_inv with x. etransitivity; [exact (setz_perm _ _ _ _ _ E2 Gt)|].
  apply (setz_perm _ _ _ _ _ E3). rewrite (getz_setz _ _ _ _ _ E2). destruct (Z.eqb_spec s t); [reflexivity|assumption].
Qed.

(** One step of the move loops: the target slot is free, so its cell is reset. *)
Lemma clean_step cells bp bp2 bp3 cells2 cells3 i t h x : Clean cells bp -> i <> t ->
  getz bp t = Some None -> setz bp t (Some h) = Some bp2 -> setz bp2 i None = Some bp3 ->
  getz cells i = Some x -> setz cells t x = Some cells2 -> setz cells2 i dflt = Some cells3 -> Clean cells3 bp3.
Proof.
  intros C Hne Gt E2 E3 Gx F2 F3. constructor.
  - rewrite (setz_len _ _ _ _ E3), (setz_len _ _ _ _ E2), (setz_len _ _ _ _ F3), (setz_len _ _ _ _ F2). apply C.
  - intros j. rewrite (getz_setz _ _ _ _ _ E3), (getz_setz _ _ _ _ _ E2), (getz_setz _ _ _ _ _ F3), (getz_setz _ _ _ _ _ F2).
    destruct (j =? i); [auto|]. destruct (j =? t); [discriminate|]. apply C.
Qed.

Lemma move_clean k cells bp s t n : k_move k <> MvCopy -> t <> s -> Clean cells bp ->
  forall cells' bp', move_bp bp s (t - s) n = Some bp' ->
  match k_move k with MvCopy => None | MvSwap => move_swap cells t s n | MvOwn => move_own dflt cells t s n end = Some cells' ->
  Clean cells' bp' /\ Permutation cells cells'.
Proof.
  intros Hk Hts C. induction n as [|n IH]; intros cells' bp' Eb Ec.
  - destruct (k_move k); cbn in Eb, Ec; [congruence| |]; injection Eb as <-; injection Ec as <-; auto.
  - cbn [move_bp] in Eb. destruct (move_bp bp s (t - s) n) as [bp1|]; [|discriminate].
    set (i := s + Z.of_nat n) in *.
    destruct (getz bp1 i) as [bx|] eqn:Gx; [|discriminate].
    destruct (getz bp1 (i + (t - s))) as [by_|] eqn:Gy; [|discriminate].
    destruct bx as [h|]; [|discriminate]. destruct by_; [discriminate|].
    replace (i + (t - s)) with (t + Z.of_nat n) in * by (unfold i; lia).
    destruct (setz bp1 (t + Z.of_nat n) (Some h)) as [bp2|] eqn:E2; [|discriminate].
    destruct (k_move k); [congruence| |].
    + cbn [move_swap] in Ec. destruct (move_swap cells t s n) as [l1|]; [|discriminate].
      destruct (IH _ _ eq_refl eq_refl) as (C1 & P1). fold i in Ec.
      destruct (getz l1 i) as [x|] eqn:Hx; [|discriminate].
      rewrite (cl_free _ _ C1 _ Gy) in Ec.
      destruct (setz l1 (t + Z.of_nat n) x) as [l2|] eqn:F2; [|discriminate]. split.
      * eapply (clean_step l1 bp1 bp2 bp' l2 cells' i (t + Z.of_nat n) h x); eauto. unfold i. lia.
      * etransitivity; [exact P1|]. exact (swap_perm l1 l2 cells' i (t + Z.of_nat n) x dflt Hx (cl_free _ _ C1 _ Gy) F2 Ec).
    + cbn [move_own] in Ec. destruct (move_own dflt cells t s n) as [l1|]; [|discriminate].
      destruct (IH _ _ eq_refl eq_refl) as (C1 & P1). fold i in Ec.
      destruct (getz l1 i) as [x|] eqn:Hx; [|discriminate].
      destruct (setz l1 (t + Z.of_nat n) x) as [l2|] eqn:F2; [|discriminate]. split.
      * eapply (clean_step l1 bp1 bp2 bp' l2 cells' i (t + Z.of_nat n) h x); eauto. unfold i. lia.
      * etransitivity; [exact P1|]. exact (swap_perm l1 l2 cells' i (t + Z.of_nat n) x dflt Hx (cl_free _ _ C1 _ Gy) F2 Ec).
Qed.

Definition PClean p : Prop := Clean (p_cells p) (p_bp p).

Lemma move_range_clean k m pid p s e t m' p' : k_move k <> MvCopy -> PClean p ->
  move_index_range_base dflt k m pid p s e t = Some (m', p') -> PClean p' /\ Permutation (p_cells p) (p_cells p').
Proof.
  intros Hk C E. unfold move_index_range_base in E.
  destruct (reinit_loop _ _ _ _ _ _ _) as [m1|]; [|discriminate].
  destruct (move_indices dflt k (p_cells p) s t (e - s)) as [cells|] eqn:Ec; [|discriminate].
  destruct (move_bp _ _ _ _) as [bp|] eqn:Eb; [|discriminate]. injection E as _ <-.
  unfold PClean. cbn [p_cells p_bp]. destruct (Z.eq_dec t s) as [->|Hts].
  - (* moving onto itself asserts, unless empty *)
    destruct (Z.to_nat (e - s)) as [|n] eqn:En.
    + cbn in Eb. injection Eb as <-. unfold move_indices in Ec. rewrite En in Ec.
      destruct (k_move k); cbn in Ec; injection Ec as <-; auto.
    + exfalso. assert (H0 : forall n, move_bp (p_bp p) s (s - s) (S n) = None).
      { clear. induction n as [|n IH].
        - cbn. rewrite Z.add_0_r. replace (s + (s - s)) with s by lia. destruct (getz (p_bp p) s) as [[h|]|]; reflexivity.
        - cbn [move_bp] in *. rewrite IH. reflexivity. }
      rewrite H0 in Eb. discriminate.
  - eapply (move_clean k); eauto. unfold move_indices in Ec. destruct (k_move k); [congruence|exact Ec|exact Ec].
Qed.

Lemma loop_clean k pid : k_move k <> MvCopy -> forall fuel m p m' p', PClean p ->
  p_defrag_loop dflt fuel k m pid p = Some (m', p') -> PClean p' /\ Permutation (p_cells p) (p_cells p').
Proof.
  intros Hk. induction fuel as [|fuel IH]; intros m p m' p' C E; [discriminate|]. cbn [p_defrag_loop] in E.
  destruct (consolidate (p_alloc p)) as [s1|]; [|discriminate].
  destruct (match unused s1 with [u] => _ | _ => _ end) as [b|]; [|discriminate]. destruct b.
  { injection E as _ <-. split; [exact C|apply Permutation_refl]. }
  destruct (backfill_first_unused s1) as [r|]; [|discriminate].
  destruct (snd r) as [|[|s e t] [|]]; try discriminate.
  destruct (move_index_range_base _ _ _ _ _ _ _ _) as [mp|] eqn:Em; [|discriminate].
  destruct mp as [m1 p1]. destruct (move_range_clean _ _ _ _ _ _ _ _ _ Hk (C : PClean (with_alloc p s1)) Em) as (C1 & P1).
  destruct (IH _ _ _ _ (C1 : PClean (with_alloc p1 (fst r))) E) as (C2 & P2). split; [assumption|].
  etransitivity; [exact P1|exact P2].
Qed.

Lemma defragment_clean k m pid p bs m' p' : k_move k <> MvCopy -> PInv m pid p bs -> PClean p ->
  p_defragment dflt k m pid p = Some (m', p') ->
  PClean p' /\ exists n, Permutation (p_cells p) (p_cells p' ++ repeat dflt n).
Proof.
  intros Hk I C E. pose proof (pi_rep _ _ _ _ I) as Rp. unfold p_defragment in E.
  destruct (unused (p_alloc p)) as [|u us] eqn:Eu.
  { injection E as _ <-. split; [assumption|]. exists 0%nat. simpl. now rewrite app_nil_r. }
  pose proof (rep_unused _ _ _ Rp) as Pm.
  assert (Hf : fstarts 0 bs <> []).
  { intros Ef. rewrite Ef, Eu in Pm. symmetry in Pm. now apply Permutation_nil in Pm. }
  destruct (p_defrag_loop_ok dflt k pid (Datatypes.S (length (counts (p_alloc p)) * length (counts (p_alloc p)))) m p bs I Hf)
    as (m1 & p1 & P & h & El & I1 & Hu1 & HP & _).
  { pose proof (msum_bound 0 bs (rep_ok _ _ _ Rp) ltac:(lia)).
    assert (bsz bs = Z.of_nat (length (counts (p_alloc p)))).
    { rewrite (rep_counts _ _ _ Rp). symmetry. apply layout_len. }
    nia. }
  rewrite El, Hu1 in E. cbn [fst snd] in E. replace (getz [bsz P] 0) with (Some (bsz P)) in E by reflexivity. injection E as _ <-.
  destruct (loop_clean k pid Hk _ _ _ _ _ C El) as (C1 & P1).
  split; [apply clean_resize, C1|]. unfold PClean. cbn [with_alloc set_num_indices_base p_cells p_bp].
  pose proof (bsz_nonneg P) as HP0. pose proof (len_nonneg h) as Hh.
  assert (Esz : bsz (P ++ [(false, h)]) = bsz P + len h) by (rewrite bsz_app, bsz_single; reflexivity).
  pose proof (pi_cells _ _ _ _ I1) as Lce.
  exists (Z.to_nat (len h)). etransitivity; [exact P1|].
  assert (Ex : p_cells p1 = resize (p_cells p1) (bsz P) dflt ++ repeat dflt (Z.to_nat (len h))).
  2:{ rewrite <- Ex. apply Permutation_refl. }
  apply getz_ext. intros j.
  destruct (Z.lt_ge_cases j (bsz P)) as [Hj|Hj].
  - destruct (Z.lt_ge_cases j 0).
    + rewrite !getz_None by lia. reflexivity.
    + rewrite getz_app1 by (rewrite len_resize; lia). rewrite getz_resize by lia.
      replace ((0 <=? j) && (j <? bsz P)) with true by lia. now replace (j <? len (p_cells p1)) with true by lia.
  - destruct (Z.lt_ge_cases j (bsz P + len h)) as [Hj2|Hj2].
    + rewrite getz_app2 by (rewrite len_resize; lia). rewrite len_resize by lia.
      rewrite (cl_free _ _ C1 j).
      * symmetry. unfold getz. destruct (Z.ltb_spec (j - bsz P) 0); [lia|]. apply nth_error_repeat. lia.
      * apply (pi_free _ _ _ _ I1); [lia|]. intros i c Hic. rewrite ublocks_app in Hic. simpl in Hic. rewrite app_nil_r in Hic.
        assert (OkP : okb P). { pose proof (rep_ok _ _ _ (pi_rep _ _ _ _ I1)) as Ok. rewrite okb_app in Ok. apply Ok. }
        pose proof (ublocks_range _ _ _ OkP Hic) as (V1 & V2 & _). cbn [fst snd] in V1, V2. lia.
    + rewrite !getz_None; [reflexivity| |]; rewrite ?len_app, ?len_resize, ?len_repeat by lia; lia.
Qed.

(** ** All operations *)
Variable cls : nat -> pclass.
Implicit Types (S : sys D).

Definition SClean S : Prop := forall pid p, procs S pid = Some p -> k_move (cls pid) <> MvCopy -> PClean p.

Lemma callbacks_clean log : forall p p', PClean p -> alloc_callbacks dflt p log = Some p' -> PClean p'.
Proof.
  induction log as [|ev log IH]; intros p p' C E; cbn in E; [now injection E as <-|].
  destruct ev as [n|]; [|discriminate]. eapply IH; [|exact E]. now apply clean_resize.
Qed.

Lemma allocate_clean m pid p h n m' p' i : PClean p -> allocate_indices dflt m pid p h n = Some (m', p', i) -> PClean p'.
Proof.
  intros C E. unfold allocate_indices in E. destruct (alloc (p_alloc p) n) as [[[a ix] log]|]; [|discriminate].
  destruct (alloc_callbacks dflt (with_alloc p a) log) as [p1|] eqn:E1; [|discriminate].
  destruct (fill (p_bp p1) ix (fun _ => Some h) (Z.to_nat n)) as [bp|] eqn:Ef; [|discriminate].
  injection E as _ <- _. unfold PClean. cbn [p_cells p_bp].
  eapply (clean_fill (p_cells p1) (p_bp p1)); try exact Ef; try reflexivity; [|discriminate].
  exact (callbacks_clean _ _ _ (C : PClean (with_alloc p a)) E1).
Qed.

(** Cells may be written wherever a motivator is. *)
Lemma write_clean cells cells' bp : Clean cells bp -> len cells' = len cells ->
  (forall j, getz bp j = Some None -> getz cells' j = getz cells j) -> Clean cells' bp.
Proof.
  intros C L O. constructor; [rewrite L; apply C|]. intros j Hj. rewrite O by assumption. now apply C.
Qed.

Lemma allocate_bp m pid p h n m' p' i j : allocate_indices dflt m pid p h n = Some (m', p', i) ->
  i <= j < i + Z.of_nat (Z.to_nat n) -> getz (p_bp p') j = Some (Some h).
Proof.
  intros E Hj. unfold allocate_indices in E. destruct (alloc (p_alloc p) n) as [[[a ix] log]|]; [|discriminate].
  destruct (alloc_callbacks dflt (with_alloc p a) log) as [p1|] eqn:E1; [|discriminate].
  destruct (fill (p_bp p1) ix (fun _ => Some h) (Z.to_nat n)) as [bp|] eqn:Ef; [|discriminate].
  injection E as _ <- <-. cbn [p_bp]. rewrite (proj2 (fill_inv _ _ _ _ _ Ef)).
  now replace ((ix <=? j) && (j <? ix + Z.of_nat (Z.to_nat n))) with true by lia.
Qed.

Lemma clone_inv n : forall (l l' : list D) d s, clone_cells l d s n = Some l' -> len l' = len l /\
  forall j, ~ (d <= j < d + Z.of_nat n) -> getz l' j = getz l j.
Proof.
  induction n as [|n IH]; intros l l' d s E; cbn [clone_cells] in E.
  - injection E as <-. auto.
  - destruct (clone_cells l d s n) as [l1|] eqn:E1; [|discriminate]. destruct (IH _ _ _ _ E1) as (L & G).
    destruct (getz l1 (s + Z.of_nat n)) as [x|]; [|discriminate].
    split; [rewrite (setz_len _ _ _ _ E); exact L|]. intros j Hj. rewrite (getz_setz _ _ _ _ _ E).
    destruct (Z.eqb_spec j (d + Z.of_nat n)); [lia|]. apply G. lia.
Qed.

Lemma remove_clean m pid p i m' p' : PClean p -> remove_motivator dflt m pid p i = Some (m', p') -> PClean p'.
Proof.
  intros C E. unfold remove_motivator in E. destruct (valid_motivator_index m pid p i) as [v|]; [|discriminate].
  destruct v; [|discriminate]. destruct (dimensions p i) as [n|] eqn:En; [|discriminate].
  destruct (data_asserts _ _ _ _ _); [|discriminate].
  destruct (fill (p_cells p) i (fun _ => dflt) (Z.to_nat n)) as [cells|] eqn:Ef; [|discriminate].
  unfold remove_without_notifying in E. cbn [p_bp p_alloc p_cells] in E.
  destruct (getz (p_bp p) i) as [b|]; [|discriminate]. destruct b as [h|]; [|discriminate].
  unfold dimensions in E. cbn [p_alloc] in E. fold (dimensions p i) in E. rewrite En in E.
  destruct (fill (p_bp p) i (fun _ => None) (Z.to_nat n)) as [bp|] eqn:Eb; [|discriminate].
  destruct (free (p_alloc p) i); [|discriminate]. injection E as _ <-. unfold PClean. cbn [p_cells p_bp].
  destruct (fill_inv _ _ _ _ _ Ef) as (L & G).
  eapply (clean_fill (p_cells p) (p_bp p)); try exact Eb; try reflexivity; auto.
  - intros j Hj. rewrite G. now replace ((i <=? j) && (j <? i + Z.of_nat (Z.to_nat n))) with false by lia.
  - intros _ j Hj. rewrite G. now replace ((i <=? j) && (j <? i + Z.of_nat (Z.to_nat n))) with true by lia.
Qed.

Lemma SClean_set S m pid p : SClean S -> (k_move (cls pid) <> MvCopy -> PClean p) -> SClean (set_proc S m pid p).
Proof.
  intros C H q p' E Hq. cbn [set_proc procs] in E. unfold upd in E. destruct (Nat.eqb_spec q pid) as [->|].
  - injection E as <-. auto.
  - eapply C; eauto.
Qed.

Lemma invalidate_clean S h S' : SClean S -> invalidate dflt S h = Some S' -> SClean S'.
Proof.
  intros C E. unfold invalidate in E. destruct (mots S h) as [[pid i]|]; [|now injection E as <-].
  destruct (procs S pid) as [p|] eqn:Ep; [|discriminate]. destruct (remove_motivator dflt (mots S) pid p i) as [[m1 p1]|] eqn:Er; [|discriminate].
  injection E as <-. apply SClean_set; [assumption|]. intros Hk. eapply remove_clean; [|exact Er]. eapply C; eauto.
Qed.

Lemma transfer_clean S src dst S' : SClean S -> transfer S src dst = Some S' -> SClean S'.
Proof.
  intros C E. unfold transfer in E. destruct (mots S src) as [[pid i]|]; [|now injection E as <-].
  destruct (procs S pid) as [p|] eqn:Ep; [|discriminate].
  destruct (transfer_motivator (mots S) pid p i dst) as [[m1 p1]|] eqn:Er; [|discriminate].
  injection E as <-. apply SClean_set; [assumption|]. intros Hk. unfold transfer_motivator in Er.
  destruct (valid_motivator_index _ _ _ _) as [[|]|]; try discriminate.
  destruct (getz (p_bp p) i) as [[old|]|]; try discriminate. destruct (dimensions p i) as [n|]; [|discriminate].
  destruct (fill (p_bp p) i (fun _ => Some dst) (Z.to_nat n)) as [bp|] eqn:Ef; [|discriminate]. injection Er as _ <-.
  unfold PClean. cbn [snd p_cells p_bp]. eapply (clean_fill (p_cells p) (p_bp p)); try exact Ef; try reflexivity; [|discriminate].
  eapply C; eauto.
Qed.

Lemma step_clean S t o S' : SInv S t -> SClean S -> mstep dflt cls S o = Some S' -> SClean S'.
Proof.
  intros I C E. destruct o as [h pid n init|h|dst src|dst src|dst src|pid f|h k v|pid]; cbn [mstep] in E.
  - destruct (0 <? n); [|now injection E as <-]. unfold initialize in E.
    destruct (invalidate dflt S h) as [S1|] eqn:E1; [|discriminate]. pose proof (invalidate_clean _ _ _ C E1) as C1.
    destruct (initialize_motivator dflt (mots S1) pid (ensure S1 pid) h n init) as [[m2 p2]|] eqn:E2; [|discriminate].
    injection E as <-. apply SClean_set; [assumption|]. intros Hk. cbn [snd]. unfold initialize_motivator in E2.
    destruct (allocate_indices dflt (mots S1) pid (ensure S1 pid) h n) as [[[m3 p3] i]|] eqn:E3; [|discriminate].
    destruct (data_asserts _ _ _ _ _); [|discriminate].
    destruct (fill (p_cells p3) i init (Z.to_nat n)) as [cells|] eqn:Ef; [|discriminate]. injection E2 as _ <-.
    assert (C3 : PClean p3).
    { eapply allocate_clean; [|exact E3]. unfold ensure. destruct (procs S1 pid) as [p0|] eqn:E0.
      - eapply C1; eauto.
      - constructor; [reflexivity|]. intros j. cbn. unfold getz. destruct (j <? 0); [discriminate|]. destruct (Z.to_nat j); discriminate. }
    destruct (fill_inv _ _ _ _ _ Ef) as (L & G).
    apply (write_clean (p_cells p3)); auto. cbn [p_bp p_cells]. intros j Hj. rewrite G.
    destruct ((i <=? j) && (j <? i + Z.of_nat (Z.to_nat n))) eqn:B; [|reflexivity].
    rewrite (allocate_bp _ _ _ _ _ _ _ _ j E3) in Hj by lia. discriminate.
  - eapply invalidate_clean; eauto.
  - destruct (mots S dst); [now injection E as <-|]. eapply transfer_clean; eauto.
  - unfold move_assign in E. destruct (invalidate dflt S dst) as [S1|] eqn:E1; [|discriminate].
    eapply transfer_clean; [|exact E]. eapply invalidate_clean; eauto.
  - unfold clone_from in E. destruct (invalidate dflt S dst) as [S1|] eqn:E1; [|discriminate].
    pose proof (invalidate_clean _ _ _ C E1) as C1. destruct (mots S1 src) as [[pid i]|]; [|now injection E as <-].
    destruct (procs S1 pid) as [p|] eqn:Ep; [|discriminate].
    destruct (clone_motivator dflt (cls pid) (mots S1) pid p dst i) as [[m2 p2]|] eqn:E2; [|discriminate].
    injection E as <-. apply SClean_set; [assumption|]. intros Hk. cbn [snd]. unfold clone_motivator in E2.
    destruct (k_clone (cls pid)). 2:{ injection E2 as _ <-. eapply C1; eauto. }
    destruct (dimensions p i) as [n|]; [|discriminate].
    destruct (allocate_indices dflt (mots S1) pid p dst n) as [[[m3 p3] i3]|] eqn:E3; [|discriminate].
    destruct (data_asserts _ _ _ i3 _); [|discriminate]. destruct (data_asserts _ _ _ i _); [|discriminate].
    destruct (clone_cells (p_cells p3) i3 i (Z.to_nat n)) as [cells|] eqn:Ef; [|discriminate]. injection E2 as _ <-.
    assert (C3 : PClean p3) by (eapply allocate_clean; [eapply C1; eauto|exact E3]).
    destruct (clone_inv _ _ _ _ _ Ef) as (L & G).
    apply (write_clean (p_cells p3)); auto. cbn [p_bp p_cells]. intros j Hj.
    assert (Dec : i3 <= j < i3 + Z.of_nat (Z.to_nat n) \/ ~ (i3 <= j < i3 + Z.of_nat (Z.to_nat n))) by lia.
    destruct Dec as [B|B]; [|now apply G]. rewrite (allocate_bp _ _ _ _ _ _ _ _ j E3 B) in Hj. discriminate.
  - unfold frame in E. destruct (procs S pid) as [p|] eqn:Ep; [|now injection E as <-].
    destruct (advance_frame dflt (cls pid) (mots S) pid p f) as [[m1 p1]|] eqn:Ea; [|discriminate]. injection E as <-.
    apply SClean_set; [assumption|]. intros Hk. cbn [snd]. unfold advance_frame in Ea.
    destruct (si_proc _ _ I _ _ Ep) as (bs & P).
    destruct (p_defragment_ok dflt (cls pid) (mots S) pid p bs P) as (m2 & p2 & bs2 & Ed & P2 & HU & _).
    rewrite Ed in Ea. injection Ea as _ <-. destruct (defragment_clean _ _ _ _ _ _ _ Hk P (C _ _ Ep Hk) Ed) as (C2 & _).
    constructor; cbn [p_cells p_bp].
    + rewrite len_map. apply C2.
    + intros j Hj. exfalso.
      assert (R : 0 <= j < bsz bs2).
      { rewrite <- (pi_bp _ _ _ _ P2). destruct (Z.lt_ge_cases j 0); [rewrite getz_None in Hj by lia; discriminate|].
        destruct (Z.lt_ge_cases j (len (p_bp p2))); [lia|]. rewrite getz_None in Hj by lia. discriminate. }
      destruct (range_covered [] bs2 [] j HU) as (i & c & Hic & Hjc); [rewrite bsz_nil; lia|].
      cbn [app] in Hic. rewrite app_nil_r in Hic. destruct (used_handle _ _ _ _ _ _ _ P2 Hic Hjc) as (h & _ & G). congruence.
  - unfold write in E. destruct (mots S h) as [[pid i]|] eqn:Em; [|now injection E as <-].
    destruct (procs S pid) as [p|] eqn:Ep; [|discriminate]. destruct (dimensions p i) as [n|] eqn:En; [|discriminate].
    destruct ((0 <=? k) && (k <? n)) eqn:B; [|now injection E as <-].
    destruct (setz (p_cells p) (i + k) v) as [cells|] eqn:Es; [|discriminate]. injection E as <-.
    apply SClean_set; [assumption|]. intros Hk. pose proof (C _ _ Ep Hk) as Cp.
    apply (write_clean (p_cells p)); auto; cbn [p_cells p_bp]; [apply (setz_len _ _ _ _ Es)|].
    intros j Hj. rewrite (getz_setz _ _ _ _ _ Es). destruct (Z.eqb_spec j (i + k)) as [->|]; [|reflexivity].
    exfalso. destruct (si_proc _ _ I _ _ Ep) as (bs & P). destruct (pi_mot _ _ _ _ P _ _ Em) as (c & Hc & G).
    pose proof (block_range _ _ _ _ _ _ P Hc) as (R1 & R2 & R3 & R4). rewrite En in R4. injection R4 as ->.
    rewrite G in Hj by lia. discriminate.
  - unfold destroy in E. destruct (procs S pid) as [p|] eqn:Ep; [|now injection E as <-].
    destruct (destroy_processor (mots S) p); [|discriminate]. injection E as <-.
    intros q p' Eq Hq. cbn [procs] in Eq. unfold upd in Eq. destruct (Nat.eqb q pid); [discriminate|]. eapply C; eauto.
Qed.

Lemma run_clean ops : forall S t S', SInv S t -> SClean S -> mrun dflt cls S ops = Some S' -> SClean S'.
Proof.
  induction ops as [|o ops IH]; intros S t S' I C E; cbn [mrun] in E; [now injection E as <-|].
  destruct (mstep_ok dflt cls S t o I) as (S1 & E1 & I1). rewrite E1 in E. exact (IH _ _ _ I1 (step_clean _ _ _ _ I C E1) E).
Qed.

Lemma C76_proof ops S pid p : mrun dflt cls sys_init ops = Some S -> procs S pid = Some p ->
  (forall j h, getz (p_bp p) j = Some (Some h) -> exists i l, mots S h = Some (pid, i) /\ view S h = Some (pid, l) /\
     getz (p_cells p) j = getz l (j - i) /\ getz l (j - i) <> None) /\
  (k_move (cls pid) <> MvCopy -> forall j, getz (p_bp p) j = Some None -> getz (p_cells p) j = Some dflt) /\
  (k_move (cls pid) <> MvCopy -> forall f, exists S' p' n kept, mstep dflt cls S (OFrame pid f) = Some S' /\ procs S' pid = Some p' /\
     Permutation (p_cells p) (kept ++ repeat dflt n) /\ p_cells p' = map f kept) /\
  (k_move (cls pid) <> MvCopy -> forall fuel m1 p1, p_defrag_loop dflt fuel (cls pid) (mots S) pid p = Some (m1, p1) ->
     Permutation (p_cells p) (p_cells p1) /\ forall j, getz (p_bp p1) j = Some None -> getz (p_cells p1) j = Some dflt).
Proof.
  intros E Ep. pose proof (reach_inv dflt cls ops S E) as I.
  assert (C : SClean S) by (eapply run_clean; [apply sys_init_inv| |exact E]; intros q p' Hq; discriminate).
  destruct (si_proc _ _ I _ _ Ep) as (bs & P). split; [|split; [|split]].
  4:{ intros Hk fuel m1 p1 El. destruct (loop_clean _ _ Hk _ _ _ _ _ (C _ _ Ep Hk) El) as (C1 & P1).
      split; [exact P1|apply C1]. }
  - intros j h Hj.
    assert (R : 0 <= j < bsz bs).
    { rewrite <- (pi_bp _ _ _ _ P). destruct (Z.lt_ge_cases j 0); [rewrite getz_None in Hj by lia; discriminate|].
      destruct (Z.lt_ge_cases j (len (p_bp p))); [lia|]. rewrite getz_None in Hj by lia. discriminate. }
    destruct (pos_dec bs j) as [(i & c & Hic & Hjc)|Hno].
    2:{ rewrite (pi_free _ _ _ _ P j R Hno) in Hj. discriminate. }
    destruct (used_handle _ _ _ _ _ _ _ P Hic Hjc) as (h' & Hm & G). rewrite Hj in G. injection G as <-.
    exists i, (slice (p_cells p) i (len c)). split; [assumption|]. split.
    { exact (view_some _ _ _ _ _ _ _ _ I Hm Ep P Hic). }
    pose proof (block_range _ _ _ _ _ _ P Hic) as (R1 & R2 & R3 & _). pose proof (pi_cells _ _ _ _ P) as Lc.
    rewrite getz_slice by lia. replace (i + (j - i)) with j by lia. split; [reflexivity|].
    destruct (getz_in_range (p_cells p) j) as (x & Ex); [lia|congruence].
  - intros Hk. apply (C _ _ Ep Hk).
  - intros Hk f.
    destruct (p_defragment_ok dflt (cls pid) (mots S) pid p bs P) as (m2 & p2 & bs2 & Ed & P2 & HU & _).
    destruct (defragment_clean _ _ _ _ _ _ _ Hk P (C _ _ Ep Hk) Ed) as (C2 & n & Pm).
    cbn [mstep]. unfold frame. rewrite Ep. unfold advance_frame. rewrite Ed. cbn [fst snd].
    eexists _, _, n, (p_cells p2). split; [reflexivity|]. cbn [set_proc procs]. unfold upd. rewrite Nat.eqb_refl.
    split; [reflexivity|]. split; [exact Pm|reflexivity].
Qed.
End Own.
