(** Invariant of a processor and its motivators. *)
From Verif Require Import Base BaseFacts IndexAllocatorModel IndexAllocatorSpec
  IndexAllocatorProofs IndexAllocatorDefrag IndexAllocatorWorld IndexAllocatorLemmas
  ProcessorModel ProcessorSpec.
From Coq Require Import Permutation.

(** ** Arrays *)
Lemma getz_resize {A} (l : list A) n d j : 0 <= n ->
  getz (resize l n d) j =
  if (0 <=? j) && (j <? n) then (if j <? len l then getz l j else Some d) else None.
Proof.
  intros Hn. unfold resize. destruct (Z.ltb_spec j 0) as [Hj|Hj].
  { replace ((0 <=? j) && (j <? n)) with false by lia. apply getz_None. lia. }
  assert (Lf : len (firstn (Z.to_nat n) l) = Z.min n (len l)) by (unfold len; rewrite firstn_length; lia).
  destruct (Z.ltb_spec j (Z.min n (len l))).
  - replace ((0 <=? j) && (j <? n)) with true by lia. replace (j <? len l) with true by lia.
    rewrite getz_app1 by lia. rewrite getz_firstn. destruct (Z.ltb_spec j (Z.of_nat (Z.to_nat n))); [auto|lia].
  - rewrite getz_app2 by lia. rewrite Lf.
    destruct (Z.ltb_spec j n).
    + replace ((0 <=? j) && true) with true by lia. replace (j <? len l) with false by lia.
      unfold getz. destruct (Z.ltb_spec (j - Z.min n (len l)) 0); [lia|].
      apply nth_error_repeat. unfold len in *. lia.
    + replace ((0 <=? j) && false) with false by lia. apply getz_None.
      rewrite len_repeat. unfold len in *. lia.
Qed.

Lemma len_resize {A} (l : list A) n d : 0 <= n -> len (resize l n d) = n.
Proof.
  intros H. unfold resize. rewrite len_app, len_repeat. unfold len. rewrite firstn_length. lia.
Qed.

Lemma fill_ok {A} (l : list A) index f n : 0 <= index -> index + Z.of_nat n <= len l ->
  exists l', fill l index f n = Some l' /\ len l' = len l /\
    forall j, getz l' j = if (index <=? j) && (j <? index + Z.of_nat n) then Some (f (j - index)) else getz l j.
Proof.
  intros Hi. induction n as [|n IH]; intros Hn.
  - exists l. split; [reflexivity|]. split; [reflexivity|]. intros j.
    replace ((index <=? j) && (j <? index + Z.of_nat 0)) with false by lia. reflexivity.
  - destruct IH as (l1 & E1 & L1 & G1); [lia|]. cbn [fill]. rewrite E1.
    destruct (setz_Some l1 (index + Z.of_nat n) (f (Z.of_nat n))) as (l2 & E2); [lia|].
    exists l2. split; [assumption|]. split; [rewrite (setz_len _ _ _ _ E2); assumption|].
    intros j. destruct (Z.eq_dec j (index + Z.of_nat n)) as [->|Hne].
    + rewrite (getz_setz_eq _ _ _ _ E2).
      replace ((index <=? index + Z.of_nat n) && (index + Z.of_nat n <? index + Z.of_nat (S n))) with true by lia.
      do 2 f_equal. lia.
    + rewrite (getz_setz_neq _ _ _ _ _ E2 Hne), G1.
      replace ((index <=? j) && (j <? index + Z.of_nat (S n))) with ((index <=? j) && (j <? index + Z.of_nat n)) by lia.
      reflexivity.
Qed.

Lemma slice_len {A} (l : list A) i n : 0 <= i -> 0 <= n -> i + n <= len l -> len (slice l i n) = n.
Proof. intros. unfold slice, len in *. rewrite firstn_length, skipn_length. lia. Qed.

Lemma getz_slice {A} (l : list A) i n k : 0 <= i -> 0 <= k < n -> getz (slice l i n) k = getz l (i + k).
Proof.
  intros Hi Hk. unfold slice. rewrite getz_firstn. destruct (Z.ltb_spec k (Z.of_nat (Z.to_nat n))); [|lia].
  rewrite getz_skipn by lia. f_equal. lia.
Qed.

Lemma slice_ext {A} (a b : list A) i j n : 0 <= i -> 0 <= j -> 0 <= n -> i + n <= len a -> j + n <= len b ->
  (forall k, 0 <= k < n -> getz a (i + k) = getz b (j + k)) -> slice a i n = slice b j n.
Proof.
  intros Hi Hj Hn La Lb H. apply getz_ext. intros k.
  destruct (Z.lt_ge_cases k 0); [rewrite !getz_None by lia; reflexivity|].
  destruct (Z.lt_ge_cases k n).
  - rewrite !getz_slice by lia. apply H. lia.
  - rewrite !getz_None; [reflexivity| |]; rewrite slice_len by lia; lia.
Qed.

Lemma slice_fill {A} (l' : list A) i n f : 0 <= i -> 0 <= n -> i + n <= len l' ->
  (forall j, i <= j < i + n -> getz l' j = Some (f (j - i))) ->
  slice l' i n = map (fun k => f (Z.of_nat k)) (seq 0 (Z.to_nat n)).
Proof.
  intros Hi Hn Hl H. apply getz_ext. intros k.
  assert (Ls : len (map (fun k => f (Z.of_nat k)) (seq 0 (Z.to_nat n))) = n)
    by (unfold len; rewrite map_length, seq_length; lia).
  destruct (Z.lt_ge_cases k 0); [rewrite !getz_None by lia; reflexivity|].
  destruct (Z.lt_ge_cases k n).
  - rewrite getz_slice by lia. rewrite H by lia. unfold getz. destruct (Z.ltb_spec k 0); [lia|].
    rewrite nth_error_map. rewrite (nth_error_nth' _ 0%nat) by (rewrite seq_length; lia).
    rewrite seq_nth by lia. simpl. do 2 f_equal. lia.
  - rewrite !getz_None; [reflexivity|lia|rewrite slice_len by lia; lia].
Qed.

(** ** Blocks *)
Lemma ublock_unique {D} off (bs : list (bool * list D)) i c i' c' j : okb bs ->
  In (i, c) (ublocks off bs) -> In (i', c') (ublocks off bs) ->
  i <= j < i + len c -> i' <= j < i' + len c' -> (i, c) = (i', c').
Proof.
  intros Ok H H' Hj Hj'. revert off H H'. induction bs as [|[v b] bs IH]; intros off H H'; [easy|].
  apply okb_cons in Ok as [Hb Ok]. simpl in H, H'. destruct v.
  - destruct H as [H|H], H' as [H'|H'].
    + congruence.
    + injection H as <- <-. apply (ublocks_range _ _ _ Ok) in H'. simpl in *. lia.
    + injection H' as <- <-. apply (ublocks_range _ _ _ Ok) in H. simpl in *. lia.
    + eauto.
  - eauto.
Qed.

Lemma pos_dec {D} (bs : list (bool * list D)) j : 
  (exists i c, In (i, c) (ublocks 0 bs) /\ i <= j < i + len c) \/
  (forall i c, In (i, c) (ublocks 0 bs) -> ~ (i <= j < i + len c)).
Proof.
  induction (ublocks 0 bs) as [|[i c] l IH]; [right; easy|].
  destruct IH as [(i' & c' & H & Hj)|H].
  - left. exists i', c'. split; [now right|assumption].
  - assert (Dec : i <= j < i + len c \/ ~ (i <= j < i + len c)) by lia.
    destruct Dec as [Hj|Hj].
    + left. exists i, c. split; [now left|assumption].
    + right. intros i' c' [E|Hin]; [injection E as <- <-; assumption|eauto].
Qed.

Lemma alloc_summary (a : alloc_state) (bs : list (bool * list unit)) n :
  Rep a (data bs) bs -> 0 < n ->
  exists a' i evs bs' c X Y, alloc a n = Some (a', i, evs) /\ Rep a' (data bs') bs' /\
    (evs = [] /\ bsz bs' = bsz bs \/ evs = [EvSetNum (bsz bs')] /\ bsz bs' = bsz bs + n) /\
    ublocks 0 bs' = X ++ (i, c) :: Y /\ ublocks 0 bs = X ++ Y /\ len c = n.
Proof.
  intros Rp Hn. destruct (alloc_rep tt _ _ _ n Rp Hn) as (a' & i & evs & arr' & bs' & Ea & Ev & Rp' & Hc).
  pose proof (rep_data _ _ _ Rp') as Ed. subst arr'.
  destruct Hc as [(P & b & Q & -> & -> & -> & Hb & ->)|[(P & b1 & b2 & Q & -> & -> & -> & Hb & -> & _)|(-> & -> & -> & _)]].
  - exists a', (bsz P), [], (P ++ (true, b) :: Q), b, (ublocks 0 P), (ublocks (bsz P + len b) Q).
    split; [assumption|]. split; [assumption|]. split; [|rewrite !ublocks_app; auto].
    left. split; [reflexivity|]. rewrite !bsz_app, !bsz_cons. reflexivity.
  - exists a', (bsz P), [], (P ++ (true, b1) :: (false, b2) :: Q), b1, (ublocks 0 P), (ublocks (bsz P + len b1 + len b2) Q).
    split; [assumption|]. split; [assumption|]. split; [|rewrite !ublocks_app; split; [|split]; auto].
    + left. split; [reflexivity|]. rewrite !bsz_app, !bsz_cons. simpl. rewrite len_app. lia.
    + simpl. rewrite len_app. do 2 f_equal. lia.
  - exists a', (bsz bs), [EvSetNum (bsz bs + n)], (bs ++ [(true, repeat tt (Z.to_nat n))]), (repeat tt (Z.to_nat n)),
      (ublocks 0 bs), [].
    split; [assumption|]. split; [assumption|].
    assert (E : bsz (bs ++ [(true, repeat tt (Z.to_nat n))]) = bsz bs + n).
    { rewrite bsz_app, bsz_single, len_repeat. lia. }
    rewrite E. split; [now right|]. rewrite ublocks_app, app_nil_r. split; [reflexivity|].
    split; [reflexivity|]. rewrite len_repeat. lia.
Qed.

Section Proofs.
Context {D : Type} (dflt : D).
Implicit Types (p : proc D) (bs : list (bool * list unit)).

Record PInv (m : nat -> option (nat * Z)) (pid : nat) p bs : Prop := {
  pi_rep : Rep (p_alloc p) (data bs) bs;
  pi_bp : len (p_bp p) = bsz bs;
  pi_cells : len (p_cells p) = bsz bs;
  pi_used : forall i c, In (i, c) (ublocks 0 bs) -> exists h, m h = Some (pid, i);
  pi_mot : forall h i, m h = Some (pid, i) -> exists c, In (i, c) (ublocks 0 bs) /\
             forall j, i <= j < i + len c -> getz (p_bp p) j = Some (Some h);
  pi_free : forall j, 0 <= j < bsz bs ->
             (forall i c, In (i, c) (ublocks 0 bs) -> ~ (i <= j < i + len c)) ->
             getz (p_bp p) j = Some None }.

Lemma PInv_ext m m' pid p bs : PInv m pid p bs ->
  (forall h i, m h = Some (pid, i) <-> m' h = Some (pid, i)) -> PInv m' pid p bs.
Proof.
  intros I E. constructor; try apply I.
  - intros i c H. destruct (pi_used _ _ _ _ I i c H) as (h & Hh). exists h. now apply E.
  - intros h i H. apply E in H. now apply I.
Qed.

Lemma PInv_init pid m : (forall h i, m h <> Some (pid, i)) -> PInv m pid proc_init [].
Proof.
  intros H. constructor; simpl; auto; try easy.
  - repeat constructor.
  - intros h i E. now apply H in E.
  - intros j Hj. unfold bsz, len in Hj. simpl in Hj. lia.
Qed.

Lemma block_range m pid p bs i c : PInv m pid p bs -> In (i, c) (ublocks 0 bs) ->
  0 <= i /\ 0 < len c /\ i + len c <= bsz bs /\ dimensions p i = Some (len c).
Proof.
  intros I H. pose proof (pi_rep _ _ _ _ I) as Rp.
  pose proof (rep_present _ _ _ _ Rp H) as (H1 & H2 & H3 & H4 & H5). unfold shape in *. simpl in *.
  unfold num_indices in H5. rewrite (rep_counts _ _ _ Rp), layout_len in H5. auto.
Qed.

Lemma num_is m pid p bs : PInv m pid p bs -> num_indices (p_alloc p) = bsz bs.
Proof. intros I. unfold num_indices. now rewrite (rep_counts _ _ _ (pi_rep _ _ _ _ I)), layout_len. Qed.

Lemma mot_inj m pid p bs h h' i : PInv m pid p bs -> m h = Some (pid, i) -> m h' = Some (pid, i) -> h = h'.
Proof.
  intros I H H'. destruct (pi_mot _ _ _ _ I _ _ H) as (c & Hc & G).
  destruct (pi_mot _ _ _ _ I _ _ H') as (c' & Hc' & G').
  pose proof (block_range _ _ _ _ _ _ I Hc). pose proof (block_range _ _ _ _ _ _ I Hc').
  specialize (G i ltac:(lia)). specialize (G' i ltac:(lia)). congruence.
Qed.

Lemma used_handle m pid p bs i c j : PInv m pid p bs -> In (i, c) (ublocks 0 bs) -> i <= j < i + len c ->
  exists h, m h = Some (pid, i) /\ getz (p_bp p) j = Some (Some h).
Proof.
  intros I Hc Hj. destruct (pi_used _ _ _ _ I _ _ Hc) as (h & Hh). exists h. split; [assumption|].
  destruct (pi_mot _ _ _ _ I _ _ Hh) as (c' & Hc' & G).
  pose proof (block_range _ _ _ _ _ _ I Hc). pose proof (block_range _ _ _ _ _ _ I Hc').
  pose proof (ublock_unique 0 bs i c i c' i (rep_ok _ _ _ (pi_rep _ _ _ _ I)) Hc Hc' ltac:(lia) ltac:(lia)) as E.
  injection E as ->. now apply G.
Qed.

Lemma valid_index_ok m pid p bs h i c j : PInv m pid p bs -> m h = Some (pid, i) ->
  In (i, c) (ublocks 0 bs) -> i <= j < i + len c -> p_valid_index m pid p j = Some true.
Proof.
  intros I Hh Hc Hj. unfold p_valid_index. rewrite (num_is _ _ _ _ I).
  pose proof (block_range _ _ _ _ _ _ I Hc). replace (j <? bsz bs) with true by lia.
  destruct (used_handle _ _ _ _ _ _ _ I Hc Hj) as (h' & Hh' & G). rewrite G, Hh'.
  now rewrite Nat.eqb_refl.
Qed.

Lemma valid_motivator_ok m pid p bs h i : PInv m pid p bs -> m h = Some (pid, i) ->
  valid_motivator_index m pid p i = Some true.
Proof.
  intros I Hh. unfold valid_motivator_index.
  destruct (pi_mot _ _ _ _ I _ _ Hh) as (c & Hc & G).
  pose proof (block_range _ _ _ _ _ _ I Hc) as (R1 & R2 & R3 & R4).
  rewrite (valid_index_ok _ _ _ _ _ _ _ i I Hh Hc ltac:(lia)).
  unfold is_motivator_index. rewrite (G i ltac:(lia)).
  destruct (Z.eqb_spec i 0); [reflexivity|].
  destruct (pos_dec bs (i - 1)) as [(i' & c' & Hc' & Hj)|Hno].
  - destruct (used_handle _ _ _ _ _ _ _ I Hc' Hj) as (h' & Hh' & G'). rewrite G'.
    destruct (Nat.eqb_spec h' h) as [->|]; [|reflexivity].
    rewrite Hh in Hh'. injection Hh' as <-. lia.
  - rewrite (pi_free _ _ _ _ I (i - 1) ltac:(lia) Hno). reflexivity.
Qed.

Lemma data_asserts_ok m pid p i n : (forall j, i <= j < i + Z.of_nat n -> p_valid_index m pid p j = Some true) ->
  data_asserts m pid p i n = Some tt.
Proof.
  induction n as [|n IH]; intros H; [reflexivity|]. cbn [data_asserts].
  rewrite IH by (intros; apply H; lia). rewrite H by lia. reflexivity.
Qed.

(** Cells may be rewritten freely without touching the invariant. *)
Lemma PInv_cells m pid p bs cells : PInv m pid p bs -> len cells = bsz bs ->
  PInv m pid {| p_alloc := p_alloc p; p_bp := p_bp p; p_cells := cells |} bs.
Proof. intros I L. constructor; try apply I. exact L. Qed.

(** ** AllocateMotivatorIndices *)
Lemma allocate_ok m pid p bs h n : PInv m pid p bs -> m h = None -> 0 < n ->
  exists p' i bs' c, allocate_indices dflt m pid p h n = Some (upd m h (Some (pid, i)), p', i) /\
    PInv (upd m h (Some (pid, i))) pid p' bs' /\ In (i, c) (ublocks 0 bs') /\ len c = n /\
    (forall i0 c0, In (i0, c0) (ublocks 0 bs) -> In (i0, c0) (ublocks 0 bs') /\ (i0 + len c0 <= i \/ i + n <= i0)) /\
    (forall j, 0 <= j < bsz bs -> getz (p_cells p') j = getz (p_cells p) j) /\ bsz bs <= bsz bs'.
Proof.
  intros I Hh Hn. destruct (alloc_summary _ _ n (pi_rep _ _ _ _ I) Hn)
    as (a' & i & evs & bs' & c & X & Y & Ea & Rp' & Hevs & EX & EY & Lc).
  unfold allocate_indices. rewrite Ea.
  pose proof (bsz_nonneg bs) as Hb0.
  assert (Hp1 : exists p1, alloc_callbacks dflt (with_alloc p a') evs = Some p1 /\ p_alloc p1 = a' /\
     len (p_bp p1) = bsz bs' /\ len (p_cells p1) = bsz bs' /\ bsz bs <= bsz bs' /\
     (forall j, 0 <= j < bsz bs -> getz (p_bp p1) j = getz (p_bp p) j) /\
     (forall j, bsz bs <= j < bsz bs' -> getz (p_bp p1) j = Some None) /\
     (forall j, 0 <= j < bsz bs -> getz (p_cells p1) j = getz (p_cells p) j)).
  { destruct Hevs as [(-> & E)|(-> & E)].
    - exists (with_alloc p a'). rewrite E. simpl. rewrite (pi_bp _ _ _ _ I), (pi_cells _ _ _ _ I).
      repeat split; auto; lia.
    - eexists. split; [reflexivity|]. simpl. rewrite !len_resize by lia.
      split; [reflexivity|]. split; [reflexivity|]. split; [reflexivity|]. split; [lia|].
      split; [|split]; intros j Hj; rewrite getz_resize by lia;
        replace ((0 <=? j) && (j <? bsz bs')) with true by lia;
        rewrite ?(pi_bp _ _ _ _ I), ?(pi_cells _ _ _ _ I);
        destruct (Z.ltb_spec j (bsz bs)); auto; lia. }
  destruct Hp1 as (p1 & Ep1 & Ha1 & Lb1 & Lc1 & Hle & Gb1 & Gb2 & Gc1). rewrite Ep1.
  pose proof (rep_ok _ _ _ Rp') as Ok'.
  assert (Hic : In (i, c) (ublocks 0 bs')) by (rewrite EX; apply in_elt).
  pose proof (ublocks_range _ _ _ Ok' Hic) as (R1 & R2 & R3). simpl in R1, R2.
  destruct (fill_ok (p_bp p1) i (fun _ => Some h) (Z.to_nat n)) as (bp & Ef & Lf & Gf); try lia.
  rewrite Ef. rewrite Z2Nat.id in Gf by lia.
  assert (Hold : forall i0 c0, In (i0, c0) (ublocks 0 bs) -> In (i0, c0) (ublocks 0 bs') /\ (i0 + len c0 <= i \/ i + n <= i0)).
  { intros i0 c0 H0. assert (H0' : In (i0, c0) (ublocks 0 bs')).
    { rewrite EX. rewrite EY in H0. rewrite in_app_iff in *. simpl. tauto. }
    split; [assumption|].
    pose proof (ublocks_disjoint 0 bs' Ok') as Hd. rewrite EX in Hd.
    apply (FOP_perm _ _ _ disjoint_sym (Permutation_map shape (Permutation_sym (Permutation_middle X Y (i, c))))) in Hd.
    simpl in Hd. inversion Hd as [|? ? Hf _]; subst. rewrite Forall_forall in Hf.
    specialize (Hf (shape (i0, c0))). rewrite <- EY in Hf.
    specialize (Hf (in_map shape _ _ H0)). unfold disjoint, shape in Hf. simpl in Hf. lia. }
  eexists _, i, bs', c. split; [reflexivity|].
  split; [|repeat (split; [solve [auto]|]); assumption].
  constructor; cbn [p_alloc p_bp p_cells].
  - rewrite Ha1. exact Rp'.
  - lia.
  - assumption.
  - intros i0 c0 H0. rewrite EX in H0. apply in_app_iff in H0. destruct H0 as [H0|[H0|H0]].
    + destruct (pi_used _ _ _ _ I i0 c0) as (h0 & Hh0). { rewrite EY, in_app_iff. auto. }
      exists h0. unfold upd. destruct (Nat.eqb_spec h0 h); [congruence|assumption].
    + injection H0 as <- <-. exists h. unfold upd. now rewrite Nat.eqb_refl.
    + destruct (pi_used _ _ _ _ I i0 c0) as (h0 & Hh0). { rewrite EY, in_app_iff. auto. }
      exists h0. unfold upd. destruct (Nat.eqb_spec h0 h); [congruence|assumption].
  - intros h0 i0. unfold upd. destruct (Nat.eqb_spec h0 h) as [->|Hne].
    + intros E. injection E as <-. exists c. split; [assumption|]. intros j Hj. rewrite Gf.
      replace ((i <=? j) && (j <? i + n)) with true by lia. reflexivity.
    + intros E. destruct (pi_mot _ _ _ _ I _ _ E) as (c0 & H0 & G0).
      destruct (Hold _ _ H0) as (H0' & Hdis). exists c0. split; [assumption|]. intros j Hj.
      pose proof (block_range _ _ _ _ _ _ I H0) as (B1 & B2 & B3 & B4).
      rewrite Gf. replace ((i <=? j) && (j <? i + n)) with false by lia. rewrite Gb1 by lia. now apply G0.
  - intros j Hj Hno. rewrite Gf.
    destruct ((i <=? j) && (j <? i + n)) eqn:E; [exfalso; apply (Hno i c Hic); lia|].
    destruct (Z.lt_ge_cases j (bsz bs)); [|apply Gb2; lia]. rewrite Gb1 by lia.
    apply (pi_free _ _ _ _ I); [lia|]. intros i0 c0 H0. apply Hno. now apply Hold.
Qed.

(** ** RemoveMotivatorWithoutNotifying *)
Lemma remove_wn_ok m pid p P c Q h : PInv m pid p (P ++ (true, c) :: Q) -> m h = Some (pid, bsz P) ->
  exists p', remove_without_notifying m p (bsz P) = Some (upd m h None, p') /\
    PInv (upd m h None) pid p' (P ++ (false, c) :: Q) /\ p_cells p' = p_cells p /\
    forall j, bsz P <= j < bsz P + len c -> getz (p_bp p') j = Some None.
Proof.
  intros I Hh. set (bs := P ++ (true, c) :: Q) in *.
  assert (Hic : In (bsz P, c) (ublocks 0 bs)).
  { unfold bs. rewrite ublocks_app. simpl. apply in_elt. }
  pose proof (block_range _ _ _ _ _ _ I Hic) as (R1 & R2 & R3 & R4).
  destruct (used_handle _ _ _ _ _ _ (bsz P) I Hic ltac:(lia)) as (h' & Hh' & G).
  rewrite (mot_inj _ _ _ _ _ _ _ I Hh' Hh) in *. clear h' Hh'.
  unfold remove_without_notifying. rewrite G, R4.
  destruct (fill_ok (p_bp p) (bsz P) (fun _ => @None nat) (Z.to_nat (len c))) as (bp & Ef & Lf & Gf); try lia.
  { rewrite (pi_bp _ _ _ _ I). lia. }
  rewrite Ef. rewrite Z2Nat.id in Gf by lia.
  destruct (free_rep _ _ _ _ _ (pi_rep _ _ _ _ I)) as (a' & Efr & Rp'). rewrite Efr.
  eexists. split; [reflexivity|]. split; [|split; [reflexivity|]].
  2:{ cbn [p_bp]. intros j Hj. rewrite Gf. now replace ((bsz P <=? j) && (j <? bsz P + len c)) with true by lia. }
  assert (Hsub : forall x, In x (ublocks 0 (P ++ (false, c) :: Q)) -> In x (ublocks 0 bs)).
  { intros x. unfold bs. rewrite !ublocks_app, !in_app_iff. simpl. tauto. }
  assert (Hne : forall i0 c0, In (i0, c0) (ublocks 0 (P ++ (false, c) :: Q)) -> i0 <> bsz P).
  { intros i0 c0 H0 ->. rewrite ublocks_app in H0. apply in_app_iff in H0.
    pose proof (rep_ok _ _ _ (pi_rep _ _ _ _ I)) as Ok. unfold bs in Ok. apply okb_app in Ok as [Ok1 Ok2].
    apply okb_cons in Ok2 as [_ Ok2]. simpl in H0.
    destruct H0 as [H0|H0]; apply ublocks_range in H0; auto; simpl in H0.
    - pose proof (len_pos c0 ltac:(tauto)). lia.
    - lia. }
  assert (Hinv : forall x, In x (ublocks 0 bs) -> x = (bsz P, c) \/ In x (ublocks 0 (P ++ (false, c) :: Q))).
  { intros x. unfold bs. rewrite !ublocks_app, !in_app_iff. simpl. intuition auto. }
  assert (Esz : bsz (P ++ (false, c) :: Q) = bsz bs) by (unfold bs; rewrite !bsz_app, !bsz_cons; reflexivity).
  constructor; cbn [p_alloc p_bp p_cells].
  - replace (data (P ++ (false, c) :: Q)) with (data bs) by (unfold bs; rewrite !data_app; reflexivity). exact Rp'.
  - rewrite Esz, Lf. apply I.
  - rewrite Esz. apply I.
  - intros i0 c0 H0. destruct (pi_used _ _ _ _ I _ _ (Hsub _ H0)) as (h0 & E0).
    exists h0. unfold upd. destruct (Nat.eqb_spec h0 h) as [->|]; [|assumption].
    exfalso. apply (Hne _ _ H0). congruence.
  - intros h0 i0. unfold upd. destruct (Nat.eqb_spec h0 h) as [->|Hn0]; [discriminate|]. intros E0.
    destruct (pi_mot _ _ _ _ I _ _ E0) as (c0 & H0 & G0).
    destruct (Hinv _ H0) as [E|H0'].
    { injection E as -> ->. exfalso. apply Hn0. exact (mot_inj _ _ _ _ _ _ _ I E0 Hh). }
    exists c0. split; [assumption|]. intros j Hj. rewrite Gf.
    destruct ((bsz P <=? j) && (j <? bsz P + len c)) eqn:E; [|now apply G0].
    exfalso. apply (Hne _ _ H0').
    assert (E1 : (i0, c0) = (bsz P, c)); [|congruence].
    apply (ublock_unique 0 bs i0 c0 (bsz P) c j (rep_ok _ _ _ (pi_rep _ _ _ _ I)) H0 Hic); lia.
  - intros j Hj Hno. rewrite Gf. destruct ((bsz P <=? j) && (j <? bsz P + len c)) eqn:E; [reflexivity|].
    apply (pi_free _ _ _ _ I); [lia|]. intros i0 c0 H0. destruct (Hinv _ H0) as [E0|H0'].
    + injection E0 as -> ->. lia.
    + now apply Hno.
Qed.

Lemma block_split bs i c : In (i, c) (ublocks 0 bs) -> exists P Q, bs = P ++ (true, c) :: Q /\ i = bsz P.
Proof. intros H. destruct (ublocks_split _ _ _ H) as (P & Q & E & E'). simpl in *. eauto. Qed.

(** ** RemoveMotivator *)
Lemma remove_ok m pid p bs h i : PInv m pid p bs -> m h = Some (pid, i) ->
  exists p' bs', remove_motivator dflt m pid p i = Some (upd m h None, p') /\
    PInv (upd m h None) pid p' bs' /\
    (exists n, dimensions p i = Some n /\ 0 < n /\ hole (p_alloc p') i n /\
       forall j, i <= j < i + n -> getz (p_bp p') j = Some None) /\
    (forall h0 i0 c0, h0 <> h -> m h0 = Some (pid, i0) -> In (i0, c0) (ublocks 0 bs) ->
       In (i0, c0) (ublocks 0 bs') /\ slice (p_cells p') i0 (len c0) = slice (p_cells p) i0 (len c0)).
Proof.
  intros I Hh. unfold remove_motivator. rewrite (valid_motivator_ok _ _ _ _ _ _ I Hh).
  destruct (pi_mot _ _ _ _ I _ _ Hh) as (c & Hc & G).
  pose proof (block_range _ _ _ _ _ _ I Hc) as (R1 & R2 & R3 & R4). rewrite R4.
  rewrite data_asserts_ok.
  2:{ intros j Hj. eapply valid_index_ok; eauto. lia. }
  destruct (fill_ok (p_cells p) i (fun _ => dflt) (Z.to_nat (len c))) as (cells & Ef & Lf & Gf); try lia.
  { rewrite (pi_cells _ _ _ _ I). lia. }
  rewrite Ef. rewrite Z2Nat.id in Gf by lia.
  pose proof (PInv_cells _ _ _ _ cells I ltac:(rewrite Lf; apply I)) as I1.
  destruct (block_split _ _ _ Hc) as (P & Q & E & Ei). subst bs i.
  destruct (remove_wn_ok _ _ _ _ _ _ _ I1 Hh) as (p' & Er & I' & Ecell & Hbp).
  rewrite Er. exists p', (P ++ (false, c) :: Q). split; [reflexivity|]. split; [assumption|]. split.
  { exists (len c). split; [reflexivity|]. split; [exact R2|]. split; [|assumption].
    pose proof (pi_rep _ _ _ _ I') as Rp'. split.
    - eapply Permutation_in; [symmetry; apply (rep_unused _ _ _ Rp')|]. rewrite fstarts_app. simpl. apply in_elt.
    - rewrite (rep_counts _ _ _ Rp'). apply count_for_index_layout. simpl. intros ->. easy. }
  intros h0 i0 c0 Hne H0 Hc0.
  assert (Hin : (i0, c0) <> (bsz P, c)).
  { intros E. injection E as -> ->. apply Hne. exact (mot_inj _ _ _ _ _ _ _ I H0 Hh). }
  split.
  - rewrite ublocks_app, in_app_iff in *. simpl in *. intuition congruence.
  - rewrite Ecell. cbn [p_cells]. pose proof (block_range _ _ _ _ _ _ I Hc0) as (B1 & B2 & B3 & B4).
    apply slice_ext; try lia; rewrite ?Lf, ?(pi_cells _ _ _ _ I); try lia.
    intros k Hk. rewrite Gf. destruct ((bsz P <=? i0 + k) && (i0 + k <? bsz P + len c)) eqn:E; [|reflexivity].
    exfalso. apply Hin. eapply ublock_unique with (j := i0 + k); try eassumption; try lia.
    apply (rep_ok _ _ _ (pi_rep _ _ _ _ I)).
Qed.

(** ** TransferMotivator *)
Lemma transfer_ok m pid p bs h h' i : PInv m pid p bs -> m h = Some (pid, i) -> m h' = None ->
  exists p', transfer_motivator m pid p i h' = Some (upd (upd m h None) h' (Some (pid, i)), p') /\
    PInv (upd (upd m h None) h' (Some (pid, i))) pid p' bs /\ p_cells p' = p_cells p /\ p_alloc p' = p_alloc p.
Proof.
  intros I Hh Hh'. unfold transfer_motivator. rewrite (valid_motivator_ok _ _ _ _ _ _ I Hh).
  destruct (pi_mot _ _ _ _ I _ _ Hh) as (c & Hc & G).
  pose proof (block_range _ _ _ _ _ _ I Hc) as (R1 & R2 & R3 & R4). rewrite R4.
  rewrite (G i ltac:(lia)).
  destruct (fill_ok (p_bp p) i (fun _ => Some h') (Z.to_nat (len c))) as (bp & Ef & Lf & Gf); try lia.
  { rewrite (pi_bp _ _ _ _ I). lia. }
  rewrite Ef. rewrite Z2Nat.id in Gf by lia.
  eexists. split; [reflexivity|]. split; [|split; reflexivity].
  constructor; cbn [p_alloc p_bp p_cells]; try apply I.
  - rewrite Lf. apply I.
  - intros i0 c0 H0. destruct (pi_used _ _ _ _ I _ _ H0) as (h0 & E0).
    destruct (Nat.eq_dec h0 h) as [->|Hne].
    + exists h'. unfold upd. rewrite Nat.eqb_refl. congruence.
    + exists h0. unfold upd. destruct (Nat.eqb_spec h0 h'); [congruence|].
      destruct (Nat.eqb_spec h0 h); [congruence|assumption].
  - intros h0 i0. unfold upd. destruct (Nat.eqb_spec h0 h') as [->|Hn1].
    + intros E. injection E as <-. exists c. split; [assumption|]. intros j Hj. rewrite Gf.
      replace ((i <=? j) && (j <? i + len c)) with true by lia. reflexivity.
    + destruct (Nat.eqb_spec h0 h) as [->|Hn2]; [discriminate|]. intros E0.
      destruct (pi_mot _ _ _ _ I _ _ E0) as (c0 & H0 & G0). exists c0. split; [assumption|].
      intros j Hj. rewrite Gf. destruct ((i <=? j) && (j <? i + len c)) eqn:E; [|now apply G0].
      exfalso. apply Hn2.
      assert (E1 : (i0, c0) = (i, c)).
      { eapply ublock_unique with (j := j); try eassumption; [apply (rep_ok _ _ _ (pi_rep _ _ _ _ I))|lia]. }
      injection E1 as -> ->. exact (mot_inj _ _ _ _ _ _ _ I E0 Hh).
  - intros j Hj Hno. rewrite Gf. destruct ((i <=? j) && (j <? i + len c)) eqn:E.
    + exfalso. apply (Hno _ _ Hc). lia.
    + now apply (pi_free _ _ _ _ I).
Qed.
End Proofs.
