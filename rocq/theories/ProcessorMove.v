(** Defragment and destruction of a processor with live motivators. *)
From Verif Require Import Base BaseFacts IndexAllocatorModel IndexAllocatorSpec
  IndexAllocatorProofs IndexAllocatorDefrag IndexAllocatorWorld IndexAllocatorLemmas
  ProcessorModel ProcessorSpec ProcessorProofs.
From Coq Require Import Permutation.

Section Move.
Context {D : Type} (dflt : D).
Implicit Types (p : proc D) (bs : list (bool * list unit)).

(** ** The array moves *)
Definition moved {A} (l l' : list A) (t s n : Z) : Prop :=
  len l' = len l /\ (forall j, t <= j < t + n -> getz l' j = getz l (j - t + s)) /\
  (forall j, ~ (t <= j < t + n) -> ~ (s <= j < s + n) -> getz l' j = getz l j).

Lemma move_swap_ok (l : list D) t s n : 0 <= t < s -> s + Z.of_nat n <= len l ->
  exists l', move_swap l t s n = Some l' /\ moved l l' t s (Z.of_nat n).
Proof.
  intros Ht. induction n as [|n IH]; intros Hn.
  { exists l. split; [reflexivity|]. split; [reflexivity|]. split; [lia|auto]. }
  destruct IH as (l1 & E1 & L1 & T1 & O1); [lia|]. cbn [move_swap]. rewrite E1.
  destruct (getz_in_range l1 (s + Z.of_nat n)) as (x & Ex); [lia|]. rewrite Ex.
  destruct (getz_in_range l1 (t + Z.of_nat n)) as (y & Ey); [lia|]. rewrite Ey.
  destruct (setz_Some l1 (t + Z.of_nat n) x) as (l2 & E2); [lia|]. rewrite E2.
  pose proof (setz_len _ _ _ _ E2) as L2.
  destruct (setz_Some l2 (s + Z.of_nat n) y) as (l3 & E3); [lia|]. rewrite E3.
  pose proof (setz_len _ _ _ _ E3) as L3.
  exists l3. split; [reflexivity|]. split; [lia|]. split.
  - intros j Hj. rewrite (getz_setz_neq _ _ _ _ _ E3) by lia.
    destruct (Z.eq_dec j (t + Z.of_nat n)) as [->|Hne].
    + rewrite (getz_setz_eq _ _ _ _ E2), <- Ex. rewrite O1 by lia. f_equal. lia.
    + rewrite (getz_setz_neq _ _ _ _ _ E2) by lia. apply T1. lia.
  - intros j H1 H2. rewrite (getz_setz_neq _ _ _ _ _ E3) by lia.
    rewrite (getz_setz_neq _ _ _ _ _ E2) by lia. apply O1; lia.
Qed.

Lemma move_own_ok (l : list D) t s n : 0 <= t < s -> s + Z.of_nat n <= len l ->
  exists l', move_own dflt l t s n = Some l' /\ moved l l' t s (Z.of_nat n).
Proof.
  intros Ht. induction n as [|n IH]; intros Hn.
  { exists l. split; [reflexivity|]. split; [reflexivity|]. split; [lia|auto]. }
  destruct IH as (l1 & E1 & L1 & T1 & O1); [lia|]. cbn [move_own]. rewrite E1.
  destruct (getz_in_range l1 (s + Z.of_nat n)) as (x & Ex); [lia|]. rewrite Ex.
  destruct (setz_Some l1 (t + Z.of_nat n) x) as (l2 & E2); [lia|]. rewrite E2.
  pose proof (setz_len _ _ _ _ E2) as L2.
  destruct (setz_Some l2 (s + Z.of_nat n) dflt) as (l3 & E3); [lia|]. rewrite E3.
  pose proof (setz_len _ _ _ _ E3) as L3.
  exists l3. split; [reflexivity|]. split; [lia|]. split.
  - intros j Hj. rewrite (getz_setz_neq _ _ _ _ _ E3) by lia.
    destruct (Z.eq_dec j (t + Z.of_nat n)) as [->|Hne].
    + rewrite (getz_setz_eq _ _ _ _ E2), <- Ex. rewrite O1 by lia. f_equal. lia.
    + rewrite (getz_setz_neq _ _ _ _ _ E2) by lia. apply T1. lia.
  - intros j H1 H2. rewrite (getz_setz_neq _ _ _ _ _ E3) by lia.
    rewrite (getz_setz_neq _ _ _ _ _ E2) by lia. apply O1; lia.
Qed.

Lemma move_indices_ok k (l : list D) t s n : 0 <= t < s -> 0 <= n -> s + n <= len l ->
  exists l', move_indices dflt k l s t n = Some l' /\ moved l l' t s n.
Proof.
  intros Ht Hn Hl. unfold move_indices.
  assert (En : Z.of_nat (Z.to_nat n) = n) by lia.
  destruct (k_move k).
  - destruct (copy_ascending_ok l t s (Z.to_nat n)) as (l' & E & L & G); try lia.
    rewrite En in G. exists l'. split; [assumption|]. split; [assumption|]. split; intros j Hj.
    + rewrite G. now replace ((t <=? j) && (j <? t + n)) with true by lia.
    + intros _. rewrite G. now replace ((t <=? j) && (j <? t + n)) with false by lia.
  - destruct (move_swap_ok l t s (Z.to_nat n)) as (l' & E & M); try lia. rewrite En in M. eauto.
  - destruct (move_own_ok l t s (Z.to_nat n)) as (l' & E & M); try lia. rewrite En in M. eauto.
Qed.

Lemma move_bp_ok (l : list (option nat)) t s n : 0 <= t < s -> s + Z.of_nat n <= len l ->
  (forall j, s <= j < s + Z.of_nat n -> exists h, getz l j = Some (Some h)) ->
  (forall j, t <= j < t + Z.of_nat n -> j < s -> getz l j = Some None) ->
  exists l', move_bp l s (t - s) n = Some l' /\ len l' = len l /\
   forall j, getz l' j = if (t <=? j) && (j <? t + Z.of_nat n) then getz l (j - t + s)
                         else if (s <=? j) && (j <? s + Z.of_nat n) then Some None else getz l j.
Proof.
  intros Ht. induction n as [|n IH]; intros Hn Hs Hf.
  { exists l. split; [reflexivity|]. split; [reflexivity|]. intros j.
    replace ((t <=? j) && (j <? t + Z.of_nat 0)) with false by lia.
    now replace ((s <=? j) && (j <? s + Z.of_nat 0)) with false by lia. }
  destruct IH as (l1 & E1 & L1 & G1); [lia|intros; apply Hs; lia|intros; apply Hf; lia|].
  cbn [move_bp]. rewrite E1.
  destruct (Hs (s + Z.of_nat n) ltac:(lia)) as (h & Eh).
  assert (Ex : getz l1 (s + Z.of_nat n) = Some (Some h)).
  { rewrite G1. replace ((t <=? s + Z.of_nat n) && (s + Z.of_nat n <? t + Z.of_nat n)) with false by lia.
    replace ((s <=? s + Z.of_nat n) && (s + Z.of_nat n <? s + Z.of_nat n)) with false by lia. assumption. }
  rewrite Ex. replace (s + Z.of_nat n + (t - s)) with (t + Z.of_nat n) by lia.
  assert (Ey : getz l1 (t + Z.of_nat n) = Some None).
  { rewrite G1. replace ((t <=? t + Z.of_nat n) && (t + Z.of_nat n <? t + Z.of_nat n)) with false by lia.
    destruct (Z.lt_ge_cases (t + Z.of_nat n) s).
    - replace ((s <=? t + Z.of_nat n) && (t + Z.of_nat n <? s + Z.of_nat n)) with false by lia. apply Hf; lia.
    - now replace ((s <=? t + Z.of_nat n) && (t + Z.of_nat n <? s + Z.of_nat n)) with true by lia. }
  rewrite Ey.
  destruct (setz_Some l1 (t + Z.of_nat n) (Some h)) as (l2 & E2); [lia|]. rewrite E2.
  pose proof (setz_len _ _ _ _ E2) as L2.
  destruct (setz_Some l2 (s + Z.of_nat n) None) as (l3 & E3); [lia|]. rewrite E3.
  pose proof (setz_len _ _ _ _ E3) as L3.
  exists l3. split; [reflexivity|]. split; [lia|]. intros j.
  destruct (Z.eq_dec j (s + Z.of_nat n)) as [->|Hn1].
  - rewrite (getz_setz_eq _ _ _ _ E3).
    replace ((t <=? s + Z.of_nat n) && (s + Z.of_nat n <? t + Z.of_nat (S n))) with false by lia.
    now replace ((s <=? s + Z.of_nat n) && (s + Z.of_nat n <? s + Z.of_nat (S n))) with true by lia.
  - rewrite (getz_setz_neq _ _ _ _ _ E3 Hn1). destruct (Z.eq_dec j (t + Z.of_nat n)) as [->|Hn2].
    + rewrite (getz_setz_eq _ _ _ _ E2).
      replace ((t <=? t + Z.of_nat n) && (t + Z.of_nat n <? t + Z.of_nat (S n))) with true by lia.
      rewrite <- Eh. f_equal. lia.
    + rewrite (getz_setz_neq _ _ _ _ _ E2 Hn2), G1.
      replace ((t <=? j) && (j <? t + Z.of_nat (S n))) with ((t <=? j) && (j <? t + Z.of_nat n)) by lia.
      now replace ((s <=? j) && (j <? s + Z.of_nat (S n))) with ((s <=? j) && (j <? s + Z.of_nat n)) by lia.
Qed.

(** ** Re-initialising the motivators of a moved range *)
Definition remap (m : nat -> option (nat * Z)) (pid : nat) (fs stop diff : Z) (h : nat) : option (nat * Z) :=
  match m h with
  | Some (q, i) => if Nat.eqb q pid && (fs <=? i) && (i <? stop) then Some (q, i + diff) else Some (q, i)
  | None => None
  end.

Lemma reinit_ok m pid p diff : forall U A T fs fuel mc, PInv m pid p (A ++ U ++ T) -> allused U ->
  (length U <= fuel)%nat -> fs <= bsz A -> (forall h, mc h = remap m pid fs (bsz A) diff h) ->
  exists m', reinit_loop fuel mc pid p (bsz A) (bsz A + bsz U) diff = Some m' /\
    forall h, m' h = remap m pid fs (bsz A + bsz U) diff h.
Proof.
  induction U as [|[v c] U IH]; intros A T fs fuel mc I HU Hfuel Hfs Hmc.
  - exists mc. rewrite bsz_nil, Z.add_0_r. split; [|assumption].
    destruct fuel; simpl; now rewrite Z.ltb_irrefl.
  - inversion HU as [|? ? Hv HU']; subst. simpl in Hv. subst v.
    assert (Hic : In (bsz A, c) (ublocks 0 (A ++ ((true, c) :: U) ++ T))).
    { rewrite ublocks_app. simpl. apply in_elt. }
    pose proof (block_range _ _ _ _ _ _ I Hic) as (R1 & R2 & R3 & R4).
    destruct fuel as [|fuel]; [simpl in Hfuel; lia|]. cbn [reinit_loop].
    rewrite bsz_cons. cbn [snd]. pose proof (bsz_nonneg U).
    replace (bsz A <? bsz A + (len c + bsz U)) with true by lia.
    destruct (used_handle _ _ _ _ _ _ (bsz A) I Hic ltac:(lia)) as (h0 & Hh0 & G0).
    rewrite G0, R4.
    replace (bsz A + len c) with (bsz (A ++ [(true, c)])) by (rewrite bsz_app, bsz_single; reflexivity).
    replace (bsz A + (len c + bsz U)) with (bsz (A ++ [(true, c)]) + bsz U)
      by (rewrite bsz_app, bsz_single; lia).
    apply (IH (A ++ [(true, c)]) T).
    + rewrite <- app_assoc. exact I.
    + assumption.
    + simpl in Hfuel. lia.
    + rewrite bsz_app, bsz_single. lia.
    + intros h. rewrite bsz_app, bsz_single. unfold upd. destruct (Nat.eqb_spec h h0) as [->|Hne].
      * unfold remap. rewrite Hh0, Nat.eqb_refl.
        now replace (true && (fs <=? bsz A) && (bsz A <? bsz A + len c)) with true by lia.
      * rewrite Hmc. unfold remap. destruct (m h) as [[q i]|] eqn:Em; [|reflexivity].
        destruct (Nat.eqb_spec q pid) as [->|]; [|reflexivity]. simpl andb.
        replace ((fs <=? i) && (i <? bsz A + len c)) with ((fs <=? i) && (i <? bsz A)); [reflexivity|].
        destruct (Z.lt_ge_cases i (bsz A)); [lia|].
        destruct (Z.lt_ge_cases i (bsz A + len c)); [|lia]. exfalso. apply Hne.
        destruct (pi_mot _ _ _ _ I _ _ Em) as (c0 & Hc0 & _).
        pose proof (block_range _ _ _ _ _ _ I Hc0).
        assert (E : (i, c0) = (bsz A, c)).
        { eapply ublock_unique with (j := i); try eassumption; try lia. apply (rep_ok _ _ _ (pi_rep _ _ _ _ I)). }
        injection E as -> ->. exact (mot_inj _ _ _ _ _ _ _ I Em Hh0).
Qed.

(** ** What a sequence of moves preserves *)
Record Carried (m m' : nat -> option (nat * Z)) (pid : nat) p p' bs bs' : Prop := {
  ca_other : forall h q i, q <> pid -> (m' h = Some (q, i) <-> m h = Some (q, i));
  ca_none : forall h, m h = None -> m' h = None;
  ca_same : forall h i c, m h = Some (pid, i) -> In (i, c) (ublocks 0 bs) ->
      exists i', m' h = Some (pid, i') /\ In (i', c) (ublocks 0 bs') /\
        slice (p_cells p') i' (len c) = slice (p_cells p) i (len c) }.

Lemma Carried_refl m pid p p' bs bs' : p_cells p' = p_cells p -> ublocks 0 bs' = ublocks 0 bs ->
  Carried m m pid p p' bs bs'.
Proof.
  intros Ec Eb. constructor; try tauto.
  intros h i c Hh Hc. exists i. rewrite Eb, Ec. auto.
Qed.

Lemma Carried_trans m1 m2 m3 pid p1 p2 p3 b1 b2 b3 :
  Carried m1 m2 pid p1 p2 b1 b2 -> Carried m2 m3 pid p2 p3 b2 b3 -> Carried m1 m3 pid p1 p3 b1 b3.
Proof.
  intros A B. constructor.
  - intros h q i Hq. rewrite (ca_other _ _ _ _ _ _ _ B) by assumption. now apply A.
  - intros h Hh. apply B, A, Hh.
  - intros h i c Hh Hc. destruct (ca_same _ _ _ _ _ _ _ A h i c Hh Hc) as (i2 & H2 & I2 & S2).
    destruct (ca_same _ _ _ _ _ _ _ B h i2 c H2 I2) as (i3 & H3 & I3 & S3).
    exists i3. rewrite S3, S2. auto.
Qed.

Lemma noblock_in_hole (P0 : list (bool * list unit)) h R i c j : okb (P0 ++ (false, h) :: R) ->
  In (i, c) (ublocks 0 (P0 ++ (false, h) :: R)) -> i <= j < i + len c -> ~ (bsz P0 <= j < bsz P0 + len h).
Proof.
  intros Ok Hin Hj Hj'. apply okb_app in Ok as [Ok1 Ok2]. apply okb_cons in Ok2 as [_ Ok2].
  rewrite ublocks_app in Hin. apply in_app_iff in Hin. simpl in Hin.
  destruct Hin as [H|H]; apply ublocks_range in H; auto; simpl in H; lia.
Qed.

Lemma block_vs_range (A U T : list (bool * list unit)) i c : okb (A ++ U ++ T) -> In (i, c) (ublocks 0 (A ++ U ++ T)) ->
  i + len c <= bsz A \/ bsz A + bsz U <= i \/ (bsz A <= i /\ i + len c <= bsz A + bsz U).
Proof.
  intros Ok Hin. apply okb_app in Ok as [Ok1 Ok2]. apply okb_app in Ok2 as [Ok2 Ok3].
  rewrite !ublocks_app, !in_app_iff in Hin.
  destruct Hin as [H|[H|H]]; apply ublocks_range in H; auto; simpl in H; lia.
Qed.

Lemma range_covered (A U T : list (bool * list unit)) j : allused U -> bsz A <= j < bsz A + bsz U ->
  exists i c, In (i, c) (ublocks 0 (A ++ U ++ T)) /\ i <= j < i + len c.
Proof.
  intros HU Hj. rewrite !ublocks_app.
  assert (G : forall off, off <= j < off + bsz U -> exists i c, In (i, c) (ublocks off U) /\ i <= j < i + len c).
  { clear -HU. induction U as [|[v c] U IH]; intros off Hj.
    - rewrite bsz_nil in Hj. lia.
    - inversion HU as [|? ? Hv HU']; subst. simpl in Hv. subst v. rewrite bsz_cons in Hj. simpl in Hj.
      destruct (Z.lt_ge_cases j (off + len c)).
      + exists off, c. split; [now left|lia].
      + destruct (IH HU' (off + len c) ltac:(lia)) as (i & c' & H' & J). exists i, c'. split; [now right|assumption]. }
  destruct (G (0 + bsz A) ltac:(lia)) as (i & c & H & J). exists i, c. split; [|assumption].
  rewrite !in_app_iff. auto.
Qed.

Lemma move_event_ok k m pid p bs P0 h M U T s2 bs2 :
  PInv m pid p bs -> bs = P0 ++ (false, h) :: M ++ U ++ T -> allused U -> (M = [] \/ bsz U <= len h) ->
  let fs := bsz P0 + len h + bsz M in
  let e := EvMove fs (fs + bsz U) (bsz P0) in
  Rep s2 (data bs2) bs2 -> Permutation (map (mv e) (ublocks 0 bs)) (ublocks 0 bs2) -> bsz bs2 = bsz bs ->
  exists m' p', move_index_range_base dflt k m pid p fs (fs + bsz U) (bsz P0) = Some (m', p') /\
    PInv m' pid (with_alloc p' s2) bs2 /\ Carried m m' pid p (with_alloc p' s2) bs bs2.
Proof.
  intros I Ebs HU HMU fs e Rp2 Pm Hsz.
  pose proof (rep_ok _ _ _ (pi_rep _ _ _ _ I)) as Ok.
  set (A := P0 ++ (false, h) :: M).
  assert (EA : bs = A ++ U ++ T) by (unfold A; rewrite <- app_assoc; exact Ebs).
  assert (EbA : bsz A = fs) by (unfold A, fs; rewrite bsz_app, bsz_cons; simpl; lia).
  assert (Hh : 0 < len h).
  { rewrite Ebs in Ok. apply okb_app in Ok as [_ Ok]. apply okb_cons in Ok as [Hh _]. now apply len_pos. }
  pose proof (bsz_nonneg P0). pose proof (bsz_nonneg M). pose proof (bsz_nonneg U). pose proof (bsz_nonneg T).
  assert (Etot : bsz bs = fs + bsz U + bsz T) by (rewrite EA, !bsz_app, EbA; lia).
  assert (Hlt : bsz P0 < fs) by (unfold fs; lia).
  assert (HUlen : len U <= bsz U).
  { apply okb_len. rewrite EA in Ok. apply okb_app in Ok as [_ Ok]. apply okb_app in Ok as [Ok _]. exact Ok. }
  (* target positions below the source are in the hole *)
  assert (Hhole : forall j, bsz P0 <= j < bsz P0 + bsz U -> j < fs -> bsz P0 <= j < bsz P0 + len h).
  { intros j Hj Hjf. destruct HMU as [->|HMU]; [|lia]. unfold fs in Hjf. rewrite bsz_nil in Hjf. lia. }
  assert (Hfree : forall i c j, In (i, c) (ublocks 0 bs) -> i <= j < i + len c -> bsz P0 <= j < bsz P0 + bsz U -> fs <= j).
  { intros i c j Hin Hj Ht. destruct (Z.lt_ge_cases j fs) as [Hjf|]; [|assumption]. exfalso.
    rewrite Ebs in Hin, Ok. eapply noblock_in_hole; eauto. }
  unfold move_index_range_base. replace (fs + bsz U - fs) with (bsz U) by lia.
  (* motivators *)
  destruct (reinit_ok m pid p (bsz P0 - fs) U A T fs (Z.to_nat (bsz U)) m) as (m' & Em & Hm').
  { now rewrite <- EA. } { assumption. } { unfold len in HUlen. lia. } { lia. }
  { intros h0. unfold remap. destruct (m h0) as [[q i]|]; [|reflexivity]. rewrite EbA.
    now replace (Nat.eqb q pid && (fs <=? i) && (i <? fs)) with false by lia. }
  rewrite EbA in Em, Hm'. rewrite Em.
  (* cells *)
  destruct (move_indices_ok k (p_cells p) (bsz P0) fs (bsz U)) as (cells & Ec & Lc & Tc & Oc); try lia.
  { rewrite (pi_cells _ _ _ _ I). lia. }
  rewrite Ec.
  (* back pointers *)
  destruct (move_bp_ok (p_bp p) (bsz P0) fs (Z.to_nat (bsz U))) as (bp & Eb & Lb & Gb); try lia.
  { rewrite (pi_bp _ _ _ _ I). lia. }
  { intros j Hj. destruct (range_covered A U T j HU ltac:(lia)) as (i & c & Hin & Hij). rewrite <- EA in Hin.
    destruct (used_handle _ _ _ _ _ _ j I Hin Hij) as (h0 & _ & G). eauto. }
  { intros j Hj Hjf. apply (pi_free _ _ _ _ I); [lia|]. intros i c Hin Hij.
    pose proof (Hfree i c j Hin Hij ltac:(lia)). lia. }
  rewrite Eb. rewrite Z2Nat.id in Gb by lia.
  eexists m', _. split; [reflexivity|].
  (* starts of moved blocks *)
  assert (Hvs : forall i c, In (i, c) (ublocks 0 bs) -> 0 < len c /\ 0 <= i /\ i + len c <= bsz bs /\
     (i + len c <= fs \/ fs + bsz U <= i \/ (fs <= i /\ i + len c <= fs + bsz U))).
  { intros i c Hin. pose proof (block_range _ _ _ _ _ _ I Hin).
    split; [lia|split; [lia|split; [lia|]]]. rewrite EA in Hin, Ok. rewrite <- EbA. exact (block_vs_range A U T i c Ok Hin). }
  assert (Hm2 : forall h0 i c, m h0 = Some (pid, i) -> In (i, c) (ublocks 0 bs) ->
     m' h0 = Some (pid, move_start e i) /\ In (move_start e i, c) (ublocks 0 bs2)).
  { intros h0 i c Hh0 Hin. split.
    - rewrite Hm'. unfold remap. rewrite Hh0, Nat.eqb_refl. unfold e, move_start. simpl andb.
      destruct ((fs <=? i) && (i <? fs + bsz U)); [|reflexivity]. do 2 f_equal. lia.
    - eapply Permutation_in; [exact Pm|]. apply in_map_iff. now exists (i, c). }
  assert (Hback : forall i' c, In (i', c) (ublocks 0 bs2) -> exists i, i' = move_start e i /\ In (i, c) (ublocks 0 bs)).
  { intros i' c Hin. apply (Permutation_in _ (Permutation_sym Pm)) in Hin.
    apply in_map_iff in Hin as ([i c1] & E & Hin). unfold mv in E. cbn [fst snd] in E. injection E as E <-. exists i. split; [symmetry; exact E|exact Hin]. }
  (* contents *)
  assert (Hcont : forall i c j, In (i, c) (ublocks 0 bs) -> 0 <= j < len c ->
     getz bp (move_start e i + j) = getz (p_bp p) (i + j) /\ getz cells (move_start e i + j) = getz (p_cells p) (i + j)).
  { intros i c j Hin Hj. destruct (Hvs i c Hin) as (V1 & V2 & V3 & V4).
    assert (Dec : (fs <= i < fs + bsz U) \/ ~ (fs <= i < fs + bsz U)) by lia.
    unfold e, move_start. destruct Dec as [Hi|Hi].
    - replace ((fs <=? i) && (i <? fs + bsz U)) with true by lia. split.
      + rewrite Gb. replace ((bsz P0 <=? i - fs + bsz P0 + j) && (i - fs + bsz P0 + j <? bsz P0 + bsz U)) with true by lia.
        f_equal. lia.
      + rewrite Tc by lia. f_equal. lia.
    - replace ((fs <=? i) && (i <? fs + bsz U)) with false by lia.
      assert (Hnt : ~ (bsz P0 <= i + j < bsz P0 + bsz U)).
      { intros Ht. pose proof (Hfree i c (i + j) Hin ltac:(lia) Ht). lia. }
      split.
      + rewrite Gb. replace ((bsz P0 <=? i + j) && (i + j <? bsz P0 + bsz U)) with false by lia.
        now replace ((fs <=? i + j) && (i + j <? fs + bsz U)) with false by lia.
      + apply Oc; lia. }
  split.
  - constructor; cbn [p_alloc p_bp p_cells with_alloc].
    + exact Rp2.
    + rewrite Lb, Hsz. apply I.
    + rewrite Lc, Hsz. apply I.
    + intros i' c Hin. destruct (Hback _ _ Hin) as (i & -> & Hin0).
      destruct (pi_used _ _ _ _ I _ _ Hin0) as (h0 & Hh0). exists h0. now apply (Hm2 h0 i c).
    + intros h0 i' Hh0. rewrite Hm' in Hh0. unfold remap in Hh0.
      destruct (m h0) as [[q i]|] eqn:Emh; [|discriminate].
      assert (q = pid) as ->. { destruct (_ && _) in Hh0; congruence. }
      destruct (pi_mot _ _ _ _ I _ _ Emh) as (c & Hc & G).
      destruct (Hm2 _ _ _ Emh Hc) as (K1 & K2).
      assert (Ei : i' = move_start e i).
      { rewrite Hm' in K1. unfold remap in K1. rewrite Emh in K1. congruence. }
      subst i'. exists c. split; [assumption|]. intros j Hj.
      destruct (Hcont i c (j - move_start e i) Hc ltac:(lia)) as (Hb & _).
      replace (move_start e i + (j - move_start e i)) with j in Hb by lia. rewrite Hb. apply G. lia.
    + intros j Hj Hno. rewrite Gb.
      destruct ((bsz P0 <=? j) && (j <? bsz P0 + bsz U)) eqn:E1.
      * exfalso. destruct (range_covered A U T (j - bsz P0 + fs) HU ltac:(lia)) as (i & c & Hin & Hij).
        rewrite <- EA in Hin. destruct (Hvs i c Hin) as (V1 & V2 & V3 & V4).
        destruct (pi_used _ _ _ _ I _ _ Hin) as (h0 & Hh0). destruct (Hm2 _ _ _ Hh0 Hin) as (_ & Hin2).
        apply (Hno _ _ Hin2). unfold e, move_start.
        replace ((fs <=? i) && (i <? fs + bsz U)) with true by lia. lia.
      * destruct ((fs <=? j) && (j <? fs + bsz U)) eqn:E2; [reflexivity|].
        apply (pi_free _ _ _ _ I); [lia|]. intros i c Hin Hij.
        destruct (Hvs i c Hin) as (V1 & V2 & V3 & V4).
        destruct (pi_used _ _ _ _ I _ _ Hin) as (h0 & Hh0). destruct (Hm2 _ _ _ Hh0 Hin) as (_ & Hin2).
        apply (Hno _ _ Hin2). unfold e, move_start.
        replace ((fs <=? i) && (i <? fs + bsz U)) with false by lia. lia.
  - constructor; cbn [p_cells with_alloc].
    + intros h0 q i Hq. rewrite Hm'. unfold remap. destruct (m h0) as [[q' i']|] eqn:Emh; [|tauto].
      destruct (Nat.eqb_spec q' pid) as [->|Hne]; simpl andb; [|tauto].
      destruct (_ && _); split; intros E; injection E; congruence.
    + intros h0 Hh0. rewrite Hm'. unfold remap. now rewrite Hh0.
    + intros h0 i c Hh0 Hin. destruct (Hm2 _ _ _ Hh0 Hin) as (K1 & K2). exists (move_start e i).
      split; [assumption|]. split; [assumption|].
      destruct (Hvs i c Hin) as (V1 & V2 & V3 & V4).
      pose proof (ublocks_range _ _ _ (rep_ok _ _ _ Rp2) K2) as (W1 & W2 & _). cbn [fst snd] in W1, W2.
      apply slice_ext; try lia; rewrite ?Lc, ?(pi_cells _ _ _ _ I); try lia.
      intros kk Hkk. now apply (Hcont i c).
Qed.

(** ** Defragment *)
Lemma PInv_realloc m pid p bs a bs1 : PInv m pid p bs -> Rep a (data bs1) bs1 ->
  ublocks 0 bs1 = ublocks 0 bs -> bsz bs1 = bsz bs -> PInv m pid (with_alloc p a) bs1.
Proof.
  intros I Rp Eu Es. constructor; cbn [p_alloc p_bp p_cells with_alloc]; try rewrite Es; try apply I; auto.
  - intros i c. rewrite Eu. apply I.
  - intros h i H. rewrite Eu. now apply I.
  - intros j Hj. rewrite Eu. now apply I.
Qed.

Lemma replay_move_len {E} (d : E) arr arr' s e t : replay_event d arr (EvMove s e t) = Some arr' -> len arr' = len arr.
Proof.
  simpl. destruct (t <? s); [|discriminate]. unfold memmove.
  destruct ((0 <=? t) && (0 <=? s) && (0 <=? e - s) && (t + (e - s) <=? len arr) && (s + (e - s) <=? len arr)) eqn:B; [|discriminate].
  intros E'. injection E' as <-. unfold len in *. rewrite !app_length, !firstn_length, !skipn_length. lia.
Qed.

Lemma p_defrag_loop_ok k pid : forall fuel m p bs, PInv m pid p bs -> fstarts 0 bs <> [] ->
  msum (ublocks 0 bs) < Z.of_nat fuel ->
  exists m' p' P h, p_defrag_loop dflt fuel k m pid p = Some (m', p') /\
    PInv m' pid p' (P ++ [(false, h)]) /\ unused (p_alloc p') = [bsz P] /\ allused P /\
    Carried m m' pid p p' bs (P ++ [(false, h)]).
Proof.
  induction fuel as [|fuel IH]; intros m p bs I Hf Hm.
  { exfalso. assert (0 <= msum (ublocks 0 bs)); [|lia].
    assert (Hg : forall off (bs0 : list (bool * list unit)), 0 <= off -> 0 <= msum (ublocks off bs0)); [|now apply Hg].
    clear. intros off bs; revert off; induction bs as [|b bs IH]; intros off H; simpl; [lia|].
    pose proof (len_nonneg (snd b)). specialize (IH (off + len (snd b)) ltac:(lia)).
    destruct (fst b); simpl; lia. }
  cbn [p_defrag_loop].
  destruct (consolidate_rep _ _ _ (pi_rep _ _ _ _ I)) as (s1 & bs1 & Ec & Rp1 & Hu & Hub & Hna & Hne).
  rewrite Ec. specialize (Hne Hf).
  pose proof (rep_data _ _ _ Rp1) as Ed. rewrite Ed in Rp1.
  assert (Es1 : bsz bs1 = bsz bs) by (unfold bsz; now rewrite Ed).
  pose proof (PInv_realloc _ _ _ _ _ _ I Rp1 Hub Es1) as I1.
  assert (C1 : Carried m m pid p (with_alloc p s1) bs bs1) by (apply Carried_refl; auto).
  destruct (split_first_free bs1 Hne) as (P & h & R & E1 & HP).
  assert (Eu : unused s1 = bsz P :: fstarts (bsz P + len h) R).
  { rewrite Hu, E1, fstarts_app, (fstarts_allused _ _ HP). reflexivity. }
  assert (Hh : h <> []).
  { pose proof (rep_ok _ _ _ Rp1) as Ok. rewrite E1, okb_app, okb_cons in Ok. apply Ok. }
  assert (En : next_index (counts s1) (bsz P) = Some (bsz P + len h)).
  { rewrite (rep_counts _ _ _ Rp1), E1. now apply next_index_layout. }
  assert (Etot : num_indices s1 = bsz P + len h + bsz R).
  { unfold num_indices. rewrite (rep_counts _ _ _ Rp1), layout_len, E1, bsz_app, bsz_cons. simpl; lia. }
  destruct R as [|r R].
  - rewrite Eu. cbn [fstarts]. rewrite En, Etot.
    replace (bsz P + len h =? bsz P + len h + bsz []) with true by (rewrite bsz_nil; lia).
    exists m, (with_alloc p s1), P, h. rewrite E1 in *. repeat (split; [solve [auto]|]). assumption.
  - assert (At : (match unused s1 with
                 | [u] => n <- next_index (counts s1) u ;; Some (n =? num_indices s1)
                 | _ => Some false
                 end) = Some false).
    { rewrite Eu. destruct (fstarts _ (r :: R)); [|reflexivity]. rewrite En, Etot.
      f_equal. pose proof (rep_ok _ _ _ Rp1) as Ok. rewrite E1, okb_app, okb_cons in Ok.
      assert (0 < bsz (r :: R)) by (apply okb_pos; [apply Ok|discriminate]). lia. }
    rewrite At.
    destruct (backfill_rep tt s1 _ bs1 P h (r :: R) Rp1 Hu Hna E1 HP ltac:(discriminate))
      as (s2 & e & arr2 & bs2 & Eb & Er & Rp2 & Pm & Hms & Hf2 & M & U & T & ER & HU & _ & Ee & HMU).
    rewrite Eb. cbn [fst snd].
    pose proof (rep_data _ _ _ Rp2) as Ed2. subst arr2.
    rewrite Ee in Er. apply replay_move_len in Er.
    rewrite ER in E1. rewrite Ee in Pm.
    destruct (move_event_ok k m pid (with_alloc p s1) bs1 P h M U T s2 bs2 I1 E1 HU HMU Rp2 Pm Er)
      as (m2 & p2 & Emv & I2 & C2).
    rewrite Ee. rewrite Emv. cbn [fst snd].
    destruct (IH m2 (with_alloc p2 s2) bs2 I2 Hf2) as (m' & p' & P' & h' & El & I' & Hu' & HP' & C').
    { rewrite Hub in Hms. lia. }
    exists m', p', P', h'. rewrite El. repeat (split; [solve [auto]|]).
    eapply Carried_trans; [exact C1|]. eapply Carried_trans; [exact C2|exact C'].
Qed.

Lemma p_defragment_ok k m pid p bs : PInv m pid p bs ->
  exists m' p' bs', p_defragment dflt k m pid p = Some (m', p') /\ PInv m' pid p' bs' /\ allused bs' /\
    Carried m m' pid p p' bs bs'.
Proof.
  intros I. pose proof (pi_rep _ _ _ _ I) as Rp. unfold p_defragment.
  destruct (unused (p_alloc p)) as [|u us] eqn:Eu.
  { exists m, p, bs. split; [reflexivity|]. split; [assumption|].
    split; [eapply all_used_unused; eauto|]. now apply Carried_refl. }
  pose proof (rep_unused _ _ _ Rp) as Pm.
  assert (Hf : fstarts 0 bs <> []).
  { intros E. rewrite E, Eu in Pm. symmetry in Pm. now apply Permutation_nil in Pm. }
  destruct (p_defrag_loop_ok k pid (S (length (counts (p_alloc p)) * length (counts (p_alloc p)))) m p bs I Hf)
    as (m' & p' & P & h & El & I' & Hu' & HP & C).
  { pose proof (msum_bound 0 bs (rep_ok _ _ _ Rp) ltac:(lia)).
    assert (bsz bs = Z.of_nat (length (counts (p_alloc p)))).
    { rewrite (rep_counts _ _ _ Rp). symmetry. apply layout_len. }
    nia. }
  rewrite El, Hu'. replace (getz [bsz P] 0) with (Some (bsz P)) by reflexivity.
  pose proof (pi_rep _ _ _ _ I') as Rp'. pose proof (bsz_nonneg P) as HP0.
  assert (Ec : fst (set_num_indices (counts (p_alloc p')) (bsz P)) = layout P).
  { unfold set_num_indices. cbn [fst]. rewrite (rep_counts _ _ _ Rp'), layout_app. apply resize_shrink. symmetry; apply layout_len. }
  rewrite Ec.
  assert (Eub : ublocks 0 P = ublocks 0 (P ++ [(false, h)])) by (rewrite ublocks_app; simpl; now rewrite app_nil_r).
  assert (OkP : okb P). { pose proof (rep_ok _ _ _ Rp') as Ok. rewrite okb_app in Ok. apply Ok. }
  assert (Esz : bsz (P ++ [(false, h)]) = bsz P + len h) by (rewrite bsz_app, bsz_single; reflexivity).
  pose proof (len_nonneg h) as Hh.
  pose proof (pi_bp _ _ _ _ I') as Lbp. pose proof (pi_cells _ _ _ _ I') as Lce.
  assert (Gr : forall {A} (l : list A) d j, len l = bsz P + len h -> j < bsz P -> getz (resize l (bsz P) d) j = getz l j).
  { intros A l d j Hl Hj. rewrite getz_resize by lia. destruct (Z.ltb_spec j 0).
    - replace ((0 <=? j) && (j <? bsz P)) with false by lia. symmetry. apply getz_None. lia.
    - replace ((0 <=? j) && (j <? bsz P)) with true by lia. now replace (j <? len l) with true by lia. }
  eexists m', _, P. split; [reflexivity|]. split; [|split; [assumption|]].
  - constructor; cbn [p_alloc p_bp p_cells with_alloc set_num_indices_base].
    + constructor; cbn [counts unused]; auto. now rewrite (fstarts_allused _ _ HP).
    + rewrite len_resize by lia. reflexivity.
    + rewrite len_resize by lia. reflexivity.
    + intros i c. rewrite Eub. apply I'.
    + intros h0 i Hh0. destruct (pi_mot _ _ _ _ I' _ _ Hh0) as (c & Hc & G). exists c.
      rewrite Eub. split; [assumption|]. intros j Hj. rewrite <- Eub in Hc.
      pose proof (ublocks_range _ _ _ OkP Hc) as (V1 & V2 & _). cbn [fst snd] in V1, V2.
      rewrite Gr by lia. now apply G.
    + intros j Hj Hno. rewrite Gr by lia. apply I'; [lia|]. intros i c. rewrite <- Eub. apply Hno.
  - eapply Carried_trans; [exact C|]. constructor; try tauto. intros h0 i c Hh0 Hc. exists i.
    split; [assumption|]. rewrite <- Eub in Hc. split; [assumption|].
    cbn [p_cells with_alloc set_num_indices_base].
    pose proof (ublocks_range _ _ _ OkP Hc) as (V1 & V2 & V3). cbn [fst snd] in V1, V2. pose proof (len_nonneg c).
    apply slice_ext; try lia; rewrite ?len_resize by lia; try lia. intros kk Hkk. apply Gr; lia.
Qed.

Lemma slice_map {A B} (f : A -> B) l i n : slice (map f l) i n = map f (slice l i n).
Proof. unfold slice. now rewrite skipn_map, firstn_map. Qed.

(** ** Destruction *)
Definition cnt (c : list Z) (u : Z) : Z := match count_for_index c u with Some k => k | None => 0 end.
Lemma num_unused_ok c l acc : Forall (fun u => count_for_index c u <> None) l ->
  num_unused_loop c l acc = Some (acc + fold_right (fun u a => cnt c u + a) 0 l).
Proof.
  intros H. revert acc. induction H as [|u l Hu Hl IH]; intros acc; simpl; [f_equal; lia|].
  unfold cnt at 1. destruct (count_for_index c u) as [k|]; [|congruence]. rewrite IH. f_equal. lia.
Qed.
Lemma cnt_perm c l l' : Permutation l l' -> fold_right (fun u a => cnt c u + a) 0 l = fold_right (fun u a => cnt c u + a) 0 l'.
Proof. induction 1; simpl; lia. Qed.

Lemma empty_ok a bs : Rep a (data bs) bs -> allfree bs -> alloc_empty a = Some true.
Proof.
  intros Rp Hf. unfold alloc_empty, num_unused_indices.
  rewrite num_unused_ok.
  - rewrite (cnt_perm _ _ _ (rep_unused _ _ _ Rp)). unfold num_indices. rewrite (rep_counts _ _ _ Rp), layout_len.
    assert (G : forall Q A : list (bool * list unit), allfree Q -> okb Q ->
       fold_right (fun u a => cnt (layout (A ++ Q)) u + a) 0 (fstarts (bsz A) Q) = bsz Q).
    { clear. induction Q as [|[v c] Q IH]; intros A HQ Ok; [reflexivity|].
      inversion HQ as [|? ? Hv HQ']; subst. simpl in Hv. subst v. apply okb_cons in Ok as [Hc Ok].
      cbn [fstarts fst snd fold_right]. unfold cnt at 1. rewrite count_for_index_layout by exact Hc. cbn [snd].
      specialize (IH (A ++ [(false, c)]) HQ' Ok). rewrite <- app_assoc in IH.
      rewrite bsz_app, bsz_single in IH. cbn [app] in IH. rewrite IH, bsz_cons. reflexivity. }
    specialize (G bs [] Hf (rep_ok _ _ _ Rp)). cbn [app] in G. replace (bsz (@nil (bool * list unit))) with 0 in G by reflexivity. rewrite G. f_equal. lia.
  - apply Forall_forall. intros u Hu. destruct (rep_count_free _ _ _ _ Rp Hu) as (P & b & Q & _ & _ & E & _). congruence.
Qed.

Definition dropped (m : nat -> option (nat * Z)) (pid h : nat) : option (nat * Z) :=
  match m h with Some (q, i) => if Nat.eqb q pid then None else Some (q, i) | None => None end.

Lemma destroy_loop_ok pid : forall Q A m p fuel, PInv m pid p (A ++ Q) -> allfree A -> (length Q <= fuel)%nat ->
  exists m' p' bs', destroy_loop fuel m p (bsz A) = Some (m', p') /\ PInv m' pid p' bs' /\ allfree bs' /\
    forall h, m' h = dropped m pid h.
Proof.
  induction Q as [|[v c] Q IH]; intros A m p fuel I HA Hfuel.
  - rewrite app_nil_r in I. exists m, p, A. split.
    { destruct fuel; cbn [destroy_loop]; rewrite (num_is _ _ _ _ I); now replace (bsz A <? bsz A) with false by lia. }
    split; [assumption|]. split; [assumption|]. intros h. unfold dropped.
    destruct (m h) as [[q i]|] eqn:E; [|reflexivity]. destruct (Nat.eqb_spec q pid) as [->|]; [|reflexivity].
    exfalso. destruct (pi_mot _ _ _ _ I _ _ E) as (c & Hc & _). rewrite (ublocks_allfree _ _ HA) in Hc. easy.
  - destruct fuel as [|fuel]; [simpl in Hfuel; lia|]. cbn [destroy_loop].
    rewrite (num_is _ _ _ _ I).
    pose proof (rep_ok _ _ _ (pi_rep _ _ _ _ I)) as Ok. pose proof Ok as Ok0.
    apply okb_app in Ok as [OkA OkQ]. apply okb_cons in OkQ as [Hc OkQ]. cbn [snd] in Hc. pose proof (len_pos _ Hc) as Hcp.
    pose proof (bsz_nonneg A). pose proof (bsz_nonneg Q).
    assert (Hlt : (bsz A <? bsz (A ++ (v, c) :: Q)) = true) by (rewrite bsz_app, bsz_cons; cbn [snd]; lia).
    rewrite Hlt.
    assert (Step : forall m1 p1, PInv m1 pid p1 (A ++ (false, c) :: Q) -> (forall h, dropped m1 pid h = dropped m pid h) ->
      exists m' p' bs', (n <- dimensions p1 (bsz A) ;; destroy_loop fuel m1 p1 (bsz A + n)) = Some (m', p') /\
        PInv m' pid p' bs' /\ allfree bs' /\ forall h, m' h = dropped m pid h).
    { intros m1 p1 I1 Hm1. unfold dimensions. rewrite (rep_counts _ _ _ (pi_rep _ _ _ _ I1)), count_for_index_layout by exact Hc.
      cbn [snd]. replace (bsz A + len c) with (bsz (A ++ [(false, c)])) by (rewrite bsz_app, bsz_single; reflexivity).
      destruct (IH (A ++ [(false, c)]) m1 p1 fuel) as (m' & p' & bs' & E & I' & F' & G').
      { rewrite <- app_assoc. exact I1. }
      { apply Forall_app. split; [exact HA|repeat constructor]. }
      { simpl in Hfuel. lia. }
      exists m', p', bs'. split; [exact E|]. split; [exact I'|]. split; [exact F'|]. intros h. now rewrite G'. }
    destruct v.
    + assert (Hic : In (bsz A, c) (ublocks 0 (A ++ (true, c) :: Q))) by (rewrite ublocks_app; simpl; apply in_elt).
      destruct (used_handle _ _ _ _ _ _ (bsz A) I Hic ltac:(lia)) as (h0 & Hh0 & G0).
      rewrite G0. destruct (remove_wn_ok _ _ _ _ _ _ _ I Hh0) as (p1 & Er & I1 & _ & _). rewrite Er.
      apply Step; [exact I1|]. intros h. unfold dropped, upd. destruct (Nat.eqb_spec h h0) as [->|]; [|reflexivity].
      rewrite Hh0. now rewrite Nat.eqb_refl.
    + rewrite (pi_free _ _ _ _ I).
      * apply Step; [exact I|reflexivity].
      * rewrite bsz_app, bsz_cons. cbn [snd]. lia.
      * intros i c0 Hin Hj. eapply noblock_in_hole; eauto. lia.
Qed.

Lemma destroy_ok m pid p bs : PInv m pid p bs ->
  exists m', destroy_processor m p = Some m' /\ forall h, m' h = dropped m pid h.
Proof.
  intros I. unfold destroy_processor.
  destruct (destroy_loop_ok pid bs [] m p (length (counts (p_alloc p)))) as (m' & p' & bs' & E & I' & F & G).
  { exact I. } { constructor. }
  { pose proof (okb_len _ (rep_ok _ _ _ (pi_rep _ _ _ _ I))) as H. rewrite (rep_counts _ _ _ (pi_rep _ _ _ _ I)).
    pose proof (layout_len bs). unfold len in *. lia. }
  rewrite bsz_nil in E. rewrite E. rewrite (empty_ok _ _ (pi_rep _ _ _ _ I') F). eauto.
Qed.
End Move.
