(** All motivators and processors together: refinement of the table. *)
From Verif Require Import Base BaseFacts IndexAllocatorModel IndexAllocatorSpec
  IndexAllocatorProofs IndexAllocatorDefrag IndexAllocatorWorld IndexAllocatorLemmas
  ProcessorModel ProcessorSpec ProcessorProofs ProcessorMove.
From Coq Require Import Permutation.

Section Sys.
Context {D : Type} (dflt : D).
Implicit Types (p : proc D) (bs : list (bool * list unit)) (S : sys D) (t : @table D).

Record SInv S t : Prop := {
  si_proc : forall pid p, procs S pid = Some p -> exists bs, PInv (mots S) pid p bs;
  si_live : forall h pid i, mots S h = Some (pid, i) -> procs S pid <> None;
  si_view : forall h, view S h = t h }.

Lemma SInv_ext S t t' : SInv S t -> (forall h, t h = t' h) -> SInv S t'.
Proof. intros I E. constructor; try apply I. intros h. rewrite <- E. apply I. Qed.

Lemma same_block bs m pid p i c c' : PInv m pid p bs -> In (i, c) (ublocks 0 bs) -> In (i, c') (ublocks 0 bs) -> c = c'.
Proof.
  intros I H H'. pose proof (block_range _ _ _ _ _ _ I H). pose proof (block_range _ _ _ _ _ _ I H').
  assert (E : (i, c) = (i, c')); [|congruence].
  eapply ublock_unique with (j := i); try eassumption; try lia. apply (rep_ok _ _ _ (pi_rep _ _ _ _ I)).
Qed.

Lemma view_none S t h : SInv S t -> (t h = None <-> mots S h = None).
Proof.
  intros I. rewrite <- (si_view _ _ I). unfold view. destruct (mots S h) as [[pid i]|] eqn:E; [|tauto].
  split; [|discriminate]. intros V. exfalso. pose proof (si_live _ _ I _ _ _ E) as L.
  destruct (procs S pid) as [p|] eqn:Ep; [|congruence].
  destruct (si_proc _ _ I _ _ Ep) as (bs & P). destruct (pi_mot _ _ _ _ P _ _ E) as (c & Hc & _).
  pose proof (block_range _ _ _ _ _ _ P Hc) as (_ & _ & _ & R). rewrite R in V. discriminate.
Qed.

Lemma view_some S t h pid i p bs c : SInv S t -> mots S h = Some (pid, i) -> procs S pid = Some p ->
  PInv (mots S) pid p bs -> In (i, c) (ublocks 0 bs) -> t h = Some (pid, slice (p_cells p) i (len c)).
Proof.
  intros I Hm Hp P Hc. rewrite <- (si_view _ _ I). unfold view. rewrite Hm, Hp.
  pose proof (block_range _ _ _ _ _ _ P Hc) as (_ & _ & _ & R). now rewrite R.
Qed.

Lemma view_inv S t h pid l : SInv S t -> t h = Some (pid, l) -> exists i p bs c,
  mots S h = Some (pid, i) /\ procs S pid = Some p /\ PInv (mots S) pid p bs /\ In (i, c) (ublocks 0 bs) /\
  l = slice (p_cells p) i (len c) /\ len l = len c.
Proof.
  intros I Ht. destruct (mots S h) as [[q i]|] eqn:E.
  2:{ apply (view_none _ _ h I) in E. congruence. }
  destruct (procs S q) as [p|] eqn:Ep. 2:{ now apply (si_live _ _ I) in E. }
  destruct (si_proc _ _ I _ _ Ep) as (bs & P). destruct (pi_mot _ _ _ _ P _ _ E) as (c & Hc & _).
  rewrite (view_some _ _ _ _ _ _ _ _ I E Ep P Hc) in Ht. injection Ht as -> <-.
  exists i, p, bs, c. repeat (split; [solve [auto]|]).
  pose proof (block_range _ _ _ _ _ _ P Hc). rewrite slice_len; try lia. rewrite (pi_cells _ _ _ _ P). lia.
Qed.

(** Replacing one processor. *)
Lemma set_proc_inv S t m' pid p' bs' t' :
  SInv S t -> PInv m' pid p' bs' ->
  (forall h q i, q <> pid -> (m' h = Some (q, i) <-> mots S h = Some (q, i))) ->
  (forall h q i, q <> pid -> mots S h = Some (q, i) -> t' h = t h) ->
  (forall h, m' h = None -> t' h = None) ->
  (forall h i c, m' h = Some (pid, i) -> In (i, c) (ublocks 0 bs') -> t' h = Some (pid, slice (p_cells p') i (len c))) ->
  SInv (set_proc S m' pid p') t'.
Proof.
  intros I P' Ho Hto Htn Htp. constructor; unfold set_proc; cbn [mots procs].
  - intros q p. unfold upd. destruct (Nat.eqb_spec q pid) as [->|Hne].
    + intros E. injection E as <-. eauto.
    + intros E. destruct (si_proc _ _ I _ _ E) as (bs & P). exists bs. apply (PInv_ext _ _ _ _ _ P).
      intros h i. symmetry. now apply Ho.
  - intros h q i Hm. unfold upd. destruct (Nat.eqb_spec q pid); [discriminate|].
    apply (si_live _ _ I h q i). now apply Ho.
  - intros h. unfold view. cbn [mots procs]. destruct (m' h) as [[q i]|] eqn:E; [|now rewrite Htn].
    unfold upd. destruct (Nat.eqb_spec q pid) as [->|Hne].
    + destruct (pi_mot _ _ _ _ P' _ _ E) as (c & Hc & _). rewrite (Htp _ _ _ E Hc).
      pose proof (block_range _ _ _ _ _ _ P' Hc) as (_ & _ & _ & R). now rewrite R.
    + apply Ho in E; [|assumption]. rewrite (Hto _ _ _ Hne E), <- (si_view _ _ I). unfold view. now rewrite E.
Qed.

Lemma invalidate_ok S t h : SInv S t ->
  exists S', invalidate dflt S h = Some S' /\ SInv S' (upd t h None) /\ mots S' h = None /\
    forall pid i p, mots S h = Some (pid, i) -> procs S pid = Some p ->
      exists n p', dimensions p i = Some n /\ 0 < n /\ procs S' pid = Some p' /\ hole (p_alloc p') i n /\
        forall j, i <= j < i + n -> getz (p_bp p') j = Some None.
Proof.
  intros I. unfold invalidate. destruct (mots S h) as [[pid i]|] eqn:E.
  - destruct (procs S pid) as [p|] eqn:Ep. 2:{ now apply (si_live _ _ I) in E. }
    destruct (si_proc _ _ I _ _ Ep) as (bs & P).
    destruct (remove_ok dflt _ _ _ _ _ _ P E) as (p' & bs' & Er & P' & Hhole & Hk). rewrite Er. cbn [fst snd].
    eexists. split; [reflexivity|]. split; [|split].
    + apply (set_proc_inv S t _ _ _ bs'); auto.
      * intros h0 q j Hq. unfold upd. destruct (Nat.eqb_spec h0 h) as [->|]; [|tauto].
        split; [discriminate|]. rewrite E. congruence.
      * intros h0 q j Hq Hm. unfold upd. destruct (Nat.eqb_spec h0 h) as [->|]; [congruence|reflexivity].
      * intros h0. unfold upd. destruct (Nat.eqb_spec h0 h) as [->|]; [reflexivity|]. intros Hm. now apply (view_none _ _ _ I).
      * intros h0 i0 c0. unfold upd. destruct (Nat.eqb_spec h0 h) as [->|Hne]; [discriminate|]. intros Hm Hc.
        destruct (pi_mot _ _ _ _ P _ _ Hm) as (c & Hc0 & _). destruct (Hk _ _ _ Hne Hm Hc0) as (Hc' & Hs).
        rewrite (same_block _ _ _ _ _ _ _ P' Hc Hc'). rewrite Hs. eapply view_some; eauto.
    + unfold set_proc. cbn [mots]. unfold upd. now rewrite Nat.eqb_refl.
    + intros pid0 i0 p0 E0 Ep0. injection E0 as <- <-. rewrite Ep in Ep0. injection Ep0 as <-.
      destruct Hhole as (n & H1 & H2 & H3 & H4). exists n, p'. repeat (split; [solve [auto]|]).
      split; [|split; assumption]. unfold set_proc. cbn [procs]. unfold upd. now rewrite Nat.eqb_refl.
  - exists S. split; [reflexivity|]. split; [|split; [assumption|discriminate]].
    eapply SInv_ext; [exact I|]. intros h0. unfold upd. destruct (Nat.eqb_spec h0 h) as [->|]; [|reflexivity].
    now apply (view_none _ _ _ I).
Qed.

Lemma ensure_inv S t pid : SInv S t -> exists bs, PInv (mots S) pid (ensure S pid) bs.
Proof.
  intros I. unfold ensure. destruct (procs S pid) as [p|] eqn:Ep; [now apply (si_proc _ _ I)|].
  exists []. apply PInv_init. intros h i E. now apply (si_live _ _ I) in E.
Qed.

Lemma ensure_view S t h pid i bs c : SInv S t -> mots S h = Some (pid, i) ->
  PInv (mots S) pid (ensure S pid) bs -> In (i, c) (ublocks 0 bs) ->
  t h = Some (pid, slice (p_cells (ensure S pid)) i (len c)).
Proof.
  intros I Hm P Hc. unfold ensure in *. destruct (procs S pid) as [p|] eqn:Ep.
  - eapply view_some; eauto.
  - now apply (si_live _ _ I) in Hm.
Qed.

Lemma upd_same {A} (f : nat -> A) k v : upd f k v k = v.
Proof. unfold upd. now rewrite Nat.eqb_refl. Qed.
Lemma upd_diff {A} (f : nat -> A) k v x : x <> k -> upd f k v x = f x.
Proof. intros H. unfold upd. destruct (Nat.eqb_spec x k); congruence. Qed.

(** A freshly allocated motivator whose cells have been written. *)
Lemma fresh_inv S t pid h n i p1 bs bs' c cells l :
  SInv S t -> mots S h = None -> PInv (mots S) pid (ensure S pid) bs ->
  PInv (upd (mots S) h (Some (pid, i))) pid p1 bs' -> In (i, c) (ublocks 0 bs') -> len c = n ->
  (forall i0 c0, In (i0, c0) (ublocks 0 bs) -> In (i0, c0) (ublocks 0 bs') /\ (i0 + len c0 <= i \/ i + n <= i0)) ->
  (forall j, 0 <= j < bsz bs -> getz (p_cells p1) j = getz (p_cells (ensure S pid)) j) -> bsz bs <= bsz bs' ->
  len cells = len (p_cells p1) ->
  (forall j, ~ (i <= j < i + n) -> getz cells j = getz (p_cells p1) j) -> slice cells i n = l ->
  SInv (set_proc S (upd (mots S) h (Some (pid, i))) pid {| p_alloc := p_alloc p1; p_bp := p_bp p1; p_cells := cells |})
    (upd t h (Some (pid, l))).
Proof.
  intros I Hh P P1 Hc Lc Hold Hcells Hle Lcells Hout Hsl.
  assert (P' : PInv (upd (mots S) h (Some (pid, i))) pid {| p_alloc := p_alloc p1; p_bp := p_bp p1; p_cells := cells |} bs').
  { apply PInv_cells; [assumption|]. rewrite Lcells. apply P1. }
  apply (set_proc_inv S t _ _ _ bs'); auto.
  - intros h0 q j Hq. destruct (Nat.eq_dec h0 h) as [->|Hne].
    + rewrite upd_same, Hh. split; [congruence|discriminate].
    + now rewrite upd_diff.
  - intros h0 q j Hq Hm. rewrite upd_diff; [reflexivity|congruence].
  - intros h0. destruct (Nat.eq_dec h0 h) as [->|Hne]; [rewrite upd_same; discriminate|].
    rewrite !upd_diff by assumption. now apply (view_none _ _ _ I).
  - intros h0 i0 c0. cbn [p_cells]. destruct (Nat.eq_dec h0 h) as [->|Hne].
    + rewrite !upd_same. intros E Hc0. injection E as <-. rewrite (same_block _ _ _ _ _ _ _ P1 Hc0 Hc), Lc. now rewrite Hsl.
    + rewrite !upd_diff by assumption. intros Hm Hc0.
      destruct (pi_mot _ _ _ _ P _ _ Hm) as (c1 & Hc1 & _).
      destruct (Hold _ _ Hc1) as (Hc1' & Hdis). rewrite (same_block _ _ _ _ _ _ _ P1 Hc0 Hc1').
      rewrite (ensure_view _ _ _ _ _ _ _ I Hm P Hc1). do 2 f_equal.
      pose proof (block_range _ _ _ _ _ _ P Hc1) as (B1 & B2 & B3 & _).
      pose proof (pi_cells _ _ _ _ P). pose proof (pi_cells _ _ _ _ P1).
      apply slice_ext; try lia. intros k Hk. rewrite Hout by lia. now rewrite Hcells by lia.
Qed.

Lemma initialize_ok S t h pid n init : SInv S t -> 0 < n ->
  exists S', initialize dflt S h pid n init = Some S' /\
    SInv S' (upd t h (Some (pid, map (fun k => init (Z.of_nat k)) (seq 0 (Z.to_nat n))))).
Proof.
  intros I Hn. unfold initialize.
  destruct (invalidate_ok S t h I) as (S1 & E1 & I1 & Hh & _). rewrite E1.
  destruct (ensure_inv S1 _ pid I1) as (bs & P).
  destruct (allocate_ok dflt _ _ _ _ h n P Hh Hn) as (p1 & i & bs' & c & Ea & P1 & Hc & Lc & Hold & Hcells & Hle).
  unfold initialize_motivator. rewrite Ea.
  pose proof (block_range _ _ _ _ _ _ P1 Hc) as (R1 & R2 & R3 & R4).
  rewrite data_asserts_ok.
  2:{ intros j Hj. eapply valid_index_ok; try eassumption; [apply upd_same|lia]. }
  destruct (fill_ok (p_cells p1) i init (Z.to_nat n)) as (cells & Ef & Lf & Gf); try lia.
  { rewrite (pi_cells _ _ _ _ P1). lia. }
  rewrite Ef. rewrite Z2Nat.id in Gf by lia. cbn [fst snd]. eexists. split; [reflexivity|].
  eapply SInv_ext.
  - eapply (fresh_inv S1 _ pid h n i p1 bs bs' c cells); eauto.
    + intros j Hj. rewrite Gf. now replace ((i <=? j) && (j <? i + n)) with false by lia.
  - intros h0. unfold upd. destruct (Nat.eqb_spec h0 h); [|reflexivity]. do 2 f_equal.
    apply slice_fill; try lia.
    { rewrite Lf, (pi_cells _ _ _ _ P1). lia. }
    intros j Hj. rewrite Gf. now replace ((i <=? j) && (j <? i + n)) with true by lia.
Qed.

Lemma clone_cells_ok (l : list D) dst src n : 0 <= dst -> 0 <= src -> dst + Z.of_nat n <= len l -> src + Z.of_nat n <= len l ->
  (dst + Z.of_nat n <= src \/ src + Z.of_nat n <= dst) ->
  exists l', clone_cells l dst src n = Some l' /\ len l' = len l /\
    forall j, getz l' j = if (dst <=? j) && (j <? dst + Z.of_nat n) then getz l (j - dst + src) else getz l j.
Proof.
  intros Hd Hs. induction n as [|n IH]; intros Ld Ls Dis.
  { exists l. split; [reflexivity|]. split; [reflexivity|]. intros j.
    now replace ((dst <=? j) && (j <? dst + Z.of_nat 0)) with false by lia. }
  destruct IH as (l1 & E1 & L1 & G1); try lia. cbn [clone_cells]. rewrite E1.
  destruct (getz_in_range l (src + Z.of_nat n)) as (x & Ex); [lia|].
  assert (Ex1 : getz l1 (src + Z.of_nat n) = Some x).
  { rewrite G1. now replace ((dst <=? src + Z.of_nat n) && (src + Z.of_nat n <? dst + Z.of_nat n)) with false by lia. }
  rewrite Ex1. destruct (setz_Some l1 (dst + Z.of_nat n) x) as (l2 & E2); [lia|]. rewrite E2.
  exists l2. split; [reflexivity|]. split; [rewrite (setz_len _ _ _ _ E2); assumption|]. intros j.
  destruct (Z.eq_dec j (dst + Z.of_nat n)) as [->|Hne].
  - rewrite (getz_setz_eq _ _ _ _ E2).
    replace ((dst <=? dst + Z.of_nat n) && (dst + Z.of_nat n <? dst + Z.of_nat (Datatypes.S n))) with true by lia.
    rewrite <- Ex. f_equal. lia.
  - rewrite (getz_setz_neq _ _ _ _ _ E2 Hne), G1.
    now replace ((dst <=? j) && (j <? dst + Z.of_nat (Datatypes.S n))) with ((dst <=? j) && (j <? dst + Z.of_nat n)) by lia.
Qed.

Lemma transfer_inv S t src dst : SInv S t -> mots S dst = None ->
  exists S', transfer S src dst = Some S' /\ SInv S' (upd (upd t src None) dst (t src)) /\
    forall pid p j, procs S pid = Some p -> getz (p_bp p) j = Some None ->
      exists p', procs S' pid = Some p' /\ getz (p_bp p') j = Some None.
Proof.
  intros I Hd. unfold transfer. destruct (mots S src) as [[pid i]|] eqn:Em.
  - destruct (procs S pid) as [p|] eqn:Ep. 2:{ now apply (si_live _ _ I) in Em. }
    destruct (si_proc _ _ I _ _ Ep) as (bs & P).
    destruct (transfer_ok _ _ _ _ _ _ _ P Em Hd) as (p' & Et & P' & Ec & Ea). rewrite Et. cbn [fst snd].
    eexists. split; [reflexivity|].
    assert (Hne : src <> dst) by congruence. split.
    2:{ intros q p0 j Hq G. unfold set_proc. cbn [procs]. destruct (Nat.eq_dec q pid) as [->|Hqp].
        - rewrite upd_same. exists p'. split; [reflexivity|]. rewrite Ep in Hq. injection Hq as <-.
          pose proof (getz_Some _ _ _ G). rewrite (pi_bp _ _ _ _ P) in *.
          apply (pi_free _ _ _ _ P'); [assumption|]. intros i0 c0 Hin Hj.
          destruct (used_handle _ _ _ _ _ _ _ P Hin Hj) as (h0 & _ & G'). congruence.
        - rewrite upd_diff by assumption. eauto. }
    apply (set_proc_inv S t _ _ _ bs); auto.
    + intros h0 q j Hq. destruct (Nat.eq_dec h0 dst) as [->|H1].
      { rewrite upd_same, Hd. split; [congruence|discriminate]. }
      rewrite upd_diff by assumption. destruct (Nat.eq_dec h0 src) as [->|H2].
      { rewrite upd_same, Em. split; [discriminate|congruence]. }
      now rewrite upd_diff.
    + intros h0 q j Hq Hm. rewrite !upd_diff; [reflexivity| |]; congruence.
    + intros h0. destruct (Nat.eq_dec h0 dst) as [->|H1]; [rewrite upd_same; discriminate|].
      rewrite !(upd_diff _ dst) by assumption. destruct (Nat.eq_dec h0 src) as [->|H2]; [now rewrite !upd_same|].
      rewrite !upd_diff by assumption. now apply (view_none _ _ _ I).
    + intros h0 i0 c0. rewrite Ec. destruct (Nat.eq_dec h0 dst) as [->|H1].
      * rewrite !upd_same. intros E Hc. injection E as <-. eapply view_some; eauto.
      * rewrite !(upd_diff _ dst) by assumption. destruct (Nat.eq_dec h0 src) as [->|H2]; [rewrite upd_same; discriminate|].
        rewrite !upd_diff by assumption. intros Hm Hc. eapply view_some; eauto.
  - exists S. split; [reflexivity|]. split; [|eauto]. eapply SInv_ext; [exact I|]. intros h.
    pose proof (proj2 (view_none _ _ src I) Em) as V. pose proof (proj2 (view_none _ _ dst I) Hd) as V'.
    unfold upd. destruct (Nat.eqb_spec h dst) as [->|]; [congruence|].
    destruct (Nat.eqb_spec h src) as [->|]; congruence.
Qed.

Context (cls : nat -> pclass).

Lemma clone_ok S t dst src : SInv S t ->
  exists S', clone_from dflt cls S dst src = Some S' /\ SInv S' (astep cls t (OClone dst src)).
Proof.
  intros I. unfold clone_from. destruct (invalidate_ok S t dst I) as (S1 & E1 & I1 & Hh & _). rewrite E1. cbn [astep].
  destruct (Nat.eqb_spec dst src) as [->|Hne].
  { rewrite Hh. eauto. }
  assert (Et : upd t dst None src = t src) by (apply upd_diff; auto).
  destruct (mots S1 src) as [[pid i]|] eqn:Em.
  - destruct (procs S1 pid) as [p|] eqn:Ep. 2:{ now apply (si_live _ _ I1) in Em. }
    destruct (si_proc _ _ I1 _ _ Ep) as (bs & P). destruct (pi_mot _ _ _ _ P _ _ Em) as (c & Hc & _).
    pose proof (view_some _ _ _ _ _ _ _ _ I1 Em Ep P Hc) as V. rewrite Et in V. rewrite V.
    pose proof (block_range _ _ _ _ _ _ P Hc) as (R1 & R2 & R3 & R4).
    unfold clone_motivator. destruct (k_clone (cls pid)) eqn:Ek.
    + rewrite R4.
      destruct (allocate_ok dflt _ _ _ _ dst (len c) P Hh R2) as (p1 & i1 & bs' & c1 & Ea & P1 & Hc1 & Lc1 & Hold & Hcells & Hle).
      rewrite Ea. pose proof (block_range _ _ _ _ _ _ P1 Hc1) as (T1 & T2 & T3 & T4).
      rewrite data_asserts_ok.
      2:{ intros j Hj. eapply valid_index_ok; try eassumption; [apply upd_same|lia]. }
      destruct (Hold _ _ Hc) as (Hc' & Hdis).
      rewrite data_asserts_ok.
      2:{ intros j Hj. eapply valid_index_ok with (h := src); try eassumption; [|lia].
          rewrite upd_diff; auto. }
      pose proof (pi_cells _ _ _ _ P) as LP. pose proof (pi_cells _ _ _ _ P1) as LP1.
      destruct (clone_cells_ok (p_cells p1) i1 i (Z.to_nat (len c))) as (cells & Ecl & Lcl & Gcl); try lia.
      rewrite Ecl. rewrite Z2Nat.id in Gcl by lia. cbn [fst snd]. eexists. split; [reflexivity|].
      assert (Een : ensure S1 pid = p) by (unfold ensure; now rewrite Ep).
      eapply SInv_ext.
      * eapply (fresh_inv S1 _ pid dst (len c) i1 p1 bs bs' c1 cells); rewrite ?Een; eauto.
        intros j Hj. rewrite Gcl. now replace ((i1 <=? j) && (j <? i1 + len c)) with false by lia.
      * intros h0. unfold upd. destruct (Nat.eqb_spec h0 dst); [|reflexivity]. do 2 f_equal.
        apply slice_ext; try lia. intros k Hk. rewrite Gcl.
        replace ((i1 <=? i1 + k) && (i1 + k <? i1 + len c)) with true by lia.
        replace (i1 + k - i1 + i) with (i + k) by lia. apply Hcells. lia.
    + cbn [fst snd]. eexists. split; [reflexivity|].
      apply (set_proc_inv S1 (upd t dst None) _ _ _ bs); auto; try tauto.
      * intros h0. now apply (view_none _ _ _ I1).
      * intros h0 i0 c0 Hm Hc0. eapply view_some; eauto.
  - pose proof (proj2 (view_none _ _ src I1) Em) as V. rewrite Et in V. rewrite V. eauto.
Qed.

Lemma frame_ok S t pid f : SInv S t ->
  exists S', frame dflt cls S pid f = Some S' /\ SInv S' (astep cls t (OFrame pid f)) /\
    (forall p, procs S pid = Some p -> exists p' bs', procs S' pid = Some p' /\ PInv (mots S') pid p' bs' /\ allused bs').
Proof.
  intros I. unfold frame. destruct (procs S pid) as [p|] eqn:Ep.
  - destruct (si_proc _ _ I _ _ Ep) as (bs & P).
    destruct (p_defragment_ok dflt (cls pid) _ _ _ _ P) as (m' & p' & bs' & Ed & P' & HU & C).
    unfold advance_frame. rewrite Ed. cbn [fst snd]. eexists. split; [reflexivity|].
    assert (P2 : PInv m' pid {| p_alloc := p_alloc p'; p_bp := p_bp p'; p_cells := map f (p_cells p') |} bs').
    { apply PInv_cells; [assumption|]. unfold len. rewrite map_length. apply P'. }
    split.
    + apply (set_proc_inv S t _ _ _ bs'); auto.
      * apply (ca_other _ _ _ _ _ _ _ C).
      * intros h q i Hq Hm. cbn [astep]. destruct (t h) as [[q' l]|] eqn:Et; [|reflexivity].
        destruct (view_inv _ _ _ _ _ I Et) as (i' & _ & _ & _ & Em & _). rewrite Hm in Em. injection Em as <- <-.
        destruct (Nat.eqb_spec q pid); [congruence|reflexivity].
      * intros h Hm'. cbn [astep]. destruct (t h) as [[q' l]|] eqn:Et; [|reflexivity]. exfalso.
        destruct (view_inv _ _ _ _ _ I Et) as (i & p0 & bs0 & c & Em & Ep0 & P0 & Hc & _).
        destruct (Nat.eq_dec q' pid) as [->|Hne].
        -- destruct (pi_mot _ _ _ _ P _ _ Em) as (c1 & Hc1 & _).
           destruct (ca_same _ _ _ _ _ _ _ C _ _ _ Em Hc1) as (i' & Hm2 & _). congruence.
        -- apply (ca_other _ _ _ _ _ _ _ C) in Em; [congruence|assumption].
      * intros h i' c' Hm' Hc'. cbn [astep p_cells].
        destruct (mots S h) as [[q i]|] eqn:Em.
        2:{ apply (ca_none _ _ _ _ _ _ _ C) in Em. congruence. }
        destruct (Nat.eq_dec q pid) as [->|Hne].
        2:{ apply (ca_other _ _ _ _ _ _ _ C) in Em; [|assumption]. congruence. }
        destruct (pi_mot _ _ _ _ P _ _ Em) as (c & Hc & _).
        destruct (ca_same _ _ _ _ _ _ _ C _ _ _ Em Hc) as (i2 & Hm2 & Hc2 & Hs).
        rewrite Hm' in Hm2. injection Hm2 as <-. rewrite (same_block _ _ _ _ _ _ _ P' Hc' Hc2).
        rewrite (view_some _ _ _ _ _ _ _ _ I Em Ep P Hc), Nat.eqb_refl, <- Hs, slice_map. reflexivity.
    + intros p0 E0. eexists _, bs'. split; [|split; [exact P2|exact HU]].
      unfold set_proc. cbn [procs]. apply upd_same.
  - exists S. split; [reflexivity|]. split; [|discriminate].
    eapply SInv_ext; [exact I|]. intros h. cbn [astep]. destruct (t h) as [[q l]|] eqn:Et; [|reflexivity].
    destruct (view_inv _ _ _ _ _ I Et) as (i & p0 & bs0 & c & Em & Ep0 & _).
    destruct (Nat.eqb_spec q pid); [congruence|reflexivity].
Qed.

Lemma write_ok S t h k v : SInv S t ->
  exists S', write S h k v = Some S' /\ SInv S' (astep cls t (OWrite h k v)).
Proof.
  intros I. unfold write. cbn [astep]. destruct (mots S h) as [[pid i]|] eqn:Em.
  - destruct (procs S pid) as [p|] eqn:Ep. 2:{ now apply (si_live _ _ I) in Em. }
    destruct (si_proc _ _ I _ _ Ep) as (bs & P). destruct (pi_mot _ _ _ _ P _ _ Em) as (c & Hc & _).
    pose proof (block_range _ _ _ _ _ _ P Hc) as (R1 & R2 & R3 & R4). rewrite R4.
    rewrite (view_some _ _ _ _ _ _ _ _ I Em Ep P Hc).
    pose proof (pi_cells _ _ _ _ P) as LP.
    assert (Lsl : len (slice (p_cells p) i (len c)) = len c) by (apply slice_len; lia).
    destruct ((0 <=? k) && (k <? len c)) eqn:B.
    + destruct (setz_Some (p_cells p) (i + k) v) as (cells & Es); [lia|]. rewrite Es.
      destruct (setz_Some (slice (p_cells p) i (len c)) k v) as (l' & El); [lia|]. rewrite El.
      pose proof (setz_len _ _ _ _ Es) as Lc. pose proof (setz_len _ _ _ _ El) as Ll.
      eexists. split; [reflexivity|].
      assert (P2 : PInv (mots S) pid {| p_alloc := p_alloc p; p_bp := p_bp p; p_cells := cells |} bs)
        by (apply PInv_cells; [assumption|lia]).
      apply (set_proc_inv S t _ _ _ bs); auto; try tauto.
      * intros h0 q j Hq Hm. rewrite upd_diff; [reflexivity|congruence].
      * intros h0 Hm. rewrite upd_diff by congruence. now apply (view_none _ _ _ I).
      * intros h0 i0 c0 Hm Hc0. cbn [p_cells]. destruct (Nat.eq_dec h0 h) as [->|Hne].
        -- rewrite upd_same. rewrite Hm in Em. injection Em as ->. rewrite (same_block _ _ _ _ _ _ _ P Hc0 Hc).
           do 2 f_equal. apply getz_ext. intros j.
           destruct (Z.lt_ge_cases j 0). { rewrite !getz_None by lia. reflexivity. }
           destruct (Z.lt_ge_cases j (len c)).
           2:{ rewrite !getz_None; [reflexivity| |]; [rewrite slice_len by lia; lia|lia]. }
           rewrite getz_slice by lia. destruct (Z.eq_dec j k) as [->|Hjk].
           ++ now rewrite (getz_setz_eq _ _ _ _ El), (getz_setz_eq _ _ _ _ Es).
           ++ rewrite (getz_setz_neq _ _ _ _ _ El Hjk), (getz_setz_neq _ _ _ _ _ Es) by lia.
              now rewrite getz_slice by lia.
        -- rewrite upd_diff by assumption. rewrite (view_some _ _ _ _ _ _ _ _ I Hm Ep P Hc0). do 2 f_equal.
           pose proof (block_range _ _ _ _ _ _ P Hc0) as (B1 & B2 & B3 & B4).
           apply slice_ext; try lia. intros j Hj. symmetry. apply (getz_setz_neq _ _ _ _ _ Es). intros E.
           assert (E1 : (i0, c0) = (i, c)).
           { eapply ublock_unique with (j := i + k); try eassumption; try lia. apply (rep_ok _ _ _ (pi_rep _ _ _ _ P)). }
           injection E1 as -> ->. apply Hne. exact (mot_inj _ _ _ _ _ _ _ P Hm Em).
    + exists S. split; [reflexivity|].
      replace (setz (slice (p_cells p) i (len c)) k v) with (@None (list D)); [assumption|].
      unfold setz. rewrite Lsl, B. reflexivity.
  - pose proof (proj2 (view_none _ _ h I) Em) as V. rewrite V. eauto.
Qed.

Lemma destroy_inv S t pid : SInv S t ->
  exists S', destroy S pid = Some S' /\ SInv S' (astep cls t (ODestroy pid)).
Proof.
  intros I. unfold destroy. cbn [astep]. destruct (procs S pid) as [p|] eqn:Ep.
  - destruct (si_proc _ _ I _ _ Ep) as (bs & P). destruct (destroy_ok _ _ _ _ P) as (m' & Ed & Hm). rewrite Ed.
    eexists. split; [reflexivity|].
    assert (Hq : forall h q i, q <> pid -> (m' h = Some (q, i) <-> mots S h = Some (q, i))).
    { intros h q i Hq. rewrite Hm. unfold dropped. destruct (mots S h) as [[q' i']|]; [|tauto].
      destruct (Nat.eqb_spec q' pid) as [->|]; [|tauto]. split; [discriminate|congruence]. }
    constructor; cbn [mots procs].
    + intros q p0. destruct (Nat.eq_dec q pid) as [->|Hne]; [rewrite upd_same; discriminate|].
      rewrite upd_diff by assumption. intros E. destruct (si_proc _ _ I _ _ E) as (bs0 & P0). exists bs0.
      apply (PInv_ext _ _ _ _ _ P0). intros h i. symmetry. now apply Hq.
    + intros h q i. rewrite Hm. unfold dropped. destruct (mots S h) as [[q' i']|] eqn:Em; [|discriminate].
      destruct (Nat.eqb_spec q' pid); [discriminate|]. intros E. injection E as <- <-.
      rewrite upd_diff by assumption. eapply si_live; eauto.
    + intros h. rewrite <- (si_view _ _ I h). unfold view. cbn [mots procs]. rewrite Hm. unfold dropped.
      destruct (mots S h) as [[q i]|] eqn:Em; [|reflexivity].
      destruct (procs S q) as [p0|] eqn:Eq. 2:{ now apply (si_live _ _ I) in Em. }
      destruct (si_proc _ _ I _ _ Eq) as (bs0 & P0). destruct (pi_mot _ _ _ _ P0 _ _ Em) as (c & Hc & _).
      pose proof (block_range _ _ _ _ _ _ P0 Hc) as (_ & _ & _ & R). rewrite R.
      destruct (Nat.eqb_spec q pid) as [->|Hne]; [reflexivity|].
      rewrite upd_diff by assumption. now rewrite Eq, R.
  - exists S. split; [reflexivity|]. eapply SInv_ext; [exact I|]. intros h.
    destruct (t h) as [[q l]|] eqn:Et; [|reflexivity].
    destruct (view_inv _ _ _ _ _ I Et) as (i & p0 & bs0 & c & Em & Ep0 & _).
    destruct (Nat.eqb_spec q pid); [congruence|reflexivity].
Qed.

Lemma mstep_ok S t o : SInv S t -> exists S', mstep dflt cls S o = Some S' /\ SInv S' (astep cls t o).
Proof.
  intros I. destruct o as [h pid n init|h|dst src|dst src|dst src|pid f|h k v|pid]; cbn [mstep].
  - cbn [astep]. destruct (Z.ltb_spec 0 n); [now apply initialize_ok|eauto].
  - destruct (invalidate_ok S t h I) as (S' & E & I' & _). cbn [astep]. eauto.
  - cbn [astep]. destruct (mots S dst) as [x|] eqn:Em.
    + destruct (t dst) eqn:Et; [eauto|]. apply (view_none _ _ _ I) in Et. congruence.
    + rewrite (proj2 (view_none _ _ dst I) Em).
      destruct (transfer_inv S t src dst I Em) as (S2 & E2 & I2 & _). eauto.
  - unfold move_assign. destruct (invalidate_ok S t dst I) as (S1 & E1 & I1 & Hd & _). rewrite E1. cbn [astep].
    destruct (transfer_inv S1 _ src dst I1 Hd) as (S2 & E2 & I2 & _). rewrite E2. exists S2. split; [reflexivity|].
    eapply SInv_ext; [exact I2|]. intros h. unfold upd.
    destruct (Nat.eqb_spec dst src) as [->|Hne].
    + rewrite Nat.eqb_refl. destruct (Nat.eqb_spec h src); reflexivity.
    + destruct (Nat.eqb_spec src dst); [congruence|].
      destruct (Nat.eqb_spec h dst); [reflexivity|]. destruct (Nat.eqb_spec h src); reflexivity.
  - now apply clone_ok.
  - destruct (frame_ok S t pid f I) as (S' & E & I' & _). eauto.
  - now apply write_ok.
  - now apply destroy_inv.
Qed.

Lemma sys_init_inv : SInv sys_init (fun _ => None).
Proof. constructor; simpl; easy. Qed.

Lemma mrun_ok ops : forall S t, SInv S t -> exists S', mrun dflt cls S ops = Some S' /\ SInv S' (arun cls t ops).
Proof.
  induction ops as [|o ops IH]; intros S t I; cbn [mrun arun]; [eauto|].
  destruct (mstep_ok S t o I) as (S1 & E1 & I1). rewrite E1. now apply IH.
Qed.
End Sys.
