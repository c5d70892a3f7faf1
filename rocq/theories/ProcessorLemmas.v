(** The proofs behind ProcessorProps.v. *)
From Verif Require Import Base BaseFacts IndexAllocatorModel IndexAllocatorSpec
  IndexAllocatorProofs IndexAllocatorDefrag IndexAllocatorWorld IndexAllocatorLemmas
  ProcessorModel ProcessorSpec ProcessorProofs ProcessorMove ProcessorSys.
From Coq Require Import Permutation.

Section L.
Context {D : Type} (dflt : D) (cls : nat -> pclass).
Notation run := (mrun dflt cls sys_init).
Notation step := (mstep dflt cls).
Implicit Types (S : sys D).

Lemma reach_inv ops S : run ops = Some S -> SInv S (view S).
Proof.
  intros E. destruct (mrun_ok dflt cls ops sys_init (fun _ => None) sys_init_inv) as (S' & E' & I').
  rewrite E in E'. injection E' as <-. eapply SInv_ext; [exact I'|]. intros h. symmetry. apply I'.
Qed.

Lemma refine_proof ops : exists S, run ops = Some S /\ forall h, view S h = arun cls (fun _ => None) ops h.
Proof.
  destruct (mrun_ok dflt cls ops sys_init (fun _ => None) sys_init_inv) as (S' & E' & I').
  exists S'. split; [exact E'|]. apply I'.
Qed.

Lemma step_view ops S o : run ops = Some S ->
  exists S', step S o = Some S' /\ (forall h, view S' h = astep cls (view S) o h) /\ SInv S' (view S').
Proof.
  intros E. destruct (mstep_ok dflt cls S (view S) o (reach_inv _ _ E)) as (S' & E' & I').
  exists S'. split; [exact E'|]. split; [apply I'|]. eapply SInv_ext; [exact I'|]. intros h. symmetry. apply I'.
Qed.

Lemma agree S t h pid i : SInv S t -> mots S h = Some (pid, i) ->
  exists p n, procs S pid = Some p /\ dimensions p i = Some n /\ 0 < n /\
    forall j, getz (p_bp p) j = Some (Some h) <-> i <= j < i + n.
Proof.
  intros I Hm. destruct (procs S pid) as [p|] eqn:Ep. 2:{ now apply (si_live _ _ I) in Hm. }
  destruct (si_proc _ _ I _ _ Ep) as (bs & P). destruct (pi_mot _ _ _ _ P _ _ Hm) as (c & Hc & G).
  pose proof (block_range _ _ _ _ _ _ P Hc) as (R1 & R2 & R3 & R4).
  exists p, (len c). repeat (split; [solve [auto]|]). intros j. split; [|apply G]. intros Gj.
  pose proof (getz_Some _ _ _ Gj) as Hj. rewrite (pi_bp _ _ _ _ P) in Hj.
  destruct (pos_dec bs j) as [(i' & c' & Hc' & Hj')|Hno].
  - destruct (used_handle _ _ _ _ _ _ _ P Hc' Hj') as (h' & Hm' & G'). rewrite Gj in G'. injection G' as <-.
    rewrite Hm in Hm'. injection Hm' as <-. now rewrite (same_block _ _ _ _ _ _ _ P Hc Hc').
  - rewrite (pi_free _ _ _ _ P j Hj Hno) in Gj. discriminate.
Qed.

Lemma C07_proof ops : exists S, run ops = Some S /\
  (forall h, sane S h = Some true) /\
  (forall h pid i, mots S h = Some (pid, i) -> exists p n,
     procs S pid = Some p /\ dimensions p i = Some n /\ 0 < n /\
     forall j, getz (p_bp p) j = Some (Some h) <-> i <= j < i + n) /\
  (forall h h' pid i i' p n n', h <> h' -> mots S h = Some (pid, i) -> mots S h' = Some (pid, i') ->
     procs S pid = Some p -> dimensions p i = Some n -> dimensions p i' = Some n' -> disjoint (i, n) (i', n')).
Proof.
  destruct (refine_proof ops) as (S & E & _). exists S. split; [exact E|]. pose proof (reach_inv _ _ E) as I.
  split; [|split].
  - intros h. unfold sane. destruct (mots S h) as [[pid i]|] eqn:Hm; [|reflexivity].
    destruct (agree _ _ _ _ _ I Hm) as (p & n & Ep & Ed & Hn & G). rewrite Ep.
    destruct (si_proc _ _ I _ _ Ep) as (bs & P). destruct (pi_mot _ _ _ _ P _ _ Hm) as (c & Hc & _).
    pose proof (block_range _ _ _ _ _ _ P Hc) as (R1 & R2 & R3 & R4).
    rewrite (valid_index_ok _ _ _ _ _ _ _ i P Hm Hc ltac:(lia)).
    rewrite (proj2 (G i) ltac:(lia)). now rewrite Nat.eqb_refl.
  - intros h pid i Hm. now apply (agree S (view S)).
  - intros h h' pid i i' p n n' Hne Hm Hm' Ep Ed Ed'.
    destruct (agree _ _ _ _ _ I Hm) as (p1 & n1 & Ep1 & Ed1 & Hn1 & G1).
    destruct (agree _ _ _ _ _ I Hm') as (p2 & n2 & Ep2 & Ed2 & Hn2 & G2).
    assert (p1 = p) as -> by congruence. assert (p2 = p) as -> by congruence.
    assert (n1 = n) as -> by congruence. assert (n2 = n') as -> by congruence.
    unfold disjoint. simpl. destruct (Z.le_gt_cases (i + n) i'); [lia|]. destruct (Z.le_gt_cases (i' + n') i); [lia|].
    exfalso. apply Hne.
    pose proof (proj2 (G1 (Z.max i i')) ltac:(lia)). pose proof (proj2 (G2 (Z.max i i')) ltac:(lia)). congruence.
Qed.

Lemma C08_proof ops S o S' h : run ops = Some S -> step S o = Some S' -> ~ mentions o h ->
  view S' h = match o with
    | OFrame pid f => match view S h with
                      | Some (q, l) => Some (q, if Nat.eqb q pid then map f l else l)
                      | None => None end
    | ODestroy pid => match view S h with
                      | Some (q, l) => if Nat.eqb q pid then None else Some (q, l)
                      | None => None end
    | _ => view S h
    end.
Proof.
  intros E Es Hn. destruct (step_view ops S o E) as (S2 & E2 & V & _). rewrite Es in E2. injection E2 as <-.
  rewrite V. destruct o as [h0 pid n init|h0|dst src|dst src|dst src|pid f|h0 k v|pid]; cbn [astep mentions] in *; try reflexivity.
  - destruct (0 <? n); [now apply upd_diff|reflexivity].
  - now apply upd_diff.
  - destruct (view S dst); [reflexivity|]. rewrite !upd_diff; tauto.
  - destruct (Nat.eqb dst src); rewrite !upd_diff; tauto.
  - destruct (Nat.eqb dst src); [rewrite upd_diff; tauto|].
    destruct (view S src) as [[q l]|]; [destruct (k_clone (cls q))|]; rewrite upd_diff; tauto.
  - destruct (view S h0) as [[q l]|]; [|reflexivity]. destruct (setz l k v); [now apply upd_diff|reflexivity].
Qed.

Lemma C09_proof ops S dst src : run ops = Some S -> dst <> src ->
  exists S', step S (OMoveAssign dst src) = Some S' /\
    view S' dst = view S src /\ view S' src = None /\
    (forall h, h <> dst -> h <> src -> view S' h = view S h) /\
    (forall pid i p n j, mots S dst = Some (pid, i) -> procs S pid = Some p -> dimensions p i = Some n ->
       i <= j < i + n -> exists p', procs S' pid = Some p' /\ getz (p_bp p') j = Some None) /\
    (view S dst = None -> step S (OMoveConstruct dst src) = Some S').
Proof.
  intros E Hne. pose proof (reach_inv _ _ E) as I. cbn [mstep]. unfold move_assign.
  destruct (invalidate_ok dflt S (view S) dst I) as (S1 & E1 & I1 & Hd & Hhole). rewrite E1.
  destruct (transfer_inv S1 _ src dst I1 Hd) as (S2 & E2 & I2 & Hbp). rewrite E2.
  exists S2. split; [reflexivity|]. rewrite !(si_view _ _ I2).
  split; [rewrite upd_same; apply upd_diff; auto|].
  split; [rewrite upd_diff by auto; apply upd_same|].
  split; [intros h H1 H2; rewrite (si_view _ _ I2), !upd_diff; auto|].
  split.
  - intros pid i p n j Hm Hp Hdim Hj. destruct (Hhole _ _ _ Hm Hp) as (n' & p1 & Ed & _ & Ep1 & _ & G).
    rewrite Hdim in Ed. injection Ed as <-. exact (Hbp pid p1 j Ep1 (G j Hj)).
  - intros V. apply (view_none _ _ dst I) in V. rewrite V. unfold move_construct.
    unfold invalidate in E1. rewrite V in E1. injection E1 as <-. exact E2.
Qed.

Lemma C09_self_proof ops S h : run ops = Some S ->
  exists S', step S (OMoveAssign h h) = Some S' /\ view S' h = None /\ forall h', h' <> h -> view S' h' = view S h'.
Proof.
  intros E. destruct (step_view ops S (OMoveAssign h h) E) as (S' & E' & V & _). exists S'. split; [exact E'|].
  rewrite V. cbn [astep]. rewrite Nat.eqb_refl, upd_same. split; [reflexivity|].
  intros h' Hne. rewrite V. cbn [astep]. rewrite Nat.eqb_refl. now apply upd_diff.
Qed.

Lemma C10_proof ops S h : run ops = Some S ->
  exists S', step S (OInvalidate h) = Some S' /\ mots S' h = None /\
    step S' (OInvalidate h) = Some S' /\
    (forall h', h' <> h -> view S' h' = view S h') /\
    (forall pid p j, procs S' pid = Some p -> getz (p_bp p) j <> Some (Some h)) /\
    (forall pid i p, mots S h = Some (pid, i) -> procs S pid = Some p ->
       exists n p', dimensions p i = Some n /\ 0 < n /\ procs S' pid = Some p' /\ hole (p_alloc p') i n /\
         forall j, i <= j < i + n -> getz (p_bp p') j = Some None).
Proof.
  intros E. pose proof (reach_inv _ _ E) as I. cbn [mstep].
  destruct (invalidate_ok dflt S (view S) h I) as (S1 & E1 & I1 & Hd & Hhole).
  exists S1. split; [exact E1|]. split; [exact Hd|]. split; [unfold invalidate; now rewrite Hd|].
  split; [intros h' Hne; rewrite (si_view _ _ I1); now apply upd_diff|]. split; [|exact Hhole].
  intros pid p j Hp G. destruct (si_proc _ _ I1 _ _ Hp) as (bs & P).
  pose proof (getz_Some _ _ _ G) as Hj. rewrite (pi_bp _ _ _ _ P) in Hj.
  destruct (pos_dec bs j) as [(i' & c' & Hc' & Hj')|Hno].
  - destruct (used_handle _ _ _ _ _ _ _ P Hc' Hj') as (h' & Hm' & G'). congruence.
  - rewrite (pi_free _ _ _ _ P j Hj Hno) in G. discriminate.
Qed.

Lemma C11_proof ops S pid : run ops = Some S ->
  exists S', step S (ODestroy pid) = Some S' /\ procs S' pid = None /\
    (forall h, mots S' h = match mots S h with
                           | Some (q, i) => if Nat.eqb q pid then None else Some (q, i)
                           | None => None end) /\
    (forall h q l, view S h = Some (q, l) -> q <> pid -> view S' h = Some (q, l)) /\
    (forall h i, mots S h = Some (pid, i) -> step S' (OInvalidate h) = Some S').
Proof.
  intros E. pose proof (reach_inv _ _ E) as I.
  destruct (step_view ops S (ODestroy pid) E) as (S' & E' & V & _). exists S'. split; [exact E'|].
  cbn [mstep] in E'. unfold destroy in E'.
  assert (G : procs S' pid = None /\ forall h, mots S' h = dropped (mots S) pid h).
  { destruct (procs S pid) as [p|] eqn:Ep.
    - destruct (si_proc _ _ I _ _ Ep) as (bs & P). destruct (destroy_ok _ _ _ _ P) as (m' & Ed & Hm).
      rewrite Ed in E'. injection E' as <-. cbn [procs mots]. split; [apply upd_same|exact Hm].
    - injection E' as <-. split; [exact Ep|]. intros h. unfold dropped.
      destruct (mots S h) as [[q i]|] eqn:Em; [|reflexivity]. destruct (Nat.eqb_spec q pid) as [->|]; [|reflexivity].
      now apply (si_live _ _ I) in Em. }
  destruct G as (Gp & Gm). split; [exact Gp|]. split; [exact Gm|]. split.
  - intros h q l Vh Hq. rewrite V. cbn [astep]. rewrite Vh. destruct (Nat.eqb_spec q pid); [congruence|reflexivity].
  - intros h i Hm. cbn [mstep]. unfold invalidate. rewrite Gm. unfold dropped. now rewrite Hm, Nat.eqb_refl.
Qed.

Lemma C12_proof ops S dst src : run ops = Some S ->
  exists S', step S (OClone dst src) = Some S' /\
    view S' dst = (if Nat.eqb dst src then None
                   else match view S src with
                        | Some (pid, l) => if k_clone (cls pid) then Some (pid, l) else None
                        | None => None end) /\
    forall h, h <> dst -> view S' h = view S h.
Proof.
  intros E. destruct (step_view ops S (OClone dst src) E) as (S' & E' & V & _). exists S'. split; [exact E'|].
  rewrite V. cbn [astep]. split.
  - destruct (Nat.eqb dst src); [apply upd_same|].
    destruct (view S src) as [[pid l]|]; [destruct (k_clone (cls pid))|]; apply upd_same.
  - intros h Hne. rewrite V. cbn [astep]. destruct (Nat.eqb dst src); [now apply upd_diff|].
    destruct (view S src) as [[pid l]|]; [destruct (k_clone (cls pid))|]; now apply upd_diff.
Qed.

Definition handle_at (p : proc D) (b : Z * list unit) : nat :=
  match getz (p_bp p) (fst b) with Some (Some h) => h | _ => 0%nat end.

Lemma C13_proof ops S pid f p : run ops = Some S -> procs S pid = Some p ->
  exists S' p' hs, step S (OFrame pid f) = Some S' /\ procs S' pid = Some p' /\
    NoDup hs /\ (forall h, In h hs <-> exists i, mots S' h = Some (pid, i)) /\
    num_indices (p_alloc p') = fold_right (fun h a => dims_of S' h + a) 0 hs.
Proof.
  intros E Hp. pose proof (reach_inv _ _ E) as I.
  destruct (frame_ok dflt cls S (view S) pid f I) as (S' & E' & I' & Hfr).
  destruct (Hfr p Hp) as (p' & bs' & Hp' & P' & HU). clear Hfr.
  assert (Hd : forall b, In b (ublocks 0 bs') -> mots S' (handle_at p' b) = Some (pid, fst b) /\
             dims_of S' (handle_at p' b) = len (snd b)).
  { intros [i c] Hin. pose proof (block_range _ _ _ _ _ _ P' Hin) as (R1 & R2 & R3 & R4).
    destruct (used_handle _ _ _ _ _ _ i P' Hin ltac:(lia)) as (h & Hm & G). unfold handle_at. cbn [fst snd]. rewrite G.
    split; [assumption|]. unfold dims_of. rewrite (si_view _ _ I').
    rewrite (view_some _ _ _ _ _ _ _ _ I' Hm Hp' P' Hin). rewrite slice_len; try lia. rewrite (pi_cells _ _ _ _ P'). lia. }
  exists S', p', (map (handle_at p') (ublocks 0 bs')). split; [exact E'|]. split; [exact Hp'|].
  pose proof (rep_ok _ _ _ (pi_rep _ _ _ _ P')) as Ok. split; [|split].
  - assert (Nd := ublocks_starts_nodup 0 bs' Ok). revert Nd Hd. generalize (ublocks 0 bs') as l. clear.
    induction l as [|b l IH]; intros Nd Hd; [constructor|]. simpl in *. inversion Nd; subst. constructor.
    + intros Hin. apply in_map_iff in Hin as (b' & Eh & Hb'). apply H1. apply in_map_iff. exists b'. split; [|assumption].
      destruct (Hd b' (or_intror Hb')) as (M1 & _). destruct (Hd b (or_introl eq_refl)) as (M2 & _).
      rewrite Eh, M2 in M1. congruence.
    + apply IH; auto.
  - intros h. split.
    + intros Hin. apply in_map_iff in Hin as (b & <- & Hb). exists (fst b). now apply Hd.
    + intros (i & Hm). destruct (pi_mot _ _ _ _ P' _ _ Hm) as (c & Hc & _). apply in_map_iff. exists (i, c).
      split; [|assumption]. destruct (Hd _ Hc) as (M & _). exact (mot_inj _ _ _ _ _ _ _ P' M Hm).
  - rewrite (num_is _ _ _ _ P'), (data_total _ HU). revert Hd. generalize (ublocks 0 bs') as l. clear.
    induction l as [|b l IH]; intros Hd; [reflexivity|]. simpl. rewrite <- (IH (fun x Hx => Hd x (or_intror Hx))).
    rewrite (proj2 (Hd b (or_introl eq_refl))). reflexivity.
Qed.
End L.
