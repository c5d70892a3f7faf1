(** Defragment: termination, density and data preservation. *)
From Verif Require Import Base BaseFacts IndexAllocatorModel IndexAllocatorSpec IndexAllocatorProofs.

Section Defrag.
Context {D : Type} (d : D).
Local Notation blk := (bool * list D)%type.
Implicit Types (bs P Q R : list blk).

(** ** VerifyInternalState succeeds on every layout *)
Lemma verify_inner_ok n : forall A B i j,
  len A = i + j -> 0 <= j ->
  verify_inner (A ++ map (fun k => - Z.of_nat k) (seq (Z.to_nat j) n) ++ B) i j n = true.
Proof.
  induction n as [|n IH]; intros A B i j LA Hj; [reflexivity|].
  cbn [seq map verify_inner app]. rewrite getz_app by lia.
  replace (- Z.of_nat (Z.to_nat j) =? - j) with true by lia. simpl andb.
  replace (A ++ - Z.of_nat (Z.to_nat j) :: map (fun k => - Z.of_nat k) (seq (S (Z.to_nat j)) n) ++ B)
    with ((A ++ [- Z.of_nat (Z.to_nat j)]) ++ map (fun k => - Z.of_nat k) (seq (Z.to_nat (j + 1)) n) ++ B).
  - apply IH; [rewrite len_app; unfold len at 2; simpl; lia|lia].
  - rewrite <- app_assoc. cbn [app]. do 5 f_equal. lia.
Qed.

Lemma verify_loop_ok fuel : forall P Q, okb (P ++ Q) -> (length Q <= fuel)%nat ->
  verify_loop fuel (layout (P ++ Q)) (bsz P) = true.
Proof.
  induction fuel as [|fuel IH]; intros P Q Ok LQ.
  - destruct Q; [|simpl in LQ; lia]. simpl. rewrite app_nil_r, layout_len.
    now replace (bsz P <=? bsz P) with true by lia.
  - simpl. rewrite layout_len. destruct Q as [|b Q].
    + rewrite app_nil_r. now replace (bsz P <=? bsz P) with true by lia.
    + destruct (bsz (P ++ b :: Q) <=? bsz P) eqn:E; [reflexivity|].
      assert (Hb : snd b <> []) by (apply okb_app in Ok as [_ Ok]; apply okb_cons in Ok; tauto).
      rewrite getz_layout by exact Hb. pose proof (len_pos _ Hb) as Hp.
      replace (0 <? len (snd b)) with true by lia. simpl andb.
      apply andb_true_intro. split.
      * rewrite layout_app. simpl layout. unfold repr.
        assert (exists m, length (snd b) = S m) as [m Em]
          by (unfold len in Hp; destruct (length (snd b)); [lia|eauto]).
        rewrite Em.
        replace (layout P ++ (Z.of_nat (S m) :: map (fun j => - Z.of_nat j) (seq 1 m)) ++ layout Q)
          with ((layout P ++ [Z.of_nat (S m)]) ++ map (fun j => - Z.of_nat j) (seq (Z.to_nat 1) m) ++ layout Q)
          by (rewrite <- app_assoc; reflexivity).
        replace (Z.to_nat (len (snd b) - 1)) with m by (unfold len; lia).
        apply verify_inner_ok; [|lia]. rewrite len_app, layout_len. reflexivity.
      * replace (P ++ b :: Q) with ((P ++ [b]) ++ Q) by (rewrite <- app_assoc; reflexivity).
        replace (bsz P + len (snd b)) with (bsz (P ++ [b]))
          by (rewrite bsz_app, bsz_cons, bsz_nil; lia).
        apply IH; [rewrite <- app_assoc; exact Ok|simpl in LQ; lia].
Qed.

Lemma verify_ok bs : okb bs -> verify_internal_state (layout bs) = true.
Proof.
  intros Ok. unfold verify_internal_state. rewrite <- (bsz_nil (D := D)).
  apply (verify_loop_ok _ [] bs); [exact Ok|].
  pose proof (okb_len _ Ok). rewrite <- layout_len in H. unfold len in H. lia.
Qed.

(** ** LastIndexRangeSmallerThanHole *)

Lemma allused_app P Q : allused (P ++ Q) <-> allused P /\ allused Q.
Proof. apply Forall_app. Qed.

(** Inner loop.  [K ++ (false,f) :: V1 ++ V2 ++ T] is the whole block list. *)
Lemma range_inner_ok : forall (V1 : list blk) K f V2 T index count start fuel,
  let run := V1 ++ V2 in
  let stop := bsz (K ++ [(false, f)]) + bsz run in
  okb (K ++ (false, f) :: V1 ++ V2 ++ T) ->
  index <= bsz K ->
  (length V1 + 2 <= fuel)%nat ->
  (exists W1 W2, run = W1 ++ W2 /\ start = stop - bsz W2 /\ (W2 = [] \/ bsz W2 <= count)) ->
  exists start', range_inner fuel (layout (K ++ (false, f) :: V1 ++ V2 ++ T)) index count stop
      (bsz K) (stop - bsz V2) start = Some start' /\
    exists W1 W2, run = W1 ++ W2 /\ start' = stop - bsz W2 /\ (W2 = [] \/ bsz W2 <= count).
Proof.
  intros V1; induction V1 as [|v V1 IH] using rev_ind;
    intros K f V2 T index count start fuel run stop Ok Hi Hf Hs.
  - destruct fuel as [|[|fuel]]; [simpl in Hf; lia|simpl in Hf; lia|].
    assert (Hfn : f <> []) by (rewrite okb_app, okb_cons in Ok; simpl in Ok; tauto).
    pose proof (len_pos _ Hfn) as Hfp.
    assert (Ej : stop - bsz V2 = bsz K + len f).
    { unfold stop, run. simpl app. rewrite bsz_app, bsz_single. lia. }
    rewrite Ej. cbn [range_inner].
    replace (index <? bsz K + len f) with true by lia. simpl negb. cbv iota.
    destruct (Z.ltb_spec count (stop - (bsz K + len f))); [eauto|].
    replace (bsz K + len f =? bsz K) with false by lia.
    simpl app.
    change (len f) with (len (snd (false, f))).
    rewrite prev_index_layout by exact Hfn.
    assert (G : exists W1 W2, run = W1 ++ W2 /\ bsz K + len f = stop - bsz W2 /\ (W2 = [] \/ bsz W2 <= count)).
    { exists [], V2. split; [reflexivity|]. split; [lia|]. right. lia. }
    destruct (negb (index <? bsz K)); [eauto|].
    destruct (count <? stop - bsz K); [eauto|].
    rewrite Z.eqb_refl. eauto.
  - destruct fuel as [|fuel]; [lia|]. rewrite app_length in Hf. simpl in Hf.
    assert (Hv : snd v <> []).
    { rewrite <- app_assoc, okb_app, okb_cons, okb_app in Ok. cbn [app] in Ok. rewrite okb_cons in Ok. tauto. }
    pose proof (len_pos _ Hv) as Hvp.
    assert (Hfn : f <> []) by (rewrite okb_app, okb_cons in Ok; simpl in Ok; tauto).
    pose proof (len_pos _ Hfn) as Hfp. pose proof (bsz_nonneg V1).
    assert (Ej : stop - bsz V2 = bsz K + len f + bsz V1 + len (snd v)).
    { unfold stop, run. rewrite !bsz_app, bsz_single, bsz_cons, bsz_nil. lia. }
    cbn [range_inner].
    replace (index <? stop - bsz V2) with true by lia. simpl negb. cbv iota.
    destruct (Z.ltb_spec count (stop - (stop - bsz V2))) as [Hc|Hc]; [eauto|].
    replace (stop - bsz V2 =? bsz K) with false by lia.
    assert (EL : K ++ (false, f) :: (V1 ++ [v]) ++ V2 ++ T
                 = (K ++ (false, f) :: V1) ++ v :: V2 ++ T).
    { rewrite <- !app_assoc. reflexivity. }
    assert (EB : bsz (K ++ (false, f) :: V1) = bsz K + len f + bsz V1).
    { rewrite bsz_app, bsz_cons. simpl snd. lia. }
    assert (Epv : prev_index (layout (K ++ (false, f) :: (V1 ++ [v]) ++ V2 ++ T)) (stop - bsz V2)
                  = Some (stop - bsz (v :: V2))).
    { rewrite EL, Ej, <- EB, prev_index_layout by exact Hv. f_equal.
      rewrite bsz_cons. lia. }
    rewrite Epv.
    assert (Erun : run = V1 ++ v :: V2) by (unfold run; rewrite <- app_assoc; reflexivity).
    assert (Estop : stop = bsz (K ++ [(false, f)]) + bsz (V1 ++ v :: V2))
      by (unfold stop; rewrite Erun; reflexivity).
    specialize (IH K f (v :: V2) T index count (stop - bsz V2) fuel).
    cbv zeta in IH. rewrite <- Estop, <- Erun in IH.
    assert (EL2 : K ++ (false, f) :: V1 ++ (v :: V2) ++ T = K ++ (false, f) :: (V1 ++ [v]) ++ V2 ++ T).
    { rewrite <- app_assoc. reflexivity. }
    rewrite EL2 in IH.
    apply IH; [exact Ok|exact Hi|lia|].
    exists (V1 ++ [v]), V2. split; [reflexivity|]. split; [reflexivity|]. right. lia.
Qed.

Lemma last_free (P : list blk) : fstarts 0 P <> [] ->
  exists K f Us, P = K ++ (false, f) :: Us /\ allused Us.
Proof.
  induction P as [|b P IH] using rev_ind; intros H; [simpl in H; congruence|].
  destruct b as [[|] b].
  - rewrite fstarts_app in H. simpl in H. rewrite app_nil_r in H.
    destruct (IH H) as (K & f & Us & -> & HU).
    exists K, f, (Us ++ [(true, b)]). split; [rewrite <- app_assoc; reflexivity|].
    apply allused_app. split; [exact HU|repeat constructor].
  - exists P, b, []. split; [reflexivity|constructor].
Qed.

Definition range_result_ok bs (P0 : list blk) h (R : list blk) (r : option (Z * Z)) : Prop :=
  match r with
  | None => True
  | Some (st, en) =>
      exists M U T, R = M ++ U ++ T /\ U <> [] /\ allused U /\ bsz U <= len h /\
        st = bsz (P0 ++ (false, h) :: M) /\ en = st + bsz U
  end.

Lemma range_outer_ok : forall (R1 : list blk) s bs P0 h R2 fuel,
  bs = P0 ++ (false, h) :: R1 ++ R2 -> okb bs ->
  counts s = layout bs -> unused s = fstarts 0 bs ->
  (length R1 + 3 <= fuel)%nat ->
  exists r, range_outer fuel s (bsz P0) (len h) (bsz (P0 ++ (false, h) :: R1))
      (len (fstarts 0 (P0 ++ (false, h) :: R1)) - 1) = Some r /\
    range_result_ok bs P0 h (R1 ++ R2) r.
Proof.
  intros R1; induction R1 as [|b R1 IH] using rev_ind;
    intros s bs P0 h R2 fuel Ebs Ok Hc Hu Hf.
  - assert (Hh : h <> []) by (rewrite Ebs, okb_app, okb_cons in Ok; simpl in Ok; tauto).
    pose proof (len_pos _ Hh) as Hhp.
    destruct fuel as [|[|fuel]]; [lia|simpl in Hf; lia|].
    exists None. split; [|exact I].
    cbn [range_outer].
    rewrite bsz_app, bsz_single.
    replace (bsz P0 <? bsz P0 + len h) with true by lia. simpl negb. cbv iota.
    rewrite fstarts_app, len_app. cbn [fstarts fst snd].
    replace (len [0 + bsz P0]) with 1 by reflexivity.
    rewrite Hu, Ebs, fstarts_app. cbn [fstarts fst snd app].
    rewrite getz_app by lia. rewrite Z.add_0_l.
    rewrite Hc, Ebs.
    change (len h) with (len (snd (false, h))) at 1.
    rewrite next_index_layout by exact Hh. simpl snd. cbn [snd].
    replace (bsz P0 + len h <=? bsz P0 + len h) with true by lia.
    replace (bsz P0 + len h =? bsz P0 + len h) with true by lia.
    change (len h) with (len (snd (false, h))) at 1.
    cbn [app]. rewrite prev_index_layout by exact Hh.
    now replace (bsz P0 <? bsz P0) with false by lia.
  - destruct fuel as [|fuel]; [lia|]. rewrite app_length in Hf. simpl in Hf.
    assert (Hh : h <> []) by (rewrite Ebs, okb_app, okb_cons in Ok; simpl in Ok; tauto).
    pose proof (len_pos _ Hh) as Hhp.
    assert (Hb : snd b <> []).
    { rewrite Ebs, <- app_assoc, okb_app, okb_cons, okb_app in Ok. cbn [app] in Ok.
      rewrite okb_cons in Ok. tauto. }
    pose proof (len_pos _ Hb) as Hbp. pose proof (bsz_nonneg R1) as HR1p.
    set (Pb := P0 ++ (false, h) :: R1).
    assert (EPb : P0 ++ (false, h) :: R1 ++ [b] = Pb ++ [b]).
    { unfold Pb. rewrite <- app_assoc. reflexivity. }
    assert (Ebs' : bs = Pb ++ b :: R2).
    { rewrite Ebs. unfold Pb. rewrite <- !app_assoc. reflexivity. }
    assert (HPb : bsz Pb = bsz P0 + len h + bsz R1).
    { unfold Pb. rewrite bsz_app, bsz_cons. simpl snd. lia. }
    assert (Estop : bsz (Pb ++ [b]) = bsz Pb + len (snd b)).
    { rewrite bsz_app, bsz_cons, bsz_nil. lia. }
    assert (Eprev : prev_index (counts s) (bsz (Pb ++ [b])) = Some (bsz Pb)).
    { rewrite Hc, Ebs', Estop. now apply prev_index_layout. }
    rewrite EPb. cbn [range_outer].
    replace (bsz P0 <? bsz (Pb ++ [b])) with true by lia. simpl negb. cbv iota.
    destruct b as [[|] b].
    + (* used block at the end *)
      assert (Ef : fstarts 0 (Pb ++ [(true, b)]) = fstarts 0 Pb).
      { rewrite fstarts_app. simpl. apply app_nil_r. }
      rewrite Ef.
      destruct (last_free ((false, h) :: R1)) as (K' & f & Us & EK' & HU); [discriminate|].
      set (K := P0 ++ K').
      assert (EK : Pb = K ++ (false, f) :: Us).
      { unfold Pb, K. rewrite EK', <- app_assoc. reflexivity. }
      assert (Elen : len (fstarts 0 Pb) - 1 = len (fstarts 0 K)).
      { rewrite EK, fstarts_app. simpl. rewrite (fstarts_allused _ _ HU), len_app.
        unfold len at 2. simpl. lia. }
      assert (HK : bsz P0 <= bsz K).
      { unfold K. rewrite bsz_app. pose proof (bsz_nonneg K'). lia. }
      rewrite Elen.
      assert (Hfn : f <> []).
      { rewrite Ebs', EK, !okb_app, okb_cons in Ok. simpl in Ok. tauto. }
      assert (EbsK : bs = K ++ (false, f) :: (Us ++ [(true, b)]) ++ R2).
      { rewrite Ebs', EK, <- !app_assoc. reflexivity. }
      assert (Eget : getz (unused s) (len (fstarts 0 K)) = Some (bsz K)).
      { rewrite Hu, EbsK, fstarts_app. cbn [fstarts fst snd]. now rewrite getz_app by reflexivity. }
      rewrite Eget.
      assert (Enext : next_index (counts s) (bsz K) = Some (bsz K + len f)).
      { rewrite Hc, EbsK. apply next_index_layout. exact Hfn. }
      rewrite Enext.
      pose proof (bsz_nonneg Us) as HUp. simpl snd in Hbp.
      assert (EPbK : bsz Pb = bsz K + len f + bsz Us).
      { rewrite EK, bsz_app, bsz_cons. simpl snd. lia. }
      simpl snd in Estop.
      replace (bsz K + len f <=? bsz (Pb ++ [(true, b)])) with true by lia.
      replace (bsz (Pb ++ [(true, b)]) =? bsz K + len f) with false by lia.
      rewrite Eprev.
      assert (Hin : exists start', range_inner fuel (counts s) (bsz P0) (len h) (bsz (Pb ++ [(true, b)]))
          (bsz K) (bsz Pb) (bsz (Pb ++ [(true, b)])) = Some start' /\
          exists W1 W2, Us ++ [(true, b)] = W1 ++ W2 /\ start' = bsz (Pb ++ [(true, b)]) - bsz W2 /\
            (W2 = [] \/ bsz W2 <= len h)).
      { pose proof (range_inner_ok Us K f [(true, b)] R2 (bsz P0) (len h)
                      (bsz (Pb ++ [(true, b)])) fuel) as RI.
        cbv zeta in RI.
        replace (bsz (K ++ [(false, f)]) + bsz (Us ++ [(true, b)]))
          with (bsz (Pb ++ [(true, b)])) in RI
          by (rewrite !bsz_app, !bsz_single; lia).
        replace (bsz (Pb ++ [(true, b)]) - bsz [(true, b)]) with (bsz Pb) in RI
          by (rewrite !bsz_app, bsz_single; lia).
        assert (EL : K ++ (false, f) :: Us ++ [(true, b)] ++ R2 = bs).
        { rewrite EbsK, <- app_assoc. reflexivity. }
        rewrite EL in RI. rewrite Hc. apply RI.
        - exact Ok.
        - exact HK.
        - apply (f_equal (@length _)) in EK'. rewrite app_length in EK'. simpl in EK'. lia.
        - exists (Us ++ [(true, b)]), []. split; [now rewrite app_nil_r|]. rewrite bsz_nil.
          split; [lia|auto]. }
      destruct Hin as (start' & Ein & W1 & W2 & EW & Est & HW2).
      rewrite Ein.
      destruct (Z.ltb_spec start' (bsz (Pb ++ [(true, b)]))) as [Hlt|Hge].
      * eexists; split; [reflexivity|]. simpl.
        assert (HW2n : W2 <> []) by (intros ->; rewrite bsz_nil in Est; lia).
        destruct HW2 as [HW2|HW2]; [congruence|].
        assert (HW2u : allused W2).
        { assert (HX : allused (W1 ++ W2)); [|apply allused_app in HX; tauto].
          rewrite <- EW. apply allused_app. split; [exact HU|repeat constructor]. }
        assert (exists M, R1 ++ [(true, b)] = M ++ W2) as [M EM].
        { destruct K' as [|k K'']; injection EK' as E1 E2.
          - exists W1. rewrite E2. exact EW.
          - exists (K'' ++ (false, f) :: W1). rewrite E2, <- !app_assoc. simpl. now rewrite EW. }
        exists M, W2, R2.
        assert (ES : bsz (Pb ++ [(true, b)]) = bsz (P0 ++ (false, h) :: M) + bsz W2).
        { rewrite <- EPb, EM, !bsz_app, !bsz_cons, bsz_app. lia. }
        rewrite EM, <- app_assoc. repeat split; auto; lia.
      * destruct (IH s bs P0 h ((true, b) :: R2) fuel) as (r & Er & Hr); auto.
        { rewrite Ebs, <- app_assoc. reflexivity. }
        { lia. }
        exists r. rewrite <- app_assoc. split; [|exact Hr].
        fold Pb in Er. rewrite Elen in Er. exact Er.
    + (* free block at the end: skip it *)
      assert (Ef : len (fstarts 0 (Pb ++ [(false, b)])) - 1 = len (fstarts 0 Pb)).
      { rewrite fstarts_app, len_app. simpl. unfold len at 2. simpl. lia. }
      rewrite Ef.
      assert (Eget : getz (unused s) (len (fstarts 0 Pb)) = Some (bsz Pb)).
      { rewrite Hu, Ebs', fstarts_app. cbn [fstarts fst snd]. now rewrite getz_app by reflexivity. }
      rewrite Eget.
      assert (Enext : next_index (counts s) (bsz Pb) = Some (bsz Pb + len b)).
      { rewrite Hc, Ebs'. apply next_index_layout. exact Hb. }
      rewrite Enext. simpl snd in Estop.
      replace (bsz Pb + len b <=? bsz (Pb ++ [(false, b)])) with true by lia.
      replace (bsz (Pb ++ [(false, b)]) =? bsz Pb + len b) with true by lia.
      rewrite Eprev.
      destruct (IH s bs P0 h ((false, b) :: R2) fuel) as (r & Er & Hr); auto.
      { rewrite Ebs, <- app_assoc. reflexivity. }
      { lia. }
      exists r. rewrite <- app_assoc. split; [|exact Hr]. exact Er.
Qed.

Lemma last_range_ok s bs P0 h R : bs = P0 ++ (false, h) :: R -> okb bs ->
  counts s = layout bs -> unused s = fstarts 0 bs ->
  exists r, last_range_smaller_than_hole s (bsz P0) = Some r /\ range_result_ok bs P0 h R r.
Proof.
  intros E Ok Hc Hu. unfold last_range_smaller_than_hole.
  assert (Hh : h <> []) by (rewrite E, okb_app, okb_cons in Ok; simpl in Ok; tauto).
  rewrite Hc, E, count_for_index_layout by exact Hh. simpl snd.
  assert (0 < len (unused s)).
  { rewrite Hu, E, fstarts_app, len_app. simpl. rewrite len_cons.
    pose proof (len_nonneg (fstarts 0 P0)). pose proof (len_nonneg (fstarts (bsz P0 + len h) R)). lia. }
  replace (0 <? len (unused s)) with true by lia.
  destruct (range_outer_ok R s bs P0 h [] (S (S (length (layout (P0 ++ (false, h) :: R))))))
    as (r & Er & Hr); auto.
  { now rewrite app_nil_r. }
  { pose proof (okb_len _ Ok). rewrite E in H0. rewrite <- layout_len in H0.
    rewrite len_app, len_cons in H0. unfold len in H0. lia. }
  exists r. rewrite app_nil_r in Hr. split; [|exact Hr].
  rewrite <- Er. unfold num_indices. rewrite Hc, Hu, layout_len, E. reflexivity.
Qed.

(** ** Effect of a move on the used blocks *)
Definition mv (e : event) (b : Z * list D) : Z * list D := (move_start e (fst b), snd b).
Definition msum (l : list (Z * list D)) : Z := fold_right (fun b a => fst b + a) 0 l.

Lemma msum_app a b : msum (a ++ b) = msum a + msum b.
Proof. induction a as [|x a IH]; simpl; [lia|]. rewrite IH; lia. Qed.
Lemma msum_perm a b : Permutation a b -> msum a = msum b.
Proof. induction 1; simpl; lia. Qed.

Lemma ublocks_range off bs b : okb bs -> In b (ublocks off bs) ->
  off <= fst b /\ fst b + len (snd b) <= off + bsz bs /\ snd b <> [].
Proof.
  intros Ok H. destruct (ublocks_split _ _ _ H) as (P & Q & -> & ->).
  apply okb_app in Ok as [_ Ok]. apply okb_cons in Ok as [Hb _]. simpl in Hb.
  rewrite bsz_app, bsz_cons. simpl. pose proof (bsz_nonneg P). pose proof (bsz_nonneg Q).
  split; [lia|]. split; [lia|exact Hb].
Qed.

Lemma mv_outside off bs s e t : okb bs -> off + bsz bs <= s \/ e <= off ->
  map (mv (EvMove s e t)) (ublocks off bs) = ublocks off bs.
Proof.
  intros Ok H. rewrite <- (map_id (ublocks off bs)) at 2. apply map_ext_in.
  intros [i b] Hin. pose proof (ublocks_range _ _ _ Ok Hin) as (H1 & H2 & H3). simpl in *.
  pose proof (len_pos _ H3). unfold mv. simpl.
  replace ((s <=? i) && (i <? e)) with false by lia. reflexivity.
Qed.

Lemma mv_inside off bs s e t : okb bs -> s <= off -> off + bsz bs <= e ->
  map (mv (EvMove s e t)) (ublocks off bs) = ublocks (off - s + t) bs.
Proof.
  intros Ok Hs He. revert off Ok Hs He. induction bs as [|b bs IH]; intros off Ok Hs He; [reflexivity|].
  apply okb_cons in Ok as [Hb Ok]. pose proof (len_pos _ Hb). pose proof (bsz_nonneg bs).
  rewrite bsz_cons in He. simpl.
  assert (E : map (mv (EvMove s e t)) (ublocks (off + len (snd b)) bs)
              = ublocks (off - s + t + len (snd b)) bs).
  { rewrite IH by (auto; lia). f_equal. lia. }
  destruct (fst b); [|exact E]. simpl. rewrite E. f_equal. unfold mv. simpl.
  replace ((s <=? off) && (off <? e)) with true by lia. reflexivity.
Qed.

Lemma msum_shift_le off off' bs : off' <= off -> msum (ublocks off' bs) <= msum (ublocks off bs).
Proof.
  revert off off'; induction bs as [|b bs IH]; intros off off' H; simpl; [lia|].
  specialize (IH (off + len (snd b)) (off' + len (snd b))).
  destruct (fst b); simpl; lia.
Qed.
Lemma msum_shift_lt off off' bs : off' < off -> allused bs -> bs <> [] ->
  msum (ublocks off' bs) < msum (ublocks off bs).
Proof.
  intros H HU N. destruct HU as [|b bs Hb HU]; [congruence|]. simpl. rewrite Hb. simpl.
  pose proof (msum_shift_le (off + len (snd b)) (off' + len (snd b)) bs). lia.
Qed.

Lemma skipn_len_ge {A} (X Y : list A) n : (n <= length X)%nat -> skipn n (X ++ Y) = skipn n X ++ Y.
Proof. intros H. rewrite skipn_app. replace (n - length X)%nat with 0%nat by lia. reflexivity. Qed.

Lemma init_layout A X B body v index count :
  index = len A -> count = len X -> 0 < count -> len body = count ->
  initialize_index (A ++ X ++ B) index count = Some (A ++ layout [(v, body : list D)] ++ B).
Proof.
  intros Hi Hc Hp Hb. rewrite initialize_index_app; auto.
  - simpl. rewrite app_nil_r. replace (length body) with (length X) by (unfold len in *; lia). reflexivity.
  - intros ->. unfold len in Hc; simpl in Hc; lia.
Qed.

Lemma data_len_layout bs : length (layout bs) = length (data bs).
Proof. pose proof (layout_len bs). unfold bsz, len in H. lia. Qed.

Lemma backfill_rep s arr bs P0 h R :
  Rep s arr bs -> unused s = fstarts 0 bs -> noadj false bs ->
  bs = P0 ++ (false, h) :: R -> allused P0 -> R <> [] ->
  exists s' e arr' bs', backfill_first_unused s = Some (s', [e]) /\
    replay_event d arr e = Some arr' /\ Rep s' arr' bs' /\
    Permutation (map (mv e) (ublocks 0 bs)) (ublocks 0 bs') /\
    msum (ublocks 0 bs') < msum (ublocks 0 bs) /\ fstarts 0 bs' <> [] /\
    exists M U T, R = M ++ U ++ T /\ allused U /\ U <> [] /\
      e = EvMove (bsz P0 + len h + bsz M) (bsz P0 + len h + bsz M + bsz U) (bsz P0) /\
      (M = [] \/ bsz U <= len h).
Proof.
  intros Rp Hu Hna Ebs HP0 HR.
  pose proof (rep_ok _ _ _ Rp) as Ok. pose proof (rep_counts _ _ _ Rp) as Hc.
  assert (Ok' : okb P0 /\ h <> [] /\ okb R).
  { rewrite Ebs, okb_app, okb_cons in Ok. exact Ok. }
  destruct Ok' as (OkP & Hh & OkR). pose proof (len_pos _ Hh) as Hhp.
  assert (Eu : unused s = bsz P0 :: fstarts (bsz P0 + len h) R).
  { rewrite Hu, Ebs, fstarts_app, (fstarts_allused _ _ HP0). reflexivity. }
  unfold backfill_first_unused. rewrite Eu.
  rewrite Hc, Ebs. rewrite count_for_index_layout by exact Hh. rewrite <- Ebs. simpl snd.
  destruct (last_range_ok s bs P0 h R Ebs Ok Hc Hu) as (r & Er & Hr). rewrite Er.
  destruct r as [[fs fe]|].
  - (* fill *)
    destruct Hr as (M & U & T & ER & HUn & HU & HUl & Efs & Efe).
    assert (OkMUT : okb M /\ okb U /\ okb T) by (rewrite ER, !okb_app in OkR; exact OkR).
    destruct OkMUT as (OkM & OkU & OkT). pose proof (okb_pos _ OkU HUn) as HUp.
    rewrite bsz_app, bsz_cons in Efs. simpl snd in Efs.
    pose proof (bsz_nonneg P0). pose proof (bsz_nonneg M). pose proof (bsz_nonneg T).
    replace (fe - fs) with (bsz U) by lia.
    set (n := bsz U) in *.
    assert (El : layout bs = layout P0 ++ repr (length h) ++ layout M ++ layout U ++ layout T).
    { rewrite Ebs, ER, !layout_app. simpl. now rewrite !layout_app. }
    assert (Hm : memmove (layout bs) (bsz P0) fs n
      = Some (layout P0 ++ layout U ++ skipn (Z.to_nat n) (repr (length h)) ++ layout M ++ layout U ++ layout T)).
    { rewrite (memmove_app _ (layout P0) (repr (length h) ++ layout M ++ layout U ++ layout T)
         (layout P0 ++ repr (length h) ++ layout M) (layout U) (layout T)).
      - rewrite skipn_len_ge; [reflexivity|]. rewrite repr_length. unfold len in HUl. lia.
      - exact El.
      - rewrite El, <- !app_assoc. reflexivity.
      - apply layout_len.
      - rewrite !len_app, !layout_len. unfold len at 1. rewrite repr_length. fold (len h). lia.
      - apply layout_len.
      - rewrite !len_app, !layout_len. unfold len at 1. rewrite repr_length. fold (len h). fold n. lia. }
    rewrite Hm.
    assert (Hskip : len (skipn (Z.to_nat n) (repr (length h))) = len h - n).
    { unfold len in *. rewrite skipn_length, repr_length. lia. }
    (* write the new hole over the old position of U *)
    assert (I1 : initialize_index
        (layout P0 ++ layout U ++ skipn (Z.to_nat n) (repr (length h)) ++ layout M ++ layout U ++ layout T) fs n
      = Some (layout P0 ++ layout U ++ skipn (Z.to_nat n) (repr (length h)) ++ layout M
              ++ layout [(false, data U)] ++ layout T)).
    { replace (layout P0 ++ layout U ++ skipn (Z.to_nat n) (repr (length h)) ++ layout M ++ layout U ++ layout T)
        with ((layout P0 ++ layout U ++ skipn (Z.to_nat n) (repr (length h)) ++ layout M) ++ layout U ++ layout T)
        by (rewrite <- !app_assoc; reflexivity).
      rewrite (init_layout _ _ _ (data U) false).
      - rewrite <- !app_assoc. reflexivity.
      - rewrite !len_app, !layout_len, Hskip. fold n. lia.
      - symmetry; apply layout_len.
      - exact HUp.
      - reflexivity. }
    rewrite I1.
    set (h' := skipn (Z.to_nat n) h).
    assert (Lh' : len h' = len h - n).
    { unfold h', len in *. rewrite skipn_length. lia. }
    assert (Ed : data bs = data P0 ++ h ++ data M ++ data U ++ data T).
    { rewrite Ebs, ER, !data_app. simpl. now rewrite !data_app. }
    assert (Hrep : replay_event d arr (EvMove fs fe (bsz P0))
      = Some (data P0 ++ data U ++ h' ++ data M ++ data U ++ data T)).
    { simpl. replace (bsz P0 <? fs) with true by lia. rewrite (rep_data _ _ _ Rp).
      replace (fe - fs) with n by lia.
      rewrite (memmove_app _ (data P0) (h ++ data M ++ data U ++ data T)
         (data P0 ++ h ++ data M) (data U) (data T)).
      - rewrite skipn_len_ge; [reflexivity|]. unfold len in HUl. lia.
      - exact Ed.
      - rewrite Ed, <- !app_assoc. reflexivity.
      - reflexivity.
      - rewrite !len_app. fold (bsz P0) (bsz M). lia.
      - reflexivity.
      - rewrite !len_app. fold (bsz U) (bsz M) (bsz T). fold n. lia. }
    assert (Hub : ublocks 0 bs = ublocks 0 P0 ++ ublocks (bsz P0 + len h) M ++ ublocks fs U ++ ublocks fe T).
    { rewrite Ebs, ER, !ublocks_app. cbn [ublocks fst snd]. rewrite !ublocks_app, !Z.add_0_l.
      replace (bsz P0 + len h + bsz M) with fs by lia.
      replace (fs + bsz U) with fe by lia. reflexivity. }
    assert (Hmv : map (mv (EvMove fs fe (bsz P0))) (ublocks 0 bs)
       = ublocks 0 P0 ++ ublocks (bsz P0 + len h) M ++ ublocks (bsz P0) U ++ ublocks fe T).
    { rewrite Hub, !map_app.
      rewrite (mv_outside 0 P0) by (auto; lia).
      rewrite (mv_outside _ M) by (auto; lia).
      rewrite (mv_inside fs U) by (auto; lia).
      rewrite (mv_outside fe T) by (auto; lia).
      do 3 f_equal. f_equal; f_equal; lia. }
    assert (Hms : msum (ublocks 0 P0) + (msum (ublocks (bsz P0 + len h) M) + (msum (ublocks (bsz P0) U) + msum (ublocks fe T)))
                  < msum (ublocks 0 bs)).
    { rewrite Hub, !msum_app. pose proof (msum_shift_lt fs (bsz P0) U). lia. }
    replace (bsz P0 + len h - (bsz P0 + n)) with (len h - n) by lia.
    destruct (Z.ltb_spec 0 (len h - n)) as [Hpos|Hz].
    + assert (I2 : initialize_index
          (layout P0 ++ layout U ++ skipn (Z.to_nat n) (repr (length h)) ++ layout M ++ layout [(false, data U)] ++ layout T)
          (bsz P0 + n) (len h - n)
        = Some (layout (P0 ++ U ++ (false, h') :: M ++ (false, data U) :: T))).
      { rewrite (app_assoc (layout P0)). rewrite (init_layout _ _ _ h' false).
        - rewrite !layout_app.
          change (layout ((false, h') :: M ++ (false, data U) :: T))
            with (layout [(false, h')] ++ [] ++ layout (M ++ (false, data U) :: T)) || idtac.
          change ((false, h') :: M ++ (false, data U) :: T) with ([(false, h')] ++ M ++ [(false, data U)] ++ T).
          rewrite !layout_app, <- !app_assoc. reflexivity.
        - rewrite len_app, !layout_len. fold n. lia.
        - symmetry; exact Hskip.
        - exact Hpos.
        - exact Lh'. }
      rewrite I2. cbn [counts].
      assert (Okn : okb (P0 ++ U ++ (false, h') :: M ++ (false, data U) :: T)).
      { rewrite !okb_app, okb_cons, okb_app, okb_cons. simpl.
        assert (h' <> []) by (intros E0; rewrite E0 in Lh'; unfold len in Lh' at 1; simpl in Lh'; lia).
        assert (data U <> []) by (intros E0; unfold n, bsz in HUp; rewrite E0 in HUp; discriminate HUp).
        tauto. }
      rewrite verify_ok by exact Okn.
      eexists _, (EvMove fs fe (bsz P0)), _, (P0 ++ U ++ (false, h') :: M ++ (false, data U) :: T).
      assert (Hubn : ublocks 0 (P0 ++ U ++ (false, h') :: M ++ (false, data U) :: T)
        = ublocks 0 P0 ++ ublocks (bsz P0) U ++ ublocks (bsz P0 + len h) M ++ ublocks fe T).
      { rewrite !ublocks_app. cbn [ublocks fst snd]. rewrite ublocks_app. cbn [ublocks fst snd].
        fold n. rewrite Z.add_0_l. fold (bsz U). fold n.
        replace (bsz P0 + n + len h') with (bsz P0 + len h) by lia.
        replace (bsz P0 + len h + bsz M + n) with fe by lia. reflexivity. }
      split; [reflexivity|]. split; [exact Hrep|]. split; [|split; [|split; [|split]]].
      * constructor; cbn [counts unused].
        -- reflexivity.
        -- rewrite !data_app. simpl. rewrite data_app. reflexivity.
        -- exact Okn.
        -- rewrite ER, !fstarts_app, (fstarts_allused _ _ HP0), !(fstarts_allused _ _ HU).
           cbn [fstarts fst snd app]. rewrite fstarts_app. cbn [fstarts fst snd].
           fold (bsz U). fold n. rewrite Z.add_0_l.
           replace (bsz P0 + n + len h') with (bsz P0 + len h) by lia.
           replace (bsz P0 + len h + bsz M) with fs by lia.
           rewrite app_comm_cons.
           etransitivity; [symmetry; apply Permutation_cons_append|].
           apply perm_skip. apply Permutation_middle.
      * rewrite Hmv, Hubn. apply Permutation_app_head.
        rewrite !app_assoc. apply Permutation_app_tail. apply Permutation_app_comm.
      * rewrite Hubn, !msum_app. lia.
      * rewrite !fstarts_app, (fstarts_allused _ _ HP0), !(fstarts_allused _ _ HU). discriminate.
      * exists M, U, T. repeat (split; [assumption|]). split; [|now right]. f_equal; lia.
    + assert (Ehn : len h = n) by lia.
      assert (Eskip0 : skipn (Z.to_nat n) (repr (length h)) = []) by (apply len_zero; lia).
      assert (Eh0 : h' = []) by (apply len_zero; lia).
      rewrite Eskip0. cbn [app].
      assert (Elay : layout P0 ++ layout U ++ layout M ++ layout [(false, data U)] ++ layout T
         = layout (P0 ++ U ++ M ++ (false, data U) :: T)).
      { change (M ++ (false, data U) :: T) with (M ++ [(false, data U)] ++ T). now rewrite !layout_app. }
      rewrite Elay. cbn [counts].
      assert (Okn : okb (P0 ++ U ++ M ++ (false, data U) :: T)).
      { rewrite !okb_app, okb_cons. simpl.
        assert (data U <> []) by (intros E0; unfold n, bsz in HUp; rewrite E0 in HUp; discriminate HUp).
        tauto. }
      rewrite verify_ok by exact Okn.
      eexists _, (EvMove fs fe (bsz P0)), _, (P0 ++ U ++ M ++ (false, data U) :: T).
      assert (Hubn : ublocks 0 (P0 ++ U ++ M ++ (false, data U) :: T)
        = ublocks 0 P0 ++ ublocks (bsz P0) U ++ ublocks (bsz P0 + len h) M ++ ublocks fe T).
      { rewrite !ublocks_app. cbn [ublocks fst snd].
        fold (bsz U). fold n. rewrite Z.add_0_l.
        replace (bsz P0 + n) with (bsz P0 + len h) by lia.
        replace (bsz P0 + len h + bsz M + n) with fe by lia. reflexivity. }
      split; [reflexivity|]. split; [exact Hrep|]. split; [|split; [|split; [|split]]].
      * constructor; cbn [counts unused].
        -- reflexivity.
        -- rewrite Eh0, !data_app. simpl. reflexivity.
        -- exact Okn.
        -- rewrite ER, !fstarts_app, (fstarts_allused _ _ HP0), !(fstarts_allused _ _ HU).
           cbn [fstarts fst snd app].
           fold (bsz U). fold n. rewrite Z.add_0_l.
           replace (bsz P0 + n) with (bsz P0 + len h) by lia.
           replace (bsz P0 + len h + bsz M) with fs by lia.
           apply Permutation_middle.
      * rewrite Hmv, Hubn. apply Permutation_app_head.
        rewrite !app_assoc. apply Permutation_app_tail. apply Permutation_app_comm.
      * rewrite Hubn, !msum_app. lia.
      * rewrite !fstarts_app, (fstarts_allused _ _ HP0), !(fstarts_allused _ _ HU).
        cbn [fstarts fst snd app]. destruct (fstarts _ M); discriminate.
      * exists M, U, T. repeat (split; [assumption|]). split; [|now right]. f_equal; lia.
  - (* shift *)
    clear Hr. rewrite Ebs. rewrite next_index_layout by exact Hh. rewrite <- Ebs. simpl snd.
    destruct (split_used R) as (Us & R' & ER & HU & HR').
    assert (OkUR : okb Us /\ okb R') by (rewrite ER, okb_app in OkR; exact OkR).
    destruct OkUR as (OkU & OkR').
    assert (HUn : Us <> []).
    { intros ->. simpl in ER. subst R'. destruct HR' as [HR'|(f & Q & HR')]; [congruence|].
      rewrite Ebs, HR' in Hna. clear - Hna HP0.
      induction HP0 as [|b P Hb HP IH]; simpl in Hna.
      - destruct Hna as [_ [Hna _]]. specialize (Hna eq_refl). discriminate.
      - destruct Hna as [_ Hna]. rewrite Hb in Hna. simpl in Hna. auto. }
    pose proof (okb_pos _ OkU HUn) as HUp.
    pose proof (bsz_nonneg P0). pose proof (bsz_nonneg R').
    set (fs := bsz P0 + len h). set (n := bsz Us) in *.
    assert (Enh : match fstarts fs R with u1 :: _ => u1 | [] => num_indices s end = fs + n).
    { rewrite ER, fstarts_app, (fstarts_allused _ _ HU). simpl.
      destruct HR' as [->|(f & Q & ->)]; [|reflexivity].
      simpl. unfold num_indices. rewrite Hc, layout_len, Ebs, ER, app_nil_r, bsz_app, bsz_cons.
      simpl snd. fold n. unfold fs. lia. }
    rewrite Enh. replace (fs + n - fs) with n by lia.
    assert (El : layout bs = layout P0 ++ (repr (length h) ++ layout Us) ++ layout R').
    { rewrite Ebs, ER, !layout_app. simpl. rewrite !layout_app, <- app_assoc. reflexivity. }
    assert (Ed : data bs = data P0 ++ (h ++ data Us) ++ data R').
    { rewrite Ebs, ER, !data_app. simpl. rewrite !data_app, <- app_assoc. reflexivity. }
    set (X := skipn (Z.to_nat n) (repr (length h) ++ layout Us)).
    set (h' := skipn (Z.to_nat n) (h ++ data Us)).
    assert (LX : len X = len h).
    { unfold X, len. rewrite skipn_length, app_length, repr_length, data_len_layout.
      unfold n, bsz, len. lia. }
    assert (Lh : len h' = len h).
    { unfold h', len. rewrite skipn_length, app_length. unfold n, bsz, len. lia. }
    assert (Hm : memmove (layout bs) (bsz P0) fs n = Some (layout P0 ++ layout Us ++ X ++ layout R')).
    { rewrite (memmove_app _ (layout P0) ((repr (length h) ++ layout Us) ++ layout R')
         (layout P0 ++ repr (length h)) (layout Us) (layout R')).
      - unfold X. rewrite skipn_len_ge; [reflexivity|].
        rewrite app_length, repr_length, data_len_layout. unfold n, bsz, len. lia.
      - exact El.
      - rewrite El, <- !app_assoc. reflexivity.
      - apply layout_len.
      - rewrite !len_app, !layout_len. unfold len at 1. rewrite repr_length. fold (len h). reflexivity.
      - apply layout_len.
      - rewrite !len_app, !layout_len. fold n. pose proof (len_nonneg (repr (length h))). lia. }
    rewrite Hm. replace (fs + n - (bsz P0 + n)) with (len h) by (unfold fs; lia).
    assert (I1 : initialize_index (layout P0 ++ layout Us ++ X ++ layout R') (bsz P0 + n) (len h)
      = Some (layout (P0 ++ Us ++ (false, h') :: R'))).
    { rewrite app_assoc, (init_layout _ _ _ h' false).
      - change ((false, h') :: R') with ([(false, h')] ++ R').
        rewrite !layout_app, <- !app_assoc. reflexivity.
      - rewrite len_app, !layout_len. reflexivity.
      - symmetry; exact LX.
      - exact Hhp.
      - exact Lh. }
    rewrite I1. cbn [counts].
    assert (Okn : okb (P0 ++ Us ++ (false, h') :: R')).
    { rewrite !okb_app, okb_cons. simpl.
      assert (h' <> []) by (intros E0; rewrite E0 in Lh; unfold len in Lh at 1; simpl in Lh; lia).
      tauto. }
    rewrite verify_ok by exact Okn.
    eexists _, (EvMove fs (fs + n) (bsz P0)), _, (P0 ++ Us ++ (false, h') :: R').
    assert (Hub : ublocks 0 bs = ublocks 0 P0 ++ ublocks fs Us ++ ublocks (fs + n) R').
    { rewrite Ebs, ER, !ublocks_app. cbn [ublocks fst snd]. rewrite !ublocks_app, !Z.add_0_l. reflexivity. }
    assert (Hubn : ublocks 0 (P0 ++ Us ++ (false, h') :: R')
      = ublocks 0 P0 ++ ublocks (bsz P0) Us ++ ublocks (fs + n) R').
    { rewrite !ublocks_app. cbn [ublocks fst snd]. rewrite !Z.add_0_l. fold n.
      replace (bsz P0 + n + len h') with (fs + n) by (unfold fs; lia). reflexivity. }
    split; [reflexivity|]. split; [|split; [|split; [|split; [|split]]]].
    + simpl. replace (bsz P0 <? fs) with true by (unfold fs; lia). rewrite (rep_data _ _ _ Rp).
      replace (fs + n - fs) with n by lia.
      apply (memmove_app _ (data P0) ((h ++ data Us) ++ data R')
         (data P0 ++ h) (data Us) (data R')).
      * exact Ed.
      * rewrite Ed, <- !app_assoc. reflexivity.
      * reflexivity.
      * rewrite !len_app. reflexivity.
      * reflexivity.
      * rewrite !len_app. fold (bsz Us). fold n. pose proof (len_nonneg (data R')). lia.
    + constructor; cbn [counts unused].
      * reflexivity.
      * rewrite !data_app. simpl. unfold h'. rewrite skipn_len_ge; [reflexivity|].
        rewrite app_length. unfold n, bsz, len. lia.
      * exact Okn.
      * rewrite ER, !fstarts_app, (fstarts_allused _ _ HP0), !(fstarts_allused _ _ HU).
        cbn [fstarts fst snd app]. fold n. rewrite Z.add_0_l.
        replace (bsz P0 + n + len h') with (bsz P0 + len h + n) by lia. reflexivity.
    + rewrite Hub, Hubn, !map_app. rewrite (mv_outside 0 P0) by (auto; unfold fs; lia).
      rewrite (mv_inside fs Us) by (auto; lia). rewrite (mv_outside (fs + n) R') by (auto; lia).
      replace (fs - fs + bsz P0) with (bsz P0) by lia. reflexivity.
    + rewrite Hub, Hubn, !msum_app. pose proof (msum_shift_lt fs (bsz P0) Us). unfold fs in *. lia.
    + rewrite !fstarts_app, (fstarts_allused _ _ HP0), !(fstarts_allused _ _ HU). discriminate.
    + exists [], Us, R'. repeat (split; [assumption|]). split; [|now left].
      change (bsz []) with 0. unfold fs. f_equal; unfold n; change (bsz []) with 0; lia.
Qed.
End Defrag.
