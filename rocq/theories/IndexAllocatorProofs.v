(** Refinement of the concrete index allocator to a list of blocks. *)
From Verif Require Import Base BaseFacts IndexAllocatorModel IndexAllocatorSpec.
From Coq Require Import Sorted.

(** counts_ entries of one block of size n. *)
Definition repr (n : nat) : list Z :=
  match n with O => [] | S m => Z.of_nat n :: map (fun j => - Z.of_nat j) (seq 1 m) end.

Lemma repr_length n : length (repr n) = n.
Proof. destruct n; simpl; [reflexivity|]. now rewrite map_length, seq_length. Qed.

Section Blocks.
Context {D : Type}.

(** (used?, contents) *)
Local Notation blk := (bool * list D)%type.
Implicit Types (bs P Q R : list blk).

Definition layout bs : list Z := flat_map (fun b => repr (length (snd b))) bs.
Definition data bs : list D := flat_map snd bs.
Definition bsz bs : Z := len (data bs).
Fixpoint fstarts (off : Z) bs : list Z :=
  match bs with
  | [] => []
  | b :: r => if fst b then fstarts (off + len (snd b)) r
              else off :: fstarts (off + len (snd b)) r
  end.
Fixpoint ublocks (off : Z) bs : list (Z * list D) :=
  match bs with
  | [] => []
  | b :: r => if fst b then (off, snd b) :: ublocks (off + len (snd b)) r
              else ublocks (off + len (snd b)) r
  end.
Definition okb bs := Forall (fun b => snd b <> []) bs.
Definition allused bs := Forall (fun b : blk => fst b = true) bs.
Definition allfree bs := Forall (fun b : blk => fst b = false) bs.

Lemma layout_app P Q : layout (P ++ Q) = layout P ++ layout Q.
Proof. apply flat_map_app. Qed.
Lemma data_app P Q : data (P ++ Q) = data P ++ data Q.
Proof. apply flat_map_app. Qed.
Lemma bsz_nil : bsz [] = 0. Proof. reflexivity. Qed.
Lemma bsz_app P Q : bsz (P ++ Q) = bsz P + bsz Q.
Proof. unfold bsz. rewrite data_app. apply len_app. Qed.
Lemma bsz_cons b Q : bsz (b :: Q) = len (snd b) + bsz Q.
Proof. unfold bsz. simpl. apply len_app. Qed.
Lemma bsz_nonneg P : 0 <= bsz P. Proof. apply len_nonneg. Qed.

Lemma layout_len P : len (layout P) = bsz P.
Proof.
  induction P as [|b P IH]; [reflexivity|].
  rewrite bsz_cons. simpl. rewrite len_app, IH. f_equal.
  unfold len. now rewrite repr_length.
Qed.

Lemma fstarts_app off P Q : fstarts off (P ++ Q) = fstarts off P ++ fstarts (off + bsz P) Q.
Proof.
  revert off; induction P as [|b P IH]; intros off; simpl.
  - now rewrite bsz_nil, Z.add_0_r.
  - rewrite bsz_cons, IH. destruct (fst b); simpl; rewrite Z.add_assoc; reflexivity.
Qed.

Lemma ublocks_app off P Q : ublocks off (P ++ Q) = ublocks off P ++ ublocks (off + bsz P) Q.
Proof.
  revert off; induction P as [|b P IH]; intros off; simpl.
  - now rewrite bsz_nil, Z.add_0_r.
  - rewrite bsz_cons, IH. destruct (fst b); simpl; rewrite Z.add_assoc; reflexivity.
Qed.

Lemma fstarts_allused off P : allused P -> fstarts off P = [].
Proof.
  intros H; revert off; induction H as [|b P Hb HP IH]; intros off; simpl; [reflexivity|].
  now rewrite Hb, IH.
Qed.
Lemma ublocks_allfree off P : allfree P -> ublocks off P = [].
Proof.
  intros H; revert off; induction H as [|b P Hb HP IH]; intros off; simpl; [reflexivity|].
  now rewrite Hb, IH.
Qed.

Lemma okb_app P Q : okb (P ++ Q) <-> okb P /\ okb Q.
Proof. apply Forall_app. Qed.
Lemma okb_cons b Q : okb (b :: Q) <-> snd b <> [] /\ okb Q.
Proof. unfold okb. split; intros H; [inversion H; auto|constructor; tauto]. Qed.
Lemma okb_pos P : okb P -> P <> [] -> 0 < bsz P.
Proof.
  intros H N. destruct P as [|b P]; [congruence|].
  apply okb_cons in H. destruct H as [Hb _]. rewrite bsz_cons.
  pose proof (len_pos _ Hb). pose proof (bsz_nonneg P). lia.
Qed.
Lemma okb_len P : okb P -> len P <= bsz P.
Proof.
  induction P as [|b P IH]; intros H; [reflexivity|].
  apply okb_cons in H. destruct H as [Hb HP]. rewrite bsz_cons, len_cons.
  pose proof (len_pos _ Hb). specialize (IH HP). lia.
Qed.

Lemma fstarts_ge off P x : In x (fstarts off P) -> off <= x.
Proof.
  revert off; induction P as [|b P IH]; intros off; simpl; [tauto|].
  pose proof (len_nonneg (snd b)).
  destruct (fst b); intros H'; [|destruct H' as [->|H']; [lia|]]; apply IH in H'; lia.
Qed.

Lemma fstarts_split off bs u : In u (fstarts off bs) ->
  exists P b Q, bs = P ++ (false, b) :: Q /\ u = off + bsz P.
Proof.
  revert off; induction bs as [|[v b] r IH]; intros off; simpl; [tauto|].
  destruct v; simpl; intros H.
  - apply IH in H as (P & b' & Q & -> & ->).
    exists ((true, b) :: P), b', Q. rewrite bsz_cons. simpl. split; [reflexivity|lia].
  - destruct H as [<-|H].
    + exists [], b, r. rewrite bsz_nil. split; [reflexivity|lia].
    + apply IH in H as (P & b' & Q & -> & ->).
      exists ((false, b) :: P), b', Q. rewrite bsz_cons. simpl. split; [reflexivity|lia].
Qed.

Lemma ublocks_split off bs u : In u (ublocks off bs) ->
  exists P Q, bs = P ++ (true, snd u) :: Q /\ fst u = off + bsz P.
Proof.
  revert off; induction bs as [|[v b] r IH]; intros off; simpl; [tauto|].
  destruct v; simpl; intros H.
  - destruct H as [<-|H].
    + exists [], r. rewrite bsz_nil. simpl. split; [reflexivity|lia].
    + apply IH in H as (P & Q & -> & ->).
      exists ((true, b) :: P), Q. rewrite bsz_cons. simpl. split; [reflexivity|lia].
  - apply IH in H as (P & Q & -> & ->).
    exists ((false, b) :: P), Q. rewrite bsz_cons. simpl. split; [reflexivity|lia].
Qed.

(** ** Reading counts at block boundaries *)

Lemma repr_cons n : (0 < n)%nat -> exists t, repr n = Z.of_nat n :: t.
Proof. destruct n; [lia|]. simpl. eauto. Qed.

Lemma getz_layout P b Q : snd b <> [] ->
  getz (layout (P ++ b :: Q)) (bsz P) = Some (len (snd b)).
Proof.
  intros H. rewrite layout_app. simpl.
  destruct (repr_cons (length (snd b))) as [t E]; [destruct (snd b); simpl; [congruence|lia]|].
  rewrite E. simpl. apply getz_app. symmetry; apply layout_len.
Qed.

Lemma next_index_layout P b Q : snd b <> [] ->
  next_index (layout (P ++ b :: Q)) (bsz P) = Some (bsz P + len (snd b)).
Proof.
  intros H. unfold next_index. rewrite getz_layout by assumption.
  pose proof (len_pos _ H). now replace (0 <? len (snd b)) with true by lia.
Qed.

Lemma count_for_index_layout P b Q : snd b <> [] ->
  count_for_index (layout (P ++ b :: Q)) (bsz P) = Some (len (snd b)).
Proof.
  intros H. unfold count_for_index. rewrite getz_layout by assumption.
  pose proof (len_pos _ H). now replace (0 <? len (snd b)) with true by lia.
Qed.

Lemma repr_last n : (0 < n)%nat ->
  exists t x, repr n = t ++ [x] /\ length t = (n - 1)%nat /\
    ((n = 1%nat /\ x = 1) \/ ((1 < n)%nat /\ x = - (Z.of_nat n - 1))).
Proof.
  intros H. destruct n as [|[|n]]; [lia| |].
  - exists [], 1. simpl. auto.
  - exists (Z.of_nat (S (S n)) :: map (fun j => - Z.of_nat j) (seq 1 n)), (- (Z.of_nat (S (S n)) - 1)).
    split; [|split; [simpl; rewrite map_length, seq_length; lia|right; lia]].
    unfold repr. rewrite seq_S, map_app.
    cbn [app map]. do 3 f_equal. lia.
Qed.

Lemma prev_index_layout P b Q : snd b <> [] ->
  prev_index (layout (P ++ b :: Q)) (bsz P + len (snd b)) = Some (bsz P).
Proof.
  intros H. unfold prev_index. pose proof (len_pos _ H) as Hp.
  pose proof (bsz_nonneg P). pose proof (bsz_nonneg Q).
  rewrite layout_len, bsz_app, bsz_cons.
  replace ((0 <? bsz P + len (snd b)) && (bsz P + len (snd b) <=? bsz P + (len (snd b) + bsz Q)))
    with true by lia.
  rewrite layout_app. simpl.
  destruct (repr_last (length (snd b))) as (t & x & E & Lt & Hx); [unfold len in Hp; lia|].
  rewrite E.
  replace (layout P ++ (t ++ [x]) ++ layout Q) with ((layout P ++ t) ++ x :: layout Q)
    by (rewrite <- !app_assoc; reflexivity).
  rewrite getz_app by (rewrite len_app, layout_len; unfold len in *; lia).
  destruct Hx as [[Hsz ->]|[Hsz ->]].
  - replace (_ || _ || _) with true by lia. simpl.
    f_equal. unfold len; lia.
  - replace (_ || _ || _) with true by lia.
    destruct (Z.ltb_spec 0 (- (Z.of_nat (length (snd b)) - 1))); [lia|].
    f_equal. unfold len; lia.
Qed.

Lemma init_rest_app n : forall A X B index i,
  length X = n -> len A = index + i -> 0 <= i ->
  init_rest (A ++ X ++ B) index i n
  = Some (A ++ map (fun j => - Z.of_nat j) (seq (Z.to_nat i) n) ++ B).
Proof.
  induction n as [|n IH]; intros A X B index i LX LA Hi.
  - destruct X; [reflexivity|discriminate].
  - destruct X as [|x X]; [discriminate|]. simpl in LX. injection LX as LX.
    simpl. rewrite setz_app by lia.
    replace (A ++ - i :: X ++ B) with ((A ++ [- i]) ++ X ++ B) by now rewrite <- app_assoc.
    rewrite IH; [|assumption|rewrite len_app; unfold len at 2; simpl; lia|lia].
    rewrite <- app_assoc. do 2 f_equal. simpl. f_equal; [lia|].
    do 3 f_equal. lia.
Qed.

Lemma initialize_index_app A X B index count :
  X <> [] -> index = len A -> count = len X ->
  initialize_index (A ++ X ++ B) index count = Some (A ++ repr (length X) ++ B).
Proof.
  intros HX -> ->. destruct X as [|x X]; [congruence|].
  unfold initialize_index. cbn [app]. rewrite setz_app by reflexivity.
  replace (A ++ len (x :: X) :: X ++ B) with ((A ++ [len (x :: X)]) ++ X ++ B)
    by now rewrite <- app_assoc.
  replace (Z.to_nat (len (x :: X) - 1)) with (length X) by (rewrite len_cons; unfold len; lia).
  rewrite init_rest_app.
  - rewrite <- app_assoc. reflexivity.
  - reflexivity.
  - rewrite len_app. reflexivity.
  - lia.
Qed.

Lemma initialize_block P G Q body index count :
  index = bsz P -> count = bsz G -> 0 < bsz G -> len body = bsz G ->
  initialize_index (layout (P ++ G ++ Q)) index count = Some (layout (P ++ (false, body) :: Q))
  /\ forall v, layout (P ++ (v, body) :: Q) = layout (P ++ (false, body) :: Q).
Proof.
  intros -> -> Hpos Hl. split.
  - rewrite !layout_app. rewrite initialize_index_app.
    + simpl. do 4 f_equal. rewrite <- (len_to_nat body), Hl.
      rewrite <- layout_len, len_to_nat. reflexivity.
    + intros E. rewrite <- layout_len, E in Hpos. discriminate Hpos.
    + symmetry. apply layout_len.
    + symmetry. apply layout_len.
  - intros v. rewrite !layout_app. reflexivity.
Qed.

Lemma layout_flag P v v' body Q : layout (P ++ (v, body) :: Q) = layout (P ++ (v', body) :: Q).
Proof. rewrite !layout_app. reflexivity. Qed.

Lemma layout_ext bs bs' : map (fun b => length (snd b)) bs = map (fun b => length (snd b)) bs' ->
  layout bs = layout bs'.
Proof.
  revert bs'; induction bs as [|b bs IH]; intros [|b' bs'] E; simpl in *; try discriminate; auto.
  injection E as E1 E2. now rewrite E1, (IH _ E2).
Qed.

(** ** Alloc *)

Lemma alloc_scan_ok c n l : forall pos best,
  (forall u, In u l -> exists k, count_for_index c u = Some k /\ 0 < k) ->
  (forall p e, best = Some (p, e) -> 0 < e) ->
  exists r, alloc_scan c n l pos best = Some r /\
  match r with
  | ScanExact p u => exists q, p = (pos + q)%nat /\ nth_error l q = Some u /\ count_for_index c u = Some n
  | ScanBest None => best = None /\ forall u k, In u l -> count_for_index c u = Some k -> k < n
  | ScanBest (Some (p, e)) =>
      0 < e /\
      (best = Some (p, e) \/
       exists q u, p = (pos + q)%nat /\ nth_error l q = Some u /\ count_for_index c u = Some (n + e)) /\
      (forall p' e', best = Some (p', e') -> e <= e') /\
      (forall u k, In u l -> count_for_index c u = Some k -> k <> n /\ (n <= k -> e <= k - n))
  end.
Proof.
  induction l as [|u l IH]; intros pos best Hl Hb; simpl.
  - eexists; split; [reflexivity|]. destruct best as [[p e]|].
    + split; [now apply (Hb p)|]. split; [auto|]. split.
      * intros p' e' E; injection E as <- <-; lia.
      * intros u k [].
    + split; [reflexivity|]. intros u k [].
  - destruct (Hl u (or_introl eq_refl)) as (k & Hk & Hkp). rewrite Hk.
    assert (Hl' : forall v, In v l -> exists k, count_for_index c v = Some k /\ 0 < k)
      by (intros v Hv; apply Hl; right; exact Hv).
    destruct (Z.ltb_spec (k - n) 0) as [Hlt|Hge].
    + destruct (IH (S pos) best Hl' Hb) as (r & Er & Hr). exists r; split; [exact Er|].
      destruct r as [p u'|[[p e]|]].
      * destruct Hr as (q & -> & Hq & Hc). exists (S q). split; [lia|]. auto.
      * destruct Hr as (H1 & H2 & H3 & H4). split; [exact H1|]. split; [|split; [exact H3|]].
        -- destruct H2 as [H2|(q & u' & -> & Hq & Hc)]; [auto|right].
           exists (S q), u'. split; [lia|]. auto.
        -- intros u' k' [<-|Hin] Hk'; [|eauto]. rewrite Hk in Hk'. injection Hk' as <-. lia.
      * destruct Hr as (H1 & H2). split; [exact H1|].
        intros u' k' [<-|Hin] Hk'; [|eauto]. rewrite Hk in Hk'. injection Hk' as <-. lia.
    + destruct (Z.eqb_spec (k - n) 0) as [He|Hne].
      * exists (ScanExact pos u). split; [reflexivity|]. exists 0%nat. simpl.
        split; [lia|]. split; [reflexivity|]. rewrite Hk. f_equal; lia.
      * set (better := match best with None => true | Some (_, least) => k - n <? least end).
        set (best' := if better then Some (pos, k - n) else best).
        assert (Hb' : forall p e, best' = Some (p, e) -> 0 < e).
        { unfold best'. destruct better; [|exact Hb]. intros p e E; injection E as <- <-; lia. }
        destruct (IH (S pos) best' Hl' Hb') as (r & Er & Hr). exists r; split; [exact Er|].
        destruct r as [p u'|[[p e]|]].
        -- destruct Hr as (q & -> & Hq & Hc). exists (S q). split; [lia|]. auto.
        -- destruct Hr as (H1 & H2 & H3 & H4). split; [exact H1|].
           assert (Hle : e <= k - n).
           { unfold best', better in H3. destruct best as [[p0 e0]|].
             - destruct (Z.ltb_spec (k - n) e0).
               + apply (H3 pos); reflexivity.
               + specialize (H3 p0 e0 eq_refl). lia.
             - apply (H3 pos); reflexivity. }
           split; [|split].
           ++ destruct H2 as [H2|(q & u' & -> & Hq & Hc)].
              ** unfold best' in H2. destruct better; [|auto]. right.
                 injection H2 as <- <-. exists 0%nat, u. simpl. split; [lia|].
                 split; [reflexivity|]. rewrite Hk. f_equal; lia.
              ** right. exists (S q), u'. split; [lia|]. auto.
           ++ intros p' e' ->. unfold best', better in H3.
              destruct (Z.ltb_spec (k - n) e'); [lia|]. exact (H3 p' e' eq_refl).
           ++ intros u' k' [<-|Hin] Hk'; [|eauto]. rewrite Hk in Hk'. injection Hk' as <-.
              split; [lia|]. intros _; exact Hle.
        -- destruct Hr as (H1 & H2). exfalso. unfold best', better in H1.
           destruct best as [[p0 e0]|]; [|discriminate].
           destruct (k - n <? e0); discriminate.
Qed.

(** The representation relation. *)
Record Rep (s : alloc_state) (arr : list D) bs : Prop := {
  rep_counts : counts s = layout bs;
  rep_data : arr = data bs;
  rep_ok : okb bs;
  rep_unused : Permutation (unused s) (fstarts 0 bs) }.

Lemma rep_count_free s arr bs u : Rep s arr bs -> In u (unused s) ->
  exists P b Q, bs = P ++ (false, b) :: Q /\ u = bsz P /\
    count_for_index (counts s) u = Some (len b) /\ 0 < len b.
Proof.
  intros R H. pose proof (Permutation_in _ (rep_unused _ _ _ R) H) as H'.
  apply fstarts_split in H' as (P & b & Q & E & Eu). rewrite Z.add_0_l in Eu.
  exists P, b, Q. split; [exact E|]. split; [exact Eu|].
  pose proof (rep_ok _ _ _ R) as Ok. rewrite E in Ok. apply okb_app in Ok as [_ Ok].
  apply okb_cons in Ok as [Hb _]. simpl in Hb.
  rewrite (rep_counts _ _ _ R), E, Eu, count_for_index_layout by exact Hb.
  simpl. split; [reflexivity|]. now apply len_pos.
Qed.

Lemma perm_mid (x : Z) X Y F1 F2 : Permutation (X ++ x :: Y) (F1 ++ x :: F2) ->
  Permutation (X ++ Y) (F1 ++ F2).
Proof. apply Permutation_app_inv. Qed.

Variable d : D.

(** What Alloc does to the block list. *)
Lemma alloc_rep s arr bs n : Rep s arr bs -> 0 < n ->
  exists s' i evs arr' bs', alloc s n = Some (s', i, evs) /\
    replay d arr evs = Some arr' /\ Rep s' arr' bs' /\
    ((exists P b Q, bs = P ++ (false, b) :: Q /\ bs' = P ++ (true, b) :: Q /\
        i = bsz P /\ len b = n /\ evs = []) \/
     (exists P b1 b2 Q, bs = P ++ (false, b1 ++ b2) :: Q /\ 
        bs' = P ++ (true, b1) :: (false, b2) :: Q /\ i = bsz P /\ len b1 = n /\ evs = [] /\
        (forall u k, In u (unused s) -> count_for_index (counts s) u = Some k ->
           k <> n /\ (n <= k -> n + len b2 <= k))) \/
     (bs' = bs ++ [(true, repeat d (Z.to_nat n))] /\ i = bsz bs /\ evs = [EvSetNum (i + n)] /\
        (forall u k, In u (unused s) -> count_for_index (counts s) u = Some k -> k < n))).
Proof.
  intros R Hn. unfold alloc.
  destruct (alloc_scan_ok (counts s) n (unused s) 0 None) as (r & Er & Hr).
  { intros u Hu. destruct (rep_count_free _ _ _ _ R Hu) as (_ & b & _ & _ & _ & H & H'). eauto. }
  { discriminate. }
  rewrite Er. destruct r as [p u|[[p e]|]].
  - destruct Hr as (q & -> & Hq & Hc). simpl.
    pose proof (nth_error_In _ _ Hq) as Hin.
    destruct (rep_count_free _ _ _ _ R Hin) as (P & b & Q & E & Eu & Hcb & _).
    rewrite Hc in Hcb. injection Hcb as Hcb.
    apply nth_error_split in Hq as (X & Y & EX & LX).
    exists {| counts := counts s; unused := erase_at (unused s) q |}, u, [], arr, (P ++ (true, b) :: Q).
    split; [reflexivity|]. split; [reflexivity|]. split.
    + constructor; cbn [counts unused].
      * rewrite (rep_counts _ _ _ R), E. apply layout_flag.
      * rewrite (rep_data _ _ _ R), E, !data_app. reflexivity.
      * pose proof (rep_ok _ _ _ R) as Ok. rewrite E, okb_app, okb_cons in Ok.
        rewrite okb_app, okb_cons. exact Ok.
      * pose proof (rep_unused _ _ _ R) as Pm. rewrite EX, E, fstarts_app in Pm.
        rewrite fstarts_app. simpl in *. rewrite <- Eu in Pm. rewrite <- Eu.
        unfold erase_at. rewrite EX, <- LX, firstn_len_app.
        replace (skipn (S (length X)) (X ++ u :: Y)) with Y; [now apply perm_mid in Pm|].
        rewrite skipn_app, skipn_all2 by lia.
        now replace (S (length X) - length X)%nat with 1%nat by lia.
    + left. exists P, b, Q. auto 6.
  - destruct Hr as (He & H2 & _ & H4). destruct H2 as [H2|(q & u & -> & Hq & Hc)]; [discriminate|].
    simpl. rewrite Hq. pose proof (nth_error_In _ _ Hq) as Hin.
    destruct (rep_count_free _ _ _ _ R Hin) as (P & b & Q & E & Eu & Hcb & _).
    rewrite Hc in Hcb. injection Hcb as Hcb.
    set (b1 := firstn (Z.to_nat n) b). set (b2 := skipn (Z.to_nat n) b).
    assert (Eb : b = b1 ++ b2) by (symmetry; apply firstn_skipn).
    assert (L1 : len b1 = n) by (unfold b1, len in *; rewrite firstn_length; lia).
    assert (L2 : len b2 = e) by (rewrite Eb, len_app in Hcb; lia).
    rewrite (rep_counts _ _ _ R), E.
    (* first write: front part as a block, second write: the remainder *)
    assert (S1 : initialize_index (layout (P ++ (false, b) :: Q)) u n
      = Some (layout P ++ repr (length b1) ++ skipn (length b1) (repr (length b)) ++ layout Q)).
    { rewrite layout_app. cbn [layout flat_map snd].
      rewrite <- (firstn_skipn (length b1) (repr (length b))) at 1.
      rewrite <- app_assoc. rewrite initialize_index_app.
      - f_equal. f_equal. f_equal. rewrite firstn_length, repr_length, Eb, app_length. f_equal. lia.
      - intros E0. apply (f_equal (@length Z)) in E0.
        rewrite firstn_length, repr_length, Eb, app_length in E0. simpl in E0.
        unfold len in L1. lia.
      - rewrite layout_len. exact Eu.
      - unfold len. rewrite firstn_length, repr_length, Eb, app_length. unfold len in L1. lia. }
    rewrite S1.
    assert (S2 : initialize_index (layout P ++ repr (length b1) ++ skipn (length b1) (repr (length b)) ++ layout Q)
        (u + n) e = Some (layout (P ++ (true, b1) :: (false, b2) :: Q))).
    { rewrite app_assoc.
      assert (LX : length (skipn (length b1) (repr (length b))) = length b2).
      { rewrite skipn_length, repr_length, Eb, app_length. lia. }
      rewrite initialize_index_app.
      - rewrite layout_app. cbn [layout flat_map snd]. rewrite LX, <- app_assoc. reflexivity.
      - intros E0. rewrite E0 in LX. unfold len in L2. simpl in LX. lia.
      - rewrite len_app, layout_len. unfold len at 1. rewrite repr_length. unfold len in L1. lia.
      - unfold len. rewrite LX. unfold len in L2. lia. }
    rewrite S2.
    pose proof Hq as Hq'. apply nth_error_split in Hq' as (X & Y & EX & LX).
    rewrite EX, setz_app by (unfold len; lia).
    eexists _, u, [], arr, (P ++ (true, b1) :: (false, b2) :: Q).
    split; [reflexivity|]. split; [reflexivity|]. split.
    + constructor; cbn [counts unused].
      * reflexivity.
      * rewrite (rep_data _ _ _ R), E, !data_app. simpl. rewrite Eb at 1.
        now rewrite <- app_assoc.
      * pose proof (rep_ok _ _ _ R) as Ok. rewrite E, okb_app, okb_cons in Ok.
        rewrite okb_app, !okb_cons. simpl in *.
        assert (b1 <> []) by (intros E0; rewrite E0 in L1; unfold len in L1; simpl in L1; lia).
        assert (b2 <> []) by (intros E0; rewrite E0 in L2; unfold len in L2; simpl in L2; lia).
        tauto.
      * pose proof (rep_unused _ _ _ R) as Pm. rewrite EX, E, fstarts_app in Pm.
        rewrite fstarts_app. simpl in *. rewrite <- Eu in Pm. apply perm_mid in Pm.
        rewrite <- Eu, L1. rewrite <- (Permutation_middle X), <- (Permutation_middle (fstarts 0 P)).
        constructor. rewrite Pm.
        replace (u + len b) with (u + n + len b2) by lia. reflexivity.
    + right; left. exists P, b1, b2, Q. rewrite <- Eb.
      rewrite (rep_counts _ _ _ R), E, EX in H4.
      split; [reflexivity|]. split; [reflexivity|]. split; [exact Eu|]. split; [exact L1|].
      split; [reflexivity|]. intros v k Hv Hk. destruct (H4 _ _ Hv Hk) as [H5 H6].
      split; [exact H5|]. intros H7. specialize (H6 H7). lia.
  - destruct Hr as [_ Hsm]. unfold set_num_indices, num_indices.
    rewrite (rep_counts _ _ _ R), layout_len.
    rewrite resize_grow by (rewrite layout_len; lia).
    rewrite layout_len. replace (bsz bs + n - bsz bs) with n by lia.
    assert (Hl : len (repeat 0 (Z.to_nat n)) = n) by (rewrite len_repeat; lia).
    assert (I : initialize_index (layout bs ++ repeat 0 (Z.to_nat n)) (bsz bs) n
      = Some (layout (bs ++ [(true, repeat d (Z.to_nat n))]))).
    { rewrite <- (app_nil_r (repeat 0 _)). rewrite initialize_index_app.
      - rewrite layout_app. cbn [layout flat_map snd]. rewrite !repeat_length. reflexivity.
      - intros E. rewrite E in Hl. unfold len in Hl; simpl in Hl; lia.
      - now rewrite layout_len.
      - lia. }
    rewrite I.
    exists {| counts := layout (bs ++ [(true, repeat d (Z.to_nat n))]); unused := unused s |},
      (bsz bs), [EvSetNum (bsz bs + n)], (arr ++ repeat d (Z.to_nat n)),
      (bs ++ [(true, repeat d (Z.to_nat n))]).
    split; [reflexivity|]. split; [|split].
    + simpl. pose proof (bsz_nonneg bs). replace (0 <=? bsz bs + n) with true by lia.
      f_equal. rewrite (rep_data _ _ _ R). fold (bsz bs).
      rewrite resize_grow by (fold (bsz bs); lia). fold (bsz bs).
      do 2 f_equal. lia.
    + constructor; cbn [counts unused].
      * reflexivity.
      * rewrite (rep_data _ _ _ R), data_app. simpl. now rewrite app_nil_r.
      * rewrite okb_app, okb_cons. split; [apply (rep_ok _ _ _ R)|]. simpl. split; [|constructor].
        destruct (Z.to_nat n) eqn:E0; [lia|discriminate].
      * rewrite fstarts_app. simpl. rewrite app_nil_r. apply (rep_unused _ _ _ R).
    + right; right. rewrite (rep_counts _ _ _ R) in Hsm. auto.
Qed.

(** ** Free *)
Lemma fstarts_pos_lt off bs x : okb bs -> In x (fstarts off bs) -> off <= x < off + bsz bs.
Proof.
  intros Ok H. destruct (fstarts_split _ _ _ H) as (P & b & Q & -> & ->).
  apply okb_app in Ok as [_ Ok]. apply okb_cons in Ok as [Hb _]. simpl in Hb.
  rewrite bsz_app, bsz_cons. simpl. pose proof (len_pos _ Hb). pose proof (bsz_nonneg P).
  pose proof (bsz_nonneg Q). lia.
Qed.

Lemma used_not_free P b Q : okb (P ++ (true, b) :: Q) ->
  ~ In (bsz P) (fstarts 0 (P ++ (true, b) :: Q)).
Proof.
  intros Ok H. apply okb_app in Ok as [Ok1 Ok2]. apply okb_cons in Ok2 as [Hb Ok3]. simpl in Hb.
  rewrite fstarts_app in H. apply in_app_or in H as [H|H].
  - apply fstarts_pos_lt in H; [lia|assumption].
  - simpl in H. apply fstarts_ge in H. pose proof (len_pos _ Hb). lia.
Qed.

Lemma valid_index_used s arr P b Q : Rep s arr (P ++ (true, b) :: Q) ->
  valid_index s (bsz P) = true.
Proof.
  intros R. unfold valid_index. pose proof (rep_ok _ _ _ R) as Ok. pose proof Ok as Ok'.
  apply okb_app in Ok as [_ Ok]. apply okb_cons in Ok as [Hb _].
  rewrite (rep_counts _ _ _ R), getz_layout by exact Hb.
  pose proof (len_pos _ Hb). simpl snd in *. replace (len b =? 0) with false by lia. simpl.
  destruct (existsb _ _) eqn:E; [|reflexivity]. exfalso.
  apply existsb_exists in E as (x & Hin & Ex). apply Z.eqb_eq in Ex. subst x.
  apply (used_not_free _ _ _ Ok'). eapply Permutation_in; [apply (rep_unused _ _ _ R)|exact Hin].
Qed.

Lemma free_rep s arr P b Q : Rep s arr (P ++ (true, b) :: Q) ->
  exists s', free s (bsz P) = Some s' /\ Rep s' arr (P ++ (false, b) :: Q).
Proof.
  intros R. unfold free. rewrite (valid_index_used _ _ _ _ _ R).
  eexists; split; [reflexivity|]. constructor; cbn [counts unused].
  - rewrite (rep_counts _ _ _ R). apply layout_flag.
  - rewrite (rep_data _ _ _ R), !data_app. reflexivity.
  - pose proof (rep_ok _ _ _ R) as Ok. rewrite okb_app, okb_cons in *. exact Ok.
  - pose proof (rep_unused _ _ _ R) as Pm. rewrite fstarts_app in *. simpl in *.
    rewrite <- Permutation_cons_append, <- Permutation_middle.
    now constructor.
Qed.

(** ** Consolidation *)

Fixpoint noadj (prevfree : bool) bs : Prop :=
  match bs with
  | [] => True
  | b :: r => (prevfree = true -> fst b = true) /\ noadj (negb (fst b)) r
  end.

Lemma noadj_allused_app Us bs : allused Us -> noadj false bs -> noadj false (Us ++ bs).
Proof.
  intros H; induction H as [|b Us Hb HU IH]; simpl; intros Hn; [exact Hn|].
  split; [discriminate|]. rewrite Hb. simpl. auto.
Qed.
Lemma noadj_true_false bs : noadj true bs -> noadj false bs.
Proof. destruct bs as [|b r]; simpl; [auto|]. intros [_ H]. split; [discriminate|exact H]. Qed.

Lemma split_used bs : exists Us Q', bs = Us ++ Q' /\ allused Us /\
  (Q' = [] \/ exists f Q'', Q' = (false, f) :: Q'').
Proof.
  induction bs as [|[[|] b] r (Us & Q' & -> & HU & HQ)].
  - exists [], []. repeat split; auto; constructor.
  - exists ((true, b) :: Us), Q'. repeat split; auto. constructor; auto.
  - exists [], ((false, b) :: Us ++ Q'). repeat split; [constructor|]. right. eauto.
Qed.

Lemma data_single (b : list D) v : data [(v, b)] = b.
Proof. simpl. apply app_nil_r. Qed.

Lemma bsz_single v b : bsz [(v, b)] = len b.
Proof. unfold bsz. now rewrite data_single. Qed.

Lemma consolidate_group_ok P G0 g Q start last multi :
  okb (P ++ (G0 ++ [(false, g)]) ++ Q) ->
  start = bsz P -> last = bsz P + bsz G0 ->
  multi = match G0 with [] => false | _ => true end ->
  consolidate_group (layout (P ++ (G0 ++ [(false, g)]) ++ Q)) start last multi
  = Some (layout (P ++ (false, data (G0 ++ [(false, g)])) :: Q)).
Proof.
  intros Ok -> -> ->. unfold consolidate_group.
  destruct G0 as [|b G0].
  - cbn [app]. now rewrite data_single.
  - replace (P ++ ((b :: G0) ++ [(false, g)]) ++ Q) with ((P ++ b :: G0) ++ (false, g) :: Q)
      by (rewrite <- !app_assoc; reflexivity).
    rewrite <- bsz_app, next_index_layout.
    + rewrite <- app_assoc. change ((b :: G0) ++ (false, g) :: Q) with ((b :: G0) ++ [(false, g)] ++ Q).
      rewrite (app_assoc (b :: G0)).
      apply initialize_block.
      * reflexivity.
      * rewrite !bsz_app, bsz_single. simpl snd. lia.
      * apply okb_pos; [|discriminate]. rewrite !okb_app in Ok. apply okb_app. tauto.
      * reflexivity.
    + rewrite !okb_app in Ok. destruct Ok as [_ [[_ Ok] _]]. apply okb_cons in Ok. tauto.
Qed.

Lemma consolidate_loop_ok : forall n Q P G0 g start last multi,
  (length Q <= n)%nat ->
  allfree G0 -> okb (P ++ (G0 ++ [(false, g)]) ++ Q) ->
  start = bsz P -> last = bsz P + bsz G0 ->
  multi = match G0 with [] => false | _ => true end ->
  exists b rest,
    consolidate_loop (layout (P ++ (G0 ++ [(false, g)]) ++ Q)) start last multi
      (fstarts (bsz P + bsz (G0 ++ [(false, g)])) Q)
    = Some (layout (P ++ (false, b) :: rest), fstarts (bsz P) ((false, b) :: rest)) /\
    data ((false, b) :: rest) = data ((G0 ++ [(false, g)]) ++ Q) /\
    okb ((false, b) :: rest) /\
    ublocks (bsz P) ((false, b) :: rest) = ublocks (bsz P) ((G0 ++ [(false, g)]) ++ Q) /\
    noadj false ((false, b) :: rest).
Proof.
  induction n as [|n IH]; intros Q P G0 g start last multi LQ HG Ok Hs Hl Hm.
  all: set (G := G0 ++ [(false, g)]) in *.
  all: assert (HGf : allfree G) by (apply Forall_app; split; [exact HG|repeat constructor]).
  all: assert (OkG : okb G) by (rewrite !okb_app in Ok; tauto).
  all: assert (OkQ : okb Q) by (rewrite !okb_app in Ok; tauto).
  all: assert (GD : data G <> [])
    by (intros E; assert (0 < bsz G) by (apply okb_pos; [exact OkG|unfold G; destruct G0; discriminate]);
        unfold bsz in *; rewrite E in *; discriminate).
  - destruct Q; [|simpl in LQ; lia].
    exists (data G), []. cbn [fstarts consolidate_loop]. unfold G.
    rewrite consolidate_group_ok by assumption. fold G.
    rewrite Hs. rewrite (app_nil_r G). split; [reflexivity|split; [|split; [|split]]].
    + apply data_single.
    + constructor; [exact GD|constructor].
    + now rewrite (ublocks_allfree _ G).
    + simpl. split; [discriminate|exact I].
  - destruct (split_used Q) as (Us & Q' & EQ & HU & HQ').
    assert (EndG : next_index (layout (P ++ G ++ Q)) last = Some (bsz P + bsz G)).
    { unfold G. rewrite <- !app_assoc. simpl. rewrite app_assoc, Hl, <- bsz_app, next_index_layout.
      - rewrite !bsz_app, bsz_single. simpl snd. f_equal; lia.
      - unfold G in OkG. rewrite okb_app, okb_cons in OkG. tauto. }
    destruct HQ' as [-> | (f & Q'' & ->)].
    + rewrite app_nil_r in EQ. subst Us.
      rewrite (fstarts_allused _ _ HU). cbn [consolidate_loop]. unfold G.
      rewrite consolidate_group_ok by assumption. fold G.
      exists (data G), Q. rewrite Hs. split; [|split; [|split; [|split]]].
      * simpl. now rewrite (fstarts_allused _ _ HU).
      * rewrite data_app. reflexivity.
      * constructor; assumption.
      * rewrite ublocks_app, (ublocks_allfree _ _ HGf). reflexivity.
      * simpl. split; [discriminate|]. destruct HU as [|b r Hb HU]; simpl; [exact I|].
        split; [auto|]. rewrite Hb. simpl. rewrite <- (app_nil_r r). apply noadj_allused_app; auto; exact I.
    + destruct HU as [|u Us Hu HU].
      * (* adjacent free block *)
        simpl in EQ. subst Q. cbn [fstarts fst snd]. cbn [consolidate_loop].
        rewrite EndG, Z.eqb_refl.
        assert (OkG' : okb (P ++ (G ++ [(false, f)]) ++ Q'')).
        { rewrite <- !app_assoc. simpl. exact Ok. }
        destruct (IH Q'' P G f start (bsz P + bsz G) true) as (b & rest & E & H); auto.
        { simpl in LQ. lia. }
        { unfold G. destruct G0; reflexivity. }
        exists b, rest. split; [|].
        -- etransitivity; [|exact E]. f_equal.
           ++ now rewrite <- !app_assoc.
           ++ rewrite (bsz_app G), bsz_single. f_equal. lia.
        -- rewrite <- app_assoc in H. exact H.
      * (* a used run, then a free block *)
        set (Us' := u :: Us) in *.
        assert (HU' : allused Us') by (constructor; assumption).
        assert (OkUs : okb Us') by (rewrite EQ in OkQ; apply okb_app in OkQ; tauto).
        assert (OkQ2 : okb ((false, f) :: Q'')) by (rewrite EQ in OkQ; apply okb_app in OkQ; tauto).
        assert (Pos : 0 < bsz Us') by (apply okb_pos; [exact OkUs|discriminate]).
        replace (fstarts (bsz P + bsz G) Q)
          with ((bsz P + bsz G + bsz Us') :: fstarts (bsz P + bsz G + bsz Us' + len f) Q'')
          by (rewrite EQ, fstarts_app, (fstarts_allused _ _ HU'); reflexivity).
        cbn [consolidate_loop]. rewrite EndG.
        replace (bsz P + bsz G + bsz Us' =? bsz P + bsz G) with false by lia.
        unfold G at 1. rewrite consolidate_group_ok by assumption.
        change (G0 ++ [(false, g)]) with G.
        set (P' := P ++ (false, data G) :: Us').
        assert (BP' : bsz P' = bsz P + bsz G + bsz Us').
        { unfold P'. rewrite bsz_app, bsz_cons. simpl. fold (bsz G). lia. }
        assert (OkP' : okb (P' ++ ([] ++ [(false, f)]) ++ Q'')).
        { unfold P'. rewrite okb_app in Ok. apply okb_app; split; [|exact OkQ2].
          apply okb_app; split; [tauto|]. apply okb_cons; split; [exact GD|exact OkUs]. }
        destruct (IH Q'' P' [] f (bsz P') (bsz P') false) as (b & rest & E & Hd & Hok & Hub & Hna); auto.
        { assert (length Q = (length Us' + S (length Q''))%nat) by (rewrite EQ, app_length; reflexivity). lia. }
        { constructor. }
        { rewrite bsz_nil; lia. }
        exists (data G), (Us' ++ (false, b) :: rest).
        replace (layout (P ++ (false, data G) :: Q)) with (layout (P' ++ ([] ++ [(false, f)]) ++ Q''))
          by (unfold P'; rewrite EQ, <- app_assoc; reflexivity).
        assert (BE : bsz P + bsz G + bsz Us' + len f = bsz P' + bsz ([] ++ [(false, f)])).
        { rewrite BP'. cbn [app]. rewrite bsz_single. reflexivity. }
        rewrite BE, <- BP', E.
        split; [|split; [|split; [|split]]].
        -- simpl fst; simpl snd. rewrite Hs. do 2 f_equal.
           ++ unfold P'. rewrite <- app_assoc. reflexivity.
           ++ change (fstarts (bsz P) ((false, data G) :: Us' ++ (false, b) :: rest))
                with (bsz P :: fstarts (bsz P + bsz G) (Us' ++ (false, b) :: rest)).
              f_equal. rewrite fstarts_app, (fstarts_allused _ _ HU'), <- BP'. reflexivity.
        -- rewrite data_app, EQ, data_app.
           change (data ((false, data G) :: Us' ++ (false, b) :: rest))
             with (data G ++ data (Us' ++ (false, b) :: rest)).
           rewrite data_app, Hd. reflexivity.
        -- apply okb_cons. split; [exact GD|]. apply okb_app. auto.
        -- rewrite ublocks_app, (ublocks_allfree _ _ HGf), EQ, ublocks_app.
           change (ublocks (bsz P) ((false, data G) :: Us' ++ (false, b) :: rest))
             with (ublocks (bsz P + bsz G) (Us' ++ (false, b) :: rest)).
           rewrite ublocks_app. cbn [app]. f_equal.
           replace (bsz P + bsz G + bsz Us') with (bsz P') by lia. exact Hub.
        -- simpl. split; [discriminate|]. split; [intros _; exact Hu|]. rewrite Hu. simpl.
           apply noadj_allused_app; assumption.
Qed.

(** sorting *)
Lemma insertz_perm x l : Permutation (insertz x l) (x :: l).
Proof.
  induction l as [|y l IH]; simpl; [reflexivity|].
  destruct (x <=? y); [reflexivity|]. rewrite IH. apply perm_swap.
Qed.
Lemma sortz_perm l : Permutation (sortz l) l.
Proof. induction l as [|x l IH]; simpl; [reflexivity|]. rewrite insertz_perm. now constructor. Qed.
Lemma insertz_sorted x l : StronglySorted Z.le l -> StronglySorted Z.le (insertz x l).
Proof.
  induction 1 as [|y l Hs IH Hf]; simpl; [repeat constructor|].
  destruct (Z.leb_spec x y).
  - constructor; [now constructor|]. constructor; [exact H|].
    eapply Forall_impl; [|exact Hf]. simpl; intros; lia.
  - constructor; [exact IH|]. eapply Permutation_Forall; [symmetry; apply insertz_perm|].
    constructor; [lia|exact Hf].
Qed.
Lemma sortz_sorted l : StronglySorted Z.le (sortz l).
Proof. induction l as [|x l IH]; simpl; [constructor|]. now apply insertz_sorted. Qed.

Lemma sorted_perm_eq l : forall l', StronglySorted Z.le l -> StronglySorted Z.le l' ->
  Permutation l l' -> l = l'.
Proof.
  induction l as [|x l IH]; intros l' S1 S2 Pm.
  - apply Permutation_nil in Pm. now subst.
  - destruct l' as [|y l']; [symmetry in Pm; apply Permutation_nil in Pm; discriminate|].
    apply StronglySorted_inv in S1 as [S1 F1]. apply StronglySorted_inv in S2 as [S2 F2].
    assert (x = y).
    { assert (In x (y :: l')) by (eapply Permutation_in; [exact Pm|left; reflexivity]).
      assert (In y (x :: l)) by (eapply Permutation_in; [symmetry; exact Pm|left; reflexivity]).
      rewrite Forall_forall in F1, F2. destruct H as [H|H]; [auto|]. destruct H0 as [H0|H0]; [auto|].
      specialize (F1 _ H0). specialize (F2 _ H). lia. }
    subst y. f_equal. apply IH; auto. eapply Permutation_cons_inv; exact Pm.
Qed.

Lemma fstarts_sorted off bs : StronglySorted Z.le (fstarts off bs).
Proof.
  revert off; induction bs as [|b r IH]; intros off; simpl; [constructor|].
  destruct (fst b); [apply IH|]. constructor; [apply IH|].
  apply Forall_forall. intros x H. apply fstarts_ge in H. pose proof (len_nonneg (snd b)). lia.
Qed.

Lemma sortz_unused s arr bs : Rep s arr bs -> sortz (unused s) = fstarts 0 bs.
Proof.
  intros R. apply sorted_perm_eq; [apply sortz_sorted|apply fstarts_sorted|].
  rewrite sortz_perm. apply (rep_unused _ _ _ R).
Qed.

(** State after consolidation: free list exactly the sorted free starts. *)
Lemma consolidate_rep s arr bs : Rep s arr bs ->
  exists s' bs', consolidate s = Some s' /\ Rep s' arr bs' /\ unused s' = fstarts 0 bs' /\
    ublocks 0 bs' = ublocks 0 bs /\ noadj false bs' /\ (fstarts 0 bs <> [] -> fstarts 0 bs' <> []).
Proof.
  intros R. unfold consolidate. rewrite (sortz_unused _ _ _ R).
  destruct (split_used bs) as (Us & Q' & E & HU & [->|(f & Q & ->)]).
  - rewrite app_nil_r in E. subst Us. rewrite (fstarts_allused _ _ HU).
    exists {| counts := counts s; unused := [] |}, bs.
    split; [reflexivity|]. split; [|split; [|split; [|split]]]; auto.
    + constructor; cbn [counts unused]; try apply R. now rewrite (fstarts_allused _ _ HU).
    + cbn. now rewrite (fstarts_allused _ _ HU).
    + rewrite <- (app_nil_r bs). apply noadj_allused_app; [assumption|exact I].
  - pose proof (rep_ok _ _ _ R) as Ok. rewrite E in Ok.
    destruct (consolidate_loop_ok (length Q) Q Us [] f (bsz Us) (bsz Us) false)
      as (b & rest & El & Hd & Hok & Hub & Hna); auto.
    { constructor. } { rewrite bsz_nil; lia. }
    assert (Hf : fstarts 0 bs = bsz Us :: fstarts (bsz Us + bsz ([] ++ [(false, f)])) Q).
    { rewrite E, fstarts_app, (fstarts_allused _ _ HU). cbn [app].
      rewrite bsz_single. reflexivity. }
    rewrite Hf, (rep_counts _ _ _ R), E.
    change (Us ++ (false, f) :: Q) with (Us ++ ([] ++ [(false, f)]) ++ Q).
    rewrite El. eexists _, (Us ++ (false, b) :: rest). split; [reflexivity|].
    cbn [fst snd].
    assert (Ff : fstarts 0 (Us ++ (false, b) :: rest) = fstarts (bsz Us) ((false, b) :: rest)).
    { rewrite fstarts_app, (fstarts_allused _ _ HU). reflexivity. }
    split; [|split; [|split; [|split]]].
    + constructor; cbn [counts unused].
      * reflexivity.
      * rewrite (rep_data _ _ _ R), E, !data_app, Hd. reflexivity.
      * apply okb_app. apply okb_app in Ok. tauto.
      * now rewrite Ff.
    + cbn [unused]. now rewrite Ff.
    + rewrite (ublocks_app _ Us), (ublocks_app _ Us). f_equal. rewrite Z.add_0_l, Hub. reflexivity.
    + apply noadj_allused_app; assumption.
    + intros _. rewrite Ff. discriminate.
Qed.

End Blocks.
