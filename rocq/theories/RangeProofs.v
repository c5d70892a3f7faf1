(** Proofs about RangeModel.v. *)
From Verif Require Import RBase BaseFacts RangeModel.

(** ** Normalising *)
Definition congr (r : range) (x y : R) : Prop := exists k : Z, y = x + IZR k * length_ r.

Lemma congr_refl r x : congr r x x.
Proof. exists 0%Z. lra. Qed.
Lemma congr_trans r x y z : congr r x y -> congr r y z -> congr r x z.
Proof. intros [k ->] [k' ->]. exists (k + k')%Z. rewrite plus_IZR. lra. Qed.
Lemma congr_sym r x y : congr r x y -> congr r y x.
Proof. intros [k ->]. exists (- k)%Z. rewrite opp_IZR. lra. Qed.

Lemma in_range_unique r x y y' : start_ r < end_ r -> congr r x y -> congr r x y' ->
  start_ r < y <= end_ r -> start_ r < y' <= end_ r -> y = y'.
Proof.
  intros Hr [k ->] [k' ->] H H'. unfold length_ in *. set (L := end_ r - start_ r) in *.
  assert (HL : 0 < L) by (unfold L; lra).
  destruct (Z.lt_trichotomy k k') as [A|[->|A]]; [exfalso| |exfalso].
  - assert (IZR k + 1 <= IZR k') by (rewrite <- plus_IZR; apply IZR_le; lia).
    assert ((IZR k' - IZR k - 1) * L >= 0) by (apply Rle_ge, Rmult_le_pos; lra). unfold L in *. nra.
  - reflexivity.
  - assert (IZR k' + 1 <= IZR k) by (rewrite <- plus_IZR; apply IZR_le; lia).
    assert ((IZR k - IZR k' - 1) * L >= 0) by (apply Rle_ge, Rmult_le_pos; lra). unfold L in *. nra.
Qed.

Lemma wild_ok r x : start_ r < end_ r ->
  exists y, normalize_wild r x = Some y /\ start_ r < y <= end_ r /\ congr r x y.
Proof.
  intros Hr. unfold normalize_wild. set (L := length_ r).
  assert (HL : 0 < L) by (unfold L, length_; lra). rewrite Reqb_f by lra.
  set (k := Rfloor ((x - start_ r) / L)). destruct (Rfloor_bounds ((x - start_ r) / L)) as [A B]. fold k in A, B.
  assert (E : (x - start_ r) / L * L = x - start_ r) by (field; lra).
  assert (A' : IZR k * L <= x - start_ r) by (rewrite <- E; apply Rmult_le_compat_r; lra).
  assert (B' : x - start_ r < IZR k * L + L).
  { rewrite <- E. replace (IZR k * L + L) with ((IZR k + 1) * L) by ring. apply Rmult_lt_compat_r; lra. }
  unfold modular_adjustment, contains_excl_start. fold L. assert (EL : L = end_ r - start_ r) by reflexivity.
  destruct (Rleb_spec (x - IZR k * L) (start_ r)).
  - rewrite Rltb_t, Rleb_t by lra. cbn [andb]. eexists. split; [reflexivity|]. split; [lra|].
    exists (1 - k)%Z. fold L. rewrite minus_IZR. ring.
  - rewrite (Rltb_f (end_ r)) by lra. rewrite Rltb_t, Rleb_t by lra. cbn [andb]. eexists. split; [reflexivity|]. split; [lra|].
    exists (- k)%Z. fold L. rewrite opp_IZR. ring.
Qed.

Lemma wild_unique r x y : start_ r < end_ r -> start_ r < y <= end_ r -> congr r x y -> normalize_wild r x = Some y.
Proof.
  intros Hr Hy Hc. destruct (wild_ok r x Hr) as (y' & E & Hy' & Hc'). rewrite E. f_equal. eapply in_range_unique; eauto.
Qed.

Lemma close_loop_ok fuel : forall r (below : bool) x x0 n, start_ r < end_ r -> (Z.of_nat fuel = 6 - n)%Z -> (0 <= n)%Z -> (1 <= fuel)%nat ->
  congr r x0 x -> (if below then x <= start_ r else end_ r < x) ->
  close_loop fuel r below x n = normalize_wild r x0.
Proof.
  induction fuel as [|fuel IH]; intros r below x x0 n Hr Hf Hn H1 Hc Hx; [lia|]. cbn [close_loop].
  set (x' := if below then x + length_ r else x - length_ r).
  assert (Hc' : congr r x0 x').
  { eapply congr_trans; [exact Hc|]. unfold x'. destruct below; [exists 1%Z; lra|exists (-1)%Z; lra]. }
  destruct (Z.ltb_spec 4 n).
  - destruct (wild_ok r x' Hr) as (y & E & Hy & Hcy). rewrite E. symmetry. apply wild_unique; auto. eapply congr_trans; eauto.
  - destruct below.
    + destruct (Rleb_spec x' (start_ r)).
      * apply IH; auto; lia.
      * symmetry. apply wild_unique; auto. unfold x', length_ in *. lra.
    + destruct (Rltb_spec (end_ r) x').
      * apply IH; auto; lia.
      * symmetry. apply wild_unique; auto. unfold x', length_ in *. lra.
Qed.

Lemma close_ok r x : start_ r < end_ r -> normalize_close r x = normalize_wild r x.
Proof.
  intros Hr. unfold normalize_close. destruct (Rleb_spec x (start_ r)) as [A|A].
  - simpl negb. cbn [andb]. apply close_loop_ok; auto using congr_refl; lia.
  - destruct (Rltb_spec (end_ r) x) as [B|B]; cbn [negb andb].
    + apply close_loop_ok; auto using congr_refl; lia.
    + symmetry. apply wild_unique; auto using congr_refl; lra.
Qed.

Lemma normalize_ok r x : start_ r < end_ r ->
  (start_ r - length_ r < x <= end_ r + length_ r -> normalize r x = normalize_wild r x) /\
  (~ (start_ r - length_ r < x <= end_ r + length_ r) -> normalize r x = None).
Proof.
  intros Hr. split; intros Hx.
  - unfold normalize. set (y := x + modular_adjustment r x).
    assert (Hy : start_ r < y <= end_ r /\ congr r x y).
    { unfold y, modular_adjustment. unfold length_ in *. rcases; split; try lra; unfold congr, length_;
      [exists 1%Z|exists (-1)%Z|exists 0%Z]; lra. }
    unfold contains_excl_start. rewrite Rltb_t, Rleb_t by tauto. cbn [andb]. symmetry. apply wild_unique; tauto.
  - unfold normalize, modular_adjustment, contains_excl_start, length_ in *. rcases; try reflexivity; exfalso; apply Hx; lra.
Qed.

Lemma C17_proof r x : start_ r < end_ r ->
  (exists y, normalize_wild r x = Some y /\ start_ r < y <= end_ r /\ (exists k : Z, y = x + IZR k * (end_ r - start_ r)) /\
    normalize_close r x = Some y /\
    (2 * start_ r - end_ r < x <= 2 * end_ r - start_ r -> normalize r x = Some y)) /\
  (normalize r x <> None -> 2 * start_ r - end_ r < x <= 2 * end_ r - start_ r).
Proof.
  intros Hr. split.
  - destruct (wild_ok r x Hr) as (y & E & Hy & Hc). exists y. split; [assumption|]. split; [assumption|].
    split; [exact Hc|]. split; [now rewrite close_ok|]. intros Hx.
    rewrite (proj1 (normalize_ok r x Hr)); [assumption|]. unfold length_. lra.
  - intros H. destruct (Rlt_dec (2 * start_ r - end_ r) x), (Rle_dec x (2 * end_ r - start_ r)); try lra;
    exfalso; apply H, (normalize_ok r x Hr); unfold length_; lra.
Qed.

(** ** Modular differences *)
Lemma near_unique h d k : 0 < h -> - h < d <= h -> Rabs d <= Rabs (d + IZR k * (2 * h)).
Proof.
  intros Hh Hd. destruct (Z.eq_dec k 0) as [->|Hk]; [rewrite Rmult_0_l, Rplus_0_r; lra|].
  assert (IZR k <= -1 \/ 1 <= IZR k) as [A|A].
  { destruct (Z.lt_ge_cases k 0); [left|right]; apply IZR_le; lia. }
  - assert (IZR k * (2 * h) <= - (2 * h)) by nra. rabs; lra.
  - assert (2 * h <= IZR k * (2 * h)) by nra. rabs; lra.
Qed.

Lemma C18_proof r a b : 0 < end_ r -> start_ r = - end_ r ->
  start_ r <= a <= end_ r -> start_ r <= b <= end_ r ->
  exists c f p n, mod_diff r a b Closest = Some c /\ mod_diff r a b Farthest = Some f /\
    mod_diff r a b Positive = Some p /\ mod_diff r a b Negative = Some n /\ mod_diff r a b Direct = Some (b - a) /\
    (forall d, In d [c; f; p; n] -> exists k : Z, a + d = b + IZR k * length_ r) /\
    (forall k : Z, Rabs c <= Rabs (b - a + IZR k * length_ r)) /\
    (Rabs f = length_ r - Rabs c /\ f * c <= 0) /\
    0 <= p < length_ r /\ - length_ r <= n < 0.
Proof.
  intros He Hs Ha Hb. assert (Hr : start_ r < end_ r) by lra.
  assert (HL : length_ r = 2 * end_ r) by (unfold length_; lra).
  destruct (wild_ok r (b - a) Hr) as (c & E & Hc & (k & Ek)).
  assert (En : normalize r (b - a) = Some c).
  { rewrite <- E. apply normalize_ok; auto. rewrite HL. lra. }
  unfold mod_diff, mod_diff_far, mod_diff_positive, mod_diff_negative, mod_diff_close. rewrite En.
  eexists c, _, _, _. do 5 (split; [reflexivity|]).
  assert (Pc : exists k : Z, a + c = b + IZR k * length_ r) by (exists k; lra).
  assert (Pm : exists k : Z, a + (c - length_ r) = b + IZR k * length_ r) by (exists (k - 1)%Z; rewrite minus_IZR; lra).
  assert (Pp : exists k : Z, a + (c + length_ r) = b + IZR k * length_ r) by (exists (k + 1)%Z; rewrite plus_IZR; lra).
  split.
  { intros d [<-|[<-|[<-|[<-|[]]]]]; destruct (Rleb_spec 0 c); assumption. }
  split.
  { intros k'. rewrite HL. replace (b - a + IZR k' * (2 * end_ r)) with (c + IZR (k' - k) * (2 * end_ r)).
    - apply near_unique; lra.
    - rewrite minus_IZR, Ek, HL. ring. }
  rewrite HL. destruct (Rleb_spec 0 c); repeat split; try lra; try (rabs; lra); nra.
Qed.

(** ** Range algebra *)
Lemma contains_iff r x : contains r x = true <-> start_ r <= x <= end_ r.
Proof. unfold contains. rewrite andb_true_iff, !Rleb_true. reflexivity. Qed.
Lemma valid_iff r : valid r = true <-> start_ r <= end_ r.
Proof. apply Rleb_true. Qed.

Lemma clamp_cases r x : start_ r <= end_ r ->
  (x < start_ r /\ clamp r x = start_ r) \/ (start_ r <= x <= end_ r /\ clamp r x = x) \/ (end_ r < x /\ clamp r x = end_ r).
Proof.
  intros H. unfold clamp. destruct (Rlt_dec x (start_ r)); [left|right; destruct (Rle_dec x (end_ r)); [left|right]]; split; try lra; minmax; lra.
Qed.

(** ** Arrays *)
Lemma values_loop_ok r eps k : forall (done rest tail kept junk : list R) (i n : Z),
  length rest = k -> kept = map (clamp r) (filter (fun v => Rleb (Rabs (v - clamp r v)) eps) done) ->
  i = len done -> n = len kept -> (len kept + len junk = i)%Z ->
  exists junk', values_in_range_loop r eps (kept ++ junk ++ rest ++ tail) i n k =
    Some (map (clamp r) (filter (fun v => Rleb (Rabs (v - clamp r v)) eps) (done ++ rest)) ++ junk' ++ tail,
          len (filter (fun v => Rleb (Rabs (v - clamp r v)) eps) (done ++ rest))) /\
    (len (filter (fun v => Rleb (Rabs (v - clamp r v)) eps) (done ++ rest)) + len junk' = len (done ++ rest))%Z.
Proof.
  induction k as [|k IH]; intros done rest tail kept junk i n Hk Hkept Hi Hn Hj.
  - destruct rest; [|discriminate]. cbn [values_in_range_loop]. exists junk. rewrite app_nil_r. cbn [app].
    rewrite <- Hkept. assert (L : len kept = len (filter (fun v => Rleb (Rabs (v - clamp r v)) eps) done)).
    { rewrite Hkept. unfold len. now rewrite map_length. }
    split; [|lia]. do 2 f_equal. lia.
  - destruct rest as [|v rest]; [discriminate|]. injection Hk as Hk. cbn [values_in_range_loop].
    replace (getz (kept ++ junk ++ (v :: rest) ++ tail) i) with (Some v).
    2:{ symmetry. rewrite app_assoc. replace i with (len (kept ++ junk)) by (unfold len in *; rewrite app_length; lia).
        unfold getz, len. destruct (Z.ltb_spec (Z.of_nat (length (kept ++ junk))) 0); [lia|].
        rewrite Nat2Z.id, nth_error_app2, Nat.sub_diag by lia. reflexivity. }
    assert (Eds : done ++ v :: rest = (done ++ [v]) ++ rest) by now rewrite <- app_assoc. rewrite Eds.
    destruct (Rleb (Rabs (v - clamp r v)) eps) eqn:Ev.
    + assert (Hset : exists junk2, setz (kept ++ junk ++ (v :: rest) ++ tail) n (clamp r v) =
          Some ((kept ++ [clamp r v]) ++ junk2 ++ rest ++ tail) /\ len junk2 = len junk).
      { unfold setz. replace ((0 <=? n)%Z && (n <? len (kept ++ junk ++ (v :: rest) ++ tail))%Z) with true.
        2:{ symmetry. apply andb_true_iff. unfold len in *. rewrite !app_length. cbn [length]. lia. }
        replace (Z.to_nat n) with (length kept) by (unfold len in *; lia).
        rewrite firstn_app, Nat.sub_diag, firstn_all, firstn_O, app_nil_r.
        change (S (length kept)) with (1 + length kept)%nat. rewrite skipn_app.
        rewrite (skipn_all2 kept) by lia. replace (1 + length kept - length kept)%nat with 1%nat by lia. cbn [app].
        destruct junk as [|z junk].
        - exists []. split; [|reflexivity]. cbn [app skipn]. now rewrite <- app_assoc.
        - exists (junk ++ [v]). cbn [app skipn]. rewrite <- !app_assoc. split; [reflexivity|].
          unfold len. cbn [length]. rewrite app_length. cbn [length]. lia. }
      destruct Hset as (junk2 & -> & Lj). apply IH; auto.
      * rewrite Hkept, filter_app, map_app. cbn [filter]. rewrite Ev. reflexivity.
      * rewrite Hi. unfold len. rewrite app_length. cbn [length]. lia.
      * rewrite Hn. unfold len. rewrite app_length. cbn [length]. lia.
      * unfold len in *. rewrite app_length. cbn [length]. lia.
    + replace (kept ++ junk ++ (v :: rest) ++ tail) with (kept ++ (junk ++ [v]) ++ rest ++ tail) by now rewrite <- app_assoc.
      apply IH; auto.
      * rewrite filter_app. cbn [filter]. rewrite Ev, app_nil_r. assumption.
      * rewrite Hi. unfold len. rewrite app_length. cbn [length]. lia.
      * unfold len in *. rewrite app_length. cbn [length]. lia.
Qed.

Lemma values_in_range_ok r eps values : exists junk,
  values_in_range r eps values =
    Some (map (clamp r) (filter (fun v => Rleb (Rabs (v - clamp r v)) eps) values) ++ junk,
          len (filter (fun v => Rleb (Rabs (v - clamp r v)) eps) values)) /\
  (len (filter (fun v => Rleb (Rabs (v - clamp r v)) eps) values) + len junk = len values)%Z.
Proof.
  unfold values_in_range.
  destruct (values_loop_ok r eps (length values) [] values [] [] [] 0%Z 0%Z) as (junk & E & L); auto.
  exists junk. cbn [app] in *. rewrite !app_nil_r in E. auto.
Qed.

Lemma intersect_one_ok x b : forall acc, intersect_one x b acc =
  (fst acc ++ filter valid (map (intersect x) b), snd acc ++ map invert (filter (fun i => negb (valid i)) (map (intersect x) b))).
Proof.
  induction b as [|y b IH]; intros [i g]; cbn [intersect_one map filter fst snd]; [now rewrite !app_nil_r|].
  rewrite IH. destruct (valid (intersect x y)); cbn [negb fst snd map]; now rewrite <- app_assoc.
Qed.

Lemma intersect_ranges_ok a b : intersect_ranges a b =
  let all := flat_map (fun x => map (intersect x) b) a in
  (filter valid all, map invert (filter (fun i => negb (valid i)) all)).
Proof.
  unfold intersect_ranges. enough (G : forall acc, intersect_ranges_loop a b acc =
    let all := flat_map (fun x => map (intersect x) b) a in
    (fst acc ++ filter valid all, snd acc ++ map invert (filter (fun i => negb (valid i)) all))) by apply G.
  cbv zeta. induction a as [|x a IH]; intros acc; cbn [intersect_ranges_loop flat_map].
  - destruct acc; cbn [filter map fst snd]. now rewrite !app_nil_r.
  - rewrite IH, intersect_one_ok. cbn [fst snd]. rewrite !filter_app, map_app, !app_assoc. reflexivity.
Qed.

(** Loops that remember the index of the best key so far. *)
Lemma longest_ok l : forall pre best bi, 
  (forall r, In r l -> -1 < length_ r) ->
  (pre <> [] -> exists r, nth_error pre bi = Some r /\ length_ r = best /\
      (forall j r', nth_error pre j = Some r' -> length_ r' <= best) /\
      (forall j r', (j < bi)%nat -> nth_error pre j = Some r' -> length_ r' < best)) ->
  (pre = [] -> best = -1) -> pre ++ l <> [] ->
  exists r, nth_error (pre ++ l) (longest_loop l (length pre) best bi) = Some r /\
    (forall j r', nth_error (pre ++ l) j = Some r' -> length_ r' <= length_ r) /\
    (forall j r', (j < longest_loop l (length pre) best bi)%nat -> nth_error (pre ++ l) j = Some r' -> length_ r' < length_ r).
Proof.
  induction l as [|x l IH]; intros pre best bi Hl Hpre Hemp Hne; cbn [longest_loop].
  - rewrite app_nil_r in *. destruct (Hpre Hne) as (r & A & B & C & D). exists r. subst best. auto.
  - assert (Ea : pre ++ x :: l = (pre ++ [x]) ++ l) by now rewrite <- app_assoc.
    assert (Ls : S (length pre) = length (pre ++ [x])) by (rewrite app_length; cbn [length]; lia).
    rewrite Ea, Ls.
    assert (Hsn : forall j r', nth_error (pre ++ [x]) j = Some r' -> nth_error pre j = Some r' \/ (j = length pre /\ r' = x)).
    { intros j r' Hj. destruct (Nat.lt_ge_cases j (length pre)).
      - rewrite nth_error_app1 in Hj by assumption. auto.
      - rewrite nth_error_app2 in Hj by assumption. destruct (j - length pre)%nat as [|q] eqn:Eq.
        + simpl in Hj. injection Hj as <-. right. split; [lia|reflexivity].
        + simpl in Hj. destruct q; discriminate. }
    assert (Hx : -1 < length_ x) by (apply Hl; now left).
    destruct (Rltb_spec best (length_ x)) as [B|B].
    + apply IH; [intros; apply Hl; now right| | |].
      * intros _. exists x. rewrite nth_error_app2, Nat.sub_diag by lia. split; [reflexivity|]. split; [reflexivity|]. split.
        -- intros j r' Hj. destruct (Hsn _ _ Hj) as [Hj'|[_ ->]]; [|lra].
           destruct pre as [|p0 pre]; [destruct j; discriminate|]. destruct Hpre as (r & A & B' & C & D); [discriminate|].
           specialize (C _ _ Hj'). lra.
        -- intros j r' Hlt Hj. destruct (Hsn _ _ Hj) as [Hj'|[-> _]]; [|lia].
           destruct pre as [|p0 pre]; [destruct j; discriminate|]. destruct Hpre as (r & A & B' & C & D); [discriminate|].
           specialize (C _ _ Hj'). lra.
      * intros E. destruct pre; discriminate.
      * destruct pre; discriminate.
    + destruct pre as [|p0 pre]; [rewrite Hemp in B by reflexivity; lra|].
      destruct Hpre as (r & A & B' & C & D); [discriminate|].
      apply IH; [intros; apply Hl; now right| | |].
      * intros _. exists r. rewrite nth_error_app1 by (apply nth_error_Some; congruence). split; [assumption|]. split; [assumption|]. split.
        -- intros j r' Hj. destruct (Hsn _ _ Hj) as [Hj'|[_ ->]]; [eauto|lra].
        -- intros j r' Hlt Hj. destruct (Hsn _ _ Hj) as [Hj'|[-> _]]; [eauto|].
           assert (bi < length (p0 :: pre))%nat by (apply nth_error_Some; congruence). lia.
      * discriminate.
      * discriminate.
Qed.

Lemma shortest_ok l : forall pre best bi, 
  (pre <> [] -> exists r, nth_error pre bi = Some r /\ best = Some (length_ r) /\
      (forall j r', nth_error pre j = Some r' -> length_ r <= length_ r') /\
      (forall j r', (j < bi)%nat -> nth_error pre j = Some r' -> length_ r < length_ r')) ->
  (pre = [] -> best = None) -> pre ++ l <> [] ->
  exists r, nth_error (pre ++ l) (shortest_loop l (length pre) best bi) = Some r /\
    (forall j r', nth_error (pre ++ l) j = Some r' -> length_ r <= length_ r') /\
    (forall j r', (j < shortest_loop l (length pre) best bi)%nat -> nth_error (pre ++ l) j = Some r' -> length_ r < length_ r').
Proof.
  induction l as [|x l IH]; intros pre best bi Hpre Hemp Hne; cbn [shortest_loop].
  - rewrite app_nil_r in *. destruct (Hpre Hne) as (r & A & B & C & D). exists r. auto.
  - assert (Ea : pre ++ x :: l = (pre ++ [x]) ++ l) by now rewrite <- app_assoc.
    assert (Ls : S (length pre) = length (pre ++ [x])) by (rewrite app_length; cbn [length]; lia).
    rewrite Ea, Ls.
    assert (Hsn : forall j r', nth_error (pre ++ [x]) j = Some r' -> nth_error pre j = Some r' \/ (j = length pre /\ r' = x)).
    { intros j r' Hj. destruct (Nat.lt_ge_cases j (length pre)).
      - rewrite nth_error_app1 in Hj by assumption. auto.
      - rewrite nth_error_app2 in Hj by assumption. destruct (j - length pre)%nat as [|q] eqn:Eq.
        + simpl in Hj. injection Hj as <-. right. split; [lia|reflexivity].
        + simpl in Hj. destruct q; discriminate. }
    destruct (lt_inf (length_ x) best) eqn:B.
    + apply IH.
      * intros _. exists x. rewrite nth_error_app2, Nat.sub_diag by lia. split; [reflexivity|]. split; [reflexivity|].
        assert (K : forall j r', nth_error pre j = Some r' -> length_ x < length_ r').
        { intros j r' Hj'. destruct pre as [|p0 pre]; [destruct j; discriminate|]. destruct Hpre as (r & A & B' & C & D); [discriminate|].
          rewrite B' in B. cbn [lt_inf] in B. apply Rltb_true in B. specialize (C _ _ Hj'). lra. }
        split.
        -- intros j r' Hj. destruct (Hsn _ _ Hj) as [Hj'|[_ ->]]; [|lra]. apply K in Hj'. lra.
        -- intros j r' Hlt Hj. destruct (Hsn _ _ Hj) as [Hj'|[-> _]]; [|lia]. now apply K in Hj'.
      * intros E. destruct pre; discriminate.
      * destruct pre; discriminate.
    + destruct pre as [|p0 pre]; [rewrite Hemp in B by reflexivity; discriminate|].
      destruct Hpre as (r & A & B' & C & D); [discriminate|]. rewrite B' in B. cbn [lt_inf] in B. apply Rltb_false in B.
      apply IH.
      * intros _. exists r. rewrite nth_error_app1 by (apply nth_error_Some; congruence). split; [assumption|]. split; [assumption|]. split.
        -- intros j r' Hj. destruct (Hsn _ _ Hj) as [Hj'|[_ ->]]; [eauto|lra].
        -- intros j r' Hlt Hj. destruct (Hsn _ _ Hj) as [Hj'|[-> _]]; [eauto|].
           assert (bi < length (p0 :: pre))%nat by (apply nth_error_Some; congruence). lia.
      * discriminate.
      * discriminate.
Qed.

Lemma closest_ok x l : forall c r0, start_ r0 <= end_ r0 -> (forall r, In r l -> start_ r <= end_ r) ->
  start_ r0 <= c <= end_ r0 ->
  let y := closest_loop x l (Some (Rabs (x - c))) c in
  (exists r, (r = r0 \/ In r l) /\ start_ r <= y <= end_ r) /\ Rabs (x - y) <= Rabs (x - c) /\
  (forall r z, In r l -> start_ r <= z <= end_ r -> Rabs (x - y) <= Rabs (x - z)).
Proof.
  induction l as [|r l IH]; intros c r0 H0 Hl Hc; cbn [closest_loop]; cbv zeta.
  { split; [exists r0; auto|]. split; [lra|]. easy. }
  assert (Hr : start_ r <= end_ r) by (apply Hl; now left).
  assert (Hcl : start_ r <= clamp r x <= end_ r) by (destruct (clamp_cases r x Hr) as [[? ->]|[[? ->]|[? ->]]]; lra).
  assert (Hnear : forall z, start_ r <= z <= end_ r -> Rabs (x - clamp r x) <= Rabs (x - z)).
  { intros z Hz. destruct (clamp_cases r x Hr) as [[? ->]|[[? ->]|[? ->]]]; rabs; lra. }
  cbn [lt_inf]. destruct (Rltb_spec (Rabs (x - clamp r x)) (Rabs (x - c))) as [A|A].
  - destruct (IH (clamp r x) r Hr (fun q Hq => Hl q (or_intror Hq)) Hcl) as ((q & Hq & Hqy) & B & C).
    split; [exists q; split; [destruct Hq as [->|Hq]; right; [now left|now right]|assumption]|]. split; [lra|].
    intros q' z [<-|Hq'] Hz; [specialize (Hnear z Hz); lra|eauto].
  - destruct (IH c r0 H0 (fun q Hq => Hl q (or_intror Hq)) Hc) as ((q & Hq & Hqy) & B & C).
    split; [exists q; split; [destruct Hq as [->|Hq]; [now left|right; now right]|assumption]|]. split; [assumption|].
    intros q' z [<-|Hq'] Hz; [specialize (Hnear z Hz); lra|eauto].
Qed.

Lemma clamp_to_closest_ok x l : l <> [] -> (forall r, In r l -> start_ r <= end_ r) ->
  let y := clamp_to_closest x l in
  (exists r, In r l /\ start_ r <= y <= end_ r) /\
  (forall r z, In r l -> start_ r <= z <= end_ r -> Rabs (x - y) <= Rabs (x - z)).
Proof.
  destruct l as [|r l]; intros Hne Hl; [congruence|]. unfold clamp_to_closest. cbn [closest_loop lt_inf]. cbv zeta.
  assert (Hr : start_ r <= end_ r) by (apply Hl; now left).
  assert (Hcl : start_ r <= clamp r x <= end_ r) by (destruct (clamp_cases r x Hr) as [[? ->]|[[? ->]|[? ->]]]; lra).
  destruct (closest_ok x l (clamp r x) r Hr (fun q Hq => Hl q (or_intror Hq)) Hcl) as ((q & Hq & Hqy) & B & C).
  split; [exists q; split; [destruct Hq as [->|Hq]; [now left|now right]|assumption]|].
  intros q' z [<-|Hq'] Hz; [|eauto].
  assert (Rabs (x - clamp r x) <= Rabs (x - z)); [|lra].
  destruct (clamp_cases r x Hr) as [[? ->]|[[? ->]|[? ->]]]; rabs; lra.
Qed.

Lemma covers_ok l : forall acc, (forall r, acc = Some r -> start_ r <= end_ r) ->
  match covers_loop acc l with
  | None => acc = None /\ l = []
  | Some r => start_ r <= end_ r /\
      (forall q, acc = Some q -> start_ r <= start_ q /\ end_ q <= end_ r) /\ (forall x, In x l -> start_ r <= x <= end_ r) /\
      (forall lo hi, (forall x, In x l -> lo <= x <= hi) -> (forall q, acc = Some q -> lo <= start_ q /\ end_ q <= hi) ->
         lo <= start_ r /\ end_ r <= hi)
  end.
Proof.
  induction l as [|x l IH]; intros acc Hacc; cbn [covers_loop].
  - destruct acc as [r|]; [|auto]. split; [auto|]. split; [intros q E; injection E as <-; lra|]. split; [easy|]. intros; auto.
  - specialize (IH (Some (match acc with None => Rg x x | Some r => include r x end))).
    set (r1 := match acc with None => Rg x x | Some r => include r x end) in *.
    assert (Hr1 : start_ r1 <= x <= end_ r1 /\ (forall q, acc = Some q -> start_ r1 <= start_ q /\ end_ q <= end_ r1) /\
       forall lo hi, lo <= x <= hi -> (forall q, acc = Some q -> lo <= start_ q /\ end_ q <= hi) -> lo <= start_ r1 /\ end_ r1 <= hi).
    { unfold r1. destruct acc as [q|]; cbn [include start_ end_].
      - specialize (Hacc q eq_refl). split; [minmax; lra|]. split; [intros q' E; injection E as <-; minmax; lra|].
        intros lo hi Hx Hq. specialize (Hq q eq_refl). minmax; lra.
      - split; [lra|]. split; [discriminate|]. intros; lra. }
    destruct Hr1 as (A & B & C).
    assert (P : forall r, Some r1 = Some r -> start_ r <= end_ r) by (intros r E; injection E as <-; lra).
    specialize (IH P). destruct (covers_loop (Some r1) l) as [r|]; [|destruct IH; discriminate].
    destruct IH as (D & E & F & G). destruct (E r1 eq_refl) as [E1 E2].
    split; [assumption|]. split; [intros q Hq; destruct (B q Hq); lra|]. split.
    + intros z [<-|Hz]; [lra|auto].
    + intros lo hi Hl Hq. apply G; [intros z Hz; apply Hl; now right|]. intros q' E'. injection E' as <-.
      apply C; [apply Hl; now left|assumption].
Qed.
