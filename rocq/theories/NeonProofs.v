(** Lemmas about NeonModel.v: one round of each loop, and the loops. *)
From Verif Require Import RBase CurveModel RoundCubicModel NeonModel.

Lemma upd_same {A} (f : Z -> A) i v : upd f i v i = v.
Proof. unfold upd. now rewrite Z.eqb_refl. Qed.
Lemma upd_other {A} (f : Z -> A) i v j : j <> i -> upd f i v j = f j.
Proof. intros N. unfold upd. destruct (Z.eqb_spec j i); [contradiction|reflexivity]. Qed.

Lemma mod_plus a b n : (n <> 0 -> a mod n = 0 -> b mod n = 0 -> (a + b) mod n = 0)%Z.
Proof. intros N A B. now rewrite Z.add_mod, A, B. Qed.

Lemma load_ok a s w : (a mod 4 = 0)%Z -> m s a = Some w -> load a s = Some w.
Proof. intros A E. unfold load. now rewrite (proj2 (Z.eqb_eq _ _) A). Qed.
Lemma load2_ok a s v w : (a mod 4 = 0)%Z -> m s a = Some v -> m s (a + 4)%Z = Some w -> load2 a s = Some (v, w).
Proof. intros A E F. unfold load2. rewrite (load_ok a s v A E), (load_ok (a + 4) s w); [reflexivity| |exact F]. now apply mod_plus. Qed.
Definition put (a : Z) (v : word) (s : state) : state := State (r s) (d s) (upd (m s) a (Some v)) (gt s).
Lemma store_ok a v s : (a mod 4 = 0)%Z -> m s a <> None -> store a v s = Some (put a v s).
Proof. intros A N. unfold store. rewrite (proj2 (Z.eqb_eq _ _) A). destruct (m s a); [reflexivity|contradiction]. Qed.
Lemma mod4_add a : (a mod 4 = 0)%Z -> ((a + 4) mod 4 = 0)%Z.
Proof. intros A. now apply mod_plus. Qed.
Lemma mapped_put a v s b : m s b <> None -> m (put a v s) b <> None.
Proof. intros N. cbn. unfold upd. destruct (b =? a)%Z; [discriminate|exact N]. Qed.
Lemma store2_ok a v s : (a mod 4 = 0)%Z -> m s a <> None -> m s (a + 4)%Z <> None -> store2 a v s = Some (put (a + 4) (snd v) (put a (fst v) s)).
Proof. intros A N O. unfold store2. rewrite store_ok by assumption. apply store_ok; [now apply mod4_add|now apply mapped_put]. Qed.

Lemma mod_16_4 a : (a mod 16 = 0 -> a mod 4 = 0)%Z.
Proof. intros A. apply Z.mod_divide in A; [|easy]. destruct A as [k ->]. replace (k * 16)%Z with (k * 4 * 4)%Z by ring. now apply Z.mod_mul. Qed.
Lemma mod_32_16 a : (a mod 32 = 0 -> a mod 16 = 0)%Z.
Proof. intros A. apply Z.mod_divide in A; [|easy]. destruct A as [k ->]. replace (k * 32)%Z with (k * 2 * 16)%Z by ring. now apply Z.mod_mul. Qed.

Section Steps.
Variables (rnd : R -> R) (table : Z) (code : list instr).
Definition straight (i : instr) : bool := match i with Bgt _ | Bx_lr | Pop_return _ => false | _ => true end.
Lemma run_step f at_ s i t : getz code at_ = Some i -> straight i = true -> exec rnd table i s = Some t ->
  run rnd table (S f) code at_ s = run rnd table f code (at_ + 1) t.
Proof. intros G B E. cbn [run]. rewrite G, E. destruct i; try discriminate; reflexivity. Qed.
Lemma run_bgt f at_ s target : getz code at_ = Some (Bgt target) ->
  run rnd table (S f) code at_ s = run rnd table f code (if gt s then target else (at_ + 1)%Z) s.
Proof. intros G. cbn [run]. now rewrite G. Qed.
Lemma exec_vld1 s q rn align (back : bool) v0 v1 v2 v3 : (r s rn mod align = 0)%Z -> (r s rn mod 4 = 0)%Z ->
  m s (r s rn) = Some v0 -> m s (r s rn + 4)%Z = Some v1 -> m s (r s rn + 8)%Z = Some v2 -> m s (r s rn + 12)%Z = Some v3 ->
  exec rnd table (Vld1 q rn align back) s = Some (let t := set_d (2 * q + 1) (v2, v3) (set_d (2 * q) (v0, v1) s) in if back then set_r rn (r s rn + 16) t else t).
Proof.
  intros A A4 E0 E1 E2 E3. unfold exec. rewrite (proj2 (Z.eqb_eq _ _) A), (load2_ok _ _ v0 v1), (load2_ok _ _ v2 v3); auto; [now apply mod_plus|].
  replace (r s rn + 8 + 4)%Z with (r s rn + 12)%Z by ring. exact E3.
Qed.
Lemma exec_vst1 s q rn align : (r s rn mod align = 0)%Z -> (r s rn mod 4 = 0)%Z ->
  (forall i, (0 <= i < 4)%Z -> m s (r s rn + 4 * i)%Z <> None) ->
  exec rnd table (Vst1 q rn align) s = Some (set_r rn (r s rn + 16)
    (put (r s rn + 12) (snd (d s (2 * q + 1)%Z)) (put (r s rn + 8) (fst (d s (2 * q + 1)%Z)) (put (r s rn + 4) (snd (d s (2 * q)%Z)) (put (r s rn) (fst (d s (2 * q)%Z)) s))))).
Proof.
  intros A A4 N. unfold exec. rewrite (proj2 (Z.eqb_eq _ _) A).
  assert (N0 := N 0%Z ltac:(lia)). assert (N1 := N 1%Z ltac:(lia)). assert (N2 := N 2%Z ltac:(lia)). assert (N3 := N 3%Z ltac:(lia)).
  replace (r s rn + 4 * 0)%Z with (r s rn) in N0 by ring. replace (r s rn + 4 * 1)%Z with (r s rn + 4)%Z in N1 by ring.
  replace (r s rn + 4 * 2)%Z with (r s rn + 8)%Z in N2 by ring. replace (r s rn + 4 * 3)%Z with (r s rn + 8 + 4)%Z in N3 by ring.
  rewrite store2_ok by assumption. rewrite store2_ok; [|now apply mod_plus|now do 2 apply mapped_put|now do 2 apply mapped_put].
  replace (r s rn + 8 + 4)%Z with (r s rn + 12)%Z by ring. reflexivity.
Qed.
End Steps.

(** A float in a word. *)
Definition fl (x : R) : word := WFloat (Some x).
Definition byte (b : bool) : Z := if b then 255%Z else 0%Z.
Definition beyond (x : R) (e : option R) : bool := match e with Some e => Rltb e x | None => false end.
Lemma cgt_fl x e : cgt (WFloat (Some x)) (WFloat e) = Some (let b := byte (beyond x e) in WBytes b b b b).
Proof. unfold cgt, beyond, byte. destruct e as [e|]; [destruct (Rltb e x)|]; reflexivity. Qed.

(** Two ranges of addresses have nothing in common. *)
Definition apart (a n b k : Z) : Prop := (a + n <= b \/ b + k <= a)%Z.

Ltac regs := cbn [r d m gt set_r set_d set_gt put Z.mul Z.add Z.sub Pos.mul Pos.add Pos.succ Pos.add_carry]; unfold upd; cbn [Z.eqb Pos.eqb].

Section Update.
Variables (rnd : R -> R) (table : Z).
Lemma update_round f s delta (x : Z -> R) (e : Z -> option R) (rt : Z -> R) :
  d s 24%Z = (fl delta, fl delta) -> d s 25%Z = (fl delta, fl delta) -> d s 30%Z = (WBytes 0 4 8 12, WBytes 255 255 255 255) ->
  (r s 4%Z mod 16 = 0)%Z -> (r s 1%Z mod 16 = 0)%Z -> (r s 2%Z mod 16 = 0)%Z -> (r s 5%Z mod 4 = 0)%Z ->
  (forall i, (0 <= i < 4)%Z -> m s (r s 4 + 4 * i)%Z = Some (fl (x i))) ->
  (forall i, (0 <= i < 4)%Z -> m s (r s 1 + 4 * i)%Z = Some (WFloat (e i))) ->
  (forall i, (0 <= i < 4)%Z -> m s (r s 2 + 4 * i)%Z = Some (fl (rt i))) ->
  m s (r s 5%Z) <> None ->
  let y i := rnd (x i + rnd (delta * rt i)) in let b i := byte (beyond (y i) (e i)) in
  exists s1, run rnd table (10 + f) update_neon 5 s = run rnd table f update_neon (if (4 <? r s 3)%Z then 5 else 15) s1 /\
    r s1 1%Z = (r s 1 + 16)%Z /\ r s1 2%Z = (r s 2 + 16)%Z /\ r s1 3%Z = (r s 3 - 4)%Z /\ r s1 4%Z = (r s 4 + 16)%Z /\ r s1 5%Z = (r s 5 + 4)%Z /\
    (forall i, (i < 1 \/ 5 < i)%Z -> r s1 i = r s i) /\ (forall i, (i < 16 \/ 23 < i)%Z -> d s1 i = d s i) /\
    m s1 = upd (upd (upd (upd (upd (m s) (r s 4%Z) (Some (fl (y 0%Z)))) (r s 4 + 4)%Z (Some (fl (y 1%Z)))) (r s 4 + 8)%Z (Some (fl (y 2%Z)))) (r s 4 + 12)%Z (Some (fl (y 3%Z))))
               (r s 5%Z) (Some (WBytes (b 0%Z) (b 1%Z) (b 2%Z) (b 3%Z))).
Proof.
  intros D24 D25 D30 A4 A1 A2 A5 X E RT M y b.
  assert (Q : forall a l (w : Z -> word), (forall i, (0 <= i < 4)%Z -> l (a + 4 * i)%Z = Some (w i)) ->
    l a = Some (w 0%Z) /\ l (a + 4)%Z = Some (w 1%Z) /\ l (a + 8)%Z = Some (w 2%Z) /\ l (a + 12)%Z = Some (w 3%Z)).
  { intros a l w H. repeat split; [replace a with (a + 4 * 0)%Z at 1 by ring|..]; apply (H 0%Z) || apply (H 1%Z) || apply (H 2%Z) || apply (H 3%Z); lia. }
  destruct (Q _ _ (fun i => fl (x i)) X) as (X0 & X1 & X2 & X3). destruct (Q _ _ (fun i => WFloat (e i)) E) as (E0 & E1 & E2 & E3). destruct (Q _ _ (fun i => fl (rt i)) RT) as (R0 & R1 & R2 & R3).
  cbn beta in *. clear Q.
  change (10 + f)%nat with (S (S (S (S (S (S (S (S (S (S f)))))))))).
  eexists. split.
  { erewrite run_step; [|reflexivity|reflexivity|reflexivity].
    erewrite run_step; [|reflexivity|reflexivity|].
    2:{ apply exec_vld1; regs; [exact A4|now apply mod_16_4|exact X0|exact X1|exact X2|exact X3]. }
    erewrite run_step; [|reflexivity|reflexivity|].
    2:{ apply exec_vld1; regs; [exact A1|now apply mod_16_4|exact E0|exact E1|exact E2|exact E3]. }
    erewrite run_step; [|reflexivity|reflexivity|].
    2:{ apply exec_vld1; regs; [exact A2|now apply mod_16_4|exact R0|exact R1|exact R2|exact R3]. }
    erewrite run_step; [|reflexivity|reflexivity|].
    2:{ cbn [exec]. regs. rewrite D24, D25. cbn [lanes3 fst snd mla fl]. reflexivity. }
    erewrite run_step; [|reflexivity|reflexivity|].
    2:{ cbn [exec]. regs. unfold lanes2. cbn [fst snd]. rewrite !(cgt_fl (rnd _) (e _)). reflexivity. }
    erewrite run_step; [|reflexivity|reflexivity|].
    2:{ apply exec_vst1; regs; [exact A4|now apply mod_16_4|]. intros i I. change (m s (r s 4 + 4 * i)%Z <> None). rewrite X by exact I. discriminate. }
    erewrite run_step; [|reflexivity|reflexivity|].
    2:{ cbn [exec]. regs. rewrite D30. reflexivity. }
    erewrite run_step; [|reflexivity|reflexivity|].
    2:{ cbn [exec]. rewrite store_ok; [reflexivity|exact A5|]. regs. do 4 (destruct (_ =? _)%Z; [discriminate|]). exact M. }
    erewrite run_bgt by reflexivity. reflexivity. }
  repeat split.
  - intros i I. cbn [r d m gt set_r set_d set_gt put]. rewrite !upd_other by lia. reflexivity.
  - intros i I. cbn [r d m gt set_r set_d set_gt put]. rewrite !upd_other by lia. reflexivity.
Qed.
Lemma update_loop delta : forall k fuel s X E Rt M (x : Z -> R) (e : Z -> option R) (rt : Z -> R),
  (1 <= k)%Z -> (10 * Z.to_nat k + 1 <= fuel)%nat ->
  r s 1%Z = E -> r s 2%Z = Rt -> r s 4%Z = X -> r s 5%Z = M -> (r s 3 <= 4 * k)%Z -> (k = 1 \/ 4 * (k - 1) < r s 3)%Z ->
  d s 24%Z = (fl delta, fl delta) -> d s 25%Z = (fl delta, fl delta) -> d s 30%Z = (WBytes 0 4 8 12, WBytes 255 255 255 255) ->
  (X mod 16 = 0)%Z -> (E mod 16 = 0)%Z -> (Rt mod 16 = 0)%Z -> (M mod 4 = 0)%Z ->
  (forall i, (0 <= i < 4 * k)%Z -> m s (X + 4 * i)%Z = Some (fl (x i))) ->
  (forall i, (0 <= i < 4 * k)%Z -> m s (E + 4 * i)%Z = Some (WFloat (e i))) ->
  (forall i, (0 <= i < 4 * k)%Z -> m s (Rt + 4 * i)%Z = Some (fl (rt i))) ->
  (forall i, (0 <= i < k)%Z -> m s (M + 4 * i)%Z <> None) ->
  apart X (16 * k) E (16 * k) -> apart X (16 * k) Rt (16 * k) -> apart X (16 * k) M (4 * k) -> apart M (4 * k) E (16 * k) -> apart M (4 * k) Rt (16 * k) ->
  let y i := rnd (x i + rnd (delta * rt i)) in let b i := byte (beyond (y i) (e i)) in
  exists s', run rnd table fuel update_neon 5 s = Some s' /\
    (forall i, (0 <= i < 4 * k)%Z -> m s' (X + 4 * i)%Z = Some (fl (y i))) /\
    (forall i, (0 <= i < k)%Z -> m s' (M + 4 * i)%Z = Some (WBytes (b (4 * i)%Z) (b (4 * i + 1)%Z) (b (4 * i + 2)%Z) (b (4 * i + 3)%Z))) /\
    (forall a, ~ (X <= a < X + 16 * k)%Z -> ~ (M <= a < M + 4 * k)%Z -> m s' a = m s a) /\
    r s' 4%Z = (X + 16 * k)%Z /\ r s' 5%Z = (M + 4 * k)%Z /\ r s' 15%Z = r s 14%Z /\
    (forall i, (i < 1 \/ 5 < i)%Z -> i <> 15%Z -> r s' i = r s i) /\ (forall i, (i < 16 \/ 23 < i)%Z -> d s' i = d s i).
Proof.
  intros k fuel s X E Rt M x e rt K. revert fuel s X E Rt M x e rt. pattern k. apply Zlt_lower_bound_ind with (z := 1%Z); [|exact K]. clear k K.
  intros k IH K fuel s X E Rt M x e rt F R1 R2 R4 R5 N N' D24 D25 D30 AX AE AR AM MX ME MR MM P1 P2 P3 P4 P5 y b. unfold apart in *.
  replace fuel with (10 + (fuel - 10))%nat by lia. set (f := (fuel - 10)%nat).
  destruct (update_round f s delta x e rt) as (s1 & RUN & S1 & S2 & S3 & S4 & S5 & SR & SD & SM); rewrite ?R1, ?R2, ?R4, ?R5; auto.
  { intros i I. apply MX. lia. } { intros i I. apply ME. lia. } { intros i I. apply MR. lia. } { replace M with (M + 4 * 0)%Z by ring. apply MM. lia. }
  rewrite RUN. rewrite R1 in S1. rewrite R2 in S2. rewrite R4 in S4, SM. rewrite R5 in S5, SM.
  assert (OUT : forall a, ~ (X <= a < X + 16)%Z -> ~ (M <= a < M + 4)%Z -> m s1 a = m s a).
  { intros a O1 O2. rewrite SM. rewrite !upd_other by lia. reflexivity. }
  assert (INX : forall i, (0 <= i < 4)%Z -> m s1 (X + 4 * i)%Z = Some (fl (y i))).
  { intros i I. assert (C : (i = 0 \/ i = 1 \/ i = 2 \/ i = 3)%Z) by lia. rewrite SM. destruct C as [-> | [-> | [-> | ->]]].
    - replace (X + 4 * 0)%Z with X by ring. rewrite !upd_other by lia. apply upd_same.
    - replace (X + 4 * 1)%Z with (X + 4)%Z by ring. rewrite 3!upd_other by lia. apply upd_same.
    - replace (X + 4 * 2)%Z with (X + 8)%Z by ring. rewrite 2!upd_other by lia. apply upd_same.
    - replace (X + 4 * 3)%Z with (X + 12)%Z by ring. rewrite 1!upd_other by lia. apply upd_same. }
  assert (INM : m s1 M = Some (WBytes (b 0%Z) (b 1%Z) (b 2%Z) (b 3%Z))) by (rewrite SM; apply upd_same).
  assert (C : k = 1%Z \/ (1 < k)%Z) by lia. destruct C as [-> | K1].
  - rewrite (proj2 (Z.ltb_ge 4 (r s 3))) by lia. assert (FF : exists f', f = S f') by (exists (f - 1)%nat; lia). destruct FF as [f' ->].
    eexists. split; [reflexivity|]. unfold pc, lr. cbn [set_r r m d]. repeat split.
    + exact INX.
    + intros i I. replace i with 0%Z by lia. replace (M + 4 * 0)%Z with M by ring. exact INM.
    + intros a O1 O2. apply OUT; lia.
    + rewrite upd_other by lia. exact S4.
    + rewrite upd_other by lia. exact S5.
    + rewrite upd_same. apply SR. lia.
    + intros i I J. rewrite upd_other by exact J. apply SR. lia.
    + exact SD.
  - rewrite (proj2 (Z.ltb_lt 4 (r s 3))) by lia.
    destruct (IH (k - 1)%Z ltac:(lia) f s1 (X + 16)%Z (E + 16)%Z (Rt + 16)%Z (M + 4)%Z (fun i => x (i + 4)%Z) (fun i => e (i + 4)%Z) (fun i => rt (i + 4)%Z)) as (s' & RUN' & M1 & M2 & M3 & Q4 & Q5 & Q15 & QR & QD); auto; try lia.
    { rewrite SD by lia. exact D24. } { rewrite SD by lia. exact D25. } { rewrite SD by lia. exact D30. }
    all: try (apply mod_plus; easy).
    { intros i I. rewrite OUT by lia. replace (X + 16 + 4 * i)%Z with (X + 4 * (i + 4))%Z by ring. apply MX. lia. }
    { intros i I. rewrite OUT by lia. replace (E + 16 + 4 * i)%Z with (E + 4 * (i + 4))%Z by ring. apply ME. lia. }
    { intros i I. rewrite OUT by lia. replace (Rt + 16 + 4 * i)%Z with (Rt + 4 * (i + 4))%Z by ring. apply MR. lia. }
    { intros i I. rewrite OUT by lia. replace (M + 4 + 4 * i)%Z with (M + 4 * (i + 1))%Z by ring. apply MM. lia. }
    exists s'. split; [exact RUN'|]. repeat split.
    + intros i I. assert (C : (i < 4 \/ 4 <= i)%Z) by lia. destruct C as [C|C].
      * rewrite M3 by lia. apply INX. lia.
      * specialize (M1 (i - 4)%Z ltac:(lia)). cbn beta in M1. replace (X + 16 + 4 * (i - 4))%Z with (X + 4 * i)%Z in M1 by ring. replace (i - 4 + 4)%Z with i in M1 by ring. exact M1.
    + intros i I. assert (C : (i = 0 \/ 1 <= i)%Z) by lia. destruct C as [-> | C].
      * rewrite M3 by lia. replace (M + 4 * 0)%Z with M by ring. exact INM.
      * specialize (M2 (i - 1)%Z ltac:(lia)). cbn beta in M2. replace (M + 4 + 4 * (i - 1))%Z with (M + 4 * i)%Z in M2 by ring.
        replace (4 * (i - 1) + 4)%Z with (4 * i)%Z in M2 by ring. replace (4 * (i - 1) + 1 + 4)%Z with (4 * i + 1)%Z in M2 by ring.
        replace (4 * (i - 1) + 2 + 4)%Z with (4 * i + 2)%Z in M2 by ring. replace (4 * (i - 1) + 3 + 4)%Z with (4 * i + 3)%Z in M2 by ring. exact M2.
    + intros a O1 O2. rewrite M3 by lia. apply OUT; lia.
    + rewrite Q4. ring.
    + rewrite Q5. ring.
    + rewrite Q15. apply SR. lia.
    + intros i I J. rewrite QR by assumption. apply SR. exact I.
    + intros i I. rewrite QD by exact I. apply SD. exact I.
Qed.
End Update.

Section Evaluate.
Variables (rnd : R -> R) (table : Z).
(** Four coefficients, evaluated as the instructions do. *)
Definition horner (c : Z -> R) (x : R) : R := rnd (c 0%Z + rnd (rnd (c 1%Z + rnd (rnd (c 2%Z + rnd (c 3%Z * x)) * x)) * x)).
Lemma exec_vld4 s d0 rn (c : Z -> word) : (r s rn mod 32 = 0)%Z -> (forall i, (0 <= i < 8)%Z -> m s (r s rn + 4 * i)%Z = Some (c i)) ->
  exec rnd table (Vld4 d0 rn) s = Some (set_d (d0 + 6) (c 3%Z, c 7%Z) (set_d (d0 + 4) (c 2%Z, c 6%Z) (set_d (d0 + 2) (c 1%Z, c 5%Z) (set_d d0 (c 0%Z, c 4%Z) s)))).
Proof.
  intros A C. unfold exec. rewrite (proj2 (Z.eqb_eq _ _) A). assert (A4 := mod_16_4 _ (mod_32_16 _ A)).
  assert (L : forall i j, (0 <= i < 7)%Z -> j = (4 * i)%Z -> m s (r s rn + j)%Z = Some (c i) /\ m s (r s rn + j + 4)%Z = Some (c (i + 1)%Z)).
  { intros i j I ->. split; [apply C; lia|]. replace (r s rn + 4 * i + 4)%Z with (r s rn + 4 * (i + 1))%Z by ring. apply C. lia. }
  destruct (L 0%Z 0%Z) as [L0 L1]; try lia. rewrite Z.add_0_r in L0, L1. destruct (L 2%Z 8%Z) as [L2 L3]; try lia. destruct (L 4%Z 16%Z) as [L4 L5]; try lia. destruct (L 6%Z 24%Z) as [L6 L7]; try lia.
  rewrite (load2_ok _ _ _ _ A4 L0 L1), (load2_ok _ _ _ _ (mod_plus _ 8 4 ltac:(lia) A4 eq_refl) L2 L3), (load2_ok _ _ _ _ (mod_plus _ 16 4 ltac:(lia) A4 eq_refl) L4 L5), (load2_ok _ _ _ _ (mod_plus _ 24 4 ltac:(lia) A4 eq_refl) L6 L7).
  reflexivity.
Qed.
Lemma evaluate_round f s (c : Z -> R) (x : Z -> R) :
  (r s 0%Z mod 32 = 0)%Z -> (r s 6%Z = r s 0 + 32)%Z -> (r s 1%Z mod 4 = 0)%Z -> (r s 3%Z mod 16 = 0)%Z ->
  (forall i, (0 <= i < 16)%Z -> m s (r s 0 + 4 * i)%Z = Some (fl (c i))) ->
  (forall i, (0 <= i < 4)%Z -> m s (r s 1 + 4 * i)%Z = Some (fl (x i))) ->
  (forall i, (0 <= i < 4)%Z -> m s (r s 3 + 4 * i)%Z <> None) ->
  let y i := horner (fun j => c (4 * i + j)%Z) (x i) in
  exists s1, run rnd table (9 + f) evaluate_neon 6 s = run rnd table f evaluate_neon (if (4 <? r s 2)%Z then 6 else 15) s1 /\
    r s1 1%Z = (r s 1 + 16)%Z /\ r s1 2%Z = (r s 2 - 4)%Z /\ r s1 3%Z = (r s 3 + 16)%Z /\
    (forall i, (i < 1 \/ 3 < i)%Z -> r s1 i = r s i) /\ (forall i, (i < 16 \/ 25 < i)%Z -> d s1 i = d s i) /\
    m s1 = upd (upd (upd (upd (m s) (r s 3%Z) (Some (fl (y 0%Z)))) (r s 3 + 4)%Z (Some (fl (y 1%Z)))) (r s 3 + 8)%Z (Some (fl (y 2%Z)))) (r s 3 + 12)%Z (Some (fl (y 3%Z))).
Proof.
  intros A0 R6 A1 A3 C X Y y.
  assert (Q : forall a l (w : Z -> word), (forall i, (0 <= i < 4)%Z -> l (a + 4 * i)%Z = Some (w i)) ->
    l a = Some (w 0%Z) /\ l (a + 4)%Z = Some (w 1%Z) /\ l (a + 8)%Z = Some (w 2%Z) /\ l (a + 12)%Z = Some (w 3%Z)).
  { intros a l w H. repeat split; [replace a with (a + 4 * 0)%Z at 1 by ring|..]; apply (H 0%Z) || apply (H 1%Z) || apply (H 2%Z) || apply (H 3%Z); lia. }
  destruct (Q _ _ (fun i => fl (x i)) X) as (X0 & X1 & X2 & X3). clear Q. cbn beta in *.
  change (9 + f)%nat with (S (S (S (S (S (S (S (S (S f))))))))).
  eexists. split.
  { erewrite run_step; [|reflexivity|reflexivity|reflexivity].
    erewrite run_step; [|reflexivity|reflexivity|].
    2:{ apply (exec_vld4 _ _ _ (fun i => fl (c i))); regs; [exact A0|]. intros i I. apply C. lia. }
    erewrite run_step; [|reflexivity|reflexivity|].
    2:{ apply (exec_vld4 _ _ _ (fun i => fl (c (i + 8)%Z))); regs; rewrite R6; [now apply mod_plus|]. intros i I. change (m s (r s 0 + 32 + 4 * i)%Z = Some (fl (c (i + 8)%Z))). replace (r s 0 + 32 + 4 * i)%Z with (r s 0 + 4 * (i + 8))%Z by ring. apply C. lia. }
    erewrite run_step; [|reflexivity|reflexivity|].
    2:{ apply exec_vld1; regs; [exact A1|exact A1|exact X0|exact X1|exact X2|exact X3]. }
    cbn [Z.add Pos.add Pos.succ Pos.add_carry].
    erewrite run_step; [|reflexivity|reflexivity|].
    2:{ cbn [exec]. regs. cbn [lanes3 fst snd mla fl]. reflexivity. }
    erewrite run_step; [|reflexivity|reflexivity|].
    2:{ cbn [exec]. regs. cbn [lanes3 fst snd mla fl]. reflexivity. }
    erewrite run_step; [|reflexivity|reflexivity|].
    2:{ cbn [exec]. regs. cbn [lanes3 fst snd mla fl]. reflexivity. }
    erewrite run_step; [|reflexivity|reflexivity|].
    2:{ apply exec_vst1; regs; [exact A3|now apply mod_16_4|exact Y]. }
    erewrite run_bgt by reflexivity. reflexivity. }
  repeat split.
  - intros i I. cbn [r d m gt set_r set_d set_gt put]. rewrite !upd_other by lia. reflexivity.
  - intros i I. cbn [r d m gt set_r set_d set_gt put]. rewrite !upd_other by lia. reflexivity.
Qed.
Lemma evaluate_loop (c : Z -> R) C : forall k f s X Y (x : Z -> R), (1 <= k)%Z ->
  r s 0%Z = C -> r s 6%Z = (C + 32)%Z -> r s 1%Z = X -> r s 3%Z = Y -> (r s 2 <= 4 * k)%Z -> (k = 1 \/ 4 * (k - 1) < r s 2)%Z ->
  (C mod 32 = 0)%Z -> (X mod 4 = 0)%Z -> (Y mod 16 = 0)%Z ->
  (forall i, (0 <= i < 16)%Z -> m s (C + 4 * i)%Z = Some (fl (c i))) ->
  (forall i, (0 <= i < 4 * k)%Z -> m s (X + 4 * i)%Z = Some (fl (x i))) ->
  (forall i, (0 <= i < 4 * k)%Z -> m s (Y + 4 * i)%Z <> None) ->
  apart Y (16 * k) C 64 -> apart Y (16 * k) X (16 * k) ->
  exists s', run rnd table (9 * Z.to_nat k + f) evaluate_neon 6 s = run rnd table f evaluate_neon 15 s' /\
    (forall i, (0 <= i < 4 * k)%Z -> m s' (Y + 4 * i)%Z = Some (fl (horner (fun j => c (4 * (i mod 4) + j)%Z) (x i)))) /\
    (forall a, ~ (Y <= a < Y + 16 * k)%Z -> m s' a = m s a) /\
    (forall i, (i < 1 \/ 3 < i)%Z -> r s' i = r s i) /\ (forall i, (i < 16 \/ 25 < i)%Z -> d s' i = d s i).
Proof.
  intros k f s X Y x K. revert f s X Y x. pattern k. apply Zlt_lower_bound_ind with (z := 1%Z); [|exact K]. clear k K.
  intros k IH K f s X Y x R0 R6 R1 R3 N N' AC AX AY MC MX MY P1 P2. unfold apart in *.
  replace (9 * Z.to_nat k + f)%nat with (9 + (9 * Z.to_nat (k - 1) + f))%nat by lia.
  destruct (evaluate_round (9 * Z.to_nat (k - 1) + f) s c x) as (s1 & RUN & S1 & S2 & S3 & SR & SD & SM); rewrite ?R0, ?R1, ?R3, ?R6; auto.
  { intros i I. apply MX. lia. } { intros i I. apply MY. lia. }
  rewrite RUN. rewrite R1 in S1. rewrite R3 in S3, SM. set (y := fun i => horner (fun j => c (4 * i + j)%Z) (x i)) in *.
  assert (OUT : forall a, ~ (Y <= a < Y + 16)%Z -> m s1 a = m s a).
  { intros a O1. rewrite SM. rewrite !upd_other by lia. reflexivity. }
  assert (INY : forall i, (0 <= i < 4)%Z -> m s1 (Y + 4 * i)%Z = Some (fl (y i))).
  { intros i I. assert (E : (i = 0 \/ i = 1 \/ i = 2 \/ i = 3)%Z) by lia. rewrite SM. destruct E as [-> | [-> | [-> | ->]]].
    - replace (Y + 4 * 0)%Z with Y by ring. rewrite !upd_other by lia. apply upd_same.
    - replace (Y + 4 * 1)%Z with (Y + 4)%Z by ring. rewrite 2!upd_other by lia. apply upd_same.
    - replace (Y + 4 * 2)%Z with (Y + 8)%Z by ring. rewrite 1!upd_other by lia. apply upd_same.
    - replace (Y + 4 * 3)%Z with (Y + 12)%Z by ring. apply upd_same. }
  assert (IN4 : forall i, (0 <= i < 4)%Z -> m s1 (Y + 4 * i)%Z = Some (fl (horner (fun j => c (4 * (i mod 4) + j)%Z) (x i)))).
  { intros i I. rewrite Z.mod_small by exact I. now apply INY. }
  assert (E : k = 1%Z \/ (1 < k)%Z) by lia. destruct E as [-> | K1].
  - rewrite (proj2 (Z.ltb_ge 4 (r s 2))) by lia. exists s1. split; [reflexivity|]. repeat split; auto.
  - rewrite (proj2 (Z.ltb_lt 4 (r s 2))) by lia.
    destruct (IH (k - 1)%Z ltac:(lia) f s1 (X + 16)%Z (Y + 16)%Z (fun i => x (i + 4)%Z)) as (s' & RUN' & M1 & M3 & QR & QD); auto; try lia.
    { rewrite SR by lia. exact R0. } { rewrite SR by lia. exact R6. }
    all: try (apply mod_plus; easy).
    { intros i I. rewrite OUT by lia. apply MC. exact I. }
    { intros i I. rewrite OUT by lia. replace (X + 16 + 4 * i)%Z with (X + 4 * (i + 4))%Z by ring. apply MX. lia. }
    { intros i I. rewrite OUT by lia. replace (Y + 16 + 4 * i)%Z with (Y + 4 * (i + 4))%Z by ring. apply MY. lia. }
    exists s'. split; [exact RUN'|]. repeat split.
    + intros i I. assert (E : (i < 4 \/ 4 <= i)%Z) by lia. destruct E as [E|E].
      * rewrite M3 by lia. apply IN4. lia.
      * specialize (M1 (i - 4)%Z ltac:(lia)). cbn beta in M1. replace (Y + 16 + 4 * (i - 4))%Z with (Y + 4 * i)%Z in M1 by ring. replace (i - 4 + 4)%Z with i in M1 by ring.
        replace ((i - 4) mod 4)%Z with (i mod 4)%Z in M1; [exact M1|]. replace i with (i - 4 + 1 * 4)%Z at 1 by ring. now rewrite Z.mod_add.
    + intros a O. rewrite M3 by lia. apply OUT. lia.
    + intros i I. rewrite QR by exact I. apply SR. exact I.
    + intros i I. rewrite QD by exact I. apply SD. exact I.
Qed.

(** The whole function. *)
Lemma evaluate_all (c x : Z -> R) C X Y n k f s : (1 <= k)%Z -> (n <= 4 * k)%Z -> (k = 1 \/ 4 * (k - 1) < n)%Z ->
  expects_evaluate C X n Y s -> (C mod 32 = 0)%Z -> (X mod 4 = 0)%Z -> (Y mod 16 = 0)%Z -> (r s sp mod 4 = 0)%Z ->
  (forall i, (0 <= i < 16)%Z -> m s (C + 4 * i)%Z = Some (fl (c i))) ->
  (forall i, (0 <= i < 4 * k)%Z -> m s (X + 4 * i)%Z = Some (fl (x i))) ->
  (forall i, (0 <= i < 4 * k)%Z -> m s (Y + 4 * i)%Z <> None) ->
  (forall i, (0 <= i < 6)%Z -> m s (r s sp - 24 + 4 * i)%Z <> None) ->
  apart Y (16 * k) C 64 -> apart Y (16 * k) X (16 * k) ->
  apart (r s sp - 24) 24 C 64 -> apart (r s sp - 24) 24 X (16 * k) -> apart (r s sp - 24) 24 Y (16 * k) ->
  exists s', run rnd table (9 * Z.to_nat k + 8 + f) evaluate_neon 0 s = Some s' /\
    (forall i, (0 <= i < 4 * k)%Z -> m s' (Y + 4 * i)%Z = Some (fl (horner (fun j => c (4 * (i mod 4) + j)%Z) (x i)))) /\
    (forall a, ~ (Y <= a < Y + 16 * k)%Z -> ~ (r s sp - 24 <= a < r s sp)%Z -> m s' a = m s a) /\
    r s' 10%Z = 48%Z /\ r s' pc = r s lr /\ (forall i, (4 <= i <= 13)%Z -> i <> 10%Z -> i <> 12%Z -> r s' i = r s i) /\ (forall i, (8 <= i < 16)%Z -> d s' i = d s i).
Proof.
  intros K N N' (R0 & R1 & R2 & R3) AC AX AY AS MC MX MY MS P1 P2 P3 P4 P5. unfold apart, sp in *.
  replace (9 * Z.to_nat k + 8 + f)%nat with (S (S (S (S (S (S (9 * Z.to_nat k + S (S f)))))))) by lia.
  assert (MS' : forall j, (j = 24 \/ j = 20 \/ j = 16 \/ j = 12 \/ j = 8 \/ j = 4)%Z -> m s (r s 13 - j)%Z <> None).
  { intros j J. replace (r s 13 - j)%Z with (r s 13 - 24 + 4 * ((24 - j) / 4))%Z; [apply MS|]; destruct J as [-> | [-> | [-> | [-> | [-> | ->]]]]]; cbn; lia. }
  set (S0 := r s 13%Z) in *.
  assert (A8 : ((S0 - 8) mod 4 = 0)%Z) by (apply (mod_plus S0 (-8) 4); easy). assert (A24 : ((S0 - 24) mod 4 = 0)%Z) by (apply (mod_plus S0 (-24) 4); easy).
  assert (A16 : ((S0 - 16) mod 4 = 0)%Z) by (apply (mod_plus S0 (-16) 4); easy).
  (* push {r6, lr} *)
  set (s1 := set_r 13 (S0 - 8) (put (S0 - 8 + 4) (WInt (r s 14%Z)) (put (S0 - 8) (WInt (r s 6%Z)) s))).
  assert (E1 : exec rnd table (Push 6 14) s = Some s1).
  { cbn [exec]. unfold sp. fold S0. rewrite store2_ok; [reflexivity|exact A8|apply MS'; lia|]. replace (S0 - 8 + 4)%Z with (S0 - 4)%Z by ring. apply MS'. lia. }
  erewrite run_step; [|reflexivity|reflexivity|exact E1].
  (* vpush {q6} *)
  set (s2 := set_r 13 (S0 - 24) (put (S0 - 16 + 4) (snd (d s 13%Z)) (put (S0 - 16) (fst (d s 13%Z)) (put (S0 - 24 + 4) (snd (d s 12%Z)) (put (S0 - 24) (fst (d s 12%Z)) s1))))).
  assert (MS1 : forall a, m s a <> None -> m s1 a <> None) by (intros a O; unfold s1; cbn [set_r m]; now do 2 apply mapped_put).
  assert (E2 : exec rnd table (Vpush 6) s1 = Some s2).
  { cbn [exec]. unfold sp. change (r s1 13%Z) with (S0 - 8)%Z. replace (S0 - 8 - 16)%Z with (S0 - 24)%Z by ring. replace (S0 - 8 - 8)%Z with (S0 - 16)%Z by ring.
    rewrite store2_ok; [|exact A24|apply MS1, MS'; lia|replace (S0 - 24 + 4)%Z with (S0 - 20)%Z by ring; apply MS1, MS'; lia].
    rewrite store2_ok; [reflexivity|exact A16| |]; do 2 apply mapped_put; apply MS1; [|replace (S0 - 16 + 4)%Z with (S0 - 12)%Z by ring]; apply MS'; lia. }
  erewrite run_step; [|reflexivity|reflexivity|exact E2].
  erewrite run_step; [|reflexivity|reflexivity|reflexivity]. erewrite run_step; [|reflexivity|reflexivity|reflexivity].
  erewrite run_step; [|reflexivity|reflexivity|reflexivity]. erewrite run_step; [|reflexivity|reflexivity|reflexivity].
  change (0 + 1 + 1 + 1 + 1 + 1 + 1)%Z with 6%Z.
  match goal with |- context [run _ _ _ _ 6 ?t] => set (s3 := t) end.
  assert (M3 : m s3 = m s2) by reflexivity.
  assert (R3' : forall i, i <> 6%Z -> i <> 10%Z -> i <> 12%Z -> i <> 13%Z -> r s3 i = r s i).
  { intros i I6 I10 I12 I13. unfold s3, s2, s1. cbn [set_r set_d put r]. rewrite !upd_other by assumption. reflexivity. }
  assert (RS : r s3 13%Z = (S0 - 24)%Z) by reflexivity. assert (R6 : r s3 6%Z = (C + 32)%Z) by (rewrite <- R0; reflexivity). assert (R10 : r s3 10%Z = 48%Z) by reflexivity.
  assert (D3 : forall i, i <> 12%Z -> i <> 13%Z -> d s3 i = d s i).
  { intros i I12 I13. unfold s3, s2, s1. cbn [set_r set_d put d]. rewrite !upd_other by assumption. reflexivity. }
  assert (OUT : forall a, ~ (S0 - 24 <= a < S0)%Z -> m s3 a = m s a).
  { intros a O. rewrite M3. unfold s2, s1. cbn [set_r put m]. rewrite !upd_other by lia. reflexivity. }
  assert (IN : m s3 (S0 - 24)%Z = Some (fst (d s 12%Z)) /\ m s3 (S0 - 24 + 4)%Z = Some (snd (d s 12%Z)) /\ m s3 (S0 - 16)%Z = Some (fst (d s 13%Z)) /\ m s3 (S0 - 16 + 4)%Z = Some (snd (d s 13%Z)) /\
               m s3 (S0 - 8)%Z = Some (WInt (r s 6%Z)) /\ m s3 (S0 - 8 + 4)%Z = Some (WInt (r s 14%Z))).
  { rewrite M3. unfold s2, s1. cbn [set_r put m]. repeat split; repeat first [apply upd_same | rewrite upd_other by lia]. }
  destruct IN as (I1 & I2 & I3 & I4 & I5 & I6). clearbody s3.
  destruct (evaluate_loop c C k (S (S f)) s3 X Y x K) as (s4 & RUN & Y4 & O4 & R4 & D4); auto; try (rewrite R3' by lia; assumption); try (rewrite R3', R2 by lia; assumption).
  { intros i I. rewrite OUT by lia. now apply MC. } { intros i I. rewrite OUT by lia. now apply MX. } { intros i I. rewrite OUT by lia. now apply MY. }
  rewrite RUN. clear RUN.
  assert (RS4 : r s4 13%Z = (S0 - 24)%Z) by (rewrite R4 by lia; exact RS).
  (* vpop {q6} *)
  set (s5 := set_r 13 (S0 - 8) (set_d 13 (d s 13%Z) (set_d 12 (d s 12%Z) s4))).
  assert (E5 : exec rnd table (Vpop 6) s4 = Some s5).
  { cbn [exec]. unfold sp. rewrite RS4. rewrite (load2_ok (S0 - 24) s4 (fst (d s 12%Z)) (snd (d s 12%Z))); [|exact A24|rewrite O4 by lia; exact I1|rewrite O4 by lia; exact I2].
    replace (S0 - 24 + 8)%Z with (S0 - 16)%Z by ring. rewrite (load2_ok (S0 - 16) s4 (fst (d s 13%Z)) (snd (d s 13%Z))); [|exact A16|rewrite O4 by lia; exact I3|rewrite O4 by lia; exact I4].
    replace (S0 - 24 + 16)%Z with (S0 - 8)%Z by ring. rewrite <- !surjective_pairing. reflexivity. }
  erewrite run_step; [|reflexivity|reflexivity|exact E5]. change (15 + 1)%Z with 16%Z.
  (* pop {r6, pc} *)
  set (s6 := set_r 15 (r s 14%Z) (set_r 13 S0 (set_r 6 (r s 6%Z) s5))).
  assert (E6 : exec rnd table (Pop_return 6) s5 = Some s6).
  { cbn [exec]. unfold sp, pc. change (r s5 13%Z) with (S0 - 8)%Z. rewrite (load2_ok (S0 - 8) s5 (WInt (r s 6%Z)) (WInt (r s 14%Z))); [|exact A8| |].
    - cbn [fst snd get_int]. replace (S0 - 8 + 8)%Z with S0 by ring. reflexivity.
    - change (m s4 (S0 - 8)%Z = Some (WInt (r s 6%Z))). rewrite O4 by lia. exact I5.
    - change (m s4 (S0 - 8 + 4)%Z = Some (WInt (r s 14%Z))). rewrite O4 by lia. exact I6. }
  assert (RR : run rnd table (S f) evaluate_neon 16 s5 = Some s6) by (cbn [run]; change (getz evaluate_neon 16) with (Some (Pop_return 6)); cbv iota beta; now rewrite E6).
  rewrite RR. exists s6. split; [reflexivity|]. change (m s6) with (m s4). repeat split.
  - exact Y4.
  - intros a O1 O2. rewrite O4 by exact O1. apply OUT. lia.
  - change (r s4 10%Z = 48%Z). rewrite R4 by lia. exact R10.
  - intros i I J J12. assert (C6 : (i = 6 \/ i = 13 \/ (i <> 6 /\ i <> 13))%Z) by lia. destruct C6 as [-> | [-> | [J6 J13]]]; [reflexivity|reflexivity|].
    unfold s6, s5. cbn [set_r set_d r]. rewrite !upd_other by lia. rewrite R4 by lia. apply R3'; lia.
  - intros i I. assert (C12 : (i = 12 \/ i = 13 \/ (i <> 12 /\ i <> 13))%Z) by lia. destruct C12 as [-> | [-> | [J12 J13]]]; [reflexivity|reflexivity|].
    unfold s6, s5. cbn [set_r set_d d]. rewrite !upd_other by lia. rewrite D4 by lia. apply D3; lia.
Qed.
End Evaluate.

Section Update2.
Variables (rnd : R -> R) (table : Z).
Lemma update_all (delta : R) (x : Z -> R) (e : Z -> option R) (rt : Z -> R) D E Rt n X M k f s : (1 <= k)%Z -> (n <= 4 * k)%Z -> (k = 1 \/ 4 * (k - 1) < n)%Z ->
  expects_update D E Rt n X M s -> table_at table s -> (D mod 4 = 0)%Z -> m s D = Some (fl delta) -> (r s sp mod 4 = 0)%Z ->
  (X mod 16 = 0)%Z -> (E mod 16 = 0)%Z -> (Rt mod 16 = 0)%Z -> (M mod 4 = 0)%Z ->
  (forall i, (0 <= i < 4 * k)%Z -> m s (X + 4 * i)%Z = Some (fl (x i))) ->
  (forall i, (0 <= i < 4 * k)%Z -> m s (E + 4 * i)%Z = Some (WFloat (e i))) ->
  (forall i, (0 <= i < 4 * k)%Z -> m s (Rt + 4 * i)%Z = Some (fl (rt i))) ->
  (forall i, (0 <= i < k)%Z -> m s (M + 4 * i)%Z <> None) ->
  apart X (16 * k) E (16 * k) -> apart X (16 * k) Rt (16 * k) -> apart X (16 * k) M (4 * k) -> apart M (4 * k) E (16 * k) -> apart M (4 * k) Rt (16 * k) ->
  let y i := rnd (x i + rnd (delta * rt i)) in let b i := byte (beyond (y i) (e i)) in
  exists s', run rnd table (10 * Z.to_nat k + 6 + f) update_neon 0 s = Some s' /\
    (forall i, (0 <= i < 4 * k)%Z -> m s' (X + 4 * i)%Z = Some (fl (y i))) /\
    (forall i, (0 <= i < k)%Z -> m s' (M + 4 * i)%Z = Some (WBytes (b (4 * i)%Z) (b (4 * i + 1)%Z) (b (4 * i + 2)%Z) (b (4 * i + 3)%Z))) /\
    (forall a, ~ (X <= a < X + 16 * k)%Z -> ~ (M <= a < M + 4 * k)%Z -> m s' a = m s a) /\
    r s' 4%Z = (X + 16 * k)%Z /\ r s' 5%Z = (M + 4 * k)%Z /\ r s' pc = r s lr /\
    (forall i, (6 <= i <= 13)%Z -> i <> 12%Z -> r s' i = r s i) /\ (forall i, (8 <= i < 16)%Z -> d s' i = d s i).
Proof.
  intros K N N' (R0 & R1 & R2 & R3 & SX & SM) (AT & T0 & T4) AD MD AS AX AE AR AM MX ME MR MM P1 P2 P3 P4 P5 y b. unfold sp, pc, lr in *.
  replace (10 * Z.to_nat k + 6 + f)%nat with (S (S (S (S (S (10 * Z.to_nat k + 1 + f)))))) by lia.
  assert (E1 : exec rnd table (Ldr 4 0) s = Some (set_r 4 X s)).
  { cbn [exec]. unfold sp. rewrite Z.add_0_r, (load_ok _ s (WInt X)) by assumption. reflexivity. }
  erewrite run_step; [|reflexivity|reflexivity|exact E1].
  assert (E2 : exec rnd table (Ldr 5 4) (set_r 4 X s) = Some (set_r 5 M (set_r 4 X s))).
  { cbn [exec]. unfold sp. change (r (set_r 4 X s) 13%Z) with (r s 13%Z). rewrite (load_ok _ _ (WInt M)); [reflexivity|now apply mod_plus|exact SM]. }
  erewrite run_step; [|reflexivity|reflexivity|exact E2]. set (s2 := set_r 5 M (set_r 4 X s)).
  assert (E3 : exec rnd table (Vld1_all 12 0) s2 = Some (set_d 25 (fl delta, fl delta) (set_d 24 (fl delta, fl delta) s2))).
  { cbn [exec]. change (r s2 0%Z) with (r s 0%Z). rewrite R0, (load_ok _ _ (fl delta)); [reflexivity|exact AD|exact MD]. }
  erewrite run_step; [|reflexivity|reflexivity|exact E3]. erewrite run_step; [|reflexivity|reflexivity|reflexivity].
  set (s4 := set_r 12 table (set_d 25 (fl delta, fl delta) (set_d 24 (fl delta, fl delta) s2))).
  assert (E5 : exec rnd table (Vld1_8 30 12) s4 = Some (set_d 30 (WBytes 0 4 8 12, WBytes 255 255 255 255) s4)).
  { cbn [exec]. change (r s4 12%Z) with table. rewrite (load2_ok _ _ (WBytes 0 4 8 12) (WBytes 255 255 255 255)); [reflexivity|exact AT|exact T0|exact T4]. }
  erewrite run_step; [|reflexivity|reflexivity|exact E5]. change (0 + 1 + 1 + 1 + 1 + 1)%Z with 5%Z. set (s5 := set_d 30 _ s4).
  destruct (update_loop rnd table delta k (10 * Z.to_nat k + 1 + f) s5 X E Rt M x e rt K) as (s' & RUN & Q1 & Q2 & Q3 & Q4 & Q5 & Q15 & QR & QD); auto; try lia;
    try (change (r s5 3%Z) with (r s 3%Z); rewrite R3; assumption).
  exists s'. split; [exact RUN|]. split; [exact Q1|]. split; [exact Q2|]. split; [exact Q3|]. split; [exact Q4|]. split; [exact Q5|]. split; [exact Q15|]. split.
  - intros i I J. rewrite QR by lia. unfold s5, s4, s2. cbn [set_r set_d r]. rewrite !upd_other by lia. reflexivity.
  - intros i I. rewrite QD by lia. unfold s5, s4, s2. cbn [set_r set_d d]. rewrite !upd_other by lia. reflexivity.
Qed.
End Update2.
