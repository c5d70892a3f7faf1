(** C130: the linear processor of the samples in single precision (RoundLinearModel). *)
From Verif Require Import RBase Base BaseFacts LinearModel LinearProps RoundModel RoundProofs RoundLinearModel RoundCubicProps.
Open Scope R_scope.

Section Rounded.
Variable rnd : R -> R.
Hypothesis H : rounds single rnd.

Lemma l_single n : (Z.abs n <= 2 ^ 24)%Z -> single (IZR n).
Proof. intros N. rewrite <- (Rmult_1_r (IZR n)), <- pow2_0. apply fmt_grid_in; [lia|lia|lia]. Qed.
Lemma l_int n : (Z.abs n <= 2 ^ 24)%Z -> rnd (IZR n) = IZR n.
Proof. intros N. apply (rnd_id _ _ _ H). now apply l_single. Qed.

(** One frame: the time counts down exactly. *)
Lemma f_lstep_eq dt w T v : (0 <= dt)%Z -> (dt <= 2 ^ 24)%Z -> (Z.abs T <= 2 ^ 24)%Z -> (Z.abs (T - dt) <= 2 ^ 24)%Z ->
  f_lstep rnd dt (LElem w (IZR T) v) = LElem w (IZR (T - dt)) (if (0 <? T)%Z then f_mlerp rnd v w (rnd (IZR dt / IZR T)) else w).
Proof.
  intros D D2 T1 T2. unfold f_lstep. cbn [l_time l_value l_target]. rewrite (l_int dt) by lia. rewrite <- minus_IZR, l_int by lia. f_equal.
  destruct (Z.ltb_spec 0 T) as [P|P]; [rewrite Rltb_t by (now apply IZR_lt); reflexivity|]. apply IZR_le in P. now rewrite Rltb_f by lra.
Qed.
(** The last frame of the way ends at the target, whatever rounding did before. *)
Lemma f_mlerp_1 v w : single w -> f_mlerp rnd v w (rnd 1) = w.
Proof.
  intros W. assert (O : rnd 1 = 1) by (exact (l_int 1 ltac:(lia))). assert (Z0 : rnd 0 = 0) by (exact (l_int 0 ltac:(lia))).
  unfold f_mlerp. rewrite O. replace (1 - 1) with 0 by lra. rewrite Z0, Rmult_0_l, Z0, Rmult_1_l, Rplus_0_l. now rewrite !(rnd_id _ _ _ H) by (try exact W; rewrite (rnd_id _ _ _ H) by exact W; exact W).
Qed.

(** One frame is off by less than six units of the last place. *)
Lemma f_mlerp_err k v w p : (-100 <= k)%Z -> 0 <= p <= 1 -> Rabs v <= 2 * pow2 k -> Rabs w <= pow2 k ->
  Rabs (f_mlerp rnd v w (rnd p) - mlerp v w p) <= 6 * pow2 (k - 24).
Proof.
  intros K P V W. pose proof (pow2_pos k) as PK. set (u := pow2 (-25)). assert (U : 0 < u) by apply pow2_pos.
  assert (E : forall x j, (-100 <= j)%Z -> Rabs x <= pow2 j -> Rabs (rnd x - x) <= pow2 j * u).
  { intros x j J X. unfold u. rewrite <- pow2_add. replace (j + -25)%Z with (j - 24 - 1)%Z by lia. apply (rnd_err 24 (-149) ltac:(lia) rnd H); [lia|exact X]. }
  assert (B0 : 0 <= rnd p <= 1). { assert (O : rnd 1 = 1) by (exact (l_int 1 ltac:(lia))). assert (Z0 : rnd 0 = 0) by (exact (l_int 0 ltac:(lia))). rewrite <- O, <- Z0 at 1. rewrite <- O. split; [rewrite <- Z0|rewrite O, <- O]; apply (rnd_mono _ _ _ H); lra. }
  assert (E1 := E p 0%Z ltac:(lia) ltac:(rewrite pow2_0; rabs; lra)). rewrite pow2_0, Rmult_1_l in E1. set (a := rnd p) in *.
  assert (Q : 0 <= rnd (1 - a) <= 1). { assert (O : rnd 1 = 1) by (exact (l_int 1 ltac:(lia))). assert (Z0 : rnd 0 = 0) by (exact (l_int 0 ltac:(lia))). split; [rewrite <- Z0|rewrite <- O]; apply (rnd_mono _ _ _ H); lra. }
  assert (E2 := E (1 - a) 0%Z ltac:(lia) ltac:(rewrite pow2_0; rabs; lra)). rewrite pow2_0, Rmult_1_l in E2. set (q := rnd (1 - a)) in *.
  assert (K1 : pow2 (k + 1) = 2 * pow2 k) by apply pow2_succ. assert (K2 : pow2 (k + 2) = 4 * pow2 k) by (replace (k + 2)%Z with (k + 1 + 1)%Z by lia; rewrite !pow2_succ; lra).
  assert (QV : Rabs (q * v) <= 2 * pow2 k) by (rewrite Rabs_mult, (Rabs_pos_eq q) by lra; pose proof (Rabs_pos v); nra).
  assert (AW : Rabs (a * w) <= pow2 k) by (rewrite Rabs_mult, (Rabs_pos_eq a) by lra; pose proof (Rabs_pos w); nra).
  assert (E3 := E (q * v) (k + 1)%Z ltac:(lia) ltac:(lra)). rewrite K1 in E3. assert (E4 := E (a * w) k K AW). set (s := rnd (q * v)) in *. set (t := rnd (a * w)) in *.
  assert (U4 : u <= / 1024). { unfold u. replace (/ 1024) with (pow2 (- (10))) by (rewrite pow2_inv, pow2_IZR by lia; reflexivity). apply pow2_le. lia. }
  assert (ST : Rabs (s + t) <= 4 * pow2 k). { assert (2 * pow2 k * u <= 2 * pow2 k * / 1024) by (apply Rmult_le_compat_l; lra). assert (pow2 k * u <= pow2 k * / 1024) by (apply Rmult_le_compat_l; lra). replace (s + t) with (q * v + a * w + (s - q * v) + (t - a * w)) by ring. do 3 (eapply Rle_trans; [apply Rabs_triang|apply Rplus_le_compat] || idtac).
    all: eapply Rle_trans; [apply Rabs_triang|]; pose proof (Rabs_triang (q * v + a * w) (s - q * v)); pose proof (Rabs_triang (q * v) (a * w)); lra. }
  assert (E5 := E (s + t) (k + 2)%Z ltac:(lia) ltac:(lra)). rewrite K2 in E5.
  unfold f_mlerp. fold q s t. unfold mlerp.
  assert (D1 : Rabs ((q - (1 - a)) * v) <= 2 * pow2 k * u) by (rewrite Rabs_mult; pose proof (Rabs_pos v); pose proof (Rabs_pos (q - (1 - a))); nra).
  assert (D2 : Rabs ((a - p) * (w - v)) <= 3 * pow2 k * u) by (rewrite Rabs_mult; assert (Rabs (w - v) <= 3 * pow2 k) by (unfold Rminus; eapply Rle_trans; [apply Rabs_triang|]; rewrite Rabs_Ropp; lra); pose proof (Rabs_pos (w - v)); pose proof (Rabs_pos (a - p)); nra).
  replace (rnd (s + t) - ((1 - p) * v + p * w)) with ((rnd (s + t) - (s + t)) + (s - q * v) + (t - a * w) + (q - (1 - a)) * v + (a - p) * (w - v)) by ring.
  replace (6 * pow2 (k - 24)) with (12 * pow2 k * u). 2: { unfold u. replace (k - 24)%Z with (k + -25 + 1)%Z by lia. rewrite pow2_succ, pow2_add. ring. }
  pose proof (Rabs_triang ((rnd (s + t) - (s + t)) + (s - q * v) + (t - a * w) + (q - (1 - a)) * v) ((a - p) * (w - v))).
  pose proof (Rabs_triang ((rnd (s + t) - (s + t)) + (s - q * v) + (t - a * w)) ((q - (1 - a)) * v)).
  pose proof (Rabs_triang ((rnd (s + t) - (s + t)) + (s - q * v)) (t - a * w)).
  pose proof (Rabs_triang (rnd (s + t) - (s + t)) (s - q * v)). lra.
Qed.
End Rounded.

Lemma f_lrun_cons rnd dt fs st : f_lrun rnd (dt :: fs) st = f_lrun rnd fs (map (f_lstep rnd dt) st).
Proof. reflexivity. Qed.
Lemma f_lrun_app rnd a b st : f_lrun rnd (a ++ b) st = f_lrun rnd b (f_lrun rnd a st).
Proof. apply fold_left_app. Qed.

(** *** The time that remains is exact, and after n frames the value is within 6 n units of
    the last place (2^(k-24), for values up to 2^k) of the line from the start to the target. *)
Theorem C130_close : forall rnd, rounds single rnd -> forall frames st i v w T k, getz st i = Some (LElem w (IZR T) v) ->
  (0 < T <= 2 ^ 24)%Z -> forwards frames -> (total frames <= T)%Z -> (-100 <= k)%Z -> Rabs v <= pow2 k -> Rabs w <= pow2 k -> (6 * len frames <= 2 ^ 24)%Z ->
  exists y, getz (f_lrun rnd frames st) i = Some (LElem w (IZR (T - total frames)) y) /\
    Rabs (y - (v + (w - v) * (IZR (total frames) / IZR T))) <= IZR (len frames) * (6 * pow2 (k - 24)).
Proof.
  intros rnd H frames st i v w T k E TR F L K V W N. set (eps := 6 * pow2 (k - 24)). pose proof (pow2_pos (k - 24)) as PE. assert (E0 : 0 < eps) by (unfold eps; lra).
  set (line := fun t : Z => v + (w - v) * (IZR t / IZR T)). assert (TP : 0 < IZR T) by (apply IZR_lt; lia).
  assert (LB : forall t, (0 <= t <= T)%Z -> Rabs (line t) <= pow2 k).
  { intros t [A B]. apply IZR_le in A, B. unfold line. set (q := IZR t / IZR T). assert (Q : 0 <= q <= 1) by (unfold q; split; [apply Rmult_le_pos; [lra|left; now apply Rinv_0_lt_compat]|apply (Rmult_le_reg_r (IZR T)); [lra|]; unfold Rdiv; rewrite Rmult_assoc, Rinv_l; lra]).
    assert (VB : - pow2 k <= v <= pow2 k) by (clear - V; revert V; rabs; lra). assert (WB : - pow2 k <= w <= pow2 k) by (clear - W; revert W; rabs; lra). apply Rabs_le. nra. }
  assert (G : forall frames st y t n, getz st i = Some (LElem w (IZR (T - t)) y) -> (0 <= t)%Z -> (0 <= n)%Z -> forwards frames -> (t + total frames <= T)%Z -> Rabs (y - line t) <= IZR n * eps -> (6 * (n + len frames) <= 2 ^ 24)%Z ->
    exists y', getz (f_lrun rnd frames st) i = Some (LElem w (IZR (T - (t + total frames))) y') /\ Rabs (y' - line (t + total frames)%Z) <= IZR (n + len frames) * eps).
  { clear frames st E F L N. induction frames as [|dt fs IH]; intros st y t n E T0 N0 F L D N.
    - exists y. cbn [total]. rewrite !Z.add_0_r. split; [exact E|]. exact D.
    - apply forwards_cons in F as [D0 F]. pose proof (total_nonneg _ F) as TN. cbn [total] in *. rewrite len_cons in *. pose proof (len_nonneg fs) as LN. rewrite f_lrun_cons.
      assert (E1 : getz (map (f_lstep rnd dt) st) i = Some (LElem w (IZR (T - (t + dt))) (if (0 <? T - t)%Z then f_mlerp rnd y w (rnd (IZR dt / IZR (T - t))) else w))).
      { rewrite l_getz_map, E, (f_lstep_eq rnd H) by lia. do 3 f_equal. lia. }
      destruct (IH _ _ (t + dt)%Z (n + 1)%Z E1) as (y' & Y1 & Y2); [lia|lia|exact F|lia| |lia|].
      + rewrite plus_IZR. assert (NE : 0 <= IZR n * eps) by (apply Rmult_le_pos; [apply IZR_le; lia|lra]). destruct (Z.ltb_spec 0 (T - t)) as [P|P].
        * apply IZR_lt in P. set (p := IZR dt / IZR (T - t)). assert (DT : 0 <= IZR dt <= IZR (T - t)) by (split; apply IZR_le; lia).
          assert (PB : 0 <= p <= 1) by (unfold p; split; [apply Rmult_le_pos; [lra|left; now apply Rinv_0_lt_compat]|apply (Rmult_le_reg_r (IZR (T - t))); [lra|]; unfold Rdiv; rewrite Rmult_assoc, Rinv_l; lra]).
          assert (YB : Rabs y <= 2 * pow2 k).
          { pose proof (LB t ltac:(lia)) as B. assert (IZR n * eps <= pow2 k). { unfold eps. replace (pow2 k) with (IZR (2 ^ 24) * pow2 (k - 24)) by (rewrite <- (pow2_IZR 24) by lia; rewrite <- pow2_add; f_equal; lia). rewrite <- Rmult_assoc. apply Rmult_le_compat_r; [lra|]. replace (IZR n * 6) with (IZR (n * 6)) by (rewrite mult_IZR; reflexivity). apply IZR_le. lia. }
            replace y with (line t + (y - line t)) by ring. eapply Rle_trans; [apply Rabs_triang|]. lra. }
          pose proof (f_mlerp_err rnd H k y w p K PB YB W) as FE. fold eps in FE.
          assert (LE : mlerp y w p - line (t + dt)%Z = (1 - p) * (y - line t)). { unfold mlerp, line, p. rewrite plus_IZR, minus_IZR in *. field. lra. }
          replace (f_mlerp rnd y w (rnd p) - line (t + dt)%Z) with ((f_mlerp rnd y w (rnd p) - mlerp y w p) + (1 - p) * (y - line t)) by (rewrite <- LE; ring).
          eapply Rle_trans; [apply Rabs_triang|]. rewrite Rabs_mult, (Rabs_pos_eq (1 - p)) by lra. pose proof (Rabs_pos (y - line t)). nra.
        * assert (EQ : (t + dt = T)%Z) by lia. rewrite EQ. replace (w - line T) with 0 by (unfold line; field; lra). rewrite Rabs_R0. nra.
      + exists y'. replace (t + (dt + total fs))%Z with (t + dt + total fs)%Z by lia. replace (n + (1 + len fs))%Z with (n + 1 + len fs)%Z by lia. auto. }
  destruct (G frames st v 0%Z 0%Z) as (y & Y1 & Y2); [rewrite Z.sub_0_r; exact E|lia|lia|exact F|lia| |lia|].
  - unfold line. replace (v - (v + (w - v) * (0 / IZR T))) with 0 by (field; lra). rewrite Rabs_R0. lra.
  - exists y. rewrite Z.add_0_l in *. auto.
Qed.
Print Assumptions C130_close.

(** *** No rounding is left at the end: frames that take the time exactly bring the motivator to
    its target exactly, and it stays there. *)
Theorem C130_arrives : forall rnd, rounds single rnd -> forall before after st i v w T, getz st i = Some (LElem w (IZR T) v) -> single w ->
  (0 < T <= 2 ^ 24)%Z -> forwards (before ++ after) -> total before = T -> l_values (f_lrun rnd (before ++ after) st) i 1 = Some [w].
Proof.
  intros rnd H before after st i v w T E W TR F L.
  assert (S : forall fs st T', getz st i = Some (LElem w T' w) -> T' <= 0 -> forwards fs -> exists T2, getz (f_lrun rnd fs st) i = Some (LElem w T2 w) /\ T2 <= 0).
  { clear - H. induction fs as [|dt fs IH]; intros st T' E T0 F; [exists T'; auto|]. apply forwards_cons in F as [D F]. rewrite f_lrun_cons. apply (IH _ (rnd (T' - rnd (IZR dt)))); [|..|exact F].
    - rewrite l_getz_map, E. unfold f_lstep. cbn [l_time l_value l_target]. now rewrite Rltb_f by lra.
    - assert (Z0 : rnd 0 = 0) by (exact (l_int rnd H 0 ltac:(lia))). assert (0 <= rnd (IZR dt)) by (rewrite <- Z0; apply (rnd_mono _ _ _ H); now apply IZR_le). rewrite <- Z0. apply (rnd_mono _ _ _ H). lra. }
  assert (A : forall fs st T v, getz st i = Some (LElem w (IZR T) v) -> (0 < T <= 2 ^ 24)%Z -> forwards fs -> total fs = T -> getz (f_lrun rnd fs st) i = Some (LElem w 0 w) \/ exists T2, getz (f_lrun rnd fs st) i = Some (LElem w T2 w) /\ T2 <= 0).
  { clear - H W S. induction fs as [|dt fs IH]; intros st T v E TR F L; cbn [total] in L; [lia|]. apply forwards_cons in F as [D F]. pose proof (total_nonneg _ F). rewrite f_lrun_cons.
    assert (E1 : getz (map (f_lstep rnd dt) st) i = Some (LElem w (IZR (T - dt)) (f_mlerp rnd v w (rnd (IZR dt / IZR T))))) by (rewrite l_getz_map, E, (f_lstep_eq rnd H) by lia; now replace (0 <? T)%Z with true by lia).
    destruct (Z.eq_dec dt T) as [->|NE].
    - right. assert (TP : 0 < IZR T) by (apply IZR_lt; lia). replace (IZR T / IZR T) with 1 in E1 by (field; lra). rewrite (f_mlerp_1 rnd H) in E1 by exact W. apply (S _ _ _ E1); [rewrite Z.sub_diag; lra|exact F].
    - apply (IH _ _ _ E1); [lia|exact F|lia]. }
  assert (FB : forwards before) by (intros d I; apply F; apply in_or_app; now left). assert (FA : forwards after) by (intros d I; apply F; apply in_or_app; now right). rewrite f_lrun_app.
  assert (X : exists T2, getz (f_lrun rnd before st) i = Some (LElem w T2 w) /\ T2 <= 0) by (destruct (A _ _ _ _ E TR FB L) as [X|X]; [exists 0; split; [exact X|lra]|exact X]).
  destruct X as (T2 & X & X2). destruct (S after _ _ X X2 FA) as (T3 & Y & _). unfold l_values, l_each. now rewrite Y.
Qed.
Print Assumptions C130_arrives.

(** *** Before that it is not exact: a motivator that is at its target already leaves it on the
    way, whatever way halfway cases are rounded. *)
Theorem C130_rests_refuted : forall rnd, rounds single rnd ->
  l_values (f_lrun rnd [1%Z] [LElem 11 6 11]) 0 1 = Some [11 - pow2 (-20)] /\ l_values (l_run [1%Z] [LElem 11 6 11]) 0 1 = Some [11].
Proof.
  intros rnd H. assert (P20 : pow2 (-20) = / 1048576) by (change (-20)%Z with (- (20))%Z; rewrite pow2_inv, pow2_IZR by lia; reflexivity). rewrite P20. clear P20. split.
  - cbn [f_lrun fold_left map]. rewrite (f_lstep_eq rnd H 1 11 6 11) by lia. change (0 <? 6)%Z with true. cbn iota. unfold l_values, l_each. change (getz [?x] 0) with (Some x). 
    unfold f_mlerp. at_ H 11184811%Z 26%Z. at_ H 13981013%Z 24%Z. at_ H 9611946%Z 20%Z. at_ H 15379115%Z 23%Z. at_ H 11534335%Z 20%Z.
    cbn. f_equal. f_equal. lra.
  - cbn. unfold l_step. cbn [l_time l_value l_target]. rewrite Rltb_t by lra. cbn [l_value]. unfold mlerp. f_equal. f_equal. lra.
Qed.
Print Assumptions C130_rests_refuted.

(** From 10 to -5 in 100, in frames of 30, 0 and 10; the program of the sample ends at -5. *)
Example C130_case : forall rnd, rounds single rnd ->
  (exists y, l_values (f_lrun rnd [30; 0; 10]%Z [LElem (-5) 100 10]) 0 1 = Some [y] /\ Rabs (y - 4) <= 3 * (6 * pow2 (4 - 24))) /\
  l_values (f_lrun rnd (repeat 1%Z 100 ++ [7; 7]%Z) [LElem (-5) 100 10]) 0 1 = Some [-5].
Proof.
  intros rnd H. split.
  - destruct (C130_close rnd H [30; 0; 10]%Z [LElem (-5) 100 10] 0 10 (-5) 100 4) as (y & Y & B); try reflexivity; try lia.
    + intros d [<-|[<-|[<-|[]]]]; lia.
    + cbn. lia.
    + rewrite pow2_IZR by lia. change (2 ^ 4)%Z with 16%Z. rabs; lra.
    + rewrite pow2_IZR by lia. change (2 ^ 4)%Z with 16%Z. rabs; lra.
    + cbn. lia.
    + exists y. split; [unfold l_values, l_each; now rewrite Y|]. change (total [30; 0; 10]%Z) with 40%Z in B. change (len [30; 0; 10]%Z) with 3%Z in B. replace (10 + (-5 - 10) * (40 / 100)) with 4 in B by lra. exact B.
  - apply (C130_arrives rnd H (repeat 1%Z 100) [7; 7]%Z _ 0 10 (-5) 100); try reflexivity; try lia.
    + exact (l_single (-5) ltac:(lia)).
    + intros d D. apply in_app_or in D as [D|D]; [apply repeat_spec in D; lia|]. destruct D as [<-|[<-|[]]]; lia.
Qed.
