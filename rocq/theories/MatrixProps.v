(** C51: the value of a matrix motivator.  C52: merging operation lists.  C55: time remaining.
    C78: the rotation reported beside the matrix. *)
From Verif Require Import RBase BaseFacts MathfuModel OvershootModel SimpleModel EvaluatorModel SplineTargetModel RangeModel MatrixModel.
From Coq Require Import Lia Sorting.Sorted.
Local Open Scope R_scope.

(** A simple motivator for the examples: it goes to its target at once. *)
Definition demo_class : mclass (R * R) unit R :=
  MClass (R * R) unit R (fun _ => Some (0, 0)) fst (fun m => Some (snd m)) (fun _ => Some 7%Z)
    (fun t _ => n <- getz t 0 ;; Some (mn_value n, mn_velocity n)) (fun s _ _ => Some (s, 0)) (fun s => Some s).

(** ** C51 *)
(** A matrix given by its rows. *)
Definition rows (a b c d e f g h i j k l m n o p : R) : mat4 :=
  M4 (V4 a e i m) (V4 b f j n) (V4 c g k o) (V4 d h l p).
(** The elementary matrices. *)
Definition elementary (t : mtype) (v : R) : option mat4 :=
  let C := cos v in let S := sin v in
  match t with
  | RotateX => Some (rows 1 0 0 0   0 C (- S) 0   0 S C 0   0 0 0 1)
  | RotateY => Some (rows C 0 S 0   0 1 0 0   (- S) 0 C 0   0 0 0 1)
  | RotateZ => Some (rows C (- S) 0 0   S C 0 0   0 0 1 0   0 0 0 1)
  | TranslateX => Some (rows 1 0 0 v   0 1 0 0   0 0 1 0   0 0 0 1)
  | TranslateY => Some (rows 1 0 0 0   0 1 0 v   0 0 1 0   0 0 0 1)
  | TranslateZ => Some (rows 1 0 0 0   0 1 0 0   0 0 1 v   0 0 0 1)
  | ScaleX => Some (rows v 0 0 0   0 1 0 0   0 0 1 0   0 0 0 1)
  | ScaleY => Some (rows 1 0 0 0   0 v 0 0   0 0 1 0   0 0 0 1)
  | ScaleZ => Some (rows 1 0 0 0   0 1 0 0   0 0 v 0   0 0 0 1)
  | ScaleUniformly => Some (rows v 0 0 0   0 v 0 0   0 0 v 0   0 0 0 1)
  | _ => None
  end.
Definition product (ms : list mat4) : mat4 := fold_right mmul identity4 ms.
(** The scale factor of an operation on each axis. *)
Definition factor_x (t : mtype) (v : R) : R := match t with ScaleX | ScaleUniformly => v | _ => 1 end.
Definition factor_y (t : mtype) (v : R) : R := match t with ScaleY | ScaleUniformly => v | _ => 1 end.
Definition factor_z (t : mtype) (v : R) : R := match t with ScaleZ | ScaleUniformly => v | _ => 1 end.
Definition times (l : list R) : R := fold_right Rmult 1 l.

Lemma mat4_eq m n : c0 m = c0 n -> c1 m = c1 n -> c2 m = c2 n -> c3 m = c3 n -> m = n.
Proof. destruct m, n; cbn; intros; subst; reflexivity. Qed.
Ltac vec := repeat match goal with v : vec4 |- _ => destruct v | v : vec3 |- _ => destruct v | m : mat4 |- _ => destruct m | m : mat3 |- _ => destruct m | q : quat |- _ => destruct q end;
  cbv [rows mmul mat_vec add4 scale4 sub4 identity4 rotate_about add3 scale3 mat_vec3 drop4 with_w x4 y4 z4 w4 x3 y3 z3 c0 c1 c2 c3 a0 a1 a2 fst snd qw qx qy qz].
Ltac parts := repeat match goal with |- (_, _) = (_, _) => f_equal | |- M4 _ _ _ _ = M4 _ _ _ _ => f_equal | |- M3 _ _ _ = M3 _ _ _ => f_equal
  | |- V4 _ _ _ _ = V4 _ _ _ _ => f_equal | |- V3 _ _ _ = V3 _ _ _ => f_equal | |- Quat _ _ _ _ = Quat _ _ _ _ => f_equal end.
Ltac mat_eq := vec; parts; ring.

Lemma mmul_assoc a b c : mmul (mmul a b) c = mmul a (mmul b c).
Proof. mat_eq. Qed.
Lemma mmul_1_l a : mmul identity4 a = a.
Proof. mat_eq. Qed.
Lemma mmul_1_r a : mmul a identity4 = a.
Proof. mat_eq. Qed.

Lemma op_step_product {M I S} (k : mclass M I S) m s o e : elementary (op_type o) (op_value k o) = Some e ->
  op_step k (m, s) o = Some (mmul m e, V3 (x3 s * factor_x (op_type o) (op_value k o)) (y3 s * factor_y (op_type o) (op_value k o)) (z3 s * factor_z (op_type o) (op_value k o))).
Proof.
  unfold op_step, elementary. cbv zeta. generalize (op_value k o) as v. intros v E. destruct (op_type o); try discriminate; injection E as <-; cbn [factor_x factor_y factor_z]; apply f_equal; mat_eq.
Qed.

Lemma op_steps_product {M I S} (k : mclass M I S) : forall ops es m s, Forall2 (fun o e => elementary (op_type o) (op_value k o) = Some e) ops es ->
  op_steps k (m, s) ops = Some (mmul m (product es),
    V3 (x3 s * times (map (fun o => factor_x (op_type o) (op_value k o)) ops)) (y3 s * times (map (fun o => factor_y (op_type o) (op_value k o)) ops))
       (z3 s * times (map (fun o => factor_z (op_type o) (op_value k o)) ops))).
Proof.
  induction ops as [|o ops IH]; intros es m s F; inversion F as [|? e ? es' E F']; subst.
  - cbn [op_steps product fold_right map times]. rewrite mmul_1_r, !Rmult_1_r. now destruct s.
  - cbn [op_steps]. rewrite (op_step_product k m s o e E). rewrite (IH es' _ _ F'). cbn [product fold_right map times x3 y3 z3]. rewrite mmul_assoc, !Rmult_assoc. reflexivity.
Qed.

(** The matrix is the product of the elementary matrices in the order of the operations, and
    the scale is, on each axis, the product of the scale factors. *)
Theorem C51_product : forall M I S (k : mclass M I S) ops es, Forall2 (fun o e => elementary (op_type o) (op_value k o) = Some e) ops es ->
  calculate_result_matrix k ops = Some (product es,
    V3 (times (map (fun o => factor_x (op_type o) (op_value k o)) ops)) (times (map (fun o => factor_y (op_type o) (op_value k o)) ops))
       (times (map (fun o => factor_z (op_type o) (op_value k o)) ops))).
Proof.
  intros. unfold calculate_result_matrix. rewrite (op_steps_product k ops es) by assumption. cbn [x3 y3 z3]. now rewrite mmul_1_l, !Rmult_1_l.
Qed.
Print Assumptions C51_product.

(** An operation that has no elementary matrix fails the assert. *)
Theorem C51_unsupported : forall M I S (k : mclass M I S) ops, (exists o, In o ops /\ elementary (op_type o) (op_value k o) = None) ->
  calculate_result_matrix k ops = None.
Proof.
  intros M I S k ops (o & Hin & E). unfold calculate_result_matrix. generalize (identity4, V3 1 1 1) as st. induction ops as [|o' ops IH]; [destruct Hin|]. intros st. cbn [op_steps].
  destruct Hin as [->|Hin].
  - replace (op_step k st o) with (@None (mat4 * vec3)); [reflexivity|]. unfold elementary in E. unfold op_step. now destruct (op_type o).
  - destruct (op_step k st o') as [st'|]; [|reflexivity]. now apply IH.
Qed.
Print Assumptions C51_unsupported.

Lemma map_all_getz {A B} (f : A -> option B) : forall l r, map_all f l = Some r -> forall i x, getz l i = Some x -> exists y, f x = Some y /\ getz r i = Some y.
Proof.
  induction l as [|a l IH]; intros r H i x E; cbn [map_all] in H.
  - apply getz_Some in E. unfold len in E. cbn in E. lia.
  - destruct (f a) as [b|] eqn:Fa; [|discriminate]. destruct (map_all f l) as [r'|] eqn:Fl; [|discriminate]. injection H as <-.
    pose proof (getz_Some _ _ _ E). destruct (Z.eq_dec i 0) as [->|N].
    + change (getz (a :: l) 0) with (Some a) in E. injection E as <-. exists b. split; [exact Fa|reflexivity].
    + change (a :: l) with ([a] ++ l) in E. change (b :: r') with ([b] ++ r'). rewrite getz_app2 in E by (change (len [a]) with 1%Z; lia). rewrite getz_app2 by (change (len [b]) with 1%Z; lia).
      change (len [a]) with 1%Z in E. change (len [b]) with 1%Z. eapply IH; [reflexivity|exact E].
Qed.
Lemma map_all_succeeds {A B} (f : A -> option B) l : (forall x, In x l -> exists y, f x = Some y) -> exists r, map_all f l = Some r.
Proof.
  induction l as [|a l IH]; intros H; cbn [map_all]; [eauto|]. destruct (H a (or_introl eq_refl)) as [y ->]. destruct IH as [r ->]; [intros; apply H; now right|]. eauto.
Qed.

(** A frame gives each matrix motivator the product of its own operations. *)
Theorem C51_frame : forall M I S (k : mclass M I S) (data : list (mdata M)),
  (forall d o, In d data -> In o (md_ops d) -> elementary (op_type o) (op_value k o) <> None) ->
  exists data', matrix_frame k data = Some data' /\ forall i d es, getz data i = Some d -> Forall2 (fun o e => elementary (op_type o) (op_value k o) = Some e) (md_ops d) es ->
    exists d', getz data' i = Some d' /\ md_matrix d' = product es /\ md_ops d' = md_ops d.
Proof.
  intros M I S k data H. destruct (map_all_succeeds (mdata_update k) data) as [r Hr].
  { intros d Hd. unfold mdata_update. assert (G : forall ops, (forall o, In o ops -> elementary (op_type o) (op_value k o) <> None) -> exists es, Forall2 (fun o e => elementary (op_type o) (op_value k o) = Some e) ops es).
    { induction ops as [|o ops IH]; intros G; [exists []; constructor|]. destruct IH as [es F]; [intros; apply G; now right|].
      destruct (elementary (op_type o) (op_value k o)) as [e|] eqn:E; [|now destruct (G o (or_introl eq_refl))]. exists (e :: es). now constructor. }
    destruct (G (md_ops d)) as [es F]; [intros; now apply (H d)|]. rewrite (C51_product _ _ _ k _ es F). eauto. }
  exists r. split; [exact Hr|]. intros i d es E F. destruct (map_all_getz _ _ _ Hr i d E) as (d' & U & G). exists d'. split; [exact G|].
  unfold mdata_update in U. rewrite (C51_product _ _ _ k _ es F) in U. injection U as <-. auto.
Qed.
Print Assumptions C51_frame.

(** Translate by (3,0,0), then scale by 2, then move 5 along the scaled x axis. *)
Example C51_case :
  let ops := [Op 0 TranslateX None 3; Op 1 ScaleUniformly (Some (2, 0)) 0; Op 2 TranslateX None 5] in
  calculate_result_matrix demo_class ops = Some (rows 2 0 0 13   0 2 0 0   0 0 2 0   0 0 0 1, V3 2 2 2).
Proof.
  intros ops. unfold ops. rewrite (C51_product _ _ _ demo_class _ [rows 1 0 0 3 0 1 0 0 0 0 1 0 0 0 0 1; rows 2 0 0 0 0 2 0 0 0 0 2 0 0 0 0 1; rows 1 0 0 5 0 1 0 0 0 0 1 0 0 0 0 1]).
  - cbn [product fold_right map times factor_x factor_y factor_z op_type op_value op_motivator op_const demo_class m_value fst]. apply f_equal. unfold fst. mat_eq.
  - repeat constructor.
Qed.

(** ** C52 *)
Section Merge.
Context {M I S : Type} (k : mclass M I S) (forbidden : mtype -> bool) (p : playback).

Lemma blend_to_op_id i o o' : blend_to_op k i p o = Some o' -> op_id o' = op_id o /\ op_type o' = op_type o.
Proof.
  unfold blend_to_op. destruct (i_union i).
  - intros [= <-]. auto.
  - destruct (op_motivator o) as [m|]; [|intros [= <-]; auto]. destruct (m_velocity k m) as [d|]; [|discriminate].
    destruct (_ && _); [intros [= <-]; auto|]. destruct (to_motive_time _); [|discriminate]. destruct (target1f _ _ _); [|discriminate]. destruct (m_set_target _ _ _); [|discriminate]. intros [= <-]. auto.
  - destruct (ensure_motivator k o i); [|discriminate]. destruct (m_set_target _ _ _); [|discriminate]. intros [= <-]. auto.
  - destruct (ensure_motivator k o i); [|discriminate]. destruct (m_set_spline _ _ _ _); [|discriminate]. intros [= <-]. auto.
Qed.
Lemma blend_to_default_id t o o' : blend_to_default k t o = Some o' -> op_id o' = op_id o /\ op_type o' = op_type o.
Proof.
  unfold blend_to_default. destruct (op_motivator o); [|intros [= <-]; auto]. destruct (if (t =? 0)%Z then _ else _) as [tg|]; [|discriminate]. destruct (m_set_target _ _ _); [|discriminate]. intros [= <-]. auto.
Qed.
Lemma make_op_id i o : make_op k i p = Some o -> op_id o = i_id i /\ op_type o = i_type i.
Proof.
  unfold make_op. destruct (i_id i <=? kMaxMatrixOpId)%Z; [|discriminate]. cbv zeta. destruct (match i_init i with None => _ | Some _ => _ end) as [m|]; [|discriminate].
  intros E. apply blend_to_op_id in E. exact E.
Qed.

Definition dflt (o : op M) : option (op M) := t <- to_motive_time (blend_x p) ;; blend_to_default k t o.
Lemma dflt_id o o' : dflt o = Some o' -> op_id o' = op_id o /\ op_type o' = op_type o.
Proof. unfold dflt. destruct (to_motive_time _); [|discriminate]. apply blend_to_default_id. Qed.

(** The merge, by structure. *)
Fixpoint merge (old : list (op M)) : list (opinit I S) -> option (list (op M)) :=
  fix inner (new : list (opinit I S)) : option (list (op M)) :=
    match old, new with
    | [], [] => Some []
    | [], n :: ns => o' <- make_op k n p ;; r <- inner ns ;; Some (o' :: r)
    | o :: os, [] => o' <- dflt o ;; r <- merge os [] ;; Some (o' :: r)
    | o :: os, n :: ns =>
        assert negb (forbidden (i_type n)) ;;
        if (op_id o =? i_id n)%Z then o' <- blend_to_op k n p o ;; r <- merge os ns ;; Some (o' :: r)
        else if (op_id o <? i_id n)%Z then o' <- dflt o ;; r <- merge os (n :: ns) ;; Some (o' :: r)
        else o' <- make_op k n p ;; r <- inner ns ;; Some (o' :: r)
    end.

Lemma default_loop_ok : forall os done fuel, (length os <= fuel)%nat ->
  default_loop k fuel (done ++ os) p (len done) (len (done ++ os)) = r <- merge os [] ;; Some (done ++ r).
Proof.
  induction os as [|o os IH]; intros done fuel L.
  - destruct fuel; cbn [default_loop merge]; rewrite app_nil_r, Z.ltb_irrefl; reflexivity.
  - destruct fuel as [|fuel]; [cbn in L; lia|]. cbn [default_loop merge]. replace (len done <? len (done ++ o :: os))%Z with true by (symmetry; rewrite len_app, len_cons; pose proof (len_nonneg os); lia).
    rewrite getz_app by reflexivity. unfold dflt. destruct (to_motive_time _) as [t|]; [|reflexivity]. destruct (blend_to_default k t o) as [o'|]; [|reflexivity]. rewrite setz_app by reflexivity.
    replace (done ++ o' :: os) with ((done ++ [o']) ++ os) by (rewrite <- app_assoc; reflexivity).
    replace (len done + 1)%Z with (len (done ++ [o'])) by (rewrite len_app; reflexivity).
    replace (len (done ++ o :: os)) with (len ((done ++ [o']) ++ os)) by (unfold len; rewrite !app_length; cbn [length]; lia).
    rewrite IH by (cbn in L; lia). destruct (merge os []); [|reflexivity]. rewrite <- app_assoc. reflexivity.
Qed.
Lemma insert_loop_ok : forall ns nd done fuel, (length ns <= fuel)%nat ->
  insert_loop k fuel done (nd ++ ns) p (len nd) = r <- merge [] ns ;; Some (done ++ r).
Proof.
  induction ns as [|n ns IH]; intros nd done fuel L.
  - destruct fuel; cbn [insert_loop merge]; rewrite app_nil_r, Z.ltb_irrefl, app_nil_r; reflexivity.
  - destruct fuel as [|fuel]; [cbn in L; lia|]. cbn [insert_loop]. replace (len nd <? len (nd ++ n :: ns))%Z with true by (symmetry; rewrite len_app, len_cons; pose proof (len_nonneg ns); lia).
    rewrite getz_app by reflexivity. change (merge [] (n :: ns)) with (o' <- make_op k n p ;; r <- merge [] ns ;; Some (o' :: r)). destruct (make_op k n p) as [o|]; [|reflexivity].
    replace (nd ++ n :: ns) with ((nd ++ [n]) ++ ns) by (rewrite <- app_assoc; reflexivity). replace (len nd + 1)%Z with (len (nd ++ [n])) by (rewrite len_app; reflexivity).
    rewrite IH by (cbn in L; lia). destruct (merge [] ns); [|reflexivity]. rewrite <- app_assoc. reflexivity.
Qed.

Definition finish (x : option (list (op M) * Z * Z)) (new : list (opinit I S)) : option (list (op M)) :=
  match x with
  | Some (ops1, old_idx, new_idx) => ops2 <- default_loop k (length ops1) ops1 p old_idx (len ops1) ;; insert_loop k (length new) ops2 new p new_idx
  | None => None
  end.
Lemma merge_loop_ok : forall fuel os ns done nd, (length os + length ns <= fuel)%nat ->
  finish (merge_loop k forbidden fuel (done ++ os) (nd ++ ns) p (len done) (len nd)) (nd ++ ns) = r <- merge os ns ;; Some (done ++ r).
Proof.
  assert (Stop : forall os ns done nd, os = [] \/ ns = [] -> finish (Some (done ++ os, len done, len nd)) (nd ++ ns) = r <- merge os ns ;; Some (done ++ r)).
  { intros os ns done nd H. unfold finish. rewrite default_loop_ok by (rewrite app_length; lia). destruct H as [->| ->].
    - cbn [merge]. rewrite app_nil_r. apply insert_loop_ok. rewrite app_length. lia.
    - rewrite app_nil_r. destruct (merge os []) as [r|]; [|reflexivity]. 
      destruct (length nd); cbn [insert_loop]; rewrite Z.ltb_irrefl; reflexivity. }
  induction fuel as [|fuel IH]; intros os ns done nd L.
  - assert (os = [] /\ ns = []) as [-> ->] by (destruct os, ns; cbn in L; try lia; auto). cbn [merge_loop]. rewrite !app_nil_r, Z.ltb_irrefl. cbn [andb].
    specialize (Stop [] [] done nd (or_introl eq_refl)). rewrite !app_nil_r in Stop. exact Stop.
  - destruct os as [|o os].
    { cbn [merge_loop]. rewrite app_nil_r, Z.ltb_irrefl. cbn [andb]. specialize (Stop [] ns done nd (or_introl eq_refl)). rewrite app_nil_r in Stop. exact Stop. }
    destruct ns as [|n ns].
    { cbn [merge_loop]. rewrite app_nil_r, Z.ltb_irrefl. rewrite Bool.andb_false_r. specialize (Stop (o :: os) [] done nd (or_intror eq_refl)). rewrite app_nil_r in Stop. exact Stop. }
    cbn [merge_loop]. replace (len done <? len (done ++ o :: os))%Z with true by (symmetry; rewrite len_app, len_cons; pose proof (len_nonneg os); lia).
    replace (len nd <? len (nd ++ n :: ns))%Z with true by (symmetry; rewrite len_app, len_cons; pose proof (len_nonneg ns); lia). cbn [andb].
    rewrite !getz_app by reflexivity. cbn [merge]. fold (merge os). destruct (negb (forbidden (i_type n))); [|reflexivity]. unfold blendable. cbn [length] in L.
    assert (N1 : nd ++ n :: ns = (nd ++ [n]) ++ ns) by (rewrite <- app_assoc; reflexivity).
    assert (N2 : (len nd + 1)%Z = len (nd ++ [n])) by (rewrite len_app; reflexivity).
    destruct (op_id o =? i_id n)%Z.
    + destruct (blend_to_op k n p o) as [o'|]; [|reflexivity]. rewrite setz_app by reflexivity.
      replace (done ++ o' :: os) with ((done ++ [o']) ++ os) by (rewrite <- app_assoc; reflexivity). replace (len done + 1)%Z with (len (done ++ [o'])) by (rewrite len_app; reflexivity).
      rewrite N1, N2, IH by lia. destruct (merge os ns); [|reflexivity]. rewrite <- app_assoc. reflexivity.
    + destruct (op_id o <? i_id n)%Z.
      * unfold dflt. destruct (to_motive_time _) as [t|]; [|reflexivity]. destruct (blend_to_default k t o) as [o'|]; [|reflexivity]. rewrite setz_app by reflexivity.
        replace (done ++ o' :: os) with ((done ++ [o']) ++ os) by (rewrite <- app_assoc; reflexivity). replace (len done + 1)%Z with (len (done ++ [o'])) by (rewrite len_app; reflexivity).
        rewrite IH by (cbn [length]; lia). destruct (merge os (n :: ns)); [|reflexivity]. rewrite <- app_assoc. reflexivity.
      * destruct (make_op k n p) as [o'|]; [|reflexivity].
        replace (insert_at (done ++ o :: os) (len done) o') with ((done ++ [o']) ++ o :: os).
        2: { unfold insert_at, len. rewrite Nat2Z.id. rewrite firstn_app, skipn_app, Nat.sub_diag, firstn_all, skipn_all. cbn [firstn skipn]. rewrite app_nil_r, <- app_assoc. reflexivity. }
        replace (len done + 1)%Z with (len (done ++ [o'])) by (rewrite len_app; reflexivity). rewrite N1, N2, IH by (cbn [length]; lia).
        change ((fix inner (new : list (opinit I S)) : option (list (op M)) := _) ns) with (merge (o :: os) ns).
        destruct (merge (o :: os) ns); [|reflexivity]. rewrite <- app_assoc. reflexivity.
Qed.
Lemma merge_ops_ok old new : merge_ops k forbidden old new p = merge old new.
Proof.
  pose proof (merge_loop_ok (length old + length new) old new [] [] (le_n _)) as H. change (len (@nil (op M))) with 0%Z in H. change (len (@nil (opinit I S))) with 0%Z in H. cbn [app] in H.
  unfold merge_ops. unfold finish in H. rewrite H. now destruct (merge old new).
Qed.
End Merge.

Definition ascending (l : list Z) : Prop := StronglySorted Z.lt l.
Definition find_op {M} (id : Z) (l : list (op M)) : option (op M) := find (fun o => op_id o =? id)%Z l.
Definition find_init {I S} (id : Z) (l : list (opinit I S)) : option (opinit I S) := find (fun i => i_id i =? id)%Z l.

Section MergeFacts.
Context {M I S : Type} (k : mclass M I S) (forbidden : mtype -> bool) (p : playback).

Lemma merge_ids : forall old new res, merge k forbidden p old new = Some res -> forall x, (forall y, In y (map op_id old) -> x < y)%Z -> (forall y, In y (map i_id new) -> x < y)%Z ->
  forall y, In y (map op_id res) -> (x < y)%Z.
Proof.
  induction old as [|o os IH].
  - induction new as [|n ns IHn]; intros res E x Ho Hn y Hy.
    + injection E as <-. destruct Hy.
    + cbn [merge] in E. destruct (make_op k n p) as [o'|] eqn:E1; [|discriminate]. fold (merge k forbidden p []) in E. destruct (merge k forbidden p [] ns) as [r|] eqn:E2; [|discriminate]. injection E as <-.
      destruct Hy as [<-|Hy]; [rewrite (proj1 (make_op_id _ _ _ _ E1)); apply Hn; now left|]. apply (IHn _ eq_refl); auto. intros; apply Hn; now right.
  - induction new as [|n ns IHn]; intros res E x Ho Hn y Hy.
    + cbn [merge] in E. destruct (dflt k p o) as [o'|] eqn:E1; [|discriminate]. destruct (merge k forbidden p os []) as [r|] eqn:E2; [|discriminate]. injection E as <-.
      destruct Hy as [<-|Hy]; [rewrite (proj1 (dflt_id _ _ _ _ E1)); apply Ho; now left|]. apply (IH _ _ E2); auto. intros; apply Ho; now right.
    + cbn [merge] in E. fold (merge k forbidden p os) in E. change ((fix inner (new : list (opinit I S)) : option (list (op M)) := _) ns) with (merge k forbidden p (o :: os) ns) in E.
      destruct (negb (forbidden (i_type n))); [|discriminate]. destruct (op_id o =? i_id n)%Z; [|destruct (op_id o <? i_id n)%Z].
      * destruct (blend_to_op k n p o) as [o'|] eqn:E1; [|discriminate]. destruct (merge k forbidden p os ns) as [r|] eqn:E2; [|discriminate]. injection E as <-.
        destruct Hy as [<-|Hy]; [rewrite (proj1 (blend_to_op_id _ _ _ _ _ E1)); apply Ho; now left|]. apply (IH _ _ E2); auto; intros; [apply Ho|apply Hn]; now right.
      * destruct (dflt k p o) as [o'|] eqn:E1; [|discriminate]. destruct (merge k forbidden p os (n :: ns)) as [r|] eqn:E2; [|discriminate]. injection E as <-.
        destruct Hy as [<-|Hy]; [rewrite (proj1 (dflt_id _ _ _ _ E1)); apply Ho; now left|]. apply (IH _ _ E2); auto. intros; apply Ho; now right.
      * destruct (make_op k n p) as [o'|] eqn:E1; [|discriminate]. destruct (merge k forbidden p (o :: os) ns) as [r|] eqn:E2; [|discriminate]. injection E as <-.
        destruct Hy as [<-|Hy]; [rewrite (proj1 (make_op_id _ _ _ _ E1)); apply Hn; now left|]. apply (IHn _ eq_refl); auto. intros; apply Hn; now right.
Qed.

Lemma find_op_none id (l : list (op M)) : (forall y, In y (map op_id l) -> id < y)%Z -> find_op id l = None.
Proof.
  intros H. unfold find_op. destruct (find _ l) as [o|] eqn:E; [|reflexivity]. destruct (find_some _ _ E) as [Hi He]. specialize (H (op_id o) (in_map op_id _ _ Hi)). lia.
Qed.
Lemma find_init_none id (l : list (opinit I S)) : (forall y, In y (map i_id l) -> id < y)%Z -> find_init id l = None.
Proof.
  intros H. unfold find_init. destruct (find _ l) as [o|] eqn:E; [|reflexivity]. destruct (find_some _ _ E) as [Hi He]. specialize (H (i_id o) (in_map i_id _ _ Hi)). lia.
Qed.
Lemma find_op_cons id (o : op M) l : find_op id (o :: l) = if (op_id o =? id)%Z then Some o else find_op id l.
Proof. reflexivity. Qed.
Lemma find_init_cons id (o : opinit I S) l : find_init id (o :: l) = if (i_id o =? id)%Z then Some o else find_init id l.
Proof. reflexivity. Qed.

(** What becomes of the operation with a given id. *)
Definition outcome (old : option (op M)) (new : option (opinit I S)) : option (option (op M)) :=
  match old, new with
  | Some o, Some n => o' <- blend_to_op k n p o ;; Some (Some o')
  | Some o, None => t <- to_motive_time (blend_x p) ;; o' <- blend_to_default k t o ;; Some (Some o')
  | None, Some n => o' <- make_op k n p ;; Some (Some o')
  | None, None => Some None
  end.
Lemma outcome_dflt o o' : dflt k p o = Some o' -> outcome (Some o) None = Some (Some o').
Proof. unfold dflt, outcome. destruct (to_motive_time _); [|discriminate]. now intros ->. Qed.

Lemma sorted_head x l : ascending (x :: l) -> ascending l /\ forall y, In y l -> (x < y)%Z.
Proof. intros H. inversion H as [|? ? H1 H2]; subst. split; [exact H1|]. now apply Forall_forall. Qed.
Lemma sorted_cons x l : ascending l -> (forall y, In y l -> (x < y)%Z) -> ascending (x :: l).
Proof. intros H1 H2. constructor; [exact H1|]. now apply Forall_forall. Qed.

Lemma merge_spec : forall old new res, ascending (map op_id old) -> ascending (map i_id new) -> merge k forbidden p old new = Some res ->
  ascending (map op_id res) /\ forall id, outcome (find_op id old) (find_init id new) = Some (find_op id res).
Proof.
  induction old as [|o os IH].
  - induction new as [|n ns IHn]; intros res So Sn E.
    + injection E as <-. split; [constructor|]. reflexivity.
    + cbn [merge] in E. destruct (make_op k n p) as [o'|] eqn:E1; [|discriminate]. fold (merge k forbidden p []) in E. destruct (merge k forbidden p [] ns) as [r|] eqn:E2; [|discriminate]. injection E as <-.
      destruct (make_op_id _ _ _ _ E1) as [ID _]. cbn [map] in Sn. apply sorted_head in Sn as [Sn Hn]. destruct (IHn r So Sn eq_refl) as [Sr Lr]. split.
      * cbn [map]. rewrite ID. apply sorted_cons; [exact Sr|]. apply (merge_ids _ _ _ E2); [intros ? []|exact Hn].
      * intros id. rewrite find_op_cons, find_init_cons, ID. destruct (Z.eqb_spec (i_id n) id); [|apply Lr]. cbn [find_op find outcome]. now rewrite E1.
  - induction new as [|n ns IHn]; intros res So Sn E; cbn [map] in So; pose proof (sorted_head _ _ So) as [So' Ho].
    + cbn [merge] in E. destruct (dflt k p o) as [o'|] eqn:E1; [|discriminate]. destruct (merge k forbidden p os []) as [r|] eqn:E2; [|discriminate]. injection E as <-.
      destruct (dflt_id _ _ _ _ E1) as [ID _]. destruct (IH _ _ So' Sn E2) as [Sr Lr]. split.
      * cbn [map]. rewrite ID. apply sorted_cons; [exact Sr|]. apply (merge_ids _ _ _ E2); [exact Ho|intros ? []].
      * intros id. rewrite !find_op_cons, ID. destruct (Z.eqb_spec (op_id o) id); [|apply Lr]. cbn [find_init find]. now apply outcome_dflt.
    + cbn [merge] in E. fold (merge k forbidden p os) in E. change ((fix inner (new : list (opinit I S)) : option (list (op M)) := _) ns) with (merge k forbidden p (o :: os) ns) in E.
      pose proof Sn as Sn0. cbn [map] in Sn. apply sorted_head in Sn as [Sn Hn]. destruct (negb (forbidden (i_type n))); [|discriminate]. destruct (Z.eqb_spec (op_id o) (i_id n)) as [Q|Q]; [|destruct (Z.ltb_spec (op_id o) (i_id n)) as [Q'|Q']].
      * destruct (blend_to_op k n p o) as [o'|] eqn:E1; [|discriminate]. destruct (merge k forbidden p os ns) as [r|] eqn:E2; [|discriminate]. injection E as <-.
        destruct (blend_to_op_id _ _ _ _ _ E1) as [ID _]. destruct (IH _ _ So' Sn E2) as [Sr Lr]. split.
        -- cbn [map]. rewrite ID. apply sorted_cons; [exact Sr|]. apply (merge_ids _ _ _ E2); [exact Ho|rewrite Q; exact Hn].
        -- intros id. rewrite !find_op_cons, find_init_cons, ID, <- Q. destruct (Z.eqb_spec (op_id o) id); [|apply Lr]. cbn [outcome]. now rewrite E1.
      * destruct (dflt k p o) as [o'|] eqn:E1; [|discriminate]. destruct (merge k forbidden p os (n :: ns)) as [r|] eqn:E2; [|discriminate]. injection E as <-.
        destruct (dflt_id _ _ _ _ E1) as [ID _]. destruct (IH _ _ So' Sn0 E2) as [Sr Lr]. assert (L : forall y, In y (map i_id (n :: ns)) -> (op_id o < y)%Z) by (intros y [<-|Hy]; [exact Q'|specialize (Hn y Hy); lia]). split.
        -- cbn [map]. rewrite ID. apply sorted_cons; [exact Sr|]. apply (merge_ids _ _ _ E2); [exact Ho|exact L].
        -- intros id. rewrite !find_op_cons, ID. destruct (Z.eqb_spec (op_id o) id) as [J|]; [|apply Lr]. rewrite find_init_none by (rewrite <- J; exact L). now apply outcome_dflt.
      * destruct (make_op k n p) as [o'|] eqn:E1; [|discriminate]. destruct (merge k forbidden p (o :: os) ns) as [r|] eqn:E2; [|discriminate]. injection E as <-.
        destruct (make_op_id _ _ _ _ E1) as [ID _]. destruct (IHn r So Sn eq_refl) as [Sr Lr]. assert (L : forall y, In y (map op_id (o :: os)) -> (i_id n < y)%Z) by (intros y [<-|Hy]; [lia|specialize (Ho y Hy); lia]). split.
        -- cbn [map]. rewrite ID. apply sorted_cons; [exact Sr|]. apply (merge_ids _ _ _ E2); [exact L|exact Hn].
        -- intros id. rewrite (find_op_cons id o'), find_init_cons, ID. destruct (Z.eqb_spec (i_id n) id) as [J|]; [|apply Lr]. rewrite find_op_none by (rewrite <- J; exact L). cbn [outcome]. now rewrite E1.
Qed.

Lemma merge_succeeds : forall old new, ascending (map op_id old) -> ascending (map i_id new) ->
  (forall n, In n new -> forbidden (i_type n) = false) -> (forall id, outcome (find_op id old) (find_init id new) <> None) -> exists res, merge k forbidden p old new = Some res.
Proof.
  assert (DO : forall o, outcome (Some o) None <> None -> exists o', dflt k p o = Some o').
  { intros o. unfold outcome, dflt. destruct (to_motive_time _); [|congruence]. destruct (blend_to_default k z o); [eauto|congruence]. }
  induction old as [|o os IH].
  - induction new as [|n ns IHn]; intros So Sn Fb Ok; cbn [merge]; [eauto|]. fold (merge k forbidden p []). cbn [map] in Sn. apply sorted_head in Sn as [Sn Hn].
    pose proof (Ok (i_id n)) as O1. rewrite find_init_cons, Z.eqb_refl in O1. cbn [find_op find outcome] in O1. destruct (make_op k n p) as [o'|]; [|congruence].
    destruct IHn as [r Hr]; auto; [intros; apply Fb; now right| |rewrite Hr; eauto].
    intros id Z. apply (Ok id). rewrite find_init_cons. destruct (Z.eqb_spec (i_id n) id) as [J|]; [|exact Z]. exfalso. rewrite (find_init_none id ns) in Z by (rewrite <- J; exact Hn). cbn in Z. discriminate.
  - induction new as [|n ns IHn]; intros So Sn Fb Ok; cbn [map] in So; pose proof (sorted_head _ _ So) as [So' Ho].
    + cbn [merge]. pose proof (Ok (op_id o)) as O1. rewrite find_op_cons, Z.eqb_refl in O1. destruct (DO o O1) as [o' ->].
      destruct (IH [] So' Sn Fb) as [r ->]; [|eauto]. intros id Z. apply (Ok id). rewrite find_op_cons. destruct (Z.eqb_spec (op_id o) id) as [J|]; [|exact Z]. exfalso. rewrite (find_op_none id os) in Z by (rewrite <- J; exact Ho). cbn in Z. discriminate.
    + cbn [merge]. fold (merge k forbidden p os). change ((fix inner (new : list (opinit I S)) : option (list (op M)) := _) ns) with (merge k forbidden p (o :: os) ns).
      pose proof Sn as Sn0. cbn [map] in Sn. apply sorted_head in Sn as [Sn Hn]. rewrite (Fb n (or_introl eq_refl)). cbn [negb].
      destruct (Z.eqb_spec (op_id o) (i_id n)) as [Q|Q]; [|destruct (Z.ltb_spec (op_id o) (i_id n)) as [Q'|Q']].
      * pose proof (Ok (op_id o)) as O1. rewrite find_op_cons, find_init_cons, <- Q, Z.eqb_refl in O1. cbn [outcome] in O1. destruct (blend_to_op k n p o) as [o'|]; [|congruence].
        destruct (IH ns So' Sn) as [r ->]; [intros; apply Fb; now right| |eauto]. intros id Z. apply (Ok id). rewrite find_op_cons, find_init_cons, <- Q. destruct (Z.eqb_spec (op_id o) id) as [J|]; [|exact Z]. exfalso.
        rewrite (find_op_none id os) in Z by (rewrite <- J; exact Ho). rewrite (find_init_none id ns) in Z by (rewrite <- J, Q; exact Hn). cbn in Z. discriminate.
      * assert (L : forall y, In y (map i_id (n :: ns)) -> (op_id o < y)%Z) by (intros y [<-|Hy]; [exact Q'|specialize (Hn y Hy); lia]).
        pose proof (Ok (op_id o)) as O1. rewrite find_op_cons, Z.eqb_refl in O1. rewrite find_init_none in O1 by exact L. destruct (DO o O1) as [o' ->].
        destruct (IH (n :: ns) So' Sn0 Fb) as [r ->]; [|eauto]. intros id Z. apply (Ok id). rewrite find_op_cons. destruct (Z.eqb_spec (op_id o) id) as [J|]; [|exact Z]. exfalso.
        rewrite (find_op_none id os) in Z by (rewrite <- J; exact Ho). rewrite (find_init_none id) in Z by (rewrite <- J; exact L). cbn in Z. discriminate.
      * assert (L : forall y, In y (map op_id (o :: os)) -> (i_id n < y)%Z) by (intros y [<-|Hy]; [lia|specialize (Ho y Hy); lia]).
        pose proof (Ok (i_id n)) as O1. rewrite find_init_cons, Z.eqb_refl in O1. rewrite find_op_none in O1 by exact L. cbn [outcome] in O1. destruct (make_op k n p) as [o'|]; [|congruence].
        destruct IHn as [r ->]; auto; [intros; apply Fb; now right| |eauto]. intros id Z. apply (Ok id). rewrite find_init_cons. destruct (Z.eqb_spec (i_id n) id) as [J|]; [|exact Z]. exfalso.
        rewrite (find_op_none id) in Z by (rewrite <- J; exact L). rewrite (find_init_none id ns) in Z by (rewrite <- J; exact Hn). cbn in Z. discriminate.
Qed.
End MergeFacts.

(** Blending a matrix motivator to a list of operations: ids stay ascending, and the
    operation with a given id is the old one blended to the new one, the old one sent to its
    default, or the new one, according to where the id occurs; other ids do not occur. *)
Theorem C52_matrix : forall M I S (k : mclass M I S) new p (d d' : mdata M),
  ascending (map op_id (md_ops d)) -> ascending (map i_id new) -> mdata_blend_to_ops k new p d = Some d' ->
  ascending (map op_id (md_ops d')) /\ forall id, outcome k p (find_op id (md_ops d)) (find_init id new) = Some (find_op id (md_ops d')).
Proof.
  intros M I S k new p d d' So Sn E. unfold mdata_blend_to_ops in E. rewrite merge_ops_ok in E. destruct (merge k quaternion_op p (md_ops d) new) as [r|] eqn:E1; [|discriminate]. injection E as <-.
  now apply (merge_spec k quaternion_op p).
Qed.
Print Assumptions C52_matrix.

(** It succeeds if each of these steps does and no operation is a quaternion component. *)
Theorem C52_matrix_succeeds : forall M I S (k : mclass M I S) new p (d : mdata M),
  ascending (map op_id (md_ops d)) -> ascending (map i_id new) -> (forall n, In n new -> quaternion_op (i_type n) = false) ->
  (forall id, outcome k p (find_op id (md_ops d)) (find_init id new) <> None) -> exists d', mdata_blend_to_ops k new p d = Some d'.
Proof.
  intros M I S k new p d So Sn Fb Ok. destruct (merge_succeeds k quaternion_op p _ _ So Sn Fb Ok) as [r E]. unfold mdata_blend_to_ops. rewrite merge_ops_ok, E. eauto.
Qed.
Print Assumptions C52_matrix_succeeds.

Definition same_ids {M} (a b : list (op M)) : Prop := map op_id a = map op_id b /\ map op_type a = map op_type b.
Lemma negate_ids {M I S} (k : mclass M I S) : forall ops ops', negate_ops k ops = Some ops' -> same_ids ops' ops.
Proof.
  induction ops as [|o ops IH]; intros ops' E; cbn [negate_ops] in E; [injection E as <-; split; reflexivity|].
  destruct (negate_op k o) as [o'|] eqn:E1; [|discriminate]. destruct (negate_ops k ops) as [l|] eqn:E2; [|discriminate]. injection E as <-. destruct (IH _ eq_refl) as [A B].
  assert (op_id o' = op_id o /\ op_type o' = op_type o) as [C D].
  { unfold negate_op in E1. destruct (quaternion_op (op_type o)); [|injection E1 as <-; auto]. destruct (op_motivator o) as [m|] eqn:Em.
    - destruct (op_velocity k o); [|discriminate]. unfold op_set_target in E1. rewrite Em in E1. destruct (m_set_target _ _ _); [|discriminate]. injection E1 as <-. auto.
    - unfold op_set_value in E1. rewrite Em in E1. destruct (_ || _); [|discriminate]. injection E1 as <-. auto. }
  split; cbn [map]; congruence.
Qed.
Lemma align_ids {M I S} (k : mclass M I S) new d d1 : align_quaternion_ops k new d = Some d1 -> same_ids (qd_ops d1) (qd_ops d).
Proof.
  unfold align_quaternion_ops. destruct (next_quaternion _ _ _) as [q|]; [|discriminate]. destruct (qnormalize q) as [n|]; [|discriminate]. destruct (Rltb _ _).
  - destruct (negate_ops k (qd_ops d)) as [l|] eqn:E; [|discriminate]. intros [= <-]. exact (negate_ids k _ _ E).
  - intros [= <-]. split; reflexivity.
Qed.

(** The same for an SQT motivator, after the alignment of its quaternion (C54). *)
Theorem C52_sqt : forall M I S (k : mclass M I S) new p (d d' : qdata M),
  ascending (map op_id (qd_ops d)) -> ascending (map i_id new) -> qdata_blend_to_ops k new p d = Some d' ->
  exists d1, align_quaternion_ops k new d = Some d1 /\ same_ids (qd_ops d1) (qd_ops d) /\
  ascending (map op_id (qd_ops d')) /\ forall id, outcome k p (find_op id (qd_ops d1)) (find_init id new) = Some (find_op id (qd_ops d')).
Proof.
  intros M I S k new p d d' So Sn E. unfold qdata_blend_to_ops in E. destruct (align_quaternion_ops k new d) as [d1|] eqn:EA; [|discriminate]. exists d1. split; [reflexivity|]. pose proof (align_ids k _ _ _ EA) as ID.
  split; [exact ID|]. rewrite merge_ops_ok in E. destruct (merge k rotate_op p (qd_ops d1) new) as [r|] eqn:E1; [|discriminate]. injection E as <-. apply (merge_spec k rotate_op p); auto. rewrite (proj1 ID). exact So.
Qed.
Print Assumptions C52_sqt.

Theorem C52_sqt_succeeds : forall M I S (k : mclass M I S) new p (d d1 : qdata M),
  ascending (map op_id (qd_ops d)) -> ascending (map i_id new) -> (forall n, In n new -> rotate_op (i_type n) = false) ->
  align_quaternion_ops k new d = Some d1 -> (forall id, outcome k p (find_op id (qd_ops d1)) (find_init id new) <> None) -> exists d', qdata_blend_to_ops k new p d = Some d'.
Proof.
  intros M I S k new p d d1 So Sn Fb EA Ok. pose proof (align_ids k _ _ _ EA) as [ID _]. rewrite <- ID in So. destruct (merge_succeeds k rotate_op p _ _ So Sn Fb Ok) as [r E]. unfold qdata_blend_to_ops. rewrite EA, merge_ops_ok, E. eauto.
Qed.
Print Assumptions C52_sqt_succeeds.

(** Old ids 1, 4 and new ids 1, 3: 1 is blended, 3 inserted, 4 sent to its default. *)
Example C52_case :
  let old := [Op 1 TranslateX None 3; Op 4 ScaleX None 5] in
  let new := [OpInit None 1 TranslateX (UValue 8); OpInit None 3 TranslateY (UValue 9)] in
  ascending (map op_id old) /\ ascending (map i_id new) /\
  exists d', mdata_blend_to_ops demo_class new (playback_from 0) (MData identity4 None old) = Some d' /\ md_ops d' = [Op 1 TranslateX None 8; Op 3 TranslateY None 9; Op 4 ScaleX None 1].
Proof.
  cbv zeta. split; [repeat constructor|]. split; [repeat constructor|].
  assert (T : to_motive_time 0 = Some 0%Z). { unfold to_motive_time. rewrite Rleb_t by lra. replace (Rfloor 0) with 0%Z by (symmetry; apply Rfloor_unique; lra). reflexivity. }
  eexists. split.
  - unfold mdata_blend_to_ops. rewrite merge_ops_ok. unfold md_ops. cbn [merge op_id i_id i_type quaternion_op negb blend_to_op i_union op_motivator op_type Z.eqb Pos.eqb].
    unfold make_op, dflt. cbn [blend_x playback_from i_id i_init i_type Z.leb kMaxMatrixOpId blend_to_op i_union op_motivator op_id op_type default_value scale_op]. rewrite T. reflexivity.
  - cbn [md_ops]. reflexivity.
Qed.

(** ** C55, for the operations of a matrix or SQT motivator *)
(** [t] is the maximum of [0] and the times in the list. *)
Definition latest (times : list Z) (t : Z) : Prop := (forall x, In x (0 :: times)%Z -> x <= t)%Z /\ In t (0 :: times)%Z.
Lemma time_remaining_ok {M I S} (k : mclass M I S) : forall (ops : list (op M)) ts t0, Forall2 (fun o t => op_time_remaining k o = Some t) ops ts ->
  exists t, ops_time_remaining k t0 ops = Some t /\ (forall x, In x (t0 :: ts) -> x <= t)%Z /\ In t (t0 :: ts).
Proof.
  induction ops as [|o ops IH]; intros ts t0 F; inversion F as [|? t1 ? ts' E F']; subst; cbn [ops_time_remaining].
  - exists t0. split; [reflexivity|]. split; [intros x [->|[]]; lia|now left].
  - rewrite E. destruct (IH ts' (Z.max t0 t1) F') as (t & Et & Le & Hin). exists t. split; [exact Et|]. split.
    + intros x [->|[->|Hx]]; [| |apply Le; now right]; specialize (Le _ (or_introl eq_refl)); lia.
    + destruct Hin as [Hin|Hin]; [|right; now right]. destruct (Z.max_spec t0 t1) as [[_ Hm]|[_ Hm]]; rewrite Hm in Hin; subst; [right; now left|now left].
Qed.
(** The time that an operation has left: what its motivator says, and none if it is a constant. *)
Definition time_left {M I S} (k : mclass M I S) (o : op M) (t : Z) : Prop := match op_motivator o with Some m => m_target_time k m = Some t | None => t = 0%Z end.
Lemma times_left {M I S} (k : mclass M I S) ops ts : Forall2 (time_left k) ops ts -> Forall2 (fun o t => op_time_remaining k o = Some t) ops ts.
Proof. induction 1 as [|o t ops ts H F IH]; constructor; [|exact IH]. unfold time_left in H. unfold op_time_remaining. destruct (op_motivator o); [exact H|now subst]. Qed.
Theorem C55_matrix : forall M I S (k : mclass M I S) (d : mdata M) ts, Forall2 (time_left k) (md_ops d) ts ->
  exists t, mdata_time_remaining k d = Some t /\ latest ts t.
Proof. intros M I S k d ts F. exact (time_remaining_ok k _ _ 0%Z (times_left k _ _ F)). Qed.
Theorem C55_sqt : forall M I S (k : mclass M I S) (d : qdata M) ts, Forall2 (time_left k) (qd_ops d) ts ->
  exists t, qdata_time_remaining k d = Some t /\ latest ts t.
Proof. intros M I S k d ts F. exact (time_remaining_ok k _ _ 0%Z (times_left k _ _ F)). Qed.
Print Assumptions C55_matrix.
Example C55_case : mdata_time_remaining demo_class (MData identity4 None [Op 1 TranslateX None 3; Op 4 ScaleX (Some (0, 0)) 5]) = Some 7%Z /\
  mdata_time_remaining demo_class (MData identity4 None []) = Some 0%Z /\
  Forall2 (time_left demo_class) [Op 1 TranslateX None 3; Op 4 ScaleX (Some (0, 0)) 5] [0; 7]%Z.
Proof. split; [reflexivity|]. split; [reflexivity|]. repeat constructor. Qed.

(** ** C78: the separate translation, rotation and scale *)
Definition linear (m : mat4) : mat3 := M3 (drop4 (c0 m)) (drop4 (c1 m)) (drop4 (c2 m)).
Definition mul3 (m n : mat3) : mat3 := M3 (mat_vec3 m (a0 n)) (mat_vec3 m (a1 n)) (mat_vec3 m (a2 n)).
Definition diagonal (s : vec3) : mat3 := M3 (V3 (x3 s) 0 0) (V3 0 (y3 s) 0) (V3 0 0 (z3 s)).
Definition identity3 : mat3 := diagonal (V3 1 1 1).
(** The last row is 0 0 0 1. *)
Definition affine4 (m : mat4) : Prop := w4 (c0 m) = 0 /\ w4 (c1 m) = 0 /\ w4 (c2 m) = 0 /\ w4 (c3 m) = 1.

Lemma elementary_affine t v e : elementary t v = Some e -> affine4 e.
Proof. unfold elementary, affine4. destruct t; intros [= <-]; cbn; auto. Qed.
Lemma affine_mul m n : affine4 m -> affine4 n -> affine4 (mmul m n).
Proof.
  unfold affine4. destruct m as [[] [] [] []], n as [[] [] [] []]. cbn. intros (-> & -> & -> & ->) (-> & -> & -> & ->). repeat split; ring.
Qed.
Lemma identity_affine : affine4 identity4.
Proof. unfold affine4, identity4. cbn. auto. Qed.
Lemma product_affine es : Forall affine4 es -> affine4 (product es).
Proof. induction 1; cbn [product fold_right]; [apply identity_affine|now apply affine_mul]. Qed.
Lemma linear_mul m n : affine4 n -> linear (mmul m n) = mul3 (linear m) (linear n).
Proof. unfold affine4. destruct m as [[] [] [] []], n as [[] [] [] []]. cbn. intros (-> & -> & -> & _). unfold linear, mul3. mat_eq. Qed.
Lemma linear_identity : linear identity4 = identity3.
Proof. reflexivity. Qed.
Lemma mul3_1_r m : mul3 m identity3 = m.
Proof. unfold identity3, diagonal, mul3. mat_eq. Qed.
Lemma mul3_1_l m : mul3 identity3 m = m.
Proof. unfold identity3, diagonal, mul3. mat_eq. Qed.
Lemma mul3_assoc a b c : mul3 (mul3 a b) c = mul3 a (mul3 b c).
Proof. unfold mul3. mat_eq. Qed.
Lemma product_app es fs : product (es ++ fs) = mmul (product es) (product fs).
Proof. induction es as [|e es IH]; cbn [app product fold_right]; [now rewrite mmul_1_l|]. fold (product (es ++ fs)). rewrite IH. fold (product es). now rewrite mmul_assoc. Qed.

Definition ops_matrices {M I S} (k : mclass M I S) (ops : list (op M)) (es : list mat4) : Prop := Forall2 (fun o e => elementary (op_type o) (op_value k o) = Some e) ops es.
Lemma ops_affine {M I S} (k : mclass M I S) ops es : ops_matrices k ops es -> Forall affine4 es.
Proof. induction 1; constructor; [now apply (elementary_affine _ _ _ H)|assumption]. Qed.

(** The matrices of the rotations in a list of operations. *)
Definition rotation_matrices {M I S} (k : mclass M I S) (ops : list (op M)) : list mat4 :=
  flat_map (fun o => if rotate_op (op_type o) then match elementary (op_type o) (op_value k o) with Some e => [e] | None => [] end else []) ops.

Lemma linear_without_scale {M I S} (k : mclass M I S) : forall ops es, ops_matrices k ops es -> (forall o, In o ops -> scale_op (op_type o) = false) ->
  linear (product es) = linear (product (rotation_matrices k ops)).
Proof.
  induction ops as [|o ops IH]; intros es F NS; inversion F as [|? e ? es' E F']; subst; [reflexivity|]. cbn [product fold_right]. fold (product es').
  assert (A' : affine4 (product es')) by (apply product_affine, (ops_affine k ops), F').
  rewrite linear_mul by exact A'. rewrite (IH es' F') by (intros; apply NS; now right). cbn [rotation_matrices flat_map]. fold (rotation_matrices k ops). rewrite E.
  pose proof (NS o (or_introl eq_refl)) as N. 
  assert (AR : affine4 (product (rotation_matrices k ops))).
  { apply product_affine. unfold rotation_matrices. apply Forall_forall. intros x Hx. apply in_flat_map in Hx as (o' & _ & Hx). destruct (rotate_op (op_type o')); [|destruct Hx].
    destruct (elementary (op_type o') (op_value k o')) eqn:E'; [|destruct Hx]. destruct Hx as [<-|[]]. apply (elementary_affine _ _ _ E'). }
  destruct (rotate_op (op_type o)) eqn:Rt.
  - cbn [app product fold_right]. fold (product (rotation_matrices k ops)). now rewrite linear_mul.
  - cbn [app]. replace (linear e) with identity3; [apply mul3_1_l|]. destruct (op_type o); try discriminate; injection E as <-; reflexivity.
Qed.
Definition scale_of {M I S} (k : mclass M I S) (ops : list (op M)) : vec3 :=
  V3 (times (map (fun o => factor_x (op_type o) (op_value k o)) ops)) (times (map (fun o => factor_y (op_type o) (op_value k o)) ops)) (times (map (fun o => factor_z (op_type o) (op_value k o)) ops)).
Lemma linear_without_rotation {M I S} (k : mclass M I S) : forall ops es, ops_matrices k ops es -> (forall o, In o ops -> rotate_op (op_type o) = false) ->
  linear (product es) = diagonal (scale_of k ops).
Proof.
  induction ops as [|o ops IH]; intros es F NR; inversion F as [|? e ? es' E F']; subst; [reflexivity|]. cbn [product fold_right]. fold (product es').
  rewrite linear_mul by (apply product_affine, (ops_affine k ops), F'). rewrite (IH es' F') by (intros; apply NR; now right). pose proof (NR o (or_introl eq_refl)) as N.
  unfold scale_of. cbn [map times fold_right]. fold (times (map (fun o => factor_x (op_type o) (op_value k o)) ops)). fold (times (map (fun o => factor_y (op_type o) (op_value k o)) ops)). fold (times (map (fun o => factor_z (op_type o) (op_value k o)) ops)).
  set (X := times _). set (Y := times _). set (Z := times _). generalize dependent (op_value k o). intros v E. unfold diagonal, mul3, linear.
  destruct (op_type o); try discriminate; injection E as <-; cbn [factor_x factor_y factor_z]; mat_eq.
Qed.
Lemma factors_1 {M I S} (k : mclass M I S) ops : (forall o, In o ops -> scale_op (op_type o) = false) -> scale_of k ops = V3 1 1 1.
Proof.
  induction ops as [|o ops IH]; intros NS; [reflexivity|]. assert (H := IH (fun o Ho => NS o (or_intror Ho))). unfold scale_of in *. injection H as H1 H2 H3. cbn [map times fold_right]. unfold times in *. rewrite H1, H2, H3.
  pose proof (NS o (or_introl eq_refl)). destruct (op_type o); try discriminate; cbn [factor_x factor_y factor_z]; now rewrite !Rmult_1_r.
Qed.
Lemma times_app a b : times (a ++ b) = times a * times b.
Proof. induction a as [|x a IH]; cbn [app times fold_right]; [now rewrite Rmult_1_l|]. fold (times (a ++ b)). rewrite IH. fold (times a). ring. Qed.
Lemma scale_of_app {M I S} (k : mclass M I S) a b : scale_of k (a ++ b) = V3 (x3 (scale_of k a) * x3 (scale_of k b)) (y3 (scale_of k a) * y3 (scale_of k b)) (z3 (scale_of k a) * z3 (scale_of k b)).
Proof. unfold scale_of. cbn [x3 y3 z3]. now rewrite !map_app, !times_app. Qed.

(** The three reported parts always compose to the matrix … *)
Theorem C78_composes : forall M I S (k : mclass M I S) (d : mdata M) es, ops_matrices k (md_ops d) es ->
  x3 (scale_of k (md_ops d)) <> 0 -> y3 (scale_of k (md_ops d)) <> 0 -> z3 (scale_of k (md_ops d)) <> 0 ->
  exists d' s r, mdata_update k d = Some d' /\ md_scale d' = Some s /\ mdata_rotation_matrix d' = Some r /\ transform (mdata_translation d') r s = md_matrix d'.
Proof.
  intros M I S k d es F X Y Z. unfold mdata_update. rewrite (C51_product _ _ _ k _ es F). fold (scale_of k (md_ops d)). set (s := scale_of k (md_ops d)) in *.
  eexists. exists s. eexists. split; [reflexivity|]. split; [reflexivity|]. split.
  - unfold mdata_rotation_matrix. cbn [md_scale md_matrix fst snd]. rewrite !Reqb_f by assumption. reflexivity.
  - cbn [md_matrix fst snd]. unfold mdata_translation, translation_of. cbn [md_matrix fst snd]. pose proof (product_affine es (ops_affine k _ _ F)) as A. unfold affine4 in A. revert A.
    destruct (product es) as [[] [] [] []]. destruct s as [X1 Y1 Z1]. cbn in X, Y, Z |- *. intros (-> & -> & -> & ->). unfold transform. vec. parts; field; assumption.
Qed.
Print Assumptions C78_composes.

(** … and the rotation is the product of the rotation operations, if they all come before the
    scale operations.  Partial: up to the conversion of this matrix to a quaternion, which is
    part of mathfu. *)
Theorem C78_rotation_partial : forall M I S (k : mclass M I S) (d : mdata M) es rs ss, ops_matrices k (md_ops d) es -> md_ops d = rs ++ ss ->
  (forall o, In o rs -> scale_op (op_type o) = false) -> (forall o, In o ss -> rotate_op (op_type o) = false) ->
  x3 (scale_of k (md_ops d)) <> 0 -> y3 (scale_of k (md_ops d)) <> 0 -> z3 (scale_of k (md_ops d)) <> 0 ->
  exists d', mdata_update k d = Some d' /\ mdata_rotation_matrix d' = Some (linear (product (rotation_matrices k (md_ops d)))).
Proof.
  intros M I S k d es rs ss F E NS NR X Y Z. unfold mdata_update. rewrite (C51_product _ _ _ k _ es F). fold (scale_of k (md_ops d)). eexists. split; [reflexivity|].
  unfold mdata_rotation_matrix. cbn [md_scale md_matrix fst snd]. rewrite !Reqb_f by assumption. cbn [orb negb]. apply f_equal.
  rewrite E in *. destruct (Forall2_app_inv_l _ _ F) as (es1 & es2 & F1 & F2 & ->).
  assert (RM : rotation_matrices k (rs ++ ss) = rotation_matrices k rs).
  { unfold rotation_matrices. rewrite flat_map_app. rewrite <- app_nil_r. apply f_equal. clear - NR. induction ss as [|o ss IH]; [reflexivity|]. cbn [flat_map]. rewrite (NR o (or_introl eq_refl)). apply IH. intros; apply NR; now right. }
  rewrite RM, <- (linear_without_scale k rs es1 F1 NS).
  assert (L : linear (product (es1 ++ es2)) = mul3 (linear (product es1)) (diagonal (scale_of k ss))).
  { rewrite product_app, linear_mul by (apply product_affine, (ops_affine k ss), F2). now rewrite (linear_without_rotation k ss es2 F2 NR). }
  assert (SC : scale_of k (rs ++ ss) = scale_of k ss). { rewrite scale_of_app, (factors_1 k rs NS). cbn [x3 y3 z3]. rewrite !Rmult_1_l. unfold scale_of. reflexivity. }
  rewrite SC in *. unfold linear in L. set (P := product (es1 ++ es2)) in *. set (Q := product es1) in *. clearbody P Q. set (s := scale_of k ss) in *. clearbody s.
  pose proof (f_equal a0 L) as L0. pose proof (f_equal a1 L) as L1. pose proof (f_equal a2 L) as L2. cbn [a0 a1 a2] in L0, L1, L2. rewrite L0, L1, L2. destruct Q as [[] [] [] []], s as [X1 Y1 Z1]. cbn in X, Y, Z. unfold linear. vec. cbn. parts; field; assumption.
Qed.
Print Assumptions C78_rotation_partial.

(** With the scale first the reported "rotation" changes lengths: a scale by 2 along x, then
    a quarter turn about z. *)
Theorem C78_rotation_refuted : exists d d' r, mdata_update demo_class d = Some d' /\ mdata_rotation_matrix d' = Some r /\
  md_ops d = [Op 0 ScaleX None 2; Op 1 RotateZ None (PI / 2)] /\ mat_vec3 r (V3 1 0 0) = V3 0 (1 / 2) 0.
Proof.
  exists (MData identity4 None [Op 0 ScaleX None 2; Op 1 RotateZ None (PI / 2)]). unfold mdata_update. cbn [md_ops].
  rewrite (C51_product _ _ _ demo_class _ [rows 2 0 0 0 0 1 0 0 0 0 1 0 0 0 0 1; rows 0 (- 1) 0 0 1 0 0 0 0 0 1 0 0 0 0 1]).
  2: { constructor; [reflexivity|]. constructor; [|constructor]. cbn [op_type op_value op_motivator op_const elementary]. rewrite cos_PI2, sin_PI2. reflexivity. }
  eexists. eexists. split; [reflexivity|]. split.
  - unfold mdata_rotation_matrix. cbn [md_scale snd map times fold_right factor_x factor_y factor_z op_type op_value op_motivator op_const x3 y3 z3]. rewrite !Reqb_f by lra. reflexivity.
  - split; [reflexivity|]. cbn [md_matrix fst product fold_right]. vec. parts; field.
Qed.
Print Assumptions C78_rotation_refuted.

Example C78_case : exists es, ops_matrices demo_class [Op 0 RotateX None 1; Op 1 TranslateX None 5; Op 2 ScaleX None 2] es /\
  x3 (scale_of demo_class [Op 0 RotateX None 1; Op 1 TranslateX None 5; Op 2 ScaleX None 2]) <> 0.
Proof. eexists. split; [repeat constructor|]. cbn. lra. Qed.
