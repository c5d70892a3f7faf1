(** C106: which motivators can be cloned. *)
From Verif Require Import RBase BaseFacts RangeModel CurveModel MathfuModel CompactSplineModel EvaluatorModel MatrixModel SplineTargetModel CloneModel SplineClassModel EvaluatorOpProps CloneProps PlayProps CompactSplineEvalProps RigPlayProps.
From Coq Require Import Lia.
Local Open Scope Z_scope.

Lemma move_some : forall count ev a b, 0 <= a -> a + Z.of_nat count <= len ev -> 0 <= b -> b + Z.of_nat count <= len ev -> exists ev', move_indices ev a b count = Some ev' /\ len ev' = len ev.
Proof.
  induction count as [|n IH]; intros ev a b A LA B LB; [exists ev; auto|]. cbn [move_indices]. destruct (getz_in_range ev a ltac:(lia)) as [s G]. rewrite G.
  destruct (setz_Some ev b s ltac:(lia)) as [ev1 E]. rewrite E. pose proof (setz_len _ _ _ _ E) as L. destruct (IH ev1 (a + 1) (b + 1)) as (ev' & E' & L'); try lia. exists ev'. split; [exact E'|lia].
Qed.
Lemma sources_some alloc : forall count ev a b, 0 <= a -> a + Z.of_nat count <= len ev -> 0 <= b -> b + Z.of_nat count <= len ev -> exists ev', copy_sources ev a b count alloc = Some ev'.
Proof.
  induction count as [|n IH]; intros ev a b A LA B LB; [exists ev; auto|]. cbn [copy_sources]. destruct (getz_in_range ev b ltac:(lia)) as [s G]. rewrite G.
  unfold modify. destruct (getz_in_range ev a ltac:(lia)) as [t T]. rewrite T. destruct (setz_Some ev a (with_source t (alloc a (source s))) ltac:(lia)) as [ev1 E]. rewrite E.
  pose proof (setz_len _ _ _ _ E) as L. apply IH; lia.
Qed.
(** [k] can be cloned from [src] to [dst]: there is a spline, and it fits. *)
Definition clonable (ev : evaluator) (capacity : Z -> Z) (dst src k : Z) : Prop :=
  exists s sp, getz ev (src + k) = Some s /\ source s = Some sp /\ num_nodes sp <= capacity (dst + k).
Lemma ready_iff ev capacity : forall count dst src, clone_ready ev dst src count capacity = true <-> forall k, 0 <= k < Z.of_nat count -> clonable ev capacity dst src k.
Proof.
  induction count as [|n IH]; intros dst src; cbn [clone_ready]; [split; [lia|reflexivity]|]. rewrite andb_true_iff, IH. split.
  - intros [H T] k K. destruct (Z.eq_dec k 0) as [->|N].
    + destruct (getz ev src) as [s|] eqn:G; [|discriminate]. destruct (source s) as [sp|] eqn:S; [|discriminate]. exists s, sp. rewrite !Z.add_0_r. split; [exact G|]. split; [exact S|lia].
    + destruct (T (k - 1) ltac:(lia)) as (s & sp & G & S & C). exists s, sp. replace (src + 1 + (k - 1)) with (src + k) in G by lia. replace (dst + 1 + (k - 1)) with (dst + k) in C by lia. auto.
  - intros H. split.
    + destruct (H 0 ltac:(lia)) as (s & sp & G & S & C). rewrite Z.add_0_r in G, C. rewrite G, S. lia.
    + intros k K. destruct (H (k + 1) ltac:(lia)) as (s & sp & G & S & C). exists s, sp. replace (src + 1 + k) with (src + (k + 1)) by lia. replace (dst + 1 + k) with (dst + (k + 1)) by lia. auto.
Qed.

(** A spline motivator can be cloned exactly if every dimension has a spline and each is given enough room. *)
Theorem C106_exists : forall ev dst src count capacity, 0 <= src -> src + Z.of_nat count <= len ev -> 0 <= dst -> dst + Z.of_nat count <= len ev ->
  ((exists ev1, clone_indices ev dst src count capacity = Some ev1) <-> forall k, 0 <= k < Z.of_nat count -> clonable ev capacity dst src k).
Proof.
  intros ev dst src count capacity S LS D LD. unfold clone_indices. rewrite <- ready_iff. split.
  - intros [ev1 E]. destruct (clone_ready ev dst src count capacity); [reflexivity|discriminate E].
  - intros ->. unfold copy_indices. destruct (move_some count ev src dst S LS D LD) as (ev' & E & L). rewrite E. apply sources_some; lia.
Qed.
Print Assumptions C106_exists.

(** A matrix or an SQT transform can be cloned exactly if each of its operations can: those that splines drive follow a
    spline of at most seven nodes. *)
Definition op_clonable (o : @MatrixModel.op slot) : Prop := forall s, op_motivator o = Some s -> exists sp, source s = Some sp /\ num_nodes sp <= 7.
Lemma ops_exist (l : list (@MatrixModel.op slot)) : (exists l', ops_clone slot_clone l = Some l') <-> Forall op_clonable l.
Proof.
  assert (H : forall o, (exists o', op_clone slot_clone o = Some o') <-> op_clonable o).
  { intros o. unfold op_clone, op_clonable, motivator_clone. destruct (op_motivator o) as [s|]; [|split; [discriminate|eauto]]. unfold slot_clone, assign_spline. split.
    - intros [o' E] s0 [= <-]. destruct (source s) as [sp|]; [|discriminate]. exists sp. split; [reflexivity|]. change (max_nodes new_local) with 7 in E. destruct (Z.leb_spec (num_nodes sp) 7); [lia|discriminate].
    - intros E. destruct (E s eq_refl) as (sp & -> & C). change (max_nodes new_local) with 7. replace (num_nodes sp <=? 7) with true by lia. eexists. reflexivity. }
  induction l as [|o l IH]; cbn [ops_clone]; [split; [constructor|eauto]|]. rewrite Forall_cons_iff, <- H, <- IH. split.
  - intros [l' E]. destruct (op_clone slot_clone o); [|discriminate]. destruct (ops_clone slot_clone l); [|discriminate]. eauto.
  - intros [[o' ->] [l' ->]]. eauto.
Qed.
Theorem C106_matrix_exists : forall d, (exists d', mdata_clone slot_clone d = Some d') <-> Forall op_clonable (md_ops d).
Proof.
  intros d. rewrite <- ops_exist. unfold mdata_clone. split.
  - intros [d' E]. destruct (ops_clone slot_clone (md_ops d)); [eauto|discriminate].
  - intros [l ->]. eauto.
Qed.
Print Assumptions C106_matrix_exists.
Theorem C106_sqt_exists : forall d, (exists d', qdata_clone slot_clone d = Some d') <-> Forall op_clonable (qd_ops d).
Proof.
  intros d. rewrite <- ops_exist. unfold qdata_clone. split.
  - intros [d' E]. destruct (ops_clone slot_clone (qd_ops d)); [eauto|discriminate].
  - intros [l ->]. eauto.
Qed.
Print Assumptions C106_sqt_exists.

(** A motivator that follows a spline, cloned into exactly the room it needs. *)
Example C106_exists_case : forall k, 0 <= k < Z.of_nat 1 -> clonable [following; slot_default] (fun _ => num_nodes peak) 1 0 k.
Proof. intros k K. assert (k = 0) as -> by lia. exists following, peak. repeat split; reflexivity. Qed.
Example C106_matrix_exists_case : Forall op_clonable [Op 0 TranslateX (Some following) 0; Op 1 ScaleUniformly None 2].
Proof. repeat (apply Forall_cons || apply Forall_nil); intros s E; [|discriminate E]. injection E as <-. exists peak. split; [reflexivity|]. unfold num_nodes, len. cbn [nodes peak length]. cbn. lia. Qed.
