(** Pruning of channels (C71): whole animations, cases and counterexamples. *)
From Verif Require Import RBase BaseFacts MathfuModel CurveModel CurveProps MatrixModel MatrixProps RigModel AnimDataModel AnimSpec AnimCurveProps AnimPruneProps AnimTimeProps FlatAnimModel FlatAnimProps AnimChannelsModel AnimSumProps AnimChannelsProps.
From Coq Require Import Sorting.Sorted.
Local Open Scope Z_scope.

(** Two bones with the same name and parent, and poses that agree as in [C71_pose_partial]. *)
Definition same_pose (t : tolerances) (x : R) (b b' : bone) : Prop :=
  bn_name b' = bn_name b /\ bn_parent b' = bn_parent b /\
  exists vs m, Forall2 (near_played t x) (bn_channels b) vs /\ pose (combine (map ch_op (bn_channels b)) vs) = Some m /\ posed (bn_channels b') x = Some m.
(** C71 for an animation. *)
Theorem C71_bones_partial : forall d nu x, positive (ad_tol d) -> (forall b, In b (ad_bones d) -> prunable nu x (bn_channels b)) ->
  exists d', prune_channels d nu = Some d' /\ ad_tol d' = ad_tol d /\ Forall2 (same_pose (ad_tol d) x) (ad_bones d) (ad_bones d').
Proof.
  intros d nu x T H. unfold prune_channels. assert (G : forall l, (forall b, In b l -> prunable nu x (bn_channels b)) -> exists l', map_opt (prune_bone (ad_tol d) nu) l = Some l' /\ Forall2 (same_pose (ad_tol d) x) l l').
  { induction l as [|b l IH]; intros HL; [exists []; split; [reflexivity|constructor]|]. destruct (C71_pose_partial (ad_tol d) nu x b T (HL b (or_introl eq_refl))) as (b' & vs & m & E & N1 & N2 & N3 & N4 & N5). destruct IH as (l' & E' & F); [intros; apply HL; now right|].
    exists (b' :: l'). cbn [map_opt]. rewrite E, E'. split; [reflexivity|]. constructor; [|exact F]. repeat split; auto. exists vs, m. auto. }
  destruct (G _ H) as (l' & -> & F). eexists. split; [reflexivity|]. split; [reflexivity|exact F].
Qed.
Print Assumptions C71_bones_partial.

(** ** A case *)
Definition konst_channel (op : mtype) (id : Z) (v : R) : channel := Channel op id [SNode 0 v 0].
Definition c71_rotation : channel := Channel RotateZ 5 [SNode 0 0 0; SNode 100 1 0].
(** A translation along x, one along y, one along x again, a turn and three equal scales. *)
Definition c71_bone : bone := Bone [] (-1)
  [konst_channel TranslateX 0 1; konst_channel TranslateY 1 2; konst_channel TranslateX 0 3; c71_rotation;
   konst_channel ScaleX 15 2; konst_channel ScaleY 16 2; konst_channel ScaleZ 17 2].
Lemma konst_in_time op id v : in_time (ch_nodes (konst_channel op id v)).
Proof. split; [discriminate|]. split; [constructor; constructor|]. intros x [<-|[]]. cbn. lia. Qed.
Lemma konst_sampled x op id v : sampled x (ch_nodes (konst_channel op id v)).
Proof. right. cbn. lra. Qed.
Lemma c71_positive : positive c70_tolerances.
Proof. unfold positive, c70_tolerances. cbn. lra. Qed.
Ltac each := let c := fresh "c" in let H := fresh "H" in intros c H; cbn [bn_channels c71_bone In] in H; repeat (destruct H as [<-|H]); [..|destruct H].
Example C71_applies : forall x, prunable false x (bn_channels c71_bone).
Proof.
  intros x. constructor.
  - each; try apply konst_in_time. split; [discriminate|]. split; [repeat constructor; lia|]. intros y [<-|[<-|[]]]; cbn; lia.
  - each; unfold rotates, translates, axis_scale; cbn; tauto.
  - repeat constructor; intros; try discriminate; match goal with H : axis_scale _ |- _ => destruct H as [H|[H|H]]; discriminate end.
  - left. each; try (left; reflexivity). right. split; reflexivity.
  - right. each; intros A; try apply konst_sampled. destruct A as [A|[A|A]]; discriminate.
  - repeat (apply FOP_cons; [repeat apply Forall_cons; try apply Forall_nil|]); try apply FOP_nil; unfold in_order; cbn [konst_channel c71_rotation ch_op ch_id];
    first [left; split; unfold translates; tauto|right; left; split; unfold axis_scale; tauto|right; right; repeat split; intros; discriminate || lia].
  - each; cbn; lia.
Qed.

Lemma loop_step t nu P l l' : prune_channel t nu l 0 = Some l' -> prune_loop t nu (S (length P)) (P ++ l) = prune_loop t nu (length P) (P ++ l').
Proof. intros E. cbn [prune_loop]. change (Z.of_nat (length P)) with (len P). now rewrite prune_channel_app, E. Qed.
Lemma kept_konst op id v : (1 / 10 <= Rabs (v - default_op_value op))%R -> left_out c70_tolerances (konst_channel op id v) = false.
Proof.
  intros H. unfold left_out, is_default. cbn [konst_channel ch_nodes ch_op sn_val]. apply Rltb_f. unfold tolerance_for_op, c70_tolerances. cbn [tl_rotate tl_translate tl_scale]. destruct (rotate_kind op), (translate_kind op), (scale_kind op); lra.
Qed.
Lemma kept_alone t nu c Q : negb nu && uniform_scale_channels t (c :: Q) 0 = false -> summable_loop (ch_op c) Q 1 = -1 -> left_out t c = false -> prune_channel t nu (c :: Q) 0 = Some (c :: Q).
Proof. intros U S LO. rewrite (prune_alone _ _ _ c Q), LO; [reflexivity| |exact S]. now rewrite U. Qed.
(** It becomes one translation along each axis, the turn and one scale. *)
Example C71_case : prune_bone c70_tolerances false c71_bone = Some (Bone [] (-1)
  [konst_channel TranslateX 0 (1 + 3); konst_channel TranslateY 1 2; c71_rotation; konst_channel ScaleUniformly 18 2]).
Proof.
  unfold prune_bone. cbn [bn_channels c71_bone bn_name bn_parent].
  set (tx := konst_channel TranslateX 0 1). set (ty := konst_channel TranslateY 1 2). set (tx2 := konst_channel TranslateX 0 3). set (sx := konst_channel ScaleX 15 2). set (sy := konst_channel ScaleY 16 2). set (sz := konst_channel ScaleZ 17 2). set (su := konst_channel ScaleUniformly 18 2).
  enough (E : prune_loop c70_tolerances false 7 [tx; ty; tx2; c71_rotation; sx; sy; sz] = Some [konst_channel TranslateX 0 (1 + 3); ty; c71_rotation; su]) by (cbn [length]; rewrite E; reflexivity).
  eapply eq_trans; [exact (loop_step c70_tolerances false [tx; ty; tx2; c71_rotation; sx; sy] [sz] [sz] (kept_alone c70_tolerances false sz [] eq_refl eq_refl ltac:(apply kept_konst; cbn; rabs; lra)))|].
  eapply eq_trans; [exact (loop_step c70_tolerances false [tx; ty; tx2; c71_rotation; sx] [sy; sz] [sy; sz] (kept_alone c70_tolerances false sy [sz] eq_refl eq_refl ltac:(apply kept_konst; cbn; rabs; lra)))|].
  eapply eq_trans; [apply (loop_step c70_tolerances false [tx; ty; tx2; c71_rotation] [sx; sy; sz] [su])|].
  1: { rewrite (prune_alone _ _ _ su []); [|assert (U : uniform_scale_channels c70_tolerances [sx; sy; sz] 0 = true); [|rewrite U; reflexivity]|reflexivity].
       - unfold su. rewrite kept_konst; [reflexivity|cbn; rabs; lra].
       - assert (Q : equal_nodes (SNode 0 2 0) (SNode 0 2 0) (tl_scale c70_tolerances) (tl_angle c70_tolerances) = true).
         { unfold equal_nodes. cbn [sn_time sn_val sn_der c70_tolerances tl_scale tl_angle]. rewrite !Rminus_eq_0, atan_0, Rabs_R0. rewrite !Rltb_t; [reflexivity|rewrite <- atan_0; apply atan_increasing; lra|lra]. }
         unfold uniform_scale_channels. change (getz [sx; sy; sz] 0) with (Some sx). change (getz [sx; sy; sz] (0 + 1)) with (Some sy). change (getz [sx; sy; sz] (0 + 2)) with (Some sz). unfold sx, sy, sz, konst_channel. cbn [ch_op ch_nodes nodes_match]. rewrite Q. reflexivity. }
  eapply eq_trans; [exact (loop_step c70_tolerances false [tx; ty; tx2] [c71_rotation; su] [c71_rotation; su] (kept_alone c70_tolerances false c71_rotation [su] eq_refl eq_refl eq_refl))|].
  eapply eq_trans; [exact (loop_step c70_tolerances false [tx; ty] [tx2; c71_rotation; su] [tx2; c71_rotation; su] (kept_alone c70_tolerances false tx2 [c71_rotation; su] eq_refl eq_refl ltac:(apply kept_konst; cbn; rabs; lra)))|].
  eapply eq_trans; [exact (loop_step c70_tolerances false [tx] [ty; tx2; c71_rotation; su] [ty; tx2; c71_rotation; su] (kept_alone c70_tolerances false ty [tx2; c71_rotation; su] eq_refl eq_refl ltac:(apply kept_konst; cbn; rabs; lra)))|].
  eapply eq_trans; [apply (loop_step c70_tolerances false [] [tx; ty; tx2; c71_rotation; su] [konst_channel TranslateX 0 (1 + 3); ty; c71_rotation; su])|].
  1: { rewrite (prune_sum _ _ _ tx [ty] tx2 [c71_rotation; su] [SNode 0 (1 + 3) 0]); [|reflexivity|reflexivity|reflexivity]. change (Channel (ch_op tx) (ch_id tx) [SNode 0 (1 + 3) 0]) with (konst_channel TranslateX 0 (1 + 3)). rewrite kept_konst; [reflexivity|cbn; rabs; lra]. }
  reflexivity.
Qed.

(** ** Where the pose changes *)
(** Scales along one axis are added up: 2 and 3 make 5. *)
Theorem C71_scales_refuted : exists b b', positive c70_tolerances /\ bn_channels b = [konst_channel ScaleX 15 2; konst_channel ScaleX 16 3] /\ prune_bone c70_tolerances true b = Some b' /\
  forall x, ~ same_pose c70_tolerances x b b'.
Proof.
  exists (Bone [] (-1) [konst_channel ScaleX 15 2; konst_channel ScaleX 16 3]), (Bone [] (-1) [konst_channel ScaleX 15 (2 + 3)]). split; [exact c71_positive|]. split; [reflexivity|]. split.
  - unfold prune_bone. cbn [bn_channels bn_name bn_parent]. set (a := konst_channel ScaleX 15 2). set (b := konst_channel ScaleX 16 3). enough (E : prune_loop c70_tolerances true 2 [a; b] = Some [konst_channel ScaleX 15 (2 + 3)]) by (cbn [length]; rewrite E; reflexivity).
    eapply eq_trans; [exact (loop_step c70_tolerances true [a] [b] [b] (kept_alone c70_tolerances true b [] eq_refl eq_refl ltac:(apply kept_konst; cbn; rabs; lra)))|].
    eapply eq_trans; [apply (loop_step c70_tolerances true [] [a; b] [konst_channel ScaleX 15 (2 + 3)])|reflexivity]. rewrite (prune_sum _ _ _ a [] b [] [SNode 0 (2 + 3) 0]); [|reflexivity|reflexivity|reflexivity]. change (Channel (ch_op a) (ch_id a) [SNode 0 (2 + 3) 0]) with (konst_channel ScaleX 15 (2 + 3)). rewrite kept_konst; [reflexivity|cbn; rabs; lra].
  - intros x (_ & _ & vs & m & F & E1 & E2). cbn [bn_channels] in *. inversion F as [|? v ? vs1 N1 F1]; subst. inversion F1 as [|? w ? vs2 N2 F2]; subst. inversion F2; subst. unfold near_played in N1, N2. cbn [konst_channel ch_op ch_nodes played sn_val c70_tolerances tl_scale] in N1, N2.
    unfold posed in E2. cbn [konst_channel ch_op ch_nodes map played sn_val combine pose elementary] in E1, E2. assert (E : (v * w = 5)%R). { rewrite <- E1 in E2. injection E2. intros. cbn in *. lra. }
    apply Rabs_def2 in N1. apply Rabs_def2 in N2. nra.
Qed.
Print Assumptions C71_scales_refuted.

(** The sum of channels that end at different times: the slope with which the first one ends is
    kept at its end, and the sum goes on from there. *)
Definition c71_short : channel := Channel TranslateX 0 [SNode 0 0 0; SNode 10 0 1].
Definition c71_long : channel := Channel TranslateX 0 [SNode 0 0 0; SNode 10 0 0; SNode 20 0 0].
Theorem C71_spans_refuted : exists b b', positive c70_tolerances /\ bn_channels b = [c71_short; c71_long] /\ prune_bone c70_tolerances true b = Some b' /\ ~ same_pose c70_tolerances 15 b b'.
Proof.
  set (s := [SNode 0 (0 + 0) (0 + 0); SNode 10 (0 + 0) (1 + 0); SNode 20 (0 + 0) (0 + 0)]).
  exists (Bone [] (-1) [c71_short; c71_long]), (Bone [] (-1) [Channel TranslateX 0 s]). split; [exact c71_positive|]. split; [reflexivity|]. split.
  - unfold prune_bone. cbn [bn_channels bn_name bn_parent]. enough (E : prune_loop c70_tolerances true 2 [c71_short; c71_long] = Some [Channel TranslateX 0 s]) by (cbn [length]; rewrite E; reflexivity).
    eapply eq_trans; [exact (loop_step c70_tolerances true [c71_short] [c71_long] [c71_long] (kept_alone c70_tolerances true c71_long [] eq_refl eq_refl eq_refl))|].
    eapply eq_trans; [apply (loop_step c70_tolerances true [] [c71_short; c71_long] [Channel TranslateX 0 s])|reflexivity]. rewrite (prune_sum _ _ _ c71_short [] c71_long [] s); [reflexivity|reflexivity|reflexivity|reflexivity].
  - intros (_ & _ & vs & m & F & E1 & E2). cbn [bn_channels] in *. inversion F as [|? v ? vs1 N1 F1]; subst. inversion F1 as [|? w ? vs2 N2 F2]; subst. inversion F2; subst. unfold near_played in N1, N2.
    assert (P1 : played (ch_nodes c71_short) 15 = 0%R). { cbn [c71_short ch_nodes]. rewrite played_cons2. cbn [sn_time]. rewrite !Rltb_f by lra. reflexivity. }
    assert (Z0 : forall x, keval (cubic_between (SNode 10 0 0) (SNode 20 0 0)) x = 0%R). { intros x. unfold cubic_between, cubic_init, keval. cbn [sn_time sn_val sn_der]. change (IZR (20 - 10)) with 10%R. rewrite Rltb_t by lra. cbn [k3 k2 k1 k0]. field. }
    assert (P2 : played (ch_nodes c71_long) 15 = 0%R). { cbn [c71_long ch_nodes]. rewrite !played_cons2. cbn [sn_time]. rewrite !Rltb_f by lra. rewrite Rltb_t by lra. apply Z0. }
    assert (P3 : played s 15 = (5 / 4)%R). { unfold s. rewrite !played_cons2. cbn [sn_time sn_val]. rewrite !Rltb_f by lra. rewrite Rltb_t by lra. unfold cubic_between, cubic_init, keval. cbn [sn_time sn_val sn_der]. change (IZR (20 - 10)) with 10%R. rewrite Rltb_t by lra. cbn [k3 k2 k1 k0]. field. }
    rewrite P1 in N1. rewrite P2 in N2. cbn [c71_short c71_long ch_op c70_tolerances tl_translate] in N1, N2. unfold posed in E2. cbn [map ch_op ch_nodes] in E2. rewrite P3 in E2. cbn [c71_short c71_long ch_op map combine pose elementary] in E1, E2.
    assert (E : (v + w = 5 / 4)%R). { rewrite <- E1 in E2. injection E2. intros. cbn in *. lra. } apply Rabs_def2 in N1. apply Rabs_def2 in N2. lra.
Qed.
Print Assumptions C71_spans_refuted.

(** Scales that agree within tolerance at their nodes may differ between them. *)
Definition c71_flat (op : mtype) (id : Z) : channel := Channel op id [SNode 0 2 0; SNode 1000 2 0].
Definition c71_bump : channel := Channel ScaleY 16 [SNode 0 2 (1 / 1000); SNode 1000 2 (- (1 / 1000))].
Theorem C71_uniform_refuted : exists b b', positive c70_tolerances /\ bn_channels b = [c71_flat ScaleX 15; c71_bump; c71_flat ScaleZ 17] /\ prune_bone c70_tolerances false b = Some b' /\ ~ same_pose c70_tolerances 500 b b'.
Proof.
  exists (Bone [] (-1) [c71_flat ScaleX 15; c71_bump; c71_flat ScaleZ 17]), (Bone [] (-1) [c71_flat ScaleUniformly 18]). split; [exact c71_positive|]. split; [reflexivity|]. split.
  - unfold prune_bone. cbn [bn_channels bn_name bn_parent]. set (a := c71_flat ScaleX 15). set (c := c71_flat ScaleZ 17). enough (E : prune_loop c70_tolerances false 3 [a; c71_bump; c] = Some [c71_flat ScaleUniformly 18]) by (cbn [length]; rewrite E; reflexivity).
    eapply eq_trans; [exact (loop_step c70_tolerances false [a; c71_bump] [c] [c] (kept_alone c70_tolerances false c [] eq_refl eq_refl eq_refl))|].
    eapply eq_trans; [exact (loop_step c70_tolerances false [a] [c71_bump; c] [c71_bump; c] (kept_alone c70_tolerances false c71_bump [c] eq_refl eq_refl eq_refl))|].
    eapply eq_trans; [apply (loop_step c70_tolerances false [] [a; c71_bump; c] [c71_flat ScaleUniformly 18])|reflexivity]. rewrite (prune_alone _ _ _ (c71_flat ScaleUniformly 18) []); [reflexivity| |reflexivity].
    assert (U : uniform_scale_channels c70_tolerances [a; c71_bump; c] 0 = true); [|rewrite U; reflexivity].
    assert (Q : forall t d e, (Rabs (d - e) < 1 / 100)%R -> equal_nodes (SNode t 2 d) (SNode t 2 e) (tl_scale c70_tolerances) (tl_angle c70_tolerances) = true).
    { intros t d e H. unfold equal_nodes. cbn [sn_time sn_val sn_der c70_tolerances tl_scale tl_angle]. rewrite Z.eqb_refl, Rminus_eq_0, Rabs_R0. rewrite !Rltb_t; [reflexivity|apply atan_abs_lt; [lra|exact H]|lra]. }
    unfold uniform_scale_channels. change (getz [a; c71_bump; c] 0) with (Some a). change (getz [a; c71_bump; c] (0 + 1)) with (Some c71_bump). change (getz [a; c71_bump; c] (0 + 2)) with (Some c). unfold a, c, c71_flat, c71_bump. cbn [ch_op ch_nodes nodes_match]. rewrite !Q by (rabs; lra). reflexivity.
  - intros (_ & _ & vs & m & F & E1 & E2). cbn [bn_channels] in *. inversion F as [|? u ? vs0 _ F0]; subst. inversion F0 as [|? v ? vs1 N1 F1]; subst. inversion F1 as [|? w ? vs2 _ F2]; subst. inversion F2; subst. unfold near_played in N1.
    assert (P1 : played (ch_nodes c71_bump) 500 = (9 / 4)%R). { cbn [c71_bump ch_nodes]. rewrite played_cons2. cbn [sn_time]. rewrite Rltb_f, Rltb_t by lra. unfold cubic_between, cubic_init, keval. cbn [sn_time sn_val sn_der]. change (IZR (1000 - 0)) with 1000%R. rewrite Rltb_t by lra. cbn [k3 k2 k1 k0]. field. }
    assert (P2 : played (ch_nodes (c71_flat ScaleUniformly 18)) 500 = 2%R). { cbn [c71_flat ch_nodes]. rewrite played_cons2. cbn [sn_time]. rewrite Rltb_f, Rltb_t by lra. unfold cubic_between, cubic_init, keval. cbn [sn_time sn_val sn_der]. change (IZR (1000 - 0)) with 1000%R. rewrite Rltb_t by lra. cbn [k3 k2 k1 k0]. field. }
    rewrite P1 in N1. cbn [c71_bump ch_op c70_tolerances tl_scale] in N1. unfold posed in E2. cbn [map] in E2. rewrite P2 in E2. cbn [c71_flat c71_bump ch_op map combine pose elementary] in E1, E2.
    assert (E : (v = 2)%R). { rewrite <- E1 in E2. injection E2. intros. cbn in *. lra. } apply Rabs_def2 in N1. lra.
Qed.
Print Assumptions C71_uniform_refuted.

(** A quaternion's real part of 0 counts as the default, which is 1: its channel goes. *)
Theorem C71_quaternion_refuted : exists b b', positive c70_tolerances /\ bn_channels b = [konst_channel QuaternionW 0 0] /\ prune_bone c70_tolerances true b = Some b' /\ bn_channels b' = [] /\ default_value QuaternionW <> 0%R.
Proof.
  exists (Bone [] (-1) [konst_channel QuaternionW 0 0]), (Bone [] (-1) []). split; [exact c71_positive|]. split; [reflexivity|]. split; [|split; [reflexivity|cbn; lra]].
  unfold prune_bone. cbn [bn_channels bn_name bn_parent]. set (a := konst_channel QuaternionW 0 0). enough (E : prune_loop c70_tolerances true 1 [a] = Some []) by (cbn [length]; rewrite E; reflexivity).
  eapply eq_trans; [apply (loop_step c70_tolerances true [] [a] [])|reflexivity]. rewrite (prune_alone _ _ _ a []); [|reflexivity|reflexivity]. replace (left_out c70_tolerances a) with true; [reflexivity|]. symmetry. unfold left_out, is_default, a. cbn [konst_channel ch_nodes ch_op sn_val]. apply Rltb_t. cbn. rabs; lra.
Qed.
Print Assumptions C71_quaternion_refuted.

(** Curves with different spans that can be summed. *)
Example C71_sum_applies : let a := ch_nodes c71_rotation in let b := [SNode 50 0 0; SNode 200 3 0] in in_time a /\ in_time b /\ flat_where_alone a b /\ flat_where_alone b a.
Proof.
  cbn zeta. split; [|split; [|split; split; intros; reflexivity]]; (split; [discriminate|]; split; [repeat constructor; lia|]); intros y [<-|[<-|[]]]; cbn; lia.
Qed.
