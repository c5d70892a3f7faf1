(** The rotation orders for which the transform of an FBX node (C95) is not exported. *)
From Verif Require Import RBase BaseFacts MathfuModel CurveModel MatrixModel MatrixProps RigModel AnimDataModel AnimSpec AnimCurveProps AnimChannelsModel AnimSumProps AnimChannelsProps FbxModel FbxProps.
Local Open Scope Z_scope.

(** Only the local rotation is not what it is by default: 90 degrees about x and about y. *)
Definition c95_data (order : Z) : fbx_data :=
  FbxData (fun n => FbxProperty (fun a => match n with LclScaling => 1%R | LclRotation => if a <? 2 then 90%R else 0%R | _ => 0%R end) None) order.
Definition c95_tolerances : tolerances := Tolerances (1 / 100) (1 / 100) (1 / 100) (1 / 100) (1 / 100).
Definition c95_start : anim_data := AnimData [Bone [] (-1) []] 0 c95_tolerances false.
Definition static_adds (t : tolerances) (f : fbx_data) (s : slot) : list channel :=
  let v := flat_value (sl_op s) (sl_inv s) (fp_value (fd_property f (sl_name s)) (sl_axis s)) in if is_default t (slot_mtype s) v then [] else [Channel (slot_mtype s) (sl_id s) [SNode 0 v 0]].
Lemma static_map ms t f span : unanimated f -> forall ss, map_opt (slot_adds ms t f span) ss = Some (map (static_adds t f) ss).
Proof.
  intros U. induction ss as [|s ss IH]; [reflexivity|]. cbn [map_opt map]. rewrite IH. unfold slot_adds, added, anim_const, static_adds. rewrite U. cbv zeta. cbn [andb]. fold (slot_mtype s). destruct (is_default _ _ _); reflexivity.
Qed.
Lemma c95_default order s : (sl_name s = LclScaling -> sl_op s = ScaleX /\ sl_inv s = false) -> (sl_name s <> LclScaling -> scale_kind (slot_mtype s) = false /\ scale_kind (sl_op s) = false) -> (sl_name s = LclRotation -> sl_axis s = 2) -> basic (slot_mtype s) ->
  static_adds c95_tolerances (c95_data order) s = [].
Proof.
  intros H1 H2 H3 B. unfold static_adds. cbv zeta. replace (is_default _ _ _) with true; [reflexivity|]. symmetry. unfold is_default. cbn [c95_data fd_property fp_value]. apply Rltb_t.
  assert (TT : tolerance_for_op c95_tolerances (slot_mtype s) = (1 / 100)%R) by (destruct B as [[B | [B | B]]|[[B | [B | B]]|[B | [B | B]]]]; rewrite B; reflexivity). rewrite TT.
  destruct (sl_name s) eqn:N; try (destruct (H2 ltac:(congruence)) as [K1 K2]; unfold default_op_value, flat_value, invert_value; rewrite K1, K2; destruct (rotate_kind _), (sl_inv s); rabs; lra).
  - rewrite (H3 eq_refl). change (2 <? 2) with false. destruct (H2 ltac:(congruence)) as [K1 K2]. unfold default_op_value, flat_value, invert_value; rewrite K1, K2; destruct (rotate_kind _), (sl_inv s); rabs; lra.
  - destruct (H1 eq_refl) as [K1 K2]. rewrite K1, K2. unfold flat_value, invert_value. cbn [rotate_kind]. unfold default_op_value. replace (scale_kind (slot_mtype s)) with true; [rabs; lra|]. unfold slot_mtype. rewrite K1. destruct (sl_axis s) as [|[[?|?|]|[?|?|]|]|?]; reflexivity.
Qed.
Lemma c95_slot order op axis id : (op = RotateX /\ axis = 0) \/ (op = RotateX /\ axis = 1) ->
  static_adds c95_tolerances (c95_data order) (Slot LclRotation op false axis id) = [Channel (op_plus op axis) id [SNode 0 (PI / 2) 0]].
Proof.
  pose proof PI2_3_2. intros [[-> ->]|[-> ->]]; unfold static_adds; cbn [sl_name sl_op sl_inv sl_axis sl_id slot_mtype op_plus c95_data fd_property fp_value]; unfold flat_value, invert_value; cbn [rotate_kind];
   [change (0 <? 2) with true|change (1 <? 2) with true]; cbv iota zeta; replace (PI / 180 * 90)%R with (PI / 2)%R by field; unfold is_default, default_op_value, tolerance_for_op; cbn [scale_kind rotate_kind c95_tolerances tl_rotate]; rewrite Rltb_f by (rabs; lra); reflexivity.
Qed.
Lemma c95_slot2 order id : static_adds c95_tolerances (c95_data order) (Slot LclRotation RotateX false 2 id) = [].
Proof. apply c95_default; [discriminate|split; reflexivity|reflexivity|now apply basicb_ok]. Qed.
Definition c95_channels (order : Z) : list channel :=
  match order with
  | 1 => [Channel RotateX 7 [SNode 0 (PI / 2) 0]; Channel RotateY 8 [SNode 0 (PI / 2) 0]]
  | 2 => [Channel RotateY 6 [SNode 0 (PI / 2) 0]; Channel RotateX 7 [SNode 0 (PI / 2) 0]]
  | 3 => [Channel RotateY 6 [SNode 0 (PI / 2) 0]; Channel RotateX 8 [SNode 0 (PI / 2) 0]]
  | _ => [Channel RotateX 6 [SNode 0 (PI / 2) 0]; Channel RotateY 8 [SNode 0 (PI / 2) 0]]
  end.
Lemma c95_gathered order : 1 <= order <= 4 -> concat (map (static_adds c95_tolerances (c95_data order)) (slots order kProperties)) = c95_channels order.
Proof.
  intros O. assert (OO : order = 1 \/ order = 2 \/ order = 3 \/ order = 4) by lia. clear O.
  assert (D : forall s, In s (slots order kProperties) -> sl_name s <> LclRotation \/ sl_axis s = 2 -> static_adds c95_tolerances (c95_data order) s = []).
  { intros s I H. apply c95_default.
    - clear H. destruct OO as [-> | [-> | [-> | ->]]]; cbn in I; repeat (destruct I as [<-|I]; [cbn; intuition discriminate|]); destruct I.
    - clear H. destruct OO as [-> | [-> | [-> | ->]]]; cbn in I; repeat (destruct I as [<-|I]; [cbn; intuition discriminate|]); destruct I.
    - tauto.
    - apply basicb_ok. clear H. destruct OO as [-> | [-> | [-> | ->]]]; cbn in I; repeat (destruct I as [<-|I]; [reflexivity|]); destruct I. }
  assert (K : forall ss, (forall s, In s ss -> static_adds c95_tolerances (c95_data order) s = []) -> concat (map (static_adds c95_tolerances (c95_data order)) ss) = []).
  { induction ss as [|s ss IH]; intros H; [reflexivity|]. cbn [map concat]. rewrite H by (now left). apply IH. intros; apply H; now right. }
  assert (SP : slots order kProperties = firstn 12 (slots order kProperties) ++ firstn 3 (skipn 12 (slots order kProperties)) ++ skipn 15 (slots order kProperties)).
  { destruct OO as [-> | [-> | [-> | ->]]]; reflexivity. }
  rewrite SP, !map_app, !concat_app, (K (firstn 12 _)), (K (skipn 15 _)), app_nil_r.
  - cbn [app]. destruct OO as [-> | [-> | [-> | ->]]]; cbn [firstn skipn slots kProperties flat_map channel_order rotate_kind kRotationOrder kRotationOrderInverted];
      [pose (ss := [Slot LclRotation RotateX false 2 6; Slot LclRotation RotateX false 0 7; Slot LclRotation RotateX false 1 8])|pose (ss := [Slot LclRotation RotateX false 1 6; Slot LclRotation RotateX false 0 7; Slot LclRotation RotateX false 2 8])
      |pose (ss := [Slot LclRotation RotateX false 1 6; Slot LclRotation RotateX false 2 7; Slot LclRotation RotateX false 0 8])|pose (ss := [Slot LclRotation RotateX false 0 6; Slot LclRotation RotateX false 2 7; Slot LclRotation RotateX false 1 8])];
      match goal with |- concat (map ?g ?l) = _ => change l with ss end; unfold ss; cbn [map concat]; rewrite (c95_slot _ RotateX 0), (c95_slot _ RotateX 1) by auto; rewrite (c95_slot2 _); reflexivity.
  - intros s I. apply D; [rewrite SP; apply in_or_app; right; apply in_or_app; now right|]. left. destruct OO as [-> | [-> | [-> | ->]]]; cbn in I; repeat (destruct I as [<-|I]; [discriminate|]); destruct I.
  - intros s I. apply D; [rewrite SP; apply in_or_app; now left|]. left. destruct OO as [-> | [-> | [-> | ->]]]; cbn in I; repeat (destruct I as [<-|I]; [discriminate|]); destruct I.
Qed.
Lemma prune_two t n p a b : mtype_eqb (ch_op b) (ch_op a) = false -> rotates (ch_op a) -> left_out t a = false -> left_out t b = false -> (ch_id a <=? ch_id b) = true -> prune_bone t false (Bone n p [a; b]) = Some (Bone n p [a; b]).
Proof.
  intros O R0 LA LB I. unfold prune_bone. cbn [bn_channels length prune_loop bn_name bn_parent]. change (Z.of_nat 1) with (len [a]). change [a; b] with ([a] ++ [b]) at 1. rewrite prune_channel_app.
  rewrite (prune_alone t false [b] b []); [|reflexivity|reflexivity]. rewrite LB. cbn [app]. change (Z.of_nat 0) with 0.
  rewrite (prune_alone t false [a; b] a [b]); [|reflexivity|]. { rewrite LA. unfold sort_channels. cbn [fold_right insert_channel]. now rewrite I. }
  cbn [summable_loop]. rewrite O. destruct R0 as [-> | [-> | ->]]; reflexivity.
Qed.
Lemma c95_pruned order : 1 <= order <= 4 -> prune_bone c95_tolerances false (Bone [] (-1) (c95_channels order)) = Some (Bone [] (-1) (c95_channels order)).
Proof.
  intros O. assert (ND : forall op id, rotates op -> left_out c95_tolerances (Channel op id [SNode 0 (PI / 2) 0]) = false).
  { pose proof PI2_3_2. intros op id R0. unfold left_out, is_default. cbn [ch_nodes ch_op sn_val]. destruct R0 as [-> | [-> | ->]]; unfold default_op_value, tolerance_for_op; cbn [scale_kind rotate_kind c95_tolerances tl_rotate]; apply Rltb_f; rabs; lra. }
  assert (OO : order = 1 \/ order = 2 \/ order = 3 \/ order = 4) by lia. unfold rotates in ND.
  destruct OO as [-> | [-> | [-> | ->]]]; cbn [c95_channels]; (apply prune_two; [reflexivity|unfold rotates; cbn; auto|apply ND; auto|apply ND; auto|reflexivity]).
Qed.
(** What the parts of a node that is not animated amount to. *)
Definition exactly (f : fbx_data) (i a : Z) : R := match getz formula i with Some (n, inverse) => amount n inverse (fp_value (fd_property f n) a) | None => 0%R end.
(** C95 is false of the rotation orders XZY, YZX, YXZ and ZXY: a node that is turned by 90 degrees about x
    and y is exported with the two turns exchanged. *)
Theorem C95_order_refuted : forall order, 1 <= order <= 4 -> exists f d d' b' m, fd_order f = order /\ unanimated f /\ positive (ad_tol d) /\ cur_channels d = Some [] /\ others_pruned false d /\
  gather_node (fun t => t) f false (0, 0) d = Some d' /\ getz (ad_bones d') (ad_cur d) = Some b' /\ posed (bn_channels b') 0 = Some m /\
  Rabs (x4 (c2 m) - x4 (c2 (fbx_matrix order (exactly f)))) = 1%R.
Proof.
  intros order O. assert (OO : order = 1 \/ order = 2 \/ order = 3 \/ order = 4) by lia.
  pose (d1 := AnimData [Bone [] (-1) (c95_channels order)] 0 c95_tolerances false).
  exists (c95_data order), c95_start, d1, (Bone [] (-1) (c95_channels order)), (total_pose (map (fun c => (ch_op c, played (ch_nodes c) 0)) (c95_channels order))).
  split; [reflexivity|]. split; [intros n; reflexivity|]. split; [unfold positive, c95_start; cbn; lra|]. split; [reflexivity|].
  split; [intros i b I G; apply getz_Some in G; cbn in G, I; lia|].
  split.
  { unfold gather_node. rewrite (gather_properties_eq (fun t => t) c95_tolerances (c95_data order) (0, 0) c95_start eq_refl) with (chs := []); [|reflexivity| |reflexivity].
    - rewrite static_map by (intros n; reflexivity). change (fd_order (c95_data order)) with order. rewrite c95_gathered by exact O. cbn [app].
      change (set_cur_channels c95_start (c95_channels order)) with (Some d1). unfold prune_channels. cbn [d1 ad_bones ad_tol map_opt]. rewrite c95_pruned by exact O. reflexivity.
    - intros op inv. unfold channel_order. destruct (rotate_kind op); [|discriminate]. change (fd_order (c95_data order)) with order. destruct OO as [-> | [-> | [-> | ->]]]; destruct inv; discriminate. }
  split; [reflexivity|]. split; [apply pose_total; intros p Pp; apply in_map_iff in Pp; destruct Pp as (c & <- & C); apply basic_geometric, basicb_ok; destruct OO as [-> | [-> | [-> | ->]]]; cbn in C; destruct C as [<-|[<-|[]]]; reflexivity|].
  unfold fbx_matrix, exactly. cbn [c95_data fd_property fp_value].
  assert (EX : elem RotateX 0 = identity4) by (apply (elem_default RotateX); left; left; reflexivity).
  assert (EY : elem RotateY 0 = identity4) by (apply (elem_default RotateY); left; right; left; reflexivity).
  assert (EZ : elem RotateZ 0 = identity4) by (apply (elem_default RotateZ); left; right; right; reflexivity).
  unfold turn, turn_back, about, product, move, stretch, exactly.
  destruct OO as [-> | [-> | [-> | ->]]]; cbn [c95_channels map fst snd ch_op ch_nodes played total_pose fold_right operation];
    change (getz formula 0) with (Some (LclTranslation, false)); change (getz formula 1) with (Some (RotationOffset, false)); change (getz formula 2) with (Some (RotationPivot, false)); change (getz formula 3) with (Some (PreRotation, false));
    change (getz formula 4) with (Some (LclRotation, false)); change (getz formula 5) with (Some (PostRotation, true)); change (getz formula 6) with (Some (RotationPivot, true)); change (getz formula 7) with (Some (ScalingOffset, false));
    change (getz formula 8) with (Some (ScalingPivot, false)); change (getz formula 9) with (Some (LclScaling, false)); change (getz formula 10) with (Some (ScalingPivot, true));
    cbn [amount]; change (0 <? 2) with true; change (1 <? 2) with true; change (2 <? 2) with false; cbv iota; replace (90 * (PI / 180))%R with (PI / 2)%R by field; rewrite ?Rmult_0_l, ?Ropp_0;
    change (rows 1 0 0 0 0 1 0 0 0 0 1 0 0 0 0 1) with identity4; rewrite ?EX, ?EY, ?EZ, ?mmul_1_l, ?mmul_1_r; cbn [sn_val]; unfold elem, elementary; cbv zeta; rewrite cos_PI2, sin_PI2; unfold rows, mmul; cbn; rabs; lra.
Qed.
Print Assumptions C95_order_refuted.

(** The hypotheses of [C95_static_partial] are met by this node with the order XYZ. *)
Example c95_static_met : exists d' b', gather_node (fun t => t) (c95_data 0) false (0, 0) c95_start = Some d' /\ getz (ad_bones d') 0 = Some b' /\
  forall x, exists w, posed (bn_channels b') x = Some (fbx_matrix 0 w) /\ (Rabs (w 4%Z 0%Z - PI / 2) < 1 / 100)%R /\ (Rabs (w 4%Z 1%Z - PI / 2) < 1 / 100)%R.
Proof.
  destruct (C95_static_partial (fun t => t) false (0, 0) (c95_data 0) c95_start) as (d' & b' & G & _ & B & _ & W).
  - unfold positive, c95_start; cbn; lra.
  - now left.
  - intros n. reflexivity.
  - reflexivity.
  - intros i b I E. exfalso. apply getz_Some in E. cbn in E, I. lia.
  - exists d', b'. split; [exact G|]. split; [exact B|]. intros x. destruct (W x) as (w & P & A). exists w. split; [exact P|].
    assert (HP : (90 * (PI / 180) = PI / 2)%R) by field. pose proof (A 4 0 LclRotation false eq_refl ltac:(lia)) as A0. pose proof (A 4 1 LclRotation false eq_refl ltac:(lia)) as A1. unfold amount in A0, A1. cbn in A0, A1. rewrite HP in A0, A1. split; assumption.
Qed.

(** The hypotheses of [C95_transform_partial] are met by a node whose x goes from 0 to 1500 in as many
    milliseconds. *)
Definition c95_curve : fbx_curve := FbxCurve [FbxKey 0 0 1000 1000; FbxKey 1500 1500 1000 1000] IZR (fun _ => 1000%R) (fun _ => 1000%R).
Definition c95_moving : fbx_data :=
  FbxData (fun n => match n with
                    | LclTranslation => FbxProperty (fun _ => 0%R) (Some [FbxChannel 0 (Some c95_curve); FbxChannel 0 None; FbxChannel 0 None])
                    | _ => FbxProperty (fun a => match n with LclScaling => 1%R | _ => 0%R end) None
                    end) 0.
Definition c95_nodes : list snode := [SNode 0 0 1; SNode 1500 1500 1].
Lemma worst_none c vals first inc w : (0 <= snd (fst w))%R -> forall n i time, (forall k, (k < n)%nat -> getz vals (first + i + Z.of_nat k) = Some (keval c (time + INR k * inc))) -> worst_loop c vals first n i time inc w = Some w.
Proof.
  intros W. induction n as [|n IH]; intros i time H; [reflexivity|]. cbn [worst_loop]. pose proof (H 0%nat ltac:(lia)) as H0. cbn [Z.of_nat INR] in H0. rewrite Z.add_0_r in H0. rewrite H0. rewrite Rltb_f by (replace (time + 0 * inc)%R with time by ring; rewrite Rminus_eq_0, Rabs_R0; exact W).
  apply IH. intros k K. specialize (H (S k) ltac:(lia)). rewrite S_INR in H. replace (first + (i + 1) + Z.of_nat k) with (first + i + Z.of_nat (S k)) by lia. rewrite H. f_equal. f_equal. ring.
Qed.
Lemma c95_line : cubic_init 0 1 1500 1 1500 = Cubic 0 0 1 0.
Proof. unfold cubic_init. rewrite Rltb_t by lra. cbn. f_equal; field. Qed.
Lemma pruned_pair t tol a b : pruned_nodes t tol [a; b] = Some (if is_const t tol [a; b] then [a] else [a; b]).
Proof. reflexivity. Qed.
Lemma c95_recorded : curve_channel (fun t => t) c95_tolerances TranslateX false c95_curve (0, 1500) TranslateX = Some c95_nodes.
Proof.
  unfold curve_channel. change (1 <? len (fc_keys c95_curve)) with true. cbv iota. cbn [c95_curve fc_keys interval_nodes fk_time fst snd]. change ((1500 <? 0) || (1500 <? 0)) with false. cbv iota zeta. change (Z.max 0 0) with 0. change (Z.min 1500 1500) with 1500.
  assert (F0 : flat_time (fun t => t) 0 = Some 0) by reflexivity. assert (F1 : flat_time (fun t => t) 1500 = Some 1500) by reflexivity. rewrite F0, F1. fold c95_curve.
  assert (SV : sample_values TranslateX false c95_curve 0 1500 = map (fun k => IZR (100 * Z.of_nat k)) (seq 0 16)) by reflexivity.
  assert (SD : sample_derivatives TranslateX false c95_curve 0 1500 = repeat 1%R 16).
  { unfold sample_derivatives, flat_derivative, flat_value, invert_value. cbn. replace (1000 / 1000)%R with 1%R by field. reflexivity. }
  rewrite SV, SD. unfold curve_nodes. change (Z.to_nat (2 * 16 + 1)) with (S (S 31)). generalize 31%nat. intros fuel. set (vals := map _ _). cbn [segments_loop sg_start sg_end sg_first sg_count].
  change (sub_int 1500 0) with (Some 1500). change (getz vals 0) with (Some 0%R). change (getz (repeat 1%R 16) 0) with (Some 1%R). change (getz vals (0 + (16 - 1))) with (Some 1500%R). change (getz (repeat 1%R 16) (0 + (16 - 1))) with (Some 1%R). cbv iota beta zeta.
  rewrite c95_line. replace (1500 / IZR (16 - 1))%R with 100%R by (cbn; field). rewrite worst_none; [|cbn; lra|].
  - change (0 <? 0) with false. cbn [andb]. cbv iota. change (getz [] (len (@nil snode) - 1)) with (@None snode). cbv iota. cbn [app]. 
    cbn [segments_loop]. rewrite pruned_pair. unfold is_const. cbn [sn_val]. rewrite Rltb_f by (unfold tolerance_for_op; cbn [rotate_kind translate_kind c95_tolerances tl_translate]; rabs; lra). reflexivity.
  - intros k K. change (Z.to_nat (16 - 2)) with 14%nat in K. replace (keval _ _) with (IZR (100 * Z.of_nat (S k))); [|unfold keval; cbn [k0 k1 k2 k3]; rewrite INR_IZR_INZ, mult_IZR, Nat2Z.inj_succ, succ_IZR; ring].
    replace (0 + 1 + Z.of_nat k) with (Z.of_nat (S k)) by lia. unfold vals, getz. replace (Z.of_nat (S k) <? 0) with false by lia. rewrite Nat2Z.id. rewrite nth_error_map, nth_error_nth' with (d := 0%nat) by (rewrite seq_length; lia). rewrite seq_nth by lia. reflexivity.
Qed.
Lemma c95_still s : In s (tl (slots 0 kProperties)) -> slot_adds (fun t => t) c95_tolerances c95_moving (0, 1500) s = Some [].
Proof.
  assert (D : forall op v, is_default c95_tolerances op v = true -> (let '(const, v) := (true, v) in if const && is_default c95_tolerances op v then Some [] else if const then Some [Channel op (sl_id s) [SNode 0 v 0]] else None) = Some (@nil channel)) by (intros op v E; cbn [andb]; now rewrite E).
  intros I. cbn in I. repeat (destruct I as [<-|I]; [unfold slot_adds, added, anim_const; cbn [sl_name sl_op sl_inv sl_axis sl_id c95_moving fd_property fp_anim fp_value]; try (change (getz _ 1) with (Some (FbxChannel 0 None))); try (change (getz _ 2) with (Some (FbxChannel 0 None))); cbn [fh_curve fh_value op_plus andb];
    unfold is_default, default_op_value, flat_value, invert_value, tolerance_for_op; cbn [rotate_kind scale_kind translate_kind c95_tolerances tl_rotate tl_scale tl_translate]; rewrite Rltb_t by (rabs; lra); reflexivity|]); destruct I.
Qed.
Lemma c95_moves : gather_properties (fun t => t) c95_moving (0, 1500) kProperties c95_start = Some (AnimData [Bone [] (-1) [Channel TranslateX 0 c95_nodes]] 0 c95_tolerances false).
Proof.
  rewrite (gather_properties_eq (fun t => t) c95_tolerances c95_moving (0, 1500) c95_start eq_refl) with (chs := []); [|intros []; reflexivity| |reflexivity].
  - change (fd_order c95_moving) with 0. assert (F : slots 0 kProperties = Slot LclTranslation TranslateX false 0 0 :: tl (slots 0 kProperties)) by reflexivity. rewrite F. cbn [map_opt].
    assert (R0 : forall ss, (forall s, In s ss -> slot_adds (fun t => t) c95_tolerances c95_moving (0, 1500) s = Some []) -> exists r, map_opt (slot_adds (fun t => t) c95_tolerances c95_moving (0, 1500)) ss = Some r /\ concat r = []).
    { induction ss as [|s ss IH]; intros H; [exists []; auto|]. destruct IH as (r & E1 & E2); [intros; apply H; now right|]. exists ([] :: r). cbn [map_opt]. rewrite (H s) by (now left). rewrite E1. auto. }
    destruct (R0 _ c95_still) as (r & -> & E2).
    assert (A : slot_adds (fun t => t) c95_tolerances c95_moving (0, 1500) (Slot LclTranslation TranslateX false 0 0) = Some [Channel TranslateX 0 c95_nodes]).
    { unfold slot_adds, added, anim_const. cbn [sl_name sl_op sl_inv sl_axis sl_id c95_moving fd_property fp_anim]. change (getz _ 0) with (Some (FbxChannel 0 (Some c95_curve))). cbn [fh_curve c95_curve fk_value keys_const op_plus]. cbv zeta.
      replace (_ || _) with true; [fold c95_curve; cbn [andb]; rewrite c95_recorded; reflexivity|]. symmetry. apply Bool.orb_true_iff. right. apply Rltb_t. unfold flat_value, invert_value, tolerance_for_op. cbn [rotate_kind translate_kind c95_tolerances tl_translate]. rabs; lra. }
    rewrite A. cbn [concat app]. rewrite E2. reflexivity.
  - intros op inv. unfold channel_order. destruct (rotate_kind op); [|discriminate]. destruct inv; discriminate.
Qed.
Example c95_moving_met x : exists d' b' w, gather_node (fun t => t) c95_moving false (0, 1500) c95_start = Some d' /\ getz (ad_bones d') 0 = Some b' /\ posed (bn_channels b') x = Some (fbx_matrix 0 w) /\
  (Rabs (w 0%Z 0%Z - played c95_nodes x) < 1 / 100)%R.
Proof.
  destruct (C95_transform_partial (fun t => t) false (0, 1500) c95_moving c95_start (AnimData [Bone [] (-1) [Channel TranslateX 0 c95_nodes]] 0 c95_tolerances false) [Channel TranslateX 0 c95_nodes] x) as (d' & b' & w & G & _ & B & _ & P & M).
  - unfold positive, c95_start; cbn; lra.
  - now left.
  - intros []; reflexivity.
  - reflexivity.
  - intros i b I E. exfalso. apply getz_Some in E. cbn in E, I. lia.
  - exact c95_moves.
  - reflexivity.
  - intros c [<-|[]]. split; [discriminate|]. split; [repeat constructor|]. intros y [<-|[<-|[]]]; cbn; lia.
  - right. exists 0, 1500. intros c [<-|[]]. right. split; reflexivity.
  - right. intros c [<-|[]] [H | [H | H]]; discriminate.
  - exists d', b', w. split; [exact G|]. split; [exact B|]. split; [exact P|]. destruct (M 0 0 LclTranslation false eq_refl ltac:(lia)) as [[C _]|[_ (n & (chs & fc & c & E1 & E2 & E3 & E4) & D)]].
    + exfalso. revert C. unfold anim_const. cbn [c95_moving fd_property fp_anim]. change (getz _ 0) with (Some (FbxChannel 0 (Some c95_curve))). cbn [fh_curve c95_curve fk_value keys_const operation]. cbv zeta.
      replace (_ || _) with true; [discriminate|]. symmetry. apply Bool.orb_true_iff. right. apply Rltb_t. unfold flat_value, invert_value, tolerance_for_op. cbn [rotate_kind translate_kind c95_start ad_tol c95_tolerances tl_translate]. rabs; lra.
    + injection E1 as <-. injection E2 as <-. injection E3 as <-. change (operation LclTranslation 0) with TranslateX in *. change (ad_tol c95_start) with c95_tolerances in *. rewrite c95_recorded in E4. injection E4 as <-. exact D.
Qed.
