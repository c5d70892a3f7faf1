(** From an FBX scene to animation files (C104). *)
From Verif Require Import RBase BaseFacts MathfuModel CurveModel MatrixModel MatrixProps RigModel AnimDataModel AnimSpec AnimCurveProps AnimTimeProps AnimChannelsModel AnimSumProps AnimChannelsProps AnimStableProps FlatAnimModel FlatAnimProps FbxModel FbxProps PipelineModel.
From Coq Require Import Sorting.Sorted.
Local Open Scope Z_scope.

(** ** The specification *)
Definition scene_name (n : scene_node) : list Z := match n with SceneNode name _ _ _ => name end.
Definition scene_data (n : scene_node) : fbx_data := match n with SceneNode _ _ f _ => f end.
Definition scene_children (n : scene_node) : list scene_node := match n with SceneNode _ _ _ cs => cs end.
(** The nodes on and below a node, depth first. *)
Fixpoint scene_nodes (n : scene_node) : list scene_node :=
  match n with SceneNode _ _ _ cs => n :: (fix all l := match l with [] => [] | c :: r => scene_nodes c ++ all r end) cs end.
(** The node, or one below it, has a skeleton or a mesh. *)
Definition bone_node (n : scene_node) : bool := need_bone (skeleton_of n).
(** The nodes that become bones (C84), in the order of the bones. *)
Definition scene_bones (roots : list scene_node) : list scene_node := filter bone_node (flat_map scene_nodes roots).
(** The channels of a node exported on its own. *)
Definition exported_alone (ms : Z -> Z) (nu : bool) (span : Z * Z) (t : tolerances) (f : fbx_data) (chs : list channel) : Prop :=
  exists d, gather_node ms f nu span (AnimData [Bone [] (-1) []] 0 t false) = Some d /\ cur_channels d = Some chs.
(** Some bone above the bone has channels. *)
Inductive below_animated (d : anim_data) : Z -> Prop :=
| parent_animated i b pb : getz (ad_bones d) i = Some b -> getz (ad_bones d) (bn_parent b) = Some pb -> bn_channels pb <> [] -> below_animated d i
| further_animated i b : getz (ad_bones d) i = Some b -> below_animated d (bn_parent b) -> below_animated d i.

(** ** The channels of a node *)
Section Node.
Context (ms : Z -> Z) (nu : bool) (span : Z * Z) (t : tolerances) (f : fbx_data).
Fixpoint prop_adds (l : list (FbxModel.fbx_name * Z * mtype * bool)) : option (list (list channel)) :=
  match l with
  | [] => Some []
  | (name, id, op, inv) :: r =>
      if three_channels (fd_property f name) then order <- channel_order (fd_order f) op inv ;; u <- map_opt (slot_adds ms t f span) (slots_of name op inv order id) ;; v <- prop_adds r ;; Some (u ++ v)
      else prop_adds r
  end.
Lemma gather_props d0 : ad_tol d0 = t -> forall l chs d, set_cur_channels d0 chs = Some d -> gather_properties ms f span l d = (r <- prop_adds l ;; set_cur_channels d0 (chs ++ concat r)).
Proof.
  intros T. induction l as [|[[[name id] op] inv] r IH]; intros chs d H; cbn [gather_properties prop_adds]; [cbn; now rewrite app_nil_r, H|]. cbv zeta. destruct (three_channels (fd_property f name)); [|now apply IH].
  destruct (channel_order (fd_order f) op inv) as [o|]; [|reflexivity]. rewrite (gather_channels_eq ms t f name op inv span d0 T _ _ _ _ H). destruct (map_opt _ _) as [u|]; [|reflexivity]. destruct (set_cur_total _ _ _ (chs ++ concat u) H) as [d1 D1]. rewrite D1, (IH _ _ D1). destruct (prop_adds r) as [v|]; [|reflexivity]. now rewrite concat_app, app_assoc.
Qed.
Definition present (p : FbxModel.fbx_name * Z * mtype * bool) : bool := let '(name, _, _, _) := p in three_channels (fd_property f name).
Lemma prop_slots : forall l r, prop_adds l = Some r -> Forall2 (fun s x => slot_adds ms t f span s = Some x) (slots (fd_order f) (filter present l)) r.
Proof.
  induction l as [|[[[name id] op] inv] l IH]; intros r E; cbn [prop_adds filter present] in *; [injection E as <-; constructor|]. destruct (three_channels (fd_property f name)); [|now apply IH]. destruct (channel_order (fd_order f) op inv) as [o|] eqn:CO; [|discriminate]. destruct (map_opt _ _) as [u|] eqn:MO; [|discriminate]. destruct (prop_adds l) as [v|]; [|discriminate]. injection E as <-.
  unfold slots. cbn [flat_map]. rewrite CO. apply Forall2_app; [now apply map_opt_Forall2|]. now apply IH.
Qed.
Definition node_channels : option (list channel) := r <- prop_adds kProperties ;; b <- prune_bone t nu (Bone [] (-1) (concat r)) ;; Some (bn_channels b).
End Node.

Lemma pairs_filter {A B} (P : A -> A -> Prop) (g : B -> list A) (h : B -> bool) : forall l, ForallOrdPairs P (flat_map g l) -> ForallOrdPairs P (flat_map g (filter h l)).
Proof.
  induction l as [|x l IH]; intros H; [constructor|]. cbn [flat_map filter] in *. apply pairs_app in H. destruct H as (H1 & H2 & H3). destruct (h x); [|now apply IH]. cbn [flat_map]. apply pairs_app. split; [exact H1|]. split; [now apply IH|]. intros a b Ia Ib. apply H3; [exact Ia|]. apply in_flat_map in Ib. destruct Ib as (y & Y & Ib). apply filter_In in Y. apply in_flat_map. exists y. tauto.
Qed.
Definition pair_okb (c d : channel) : bool :=
  (translate_kind (ch_op c) && translate_kind (ch_op d) || (ch_id c <? ch_id d) && (is_axis (ch_op d) || (ch_id c + room (ch_op c) <? ch_id d))) &&
  (negb (scale_kind (ch_op c)) || negb (scale_kind (ch_op d)) || is_axis (ch_op c) && is_axis (ch_op d) && negb (mtype_eqb (ch_op c) (ch_op d))).
Lemma translate_kind_ok op : translate_kind op = true -> translates op.
Proof. unfold translates. destruct op; try discriminate; tauto. Qed.
Lemma is_axis_ok op : is_axis op = true -> axis_scale op.
Proof. unfold axis_scale. destruct op; try discriminate; tauto. Qed.
Lemma scales_kind op : scales op -> scale_kind op = true.
Proof. intros [[-> |[-> | ->]]| ->]; reflexivity. Qed.
Lemma pair_okb_ok c d : pair_okb c d = true -> pair_ok c d.
Proof.
  unfold pair_okb. rewrite andb_true_iff. intros [H1 H2]. split.
  - apply orb_true_iff in H1. destruct H1 as [H1|H1]; apply andb_true_iff in H1; destruct H1 as [A B]; [left; split; now apply translate_kind_ok|]. right. split; [lia|]. apply orb_true_iff in B. destruct B as [B|B]; [left; now apply is_axis_ok|right; lia].
  - intros S1 S2. rewrite (scales_kind _ S1), (scales_kind _ S2) in H2. cbn [negb orb] in H2. rewrite !andb_true_iff in H2. destruct H2 as [[A B] C]. apply is_axis_ok in A. apply is_axis_ok in B. repeat split; auto. intros E. rewrite E in C. destruct B as [B|[B|B]]; rewrite B in C; discriminate C.
Qed.
Definition one_okb (s : slot) : bool := (rotate_kind (slot_mtype s) || translate_kind (slot_mtype s) || is_axis (slot_mtype s)) && (0 <=? sl_id s) && (sl_id s <=? 252).
Lemma slots_order order : pairsb pair_okb (map slot_key (slots order kProperties)) = true /\ forallb one_okb (slots order kProperties) = true.
Proof.
  destruct (Z_lt_le_dec order 0) as [L|L]; [|destruct (Z_lt_le_dec 6 order) as [G|G]].
  - unfold slots, kProperties, channel_order. cbn [flat_map rotate_kind]. rewrite !getz_None by (cbn; lia). split; vm_compute; reflexivity.
  - unfold slots, kProperties, channel_order. cbn [flat_map rotate_kind]. rewrite !getz_None by (cbn; lia). split; vm_compute; reflexivity.
  - assert (O : order = 0 \/ order = 1 \/ order = 2 \/ order = 3 \/ order = 4 \/ order = 5 \/ order = 6) by lia. destruct O as [-> |[-> |[-> |[-> |[-> |[-> | ->]]]]]]; split; vm_compute; reflexivity.
Qed.
Lemma keyed_pair_ok : keyed pair_ok.
Proof. intros c c' d d' E1 E2 E3 E4 [H1 H2]. unfold pair_ok, by_id, scale_once in *. rewrite E1, E2, E3, E4. auto. Qed.
Lemma node_regular ms span t f r : prop_adds ms span t f kProperties = Some r -> regular (concat r).
Proof.
  intros E. apply prop_slots in E. destruct (slots_order (fd_order f)) as [H1 H2]. rewrite forallb_forall in H2.
  assert (ON : forall c, In c (concat r) -> (rotates (ch_op c) \/ translates (ch_op c) \/ axis_scale (ch_op c)) /\ 0 <= ch_id c <= 252).
  { intros c Ic. destruct (in_gathered _ _ _ _ _ _ _ E Ic) as (s & S1 & S2 & S3). assert (K : In s (slots (fd_order f) kProperties)). { unfold slots in *. apply in_flat_map in S1. destruct S1 as (p & P1 & P2). apply filter_In in P1. apply in_flat_map. exists p. tauto. }
    specialize (H2 s K). unfold one_okb in H2. rewrite <- S2, <- S3 in H2. rewrite !andb_true_iff, !orb_true_iff in H2. destruct H2 as [[H2 A] B]. split; [|lia]. unfold rotates, translates, axis_scale. destruct (ch_op c); cbn in H2; try (exfalso; intuition discriminate); tauto. }
  constructor.
  - intros c Ic. destruct (ON c Ic) as [[O|[O|O]] _]; auto. right. right. now left.
  - apply (gathered_pairs ms t f span pair_ok keyed_pair_ok _ _ E). apply (pairsb_ok _ _ pair_okb_ok) in H1. revert H1. unfold slots. generalize (fun p : FbxModel.fbx_name * Z * mtype * bool => let '(name, id, op, inv) := p in slots_of name op inv (match channel_order (fd_order f) op inv with Some o => o | None => [] end) id). intros g.
    assert (M : forall l, map slot_key (flat_map g l) = flat_map (fun p => map slot_key (g p)) l) by (induction l as [|x l IH]; [reflexivity|]; cbn [flat_map]; now rewrite map_app, IH). rewrite !M. apply pairs_filter.
  - intros c Ic _. destruct (ON c Ic) as [_ I]. unfold room. destruct (ch_op c); lia.
Qed.
Lemma prune_named t nu n p n' p' chs : prune_bone t nu (Bone n p chs) = (b <- prune_bone t nu (Bone n' p' chs) ;; Some (Bone n p (bn_channels b))).
Proof. unfold prune_bone. cbn [bn_channels bn_name bn_parent]. destruct (prune_loop _ _ _ _); reflexivity. Qed.
(** What a node adds is not changed by pruning again. *)
Lemma node_again ms nu span t f chs n p : node_channels ms nu span t f = Some chs -> prune_bone t nu (Bone n p chs) = Some (Bone n p chs).
Proof.
  unfold node_channels. destruct (prop_adds _ _ _ _ _) as [r|] eqn:PA; [|discriminate]. destruct (prune_bone t nu _) as [b|] eqn:PB; [|discriminate]. intros E. injection E as <-. rewrite (prune_named _ _ n p (bn_name b) (bn_parent b)). replace (Bone (bn_name b) (bn_parent b) (bn_channels b)) with b by now destruct b.
  rewrite (C103_prune_again t nu (Bone [] (-1) (concat r)) b (node_regular _ _ _ _ _ PA) PB). reflexivity.
Qed.
Lemma set_cur_split d b X Y chs : getz (ad_bones d) (ad_cur d) = Some b -> ad_bones d = X ++ b :: Y -> len X = ad_cur d -> set_cur_channels d chs = Some (with_bones d (X ++ Bone (bn_name b) (bn_parent b) chs :: Y)).
Proof. intros B E L. unfold set_cur_channels. rewrite B, E, setz_app by (now symmetry). reflexivity. Qed.
Lemma gather_node_eq ms nu span f d : cur_channels d = Some [] -> others_pruned nu d -> gather_node ms f nu span d = (chs <- node_channels ms nu span (ad_tol d) f ;; set_cur_channels d chs).
Proof.
  intros CC OP. unfold cur_channels in CC. destruct (getz (ad_bones d) (ad_cur d)) as [b|] eqn:B; [|discriminate]. injection CC as CC. destruct (getz_split _ _ _ B) as (X & Y & E & L). assert (L' : len X = ad_cur d) by lia.
  assert (D0 : set_cur_channels d [] = Some d). { rewrite (set_cur_split d b X Y [] B E L'). rewrite <- CC. replace (Bone (bn_name b) (bn_parent b) (bn_channels b)) with b by (now destruct b). rewrite <- E. now destruct d. }
  unfold gather_node. rewrite (gather_props ms span (ad_tol d) f d eq_refl kProperties [] d D0). unfold node_channels. destruct (prop_adds _ _ _ _ _) as [r|]; [|reflexivity]. cbn [app]. rewrite (set_cur_split d b X Y _ B E L'). unfold prune_channels. cbn [with_bones ad_bones ad_tol ad_cur ad_root_only].
  assert (FX : map_opt (prune_bone (ad_tol d) nu) X = Some X).
  { apply map_opt_fixed. intros y Iy. apply In_nth_error in Iy. destruct Iy as (k & K). assert (KL : (k < length X)%nat) by (apply nth_error_Some; congruence). apply (OP (Z.of_nat k)); [unfold len in L; lia|]. rewrite E. unfold getz. replace (Z.of_nat k <? 0) with false by lia. rewrite Nat2Z.id, nth_error_app1 by exact KL. exact K. }
  assert (FY : map_opt (prune_bone (ad_tol d) nu) Y = Some Y).
  { apply map_opt_fixed. intros y Iy. apply In_nth_error in Iy. destruct Iy as (k & K). assert (KL : (k < length Y)%nat) by (apply nth_error_Some; congruence). apply (OP (len X + 1 + Z.of_nat k)); [lia|]. rewrite E. replace (len X + 1 + Z.of_nat k) with (len X + (1 + Z.of_nat k)) by lia. rewrite getz_app_at by lia.
    unfold getz. replace (1 + Z.of_nat k <? 0) with false by lia. replace (Z.to_nat (1 + Z.of_nat k)) with (S k) by lia. exact K. }
  rewrite map_opt_app, FX. cbn [map_opt]. rewrite (prune_named _ _ (bn_name b) (bn_parent b) [] (-1)). destruct (prune_bone (ad_tol d) nu (Bone [] (-1) (concat r))) as [b'|]; [|reflexivity]. rewrite FY. rewrite (set_cur_split d b X Y _ B E L'). reflexivity.
Qed.
Lemma alone_eq ms nu span t f chs : exported_alone ms nu span t f chs <-> node_channels ms nu span t f = Some chs.
Proof.
  unfold exported_alone. rewrite gather_node_eq; [|reflexivity|]. 2:{ intros i b I G. apply getz_Some in G. cbn in I, G. lia. }
  cbn [ad_tol]. destruct (node_channels ms nu span t f) as [c|]; [|split; [intros (d & E & _); discriminate|discriminate]]. unfold set_cur_channels. cbn. split.
  - intros (d & E & CC). injection E as <-. cbn in CC. now injection CC as <-.
  - intros E. injection E as <-. eexists. split; reflexivity.
Qed.

(** ** Trees of bones *)
Fixpoint bone_ind2 (P : fbx_bone -> Prop) (H : forall i f cs, Forall P cs -> P (FbxBone i f cs)) (n : fbx_bone) : P n :=
  match n with FbxBone i f cs => H i f cs ((fix all l : Forall P l := match l with [] => Forall_nil P | c :: r => Forall_cons c (bone_ind2 P H c) (all r) end) cs) end.
(** The bones of the tree have the indices from [i] to [j - 1], depth first. *)
Inductive numbered : fbx_bone -> Z -> Z -> Prop :=
| num_bone i f cs j : numbered_all cs (i + 1) j -> numbered (FbxBone i f cs) i j
with numbered_all : list fbx_bone -> Z -> Z -> Prop :=
| num_nil i : numbered_all [] i i
| num_cons n r i j k : numbered n i j -> numbered_all r j k -> numbered_all (n :: r) i k.
Lemma numbered_le : forall n i j, numbered n i j -> i < j.
Proof.
  apply (bone_ind2 (fun n => forall i j, numbered n i j -> i < j)). intros k f cs H i j N. inversion N as [? ? ? ? A]; subst. enough (i + 1 <= j) by lia. revert A. generalize (i + 1). clear N. induction H as [|c cs C H IH]; intros m A; inversion A as [|? ? ? m' ? A1 A2]; subst; [lia|]. apply C in A1. apply IH in A2. lia.
Qed.
Lemma numbered_all_le : forall l i j, numbered_all l i j -> i <= j.
Proof. induction l as [|n l IH]; intros i j A; inversion A as [|? ? ? m' ? A1 A2]; subst; [lia|]. apply numbered_le in A1. apply IH in A2. lia. Qed.
Section Told.
Context (A : fbx_data -> list channel -> Prop) (ro : bool).
Section Chans.
Context (chs : Z -> list channel).
Inductive blank : fbx_bone -> Prop := blank_bone i f cs : chs i = [] -> Forall blank cs -> blank (FbxBone i f cs).
Definition descends (i : Z) : bool := negb ro || (len (chs i) =? 0).
Inductive told : fbx_bone -> Prop := told_bone i f cs : A f (chs i) -> (descends i = true -> Forall told cs) -> (descends i = false -> Forall blank cs) -> told (FbxBone i f cs).
End Chans.
Lemma list_ext_from (P : (Z -> list channel) -> fbx_bone -> Prop) c1 c2 : forall l i j, Forall (fun n => forall i j, numbered n i j -> (forall k, i <= k < j -> c1 k = c2 k) -> P c1 n -> P c2 n) l -> numbered_all l i j -> (forall k, i <= k < j -> c1 k = c2 k) -> Forall (P c1) l -> Forall (P c2) l.
Proof.
  induction l as [|n l IH]; intros i j H NA E F; [constructor|]. inversion H as [|? ? H1 H2]; subst. inversion NA as [|? ? ? m ? N1 N2]; subst. inversion F as [|? ? F1 F2]; subst. pose proof (numbered_le _ _ _ N1). pose proof (numbered_all_le _ _ _ N2). constructor.
  - apply (H1 i m N1); [|exact F1]. intros k K. apply E. lia.
  - apply (IH m j H2 N2); [|exact F2]. intros k K. apply E. lia.
Qed.
Lemma blank_ext c1 c2 : forall n i j, numbered n i j -> (forall k, i <= k < j -> c1 k = c2 k) -> blank c1 n -> blank c2 n.
Proof.
  apply (bone_ind2 (fun n => forall i j, numbered n i j -> (forall k, i <= k < j -> c1 k = c2 k) -> blank c1 n -> blank c2 n)). intros q f cs H i j N E B. inversion N as [? ? ? ? NA]; subst. inversion B as [? ? ? B1 B2]; subst. pose proof (numbered_all_le _ _ _ NA). constructor; [rewrite <- E by lia; exact B1|].
  apply (list_ext_from blank c1 c2 cs (i + 1) j H NA); [|exact B2]. intros k K. apply E. lia.
Qed.
Lemma told_ext c1 c2 : forall n i j, numbered n i j -> (forall k, i <= k < j -> c1 k = c2 k) -> told c1 n -> told c2 n.
Proof.
  apply (bone_ind2 (fun n => forall i j, numbered n i j -> (forall k, i <= k < j -> c1 k = c2 k) -> told c1 n -> told c2 n)). intros q f cs H i j N E B. inversion N as [? ? ? ? NA]; subst. inversion B as [? ? ? B1 B2 B3]; subst. pose proof (numbered_all_le _ _ _ NA). assert (EI : c1 i = c2 i) by (apply E; lia). constructor.
  - rewrite <- EI. exact B1.
  - intros D. apply (list_ext_from told c1 c2 cs (i + 1) j H NA); [intros k K; apply E; lia|]. apply B2. unfold descends in *. now rewrite EI.
  - intros D. apply (list_ext_from blank c1 c2 cs (i + 1) j); [|exact NA|intros k K; apply E; lia|apply B3; unfold descends in *; now rewrite EI]. rewrite Forall_forall. intros n _. apply blank_ext.
Qed.
Lemma blank_when c : forall n i j, numbered n i j -> (forall k, i <= k < j -> c k = []) -> blank c n.
Proof.
  apply (bone_ind2 (fun n => forall i j, numbered n i j -> (forall k, i <= k < j -> c k = []) -> blank c n)). intros q f cs H i j N E. inversion N as [? ? ? ? NA]; subst. pose proof (numbered_all_le _ _ _ NA) as LE. constructor; [apply E; lia|]. assert (E' : forall k, i + 1 <= k < j -> c k = []) by (intros k K; apply E; lia). clear N E LE. revert NA E'. generalize (i + 1).
  induction H as [|n cs C H IH]; intros m NA E; [constructor|]. inversion NA as [|? ? ? m' ? N1 N2]; subst. pose proof (numbered_le _ _ _ N1). pose proof (numbered_all_le _ _ _ N2). constructor; [apply (C m m' N1)|apply (IH m' N2)]; intros k K; apply E; lia.
Qed.
Lemma blank_all c : forall l i j, numbered_all l i j -> (forall k, i <= k < j -> c k = []) -> Forall (blank c) l.
Proof.
  induction l as [|n l IH]; intros i j NA E; [constructor|]. inversion NA as [|? ? ? m ? N1 N2]; subst. pose proof (numbered_le _ _ _ N1). pose proof (numbered_all_le _ _ _ N2). constructor; [apply (blank_when c n i m N1)|apply (IH m j N2)]; intros k K; apply E; lia.
Qed.
End Told.

(** ** The third pass *)
Definition chans (d : anim_data) (i : Z) : list channel := match getz (ad_bones d) i with Some b => bn_channels b | None => [] end.
Definition bone_key (b : bone) : list Z * Z := (bn_name b, bn_parent b).
Definition kept (nu : bool) (d : anim_data) : Prop := forall b, In b (ad_bones d) -> prune_bone (ad_tol d) nu b = Some b.
Definition ready (nu : bool) (d : anim_data) (i j : Z) : Prop := ad_cur d = -1 /\ 0 <= i /\ j <= len (ad_bones d) /\ (forall k, i <= k < j -> chans d k = []) /\ kept nu d.
Definition stepped (nu : bool) (d d' : anim_data) (i j : Z) : Prop :=
  ad_cur d' = -1 /\ ad_tol d' = ad_tol d /\ ad_root_only d' = ad_root_only d /\ map bone_key (ad_bones d') = map bone_key (ad_bones d) /\ (forall k, ~ (i <= k < j) -> getz (ad_bones d') k = getz (ad_bones d) k) /\ kept nu d'.
Lemma key_len d d' : map bone_key (ad_bones d') = map bone_key (ad_bones d) -> len (ad_bones d') = len (ad_bones d).
Proof. intros E. rewrite <- (len_map bone_key (ad_bones d')), <- (len_map bone_key (ad_bones d)). now rewrite E. Qed.
Fixpoint gather_each (ms : Z -> Z) (nu : bool) (span : Z * Z) (l : list fbx_bone) (e : anim_data) : option anim_data :=
  match l with [] => Some e | c :: r => e' <- gather_anim ms nu span c e ;; gather_each ms nu span r e' end.
Lemma gather_each_eq ms nu span : forall l d, gather_anims ms nu span l d = gather_each ms nu span l d.
Proof. induction l as [|n l IH]; intros d; [reflexivity|]. cbn [gather_anims gather_each]. destruct (gather_anim ms nu span n d); [apply IH|reflexivity]. Qed.
Lemma gather_anim_eq ms nu span i f cs d : gather_anim ms nu span (FbxBone i f cs) d =
  (d1 <- set_cur_bone d i ;; d2 <- gather_node ms f nu span d1 ;; r <- should_recurse (reset_cur_bone d2) i ;; if r then gather_each ms nu span cs (reset_cur_bone d2) else Some (reset_cur_bone d2)).
Proof.
  cbn [gather_anim]. destruct (set_cur_bone d i) as [d1|]; [|reflexivity]. destruct (gather_node ms f nu span d1) as [d2|]; [|reflexivity]. destruct (should_recurse _ i) as [r|]; [|reflexivity]. destruct r; [|reflexivity]. generalize (reset_cur_bone d2). induction cs as [|c cs IH]; intros e; [reflexivity|]. cbn [gather_each]. destruct (gather_anim ms nu span c e); [apply IH|reflexivity].
Qed.
Section Pass.
Context (ms : Z -> Z) (nu : bool) (span : Z * Z).
Lemma bone_step d i f j : ready nu d i j -> i < j ->
  (d1 <- set_cur_bone d i ;; gather_node ms f nu span d1) = (chs <- node_channels ms nu span (ad_tol d) f ;; d1 <- set_cur_bone d i ;; set_cur_channels d1 chs).
Proof.
  intros (CU & I0 & J & EM & KP) LT. unfold set_cur_bone. replace ((0 <=? i) && (i <? len (ad_bones d))) with true by lia. rewrite CU. cbn [Z.eqb Pos.eqb]. rewrite gather_node_eq; [cbn [ad_tol]; reflexivity| |].
  - unfold cur_channels. cbn [ad_bones ad_cur]. destruct (getz_in_range (ad_bones d) i ltac:(lia)) as [b B]. specialize (EM i ltac:(lia)). unfold chans in EM. rewrite B in *. now rewrite EM.
  - intros k b K G. cbn [ad_bones ad_cur ad_tol] in *. apply KP. unfold getz in G. destruct (k <? 0); [discriminate|]. now apply nth_error_In in G.
Qed.
Lemma bone_done d i f j d2 chs : ready nu d i j -> i < j -> node_channels ms nu span (ad_tol d) f = Some chs -> (d1 <- set_cur_bone d i ;; set_cur_channels d1 chs) = Some d2 ->
  chans (reset_cur_bone d2) i = chs /\ stepped nu d (reset_cur_bone d2) i (i + 1).
Proof.
  intros (CU & I0 & J & EM & KP) LT NC. unfold set_cur_bone. replace ((0 <=? i) && (i <? len (ad_bones d))) with true by lia. rewrite CU. cbn [Z.eqb Pos.eqb]. destruct (getz_in_range (ad_bones d) i ltac:(lia)) as [b B]. destruct (getz_split _ _ _ B) as (X & Y & E & L).
  rewrite (set_cur_split (AnimData (ad_bones d) i (ad_tol d) (ad_root_only d)) b X Y chs B E) by (cbn; lia). intros H. injection H as <-. unfold stepped, chans. cbn [reset_cur_bone with_bones ad_bones ad_cur ad_tol ad_root_only]. split; [rewrite getz_app by lia; reflexivity|]. split; [reflexivity|]. split; [reflexivity|]. split; [reflexivity|]. split; [|split].
  - rewrite E, !map_app. cbn [map]. reflexivity.
  - intros k K. rewrite E. assert (SZ : setz (X ++ b :: Y) i (Bone (bn_name b) (bn_parent b) chs) = Some (X ++ Bone (bn_name b) (bn_parent b) chs :: Y)) by (apply setz_app; lia). apply (getz_setz_neq _ _ _ _ _ SZ). lia.
  - intros y Iy. cbn [ad_bones ad_tol] in *. apply in_app_or in Iy. destruct Iy as [Iy|[<-|Iy]]; [apply KP; rewrite E; apply in_or_app; now left|exact (node_again _ _ _ _ _ _ _ _ NC)|apply KP; rewrite E; apply in_or_app; right; now right].
Qed.
Lemma stepped_trans d1 d2 d3 i j k : i <= j <= k -> stepped nu d1 d2 i j -> stepped nu d2 d3 j k -> stepped nu d1 d3 i k.
Proof.
  intros LE (A1 & A2 & A3 & A4 & A5 & A6) (B1 & B2 & B3 & B4 & B5 & B6). unfold stepped. rewrite B2, A2, B3, A3, B4, A4. repeat (split; [first [reflexivity|assumption]|]). split; [|exact B6]. intros x X. rewrite B5, A5 by lia. reflexivity.
Qed.
Lemma stepped_wide d1 d2 i j k : j <= k -> stepped nu d1 d2 i j -> stepped nu d1 d2 i k.
Proof. intros LE (A1 & A2 & A3 & A4 & A5 & A6). repeat (split; [assumption|]). split; [|exact A6]. intros x X. apply A5. lia. Qed.
Lemma ready_after d d' i j k : 0 <= j -> i <= j -> ready nu d i k -> stepped nu d d' i j -> ready nu d' j k.
Proof.
  intros J0 IJ (CU & I0 & J & EM & KP) (A1 & A2 & A3 & A4 & A5 & A6). repeat (split; [first [assumption|lia]|]). split; [rewrite (key_len _ _ A4); lia|]. split; [|exact A6]. intros x X. unfold chans. rewrite A5 by lia. apply EM. lia.
Qed.
Definition one_ok (n : fbx_bone) : Prop := forall i j d d', numbered n i j -> ready nu d i j -> gather_anim ms nu span n d = Some d' ->
  stepped nu d d' i j /\ told (fun f c => node_channels ms nu span (ad_tol d) f = Some c) (ad_root_only d) (chans d') n.
Lemma each_ok : forall l, Forall one_ok l -> forall i j d d', numbered_all l i j -> 0 <= i -> ready nu d i j -> gather_each ms nu span l d = Some d' ->
  stepped nu d d' i j /\ Forall (told (fun f c => node_channels ms nu span (ad_tol d) f = Some c) (ad_root_only d) (chans d')) l.
Proof.
  induction 1 as [|n l N H IH]; intros i j d d' NA I0 RD E; inversion NA as [|? ? ? m ? N1 N2]; subst; cbn [gather_each] in E.
  - injection E as <-. split; [|constructor]. destruct RD as (CU & _ & J & EM & KP). unfold stepped. auto 8.
  - pose proof (numbered_le _ _ _ N1). pose proof (numbered_all_le _ _ _ N2). destruct (gather_anim ms nu span n d) as [d1|] eqn:G; [|discriminate]. assert (RD1 : ready nu d i m) by (destruct RD as (CU & _ & J & EM & KP); repeat (split; [first [assumption|lia]|]); split; [intros k K; apply EM; lia|exact KP]).
    destruct (N i m d d1 N1 RD1 G) as [S1 T1]. destruct (IH m j d1 d' N2 ltac:(lia) (ready_after d d1 i m j ltac:(lia) ltac:(lia) RD S1) E) as [S2 T2]. split; [apply (stepped_trans d d1 d' i m j); auto; lia|]. pose proof S1 as (A1 & A2 & A3 & A4 & A5 & A6). pose proof S2 as (B1 & B2 & B3 & B4 & B5 & B6). rewrite A2, A3 in T2. constructor; [|exact T2].
    apply (told_ext _ _ (chans d1) (chans d') n i m N1); [|exact T1]. intros k K. unfold chans. now rewrite B5 by lia.
Qed.
Lemma tree_ok : forall n, one_ok n.
Proof.
  apply bone_ind2. intros q f cs H i j d d' N RD E. inversion N as [? ? ? ? NA]; subst. pose proof (numbered_all_le _ _ _ NA) as LE. rewrite gather_anim_eq in E. pose proof (bone_step d i f j RD ltac:(lia)) as BS.
  destruct (set_cur_bone d i) as [d1|] eqn:SC; [|discriminate]. destruct (gather_node ms f nu span d1) as [d2|]; [|discriminate]. destruct (node_channels ms nu span (ad_tol d) f) as [chs|] eqn:NC; [|discriminate].
  destruct (bone_done d i f j d2 chs RD ltac:(lia) NC) as [CH ST]; [rewrite SC; now symmetry|]. set (d3 := reset_cur_bone d2) in *. pose proof ST as (A1 & A2 & A3 & A4 & A5 & A6). assert (I0 : 0 <= i) by apply RD.
  assert (SR : should_recurse d3 i = Some (descends (ad_root_only d) (chans d3) i)).
  { unfold should_recurse, descends, chans. pose proof (key_len _ _ A4). destruct RD as (_ & _ & J & _). destruct (getz_in_range (ad_bones d3) i ltac:(lia)) as [b B]. rewrite B, A3. reflexivity. }
  rewrite SR in E. destruct (descends (ad_root_only d) (chans d3) i) eqn:DS.
  - destruct (each_ok cs H (i + 1) j d3 d' NA ltac:(lia) (ready_after d d3 i (i + 1) j ltac:(lia) ltac:(lia) RD ST) E) as [S2 T2]. split; [apply (stepped_trans d d3 d' i (i + 1) j); auto; lia|]. pose proof S2 as (B1 & B2 & B3 & B4 & B5 & B6). rewrite A2, A3 in T2.
    assert (CI : chans d' i = chans d3 i) by (unfold chans; now rewrite B5 by lia). constructor; [rewrite CI, CH; exact NC|intros _; exact T2|]. unfold descends in *. rewrite CI, DS. discriminate.
  - assert (d' = d3) as -> by congruence. split; [apply (stepped_wide d d3 i (i + 1) j); auto; lia|]. constructor; [rewrite CH; exact NC|intros DS'; exfalso; change (descends (ad_root_only d) (chans d3) i = true) in DS'; congruence|]. intros _. apply (blank_all (fun _ _ => True) (chans d3) cs (i + 1) j NA). intros k K. destruct RD as (_ & _ & _ & EM & _). unfold chans. rewrite A5 by lia. apply EM. lia.
Qed.
End Pass.

(** ** The numbers of the bones *)
Fixpoint scene_ind2 (P : scene_node -> Prop) (H : forall name s f cs, Forall P cs -> P (SceneNode name s f cs)) (n : scene_node) : P n :=
  match n with SceneNode name s f cs => H name s f cs ((fix all l : Forall P l := match l with [] => Forall_nil P | c :: r => Forall_cons c (scene_ind2 P H c) (all r) end) cs) end.
Lemma label_eq name s f cs next : label (SceneNode name s f cs) next = if bone_node (SceneNode name s f cs) then let '(bs, k) := labels cs (next + 1) in ([FbxBone next f bs], k) else ([], next).
Proof.
  unfold bone_node. cbn [label]. destruct (need_bone _); [|reflexivity]. generalize (next + 1). intros m. set (each := fix each l k := match l with [] => ([], k) | c :: r => let '(b, k1) := label c k in let '(bs, k2) := each r k1 in (b ++ bs, k2) end). assert (E : forall l k, each l k = labels l k). { induction l as [|c l IH]; intros k; [reflexivity|]. change (each (c :: l) k) with (let '(b, k1) := label c k in let '(bs, k2) := each l k1 in (b ++ bs, k2)). cbn [labels]. destruct (label c k) as [b k1]. now rewrite IH. } now rewrite E.
Qed.
Lemma scene_nodes_eq n : scene_nodes n = n :: flat_map scene_nodes (scene_children n).
Proof. destruct n as [name s f cs]. reflexivity. Qed.
Fixpoint spots (n : fbx_bone) : list (Z * fbx_data) := match n with FbxBone i f cs => (i, f) :: (fix all l := match l with [] => [] | c :: r => spots c ++ all r end) cs end.
Lemma spots_eq i f cs : spots (FbxBone i f cs) = (i, f) :: flat_map spots cs.
Proof. reflexivity. Qed.
(** The bones of the tree have the parents that the tree says. *)
Inductive rooted (B : list bone) : Z -> fbx_bone -> Prop := rooted_bone par i f cs b : getz B i = Some b -> bn_parent b = par -> Forall (rooted B i) cs -> rooted B par (FbxBone i f cs).
Lemma rooted_app B X : forall n par, rooted B par n -> rooted (B ++ X) par n.
Proof.
  apply (bone_ind2 (fun n => forall par, rooted B par n -> rooted (B ++ X) par n)). intros i f cs H par K. inversion K as [? ? ? ? b G E F]; subst. apply (rooted_bone _ _ i f cs b); [pose proof (getz_Some _ _ _ G); now rewrite getz_app1 by lia|reflexivity|]. clear K G. induction F as [|c cs C F IH]; [constructor|]. inversion H as [|? ? H1 H2]; subst. constructor; [now apply H1|now apply IH].
Qed.
Lemma below_bones n : bone_node n = false -> filter bone_node (scene_nodes n) = [].
Proof.
  revert n. apply (scene_ind2 (fun n => bone_node n = false -> filter bone_node (scene_nodes n) = [])). intros name s f cs H N. rewrite scene_nodes_eq. cbn [filter scene_children]. rewrite N. unfold bone_node in N. cbn [skeleton_of] in N. rewrite need_bone_eq in N. apply orb_false_iff in N. destruct N as [_ N].
  induction H as [|c cs C H IH]; [reflexivity|]. cbn [flat_map map existsb] in *. apply orb_false_iff in N. destruct N as [N1 N2]. rewrite filter_app, (C N1), (IH N2). reflexivity.
Qed.
Definition label_good (n : scene_node) : Prop := forall parent d, let e := gather_bones (skeleton_of n) parent d in
  numbered_all (fst (label n (len (ad_bones d)))) (len (ad_bones d)) (snd (label n (len (ad_bones d)))) /\ len (ad_bones e) = snd (label n (len (ad_bones d))) /\
  Forall (rooted (ad_bones e) parent) (fst (label n (len (ad_bones d)))) /\ map snd (flat_map spots (fst (label n (len (ad_bones d))))) = map scene_data (filter bone_node (scene_nodes n)).
Lemma numbered_app : forall a b i j k, numbered_all a i j -> numbered_all b j k -> numbered_all (a ++ b) i k.
Proof. induction a as [|n a IH]; intros b i j k A B; inversion A as [|? ? ? m ? A1 A2]; subst; [exact B|]. cbn [app]. apply num_cons with m; [exact A1|]. now apply (IH b m j k). Qed.
Lemma labels_good : forall cs, Forall label_good cs -> forall parent d, let e := gather_list (map skeleton_of cs) parent d in
  numbered_all (fst (labels cs (len (ad_bones d)))) (len (ad_bones d)) (snd (labels cs (len (ad_bones d)))) /\ len (ad_bones e) = snd (labels cs (len (ad_bones d))) /\
  Forall (rooted (ad_bones e) parent) (fst (labels cs (len (ad_bones d)))) /\ map snd (flat_map spots (fst (labels cs (len (ad_bones d))))) = map scene_data (filter bone_node (flat_map scene_nodes cs)).
Proof.
  induction 1 as [|c cs C H IH]; intros parent d; cbv zeta.
  - cbn. repeat split; constructor.
  - cbn [map gather_list labels flat_map]. destruct (C parent d) as (N1 & L1 & R1 & S1). destruct (IH parent (gather_bones (skeleton_of c) parent d)) as (N2 & L2 & R2 & S2). rewrite L1 in N2, L2, R2, S2. destruct (label c (len (ad_bones d))) as [b k1]. cbn [fst snd] in *. destruct (labels cs k1) as [bs k2]. cbn [fst snd] in *.
    split; [now apply (numbered_app b bs _ k1)|]. split; [exact L2|]. split; [|rewrite flat_map_app, filter_app, !map_app, S1, S2; reflexivity]. apply Forall_app. split; [|exact R2].
    destruct (list_added (map skeleton_of cs) ltac:(apply Forall_forall; intros n _; apply tree_added) parent (gather_bones (skeleton_of c) parent d)) as (X & E & _). rewrite E. rewrite Forall_forall in *. intros n In_. apply rooted_app. now apply R1.
Qed.
Lemma label_all_good : forall n, label_good n.
Proof.
  apply scene_ind2. intros name s f cs H parent d. cbv zeta. rewrite label_eq. cbn [skeleton_of]. rewrite gather_eq. destruct (bone_node (SceneNode name s f cs)) eqn:BN.
  - assert (NB : need_bone (FbxNode name s (map skeleton_of cs)) = true) by exact BN. rewrite NB. set (d' := fst (alloc_bone d name parent)). pose proof (labels_good cs H (len (ad_bones d)) d') as LG. cbv zeta in LG. assert (LD : len (ad_bones d') = len (ad_bones d) + 1) by (unfold d'; cbn [alloc_bone fst with_bones ad_bones]; rewrite len_app; reflexivity). rewrite LD in LG. destruct LG as (N & L & R0 & S0).
    destruct (list_added (map skeleton_of cs) ltac:(apply Forall_forall; intros n _; apply tree_added) (len (ad_bones d)) d') as (X & E & _).
    destruct (labels cs (len (ad_bones d) + 1)) as [bs k]. cbn [fst snd] in *. split; [apply (num_cons _ _ _ k); [now constructor|constructor]|]. split; [exact L|]. split.
    + constructor; [|constructor]. apply (rooted_bone _ _ _ _ _ (Bone name parent [])); [|reflexivity|exact R0]. rewrite E. unfold d'. cbn [alloc_bone fst with_bones ad_bones]. rewrite <- app_assoc. cbn [app]. now rewrite getz_app by reflexivity.
    + cbn [flat_map]. rewrite app_nil_r, spots_eq, scene_nodes_eq. cbn [filter map snd scene_children scene_data]. rewrite BN. cbn [map scene_data]. now rewrite S0.
  - assert (NB : need_bone (FbxNode name s (map skeleton_of cs)) = false) by exact BN. rewrite NB. cbn [fst snd flat_map map]. rewrite below_bones by exact BN. repeat split; constructor.
Qed.
(** The place of a bone in the depth-first list is its index. *)
Lemma spots_at : forall n i j, numbered n i j -> len (spots n) = j - i /\ forall k p, getz (spots n) k = Some p -> fst p = i + k.
Proof.
  assert (G : forall cs, Forall (fun n => forall i j, numbered n i j -> len (spots n) = j - i /\ forall k p, getz (spots n) k = Some p -> fst p = i + k) cs -> forall i j, numbered_all cs i j -> len (flat_map spots cs) = j - i /\ forall k p, getz (flat_map spots cs) k = Some p -> fst p = i + k).
  { induction 1 as [|n cs N H IH]; intros i j NA; inversion NA as [|? ? ? m ? N1 N2]; subst; cbn [flat_map].
    - split; [cbn; lia|]. intros k p G. apply getz_Some in G. cbn in G. lia.
    - destruct (N i m N1) as [L1 S1]. destruct (IH m j N2) as [L2 S2]. rewrite len_app. split; [lia|]. intros k p G. pose proof (getz_Some _ _ _ G). destruct (Z_lt_le_dec k (len (spots n))) as [K|K]; [rewrite getz_app1 in G by lia; now apply S1|]. rewrite getz_app2 in G by lia. apply S2 in G. lia. }
  apply (bone_ind2 (fun n => forall i j, numbered n i j -> len (spots n) = j - i /\ forall k p, getz (spots n) k = Some p -> fst p = i + k)). intros q f cs H i j N. inversion N as [? ? ? ? NA]; subst. destruct (G cs H (i + 1) j NA) as [L S0]. rewrite spots_eq, len_cons. split; [lia|]. intros k p K. pose proof (getz_Some _ _ _ K). destruct (Z.eq_dec k 0) as [->|NK]; [injection K as <-; cbn; lia|]. rewrite getz_cons_pos in K by lia. apply S0 in K. lia.
Qed.
Lemma spots_all_at : forall cs i j, numbered_all cs i j -> len (flat_map spots cs) = j - i /\ forall k p, getz (flat_map spots cs) k = Some p -> fst p = i + k.
Proof.
  induction cs as [|n cs IH]; intros i j NA; inversion NA as [|? ? ? m ? N1 N2]; subst; cbn [flat_map].
  - split; [cbn; lia|]. intros k p G. apply getz_Some in G. cbn in G. lia.
  - destruct (spots_at n i m N1) as [L1 S1]. destruct (IH m j N2) as [L2 S2]. rewrite len_app. split; [lia|]. intros k p G. pose proof (getz_Some _ _ _ G). destruct (Z_lt_le_dec k (len (spots n))) as [K|K]; [rewrite getz_app1 in G by lia; now apply S1|]. rewrite getz_app2 in G by lia. apply S2 in G. lia.
Qed.

(** ** The scene *)
Section Scene.
Context (A : fbx_data -> list channel -> Prop) (d : anim_data).
Definition bone_good (i : Z) (f : fbx_data) : Prop :=
  (ad_root_only d = true -> below_animated d i -> chans d i = []) /\ (ad_root_only d = false \/ ~ below_animated d i -> A f (chans d i)).
Lemma blank_below : forall n par, rooted (ad_bones d) par n -> (below_animated d par \/ chans d par <> []) -> blank (chans d) n -> forall i f, In (i, f) (spots n) -> below_animated d i /\ chans d i = [].
Proof.
  apply (bone_ind2 (fun n => forall par, rooted (ad_bones d) par n -> (below_animated d par \/ chans d par <> []) -> blank (chans d) n -> forall i f, In (i, f) (spots n) -> below_animated d i /\ chans d i = [])).
  intros q g cs H par RT P BL i f I. inversion RT as [? ? ? ? b GB PB RC]; subst. inversion BL as [? ? ? B1 B2]; subst.
  assert (BQ : below_animated d q). { destruct P as [P|P]; [now apply further_animated with b|]. unfold chans in P. destruct (getz (ad_bones d) (bn_parent b)) as [pb|] eqn:GP; [|easy]. now apply (parent_animated d q b pb). }
  rewrite spots_eq in I. destruct I as [E|I]; [injection E as -> ->; auto|]. apply in_flat_map in I. destruct I as (c & C & I). rewrite Forall_forall in H, RC, B2. apply (H c C q (RC c C) (or_introl BQ) (B2 c C) i f I).
Qed.
Lemma told_good : forall n par, rooted (ad_bones d) par n -> (ad_root_only d = true -> ~ below_animated d par /\ chans d par = []) -> told A (ad_root_only d) (chans d) n -> forall i f, In (i, f) (spots n) -> bone_good i f.
Proof.
  apply (bone_ind2 (fun n => forall par, rooted (ad_bones d) par n -> (ad_root_only d = true -> ~ below_animated d par /\ chans d par = []) -> told A (ad_root_only d) (chans d) n -> forall i f, In (i, f) (spots n) -> bone_good i f)).
  intros q g cs H par RT P TL i f I. inversion RT as [? ? ? ? b GB PB RC]; subst. inversion TL as [? ? ? T1 T2 T3]; subst. rewrite Forall_forall in H, RC.
  assert (NB : ad_root_only d = true -> ~ below_animated d q).
  { intros RO BA. destruct (P RO) as [P1 P2]. inversion BA as [? b' pb G1 G2 NE|? b' G1 BA']; subst; assert (b' = b) as -> by congruence; [|contradiction]. unfold chans in P2. rewrite G2 in P2. contradiction. }
  rewrite spots_eq in I. destruct I as [E|I].
  - injection E as -> ->. split; [intros RO BA; now destruct (NB RO)|intros _; exact T1].
  - apply in_flat_map in I. destruct I as (c & C & I). destruct (descends (ad_root_only d) (chans d) q) eqn:DS.
    + specialize (T2 eq_refl). rewrite Forall_forall in T2. apply (H c C q (RC c C)); [|now apply T2|exact I]. intros RO. split; [now apply NB|]. unfold descends in DS. rewrite RO in DS. cbn [negb orb] in DS. destruct (chans d q); [reflexivity|]. rewrite len_cons in DS. pose proof (len_nonneg l). lia.
    + specialize (T3 eq_refl). rewrite Forall_forall in T3. destruct (blank_below c q (RC c C)) with (i := i) (f := f) as [BA CE]; [|now apply T3|exact I|]; [right; intros CE; unfold descends in DS; rewrite CE in DS; change (len (@nil channel)) with 0 in DS; rewrite orb_true_r in DS; discriminate|].
      unfold descends in DS. apply orb_false_iff in DS. destruct DS as [RO _]. apply negb_false_iff in RO. split; [intros _ _; exact CE|]. intros [F|F]; [congruence|contradiction].
Qed.
End Scene.
Lemma prune_empty t nu n p : prune_bone t nu (Bone n p []) = Some (Bone n p []).
Proof. reflexivity. Qed.

(** C104: gathering the animation of a scene keeps the names and parents of its bones.  A bone
    gets the channels that its node exported on its own would get; but if only root bones are
    wanted, bones below a bone with channels get none. *)
Theorem C104_scene : forall ms nu span roots t root_only d, gather_flat_anim ms nu span roots (new_anim_data t root_only) = Some d ->
  let d0 := gather_all (map skeleton_of roots) (new_anim_data t root_only) in
  ad_cur d = -1 /\ ad_tol d = t /\ ad_root_only d = root_only /\
  map bn_name (ad_bones d) = map scene_name (scene_bones roots) /\ map bn_parent (ad_bones d) = map bn_parent (ad_bones d0) /\
  forall i b n, getz (ad_bones d) i = Some b -> getz (scene_bones roots) i = Some n ->
    (root_only = true -> below_animated d i -> bn_channels b = []) /\
    (root_only = false \/ ~ below_animated d i -> exported_alone ms nu span t (scene_data n) (bn_channels b)).
Proof.
  intros ms nu span roots t ro d E. cbv zeta. unfold gather_flat_anim in E. set (e := new_anim_data t ro) in *. rewrite gather_all_eq in *. rewrite gather_each_eq in E. change (len (ad_bones e)) with 0 in E.
  destruct (labels_good roots ltac:(apply Forall_forall; intros n _; apply label_all_good) (-1) e) as (NA & LE & RT & SP). cbv zeta in *. change (len (ad_bones e)) with 0 in *. set (bs := fst (labels roots 0)) in *. set (k := snd (labels roots 0)) in *.
  pose proof (C84_skeleton (map skeleton_of roots) t ro) as SK. cbv zeta in SK. rewrite gather_all_eq in SK. fold e in SK. destruct SK as (ns & NS & _ & LN & TL & RO & CU & PL). set (d0 := gather_list (map skeleton_of roots) (-1) e) in *.
  assert (MS : ns = map skeleton_of (scene_bones roots)).
  { rewrite NS. unfold scene_bones. clear. assert (SN : forall n, subnodes (skeleton_of n) = map skeleton_of (scene_nodes n)).
    { apply scene_ind2. intros name s f cs H. rewrite scene_nodes_eq. cbn [skeleton_of scene_children map]. rewrite subnodes_eq. cbn [fbx_children]. f_equal. induction H as [|c cs C H IH]; [reflexivity|]. cbn [map flat_map]. now rewrite map_app, C, IH. }
    assert (FM : flat_map subnodes (map skeleton_of roots) = map skeleton_of (flat_map scene_nodes roots)) by (induction roots as [|n r IH]; [reflexivity|]; cbn [map flat_map]; now rewrite map_app, SN, IH). rewrite FM. generalize (flat_map scene_nodes roots). induction l as [|n l IH]; [reflexivity|]. cbn [map filter]. unfold bone_node at 1. destruct (need_bone (skeleton_of n)); cbn [map]; now rewrite IH. }
  assert (EM : forall j, chans d0 j = []).
  { intros j. unfold chans. destruct (getz (ad_bones d0) j) as [b|] eqn:G; [|reflexivity]. pose proof (getz_Some _ _ _ G). destruct (getz_in_range ns j ltac:(lia)) as [n N]. now destruct (PL j b n G N) as (_ & C & _). }
  assert (RD : ready nu d0 0 k).
  { split; [exact CU|]. split; [lia|]. split; [lia|]. split; [intros j _; apply EM|]. intros b Ib. apply In_nth_error in Ib. destruct Ib as (j & J). specialize (EM (Z.of_nat j)). unfold chans, getz in EM. replace (Z.of_nat j <? 0) with false in EM by lia. rewrite Nat2Z.id, J in EM. destruct b as [bn bp bc]. cbn in EM. rewrite EM. apply prune_empty. }
  destruct (each_ok ms nu span bs ltac:(apply Forall_forall; intros n _; apply tree_ok) 0 k d0 d NA ltac:(lia) RD E) as [ST TD]. rewrite TL, RO in TD. pose proof ST as (A1 & A2 & A3 & A4 & A5 & A6).
  assert (KN : map bn_name (ad_bones d) = map bn_name (ad_bones d0) /\ map bn_parent (ad_bones d) = map bn_parent (ad_bones d0)).
  { assert (F : map fst (map bone_key (ad_bones d)) = map fst (map bone_key (ad_bones d0)) /\ map snd (map bone_key (ad_bones d)) = map snd (map bone_key (ad_bones d0))) by (now rewrite A4). rewrite !map_map in F. exact F. }
  destruct KN as [KN KP]. split; [exact A1|]. split; [congruence|]. split; [congruence|]. split.
  { rewrite KN. apply getz_ext. intros j. assert (LB : len (ad_bones d0) = len (scene_bones roots)) by (rewrite LN, MS; apply len_map). destruct (Z_lt_le_dec j 0) as [J|J]; [now rewrite !getz_None by lia|]. destruct (Z_lt_le_dec j (len (ad_bones d0))) as [J'|J']; [|now rewrite !getz_None by (rewrite len_map; lia)].
    destruct (getz_in_range (ad_bones d0) j ltac:(lia)) as [b B]. destruct (getz_in_range (scene_bones roots) j ltac:(lia)) as [n N].
    assert (GM : forall X Y (g : X -> Y) l x, getz l j = Some x -> getz (map g l) j = Some (g x)) by (intros X Y g l x G; unfold getz in *; destruct (j <? 0); [discriminate|]; now apply map_nth_error).
    assert (NJ : getz ns j = Some (skeleton_of n)) by (rewrite MS; now apply GM). destruct (PL j b _ B NJ) as (P1 & _). rewrite (GM _ _ _ _ _ B), (GM _ _ _ _ _ N). f_equal. rewrite P1. now destruct n. }
  split; [exact KP|]. intros i b n GB GN.
  assert (IN : In (i, scene_data n) (flat_map spots bs)).
  { destruct (spots_all_at bs 0 k NA) as [LS AT]. assert (LS' : len (flat_map spots bs) = len (scene_bones roots)) by (rewrite <- (len_map snd (flat_map spots bs)), SP; unfold scene_bones; apply len_map). pose proof (getz_Some _ _ _ GN). destruct (getz_in_range (flat_map spots bs) i ltac:(lia)) as [p P]. specialize (AT i p P).
    assert (SD : snd p = scene_data n). { assert (G1 : getz (map snd (flat_map spots bs)) i = Some (snd p)) by (unfold getz in *; destruct (i <? 0); [discriminate|]; now apply map_nth_error). assert (G2 : getz (map scene_data (scene_bones roots)) i = Some (scene_data n)) by (unfold getz in *; destruct (i <? 0); [discriminate|]; now apply map_nth_error). unfold scene_bones in G2. rewrite <- SP in G2. congruence. }
    unfold getz in P. destruct (i <? 0); [discriminate|]. apply nth_error_In in P. destruct p as [x y]. cbn in AT, SD. replace i with x by lia. now rewrite <- SD. }
  apply in_flat_map in IN. destruct IN as (c & C & IN). rewrite Forall_forall in TD, RT.
  assert (RC : rooted (ad_bones d) (-1) c).
  { specialize (RT c C). clear - RT KP. revert c RT. generalize (-1).
    assert (PG : forall i b, getz (ad_bones d0) i = Some b -> exists b', getz (ad_bones d) i = Some b' /\ bn_parent b' = bn_parent b).
    { intros i b G. assert (G1 : getz (map bn_parent (ad_bones d0)) i = Some (bn_parent b)) by (unfold getz in *; destruct (i <? 0); [discriminate|]; now apply map_nth_error). rewrite <- KP in G1. pose proof (getz_Some _ _ _ G1) as I. rewrite len_map in I. destruct (getz_in_range (ad_bones d) i I) as [b' B]. exists b'. split; [exact B|]. assert (G2 : getz (map bn_parent (ad_bones d)) i = Some (bn_parent b')) by (unfold getz in *; destruct (i <? 0); [discriminate|]; now apply map_nth_error). congruence. }
    intros par c. revert c par. apply (bone_ind2 (fun c => forall par, rooted (ad_bones d0) par c -> rooted (ad_bones d) par c)). intros i f cs H par K. inversion K as [? ? ? ? b G EP F]; subst. destruct (PG i b G) as (b' & G' & P'). apply (rooted_bone _ _ i f cs b' G'); [exact P'|]. rewrite Forall_forall in *. intros x X. apply H; auto. }
  assert (RD' : ad_root_only d = ro) by congruence. rewrite <- RD' in TD.
  destruct (told_good (fun f c => node_channels ms nu span t f = Some c) d c (-1) RC) with (i := i) (f := scene_data n) as [G1 G2]; [|now apply TD|exact IN|].
  - intros _. split; [|unfold chans; now rewrite getz_None by lia]. intros BA. inversion BA as [? x y G _ _|? x G _]; apply getz_Some in G; lia.
  - unfold chans in G1, G2. rewrite GB in G1, G2. rewrite RD' in G1, G2. split; [exact G1|]. intros H. apply alone_eq. now apply G2.
Qed.
Print Assumptions C104_scene.
