(** Exported animations: skeletons (C84), parents (C72), loading (C85), defining animations
    (C86). *)
From Verif Require Import RBase BaseFacts RangeModel RangeProofs RangeProps CurveModel CompactSplineModel CompactSplineSpec CompactSplineProofs CompactSplineProps
  MatrixModel RigModel AnimTableModel AnimDataModel AnimSpec AnimCurveProps AnimPruneProps AnimTimeProps KeyframeSplines FlatAnimModel.
From Coq Require Import Sorting.Sorted.
Local Open Scope Z_scope.

(** ** Skeletons *)
(** The node, or one below it, has a skeleton or a mesh. *)
Inductive holds_solid : fbx_node -> Prop :=
| solid_here name cs : holds_solid (FbxNode name true cs)
| solid_below name s cs c : In c cs -> holds_solid c -> holds_solid (FbxNode name s cs).
(** The nodes on and below a node, depth first. *)
Fixpoint subnodes (n : fbx_node) : list fbx_node :=
  match n with FbxNode _ _ cs => n :: (fix all l := match l with [] => [] | c :: r => subnodes c ++ all r end) cs end.

Fixpoint fbx_ind2 (P : fbx_node -> Prop) (H : forall name s cs, Forall P cs -> P (FbxNode name s cs)) (n : fbx_node) : P n :=
  match n with FbxNode name s cs => H name s cs ((fix all l : Forall P l := match l with [] => Forall_nil P | c :: r => Forall_cons c (fbx_ind2 P H c) (all r) end) cs) end.

Lemma subnodes_eq n : subnodes n = n :: flat_map subnodes (fbx_children n).
Proof. destruct n as [name s cs]. reflexivity. Qed.
Lemma need_bone_eq name s cs : need_bone (FbxNode name s cs) = s || existsb need_bone cs.
Proof. cbn [need_bone]. induction cs as [|c cs IH]; [now destruct s|]. rewrite IH. cbn [existsb]. destruct s, (need_bone c); reflexivity. Qed.
Fixpoint gather_list (cs : list fbx_node) (parent : Z) (d : anim_data) : anim_data := match cs with [] => d | c :: r => gather_list r parent (gather_bones c parent d) end.
Lemma gather_eq name s cs parent d : gather_bones (FbxNode name s cs) parent d =
  if need_bone (FbxNode name s cs) then gather_list cs (len (ad_bones d)) (fst (alloc_bone d name parent)) else d.
Proof. cbn [gather_bones alloc_bone fst]. destruct (need_bone _); [|reflexivity]. generalize (with_bones d (ad_bones d ++ [Bone name parent []])). induction cs as [|c cs IH]; intros e; [reflexivity|]. apply IH. Qed.
Lemma gather_all_eq : forall roots d, gather_all roots d = gather_list roots (-1) d.
Proof. induction roots as [|n r IH]; intros d; [reflexivity|]. apply IH. Qed.

Lemma need_bone_iff : forall n, need_bone n = true <-> holds_solid n.
Proof.
  apply fbx_ind2. intros name s cs H. rewrite need_bone_eq, orb_true_iff, existsb_exists. rewrite Forall_forall in H. split.
  - intros [->|(c & C & N)]; [constructor|]. apply solid_below with c; [exact C|now apply H].
  - intros K. inversion K as [|? ? ? c C S]; subst; [now left|]. right. exists c. split; [exact C|now apply H].
Qed.
Lemma none_below : forall n, need_bone n = false -> filter need_bone (subnodes n) = [].
Proof.
  apply (fbx_ind2 (fun n => need_bone n = false -> filter need_bone (subnodes n) = [])). intros name s cs H N. rewrite subnodes_eq. cbn [filter]. rewrite N. rewrite need_bone_eq in N. apply orb_false_iff in N. destruct N as [_ N]. cbn [fbx_children].
  induction H as [|c cs C H IH]; [reflexivity|]. cbn [flat_map existsb] in *. apply orb_false_iff in N. destruct N as [N1 N2]. rewrite filter_app, (C N1), (IH N2). reflexivity.
Qed.

(** Bones [bs], with indices from [L], for the nodes [ns] of a forest [cs] below bone [par]. *)
Definition placed (L par : Z) (cs ns : list fbx_node) (bs : list bone) : Prop :=
  len bs = len ns /\ forall i b n, getz bs i = Some b -> getz ns i = Some n ->
    bn_name b = fbx_name n /\ bn_channels b = [] /\
    ((bn_parent b = par /\ In n cs) \/ (L <= bn_parent b < L + i /\ exists pn, getz ns (bn_parent b - L) = Some pn /\ In n (fbx_children pn))).
Lemma placed_app L par cs ns bs cs' ns' bs' : placed L par cs ns bs -> placed (L + len bs) par cs' ns' bs' -> placed L par (cs ++ cs') (ns ++ ns') (bs ++ bs').
Proof.
  intros [LN A] [LN' B]. split; [rewrite !len_app; lia|]. intros i b n GB GN. pose proof (getz_Some _ _ _ GB). destruct (Z.lt_ge_cases i (len bs)) as [I|I].
  - rewrite getz_app1 in GB by lia. rewrite getz_app1 in GN by lia. destruct (A i b n GB GN) as (N & C & P). split; [exact N|]. split; [exact C|]. destruct P as [[P1 P2]|(P1 & pn & P2 & P3)]; [left; split; [exact P1|apply in_or_app; now left]|].
    right. split; [exact P1|]. exists pn. split; [|exact P3]. pose proof (getz_Some _ _ _ P2). rewrite getz_app1 by lia. exact P2.
  - rewrite getz_app2 in GB by lia. rewrite getz_app2 in GN by lia. rewrite <- LN in GN. destruct (B _ b n GB GN) as (N & C & P). split; [exact N|]. split; [exact C|]. destruct P as [[P1 P2]|(P1 & pn & P2 & P3)]; [left; split; [exact P1|apply in_or_app; now right]|].
    pose proof (len_nonneg bs). right. split; [lia|]. exists pn. split; [|exact P3]. pose proof (getz_Some _ _ _ P2). rewrite getz_app2 by lia. rewrite <- P2. f_equal. lia.
Qed.
Lemma getz_cons_pos {A} (x : A) l i : 0 < i -> getz (x :: l) i = getz l (i - 1).
Proof. intros I. change (x :: l) with ([x] ++ l). rewrite getz_app2 by (cbn; lia). reflexivity. Qed.
Definition bones_added (n : fbx_node) : Prop := forall parent d, exists bs, ad_bones (gather_bones n parent d) = ad_bones d ++ bs /\
  ad_cur (gather_bones n parent d) = ad_cur d /\ ad_tol (gather_bones n parent d) = ad_tol d /\ ad_root_only (gather_bones n parent d) = ad_root_only d /\
  placed (len (ad_bones d)) parent [n] (filter need_bone (subnodes n)) bs.
Lemma list_added : forall cs, Forall bones_added cs -> forall parent d, exists bs, ad_bones (gather_list cs parent d) = ad_bones d ++ bs /\
  ad_cur (gather_list cs parent d) = ad_cur d /\ ad_tol (gather_list cs parent d) = ad_tol d /\ ad_root_only (gather_list cs parent d) = ad_root_only d /\
  placed (len (ad_bones d)) parent cs (filter need_bone (flat_map subnodes cs)) bs.
Proof.
  induction 1 as [|c cs C H IH]; intros parent d.
  - exists []. rewrite app_nil_r. repeat (split; [reflexivity|]). intros i b n G. apply getz_Some in G. cbn in G. lia.
  - cbn [gather_list flat_map]. destruct (C parent d) as (b1 & E1 & Q1 & Q2 & Q3 & P1). destruct (IH parent (gather_bones c parent d)) as (b2 & E2 & S1 & S2 & S3 & P2). exists (b1 ++ b2).
    rewrite E2, E1, <- app_assoc, S1, S2, S3. repeat (split; [first [reflexivity|assumption]|]). rewrite filter_app. change (c :: cs) with ([c] ++ cs). apply placed_app; [exact P1|]. now rewrite E1, len_app in P2.
Qed.
Lemma tree_added : forall n, bones_added n.
Proof.
  apply fbx_ind2. intros name s cs H parent d. rewrite gather_eq. destruct (need_bone (FbxNode name s cs)) eqn:N.
  - set (d' := fst (alloc_bone d name parent)). destruct (list_added cs H (len (ad_bones d)) d') as (bs & E & Q1 & Q2 & Q3 & LB & P). exists (Bone name parent [] :: bs). rewrite E. unfold d' at 1. cbn [alloc_bone fst with_bones ad_bones]. rewrite <- app_assoc.
    split; [reflexivity|]. split; [rewrite Q1; reflexivity|]. split; [rewrite Q2; reflexivity|]. split; [rewrite Q3; reflexivity|].
    rewrite subnodes_eq. cbn [filter fbx_children]. rewrite N. split; [rewrite !len_cons; lia|]. intros i b n GB GN. pose proof (getz_Some _ _ _ GB) as I. destruct (Z.eq_dec i 0) as [->|NI].
    + injection GB as <-. injection GN as <-. split; [reflexivity|]. split; [reflexivity|]. left. split; [reflexivity|now left].
    + rewrite getz_cons_pos in GB by lia. rewrite getz_cons_pos in GN by lia.
      destruct (P _ b n GB GN) as (PN & PC & PP). split; [exact PN|]. split; [exact PC|]. unfold d' in PP. cbn [alloc_bone fst with_bones ad_bones] in PP. rewrite len_app in PP. change (len [_]) with 1 in PP. right. destruct PP as [[PP PI]|(PP & pn & G & PI)].
      * split; [lia|]. exists (FbxNode name s cs). rewrite PP, Z.sub_diag. split; [reflexivity|exact PI].
      * split; [lia|]. exists pn. split; [|exact PI]. rewrite getz_cons_pos by lia. rewrite <- G. f_equal. lia.
  - exists []. rewrite app_nil_r. repeat (split; [reflexivity|]). rewrite none_below by exact N. split; [reflexivity|]. intros i b n' G. apply getz_Some in G. cbn in G. lia.
Qed.

(** C84: a scene's bones are its nodes that hold, or have below them, a skeleton or a mesh, in
    depth-first order, with their names and no channels yet.  The parent of a bone is the
    bone of its parent node, which comes before it, or none for the children of the
    scene's root. *)
Theorem C84_skeleton : forall roots t root_only, let d := gather_all roots (new_anim_data t root_only) in
  exists ns, ns = filter need_bone (flat_map subnodes roots) /\ (forall n, need_bone n = true <-> holds_solid n) /\ len (ad_bones d) = len ns /\ ad_tol d = t /\ ad_root_only d = root_only /\ ad_cur d = -1 /\
    forall i b n, getz (ad_bones d) i = Some b -> getz ns i = Some n -> bn_name b = fbx_name n /\ bn_channels b = [] /\
      ((bn_parent b = -1 /\ In n roots) \/ (0 <= bn_parent b < i /\ exists pn, getz ns (bn_parent b) = Some pn /\ In n (fbx_children pn))).
Proof.
  intros roots t ro. cbv zeta. rewrite gather_all_eq. destruct (list_added roots ltac:(apply Forall_forall; intros n _; apply tree_added) (-1) (new_anim_data t ro)) as (bs & E & Q1 & Q2 & Q3 & LB & P).
  eexists. split; [reflexivity|]. split; [exact need_bone_iff|]. rewrite E. cbn [new_anim_data ad_bones app]. split; [exact LB|]. split; [exact Q2|]. split; [exact Q3|]. split; [exact Q1|].
  intros i b n GB GN. destruct (P i b n GB GN) as (P1 & P2 & P3). split; [exact P1|]. split; [exact P2|]. cbn [new_anim_data ad_bones] in P3. change (len (@nil bone)) with 0 in P3. rewrite Z.sub_0_r in P3. rewrite !Z.add_0_l in P3. exact P3.
Qed.
Print Assumptions C84_skeleton.
(** A scene with an unmarked node, and a node that is marked for the mesh below it. *)
Example C84_case : forall t, ad_bones (gather_all [FbxNode [97] false [FbxNode [98] true []]; FbxNode [99] false []; FbxNode [100] true [FbxNode [101] false [FbxNode [102] true []]]] (new_anim_data t false)) =
  [Bone [97] (-1) []; Bone [98] 0 []; Bone [100] (-1) []; Bone [101] 2 []; Bone [102] 3 []].
Proof. intros t. reflexivity. Qed.

(** ** Parents *)
(** The bones come after their parents, as C84 shows of a scene's. *)
Definition bones_ordered (d : anim_data) : Prop := forall i b, getz (ad_bones d) i = Some b -> -1 <= bn_parent b < i.
(** What InitMatrixAnim asserts: each bone's parent is none, or before the bone. *)
Definition parents_loadable (parents : list Z) : Prop := forall i p, getz parents i = Some p -> p = kInvalidBoneIdx \/ 0 <= p < i.

Lemma map_opt_iff {A B} (f : A -> option B) : forall l l', map_opt f l = Some l' <-> Forall2 (fun x y => f x = Some y) l l'.
Proof.
  induction l as [|x l IH]; intros l'; cbn [map_opt].
  - split; [intros E; injection E as <-; constructor|intros F; inversion F; reflexivity].
  - split.
    + destruct (f x) as [y|] eqn:E; [|discriminate]. destruct (map_opt f l) as [r|] eqn:M; [|discriminate]. intros H. injection H as <-. constructor; [exact E|now apply IH].
    + intros F. inversion F as [|? y ? r E F']; subst. apply IH in F'. now rewrite E, F'.
Qed.
Lemma map_opt_indices {A B} (f : A -> option B) (g : Z -> option B) : forall Y X, (forall i, g i = x <- getz (X ++ Y) i ;; f x) -> map_opt g (indices (length Y) (len X)) = map_opt f Y.
Proof.
  induction Y as [|y Y IH]; intros X G; [reflexivity|]. cbn [length indices map_opt]. rewrite G, getz_app by reflexivity. destruct (f y); [|reflexivity].
  replace (len X + 1) with (len (X ++ [y])) by (rewrite len_app; reflexivity). rewrite (IH (X ++ [y])); [reflexivity|]. intros i. rewrite <- app_assoc. apply G.
Qed.
Lemma map_opt_all {A B} (f : A -> option B) (g : Z -> option B) Y : (forall i, g i = x <- getz Y i ;; f x) -> map_opt g (indices (length Y) 0) = map_opt f Y.
Proof. exact (map_opt_indices f g Y []). Qed.
Lemma Forall2_getz {A B} (P : A -> B -> Prop) : forall l l', Forall2 P l l' -> forall i y, getz l' i = Some y -> exists x, getz l i = Some x /\ P x y.
Proof.
  induction 1 as [|x y l l' H F IH]; intros i z G; [apply getz_Some in G; cbn in G; lia|]. pose proof (getz_Some _ _ _ G). destruct (Z.eq_dec i 0) as [->|N].
  - injection G as <-. exists x. split; [reflexivity|exact H].
  - rewrite getz_cons_pos in G by lia. rewrite getz_cons_pos by lia. now apply IH.
Qed.
Lemma Forall2_len {A B} (P : A -> B -> Prop) : forall l l', Forall2 P l l' -> len l' = len l.
Proof. induction 1 as [|x y l l' H F IH]; [reflexivity|]. rewrite !len_cons. lia. Qed.

(** The parent as the file holds it. *)
Definition file_parent (b : bone) : Z := if bn_parent b <? 0 then kInvalidBoneIdx else bn_parent b mod 256.
Lemma export_whole_eq d p name : export_range d p 0 (len (ad_bones d)) name =
  (ms <- map_opt export_bone (ad_bones d) ;; rep <- repeats d p ;; Some (FbRig ms (map file_parent (ad_bones d)) (Some (map (fun b => bone_base_name (bn_name b)) (ad_bones d))) rep name)).
Proof.
  unfold export_range. rewrite len_to_nat. rewrite (map_opt_all export_bone (fun i => b <- getz (ad_bones d) i ;; export_bone b)) by reflexivity.
  rewrite (map_opt_all (fun b => Some (bone_base_name (bn_name b))) (fun i => b <- getz (ad_bones d) i ;; Some (bone_base_name (bn_name b)))) by reflexivity.
  rewrite (map_opt_all (fun b => Some (file_parent b)) (bone_parent d)) by reflexivity.
  assert (T : forall A B (f : A -> B) l, map_opt (fun x => Some (f x)) l = Some (map f l)).
  { induction l as [|x l IH]; [reflexivity|]. cbn [map_opt map]. now rewrite IH. }
  now rewrite !T.
Qed.
Lemma export_whole d p name r : export_range d p 0 (len (ad_bones d)) name = Some r ->
  Forall2 (fun b m => export_bone b = Some m) (ad_bones d) (fr_anims r) /\ fr_parents r = map file_parent (ad_bones d) /\
  fr_names r = Some (map (fun b => bone_base_name (bn_name b)) (ad_bones d)) /\ repeats d p = Some (fr_repeat r) /\ fr_name r = name.
Proof.
  rewrite export_whole_eq. destruct (map_opt export_bone _) as [m|] eqn:M; [|discriminate]. destruct (repeats d p) as [rep|]; [|discriminate]. intros H. injection H as <-. cbn [fr_anims fr_parents fr_names fr_repeat fr_name].
  split; [now apply map_opt_iff|]. repeat split; reflexivity.
Qed.
Lemma export_single d p i name r : export_range d p i 1 name = Some r -> exists b m, getz (ad_bones d) i = Some b /\ export_bone b = Some m /\
  fr_anims r = [m] /\ fr_parents r = [file_parent b] /\ fr_names r = Some [bone_base_name (bn_name b)] /\ repeats d p = Some (fr_repeat r) /\ fr_name r = name.
Proof.
  unfold export_range. change (Z.to_nat 1) with 1%nat. cbn [indices map_opt]. unfold bone_parent. destruct (getz (ad_bones d) i) as [b|]; [|discriminate]. destruct (export_bone b) as [m|] eqn:M; [|discriminate].
  destruct (repeats d p) as [rep|]; [|discriminate]. intros H. injection H as <-. exists b, m. split; [reflexivity|]. split; [exact M|]. repeat split; reflexivity.
Qed.

(** C72: exported whole, a skeleton's bones come after their parents in the file. *)
Theorem C72_whole_partial : forall d p name rigs r, ad_root_only d = false -> bones_ordered d -> create_flat_buffer d p name = Some rigs -> In r rigs ->
  len (fr_parents r) = len (fr_anims r) /\ parents_loadable (fr_parents r).
Proof.
  intros d p name rigs r RO BO. unfold create_flat_buffer. destruct (Z.ltb_spec kMaxNumBones (len (ad_bones d))) as [M|M]; [intros E; injection E as <-; intros []|]. rewrite RO. cbn [negb].
  destruct (export_range _ _ _ _ _) as [q|] eqn:X; [|discriminate]. intros E. injection E as <-. intros [<-|[]]. destruct (export_whole _ _ _ _ X) as (A & P & _). rewrite P, len_map, (Forall2_len _ _ _ A). split; [reflexivity|].
  intros i v G. assert (K : exists b, getz (ad_bones d) i = Some b /\ v = file_parent b).
  { clear - G. revert i G. induction (ad_bones d) as [|b l IH]; intros i G; [apply getz_Some in G; cbn in G; lia|]. pose proof (getz_Some _ _ _ G). destruct (Z.eq_dec i 0) as [->|N]; [injection G as <-; exists b; split; reflexivity|].
    cbn [map] in G. rewrite getz_cons_pos in G by lia. rewrite getz_cons_pos by lia. now apply IH. }
  destruct K as (b & B & ->). specialize (BO i b B). pose proof (getz_Some _ _ _ B). unfold file_parent. destruct (Z.ltb_spec (bn_parent b) 0); [now left|]. right. unfold kMaxNumBones in M. rewrite Z.mod_small by lia. lia.
Qed.
Print Assumptions C72_whole_partial.
(** A scene's bones are ordered, and whatever the animation of the bones: only parents matter. *)
Theorem C72_scene : forall roots t root_only d', map bn_parent (ad_bones d') = map bn_parent (ad_bones (gather_all roots (new_anim_data t root_only))) -> bones_ordered d'.
Proof.
  intros roots t ro d' E. destruct (C84_skeleton roots t ro) as (ns & _ & _ & L & _ & _ & _ & H). set (d := gather_all roots (new_anim_data t ro)) in *. intros i b G.
  assert (M : getz (map bn_parent (ad_bones d')) i = Some (bn_parent b)) by (clear - G; unfold getz in *; destruct (i <? 0); [discriminate|]; now rewrite nth_error_map, G).
  rewrite E in M. assert (K : exists c, getz (ad_bones d) i = Some c /\ bn_parent c = bn_parent b).
  { clear - M. unfold getz in *. destruct (i <? 0); [discriminate|]. rewrite nth_error_map in M. destruct (nth_error (ad_bones d) (Z.to_nat i)) as [c|]; [|discriminate]. injection M as M. exists c. split; [reflexivity|exact M]. }
  destruct K as (c & C & <-). pose proof (getz_Some _ _ _ C) as I. destruct (getz_in_range ns i) as [n N]; [lia|]. destruct (H i c n C N) as (_ & _ & [[P _]|(P & _)]); lia.
Qed.
Print Assumptions C72_scene.

(** Exported bone by bone, the animation of a bone that has a parent is one the loader
    rejects, and that of a bone without is one it takes. *)
Theorem C72_single_partial : forall d p name rigs r, ad_root_only d = true -> bones_ordered d -> create_flat_buffer d p name = Some rigs -> In r rigs ->
  exists i b, getz (ad_bones d) i = Some b /\ bn_channels b <> [] /\ len (fr_anims r) = 1 /\ len (fr_parents r) = 1 /\ (parents_loadable (fr_parents r) <-> bn_parent b = -1).
Proof.
  intros d p name rigs r RO BO. unfold create_flat_buffer. destruct (Z.ltb_spec kMaxNumBones (len (ad_bones d))) as [M|M]; [intros E; injection E as <-; intros []|]. rewrite RO. cbn [negb]. intros E I.
  apply map_opt_iff in E. apply in_getz in I. destruct I as [k K]. destruct (Forall2_getz _ _ _ E k r K) as (i & J & X). apply getz_in, filter_In in J. destruct J as [_ J].
  destruct (export_single _ _ _ _ _ X) as (b & m & B & _ & A & P & _). rewrite B in J. exists i, b. split; [exact B|]. split; [intros Q; rewrite Q in J; discriminate|]. rewrite A, P. split; [reflexivity|]. split; [reflexivity|].
  specialize (BO i b B). pose proof (getz_Some _ _ _ B). unfold kMaxNumBones in M. split.
  - intros L. destruct (L 0 (file_parent b) eq_refl) as [F|F]; revert F; unfold file_parent, kInvalidBoneIdx; destruct (Z.ltb_spec (bn_parent b) 0); lia.
  - intros Q j v G. pose proof (getz_Some _ _ _ G) as J'. change (len [file_parent b]) with 1 in J'. assert (j = 0) as -> by lia. injection G as <-. left. unfold file_parent. now rewrite Q.
Qed.
Print Assumptions C72_single_partial.
(** C72 is false of bones exported one by one: a scene of a node without animation and one
    below it that moves has one exported animation, whose one bone is its own parent, and
    loading it fails. *)
Theorem C72_refuted : forall t I (spline_init : range -> I), exists roots d rigs r,
  map bn_parent (ad_bones d) = map bn_parent (ad_bones (gather_all roots (new_anim_data t true))) /\ ad_root_only d = true /\
  create_flat_buffer d NeverRepeat [97] = Some rigs /\ In r rigs /\ len (fr_anims r) = 1 /\ fr_parents r = [0] /\ ~ parents_loadable (fr_parents r) /\ load_rig spline_init r = None.
Proof.
  intros t I si. exists [FbxNode [98] false [FbxNode [99] true []]], (AnimData [Bone [98] (-1) []; Bone [99] 0 [Channel TranslateX 0 [SNode 0 1 0]]] (-1) t true).
  eexists. eexists. split; [reflexivity|]. split; [reflexivity|]. split; [reflexivity|]. split; [now left|]. split; [reflexivity|]. split; [reflexivity|]. split; [|reflexivity].
  intros L. destruct (L 0 0 eq_refl) as [K|K]; [discriminate K|lia].
Qed.
Print Assumptions C72_refuted.
(** The whole-skeleton export of the same scene meets C72_whole_partial. *)
Example C72_case : forall t, let d := AnimData [Bone [98] (-1) []; Bone [99] 0 [Channel TranslateX 0 [SNode 0 1 0]]] (-1) t false in
  bones_ordered d /\ exists r, create_flat_buffer d NeverRepeat [97] = Some [r] /\ fr_parents r = [255; 0].
Proof.
  intros t d. split.
  - apply (C72_scene [FbxNode [98] false [FbxNode [99] true []]] t false). reflexivity.
  - eexists. split; reflexivity.
Qed.
