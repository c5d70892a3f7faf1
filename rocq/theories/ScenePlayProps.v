(** From an animated scene to the screen (C105). *)
From Verif Require Import RBase BaseFacts CommandLineModel RangeModel CurveModel CompactSplineModel MatrixModel MatrixProps RigModel AnimTableModel AnimDataModel AnimSpec AnimCurveProps AnimPruneProps AnimTimeProps AnimChannelsModel AnimSumProps AnimChannelsProps AnimStableProps FlatAnimModel FlatAnimProps FlatLoadProps FbxModel FbxProps FbxCurveProps PipelineModel PipelineProps PipelineRunProps SceneGatherProps.
From Coq Require Import Sorting.Sorted.
Local Open Scope Z_scope.

(** ** Setting the times *)
Lemma skeleton_impl (P Q : list snode -> list snode -> Prop) d d' : same_skeleton P d d' ->
  (forall b c b' c', In b (ad_bones d) -> In c (bn_channels b) -> In b' (ad_bones d') -> In c' (bn_channels b') -> P (ch_nodes c) (ch_nodes c') -> Q (ch_nodes c) (ch_nodes c')) -> same_skeleton Q d d'.
Proof.
  intros (A1 & A2 & A3 & F) H. unfold same_skeleton. repeat (split; [assumption|]).
  assert (IN : forall {A B} (R S : A -> B -> Prop) l l', Forall2 R l l' -> (forall x y, In x l -> In y l' -> R x y -> S x y) -> Forall2 S l l').
  { clear. intros A B R S l l' F. induction F as [|x y l l' XY F IH]; intros G; constructor; [apply G; [now left|now left|exact XY]|]. apply IH. intros a b Ia Ib. apply G; now right. }
  apply (IN _ _ _ _ _ _ F). intros b b' B B' (N & PR & FC). split; [exact N|]. split; [exact PR|]. apply (IN _ _ _ _ _ _ FC). intros c c' C C' (O & I & X). split; [exact O|]. split; [exact I|]. exact (H b c b' c' B C B' C' X).
Qed.
Lemma sorted_chain : forall l x, StronglySorted Z.le (map sn_time (x :: l)) -> chain (fun x y => sn_time x <= sn_time y) x l.
Proof. induction l as [|y l IH]; intros x S; [exact I|]. cbn [map] in S. apply StronglySorted_inv in S. destruct S as [S F]. inversion F; subst. split; [assumption|now apply IH]. Qed.
Lemma chain_sorted_le : forall l x, chain (fun x y => sn_time x <= sn_time y) x l -> StronglySorted Z.le (map sn_time (x :: l)).
Proof.
  induction l as [|y l IH]; intros x C; [repeat constructor|]. destruct C as [XY C]. specialize (IH y C). cbn [map] in *. constructor; [exact IH|]. constructor; [exact XY|]. apply StronglySorted_inv in IH. destruct IH as [_ F]. eapply Forall_impl; [|exact F]. cbn. intros; lia.
Qed.
Lemma moved_sorted o n k : moved_by o n k -> StronglySorted Z.le (map sn_time n) -> StronglySorted Z.le (map sn_time k).
Proof.
  unfold moved_by. intros F. induction F as [|x y l l' (T & _) F IH]; intros S; [constructor|]. cbn [map] in *. apply StronglySorted_inv in S. destruct S as [S FA]. constructor; [now apply IH|]. rewrite Forall_forall in *. intros z Z. apply in_map_iff in Z. destruct Z as (w & <- & W). destruct (moved_in o l l' w F W) as (v & V & E). specialize (FA (sn_time v) (in_map _ _ _ V)). lia.
Qed.
Lemma sorted_end n y : StronglySorted Z.le (map sn_time n) -> In y n -> sn_time y <= sn_time (end_node n).
Proof.
  unfold end_node. revert y. induction n as [|x n IH]; [intros y _ []|]. intros y S I. cbn [map] in S. apply StronglySorted_inv in S. destruct S as [S F]. destruct n as [|z n]; [destruct I as [<-|[]]; cbn; lia|]. change (last (x :: z :: n) (SNode 0 0 0)) with (last (z :: n) (SNode 0 0 0)). destruct I as [<-|I]; [|now apply IH]. specialize (IH z S (or_introl eq_refl)). inversion F; subst. lia.
Qed.
Lemma timed_ok ks st d : (forall b c, In b (ad_bones d) -> In c (bn_channels b) -> ch_nodes c <> [] /\ StronglySorted Z.le (map sn_time (ch_nodes c)) /\ forall x, In x (ch_nodes c) -> - 2 ^ 30 < sn_time x < 2 ^ 30) ->
  exists d', set_times ks st d = Some d' /\ same_skeleton (fun n n' => n' <> [] /\ len n <= len n' <= len n + 2 /\ StronglySorted Z.le (map sn_time n') /\ forall y, In y n' -> sn_time y <= int_max) d d'.
Proof.
  intros H. destruct (C105_times ks st d (fun b c x B C X => proj2 (proj2 (H b c B C)) x X)) as (d' & lo & hi & E & L1 & L2 & SK & FST & LST). exists d'. split; [exact E|].
  assert (MORE : forall k n', (if st then n' = k else extended hi k n') -> (exists more, n' = k ++ more) /\ len k <= len n' <= len k + 2 /\ (len k <= 1 -> n' = k)).
  { intros k n'. destruct st; [intros ->; split; [exists []; now rewrite app_nil_r|]; split; [lia|auto]|]. intros (_ & (more & ->) & Q & _ & _ & _ & L). split; [eauto|]. split; [rewrite len_app in *; pose proof (len_nonneg more); lia|exact Q]. }
  change (2 ^ 30) with 1073741824 in H.
  assert (LB : - 1073741824 < lo < 1073741824).
  { destruct ks; [rewrite L1 by reflexivity; lia|]. destruct (animated_dec d) as [(n & AN)|N]; [|rewrite L2; [lia|intros n AN; apply N; eauto]].
    destruct (skeleton_forth _ _ _ _ SK AN) as (b' & c' & B' & C' & k & M & X). destruct (MORE _ _ X) as (_ & LE & _). rewrite (moved_len _ _ _ M) in LE. assert (AN' : animated d' (ch_nodes c')) by (exists b', c'; repeat split; auto; destruct AN as (? & ? & _ & _ & _ & AL); lia).
    destruct (FST eq_refl _ AN') as (_ & n0 & AN0 & F0). destruct (skeleton_back _ _ _ _ SK AN0) as (b & c & B & C & k0 & M0 & X0). destruct (H b c B C) as (NE & _ & R). destruct (MORE _ _ X0) as ((more & EM) & _).
    assert (KN : k0 <> []) by (intros ->; apply moved_len in M0; destruct (ch_nodes c); [congruence|rewrite len_cons in M0; pose proof (len_nonneg l); change (len (@nil snode)) with 0 in M0; lia]). assert (FE : first_node n0 = first_node k0) by (rewrite EM; destruct k0; [congruence|reflexivity]). rewrite FE, (moved_first _ _ _ NE M0) in F0.
    assert (IF : In (first_node (ch_nodes c)) (ch_nodes c)) by (destruct (ch_nodes c); [congruence|now left]). specialize (R _ IF). lia. }
  apply (skeleton_impl _ _ _ _ SK). intros b c b' c' B C B' C' (k & M & X). destruct (H b c B C) as (NE & SO & R). destruct (MORE _ _ X) as ((more & EM) & LE & SM). pose proof (moved_len _ _ _ M) as ML. pose proof (moved_sorted _ _ _ M SO) as KS.
  assert (KN : k <> []) by (intros ->; destruct (ch_nodes c); [congruence|rewrite len_cons in ML; pose proof (len_nonneg l); change (len (@nil snode)) with 0 in ML; lia]).
  assert (KB : forall y, In y k -> sn_time y <= int_max) by (intros y Y; destruct (moved_in _ _ _ _ M Y) as (x & IX & ->); specialize (R x IX); unfold int_max; lia).
  assert (S' : StronglySorted Z.le (map sn_time (ch_nodes c'))).
  { destruct st; [rewrite X; exact KS|]. destruct X as (_ & _ & _ & CH & _). destruct k as [|x k]; [congruence|]. cbn [app] in EM. rewrite EM in CH. cbn [first_node hd] in CH. rewrite EM. destruct CH as [_ CH]; [split; [apply Z.le_refl|now apply sorted_chain]|]. now apply chain_sorted_le. }
  split; [rewrite EM; destruct k; [congruence|discriminate]|]. split; [lia|]. split; [exact S'|]. intros y Y. destruct (Z.le_gt_cases (len k) 1) as [L|L]; [rewrite (SM L) in Y; now apply KB|].
  pose proof (sorted_end _ _ S' Y) as YE. destruct st; [rewrite X in Y; now apply KB|]. destruct (LST eq_refl (ch_nodes c')) as (EH & n & (bn & cn & BN & CN & -> & LN) & HE); [exists b', c'; repeat split; auto; lia|]. destruct (H bn cn BN CN) as (_ & _ & RN).
  assert (IE : In (end_node (ch_nodes cn)) (ch_nodes cn)) by (pose proof (app_removelast_last (SNode 0 0 0) (nonempty_len _ LN)) as AR; unfold end_node; rewrite AR at 2; apply in_or_app; right; now left). specialize (RN _ IE). unfold int_max. lia.
Qed.

(** ** Runs *)
(** A scene that the converter can be given: at most 254 bones, whose nodes are readable and have at most 2000 keys. *)
Record scene_readable (ms : Z -> Z) (span : Z * Z) (roots : list scene_node) : Prop := {
  sr_span : fst span <= snd span; sr_clock : clock ms span; sr_low : - 2 ^ 30 < ms (fst span); sr_bones : len (scene_bones roots) <= 254;
  sr_nodes : forall n, In n (scene_bones roots) -> node_readable span (scene_data n) /\ total_keys (scene_data n) <= 2000 }.
Lemma scene_timed args ms span roots t : positive t -> scene_readable ms span roots ->
  exists d d', gather_flat_anim ms (no_uniform args) span roots (new_anim_data t (roots_only args)) = Some d /\ set_times (preserve_start args) (stagger args) d = Some d' /\
    ad_root_only d' = roots_only args /\ map bn_name (ad_bones d') = map scene_name (scene_bones roots) /\ map bn_parent (ad_bones d') = map bn_parent (ad_bones d) /\ len (ad_bones d') = len (scene_bones roots) /\
    forall b c, In b (ad_bones d') -> In c (bn_channels b) -> channel_ok c /\ len (ch_nodes c) <= 64035 /\ 0 <= ch_id c <= 250 /\ geometric (ch_op c).
Proof.
  intros PT [SP CK LOW LB ND]. destruct (C104_gathers ms (no_uniform args) span roots t (roots_only args) PT SP CK LOW (fun n N => proj1 (ND n N))) as (d & G & H). pose proof (C104_scene ms (no_uniform args) span roots t (roots_only args) d G) as SC. cbv zeta in SC. destruct SC as (CU & TL & R' & NM & PA & _).
  assert (LD : len (ad_bones d) = len (scene_bones roots)) by (rewrite <- (len_map bn_name (ad_bones d)), NM; apply len_map).
  assert (H' : forall b c, In b (ad_bones d) -> In c (bn_channels b) -> in_span (ms (fst span)) (ms (snd span)) (ch_nodes c) /\ len (ch_nodes c) <= 64033 /\ geometric (ch_op c) /\ 0 <= ch_id c <= 250).
  { intros b c B C. apply In_nth_error in B. destruct B as (k & K). assert (GB : getz (ad_bones d) (Z.of_nat k) = Some b) by (unfold getz; replace (Z.of_nat k <? 0) with false by lia; now rewrite Nat2Z.id). pose proof (getz_Some _ _ _ GB). destruct (getz_in_range (scene_bones roots) (Z.of_nat k) ltac:(lia)) as [n N]. destruct (H _ b n c GB N C) as (X1 & X2 & X3). destruct (ND n (getz_in _ _ _ N)) as [_ TK]. split; [exact X1|]. split; [lia|exact X3]. }
  destruct (timed_ok (preserve_start args) (stagger args) d) as (d' & E & SK).
  { intros b c B C. destruct (H' b c B C) as ((NE & SO & RG & _) & _). split; [exact NE|]. split; [exact SO|]. intros x X. specialize (RG x X). change (2 ^ 30) with 1073741824. lia. }
  exists d, d'. split; [exact G|]. split; [exact E|]. destruct SK as (_ & _ & RO & F). split; [congruence|].
  assert (FN : map bn_name (ad_bones d') = map bn_name (ad_bones d) /\ map bn_parent (ad_bones d') = map bn_parent (ad_bones d)) by (clear - F; induction F as [|b b' l l' (N & P & _) F [I1 I2]]; [split; reflexivity|]; cbn [map]; rewrite N, P, I1, I2; split; reflexivity). destruct FN as [FN FP].
  split; [congruence|]. split; [exact FP|]. split; [rewrite <- LD, <- (len_map bn_name (ad_bones d')), FN; apply len_map|].
  assert (BK : forall {A B} (Q : A -> B -> Prop) l l' y, Forall2 Q l l' -> In y l' -> exists x, In x l /\ Q x y).
  { clear. intros A B Q l l' y H. induction H as [|x z l l' XZ H IH]; intros []; [subst; exists x; split; [now left|exact XZ]|]. destruct (IH H0) as (w & W & WQ). exists w. split; [now right|exact WQ]. }
  intros b' c' B' C'. destruct (BK _ _ _ _ _ _ F B') as (b & B & _ & _ & FC). destruct (BK _ _ _ _ _ _ FC C') as (c & C & O & I & NE & LE & SO & RG). destruct (H' b c B C) as (_ & X2 & X3 & X4). rewrite O, I.
  split; [|split; [lia|split; [exact X4|exact X3]]]. split; [exact NE|]. split; [lia|]. split; [exact SO|]. split; [exact RG|]. rewrite O. destruct X3 as [X|[X|X]]; [unfold rotates in X|unfold translates in X|unfold scales, axis_scale in X]; intuition (match goal with H : ch_op c = _ |- _ => rewrite H end; reflexivity).
Qed.

(** C105, from end to end: an animated scene becomes a file that loads, with the scene's bones and the channels
    that were gathered and set in time. *)
Theorem C105_animated : forall I (spline_init : range -> I) args ms span roots name, let t := AnimDataModel.Tolerances (t_scale (tols args)) (t_rotate (tols args)) (t_translate (tols args)) (t_angle (tols args)) (t_repeat_angle (tols args)) in
  positive t -> debug_time args < 0 -> roots_only args = false -> scene_readable ms span roots ->
  exists d d' r a rep, gather_flat_anim ms (no_uniform args) span roots (new_anim_data t false) = Some d /\ set_times (preserve_start args) (stagger args) d = Some d' /\
    run_pipeline args ms span (Some roots) name true = Some (0, Some [r]) /\ load_rig spline_init r = Some a /\
    ra_names a = map (fun n => bone_base_name (scene_name n)) (scene_bones roots) /\ len (ra_parents a) = len (scene_bones roots) /\
    (forall i n q, getz (scene_bones roots) i = Some n -> getz (ra_parents a) i = Some q ->
       (q = kInvalidBoneIdx /\ In (skeleton_of n) (map skeleton_of roots)) \/
       (0 <= q < i /\ exists pn, getz (scene_bones roots) q = Some pn /\ In (skeleton_of n) (map skeleton_of (scene_children pn)))) /\
    Forall2 (bone_loaded spline_init) (ad_bones d') (ra_anims a) /\ len (ra_anims a) = len (scene_bones roots) /\
    ra_repeat a = rep /\ (rep = true -> ra_end a = int_max) /\ (rep = false -> end_of (flat_map bn_channels (ad_bones d')) (ra_end a)).
Proof.
  intros I si args ms span roots name t PT DT RO SR. destruct (scene_timed args ms span roots t PT SR) as (d & d' & G & E & RO' & NM & FP & LD & OK). rewrite RO in G, RO'.
  pose proof (C104_scene ms (no_uniform args) span roots t false d G) as SC. cbv zeta in SC. destruct SC as (_ & _ & _ & _ & PA & _). rewrite <- FP in PA.
  destruct (C85_round_trip_partial I si d' (data_repeat (repeat_pref args)) name) as (r & a & rep & CF & LR & _ & FB & FPA & FN & REST).
  { exact RO'. } { rewrite LD. apply SR. } { exact (C72_scene (map skeleton_of roots) t false d' PA). } { intros b c B C. apply (OK b c B C). }
  assert (FL : forall {A B} (P : A -> B -> Prop) l l', Forall2 P l l' -> len l = len l') by (intros A B P l l' F; unfold len; induction F; cbn [length]; lia).
  exists d, d', r, a, rep. split; [exact G|]. split; [exact E|]. split.
  { unfold run_pipeline. replace (0 <=? debug_time args) with false by lia. change (data_tolerances (tols args)) with t. rewrite RO, G, E. unfold output_flat_buffer. rewrite CF. reflexivity. }
  split; [exact LR|]. split; [rewrite FN; transitivity (map bone_base_name (map bn_name (ad_bones d'))); [now rewrite map_map|]; rewrite NM; now rewrite map_map|]. split; [rewrite <- (FL _ _ _ _ _ FPA); exact LD|]. split; [|split; [exact FB|split; [rewrite <- (FL _ _ _ _ _ FB); exact LD|exact REST]]].
  intros i n q N Q. assert (BP : exists b, getz (ad_bones d') i = Some b /\ q = (if bn_parent b =? -1 then kInvalidBoneIdx else bn_parent b)).
  { clear - FPA Q. revert i Q. induction FPA as [|x y l l' E F IH]; intros i Q; [apply getz_Some in Q; cbn in Q; lia|]. pose proof (getz_Some _ _ _ Q). destruct (Z.eq_dec i 0) as [->|NZ]; [injection Q as <-; exists x; auto|]. rewrite getz_cons_pos in Q by lia. destruct (IH _ Q) as (b & B & E2). exists b. rewrite getz_cons_pos by lia. auto. }
  destruct BP as (b & B & ->). pose proof (C84_skeleton (map skeleton_of roots) t false) as SK. cbv zeta in SK. destruct SK as (ns & NS & _ & LN & _ & _ & _ & PL).
  rewrite skeleton_bones in NS. subst ns.
  assert (GM : forall X Y (g : X -> Y) l x, getz l i = Some x -> getz (map g l) i = Some (g x)) by (intros X Y g l x G0; unfold getz in *; destruct (i <? 0); [discriminate|]; now apply map_nth_error).
  pose proof (GM _ _ bn_parent _ _ B) as MP. rewrite PA in MP. pose proof (getz_Some _ _ _ MP) as IR. rewrite len_map in IR. destruct (getz_in_range _ i IR) as [b0 B0]. rewrite (GM _ _ bn_parent _ _ B0) in MP. injection MP as MP. destruct (PL i b0 (skeleton_of n) B0 (GM _ _ _ _ _ N)) as (_ & _ & [[P1 P2]|(P1 & pn & P2 & P3)]); rewrite MP in *.
  - left. rewrite P1. split; [reflexivity|exact P2].
  - right. replace (bn_parent b =? -1) with false by lia. split; [exact P1|]. assert (J : 0 <= bn_parent b < len (scene_bones roots)) by (apply getz_Some in P2; rewrite len_map in P2; lia). destruct (getz_in_range _ _ J) as [pn' PN]. exists pn'. split; [exact PN|].
    assert (pn = skeleton_of pn') as -> by (unfold getz in *; destruct (bn_parent b <? 0); [discriminate|]; rewrite (map_nth_error skeleton_of _ _ PN) in P2; congruence). now destruct pn'.
Qed.
Print Assumptions C105_animated.

(** A scene of two bones that move along x is converted. *)
Lemma c104_scene_readable : scene_readable (fun t => t) (0, 1000) c104_scene.
Proof.
  constructor; [cbn; lia|apply c97_clock; lia|cbn; lia|cbn; lia|]. intros n N. split; [apply c104_readable; [cbn; lia|cbn; lia|exact N]|]. assert (K : total_keys c104_data = 2) by reflexivity. destruct N as [<-|[<-|[]]]; cbn [scene_data]; lia.
Qed.
Example c105_animated_met : exists r a, run_pipeline args_default (fun t => t) (0, 1000) (Some c104_scene) [120] true = Some (0, Some [r]) /\ load_rig (fun r => r) r = Some a /\ ra_names a = [[97]; [98]] /\ len (ra_anims a) = 2.
Proof.
  destruct (C105_animated range (fun r => r) args_default (fun t => t) (0, 1000) c104_scene [120]) as (d & d' & r & a & rep & _ & _ & RUN & LD & NM & _ & _ & _ & LA & _).
  - unfold positive. cbn. lra.
  - cbn. lia.
  - reflexivity.
  - exact c104_scene_readable.
  - exists r, a. split; [exact RUN|]. split; [exact LD|]. split; [exact NM|exact LA].
Qed.

(** ** On a rig *)
From Verif Require Import RangeProofs CurveProofs MathfuModel CompactSplineSpec EvaluatorModel EvaluatorSpec SimpleModel RigProps SplineClassModel PlayProps RigPlayProps ExportPlayProps.
(** C105, up to the screen: the file of an animated scene, played on a rig made for it, shows every bone where its
    channels and those of its ancestors put it. *)
Theorem C105_plays : forall from_matrix args ms span roots name root p deltas, let t := AnimDataModel.Tolerances (t_scale (tols args)) (t_rotate (tols args)) (t_translate (tols args)) (t_angle (tols args)) (t_repeat_angle (tols args)) in
  positive t -> debug_time args < 0 -> roots_only args = false -> scene_readable ms span roots -> repeat_ p = false -> modest p deltas -> deltas <> [] ->
  let cls := bone_class spline_class from_matrix in
  exists d d' r a d0 d1 d2, gather_flat_anim ms (no_uniform args) span roots (new_anim_data t false) = Some d /\ set_times (preserve_start args) (stagger args) d = Some d' /\
    run_pipeline args ms span (Some roots) name true = Some (0, Some [r]) /\ load_rig (fun r => r) r = Some a /\
    rig_new cls a root 0 = Some d0 /\ blend_to_anim cls a p 0 d0 = Some d1 /\ frames (rig_plays from_matrix) deltas d1 = Some d2 /\
    exists local, (forall i b, getz (ad_bones d') i = Some b -> keyframed_bone p deltas b (local i)) /\
      forall i, 0 <= i < len (scene_bones roots) -> exists l g, lineage (ra_parents a) i l /\ getz (globals d2) i = Some g /\ from_affine g = along root local l.
Proof.
  intros fm args ms span roots name root p deltas t PT DT RO SR RP MO ND cls. destruct (scene_timed args ms span roots t PT SR) as (d & d' & G & E & RO' & NM & FP & LD & OK). rewrite RO in G, RO'.
  pose proof (C104_scene ms (no_uniform args) span roots t false d G) as SC. cbv zeta in SC. destruct SC as (_ & _ & _ & _ & PA & _). rewrite <- FP in PA.
  destruct (C110_rig fm d' (data_repeat (repeat_pref args)) name root 0 p deltas) as (r & a & d0 & d1 & d2 & CF & LR & R0 & R1 & R2 & local & KB & LG & _).
  - exact RO'.
  - rewrite LD. apply SR.
  - exact (C72_scene (map skeleton_of roots) t false d' PA).
  - intros b c B C. destruct (OK b c B C) as (H1 & H2 & H3 & H4). split; [exact H1|]. split; [lia|]. split; [lia|]. split; [|congruence]. intros Q. unfold geometric, rotates, translates, scales, axis_scale in H4. destruct (ch_op c); try discriminate Q; intuition discriminate.
  - now left.
  - exact MO.
  - exact ND.
  - exists d, d', r, a, d0, d1, d2. split; [exact G|]. split; [exact E|]. split.
    { unfold run_pipeline. replace (0 <=? debug_time args) with false by lia. change (data_tolerances (tols args)) with t. rewrite RO, G, E. unfold output_flat_buffer. rewrite CF. reflexivity. }
    split; [exact LR|]. split; [exact R0|]. split; [exact R1|]. split; [exact R2|]. exists local. split; [exact KB|]. intros i I. apply LG. now rewrite LD.
Qed.
Print Assumptions C105_plays.
Example c105_plays_met : forall from_matrix, exists r a d0 d1 d2, run_pipeline args_default (fun t => t) (0, 1000) (Some c104_scene) [120] true = Some (0, Some [r]) /\ load_rig (fun r => r) r = Some a /\
  rig_new (bone_class spline_class from_matrix) a 0 0 = Some d0 /\ blend_to_anim (bone_class spline_class from_matrix) a (Playback 0 0 1 0 1 false) 0 d0 = Some d1 /\ frames (rig_plays from_matrix) [10%R; 500%R] d1 = Some d2.
Proof.
  intros fm. destruct (C105_plays fm args_default (fun t => t) (0, 1000) c104_scene [120] 0 (Playback 0 0 1 0 1 false) [10%R; 500%R]) as (d & d' & r & a & d0 & d1 & d2 & _ & _ & RUN & LD & R0 & R1 & R2 & _).
  - unfold positive. cbn. lra.
  - cbn. lia.
  - reflexivity.
  - exact c104_scene_readable.
  - reflexivity.
  - split; [cbn; lra|]. split; [cbn; lra|]. repeat constructor; cbn; lra.
  - discriminate.
  - exists r, a, d0, d1, d2. auto.
Qed.
