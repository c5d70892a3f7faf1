(** Cases that meet the hypotheses of C103, C104 and C105. *)
From Verif Require Import RBase BaseFacts CommandLineModel RangeModel CurveModel MatrixModel MatrixProps RigModel AnimTableModel AnimDataModel AnimSpec AnimCurveProps AnimPruneProps AnimTimeProps AnimChannelsModel AnimSumProps AnimChannelsProps AnimChannelsCases AnimStableProps FlatAnimModel FlatAnimProps FlatLoadProps FbxModel FbxProps FbxOrderProps PipelineModel PipelineProps PipelineRunProps.
Local Open Scope Z_scope.

(** C103: channels of which two are summed and three are collapsed the first time. *)
Example c103_met : regular (bn_channels c71_bone) /\ exists b', prune_bone c70_tolerances false c71_bone = Some b' /\ len (bn_channels b') < len (bn_channels c71_bone) /\ prune_bone c70_tolerances false b' = Some b'.
Proof.
  assert (RG : regular (bn_channels c71_bone)).
  { constructor.
    - intros c C. repeat (destruct C as [<-|C]; [unfold rotates, translates, scales, axis_scale; cbn; tauto|]). destruct C.
    - unfold c71_bone. cbn [bn_channels]. repeat (apply FOP_cons; [repeat apply Forall_cons; try apply Forall_nil|]); try apply FOP_nil; unfold pair_ok, by_id, scale_once, translates, scales, axis_scale; cbn [konst_channel c71_rotation ch_op ch_id room]; (split; [first [left; tauto|right; split; [lia|first [left; tauto|right; lia]]]|]); intros; repeat split; try tauto; try congruence; intuition discriminate.
    - intros c C. repeat (destruct C as [<-|C]; [cbn; lia|]). destruct C. }
  split; [exact RG|]. eexists. split; [exact C71_case|]. split; [cbn; lia|]. exact (C103_prune_again _ _ _ _ RG C71_case).
Qed.

(** C104 and C105: a scene with a bone, a bone below it that is there for a mesh, and a node that is no bone. *)
Definition c105_scene : list scene_node := [SceneNode [97] true (c95_data 0) [SceneNode [98] false (c95_data 5) [SceneNode [99] true (c95_data 6) []]]; SceneNode [100] false (c95_data 1) []].
Example c105_met : map scene_name (scene_bones c105_scene) = [[97]; [98]; [99]] /\
  exists r a, run_pipeline args_default (fun t => t) (0, 0) (Some c105_scene) [120] true = Some (0, Some [r]) /\ load_rig (fun r => r) r = Some a /\ ra_names a = [[97]; [98]; [99]] /\ ra_parents a = [kInvalidBoneIdx; 0; 1].
Proof.
  split; [reflexivity|]. destruct (C105_static_partial range (fun r => r) args_default (fun t => t) (0, 0) c105_scene [120]) as (r & a & RUN & LD & NM & LA & LP & PA & _).
  - unfold positive. cbn. lra.
  - cbn. lia.
  - reflexivity.
  - cbn. lia.
  - intros n N. cbn in N. destruct N as [<-|[<-|[<-|[]]]]; cbn [scene_data c95_data fd_order]; (split; [unfold orders_ok; lia|intros q; reflexivity]).
  - exists r, a. split; [exact RUN|]. split; [exact LD|]. split; [exact NM|]. change (len (scene_bones c105_scene)) with 3 in LP.
    destruct (ra_parents a) as [|p0 [|p1 [|p2 [|]]]]; rewrite ?len_cons in LP; try (pose proof (len_nonneg l); lia); try (cbn in LP; lia).
    pose proof (PA 0 _ p0 eq_refl eq_refl) as P0. pose proof (PA 1 _ p1 eq_refl eq_refl) as P1. pose proof (PA 2 _ p2 eq_refl eq_refl) as P2.
    destruct P0 as [[-> _]|[? _]]; [|lia]. destruct P1 as [[_ P1]|[P1 _]]; [cbn in P1; exfalso; intuition discriminate|]. replace p1 with 0 by lia.
    destruct P2 as [[_ P2]|[P2 (pn & Q & W)]]; [cbn in P2; exfalso; intuition discriminate|]. assert (p2 = 0 \/ p2 = 1) as [-> | ->] by lia; [|reflexivity]. injection Q as <-. cbn in W. exfalso. intuition discriminate.
Qed.

(** C105, the times: two curves, the first from 100 to 200 and the second from 50 to 300. *)
Definition c105_data : anim_data := AnimData [Bone [] (-1) [Channel TranslateX 0 [SNode 100 1 0; SNode 200 2 0]; Channel TranslateY 1 [SNode 50 3 0; SNode 300 4 0]]] (-1) c95_tolerances false.
Example c105_times_met : exists d', set_times false false c105_data = Some d' /\ forall n, animated d' n -> 0 <= sn_time (first_node n) /\ sn_time (end_node n) = 250.
Proof.
  destruct (C105_times false false c105_data) as (d' & lo & hi & E & _ & _ & SK & ST & EN).
  - intros b c x [<-|[]] [<-|[<-|[]]] [<-|[<-|[]]]; cbn; lia.
  - exists d'. split; [exact E|]. assert (hi = 250) as <-; [|intros n A; split; [now apply ST|now apply EN]]. vm_compute in E. injection E as <-. symmetry. refine (proj1 (EN eq_refl [SNode 0 3 0; SNode 250 4 0] _)). eexists _, _. split; [left; reflexivity|]. split; [right; left; reflexivity|]. split; [reflexivity|reflexivity].
Qed.
