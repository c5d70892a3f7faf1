(** More cases that meet the hypotheses of theorems in files without their own: C57, C77, C79, C93 and C96. *)
From Verif Require Import RBase Base BaseFacts RangeModel VecModel AngleModel AngleProofs AngleProps OvershootModel OvershootProps.
From Verif Require Import FbxModel FbxCurveProps FreshProps.
From Verif Require Import MathfuModel MatrixModel SqtProps RigModel RigProps BlendProps.
From Coq Require Import Lia.
Local Open Scope R_scope.

(** ** C57, C79 *)
Example C57_case : exists d d' d'', rig_new demo_bones demo_anim 255 0 = Some d /\ blend_to_anims demo_bones [(demo_anim, EvaluatorModel.playback_from 0, 1); (demo_anim, EvaluatorModel.playback_from 0, 3)] 0 d = Some d' /\
  len (weights d') = 2%Z /\ set_weights [1; 1] d' = Some d'' /\ getz (weights d') 1 = Some (3 / 4).
Proof.
  destruct (C56_new mat4 mat4 demo_bones demo_anim 255 0 ltac:(apply C56_case)) as (d & E & D & _ & _ & _ & _ & Lm & Ms & _).
  assert (exists d', blend_to_anims demo_bones [(demo_anim, EvaluatorModel.playback_from 0, 1); (demo_anim, EvaluatorModel.playback_from 0, 3)] 0 d = Some d') as [d' E'].
  { destruct (C59_anims_partial _ _ demo_bones d [(demo_anim, EvaluatorModel.playback_from 0, 1); (demo_anim, EvaluatorModel.playback_from 0, 3)] 0 100 ltac:(apply C59_anims_case)) as (d' & E' & _); [| | | |eauto].
    - rewrite D. intros a [<- |[<- |[]]]; cbn [fst snd]; (split; [apply C59_anims_case|lra]).
    - unfold Rsum. cbn. lra.
    - split; [intros x [<- |[<- |[<- |[]]]]; cbn; lia|right; now left].
    - lia. }
  destruct (C57_blend_to_anims _ _ _ _ _ _ _ E') as (N & L & W). specialize (W 1%Z _ eq_refl). cbn [snd map] in W.
  exists d, d'. eexists. split; [exact E|]. split; [exact E'|]. split; [exact L|]. split; [|rewrite W; f_equal; unfold Rsum; cbn; lra].
  unfold set_weights. cbn [weights_total]. rewrite !Rleb_t by lra. rewrite Rltb_t by lra. reflexivity.
Qed.
(** ** C77 *)
Example C77_case : valid_angle (PI / 2) /\ (zero_coord XY (VecModel.V3 0 2 5) <> 0 \/ ninety_coord XY (VecModel.V3 0 2 5) <> 0).
Proof. split; [unfold valid_angle; pose proof PI_RGT_0; lra|right; cbn; lra]. Qed.
(** ** C79 *)
Example C79_case : bone_poses demo_bones [None; Some (moved 3); None; Some (moved 5)] 2 1 [(V3 3 0 0, qidentity, V3 1 1 1); (V3 5 0 0, qidentity, V3 1 1 1)] /\
  0 < 1 / 4 /\ Forall (fun w => 0 <= w) [3 / 4] /\ qdot qidentity qidentity = 1 /\ exists m, bone_blended demo_bones [None; Some (moved 3); None; Some (moved 5)] 2 [1 / 4; 3 / 4] 1 = Some m.
Proof.
  assert (Bp := proj1 C58_case). assert (F : Forall (fun w => 0 <= w) [3 / 4]) by (apply Forall_cons; [lra|apply Forall_nil]). assert (U : qdot qidentity qidentity = 1) by (unfold qdot; cbn; ring).
  split; [exact Bp|]. split; [lra|]. split; [exact F|]. split; [exact U|].
  apply (C79_first_weight_partial _ _ demo_bones _ 2 (1 / 4) [3 / 4] 1 (V3 3 0 0, qidentity, V3 1 1 1) [(V3 5 0 0, qidentity, V3 1 1 1)] eq_refl Bp ltac:(lra) F U).
Qed.
(** ** C93 *)
Example C93_case : exists t t' x', TargetModel.tar_target 7 1 5 RangeModel.Closest = Some t /\ set_target_index (read t) (OData 0 10 demo_init, 0) = Some x' /\ target_value (fst x') = 7 /\
  TargetModel.tar_current_to_target 1 2 3 4 5 RangeModel.Closest = Some t'.
Proof. do 3 eexists. split; [reflexivity|]. split; [reflexivity|]. split; reflexivity. Qed.
(** ** C96: two keys of a channel that do not differ, and two that do *)
Example C96_case : driven (c96_property 1) 0 (FbxChannel 0 (Some (c96_curve 1))) (FbxKey 0 0 0 0) [FbxKey 1000 0 (1 * 1000) 0] /\
  (forall c k rest, ~ driven (c96_property 1) 1 c k rest).
Proof.
  split; [do 4 eexists; repeat split; reflexivity|]. intros c k rest (chs & v & l & r & E1 & E2 & E3). injection E1 as <-. cbn in E2. injection E2 as <-. discriminate.
Qed.
