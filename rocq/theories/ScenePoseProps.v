(** What the bones of an animated scene show: C104 with C95. *)
From Verif Require Import RBase Base BaseFacts CurveModel MathfuModel MatrixModel RigModel AnimDataModel AnimChannelsModel AnimSumProps AnimChannelsProps FlatAnimModel FbxModel FbxProps FbxOrderProps PipelineModel PipelineProps FbxCurveProps SceneGatherProps.
Local Open Scope Z_scope.

(** What is recorded for the node, before channels are pruned, meets the conditions of C71 at
    the time [x]: the times of a channel are different ints; all curves are flat at their ends,
    or all have the same first and last time; and scales are not collapsed, or [x] is one of
    their node times or not between them. *)
Definition recorded_well (ms : Z -> Z) (nu : bool) (span : Z * Z) (t : tolerances) (f : fbx_data) (x : R) : Prop :=
  exists d chs, gather_properties ms f span kProperties (AnimData [Bone [] (-1) []] 0 t false) = Some d /\ cur_channels d = Some chs /\
    (forall c, In c chs -> in_time (ch_nodes c)) /\
    ((forall c, In c chs -> flat_ends (ch_nodes c)) \/ (exists t0 t1, forall c, In c chs -> spans t0 t1 (ch_nodes c))) /\
    (nu = true \/ forall c, In c chs -> axis_scale (ch_op c) -> sampled x (ch_nodes c)).

(** C104 for animated scenes: at the time [x] the channels of a bone show the FBX transform of
    its node, for amounts that differ from what is reported as constant, or recorded as a curve,
    by no more than the tolerances.  Partial: the rotation orders XYZ, ZYX and SphericXYZ
    (C95_order_refuted), and nodes that are recorded well. *)
Theorem C104_animated_partial : forall ms nu span roots t root_only d i b n x, positive t -> gather_flat_anim ms nu span roots (new_anim_data t root_only) = Some d ->
  getz (ad_bones d) i = Some b -> getz (scene_bones roots) i = Some n -> root_only = false \/ ~ below_animated d i ->
  orders_ok (fd_order (scene_data n)) -> (forall name, three_channels (fd_property (scene_data n) name) = true) -> recorded_well ms nu span t (scene_data n) x ->
  exists w, posed (bn_channels b) x = Some (fbx_matrix (fd_order (scene_data n)) w) /\
    forall k a name inverse, getz formula k = Some (name, inverse) -> 0 <= a < 3 -> meant ms t span (scene_data n) x name inverse a (w k a).
Proof.
  intros ms nu span roots t ro d i b n x PT E B N H OK TH (d1 & chs & GP & CC & IT & FS & SA). pose proof (C104_scene ms nu span roots t ro d E) as SC. cbv zeta in SC. destruct SC as (_ & _ & _ & _ & _ & SC). destruct (SC i b n B N) as [_ S2]. destruct (S2 H) as (d2 & G2 & C2).
  destruct (C95_transform_partial ms nu span (scene_data n) (AnimData [Bone [] (-1) []] 0 t false) d1 chs x PT OK TH eq_refl) as (d' & b' & w & G & CU & B' & _ & P & M); auto.
  - intros j c J G. apply getz_Some in G. cbn in J, G. lia.
  - exists w. split; [|exact M]. assert (d2 = d') as -> by congruence. unfold cur_channels in C2. rewrite CU in C2. cbn [ad_cur] in C2, B'. rewrite B' in C2. assert (EB : bn_channels b = bn_channels b') by congruence. rewrite EB. exact P.
Qed.
Print Assumptions C104_animated_partial.

(** A scene with two nodes, one below the other, that both move from 0 to 1500: it is gathered,
    and at every time the bones show an FBX transform whose translation along x is what the
    recorded curve shows, up to 1/100. *)
Definition c104_roots : list scene_node := [SceneNode [104] true c95_moving [SceneNode [105] true c95_moving []]].
Lemma c104_moves_well x : recorded_well (fun t => t) false (0, 1500) c95_tolerances c95_moving x.
Proof.
  exists (AnimData [Bone [] (-1) [Channel TranslateX 0 c95_nodes]] 0 c95_tolerances false), [Channel TranslateX 0 c95_nodes]. split; [exact c95_moves|]. split; [reflexivity|]. split; [|split].
  - intros c [<-|[]]. split; [discriminate|]. split; [repeat constructor|]. intros y [<-|[<-|[]]]; cbn; lia.
  - right. exists 0, 1500. intros c [<-|[]]. right. split; reflexivity.
  - right. intros c [<-|[]] [H | [H | H]]; discriminate.
Qed.
Example C104_animated_case : exists d, gather_flat_anim (fun t => t) false (0, 1500) c104_roots (new_anim_data c95_tolerances false) = Some d /\ len (ad_bones d) = 2 /\
  forall i b x, getz (ad_bones d) i = Some b -> exists w, posed (bn_channels b) x = Some (fbx_matrix 0 w) /\ (Rabs (w 0%Z 0%Z - played c95_nodes x) < 1 / 100)%R.
Proof.
  assert (PT : positive c95_tolerances) by (unfold positive; cbn; lra).
  destruct (C104_gathers (fun t => t) false (0, 1500) c104_roots c95_tolerances false PT) as (d & G & _).
  - cbn; lia.
  - apply c97_clock; lia.
  - cbn; lia.
  - assert (RD : node_readable (0, 1500) c95_moving).
    { split; [cbn; lia|]. intros name chs ch c E I F. destruct name; try discriminate E. injection E as <-. destruct I as [<-|[<-|[<-|[]]]]; try discriminate F. injection F as <-. right. split; [intros X a b Y K; destruct X as [|x [|y [|z X]]]; cbn in K; [injection K as <- <- <-; cbn; lia|injection K; intros; discriminate|injection K; intros; discriminate|injection K; intros; destruct X; discriminate]|]. exists [], (FbxKey 0 0 1000 1000), (FbxKey 1500 1500 1000 1000), []. split; [reflexivity|]. unfold meets. cbn. lia. }
    intros n N. destruct N as [<-|[<-|[]]]; exact RD.
  - exists d. split; [exact G|]. pose proof (C104_scene _ _ _ _ _ _ _ G) as SC. cbv zeta in SC. destruct SC as (_ & _ & _ & NM & _ & _). assert (L : len (ad_bones d) = 2) by (rewrite <- (len_map bn_name (ad_bones d)), NM; reflexivity). split; [exact L|].
    intros i b x B. pose proof (getz_Some _ _ _ B). assert (N : exists n, getz (scene_bones c104_roots) i = Some n /\ scene_data n = c95_moving).
    { destruct (Z.eq_dec i 0) as [->|I]; [eexists; split; reflexivity|]. assert (i = 1) as -> by lia. eexists; split; reflexivity. }
    destruct N as (n & N & DN). destruct (C104_animated_partial (fun t => t) false (0, 1500) c104_roots c95_tolerances false d i b n x PT G B N (or_introl eq_refl)) as (w & P & M); [rewrite DN; now left|rewrite DN; intros []; reflexivity|rewrite DN; apply c104_moves_well|].
    rewrite DN in P, M. exists w. split; [exact P|]. destruct (M 0 0 LclTranslation false eq_refl ltac:(lia)) as [[C _]|[_ (m & (chs & fc & c & E1 & E2 & E3 & E4) & D)]].
    + exfalso. revert C. unfold anim_const. cbn [c95_moving fd_property fp_anim]. change (getz _ 0) with (Some (FbxChannel 0 (Some c95_curve))). cbn [fh_curve c95_curve fk_value keys_const operation]. cbv zeta.
      replace (_ || _) with true; [discriminate|]. symmetry. apply Bool.orb_true_iff. right. apply Rltb_t. unfold flat_value, invert_value, tolerance_for_op. cbn [rotate_kind translate_kind c95_tolerances tl_translate]. rabs; lra.
    + injection E1 as <-. injection E2 as <-. injection E3 as <-. change (operation LclTranslation 0) with TranslateX in *. rewrite c95_recorded in E4. injection E4 as <-. exact D.
Qed.
