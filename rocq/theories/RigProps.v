(** C55 (rigs), C56: global transforms, C59 and C60: playing an animation, C64 and C65: rig
    animations. *)
From Verif Require Import RBase BaseFacts MathfuModel OvershootModel SimpleModel EvaluatorModel SplineTargetModel RangeModel MatrixModel MatrixProps SqtProps RigModel.
From Coq Require Import Lia.
Local Open Scope R_scope.

(** A class of bone motivators whose calls all succeed, for examples: a bone is a matrix. *)
Definition demo_bones : bclass mat4 mat4 :=
  BClass mat4 mat4 (fun _ => Some identity4) (fun ops _ b => Some (hd b ops)) (fun b => b) (fun b => Some (translation_of b, qidentity, V3 1 1 1)) (fun _ => Some 9%Z) (fun b => Some b).

(** ** C56 *)
(** The ancestors of bone [i], from a root to the bone itself. *)
Inductive lineage (parents : list Z) : Z -> list Z -> Prop :=
| lineage_root i : getz parents i = Some kInvalidBoneIdx -> lineage parents i [i]
| lineage_child i p l : getz parents i = Some p -> p <> kInvalidBoneIdx -> lineage parents p l -> lineage parents i (l ++ [i]).
(** Parents come before their children. *)
Definition parents_first (parents : list Z) (n : Z) : Prop :=
  forall i, (0 <= i < n)%Z -> exists p, getz parents i = Some p /\ (p = kInvalidBoneIdx \/ (0 <= p < i)%Z).
(** The product of the local transforms along the ancestors, without that of the root motion bone. *)
Definition along (root : Z) (local : Z -> mat4) (l : list Z) : mat4 := product (map (fun j => if (j =? root)%Z then identity4 else local j) l).

Lemma product_app a b : product (a ++ b) = mmul (product a) (product b).
Proof. induction a as [|x a IH]; cbn [app product fold_right]; [now rewrite mmul_1_l|]. fold (product (a ++ b)) (product a). now rewrite IH, mmul_assoc. Qed.
Lemma from_to_affine m : affine4 m -> from_affine (to_affine m) = m.
Proof. destruct m as [[] [] [] []]. unfold affine4. cbn. intros (-> & -> & -> & ->). reflexivity. Qed.
Lemma to_from_affine a : to_affine (from_affine a) = a.
Proof. now destruct a as [[] [] [] []]. Qed.
Lemma from_affine_affine a : affine4 (from_affine a).
Proof. destruct a as [[] [] [] []]. unfold affine4. cbn. auto. Qed.
Lemma transform_affine t r s : affine4 (transform t r s).
Proof. destruct t, r as [[] [] []], s. unfold affine4. cbn. auto. Qed.

Lemma along_identity root local l : (forall i, local i = identity4) -> along root local l = identity4.
Proof. intros H. unfold along. induction l as [|j l IH]; [reflexivity|]. cbn [map product fold_right]. unfold product in IH. rewrite IH, H, mmul_1_r. now destruct (j =? root)%Z. Qed.

Definition bone_done parents root (local : Z -> mat4) (out : list affine) (i : Z) : Prop :=
  exists l g, lineage parents i l /\ getz out i = Some g /\ from_affine g = along root local l.
Lemma step_ok parents n root (local : Z -> mat4) i out rt : parents_first parents n -> (0 <= i < n)%Z -> affine4 (local i) -> len out = n ->
  (forall j, (0 <= j < i)%Z -> bone_done parents root local out j) ->
  exists out', global_step parents root i (local i) (out, rt) = Some (out', if (i =? root)%Z then to_affine (local i) else rt) /\ len out' = n /\
    (forall j, (0 <= j < i + 1)%Z -> bone_done parents root local out' j).
Proof.
  intros P Hi A L D. destruct (P i Hi) as (p & Ep & Hp). unfold global_step. rewrite Ep. cbv zeta.
  assert (V : exists v l, (if (i =? root)%Z then if (p =? kInvalidBoneIdx)%Z then Some affine_identity else assert (p <? i)%Z ;; getz out p
     else if (p =? kInvalidBoneIdx)%Z then Some (to_affine (local i)) else assert (p <? i)%Z ;; g <- getz out p ;; Some (to_affine (mmul (from_affine g) (local i)))) = Some v /\
     lineage parents i l /\ from_affine v = along root local l).
  { destruct (Z.eqb_spec p kInvalidBoneIdx) as [->|Np].
    - exists (if (i =? root)%Z then affine_identity else to_affine (local i)), [i]. split; [now destruct (i =? root)%Z|]. split; [now constructor|].
      unfold along. cbn [map product fold_right]. rewrite mmul_1_r. destruct (i =? root)%Z; [reflexivity|now apply from_to_affine].
    - assert (Hp' : (0 <= p < i)%Z) by (destruct Hp; [contradiction|assumption]). destruct (D p Hp') as (l & g & Hl & Eg & G). rewrite Eg.
      replace (p <? i)%Z with true by (symmetry; apply Z.ltb_lt; lia).
      exists (if (i =? root)%Z then g else to_affine (mmul (from_affine g) (local i))), (l ++ [i]). split; [now destruct (i =? root)%Z|]. split; [econstructor; eassumption|].
      unfold along in *. rewrite map_app, product_app, <- G. cbn [map product fold_right]. rewrite mmul_1_r. destruct (i =? root)%Z; [now rewrite mmul_1_r|].
      apply from_to_affine, affine_mul; [apply from_affine_affine|exact A]. }
  destruct V as (v & l & -> & Hl & Ev). destruct (setz_Some out i v) as [out' E]; [lia|]. rewrite E. exists out'. split; [reflexivity|]. split; [rewrite (setz_len _ _ _ _ E); exact L|].
  intros j Hj. destruct (Z.eq_dec j i) as [->|Ne].
  - exists l, v. split; [exact Hl|]. split; [apply (getz_setz_eq _ _ _ _ E)|exact Ev].
  - destruct (D j ltac:(lia)) as (l' & g & A1 & A2 & A3). exists l', g. split; [exact A1|]. split; [|exact A3]. now rewrite (getz_setz_neq _ _ _ _ _ E Ne).
Qed.
Lemma loop_ok parents n root (local : Z -> mat4) (f : Z -> option mat4) : parents_first parents n -> (forall i, (0 <= i < n)%Z -> f i = Some (local i) /\ affine4 (local i)) ->
  forall fuel i out rt, (0 <= i)%Z -> (i + Z.of_nat fuel = n)%Z -> len out = n -> (forall j, (0 <= j < i)%Z -> bone_done parents root local out j) ->
  exists out', global_loop fuel i f parents root (out, rt) = Some (out', if (i <=? root)%Z && (root <? n)%Z then to_affine (local root) else rt) /\ len out' = n /\
    (forall j, (0 <= j < n)%Z -> bone_done parents root local out' j).
Proof.
  intros P F. induction fuel as [|fuel IH]; intros i out rt I0 E L D; cbn [global_loop].
  - exists out. rewrite Nat2Z.inj_0, Z.add_0_r in E. subst i. destruct (Z.leb_spec n root), (Z.ltb_spec root n); try lia; cbn [andb]; split; try reflexivity; split; assumption.
  - destruct (F i ltac:(lia)) as [Ef A]. rewrite Ef. destruct (step_ok parents n root local i out rt P ltac:(lia) A L D) as (out' & -> & L' & D').
    destruct (IH (i + 1)%Z out' (if (i =? root)%Z then to_affine (local i) else rt) ltac:(lia) ltac:(lia) L' D') as (out'' & -> & L'' & D''). exists out''. split; [|split; assumption].
    apply f_equal, f_equal. destruct (Z.eqb_spec i root) as [<-|Ne].
    + destruct (Z.leb_spec (i + 1) i), (Z.leb_spec i i), (Z.ltb_spec i n); try lia; cbn [andb]; reflexivity.
    + destruct (Z.leb_spec (i + 1) root), (Z.leb_spec i root); try lia; reflexivity.
Qed.

(** What a rig displays after an update. *)
Definition displays {B O} (d d' : rig_data B O) (local : Z -> mat4) : Prop :=
  len (globals d') = num_bones (defining d) /\
  (forall i, (0 <= i < num_bones (defining d))%Z -> exists l g, lineage (ra_parents (defining d)) i l /\ getz (globals d') i = Some g /\ from_affine g = along (root_bone d) local l) /\
  ((0 <= root_bone d < num_bones (defining d))%Z -> from_affine (root_transform d') = local (root_bone d)) /\
  (~ (0 <= root_bone d < num_bones (defining d))%Z -> root_transform d' = root_transform d) /\
  motivators d' = motivators d /\ weights d' = weights d /\ defining d' = defining d /\ root_bone d' = root_bone d /\ current d' = current d /\ end_time d' = end_time d.

Lemma num_bones_range {O} (a : rig_anim O) : (0 <= num_bones a < 256)%Z.
Proof. unfold num_bones. apply Z.mod_pos_bound. lia. Qed.
Lemma update_ok {B O} (c : bclass B O) (d : rig_data B O) (f : Z -> option mat4) local : f = (if (len (weights d) <=? 1)%Z then bone_local c (motivators d) else bone_blended c (motivators d) (num_bones (defining d)) (weights d)) ->
  parents_first (ra_parents (defining d)) (num_bones (defining d)) -> len (globals d) = num_bones (defining d) ->
  (forall i, (0 <= i < num_bones (defining d))%Z -> f i = Some (local i) /\ affine4 (local i)) ->
  exists d', update_global_transforms c d = Some d' /\ displays d d' local.
Proof.
  intros Ef P L F. unfold update_global_transforms. cbv zeta. rewrite <- Ef. pose proof (num_bones_range (defining d)) as N.
  destruct (loop_ok _ _ (root_bone d) local f P F (Z.to_nat (num_bones (defining d))) 0%Z (globals d) (root_transform d)) as (out & -> & L' & D); try lia.
  eexists. split; [reflexivity|]. unfold displays. cbn [globals root_transform motivators weights defining root_bone current end_time]. split; [exact L'|]. split; [exact D|].
  split; [|split; [|repeat split]].
  - intros Hr. destruct (Z.leb_spec 0 (root_bone d)), (Z.ltb_spec (root_bone d) (num_bones (defining d))); try lia. cbn [andb]. now apply from_to_affine, F.
  - intros Hr. destruct (Z.leb_spec 0 (root_bone d)), (Z.ltb_spec (root_bone d) (num_bones (defining d))); try lia; reflexivity.
Qed.

(** The transform a bone's motivator shows: its value, or identity before it has one. *)
Definition shown {B O} (c : bclass B O) (d : rig_data B O) (i : Z) : mat4 :=
  match getz (motivators d) i with Some (Some b) => b_value c b | _ => identity4 end.
(** With at most one animation, every bone's global transform is the product of the values
    of the motivators of its ancestors and itself. *)
Theorem C56_single : forall B O (c : bclass B O) (d : rig_data B O), (len (weights d) <= 1)%Z ->
  parents_first (ra_parents (defining d)) (num_bones (defining d)) -> len (globals d) = num_bones (defining d) -> (num_bones (defining d) <= len (motivators d))%Z ->
  (forall b, In (Some b) (motivators d) -> affine4 (b_value c b)) ->
  exists d', update_global_transforms c d = Some d' /\ displays d d' (shown c d).
Proof.
  intros B O c d W P L Lm A. apply (update_ok c d (bone_local c (motivators d))); try assumption.
  - destruct (Z.leb_spec (len (weights d)) 1); [reflexivity|lia].
  - intros i Hi. unfold bone_local, shown. destruct (getz_in_range (motivators d) i) as [m E]; [lia|]. rewrite E. split; [reflexivity|]. destruct m as [b|]; [|apply identity_affine].
    apply A. destruct (getz_split _ _ _ E) as (X & Y & -> & _). apply in_or_app. right. now left.
Qed.
Print Assumptions C56_single.
(** With several, it is the product of the blended transforms (C58 says what those are). *)
Theorem C56_blended : forall B O (c : bclass B O) (d : rig_data B O) local, (1 < len (weights d))%Z ->
  parents_first (ra_parents (defining d)) (num_bones (defining d)) -> len (globals d) = num_bones (defining d) ->
  (forall i, (0 <= i < num_bones (defining d))%Z -> bone_blended c (motivators d) (num_bones (defining d)) (weights d) i = Some (local i)) ->
  exists d', update_global_transforms c d = Some d' /\ displays d d' local.
Proof.
  intros B O c d local W P L F. apply (update_ok c d (bone_blended c (motivators d) (num_bones (defining d)) (weights d))); try assumption.
  - destruct (Z.leb_spec (len (weights d)) 1); [lia|reflexivity].
  - intros i Hi. split; [now apply F|]. specialize (F i Hi). unfold bone_blended in F. destruct (blend_parts _ _ _ _ _ _ _ _) as [[[p q] s]|]; [|discriminate]. destruct (qnormalize q); [|discriminate]. injection F as F. rewrite <- F. apply transform_affine.
Qed.
Print Assumptions C56_blended.
(** Every bone has exactly one line of ancestors. *)
Theorem C56_lineage : forall parents i l l', lineage parents i l -> lineage parents i l' -> l = l'.
Proof.
  intros parents i l l' H. revert l'. induction H as [i E|i p l E N H IH]; intros l' H'; inversion H' as [? E'|? p' l0 E' N' H0]; subst; try congruence.
  rewrite E in E'. injection E' as <-. now rewrite (IH _ H0).
Qed.
Print Assumptions C56_lineage.

(** A new rig shows identity everywhere. *)
Lemma getz_repeat {A} (x : A) n i : (0 <= i < Z.of_nat n)%Z -> getz (repeat x n) i = Some x.
Proof.
  intros Hi. destruct (getz_in_range (repeat x n) i) as [y E]; [rewrite len_repeat; lia|]. rewrite E. f_equal. destruct (getz_split _ _ _ E) as (X & Y & EE & _). apply (repeat_spec n x y). rewrite EE. apply in_or_app. right. now left.
Qed.
Theorem C56_new : forall B O (c : bclass B O) anim root t, parents_first (ra_parents anim) (num_bones anim) ->
  exists d, rig_new c anim root t = Some d /\ defining d = anim /\ root_bone d = root /\ current d = None /\ end_time d = t /\ weights d = [] /\ len (motivators d) = num_bones anim /\
    (forall i, (0 <= i < num_bones anim)%Z -> getz (motivators d) i = Some None /\ getz (globals d) i = Some affine_identity) /\ root_transform d = affine_identity.
Proof.
  intros B O c anim root t P. pose proof (num_bones_range anim) as N. unfold rig_new. cbv zeta.
  destruct (C56_single B O c (RigData (repeat None (Z.to_nat (num_bones anim))) (repeat affine_identity (Z.to_nat (num_bones anim))) [] anim None root affine_identity t)) as (d & E & L & D & Rt & Rt' & E1 & E2 & E3 & E4 & E5 & E6); cbn [weights defining globals motivators root_bone root_transform current end_time] in *.
  - change (len (@nil R)) with 0%Z. lia.
  - exact P.
  - rewrite len_repeat. lia.
  - rewrite len_repeat. lia.
  - intros b H. apply repeat_spec in H. discriminate.
  - exists d. rewrite E. repeat (split; [congruence || reflexivity|]). rewrite E1. split; [rewrite len_repeat; lia|].
    assert (Sh : forall i, shown c (RigData (O := O) (repeat None (Z.to_nat (num_bones anim))) (repeat affine_identity (Z.to_nat (num_bones anim))) [] anim None root affine_identity t) i = identity4).
    { intros i. unfold shown. cbn [motivators]. destruct (getz _ i) as [[b|]|] eqn:G; try reflexivity. destruct (getz_split _ _ _ G) as (X & Y & EE & _).
      assert (I : In (Some b) (repeat None (Z.to_nat (num_bones anim)))) by (rewrite EE; apply in_or_app; right; now left). apply repeat_spec in I. discriminate. }
    split.
    + intros i Hi. split; [apply getz_repeat; lia|]. destruct (D i Hi) as (l & g & _ & Eg & G). rewrite Eg. f_equal. rewrite <- (to_from_affine g), G. now rewrite (along_identity root _ l Sh).
    + destruct (Z_lt_dec root 0); [apply Rt'; lia|]. destruct (Z_lt_dec root (num_bones anim)); [|apply Rt'; lia].
      rewrite <- (to_from_affine (root_transform d)), Rt by lia. now rewrite Sh.
Qed.
Print Assumptions C56_new.
(** Each rig in a frame is updated from its own data. *)
Theorem C56_frame : forall B O (c : bclass B O) delta time time' (data data' : list (rig_data B O)), rig_frame c delta time data = Some (time', data') ->
  time' = (time + delta)%Z /\ forall i d, getz data i = Some d -> exists d', update_global_transforms c d = Some d' /\ getz data' i = Some d'.
Proof.
  intros B O c delta time time' data data'. unfold rig_frame. destruct (map_all _ data) as [r|] eqn:E; [|discriminate]. unfold add_int. destruct (_ && _)%bool; [|discriminate]. intros [= <- <-].
  split; [reflexivity|]. exact (map_all_getz _ _ _ E).
Qed.
Print Assumptions C56_frame.

(** A root that is the root motion bone, a child and a grandchild. *)
Definition moved (v : R) : mat4 := rows 1 0 0 v  0 1 0 0  0 0 1 0  0 0 0 1.
Definition demo_anim : rig_anim mat4 := RigAnim [MAnim false [moved 10]; MAnim false [moved 1]; MAnim false [moved 2]] [255; 0; 1]%Z [] 100 false.
Example C56_case : let d := RigData [Some (moved 10); Some (moved 1); Some (moved 2)] [affine_identity; affine_identity; affine_identity] [1] demo_anim None 0 affine_identity 0 in
  parents_first (ra_parents (defining d)) (num_bones (defining d)) /\ (forall b, In (Some b) (motivators d) -> affine4 (b_value demo_bones b)) /\
  lineage (ra_parents demo_anim) 2 [0; 1; 2]%Z /\ along 0 (shown demo_bones d) [0; 1; 2]%Z = moved 3.
Proof.
  cbv zeta. cbn [defining motivators]. split; [|split; [|split]].
  - intros i. change (num_bones demo_anim) with 3%Z. intros Hi. assert (C : (i = 0 \/ i = 1 \/ i = 2)%Z) by lia. destruct C as [->|[->| ->]].
    + exists 255%Z. split; [reflexivity|now left].
    + exists 0%Z. split; [reflexivity|right; lia].
    + exists 1%Z. split; [reflexivity|right; lia].
  - intros b [H|[H|[H|[]]]]; injection H as <-; unfold affine4; cbn; auto.
  - apply (lineage_child _ 2%Z 1%Z [0; 1]%Z); [reflexivity|discriminate|]. apply (lineage_child _ 1%Z 0%Z [0]%Z); [reflexivity|discriminate|]. now constructor.
  - transitivity (mmul identity4 (mmul (moved 1) (mmul (moved 2) identity4))); [reflexivity|]. rewrite mmul_1_l, mmul_1_r. unfold moved. mat_eq.
Qed.

(** ** C55, rigs *)
Lemma times_ok {B O} (c : bclass B O) : forall (ms : list (option B)) ts t0, Forall2 (fun m t => bone_time c m = Some t) ms ts ->
  exists t, times_max c t0 ms = Some t /\ (forall x, In x (t0 :: ts) -> x <= t)%Z /\ In t (t0 :: ts).
Proof.
  induction ms as [|m ms IH]; intros ts t0 F; inversion F as [|? t1 ? ts' E F']; subst; cbn [times_max].
  - exists t0. split; [reflexivity|]. split; [intros x [->|[]]; lia|now left].
  - rewrite E. destruct (IH ts' (Z.max t0 t1) F') as (t & Et & Le & Hin). exists t. split; [exact Et|]. split.
    + intros x [->|[->|Hx]]; [| |apply Le; now right]; specialize (Le _ (or_introl eq_refl)); lia.
    + destruct Hin as [Hin|Hin]; [|right; now right]. destruct (Z.max_spec t0 t1) as [[_ Hm]|[_ Hm]]; rewrite Hm in Hin; subst; [right; now left|now left].
Qed.
Theorem C55_rig : forall B O (c : bclass B O) (d : rig_data B O) ts, end_time d <> kMotiveTimeEndless -> Forall2 (fun m t => match m with Some b => b_time c b = Some t | None => t = 0%Z end) (motivators d) ts ->
  exists t, rig_time_remaining c d = Some t /\ latest ts t.
Proof.
  intros B O c d ts N F. unfold rig_time_remaining. destruct (Z.eqb_spec (end_time d) kMotiveTimeEndless); [contradiction|]. apply (times_ok c). clear - F. induction F as [|[b|] t ms ts H F IH]; constructor; cbn [bone_time]; try assumption. now rewrite H.
Qed.
Print Assumptions C55_rig.
(** The time of one of several animations: over its own bones only. *)
Lemma child_times_ok {B O} (c : bclass B O) : forall fuel k t0 (ms : list (option B)), (0 <= k)%Z -> (k + Z.of_nat fuel <= len ms)%Z ->
  child_times c fuel k t0 ms = times_max c t0 (firstn fuel (skipn (Z.to_nat k) ms)).
Proof.
  induction fuel as [|fuel IH]; intros k t0 ms K L; [reflexivity|].
  destruct (getz_in_range ms k) as [m E]; [lia|]. destruct (getz_split _ _ _ E) as (X & Y & -> & LX). cbn [child_times]. rewrite E.
  replace (Z.to_nat k) with (length X) by (unfold len in LX; lia). rewrite skipn_len_app. cbn [firstn times_max]. destruct (bone_time c m) as [t|]; [|reflexivity].
  rewrite IH by lia. replace (Z.to_nat (k + 1)) with (length X + 1)%nat by (unfold len in LX; lia).
  replace (skipn (length X + 1) (X ++ m :: Y)) with Y; [reflexivity|].
  rewrite skipn_app, skipn_all2 by lia. replace (length X + 1 - length X)%nat with 1%nat by lia. reflexivity.
Qed.
Theorem C55_child : forall B O (c : bclass B O) (d : rig_data B O) before own after index ts, motivators d = before ++ own ++ after -> (0 <= index < len (weights d))%Z ->
  len before = (index * num_bones (defining d))%Z -> len own = num_bones (defining d) -> Forall2 (fun m t => match m with Some b => b_time c b = Some t | None => t = 0%Z end) own ts ->
  exists t, child_time_remaining c index d = Some t /\ latest ts t.
Proof.
  intros B O c d before own after index ts E Hi Lb Lo F. unfold child_time_remaining. destruct (Z.ltb_spec index 0); [lia|]. destruct (Z.leb_spec (len (weights d)) index); [lia|]. cbn [orb].
  pose proof (len_nonneg before). pose proof (len_nonneg after). pose proof (len_nonneg own). rewrite E, <- Lb, <- Lo. rewrite child_times_ok by (rewrite ?len_app; lia).
  rewrite !len_to_nat, skipn_len_app, firstn_len_app. apply (times_ok c). clear - F. induction F as [|[b|] t ms ts H F IH]; constructor; cbn [bone_time]; try assumption. now rewrite H.
Qed.
Print Assumptions C55_child.
Theorem C55_child_none : forall B O (c : bclass B O) (d : rig_data B O) index, ~ (0 <= index < len (weights d))%Z -> child_time_remaining c index d = Some 0%Z.
Proof. intros B O c d index H. unfold child_time_remaining. destruct (Z.ltb_spec index 0); [reflexivity|]. destruct (Z.leb_spec (len (weights d)) index); [reflexivity|lia]. Qed.
Print Assumptions C55_child_none.
Example C55_rig_case : rig_time_remaining demo_bones (RigData [None; Some (moved 1)] [] [1] demo_anim None 0 affine_identity 0) = Some 9%Z /\
  Forall2 (fun m t => match m with Some b => b_time demo_bones b = Some t | None => t = 0%Z end) [None; Some (moved 1)] [0; 9]%Z.
Proof. split; [reflexivity|]. repeat constructor. Qed.

(** ** C59 *)
(** The motivator a bone starts from: its own, or a new one of the kind the animation needs. *)
Definition start_of {B O} (c : bclass B O) (m : option B) (ma : manim O) : option B := match m with Some b => Some b | None => b_init c (ma_sqt ma) end.

Lemma blend_bones_keep {B O} (c : bclass B O) anim p n : (n <= len (ra_anims anim))%Z -> forall fuel j (ms : list (option B)), (0 <= j)%Z -> (j + Z.of_nat fuel = n)%Z -> (n <= len ms)%Z ->
  (forall i m ma, (j <= i < n)%Z -> getz ms i = Some m -> getz (ra_anims anim) i = Some ma -> exists b b', start_of c m ma = Some b /\ b_blend c (ma_ops ma) p b = Some b') ->
  exists ms', blend_bones c fuel Keep 0 j anim p ms = Some ms' /\ len ms' = len ms /\ (forall i, ~ (j <= i < n)%Z -> getz ms' i = getz ms i) /\
    (forall i, (j <= i < n)%Z -> exists m ma b b', getz ms i = Some m /\ getz (ra_anims anim) i = Some ma /\ start_of c m ma = Some b /\ b_blend c (ma_ops ma) p b = Some b' /\ getz ms' i = Some (Some b')).
Proof.
  intros La. induction fuel as [|fuel IH]; intros j ms J E L Ok; cbn [blend_bones].
  - exists ms. split; [reflexivity|]. split; [reflexivity|]. split; [reflexivity|]. intros i Hi. lia.
  - destruct (getz_in_range ms j) as [m Em]; [lia|]. destruct (getz_in_range (ra_anims anim) j) as [ma Ea]; [lia|]. destruct (Ok j m ma ltac:(lia) Em Ea) as (b & b' & Eb & Eb').
    unfold blend_bone, anim_at. rewrite Ea. cbn [Z.add]. replace (0 + j)%Z with j by lia. rewrite Em. fold (start_of c m ma). rewrite Eb, Eb'.
    destruct (setz_Some ms j (Some b')) as [ms1 E1]; [lia|]. rewrite E1. pose proof (setz_len _ _ _ _ E1) as L1.
    destruct (IH (j + 1)%Z ms1 ltac:(lia) ltac:(lia) ltac:(lia)) as (ms' & E' & L' & Out & In').
    { intros i m' ma' Hi. rewrite (getz_setz_neq _ _ _ _ _ E1) by lia. apply Ok. lia. }
    exists ms'. split; [exact E'|]. split; [lia|]. split.
    + intros i Hi. rewrite Out by lia. apply (getz_setz_neq _ _ _ _ _ E1). lia.
    + intros i Hi. destruct (Z.eq_dec i j) as [->|Ne].
      * exists m, ma, b, b'. repeat (split; [assumption|]). rewrite Out by lia. apply (getz_setz_eq _ _ _ _ E1).
      * destruct (In' i ltac:(lia)) as (m' & ma' & b1 & b1' & A1 & A2). exists m', ma', b1, b1'. split; [|exact A2]. now rewrite <- (getz_setz_neq _ _ _ _ _ E1 Ne).
Qed.
Lemma num_bones_le {O} (a : rig_anim O) : (num_bones a <= len (ra_anims a))%Z.
Proof. unfold num_bones. pose proof (len_nonneg (ra_anims a)). apply Z.mod_le; lia. Qed.
Lemma matches_count {O} (a b : rig_anim O) : matches_hierarchy a b = Some true -> num_bones a = num_bones b.
Proof. unfold matches_hierarchy, matches_parents. destruct (Z.eqb_spec (num_bones a) (num_bones b)); [auto|discriminate]. Qed.
Lemma add_int_ok a b : (-2147483648 <= a + b <= 2147483647)%Z -> add_int a b = Some (a + b)%Z.
Proof. intros H. unfold add_int. destruct (Z.leb_spec (-2147483648) (a + b)), (Z.leb_spec (a + b) 2147483647); try lia. reflexivity. Qed.
Lemma len_resize {A} (l : list A) n x : (0 <= n)%Z -> len (resize l n x) = n.
Proof. intros H. unfold resize, len. rewrite app_length, firstn_length, repeat_length. lia. Qed.

(** BlendToAnim on a rig with the same hierarchy, or on a rig with one bone: if the calls to
    the motivators succeed then so does BlendToAnim, and every bone is blended to the
    operations of the bone with the same index.  Partial: an animation with a single bone on
    a rig with several bones is missing. *)
Theorem C59_accepts_partial : forall B O (c : bclass B O) (d : rig_data B O) anim p t,
  (-2147483648 <= t + ra_end anim <= 2147483647)%Z ->
  matches_hierarchy anim (defining d) = Some true \/ (num_bones (defining d) = 1 /\ 1 <= num_bones anim)%Z ->
  (forall i m ma, (0 <= i < num_bones (defining d))%Z -> getz (resize (motivators d) (num_bones (defining d)) None) i = Some m -> getz (ra_anims anim) i = Some ma -> exists b b', start_of c m ma = Some b /\ b_blend c (ma_ops ma) p b = Some b') ->
  exists d', blend_to_anim c anim p t d = Some d' /\ len (motivators d') = num_bones (defining d) /\ current d' = Some anim /\ end_time d' = (t + ra_end anim)%Z /\ defining d' = defining d /\ len (weights d') = 1%Z /\
    (forall i, (0 <= i < num_bones (defining d))%Z -> exists m ma b b', getz (resize (motivators d) (num_bones (defining d)) None) i = Some m /\ getz (ra_anims anim) i = Some ma /\
       start_of c m ma = Some b /\ b_blend c (ma_ops ma) p b = Some b' /\ getz (motivators d') i = Some (Some b')).
Proof.
  intros B O c d anim p t T H Ok. unfold blend_to_anim. rewrite (add_int_ok _ _ T). cbv zeta. pose proof (num_bones_range (defining d)) as N. pose proof (num_bones_le anim) as La.
  assert (F : fits anim (defining d) = Some true). { unfold fits. destruct ((num_bones (defining d) =? 1)%Z || (num_bones anim =? 1)%Z)%bool eqn:E; [reflexivity|]. destruct H as [H|[H _]]; [exact H|]. rewrite H in E. discriminate. }
  rewrite F. assert (Ln : (num_bones (defining d) <= len (ra_anims anim))%Z) by (destruct H as [H|H]; [apply matches_count in H; lia|lia]).
  destruct (blend_bones_keep c anim p (num_bones (defining d)) Ln (Z.to_nat (num_bones (defining d))) 0%Z (resize (motivators d) (num_bones (defining d)) None)) as (ms & E & L & _ & D).
  - lia.
  - lia.
  - rewrite len_resize; lia.
  - exact Ok.
  - rewrite E. eexists. split; [reflexivity|]. cbn [motivators current end_time defining weights]. rewrite len_resize in L by lia. repeat (split; [assumption || reflexivity|]). split; [now rewrite len_resize|exact D].
Qed.
Print Assumptions C59_accepts_partial.
(** The assert in BlendToAnim allows an animation with one bone on every rig, but the loop
    reads one animation per bone of the rig. *)
Theorem C59_single_bone_refuted : forall B O (c : bclass B O) (d : rig_data B O) anim p t, len (ra_anims anim) = 1%Z -> (2 <= num_bones (defining d))%Z ->
  fits anim (defining d) = Some true /\ blend_to_anim c anim p t d = None.
Proof.
  intros B O c d anim p t L N. assert (N1 : num_bones anim = 1%Z) by (unfold num_bones; now rewrite L). assert (F : fits anim (defining d) = Some true) by (unfold fits; rewrite N1; now rewrite orb_true_r).
  split; [exact F|]. unfold blend_to_anim. destruct (add_int t (ra_end anim)); [|reflexivity]. cbv zeta. rewrite F. replace (Z.to_nat (num_bones (defining d))) with (S (S (Z.to_nat (num_bones (defining d) - 2)))) by lia.
  cbn [blend_bones]. destruct (blend_bone c Keep 0 0 anim p (resize (motivators d) (num_bones (defining d)) None)); [|reflexivity]. unfold blend_bone, anim_at. rewrite (getz_None _ (0 + 1)) by lia. reflexivity.
Qed.
Print Assumptions C59_single_bone_refuted.
Example C59_case : matches_hierarchy (RigAnim [MAnim false []; MAnim false [moved 7]; MAnim false []] [255; 0; 1]%Z [] 50 false) demo_anim = Some true /\
  (exists d, rig_new demo_bones demo_anim 255 0 = Some d) /\ len (ra_anims (RigAnim [MAnim false [moved 7]] [255]%Z [] 50 false)) = 1%Z /\ num_bones demo_anim = 3%Z.
Proof.
  split; [reflexivity|]. split; [|split; reflexivity]. destruct (C56_new mat4 mat4 demo_bones demo_anim 255 0) as (d & E & _); [apply C56_case|eauto].
Qed.
(** The kind of a motivator is chosen by the first animation: after a matrix animation, an
    SQT animation of the same hierarchy cannot be played. *)
Definition matrix_only : rig_anim (opinit unit R) := RigAnim [MAnim false [OpInit None 0 TranslateX (UValue 1)]] [255]%Z [] 10 false.
Definition sqt_only : rig_anim (opinit unit R) := RigAnim [MAnim true [OpInit None 0 QuaternionW (UValue 1)]] [255]%Z [] 10 false.
Theorem C59_mixed_refuted : forall fm p, exists d0 d1, rig_new (bone_class demo_class fm) matrix_only 255 0 = Some d0 /\ blend_to_anim (bone_class demo_class fm) matrix_only p 0 d0 = Some d1 /\
  matches_hierarchy sqt_only (defining d1) = Some true /\ blend_to_anim (bone_class demo_class fm) sqt_only p 0 d1 = None.
Proof. intros fm p. eexists. eexists. split; [reflexivity|]. split; [reflexivity|]. split; reflexivity. Qed.
Print Assumptions C59_mixed_refuted.

(** ** C60 *)
Theorem C60_start_zero_partial : forall B O (c : bclass B O) (d d' : rig_data B O) anim p, ra_end anim = kMotiveTimeEndless -> blend_to_anim c anim p 0 d = Some d' -> rig_time_remaining c d' = Some kMotiveTimeEndless.
Proof.
  intros B O c d d' anim p E. unfold blend_to_anim. rewrite E. change (add_int 0 kMotiveTimeEndless) with (Some kMotiveTimeEndless). cbv zeta. destruct (fits _ _) as [[|]|]; try discriminate. destruct (blend_bones _ _ _ _ _ _ _ _); [|discriminate]. intros [= <-]. reflexivity.
Qed.
Print Assumptions C60_start_zero_partial.
(** Started later, the end time overflows. *)
Theorem C60_later_refuted : forall B O (c : bclass B O) (d : rig_data B O) anim p t, ra_end anim = kMotiveTimeEndless -> (0 < t)%Z -> blend_to_anim c anim p t d = None.
Proof.
  intros B O c d anim p t E T. unfold blend_to_anim, add_int. rewrite E. unfold kMotiveTimeEndless. destruct (Z.leb_spec (t + 2147483647) 2147483647); [lia|]. now rewrite andb_false_r.
Qed.
Print Assumptions C60_later_refuted.
Example C60_case : exists d d', rig_new demo_bones demo_anim 255 0 = Some d /\
  blend_to_anim demo_bones (RigAnim (ra_anims demo_anim) [255; 0; 1]%Z [] kMotiveTimeEndless true) (Playback 0 0 1 0 1 true) 0 d = Some d'.
Proof.
  destruct (C56_new mat4 mat4 demo_bones demo_anim 255 0 ltac:(apply C56_case)) as (d & E & D & _ & _ & _ & _ & Lm & Ms & _).
  destruct (C59_accepts_partial mat4 mat4 demo_bones d (RigAnim (ra_anims demo_anim) [255; 0; 1]%Z [] kMotiveTimeEndless true) (Playback 0 0 1 0 1 true) 0) as (d' & E' & _).
  - cbn [ra_end]. unfold kMotiveTimeEndless. lia.
  - left. rewrite D. reflexivity.
  - intros i m ma _ _ _. destruct m; cbn; eauto.
  - exists d, d'. auto.
Qed.

(** ** C64 *)
(** The first operation that drives [t]; the uniform scale drives every scale. *)
Definition drives (t u : mtype) : Prop := u = t \/ (scale_op t = true /\ u = ScaleUniformly).
Theorem C64_found : forall I S bone types (a : rig_anim (opinit I S)) m out before it after t k,
  getz (ra_anims a) bone = Some m -> splines_and_constants bone types a = Some out -> getz types k = Some t ->
  ma_ops m = before ++ it :: after -> drives t (i_type it) -> (forall x, In x before -> ~ drives t (i_type x) /\ i_type x <> InvalidOp) ->
  getz out k = Some (match i_union it with UValue v => (None, v) | USpline s => (Some s, default_value t) | _ => (None, default_value t) end).
Proof.
  intros I S bone types a m out before it after t k Em E Ek Eo Dr Nb. unfold splines_and_constants, anim_at in E. rewrite Em in E. injection E as <-.
  assert (G : forall (f : mtype -> option S * R) l i x, getz l i = Some x -> getz (map f l) i = Some (f x)).
  { intros f l i x Hx. destruct (getz_split _ _ _ Hx) as (X & Y & -> & L). rewrite map_app. cbn [map]. apply getz_app. now rewrite len_map. }
  rewrite (G _ _ _ _ Ek), Eo. clear Eo Em. f_equal. unfold spline_and_constant. cbv zeta. induction before as [|x before IH].
  - cbn [app]. replace (_ || _)%bool with true; [now destruct (i_union it)|]. destruct Dr as [->|[Sc ->]]; [now destruct t|]. rewrite Sc. now rewrite orb_true_r.
  - cbn [app]. destruct (Nb x (or_introl eq_refl)) as [N1 N2]. replace (_ || _)%bool with false.
    + apply IH. intros y Hy. apply Nb. now right.
    + symmetry. unfold drives in N1. destruct t; cbn [scale_op] in *; destruct (i_type x); try reflexivity; exfalso; tauto.
Qed.
Print Assumptions C64_found.
Theorem C64_default : forall I S bone types (a : rig_anim (opinit I S)) m out t k,
  getz (ra_anims a) bone = Some m -> splines_and_constants bone types a = Some out -> getz types k = Some t ->
  (forall x, In x (ma_ops m) -> ~ drives t (i_type x) /\ i_type x <> InvalidOp) -> getz out k = Some (None, default_value t).
Proof.
  intros I S bone types a m out t k Em E Ek Nb. unfold splines_and_constants, anim_at in E. rewrite Em in E. injection E as <-.
  assert (G : forall (f : mtype -> option S * R) l i x, getz l i = Some x -> getz (map f l) i = Some (f x)).
  { intros f l i x Hx. destruct (getz_split _ _ _ Hx) as (X & Y & -> & L). rewrite map_app. cbn [map]. apply getz_app. now rewrite len_map. }
  rewrite (G _ _ _ _ Ek). clear Em. f_equal. unfold spline_and_constant. cbv zeta. induction (ma_ops m) as [|x l IH]; [reflexivity|].
  destruct (Nb x (or_introl eq_refl)) as [N1 N2]. replace (_ || _)%bool with false.
  + apply IH. intros y Hy. apply Nb. now right.
  + symmetry. unfold drives in N1. destruct t; cbn [scale_op] in *; destruct (i_type x); try reflexivity; exfalso; tauto.
Qed.
Print Assumptions C64_default.
(** One answer per requested type. *)
Theorem C64_all : forall I S bone types (a : rig_anim (opinit I S)) m, getz (ra_anims a) bone = Some m -> exists out, splines_and_constants bone types a = Some out /\ len out = len types.
Proof. intros I S bone types a m E. unfold splines_and_constants, anim_at. rewrite E. eexists. split; [reflexivity|apply len_map]. Qed.
Print Assumptions C64_all.
(** NumOps is the length of all the lists of operations put together. *)
Lemma num_ops_loop_ok {O} (a : rig_anim O) : forall fuel i acc, (0 <= i)%Z -> (i + Z.of_nat fuel = len (ra_anims a))%Z ->
  num_ops_loop fuel i acc a = Some (acc + len (concat (map ma_ops (skipn (Z.to_nat i) (ra_anims a)))))%Z.
Proof.
  induction fuel as [|fuel IH]; intros i acc Hi E; cbn [num_ops_loop].
  - rewrite skipn_all2 by (unfold len in E; lia). cbn [map concat]. change (len (@nil O)) with 0%Z. f_equal. lia.
  - destruct (getz_in_range (ra_anims a) i) as [m Em]; [lia|]. rewrite Em, IH by lia. f_equal. destruct (getz_split _ _ _ Em) as (X & Y & Ea & LX). rewrite Ea.
    replace (Z.to_nat (i + 1)) with (length X + 1)%nat by (unfold len in LX; lia). replace (Z.to_nat i) with (length X) by (unfold len in LX; lia). rewrite skipn_len_app.
    replace (skipn (length X + 1) (X ++ m :: Y)) with Y by (rewrite skipn_app, skipn_all2 by lia; replace (length X + 1 - length X)%nat with 1%nat by lia; reflexivity).
    cbn [map concat]. rewrite len_app. lia.
Qed.
Theorem C64_num_ops : forall O (a : rig_anim O), (len (ra_anims a) <= kMaxNumBones)%Z -> num_ops a = Some (len (concat (map ma_ops (ra_anims a)))).
Proof.
  intros O a L. unfold kMaxNumBones in L. pose proof (len_nonneg (ra_anims a)). unfold num_ops, num_bones. rewrite Z.mod_small by lia. rewrite num_ops_loop_ok; [|lia|lia]. reflexivity.
Qed.
Print Assumptions C64_num_ops.
Example C64_case : splines_and_constants 0 [ScaleY; RotateX] (RigAnim (O := opinit unit R) [MAnim false [OpInit None 0 TranslateX (UValue 5); OpInit None 1 ScaleUniformly (USpline 8); OpInit None 2 ScaleY (UValue 3)]] [255]%Z [] 0 false)
  = Some [(Some 8, 1); (None, 0)] /\ drives ScaleY ScaleUniformly.
Proof. split; [reflexivity|right; split; reflexivity]. Qed.

(** ** C65 *)
Lemma same_bytes_ok : forall n i a b, (0 <= i)%Z -> (i + Z.of_nat n <= len a)%Z -> (i + Z.of_nat n <= len b)%Z ->
  exists r, same_bytes n i a b = Some r /\ (r = true <-> forall j, (i <= j < i + Z.of_nat n)%Z -> getz a j = getz b j).
Proof.
  induction n as [|n IH]; intros i a b Hi La Lb; cbn [same_bytes].
  - exists true. split; [reflexivity|]. split; [intros _ j Hj; lia|reflexivity].
  - destruct (getz_in_range a i) as [x Ex]; [lia|]. destruct (getz_in_range b i) as [y Ey]; [lia|]. rewrite Ex, Ey. destruct (IH (i + 1)%Z a b ltac:(lia) ltac:(lia) ltac:(lia)) as (r & -> & Hr). eexists. split; [reflexivity|]. rewrite andb_true_iff, Z.eqb_eq, Hr. split.
    + intros [-> H] j Hj. destruct (Z.eq_dec j i) as [->|]; [congruence|apply H; lia].
    + intros H. split; [|intros j Hj; apply H; lia]. specialize (H i ltac:(lia)). congruence.
Qed.
(** MatchesHierarchy decides equality of the numbers of bones and of the parents.  Partial:
    the names of the bones are not compared. *)
Theorem C65_parents_partial : forall O (a b : rig_anim O), len (ra_parents a) = len (ra_anims a) -> len (ra_parents b) = len (ra_anims b) -> (len (ra_anims a) <= kMaxNumBones)%Z -> (len (ra_anims b) <= kMaxNumBones)%Z ->
  exists r, matches_hierarchy a b = Some r /\ (r = true <-> len (ra_anims a) = len (ra_anims b) /\ ra_parents a = ra_parents b).
Proof.
  intros O a b Pa Pb La Lb. unfold kMaxNumBones in *. pose proof (len_nonneg (ra_anims a)). pose proof (len_nonneg (ra_anims b)). unfold matches_hierarchy, matches_parents, num_bones. rewrite !Z.mod_small by lia.
  destruct (Z.eqb_spec (len (ra_anims a)) (len (ra_anims b))) as [E|E].
  - destruct (same_bytes_ok (Z.to_nat (len (ra_anims a))) 0 (ra_parents a) (ra_parents b)) as (r & -> & Hr); try lia. exists r. split; [reflexivity|]. rewrite Hr. split.
    + intros H1. split; [exact E|]. apply getz_ext. intros i. destruct (Z_lt_dec i 0); [rewrite !getz_None by lia; reflexivity|]. destruct (Z_lt_dec i (len (ra_anims a))); [apply H1; lia|]. rewrite !getz_None by lia. reflexivity.
    + intros [_ ->]. reflexivity.
  - exists false. split; [reflexivity|]. split; [discriminate|]. intros [C _]. contradiction.
Qed.
Print Assumptions C65_parents_partial.
(** Bones that have the same parents but other names match. *)
Theorem C65_names_refuted : exists a b : rig_anim mat4, matches_hierarchy a b = Some true /\ ra_names a <> ra_names b /\ len (ra_names a) = num_bones a /\ len (ra_names b) = num_bones b.
Proof.
  exists (RigAnim [MAnim false []; MAnim false []] [255; 0]%Z [[1]; [2]]%Z 0 false), (RigAnim [MAnim false []; MAnim false []] [255; 0]%Z [[1]; [3]]%Z 0 false). split; [reflexivity|]. split; [discriminate|]. split; reflexivity.
Qed.
Print Assumptions C65_names_refuted.
Example C65_case : len (ra_parents demo_anim) = len (ra_anims demo_anim) /\ (len (ra_anims demo_anim) <= kMaxNumBones)%Z.
Proof. split; [reflexivity|]. change (len (ra_anims demo_anim)) with 3%Z. unfold kMaxNumBones. lia. Qed.
