(** How rig animations are built (C100), when a rig accepts the hierarchy of a mesh (C65), and
    what const motivators report (C48). *)
From Verif Require Import RBase BaseFacts MatrixModel SimpleModel RigModel RigProps.
Local Open Scope Z_scope.

(** A call of InitMatrixAnim: bone, parent, name and the animation the caller fills in. *)
Record call (O : Type) := Call { c_idx : Z; c_parent : Z; c_name : list Z; c_anim : manim O }.
Arguments Call {O}. Arguments c_idx {O}. Arguments c_parent {O}. Arguments c_name {O}. Arguments c_anim {O}.
Fixpoint calls {O} (cs : list (call O)) (a : rig_anim O) : option (rig_anim O) :=
  match cs with [] => Some a | c :: cs' => a' <- init_matrix_anim (c_idx c) (c_parent c) (c_name c) (c_anim c) a ;; calls cs' a' end.
(** Init of a new RigAnim, then calls of InitMatrixAnim. *)
Definition built {O} (n : Z) (record : bool) (cs : list (call O)) : option (rig_anim O) := a <- ra_init n record ra_default ;; calls cs a.
(** The last call for bone [j]. *)
Definition last_call {O} (j : Z) (cs : list (call O)) (c : call O) : Prop :=
  exists before after, cs = before ++ c :: after /\ c_idx c = j /\ forall c', In c' after -> c_idx c' <> j.

Section Build.
Context {O : Type}.
Local Notation rig := (rig_anim O).

Definition sized (n : Z) (record : bool) (a : rig) : Prop :=
  len (ra_anims a) = n /\ len (ra_parents a) = n /\ len (ra_names a) = if record then n else 0.
Lemma init_call : forall n record (c : call O) (a : rig), 0 <= n -> sized n record a -> 0 <= c_idx c ->
  (c_idx c < n /\ (c_parent c < c_idx c \/ c_parent c = 255) -> exists a', init_matrix_anim (c_idx c) (c_parent c) (c_name c) (c_anim c) a = Some a' /\ sized n record a' /\
     getz (ra_anims a') (c_idx c) = Some (c_anim c) /\ getz (ra_parents a') (c_idx c) = Some (c_parent c) /\ (record = true -> getz (ra_names a') (c_idx c) = Some (c_name c)) /\
     forall k, k <> c_idx c -> getz (ra_anims a') k = getz (ra_anims a) k /\ getz (ra_parents a') k = getz (ra_parents a) k /\ getz (ra_names a') k = getz (ra_names a) k) /\
  (~ (c_idx c < n /\ (c_parent c < c_idx c \/ c_parent c = 255)) -> init_matrix_anim (c_idx c) (c_parent c) (c_name c) (c_anim c) a = None).
Proof.
  intros n record c a N (L1 & L2 & L3) I0. unfold init_matrix_anim, kInvalidBoneIdx. rewrite L1. split.
  - intros [H1 H2]. destruct (Z.ltb_spec (c_idx c) n); [|lia]. replace ((c_parent c <? c_idx c) || (c_parent c =? 255))%bool with true by lia. cbn.
    destruct (setz_Some (ra_parents a) (c_idx c) (c_parent c)) as [ps E1]; [lia|]. destruct (setz_Some (ra_anims a) (c_idx c) (c_anim c)) as [as' E2]; [lia|]. rewrite E1, E2. cbn.
    assert (exists ns, (if 0 <? len (ra_names a) then setz (ra_names a) (c_idx c) (c_name c) else Some (ra_names a)) = Some ns /\ len ns = len (ra_names a) /\ (record = true -> getz ns (c_idx c) = Some (c_name c)) /\ forall k, k <> c_idx c -> getz ns k = getz (ra_names a) k) as (ns & -> & Ln & Gn & On).
    { rewrite L3. destruct record.
      - destruct (Z.ltb_spec 0 n); [|lia]. destruct (setz_Some (ra_names a) (c_idx c) (c_name c)) as [ns E3]; [lia|]. exists ns. split; [exact E3|]. split; [rewrite (setz_len _ _ _ _ E3); exact L3|]. split; [intros _; eapply getz_setz_eq, E3|intros k K; eapply getz_setz_neq; eauto].
      - exists (ra_names a). repeat split; auto; discriminate. }
    cbn. eexists. split; [reflexivity|]. unfold sized. cbn. rewrite (setz_len _ _ _ _ E1), (setz_len _ _ _ _ E2). split; [rewrite Ln; auto|]. split; [eapply getz_setz_eq, E2|]. split; [eapply getz_setz_eq, E1|]. split; [exact Gn|].
    intros k K. split; [eapply getz_setz_neq; eauto|]. split; [eapply getz_setz_neq; eauto|auto].
  - intros H. destruct (Z.ltb_spec (c_idx c) n); [|reflexivity]. replace ((c_parent c <? c_idx c) || (c_parent c =? 255))%bool with false by lia. reflexivity.
Qed.

(** Bone [j] is as the last call for it says; untouched when there is none. *)
Lemma calls_ok : forall (cs : list (call O)) n record (a : rig), 0 <= n -> sized n record a -> Forall (fun c => 0 <= c_idx c) cs ->
  (Forall (fun c => c_idx c < n /\ (c_parent c < c_idx c \/ c_parent c = 255)) cs -> exists a', calls cs a = Some a' /\ sized n record a' /\
     (forall j c, last_call j cs c -> getz (ra_anims a') j = Some (c_anim c) /\ getz (ra_parents a') j = Some (c_parent c) /\ (record = true -> getz (ra_names a') j = Some (c_name c))) /\
     (forall j, (forall c, In c cs -> c_idx c <> j) -> getz (ra_anims a') j = getz (ra_anims a) j /\ getz (ra_parents a') j = getz (ra_parents a) j /\ getz (ra_names a') j = getz (ra_names a) j)) /\
  (calls cs a <> None -> Forall (fun c => c_idx c < n /\ (c_parent c < c_idx c \/ c_parent c = 255)) cs).
Proof.
  induction cs as [|c cs IH]; intros n record a N SZ NN; cbn [calls].
  - split; [|constructor]. intros _. exists a. split; [reflexivity|]. split; [exact SZ|]. split; [|auto]. intros j c (b & af & E & _). destruct b; discriminate.
  - apply Forall_cons_iff in NN. destruct NN as [I0 NN]. destruct (init_call n record c a N SZ I0) as [OK BAD]. split.
    + intros F. apply Forall_cons_iff in F. destruct F as [F1 F]. destruct (OK F1) as (a1 & -> & S1 & G1 & G2 & G3 & G4). cbn. destruct (IH n record a1 N S1 NN) as [OK' _]. destruct (OK' F) as (a' & -> & S' & LC & UN). exists a'. split; [reflexivity|]. split; [exact S'|]. split.
      * intros j c' (b & af & E & J & AF). destruct b as [|b0 b]; cbn in E; injection E as E1 E2; subst.
        -- destruct (UN (c_idx c') AF) as (-> & -> & ->). auto.
        -- apply LC. exists b, af. auto.
      * intros j NJ. destruct (UN j) as (-> & -> & ->); [intros c' C'; apply NJ; now right|]. apply G4. intros ->. apply (NJ c); [now left|reflexivity].
    + intros SN. destruct (Z_lt_dec (c_idx c) n) as [A|A]; [destruct (Z_lt_dec (c_parent c) (c_idx c)) as [B|B]; [|destruct (Z.eq_dec (c_parent c) 255) as [B'|B']]|].
      1, 2: destruct OK as (a1 & E1 & S1 & _); [split; [exact A|auto]|]; rewrite E1 in SN; cbn in SN; constructor; [split; [exact A|auto]|]; exact (proj2 (IH n record a1 N S1 NN) SN).
      all: rewrite BAD in SN by lia; now destruct SN.
Qed.

(** C100.  InitMatrixAnim succeeds exactly for bones that exist and whose parent is an earlier
    bone or none; each bone is as its last call says, with its name if names are recorded. *)
Theorem C100_built : forall n record (cs : list (call O)), 0 <= n -> Forall (fun c => 0 <= c_idx c) cs ->
  ((exists a, built n record cs = Some a) <-> n <= 254 /\ Forall (fun c => c_idx c < n /\ (c_parent c < c_idx c \/ c_parent c = 255)) cs) /\
  forall a, built n record cs = Some a ->
    num_bones a = n /\
    forall j c, last_call j cs c -> anim_at a j = Some (c_anim c) /\ getz (ra_parents a) j = Some (c_parent c) /\ (record = true -> getz (ra_names a) j = Some (c_name c)).
Proof.
  intros n record cs N NN. unfold built, ra_init, kMaxNumBones. destruct (Z.leb_spec n 254) as [L|L]; cbn.
  2: { split; [split; [intros (a & E); discriminate|intros [E _]; lia]|discriminate]. }
  set (a0 := RigAnim _ _ _ _ _). assert (S0 : sized n record a0).
  { unfold sized, a0; cbn. rewrite !resize_grow by (rewrite len_nil; lia). cbn [app]. destruct record; rewrite ?len_repeat, ?len_nil; repeat split; rewrite ?len_repeat, ?len_nil; try lia. }
  destruct (calls_ok cs n record a0 N S0 NN) as [OK SN]. split.
  - split; [intros (a & E); split; [exact L|]; apply SN; rewrite E; discriminate|]. intros [_ F]. destruct (OK F) as (a & E & _). eauto.
  - intros a E. assert (F : Forall (fun c : call O => c_idx c < n /\ (c_parent c < c_idx c \/ c_parent c = 255)) cs) by (apply SN; rewrite E; discriminate).
    destruct (OK F) as (a' & E' & (L1 & L2 & L3) & LC & _). rewrite E in E'. injection E' as <-. split; [unfold num_bones; rewrite L1; apply Z.mod_small; lia|].
    intros j c LCj. destruct (LC j c LCj) as (A & B & C). split; [exact A|]. split; [exact B|]. exact C.
Qed.
Print Assumptions C100_built.

(** Once every bone was initialised, parents come before their children. *)
Theorem C100_parents_first : forall n record (cs : list (call O)) a, 0 <= n -> Forall (fun c => 0 <= c_idx c) cs -> built n record cs = Some a ->
  (forall j, 0 <= j < n -> exists c, last_call j cs c) ->
  forall j p, getz (ra_parents a) j = Some p -> p = 255 \/ p < j.
Proof.
  intros n record cs a N NN E ALL j p G. destruct (C100_built n record cs N NN) as [X Y]. destruct (proj1 X (ex_intro _ a E)) as [L F]. destruct (Y a E) as [NB LC].
  assert (J : 0 <= j < n).
  { pose proof (getz_Some _ _ _ G) as J. assert (LP : len (ra_parents a) = n); [|lia]. unfold built, ra_init, kMaxNumBones in E. destruct (Z.leb_spec n 254); [|lia]. cbn in E.
    match type of E with calls cs ?a0 = _ => assert (S0 : sized n record a0) end.
    { unfold sized; cbn. rewrite !resize_grow by (rewrite len_nil; lia). cbn [app]. destruct record; rewrite ?len_repeat, ?len_nil; repeat split; rewrite ?len_repeat, ?len_nil; try lia. }
    destruct (proj1 (calls_ok cs n record _ N S0 NN) F) as (a' & E' & (_ & L2 & _) & _). rewrite E in E'. injection E' as <-. exact L2. }
  destruct (ALL j J) as (c & C). destruct (LC j c C) as (_ & P & _). rewrite P in G. injection G as <-. destruct C as (b & af & -> & CJ & _). rewrite Forall_forall in F. specialize (F c). destruct F as [_ F]; [apply in_or_app; right; now left|]. lia.
Qed.
Print Assumptions C100_parents_first.
End Build.
Example C100_case : built 3 true [Call 0 255 [1] (MAnim false [4]); Call 1 0 [2] (MAnim false [5; 6]); Call 2 0 [3] (MAnim true []); Call 1 255 [7] (MAnim true [8])] =
  Some (RigAnim [MAnim false [4]; MAnim true [8]; MAnim true []] [255; 255; 0] [[1]; [7]; [3]] 0 false).
Proof. reflexivity. Qed.
(** A bone that was not initialised has bone 0 as its parent: for bone 0 this is itself. *)
Example C100_uninitialised : exists a, built 2 false [Call 1 0 [] (MAnim false [4])] = Some a /\ getz (ra_parents a) 0 = Some 0.
Proof. eexists. split; reflexivity. Qed.

(** C65.  The rig accepts a mesh when the animation has one bone or has the hierarchy of the mesh. *)
Theorem C65_rig_init : forall O (anim : rig_anim O) bone_parents, len (ra_parents anim) = len (ra_anims anim) -> len (ra_anims anim) <= 254 ->
  exists r, rig_init_ok anim bone_parents (len bone_parents) = Some r /\
    (r = true <-> len (ra_anims anim) = 1 \/ ra_parents anim = bone_parents).
Proof.
  intros O anim bp LP L. unfold rig_init_ok, num_bones, matches_parents. pose proof (len_nonneg (ra_anims anim)). rewrite Z.mod_small by lia. destruct (Z.eqb_spec (len (ra_anims anim)) 1) as [E|E]; [exists true; tauto|].
  destruct (Z.eqb_spec (len (ra_anims anim)) (len bp)) as [E2|E2].
  - destruct (same_bytes_ok (Z.to_nat (len (ra_anims anim))) 0 (ra_parents anim) bp) as (r & -> & Hr); try lia. exists r. split; [reflexivity|]. rewrite Hr. split; [|intros [C | ->]; [contradiction|reflexivity]].
    intros H1. right. apply getz_ext. intros i. destruct (Z_lt_dec i 0); [rewrite !getz_None by lia; reflexivity|]. destruct (Z_lt_dec i (len (ra_anims anim))); [apply H1; lia|]. rewrite !getz_None by lia. reflexivity.
  - exists false. split; [reflexivity|]. split; [discriminate|]. intros [C | C]; [contradiction|]. rewrite <- C in E2. lia.
Qed.
Print Assumptions C65_rig_init.
Example C65_rig_init_case : exists r, rig_init_ok demo_anim [255; 0; 1] 3 = Some r /\ len (ra_parents demo_anim) = len (ra_anims demo_anim).
Proof. eexists. split; reflexivity. Qed.

(** C48.  A const motivator is at its target: the target is its value and its velocity, the
    difference is 0, and no time is left. *)
Local Open Scope R_scope.
Theorem C48_at_target : forall velocity value,
  k_velocity const_class velocity value = Some velocity /\ k_target_value const_class velocity value = Some value /\
  k_target_velocity const_class velocity value = Some velocity /\ k_difference const_class velocity value = Some 0 /\ k_target_time const_class velocity = Some 0%Z.
Proof. intros d v. repeat split. cbn. f_equal. ring. Qed.
Print Assumptions C48_at_target.
