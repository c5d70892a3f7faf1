(** Building the animation data call by call (C131): AllocBone, SetCurBoneIndex,
    ResetCurBoneIndex, AllocChannel and AddConstant in any order. *)
From Verif Require Import RBase BaseFacts CompactSplineModel MatrixModel RigModel AnimDataModel.
Local Open Scope Z_scope.

(** The calls of the interface (anim_data.h:46-54) and their effect. *)
Inductive call := CBone (name : list Z) (parent : Z) | CSet (i : Z) | CReset | CAlloc (op : mtype) (id : Z) | CConst (channel : Z) (v : R).
Definition step (d : anim_data) (c : call) : option anim_data :=
  match c with
  | CBone n p => Some (fst (alloc_bone d n p))
  | CSet i => set_cur_bone d i
  | CReset => Some (reset_cur_bone d)
  | CAlloc op id => r <- alloc_channel d op id ;; Some (fst r)
  | CConst j v => add_constant d j v
  end.
Fixpoint run (d : anim_data) (h : list call) : option anim_data :=
  match h with [] => Some d | c :: h' => d1 <- step d c ;; run d1 h' end.

(** Specification, of the calls alone.  The bone that is current after the calls. *)
Fixpoint currently (now : option Z) (h : list call) : option Z :=
  match h with
  | [] => now
  | CSet i :: h' => currently (Some i) h'
  | CReset :: h' => currently None h'
  | _ :: h' => currently now h'
  end.
(** The calls made while bone [b] was current. *)
Fixpoint during (b : Z) (now : option Z) (h : list call) : list call :=
  match h with
  | [] => []
  | CSet i :: h' => during b (Some i) h'
  | CReset :: h' => during b None h'
  | c :: h' => match now with Some n => if n =? b then c :: during b now h' else during b now h' | None => during b now h' end
  end.
(** The bones and the channels that calls allocate, and the last constant given to channel [j]. *)
Definition made (h : list call) : list (list Z * Z) := flat_map (fun c => match c with CBone n p => [(n, p)] | _ => [] end) h.
Definition allocated (h : list call) : list (mtype * Z) := flat_map (fun c => match c with CAlloc op id => [(op, id)] | _ => [] end) h.
Fixpoint last_constant (j : Z) (h : list call) : option R :=
  match h with
  | [] => None
  | CConst i v :: h' => match last_constant j h' with Some w => Some w | None => if i =? j then Some v else None end
  | _ :: h' => last_constant j h'
  end.
(** A call is allowed after the calls [a]. *)
Definition allowed (a : list call) (c : call) : Prop :=
  match c with
  | CBone _ _ | CReset => True
  | CSet i => currently None a = None /\ 0 <= i < len (made a)
  | CAlloc _ _ => currently None a <> None
  | CConst j _ => exists b, currently None a = Some b /\ 0 <= j < len (allocated (during b None a))
  end.
Definition legal (h : list call) : Prop := forall a c b, h = a ++ c :: b -> allowed a c.
(** The data has the bones and channels that the calls made. *)
Definition shows (t : tolerances) (root_only : bool) (h : list call) (d : anim_data) : Prop :=
  ad_tol d = t /\ ad_root_only d = root_only /\
  ad_cur d = match currently None h with Some i => i | None => -1 end /\
  map (fun b => (bn_name b, bn_parent b)) (ad_bones d) = made h /\
  forall i b, getz (ad_bones d) i = Some b ->
    map (fun c => (ch_op c, ch_id c)) (bn_channels b) = allocated (during i None h) /\
    forall j c, getz (bn_channels b) j = Some c ->
      ch_nodes c = match last_constant j (during i None h) with Some v => [SNode 0 v 0] | None => [] end.

Lemma currently_app : forall a b now, currently now (a ++ b) = currently (currently now a) b.
Proof. induction a as [|c a IH]; intros; [reflexivity|]. destruct c; cbn [currently app]; apply IH. Qed.
Lemma during_app i : forall a b now, during i now (a ++ b) = during i now a ++ during i (currently now a) b.
Proof. induction a as [|c a IH]; intros; [reflexivity|]. destruct c; cbn [currently during app]; rewrite ?IH; try reflexivity; destruct now as [n|]; try reflexivity; destruct (n =? i); reflexivity. Qed.
Lemma made_app a b : made (a ++ b) = made a ++ made b. Proof. apply flat_map_app. Qed.
Lemma allocated_app a b : allocated (a ++ b) = allocated a ++ allocated b. Proof. apply flat_map_app. Qed.
Lemma last_constant_app j : forall a b, last_constant j (a ++ b) = match last_constant j b with Some v => Some v | None => last_constant j a end.
Proof. induction a as [|c a IH]; intros b; cbn [app last_constant]; [destruct (last_constant j b); reflexivity|]. destruct c; rewrite ?IH; try reflexivity. destruct (last_constant j b); reflexivity. Qed.
Lemma run_app : forall a b d, run d (a ++ b) = (d1 <- run d a ;; run d1 b).
Proof. induction a as [|c a IH]; intros; [reflexivity|]. cbn [run app]. destruct (step d c); [apply IH|reflexivity]. Qed.
(** Constants are given to channels that exist only. *)
Definition no_early (h : list call) := forall i j, len (allocated (during i None h)) <= j -> last_constant j (during i None h) = None.
(** The current bone exists, and no bone that is not made yet has been current. *)
Definition exists_current (h : list call) := (forall i, currently None h = Some i -> 0 <= i < len (made h)) /\ forall i, len (made h) <= i -> during i None h = [].

Lemma len_snoc {A} (l : list A) x : len (l ++ [x]) = len l + 1. Proof. rewrite len_app. reflexivity. Qed.
Lemma made_grows h c : len (made h) <= len (made (h ++ [c])).
Proof. rewrite made_app, len_app. pose proof (len_nonneg (made [c])). lia. Qed.
Lemma exists_current_snoc h c : exists_current h -> allowed h c -> exists_current (h ++ [c]).
Proof.
  intros [EC FR] AL. pose proof (made_grows h c) as MG. split.
  - intros i. rewrite currently_app. destruct c; cbn [currently]; intros H; try (specialize (EC i H); lia); [|discriminate]. injection H as <-. cbn [allowed] in AL. lia.
  - intros i H. rewrite during_app, FR by lia. cbn [app]. destruct c; cbn [during]; try reflexivity; (destruct (currently None h) as [n|] eqn:E; [|reflexivity]); specialize (EC n eq_refl); rewrite (proj2 (Z.eqb_neq n i)) by lia; reflexivity.
Qed.
Lemma no_early_snoc h c : no_early h -> allowed h c -> no_early (h ++ [c]).
Proof.
  intros NE AL i j. rewrite during_app, allocated_app, last_constant_app, len_app. pose proof (len_nonneg (allocated (during i (currently None h) [c]))) as NN. intros H. specialize (NE i j ltac:(lia)). rewrite NE.
  destruct c; cbn [during]; try reflexivity; (destruct (currently None h) as [n|] eqn:E; [|reflexivity]); (destruct (Z.eqb_spec n i) as [->|NQ]; [|reflexivity]); cbn [last_constant]; try reflexivity.
  destruct AL as (b & B & R). rewrite E in B. injection B as <-. rewrite (proj2 (Z.eqb_neq channel j)) by lia. reflexivity.
Qed.
Lemma getz_set_cur d chs d' : set_cur_channels d chs = Some d' -> exists b, getz (ad_bones d) (ad_cur d) = Some b /\
  ad_tol d' = ad_tol d /\ ad_root_only d' = ad_root_only d /\ ad_cur d' = ad_cur d /\ map (fun b => (bn_name b, bn_parent b)) (ad_bones d') = map (fun b => (bn_name b, bn_parent b)) (ad_bones d) /\
  getz (ad_bones d') (ad_cur d) = Some (Bone (bn_name b) (bn_parent b) chs) /\ forall i, i <> ad_cur d -> getz (ad_bones d') i = getz (ad_bones d) i.
Proof.
  unfold set_cur_channels. destruct (getz (ad_bones d) (ad_cur d)) as [b|] eqn:G; [|discriminate]. destruct (setz _ _ _) as [bs|] eqn:S; [|discriminate]. intros H. injection H as <-. cbn [with_bones ad_bones ad_cur ad_tol ad_root_only]. exists b. repeat (split; [reflexivity|]).
  split; [|split; [apply (getz_setz_eq _ _ _ _ S)|intros i NI; apply (getz_setz_neq _ _ _ _ _ S NI)]].
  destruct (getz_split _ _ _ G) as (X & Y & E & L). rewrite E in S |- *. rewrite setz_app in S by lia. injection S as <-. rewrite !map_app. reflexivity.
Qed.
Lemma getz_cur_none d : ad_cur d = -1 -> cur_channels d = None. Proof. intros E. unfold cur_channels. rewrite E. reflexivity. Qed.

Lemma step_shows t ro h d c : shows t ro h d -> no_early h -> exists_current h ->
  (allowed h c -> exists d', step d c = Some d') /\
  forall d', step d c = Some d' -> allowed h c /\ shows t ro (h ++ [c]) d'.
Proof.
  intros (T & RO & CU & MD & EV) NE [EC FR].
  assert (LB : len (ad_bones d) = len (made h)) by (rewrite <- MD; symmetry; apply len_map).
  assert (SAME : forall i, (match currently None h with Some n => n =? i | None => false end) = false \/ (forall op id, c <> CAlloc op id) /\ (forall j v, c <> CConst j v) ->
    allocated (during i None (h ++ [c])) = allocated (during i None h) /\ forall j, last_constant j (during i None (h ++ [c])) = last_constant j (during i None h)).
  { intros i H. rewrite during_app. assert (A : allocated (during i (currently None h) [c]) = [] /\ forall j, last_constant j (during i (currently None h) [c]) = None).
    { destruct c; cbn [during]; try (split; reflexivity); destruct H as [H|[H1 H2]].
      all: try (destruct (currently None h) as [n|]; [rewrite H|]; split; reflexivity).
      - destruct (currently None h) as [n|]; [destruct (n =? i)|]; split; reflexivity.
      - now destruct (H1 op id).
      - now destruct (H2 channel v). }
    destruct A as [A B]. rewrite allocated_app, A, app_nil_r. split; [reflexivity|]. intros j. rewrite last_constant_app, B. reflexivity. }
  assert (CHG : forall i, currently None h = Some i -> (match c with CAlloc _ _ | CConst _ _ => True | _ => False end) -> during i None (h ++ [c]) = during i None h ++ [c]).
  { intros i E H. rewrite during_app, E. f_equal. destruct c; try easy; cbn [during]; rewrite Z.eqb_refl; reflexivity. }
  destruct c as [n p|i| |op id|j v].
  - (* AllocBone *)
    split; [intros _; eexists; reflexivity|]. cbn [step alloc_bone fst]. intros d' H. injection H as <-. split; [exact I|].
    unfold shows. cbn [with_bones ad_tol ad_root_only ad_cur ad_bones]. rewrite currently_app. cbn [currently]. split; [exact T|]. split; [exact RO|]. split; [exact CU|]. split; [rewrite map_app, made_app, MD; reflexivity|].
    intros i b G. destruct (SAME i) as [S1 S2]; [right; split; discriminate|]. rewrite S1. destruct (Z.lt_ge_cases i (len (ad_bones d))) as [LT|GE].
    + rewrite getz_app1 in G by lia. destruct (EV i b G) as [E1 E2]. split; [exact E1|]. intros j c C. rewrite S2. now apply E2.
    + pose proof (getz_Some _ _ _ G) as RG. rewrite len_snoc in RG. rewrite getz_app in G by lia. injection G as <-. cbn [bn_channels]. rewrite (FR i) by lia. split; [reflexivity|]. intros j c C. apply getz_Some in C. cbn in C. lia.
  - (* SetCurBoneIndex *)
    cbn [step allowed]. unfold set_cur_bone. destruct ((0 <=? i) && (i <? len (ad_bones d)))%bool eqn:B; [|split; [intros [_ H]; lia|discriminate]]. destruct (Z.eqb_spec (ad_cur d) (-1)) as [E|NE1].
    + split; [intros _; eexists; reflexivity|]. intros d' H. injection H as <-. split; [split; [|lia]|].
      * destruct (currently None h) as [k|] eqn:K; [|reflexivity]. specialize (EC k eq_refl). lia.
      * unfold shows. cbn [ad_tol ad_root_only ad_cur ad_bones]. rewrite currently_app. cbn [currently]. split; [exact T|]. split; [exact RO|]. split; [reflexivity|]. split; [rewrite made_app, app_nil_r; exact MD|].
        intros k b G. destruct (SAME k) as [S1 S2]; [right; split; discriminate|]. rewrite S1. destruct (EV k b G) as [E1 E2]. split; [exact E1|]. intros j c C. rewrite S2. now apply E2.
    + split; [|discriminate]. intros [H _]. rewrite H in CU. lia.
  - (* ResetCurBoneIndex *)
    split; [intros _; eexists; reflexivity|]. cbn [step]. intros d' H. injection H as <-. split; [exact I|].
    unfold shows. cbn [reset_cur_bone ad_tol ad_root_only ad_cur ad_bones]. rewrite currently_app. cbn [currently]. split; [exact T|]. split; [exact RO|]. split; [reflexivity|]. split; [rewrite made_app, app_nil_r; exact MD|].
    intros k b G. destruct (SAME k) as [S1 S2]; [right; split; discriminate|]. rewrite S1. destruct (EV k b G) as [E1 E2]. split; [exact E1|]. intros j c C. rewrite S2. now apply E2.
  - (* AllocChannel *)
    cbn [step allowed]. unfold alloc_channel. destruct (currently None h) as [k|] eqn:K.
    + specialize (EC k eq_refl). destruct (getz_in_range (ad_bones d) k ltac:(lia)) as [b B].
      assert (CC : cur_channels d = Some (bn_channels b)) by (unfold cur_channels; rewrite CU, B; reflexivity). rewrite CC.
      assert (SC : exists d', set_cur_channels d (bn_channels b ++ [Channel op id []]) = Some d').
      { unfold set_cur_channels. rewrite CU, B. destruct (setz_Some (ad_bones d) k (Bone (bn_name b) (bn_parent b) (bn_channels b ++ [Channel op id []]))) as [l' S]; [lia|]. rewrite S. eexists. reflexivity. }
      destruct SC as [d1 SC]. rewrite SC. split; [intros _; eexists; reflexivity|]. cbn [fst]. intros d' H. injection H as <-. split; [discriminate|].
      destruct (getz_set_cur _ _ _ SC) as (b' & G' & S1 & S2 & S3 & S4 & S5 & S6). rewrite CU in *. rewrite B in G'. injection G' as <-.
      unfold shows. rewrite currently_app, K. cbn [currently]. split; [now rewrite S1|]. split; [now rewrite S2|]. split; [exact S3|]. split; [rewrite S4, made_app, app_nil_r; exact MD|].
      intros i c G. destruct (Z.eq_dec i k) as [->|NK].
      * rewrite S5 in G. injection G as <-. cbn [bn_channels]. rewrite CHG by (easy || reflexivity). destruct (EV k b B) as [E1 E2]. split; [rewrite map_app, allocated_app, E1; reflexivity|].
        intros j c C. rewrite last_constant_app. cbn [last_constant]. assert (LC : len (bn_channels b) = len (allocated (during k None h))) by (rewrite <- E1; symmetry; apply len_map). destruct (Z.lt_ge_cases j (len (bn_channels b))) as [LT|GE].
        -- rewrite getz_app1 in C by lia. now apply E2.
        -- pose proof (getz_Some _ _ _ C) as RG. rewrite len_snoc in RG. rewrite getz_app in C by lia. injection C as <-. cbn [ch_nodes]. rewrite NE by lia. reflexivity.
      * rewrite S6 in G by exact NK. destruct (SAME i) as [R1 R2]; [left; apply Z.eqb_neq; lia|]. rewrite R1. destruct (EV i c G) as [E1 E2]. split; [exact E1|]. intros j x C. rewrite R2. now apply E2.
    + rewrite getz_cur_none by exact CU. split; [intros H; now destruct H|discriminate].
  - (* AddConstant *)
    cbn [step allowed]. unfold add_constant, set_nodes. destruct (currently None h) as [k|] eqn:K.
    + specialize (EC k eq_refl). destruct (getz_in_range (ad_bones d) k ltac:(lia)) as [b B].
      assert (CC : cur_channels d = Some (bn_channels b)) by (unfold cur_channels; rewrite CU, B; reflexivity). rewrite CC. destruct (EV k b B) as [E1 E2].
      assert (LC : len (bn_channels b) = len (allocated (during k None h))) by (rewrite <- E1; symmetry; apply len_map).
      destruct (getz (bn_channels b) j) as [c|] eqn:GC.
      * pose proof (getz_Some _ _ _ GC) as RG. destruct (setz_Some (bn_channels b) j (Channel (ch_op c) (ch_id c) [SNode 0 v 0]) RG) as [chs' S]. rewrite S.
        assert (SC : exists d', set_cur_channels d chs' = Some d').
        { unfold set_cur_channels. rewrite CU, B. destruct (setz_Some (ad_bones d) k (Bone (bn_name b) (bn_parent b) chs')) as [l' S']; [lia|]. rewrite S'. eexists. reflexivity. }
        destruct SC as [d1 SC]. rewrite SC. split; [intros _; eexists; reflexivity|]. intros d' H. injection H as <-. split; [exists k; split; [reflexivity|lia]|].
        destruct (getz_set_cur _ _ _ SC) as (b' & G' & S1 & S2 & S3 & S4 & S5 & S6). rewrite CU in *. rewrite B in G'. injection G' as <-.
        unfold shows. rewrite currently_app, K. cbn [currently]. split; [now rewrite S1|]. split; [now rewrite S2|]. split; [exact S3|]. split; [rewrite S4, made_app, app_nil_r; exact MD|].
        intros i c' G. destruct (Z.eq_dec i k) as [->|NK].
        -- rewrite S5 in G. injection G as <-. cbn [bn_channels]. rewrite CHG by (easy || reflexivity). split.
           ++ rewrite allocated_app, app_nil_r, <- E1. destruct (getz_split _ _ _ GC) as (X & Y & E & L). rewrite E in S |- *. rewrite setz_app in S by lia. injection S as <-. rewrite !map_app. reflexivity.
           ++ intros i c' C. rewrite last_constant_app. cbn [last_constant]. destruct (Z.eqb_spec j i) as [<-|NJ]; [rewrite (getz_setz_eq _ _ _ _ S) in C; injection C as <-; reflexivity|].
              rewrite (getz_setz_neq _ _ _ _ _ S) in C by lia. now apply E2.
        -- rewrite S6 in G by exact NK. destruct (SAME i) as [R1 R2]; [left; apply Z.eqb_neq; lia|]. rewrite R1. destruct (EV i c' G) as [F1 F2]. split; [exact F1|]. intros m x C. rewrite R2. now apply F2.
      * split; [|discriminate]. intros (b' & H & R). injection H as <-. destruct (getz_in_range (bn_channels b) j ltac:(lia)) as [x X]. congruence.
    + rewrite getz_cur_none by exact CU. split; [intros (b & H & _); discriminate|discriminate].
Qed.

Lemma legal_snoc h c : legal (h ++ [c]) <-> legal h /\ allowed h c.
Proof.
  split.
  - intros L. split; [|apply (L h c []); reflexivity]. intros a x b ->. apply (L a x (b ++ [c])). now rewrite <- app_assoc.
  - intros [L A] a x b E. destruct b as [|y b] using rev_ind.
    + apply app_inj_tail in E. destruct E as [-> ->]. exact A.
    + clear IHb. change (a ++ x :: b ++ [y]) with (a ++ (x :: b) ++ [y]) in E. rewrite app_assoc in E. apply app_inj_tail in E. destruct E as [-> _]. now apply (L a x b).
Qed.
Lemma run_shows t ro : forall h, (legal h -> exists d, run (new_anim_data t ro) h = Some d) /\
  forall d, run (new_anim_data t ro) h = Some d -> legal h /\ shows t ro h d /\ no_early h /\ exists_current h.
Proof.
  induction h as [|c h IH] using rev_ind.
  - split; [intros _; eexists; reflexivity|]. intros d H. injection H as <-. split; [intros [|y a] c b E; discriminate|]. split; [|split].
    + unfold shows. cbn. repeat (split; [reflexivity|]). intros i b G. apply getz_Some in G. cbn in G. lia.
    + intros i j _. reflexivity.
    + split; [discriminate|reflexivity].
  - destruct IH as [I1 I2]. rewrite run_app. split.
    + intros L. apply legal_snoc in L. destruct L as [L A]. destruct (I1 L) as [d D]. rewrite D. destruct (I2 d D) as (_ & S & N & E). destruct (step_shows t ro h d c S N E) as [W _]. destruct (W A) as [d' D']. cbn [run]. rewrite D'. eexists. reflexivity.
    + intros d' H. destruct (run _ h) as [d|] eqn:D; [|discriminate]. destruct (I2 d eq_refl) as (L & S & N & E). cbn [run] in H. destruct (step d c) as [d1|] eqn:ST; [|discriminate]. injection H as <-.
      destruct (step_shows t ro h d c S N E) as [_ W]. destruct (W d1 ST) as [A SH]. split; [apply legal_snoc; now split|]. split; [exact SH|]. split; [now apply no_early_snoc|now apply exists_current_snoc].
Qed.

(** C131. Building the data.  Calls in any order run without a failed assertion or an access outside of an
    array if and only if a bone is made current only while none is and if it exists, channels are allocated
    only while a bone is current, and constants are given only to channels of the current bone.  The bones
    are then those that were allocated, in order; each has the channels that were allocated while it was
    current, in order; and each channel has the last constant it was given, or no node. *)
Theorem C131_builds : forall t root_only h,
  ((exists d, run (new_anim_data t root_only) h = Some d) <-> legal h) /\
  forall d, run (new_anim_data t root_only) h = Some d -> shows t root_only h d.
Proof.
  intros t ro h. destruct (run_shows t ro h) as [A B]. split; [split; [intros [d D]; apply (B d D)|exact A]|]. intros d D. apply (B d D).
Qed.
(** The indices that the calls return, and whether the bones below a bone are visited. *)
Theorem C131_returns : forall t root_only h d, run (new_anim_data t root_only) h = Some d ->
  (forall n p, snd (alloc_bone d n p) = len (made h)) /\
  (forall op id d' r, alloc_channel d op id = Some (d', r) -> exists b, currently None h = Some b /\ r = len (allocated (during b None h))) /\
  (forall i, 0 <= i < len (made h) -> exists r, should_recurse d i = Some r /\ (r = true <-> root_only = false \/ allocated (during i None h) = [])).
Proof.
  intros t ro h d D. destruct (run_shows t ro h) as [_ B]. destruct (B d D) as (_ & (T & RO & CU & MD & EV) & NE & EC & FR).
  assert (LB : len (ad_bones d) = len (made h)) by (rewrite <- MD; symmetry; apply len_map). split; [|split].
  - intros n p. exact LB.
  - intros op id d' r. unfold alloc_channel. destruct (currently None h) as [k|]; [|rewrite getz_cur_none by exact CU; discriminate]. unfold cur_channels. rewrite CU. destruct (getz (ad_bones d) k) as [b|] eqn:G; [|discriminate]. destruct (set_cur_channels _ _); [|discriminate]. intros H. injection H as _ <-. exists k. split; [reflexivity|]. rewrite <- (proj1 (EV k b G)). symmetry. apply len_map.
  - intros i R. destruct (getz_in_range (ad_bones d) i ltac:(lia)) as [b G]. unfold should_recurse. rewrite G, RO. eexists. split; [reflexivity|]. rewrite <- (proj1 (EV i b G)). destruct ro; cbn [negb orb].
    + rewrite Z.eqb_eq. split; [intros H; right; apply len_zero in H; rewrite H; reflexivity|]. intros [H|H]; [discriminate|]. apply map_eq_nil in H. rewrite H. reflexivity.
    + split; [left; reflexivity|reflexivity].
Qed.
(** A history with two bones, the second filled first; its calls are legal, and a second current bone is not. *)
Definition a_build : list call := [CBone [97] (-1); CBone [98] 0; CSet 1; CAlloc TranslateX 0; CAlloc RotateY 1; CConst 1 2; CReset; CSet 0; CAlloc ScaleX 0; CConst 0 5; CConst 0 7].
Example C131_case : forall t, run (new_anim_data t false) a_build =
  Some (AnimData [Bone [97] (-1) [Channel ScaleX 0 [SNode 0 7 0]]; Bone [98] 0 [Channel TranslateX 0 []; Channel RotateY 1 [SNode 0 2 0]]] 0 t false).
Proof. reflexivity. Qed.
Example C131_legal : legal a_build /\ ~ legal (a_build ++ [CSet 1]) /\ ~ legal [CBone [97] (-1); CAlloc TranslateX 0].
Proof.
  pose (t := Tolerances 1 1 1 1 1). split; [|split].
  - apply (proj1 (C131_builds t false a_build)). eexists. reflexivity.
  - intros L. apply legal_snoc in L. destruct L as [_ [A _]]. discriminate.
  - intros L. destruct (L [CBone [97] (-1)] (CAlloc TranslateX 0) [] eq_refl). reflexivity.
Qed.
Print Assumptions C131_builds.
Print Assumptions C131_returns.
