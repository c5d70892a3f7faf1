(** C62 for the table, and counterexamples for C61, C62 and C63. *)
From Coq Require Import Sorted.
From Verif Require Import RBase BaseFacts RangeModel MatrixModel RigModel RigProps AnimTableModel AnimTableProps DefiningProps.
Local Open Scope Z_scope.

Section TableLevel.
Context {I S F : Type} (spline_init : range -> I) (fb_name : F -> option (list Z)) (decode : F -> option (rig_anim (opinit I S))).
Notation rig := (rig_anim (opinit I S)).
Notation table := (@table I S).

(** *** Specification *)
(** Animation [a] is one of the animations of the object. *)
Definition object_anim (t : table) (object : Z) (a : rig) : Prop := exists idx p, query t object idx = Some (Some p) /\ getz (anims t) p = Some a.
(** Operation [o] drives bone [j] in some animation of the object. *)
Definition object_drives (t : table) (object j : Z) (o : opinit I S) : Prop :=
  exists a m, object_anim t object a /\ j < num_bones a /\ anim_at a j = Some m /\ In o (ma_ops m).

Lemma gather_in : forall all l g, gather_anims all l = Some g -> forall a : rig, In a g <-> exists idx p, getz l idx = Some p /\ p <> kInvalidAnimIndex /\ getz all p = Some a.
Proof.
  intros all l. induction l as [|i l IH]; intros g H a; cbn in H.
  - injection H as <-. cbn. split; [tauto|]. intros (idx & p & E & _). rewrite getz_None in E; [discriminate|]. unfold len; cbn; lia.
  - assert (forall idx p, getz (i :: l) idx = Some p <-> (idx = 0 /\ p = i) \/ getz l (idx - 1) = Some p) as Sh.
    { intros idx p. destruct (Z.eq_dec idx 0) as [->|N].
      - cbn. split; [intros E; injection E as <-; auto|]. intros [[_ ->]|E]; [reflexivity|discriminate].
      - replace (i :: l) with ([i] ++ l) by reflexivity. destruct (Z_lt_ge_dec idx 0).
        + rewrite (getz_None ([i] ++ l)) by lia. split; [discriminate|]. intros [[? _]|E]; [lia|]. apply getz_Some in E. lia.
        + rewrite getz_app2 by (change (len [i]) with 1; lia). change (len [i]) with 1. split; [auto|]. intros [[? _]|E]; [lia|exact E]. }
    assert (forall P : Z -> Prop, (exists idx p, getz (i :: l) idx = Some p /\ P p) <-> P i \/ exists idx p, getz l idx = Some p /\ P p) as Sp.
    { intros P. split.
      - intros (idx & p & E & Hp). apply Sh in E. destruct E as [[-> ->]|E]; [left; exact Hp|right; exists (idx - 1), p; auto].
      - intros [Hp|(idx & p & E & Hp)]; [exists 0, i; split; [reflexivity|exact Hp]|]. exists (idx + 1), p. split; [|exact Hp]. apply Sh. right. replace (idx + 1 - 1) with idx by lia. exact E. }
    rewrite (Sp (fun p => p <> kInvalidAnimIndex /\ getz all p = Some a)). destruct (Z.eqb_spec i kInvalidAnimIndex) as [->|N].
    + rewrite (IH g H a). intuition.
    + destruct (getz all i) as [x|] eqn:E; [|discriminate]. cbn in H. destruct (gather_anims all l) as [r|]; [|discriminate]. cbn in H. injection H as <-. cbn. rewrite (IH r eq_refl a).
      split; [intros [->|X]; auto|]. intros [[_ X]|X]; [left; congruence|auto].
Qed.
Lemma calculate_get : forall (all : list rig) ids defs defs', calculate_loop spline_init all ids defs = Some defs' ->
  forall o l d, getz ids o = Some l -> getz defs o = Some d ->
  exists g d', gather_anims all l = Some g /\ getz defs' o = Some d' /\ ((g = [] /\ d' = d) \/ (g <> [] /\ create_defining_anim spline_init g d = Some d')).
Proof.
  intros all ids. induction ids as [|x ids IH]; intros defs defs' H o l d Hl Hd.
  - rewrite getz_None in Hl; [discriminate|]. unfold len; cbn; lia.
  - destruct defs as [|y defs]; [discriminate|]. cbn in H. destruct (gather_anims all x) as [g|] eqn:Eg; [|discriminate]. cbn in H.
    match type of H with (match ?e with _ => _ end) = _ => destruct e as [y'|] eqn:Ey; [|discriminate] end. cbn in H.
    destruct (calculate_loop spline_init all ids defs) as [r|] eqn:Er; [|discriminate]. cbn in H. injection H as <-.
    pose proof (getz_Some _ _ _ Hl) as Ro. destruct (Z.eq_dec o 0) as [->|N].
    + cbn in Hl, Hd. injection Hl as <-. injection Hd as <-. exists g, y'. split; [exact Eg|]. split; [reflexivity|].
      destruct g; [left; split; congruence|right; split; [discriminate|exact Ey]].
    + replace (x :: ids) with ([x] ++ ids) in Hl by reflexivity. replace (y :: defs) with ([y] ++ defs) in Hd by reflexivity. replace (y' :: r) with ([y'] ++ r) by reflexivity.
      rewrite getz_app2 in Hl by (change (len [x]) with 1; lia). rewrite getz_app2 in Hd by (change (len [y]) with 1; lia). rewrite getz_app2 by (change (len [y']) with 1; lia).
      eapply IH; eassumption.
Qed.

(** *** C62: after a new table is loaded, the defining animation of each object that has at
    least one animation (and at most 256) has the bones of the largest one, and on each bone
    the union of the operations of the object's animations. *)
Theorem C62_defining_anim_partial : forall f lists ok t calls, load spline_init fb_name decode f lists table_empty = Some (ok, t, calls) ->
  forall object l, getz (indices t) object = Some l -> len l <= 256 -> (exists a, object_anim t object a) ->
  (forall j o, object_drives t object j o -> i_type o <> InvalidOp) ->
  exists d b, defining_anim t object = Some d /\ object_anim t object b /\ (forall a, object_anim t object a -> num_bones a <= num_bones b) /\ num_bones d = num_bones b /\
  forall j, 0 <= j < num_bones d -> getz (ra_parents d) j = getz (ra_parents b) j /\ bone_name d j = bone_name b j /\
    exists m, anim_at d j = Some m /\ united spline_init (object_drives t object j) (ma_ops m).
Proof.
  intros f lists ok t calls H object l Hl L (a0 & Ha0) Hv. unfold load in H.
  destruct (load_lists fb_name decode f lists (Loading (name_map (@table_empty I S)) (anims table_empty) true [])) as [[ids s]|] eqn:E; [|discriminate]. cbn in H.
  unfold calculate_defining_anims in H. cbn [indices anims defining_anims name_map] in H. destruct ((len ids =? 0) || (0 <? max_anim_index ids))%bool; [|discriminate]. cbn in H.
  destruct (calculate_loop spline_init (l_anims s) ids (resize [] (len lists) ra_default)) as [ds|] eqn:Ed; [|discriminate]. cbn in H. injection H as <- <- <-. cbn in Hl, Ha0 |- *.
  assert (len ids = len lists) as Li.
  { apply (lists_ok fb_name decode (fun _ _ => True)) in E; [|split; [constructor|split; [constructor|]]|auto].
    - destruct E as (_ & _ & E & _). symmetry. exact (Forall2_len _ _ _ _ _ E).
    - cbn. intros k nk X. rewrite getz_None in X; [discriminate|]. unfold len; cbn; lia. }
  pose proof (getz_Some _ _ _ Hl) as Ro.
  assert (getz (resize [] (len lists) (@ra_default (opinit I S))) object = Some ra_default) as Hd.
  { rewrite resize_grow by (unfold len; cbn; lia). cbn [app]. apply getz_repeat. unfold len at 2; cbn. lia. }
  destruct (calculate_get _ _ _ _ Ed _ _ _ Hl Hd) as (g & d & Eg & Egd & Cs).
  set (t := Table ids ds (l_map s) (l_anims s)) in *.
  assert (forall a, In a g <-> object_anim t object a) as Ig.
  { intros a. rewrite (gather_in _ _ _ Eg a). unfold object_anim, query, t. cbn. rewrite Hl. cbn. split.
    - intros (idx & p & X & Y & Z). exists idx, p. rewrite X. cbn. replace (p =? kInvalidAnimIndex) with false by lia. rewrite Z. auto.
    - intros (idx & p & X & Z). exists idx. destruct (getz l idx) as [i|]; [|discriminate]. cbn in X.
      destruct (Z.eqb_spec i kInvalidAnimIndex); [discriminate|]. destruct (getz (l_anims s) i) eqn:Q; [|discriminate]. cbn in X. injection X as <-. exists i. auto. }
  assert (forall j o, drives g j o <-> object_drives t object j o) as Id.
  { intros j o. unfold drives, object_drives. split; intros (a & m & X & Y); exists a, m; (split; [apply Ig, X|exact Y]). }
  destruct Cs as [[-> _]|[Gn Gc]]; [exfalso; apply Ig in Ha0; exact Ha0|].
  assert (len g <= 256) as Lg.
  { assert (len g <= len l); [|lia]. clear - Eg. revert g Eg. induction l as [|i l IH]; intros g H; cbn in H; [injection H as <-; unfold len; cbn; lia|].
    destruct (i =? kInvalidAnimIndex); [rewrite len_cons; specialize (IH _ H); lia|]. destruct (getz (l_anims s) i); [|discriminate]. cbn in H.
    destruct (gather_anims (l_anims s) l) as [r0|]; [|discriminate]. cbn in H. injection H as <-. rewrite !len_cons. specialize (IH _ eq_refl). lia. }
  destruct (create_get spline_init g d Gc) as (b & Eb & Hb & Nb & HK).
  { intros j o X. apply Id in X. eapply Hv; exact X. }
  destruct (C63_most_bones_partial g) as (b' & Eb' & _ & Mx).
  { destruct g; [congruence|]. rewrite len_cons in *. pose proof (len_nonneg g). lia. }
  assert (b' = b) by congruence. subst b'. exists d, b. split; [exact Egd|]. split; [apply Ig, Hb|]. split; [intros a X; apply Mx, Ig, X|]. split; [exact Nb|].
  intros j Hj. destruct (HK j ltac:(lia)) as (K1 & K2 & m & K3 & _ & K4). split; [exact K1|]. split; [exact K2|]. exists m. split; [exact K3|].
  eapply united_ext; [|exact K4]. apply Id.
Qed.
End TableLevel.

(** *** Counterexamples, with RigAnimFb = its name and an animation *)
Section Refuted.
Notation orig := (rig_anim (opinit unit unit)).
Definition fb := (list Z * orig)%type.
Definition ex_name (x : fb) : option (list Z) := Some (fst x).
Definition ex_decode (x : fb) : option orig := Some (snd x).
Definition ex_load := load (fun _ => tt) ex_name ex_decode.
(** One bone with one constant operation. *)
Definition one_bone (v : R) : orig := RigAnim [MAnim false [OpInit None 0 TranslateX (UValue v)]] [kInvalidBoneIdx] [[98]] 0 false.

(** *** C62 is false for constants outside [0, 1]: the only animation of the object has the
    constant 5, and the defining animation has an animated operation. *)
Theorem C62_constant_refuted :
  exists t d m, ex_load (fun _ => None) [[SEmbedded ([97], one_bone 5)]] table_empty = Some (true, t, []) /\ defining_anim t 0 = Some d /\ anim_at d 0 = Some m /\
    (forall o, object_drives t 0 0 o -> constant_op o 5%R) /\ ma_ops m = [OpInit (Some tt) 0 TranslateX UEmpty].
Proof.
  eexists _, _, _. split; [reflexivity|]. split; [reflexivity|]. split; [reflexivity|]. split.
  - intros o (a & m & (idx & p & Q & E) & Hj & Em & Ho). cbn in E. unfold query in Q. cbn in Q.
    destruct (getz [0] idx) as [i|] eqn:Ei; [|discriminate]. cbn in Q.
    pose proof (getz_Some _ _ _ Ei) as Ri. change (len [0]) with 1 in Ri. replace idx with 0 in Ei by lia. cbn in Ei. injection Ei as <-. cbn in Q. injection Q as <-.
    cbn in E. injection E as <-. cbn in Em. injection Em as <-. destruct Ho as [<-|[]]. split; reflexivity.
  - cbn. rewrite Reqb_f; [reflexivity|]. unfold length_, include, range_default. cbn. minmax; lra.
Qed.
(** *** C62 is false after a second call of Load: the operations are added again, and the
    ids are not ascending. *)
Definition one_animated : orig := RigAnim [MAnim false [OpInit (Some tt) 0 TranslateX UEmpty]] [kInvalidBoneIdx] [[98]] 0 false.
Theorem C62_reload_refuted :
  exists t t' d m, let lists := [[SEmbedded ([97], one_animated)]] in
    ex_load (fun _ => None) lists table_empty = Some (true, t, []) /\ ex_load (fun _ => None) lists t = Some (true, t', []) /\
    defining_anim t' 0 = Some d /\ anim_at d 0 = Some m /\ map i_id (ma_ops m) = [0; 0].
Proof.
  set (a := one_animated). set (op := OpInit (S:=unit) (Some tt) 0 TranslateX UEmpty).
  set (def := fun ops : list (opinit unit unit) => RigAnim [MAnim false ops] [kInvalidBoneIdx] [[98]] 0 false).
  exists (Table [[0]] [def [op]] [([97], 0)] [a]), (Table [[0]] [def [op; op]] [([97], 0)] [a]), (def [op; op]), (MAnim false [op; op]).
  cbv zeta. split; [vm_compute; reflexivity|]. split; [vm_compute; reflexivity|]. split; [reflexivity|]. split; reflexivity.
Qed.

(** *** C61: a table with an object that lists no animations takes the address of the first
    element of an empty vector. *)
Theorem C61_empty_object_refuted : forall f, ex_load f [[]] table_empty = None.
Proof. reflexivity. Qed.
(** *** C61 is false for names that cannot be loaded: load_fn is called for each occurrence. *)
Theorem C61_failed_load_refuted : forall n x, exists t, ex_load (fun _ => None) [[SFile (x :: n); SFile (x :: n)]] table_empty = Some (false, t, [x :: n; x :: n]).
Proof. intros. eexists. reflexivity. Qed.

(** *** C63 is false for more than 256 animations: the index is truncated to 8 bits. *)
Definition bones (n : nat) : orig := RigAnim (repeat (MAnim false []) n) (repeat kInvalidBoneIdx n) [] 0 false.
Theorem C63_many_refuted :
  exists al b, find_complete_rig al = Some b /\ In (bones 2) al /\ num_bones b < num_bones (bones 2).
Proof.
  exists (repeat (bones 1) 256 ++ [bones 2]), (bones 1). split; [vm_compute; reflexivity|].
  split; [apply in_app_iff; right; left; reflexivity|]. reflexivity.
Qed.

(** Animation number [k], without bones, recognised by its end time. *)
Definition numbered (k : Z) : orig := RigAnim [] [] [] k false.
Fixpoint numbers (n : nat) (k : Z) : list Z := match n with 0%nat => [] | Datatypes.S n' => k :: numbers n' (k + 1) end.
Definition many (n : nat) : list (@source fb) := map (fun k => SEmbedded ([k], numbered k)) (numbers n 0).
Lemma numbers_app : forall n k, numbers (Datatypes.S n) k = numbers n k ++ [k + Z.of_nat n].
Proof.
  induction n as [|n IH]; intros k; [cbn; f_equal; lia|]. change (numbers (Datatypes.S (Datatypes.S n)) k) with (k :: numbers (Datatypes.S n) (k + 1)).
  rewrite IH. cbn [numbers app]. do 3 f_equal. lia.
Qed.
Lemma numbers_len : forall n k, len (numbers n k) = Z.of_nat n.
Proof. induction n as [|n IH]; intros k; [reflexivity|]. cbn [numbers]. rewrite len_cons, IH. lia. Qed.
Lemma numbers_get : forall n k i, 0 <= i < Z.of_nat n -> getz (numbers n k) i = Some (k + i).
Proof.
  induction n as [|n IH]; intros k i Hi; [lia|]. rewrite numbers_app. destruct (Z.eq_dec i (Z.of_nat n)) as [->|N].
  - rewrite getz_app2 by (rewrite numbers_len; lia). rewrite numbers_len. replace (Z.of_nat n - Z.of_nat n) with 0 by lia. reflexivity.
  - rewrite getz_app1 by (rewrite numbers_len; lia). apply IH. lia.
Qed.
Definition many_map (n : nat) : list (list Z * Z) := map (fun k => ([k], to_anim_index k)) (numbers n 0).
Lemma many_find : forall n k, Z.of_nat n <= k -> name_find [k] (many_map n) = None.
Proof.
  intros n k H. unfold many_map. assert (forall m j, j + Z.of_nat m <= k -> name_find [k] (map (fun i => ([i], to_anim_index i)) (numbers m j)) = None) as X; [|apply X; lia].
  induction m as [|m IH]; intros j Hj; [reflexivity|]. cbn [numbers map name_find]. destruct (list_eq_dec Z.eq_dec [j] [k]) as [E|E]; [injection E as E; lia|]. apply IH. lia.
Qed.
Lemma many_load : forall f m n s, l_map s = many_map n -> l_anims s = map numbered (numbers n 0) ->
  load_list ex_name ex_decode f (map (fun k => SEmbedded ([k], numbered k)) (numbers m (Z.of_nat n))) s =
  Some (map to_anim_index (numbers m (Z.of_nat n)), Loading (many_map (m + n)) (map numbered (numbers (m + n) 0)) (l_success s) (l_calls s)).
Proof.
  induction m as [|m IH]; intros n s Hm Ha.
  - change (0 + n)%nat with n. cbn [numbers map load_list]. rewrite <- Hm, <- Ha. destruct s; reflexivity.
  - cbn [numbers map load_list]. unfold load_entry at 1. cbn [ex_name fst]. rewrite Hm, many_find by lia. unfold add_anim. cbn [ex_decode snd].
    rewrite Ha. rewrite len_map, numbers_len. cbn [fst snd].
    replace (Z.of_nat n + 1) with (Z.of_nat (Datatypes.S n)) by lia. rewrite IH.
    + cbn [fst snd l_success l_calls]. replace (m + Datatypes.S n)%nat with (Datatypes.S m + n)%nat by lia. reflexivity.
    + cbn [l_map]. rewrite ?Hm. unfold many_map. rewrite numbers_app, map_app. cbn [map]. rewrite Z.add_0_l. reflexivity.
    + cbn [l_anims]. rewrite numbers_app, map_app. cbn [map]. rewrite Z.add_0_l. reflexivity.
Qed.
Lemma gather_numbered : forall n l, (forall i, In i l -> i = kInvalidAnimIndex \/ 0 <= i < Z.of_nat n) ->
  exists g, gather_anims (map numbered (numbers n 0)) l = Some g /\ forall a, In a g -> exists k, a = numbered k.
Proof.
  intros n. induction l as [|i l IH]; intros H; [exists []; split; [reflexivity|intros a []]|]. cbn [gather_anims].
  destruct IH as (g & Eg & Hg); [intros j Hj; apply H; right; exact Hj|].
  destruct (Z.eqb_spec i kInvalidAnimIndex) as [->|N]; [exists g; auto|].
  destruct (H i (or_introl eq_refl)) as [?|Hi]; [contradiction|].
  assert (getz (map numbered (numbers n 0)) i = Some (numbered i)) as ->.
  { unfold getz. replace (i <? 0) with false by lia. rewrite nth_error_map. pose proof (numbers_get n 0 i Hi) as G. unfold getz in G. replace (i <? 0) with false in G by lia. rewrite G. reflexivity. }
  rewrite Eg. exists (numbered i :: g). split; [reflexivity|]. intros a [<-|Ha]; eauto.
Qed.
Lemma create_numbered : forall g d, g <> [] -> (forall a, In a g -> exists k, a = numbered k) -> exists d', create_defining_anim (fun _ => tt) g d = Some d'.
Proof.
  intros g d Hn Hg. unfold create_defining_anim. destruct (find_complete_some g) as (b & E & Hb).
  { destruct g; [congruence|]. rewrite len_cons. pose proof (len_nonneg g). lia. }
  rewrite E. destruct (Hg b Hb) as (k & ->). cbn. eauto.
Qed.
Lemma load_many : forall n, (0 < n)%nat -> exists ds,
  ex_load (fun _ => None) [many n] table_empty = Some (true, Table [map to_anim_index (numbers n 0)] ds (many_map n) (map numbered (numbers n 0)), []).
Proof.
  intros n Hn. unfold ex_load, load. cbn [load_lists name_map anims table_empty]. unfold many.
  pose proof (many_load (fun _ => None) n 0 (Loading [] [] true []) eq_refl eq_refl) as E. rewrite Nat.add_0_r in E. change (Z.of_nat 0) with 0 in E. rewrite E. cbn [fst snd l_map l_anims l_success l_calls].
  unfold calculate_defining_anims. cbn [indices anims defining_anims name_map].
  assert (0 <? max_anim_index [map to_anim_index (numbers n 0)] = true) as ->.
  { cbn. rewrite len_map, numbers_len. lia. }
  rewrite Bool.orb_true_r. assert (forall x (l : list x) (d : orig), resize [] (len [l]) d = [d]) as -> by reflexivity.
  cbn [calculate_loop].
  destruct (gather_numbered n (map to_anim_index (numbers n 0))) as (g & Eg & Hg).
  { intros i Hi. apply in_map_iff in Hi. destruct Hi as (k & <- & Hk). apply In_getz in Hk. destruct Hk as (j & Hj). pose proof (getz_Some _ _ _ Hj) as Rj. rewrite numbers_len in Rj.
    rewrite numbers_get in Hj by lia. injection Hj as <-. unfold to_anim_index. right. pose proof (Z.mod_pos_bound (0 + j) 65536 ltac:(lia)). pose proof (Z.mod_le (0 + j) 65536 ltac:(lia) ltac:(lia)). lia. }
  rewrite Eg. destruct g as [|a g]; [eexists; reflexivity|].
  destruct (create_numbered (a :: g) ra_default) as (d & Ed); [discriminate|exact Hg|]. rewrite Ed. eexists. reflexivity.
Qed.
Lemma many_query : forall n ds i, 0 <= i < Z.of_nat n ->
  query (Table [map to_anim_index (numbers n 0)] ds (many_map n) (map numbered (numbers n 0))) 0 i =
  Some (if to_anim_index i =? kInvalidAnimIndex then None else Some (to_anim_index i)).
Proof.
  intros n ds i Hi. unfold query. cbn [indices anims]. change (getz [map to_anim_index (numbers n 0)] 0) with (Some (map to_anim_index (numbers n 0))). cbv iota beta.
  assert (forall B (g : Z -> B) k, 0 <= k < Z.of_nat n -> getz (map g (numbers n 0)) k = Some (g k)) as G.
  { intros B g k Hk. unfold getz. replace (k <? 0) with false by lia. rewrite nth_error_map. pose proof (numbers_get n 0 k Hk) as G. unfold getz in G. replace (k <? 0) with false in G by lia. rewrite G. cbn. reflexivity. }
  rewrite G by exact Hi. destruct (to_anim_index i =? kInvalidAnimIndex); [reflexivity|].
  rewrite G; [reflexivity|]. unfold to_anim_index. pose proof (Z.mod_pos_bound i 65536 ltac:(lia)). pose proof (Z.mod_le i 65536 ltac:(lia) ltac:(lia)). lia.
Qed.
(** *** C61 is false for more than 65535 animations: the 65536th entry yields none, and the
    65537th yields the animation of the first. *)
Theorem C61_many_refuted : forall n, Z.of_nat n = 65537 -> exists t, ex_load (fun _ => None) [many n] table_empty = Some (true, t, []) /\
  getz (many n) 65535 = Some (SEmbedded ([65535], numbered 65535)) /\ query t 0 65535 = Some None /\
  getz (many n) 65536 = Some (SEmbedded ([65536], numbered 65536)) /\ query t 0 65536 = Some (Some 0) /\ getz (anims t) 0 = Some (numbered 0).
Proof.
  intros n N. destruct (load_many n) as (ds & E); [lia|].
  eexists. split; [exact E|].
  assert (forall B (g : Z -> B) k, 0 <= k < 65537 -> getz (map g (numbers n 0)) k = Some (g k)) as G.
  { intros B g k Hk. unfold getz. replace (k <? 0) with false by lia. rewrite nth_error_map. pose proof (numbers_get n 0 k ltac:(lia)) as G. unfold getz in G. replace (k <? 0) with false in G by lia. rewrite G. reflexivity. }
  split; [unfold many; rewrite G by lia; reflexivity|]. split; [rewrite many_query by lia; reflexivity|].
  split; [unfold many; rewrite G by lia; reflexivity|]. split; [rewrite many_query by lia; reflexivity|].
  cbn [anims]. rewrite G by lia. reflexivity.
Qed.
Example C61_many_example : exists n, Z.of_nat n = 65537.
Proof. exists (Z.to_nat 65537). apply Z2Nat.id. lia. Qed.

(** The hypotheses of C61 and C62 are met: two objects that share a file, an embedded
    animation, an entry without an animation and a file that cannot be read. *)
Definition ex_files (n : list Z) : option fb := if list_eq_dec Z.eq_dec n [1] then Some ([7], bones 1) else None.
Definition ex_lists : list (list (@source fb)) := [[SFile [1]; SNone]; [SFile [2]; SFile [1]; SEmbedded ([3], bones 2); SFile [2]]].
Example C61_example : exists t, ex_load ex_files ex_lists table_empty = Some (false, t, [[1]; [2]; [2]]) /\ loaded (fun _ => tt) ex_name ex_decode [(ex_files, ex_lists)] t /\
  len (anims t) = 2 /\ query t 0 0 = Some (Some 0) /\ query t 0 1 = Some None /\ query t 1 0 = Some None /\ query t 1 1 = Some (Some 0) /\ query t 1 2 = Some (Some 1) /\
  query_by_name t [3] = Some (Some 1).
Proof.
  let r := eval vm_compute in (ex_load ex_files ex_lists table_empty) in match r with Some (_, ?t, _) => exists t end.
  split; [vm_compute; reflexivity|]. split; [eapply loaded_load; [apply loaded_empty|vm_compute; reflexivity]|]. repeat split; reflexivity.
Qed.
(** Two animations of one object: the operation with id 0 is the constant 1/2 in both, the
    operation with id 1 has two values. *)
Definition two_ops (v w : R) : orig := RigAnim [MAnim false [OpInit None 1 TranslateY (UValue w); OpInit None 0 TranslateX (UValue v)]] [kInvalidBoneIdx] [[98]] 0 false.
Example C62_example : exists t d m, ex_load (fun _ => None) [[SEmbedded ([97], two_ops (1/2) 3); SEmbedded ([98], two_ops (1/2) 4)]] table_empty = Some (true, t, []) /\
  defining_anim t 0 = Some d /\ anim_at d 0 = Some m /\ ma_ops m = [OpInit None 0 TranslateX (UValue (1/2)%R); OpInit (Some tt) 1 TranslateY UEmpty].
Proof.
  eexists _, _, _. split; [reflexivity|]. split; [reflexivity|]. split; [reflexivity|]. cbn.
  unfold length_, include, range_default. cbn. rewrite Reqb_t by (minmax; lra). rewrite Reqb_f by (minmax; lra). do 3 f_equal. minmax; lra.
Qed.
Example C63_example : exists b, find_complete_rig [bones 1; bones 3; bones 2; bones 3] = Some b /\ num_bones b = 3.
Proof. exists (bones 3). split; reflexivity. Qed.
End Refuted.

Print Assumptions C61_query_partial.
Print Assumptions C61_distinct_names_partial.
Print Assumptions C61_loads_once.
Print Assumptions C61_result.
Print Assumptions C61_many_refuted.
Print Assumptions C61_failed_load_refuted.
Print Assumptions C62_defining_anim_partial.
Print Assumptions C62_succeeds.
Print Assumptions C62_constant_refuted.
Print Assumptions C62_reload_refuted.
Print Assumptions C63_most_bones_partial.
Print Assumptions C63_many_refuted.
