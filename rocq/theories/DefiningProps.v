(** Theorems about the defining animation of an object (C62, C63), and counterexamples for
    C61. *)
From Coq Require Import Sorted.
From Verif Require Import RBase BaseFacts RangeModel MatrixModel RigModel RigProps AnimTableModel AnimTableProps.
Local Open Scope Z_scope.

Section Defining.
Context {I S : Type} (spline_init : range -> I).
Notation rig := (rig_anim (opinit I S)).

(** *** C63: the complete rig *)
Lemma find_complete_loop_ok : forall fuel (al : list rig) i best, i + Z.of_nat fuel = len al -> 0 <= best < i -> i <= 256 -> len al <= 256 ->
  (forall k a b, 0 <= k < i -> getz al k = Some a -> getz al best = Some b -> num_bones a <= num_bones b) ->
  exists r b, find_complete_loop fuel al i best = Some r /\ getz al r = Some b /\ 0 <= r < len al /\ (forall k a, getz al k = Some a -> num_bones a <= num_bones b).
Proof.
  induction fuel as [|fuel IH]; intros al i best Hf Hb Hi Hl Hm.
  - cbn. destruct (getz_in_range al best ltac:(lia)) as [b Eb]. exists best, b. split; [reflexivity|]. split; [exact Eb|]. split; [lia|].
    intros k a Ha. pose proof (getz_Some _ _ _ Ha). apply (Hm k a b); auto. lia.
  - cbn [find_complete_loop]. destruct (getz_in_range al i ltac:(lia)) as [a Ea]. destruct (getz_in_range al best ltac:(lia)) as [b Eb].
    rewrite Ea, Eb. cbn. rewrite (Z.mod_small i) by lia. destruct (Z.ltb_spec (num_bones b) (num_bones a)) as [Lt|Ge].
    + apply IH; try lia. intros k x y Hk Hx Hy. rewrite Ea in Hy. injection Hy as <-. destruct (Z.eq_dec k i) as [->|N]; [rewrite Ea in Hx; injection Hx as <-; lia|].
      pose proof (Hm k x b ltac:(lia) Hx Eb). lia.
    + apply IH; try lia. intros k x y Hk Hx Hy. rewrite Eb in Hy. injection Hy as <-. destruct (Z.eq_dec k i) as [->|N]; [rewrite Ea in Hx; injection Hx as <-; lia|].
      apply (Hm k x b); auto. lia.
Qed.
(** *** C63: the rig that FindCompleteRig chooses among at most 256 animations is one of
    them and has the largest number of bones. *)
Theorem C63_most_bones_partial : forall al : list rig, 0 < len al <= 256 ->
  exists b, find_complete_rig al = Some b /\ In b al /\ forall a, In a al -> num_bones a <= num_bones b.
Proof.
  intros al L. unfold find_complete_rig. replace (0 <? len al) with true by lia.
  destruct (find_complete_loop_ok (Z.to_nat (len al - 1)) al 1 0) as (r & b & E & Eb & Hr & Hm); try lia.
  { intros k a b Hk Ha Hb. replace k with 0 in Ha by lia. rewrite Ha in Hb. injection Hb as <-. lia. }
  rewrite E. cbn. rewrite Eb. exists b. split; [reflexivity|]. split.
  - unfold getz in Eb. destruct (r <? 0); [discriminate|]. eapply nth_error_In; eauto.
  - intros a Ha. apply In_getz in Ha. destruct Ha as [k Hk]. eauto.
Qed.

(** FindCompleteRig always returns one of the animations. *)
Lemma find_complete_loop_some : forall fuel (al : list rig) i best, i + Z.of_nat fuel = len al -> 0 <= best < i -> exists r, find_complete_loop fuel al i best = Some r /\ 0 <= r < len al.
Proof.
  induction fuel as [|fuel IH]; intros al i best Hf Hb; cbn [find_complete_loop]; [exists best; split; [reflexivity|lia]|].
  destruct (getz_in_range al i ltac:(lia)) as [a Ea]. destruct (getz_in_range al best ltac:(lia)) as [b Eb]. rewrite Ea, Eb. cbn.
  apply IH; [lia|]. pose proof (Z.mod_pos_bound i 256 ltac:(lia)). pose proof (Z.mod_le i 256 ltac:(lia) ltac:(lia)). destruct (num_bones b <? num_bones a); lia.
Qed.
Lemma find_complete_some : forall al : list rig, 0 < len al -> exists b, find_complete_rig al = Some b /\ In b al.
Proof.
  intros al L. unfold find_complete_rig. replace (0 <? len al) with true by lia.
  destruct (find_complete_loop_some (Z.to_nat (len al - 1)) al 1 0) as (r & E & Hr); try lia. rewrite E. cbn.
  destruct (getz_in_range al r ltac:(lia)) as [b Eb]. exists b. split; [exact Eb|]. unfold getz in Eb. destruct (r <? 0); [discriminate|]. eapply nth_error_In; eauto.
Qed.

(** *** C62: specification *)
(** Operation [o] drives bone [j] in one of the animations. *)
Definition drives (al : list rig) (j : Z) (o : opinit I S) : Prop :=
  exists a m, In a al /\ j < num_bones a /\ anim_at a j = Some m /\ In o (ma_ops m).
(** Operation [o] is the constant [v]. *)
Definition constant_op (o : opinit I S) (v : R) : Prop := i_init o = None /\ i_union o = UValue v.

(** Rotations are angles between - PI and PI; other operations have no range. *)
Definition op_range (t : mtype) : range := match t with RotateX | RotateY | RotateZ => Rg (- PI) PI | _ => Rg 1 0 end.
(** The operations [ops] are the union of the operations in [D]: ids ascending, one
    operation for each id that occurs, with the type of all those operations; a constant
    when all of them are the same constant in [0, 1], animated otherwise. *)
Definition united (D : opinit I S -> Prop) (ops : list (opinit I S)) : Prop :=
  StronglySorted Z.lt (map i_id ops) /\
  (forall id, In id (map i_id ops) <-> exists o, D o /\ i_id o = id) /\
  (forall o, In o ops ->
     (forall o', D o' -> i_id o' = i_id o -> i_type o' = i_type o) /\
     (o = OpInit (Some (spline_init (op_range (i_type o)))) (i_id o) (i_type o) UEmpty \/ exists v, o = OpInit None (i_id o) (i_type o) (UValue v)) /\
     (forall v, i_union o = UValue v <-> (0 <= v <= 1)%R /\ forall o', D o' -> i_id o' = i_id o -> constant_op o' v)).

(** *** Proofs *)
Definition keys (m : id_map) : list Z := map fst m.
Lemma map_get_set : forall m id e id', map_get id' (map_set id e m) = if id =? id' then e else map_get id' m.
Proof.
  induction m as [|[k x] m IH]; intros id e id'; cbn; [reflexivity|].
  destruct (Z.eqb_spec k id) as [->|N]; cbn.
  - destruct (Z.eqb_spec id id'); reflexivity.
  - destruct (Z.ltb_spec id k); cbn.
    + destruct (Z.eqb_spec id id') as [->|]; [reflexivity|]. reflexivity.
    + rewrite IH. destruct (Z.eqb_spec id id') as [->|]; [|reflexivity]. destruct (Z.eqb_spec k id'); [lia|reflexivity].
Qed.
Lemma map_set_keys : forall m id e x, In x (keys (map_set id e m)) <-> x = id \/ In x (keys m).
Proof.
  induction m as [|[k y] m IH]; intros id e x; cbn; [intuition|].
  destruct (Z.eqb_spec k id) as [->|N]; cbn; [intuition|].
  destruct (id <? k); cbn; [intuition|]. unfold keys in IH. rewrite IH. intuition.
Qed.
Lemma map_set_sorted : forall m id e, StronglySorted Z.lt (keys m) -> StronglySorted Z.lt (keys (map_set id e m)).
Proof.
  induction m as [|[k y] m IH]; intros id e H; cbn; [constructor; constructor|].
  inversion H as [|? ? Hs Hf]; subst. destruct (Z.eqb_spec k id) as [->|N]; cbn; [constructor; assumption|].
  destruct (Z.ltb_spec id k); cbn.
  - constructor; [exact H|]. constructor; [assumption|]. eapply Forall_impl; [|exact Hf]. intros; cbn in *; lia.
  - constructor; [apply IH; assumption|]. apply Forall_forall. intros x Hx. apply map_set_keys in Hx. destruct Hx as [->|Hx]; [lia|].
    rewrite Forall_forall in Hf. apply Hf, Hx.
Qed.
Lemma map_get_in : forall m id e, StronglySorted Z.lt (keys m) -> In (id, e) m -> map_get id m = e.
Proof.
  induction m as [|[k y] m IH]; intros id e H []; inversion H as [|? ? Hs Hf]; subst; cbn.
  - injection H0 as <- <-. rewrite Z.eqb_refl. reflexivity.
  - destruct (Z.eqb_spec k id) as [->|N]; [|apply IH; assumption]. exfalso. rewrite Forall_forall in Hf.
    assert (id < id); [|lia]. apply Hf. change id with (fst (id, e)). apply in_map. assumption.
Qed.

Local Open Scope R_scope.
(** The hull of the constants, starting from the range [1, 0]. *)
Definition hull (dn : list (opinit I S)) (id : Z) (r : range) : Prop :=
  (forall o, In o dn -> i_id o = id -> exists v, constant_op o v /\ start_ r <= v <= end_ r) /\
  start_ r <= 1 /\ 0 <= end_ r /\
  (start_ r = 1 \/ exists o, In o dn /\ i_id o = id /\ constant_op o (start_ r)) /\
  (end_ r = 0 \/ exists o, In o dn /\ i_id o = id /\ constant_op o (end_ r)).
Definition minv (dn : list (opinit I S)) (m : id_map) : Prop :=
  StronglySorted Z.lt (keys m) /\
  (forall id, In id (keys m) <-> exists o, In o dn /\ i_id o = id) /\
  (forall o, In o dn -> fst (map_get (i_id o) m) = i_type o) /\
  (forall id, (forall o, In o dn -> i_id o <> id) -> map_get id m = (InvalidOp, Some range_default)) /\
  (forall id, match snd (map_get id m) with None => exists o, In o dn /\ i_id o = id /\ i_init o <> None | Some r => hull dn id r end).

Lemma mtype_eqb_eq : forall a b, mtype_eqb a b = true <-> a = b.
Proof. intros. unfold mtype_eqb. destruct (mtype_eq_dec a b); split; congruence. Qed.

Lemma hull_include : forall dn o v id r, i_id o = id -> constant_op o v -> hull dn id r -> hull (dn ++ [o]) id (include r v).
Proof.
  intros dn o v id r Hid Hc (A & B & C & D & E). unfold hull, include. cbn.
  split; [|split; [|split; [|split]]].
  - intros x Hx Hi. apply in_app_iff in Hx. destruct Hx as [Hx|[<-|[]]].
    + destruct (A x Hx Hi) as (w & Hw & Hr). exists w. split; [exact Hw|]. minmax; lra.
    + exists v. split; [exact Hc|]. minmax; lra.
  - minmax; lra.
  - minmax; lra.
  - unfold Rmin. destruct (Rle_dec (start_ r) v).
    + destruct D as [D|(x & X1 & X2 & X3)]; [left; exact D|]. right. exists x. split; [apply in_app_iff; auto|auto].
    + right. exists o. split; [apply in_app_iff; cbn; auto|auto].
  - unfold Rmax. destruct (Rle_dec (end_ r) v).
    + right. exists o. split; [apply in_app_iff; cbn; auto|auto].
    + destruct E as [E|(x & X1 & X2 & X3)]; [left; exact E|]. right. exists x. split; [apply in_app_iff; auto|auto].
Qed.
Lemma hull_other : forall dn o id r, i_id o <> id -> hull dn id r -> hull (dn ++ [o]) id r.
Proof.
  intros dn o id r Hid (A & B & C & D & E). unfold hull. split; [|split; [exact B|split; [exact C|split]]].
  - intros x Hx Hi. apply in_app_iff in Hx. destruct Hx as [Hx|[<-|[]]]; [auto|congruence].
  - destruct D as [D|(x & X1 & X2 & X3)]; [left; exact D|]. right. exists x. split; [apply in_app_iff; auto|auto].
  - destruct E as [E|(x & X1 & X2 & X3)]; [left; exact E|]. right. exists x. split; [apply in_app_iff; auto|auto].
Qed.

Lemma add_op_inv : forall dn m o m', (forall x, In x dn -> i_type x <> InvalidOp) -> i_type o <> InvalidOp -> minv dn m -> add_op o m = Some m' -> minv (dn ++ [o]) m'.
Proof.
  intros dn m o m' Hv Ho (A & B & C & D & E) H. unfold add_op in H.
  destruct (map_get (i_id o) m) as [op r] eqn:G.
  destruct (mtype_eqb op InvalidOp || mtype_eqb op (i_type o))%bool eqn:Q; [|discriminate].
  match type of H with (match ?x with _ => _ end) = _ => destruct x as [r'|] eqn:Er; [|discriminate] end. injection H as <-.
  split; [apply map_set_sorted, A|]. split; [|split; [|split]].
  - intros id. rewrite map_set_keys, B. split.
    + intros [->|(x & X1 & X2)]; [exists o; split; [apply in_app_iff; cbn; auto|reflexivity]|exists x; split; [apply in_app_iff; auto|exact X2]].
    + intros (x & X1 & X2). apply in_app_iff in X1. destruct X1 as [X1|[<-|[]]]; [right; eauto|left; auto].
  - intros x Hx. rewrite map_get_set. destruct (Z.eqb_spec (i_id o) (i_id x)) as [Ei|Ei].
    + cbn. apply in_app_iff in Hx. destruct Hx as [Hx|[<-|[]]]; [|reflexivity].
      pose proof (C x Hx) as Cx. rewrite <- Ei, G in Cx. cbn in Cx. subst op. apply Bool.orb_true_iff in Q. rewrite !mtype_eqb_eq in Q.
      destruct Q as [Q|Q]; [|congruence]. exfalso. exact (Hv _ Hx Q).
    + apply in_app_iff in Hx. destruct Hx as [Hx|[<-|[]]]; [auto|congruence].
  - intros id Hid. rewrite map_get_set. destruct (Z.eqb_spec (i_id o) id) as [Ei|Ei].
    + exfalso. apply (Hid o); [apply in_app_iff; cbn; auto|exact Ei].
    + apply D. intros x Hx. apply Hid. apply in_app_iff. auto.
  - intros id. rewrite map_get_set. destruct (Z.eqb_spec (i_id o) id) as [Ei|Ei].
    + cbn. specialize (E id). rewrite <- Ei, G in E. cbn in E. destruct (i_init o) as [i|] eqn:Eo.
      * injection Er as <-. exists o. split; [apply in_app_iff; cbn; auto|]. split; [exact Ei|]. congruence.
      * destruct (i_union o) as [|v|t|s] eqn:Eu; try discriminate. injection Er as <-. destruct r as [r|].
        -- rewrite <- Ei. apply hull_include; [reflexivity|split; assumption|exact E].
        -- destruct E as (x & X1 & X2 & X3). exists x. split; [apply in_app_iff; auto|]. split; [congruence|exact X3].
    + specialize (E id). destruct (snd (map_get id m)) as [r0|]; [apply hull_other; assumption|].
      destruct E as (x & X1 & X2 & X3). exists x. split; [apply in_app_iff; auto|auto].
Qed.
Lemma add_ops_inv : forall ops dn m m', (forall x, In x (dn ++ ops) -> i_type x <> InvalidOp) -> minv dn m -> add_ops ops m = Some m' -> minv (dn ++ ops) m'.
Proof.
  induction ops as [|o ops IH]; intros dn m m' Hv Hi H; cbn in H; [injection H as <-; rewrite app_nil_r; exact Hi|].
  destruct (add_op o m) as [m1|] eqn:E; [|discriminate]. cbn in H. replace (dn ++ o :: ops) with ((dn ++ [o]) ++ ops) in * by (rewrite <- app_assoc; reflexivity).
  eapply IH; [exact Hv| |exact H]. eapply add_op_inv; [| |exact Hi|exact E].
  - intros x Hx. apply Hv. rewrite !in_app_iff. auto.
  - apply Hv. rewrite !in_app_iff. cbn. auto.
Qed.

Local Open Scope Z_scope.
(** The operations of bone [j] in the animations, in the order of the loops. *)
Definition bone_ops (al : list rig) (j : Z) : list (opinit I S) :=
  flat_map (fun a => if num_bones a <=? j then [] else match anim_at a j with Some m => ma_ops m | None => [] end) al.
Lemma bone_ops_drives : forall al j o, In o (bone_ops al j) <-> drives al j o.
Proof.
  intros al j o. unfold bone_ops, drives. rewrite in_flat_map. split.
  - intros (a & Ha & Ho). destruct (Z.leb_spec (num_bones a) j); [destruct Ho|]. destruct (anim_at a j) as [m|] eqn:E; [|destruct Ho]. exists a, m. auto.
  - intros (a & m & Ha & Hj & Em & Ho). exists a. split; [exact Ha|]. replace (num_bones a <=? j) with false by lia. rewrite Em. exact Ho.
Qed.
Lemma gather_ops_inv : forall al j dn m m', (forall x, In x (dn ++ bone_ops al j) -> i_type x <> InvalidOp) -> minv dn m -> gather_ops al j m = Some m' -> minv (dn ++ bone_ops al j) m'.
Proof.
  induction al as [|a al IH]; intros j dn m m' Hv Hi H; cbn in H; [injection H as <-; cbn; rewrite app_nil_r; exact Hi|].
  unfold bone_ops in *. cbn [flat_map] in *. destruct (num_bones a <=? j); [apply IH with (m := m); assumption|].
  destruct (anim_at a j) as [ma|]; [|discriminate]. cbn in H. destruct (add_ops (ma_ops ma) m) as [m1|] eqn:E; [|discriminate]. cbn in H.
  rewrite app_assoc in *. eapply IH; [exact Hv| |exact H]. eapply add_ops_inv; [|exact Hi|exact E].
  intros x Hx. apply Hv. rewrite in_app_iff. auto.
Qed.
Lemma minv_nil : minv [] [].
Proof.
  split; [constructor|]. split; [intros id; cbn; split; [tauto|intros (o & [] & _)]|]. split; [intros o []|]. split; [reflexivity|].
  intros id. cbn. split; [intros o []|]. cbn. repeat split; try lra; left; reflexivity.
Qed.

Lemma op_range_eq : forall t, range_of_op t = op_range t.
Proof. intros t. destruct t; reflexivity. Qed.
Lemma defining_op_id : forall kv, i_id (defining_op (S:=S) spline_init kv) = fst kv.
Proof. intros [id [op [r|]]]; cbn; [destruct (Reqb (length_ r) 0)|]; reflexivity. Qed.
Lemma minv_united : forall al j m, minv (bone_ops al j) m -> united (drives al j) (map (defining_op spline_init) m).
Proof.
  intros al j m (A & B & C & D & E).
  assert (map i_id (map (defining_op (S:=S) spline_init) m) = keys m) as K by (unfold keys; rewrite map_map; apply map_ext; intros; apply defining_op_id).
  split; [rewrite K; exact A|]. split.
  - intros id. rewrite K, B. split; intros (o & X & Y); exists o; (split; [apply bone_ops_drives, X|exact Y]).
  - intros o Ho. apply in_map_iff in Ho. destruct Ho as ([id [op r]] & <- & Hin). pose proof (map_get_in _ _ _ A Hin) as G.
    assert (exists x, In x (bone_ops al j) /\ i_id x = id) as (x & Hx & Ix) by (apply B; change id with (fst (id, (op, r))); apply in_map, Hin).
    assert (forall o', drives al j o' -> i_id o' = id -> i_type o' = op) as T.
    { intros o' Ho' Io'. apply bone_ops_drives in Ho'. specialize (C _ Ho'). rewrite Io', G in C. cbn in C. auto. }
    specialize (E id). rewrite G in E. cbn [snd] in E. unfold defining_op. rewrite op_range_eq. destruct r as [r|].
    + destruct E as (E1 & E2 & E3 & E4 & E5). destruct (Reqb_spec (length_ r) 0) as [Q|Q].
      * unfold length_ in Q. cbn. split; [exact T|]. split; [right; exists (start_ r); reflexivity|].
        assert (forall o', drives al j o' -> i_id o' = id -> constant_op o' (start_ r)) as X.
        { intros o' Ho' Io'. apply bone_ops_drives in Ho'. destruct (E1 _ Ho' Io') as (v & Hv & Rv). replace (start_ r) with v by lra. exact Hv. }
        intros v. split.
        -- intros Hv. injection Hv as <-. split; [lra|exact X].
        -- intros (Rv & Hv). apply bone_ops_drives in Hx. destruct (Hv _ Hx Ix) as [_ U1]. destruct (X _ Hx Ix) as [_ U2]. congruence.
      * unfold length_ in Q. cbn. split; [exact T|]. split; [left; reflexivity|].
        intros v. split; [discriminate|]. intros (Rv & Hv). exfalso. apply Q. destruct (E1 _ Hx Ix) as (w & [_ Hw] & Rw).
        assert (w = v) as -> by (apply bone_ops_drives in Hx; destruct (Hv _ Hx Ix); congruence).
        assert (start_ r = v).
        { destruct E4 as [E4|(y & Y1 & Y2 & [_ Y3])]; [lra|]. apply bone_ops_drives in Y1. destruct (Hv _ Y1 Y2) as [_ Y4]. congruence. }
        assert (end_ r = v).
        { destruct E5 as [E5|(y & Y1 & Y2 & [_ Y3])]; [lra|]. apply bone_ops_drives in Y1. destruct (Hv _ Y1 Y2) as [_ Y4]. congruence. }
        lra.
    + cbn. split; [exact T|]. split; [left; reflexivity|]. intros v. split; [discriminate|]. intros (_ & Hv). exfalso.
      destruct E as (y & Y1 & Y2 & Y3). apply bone_ops_drives in Y1. destruct (Hv _ Y1 Y2) as [Y4 _]. congruence.
Qed.

Lemma united_ext : forall (D D' : opinit I S -> Prop) ops, (forall o, D o <-> D' o) -> united D ops -> united D' ops.
Proof.
  intros D D' ops H (A & B & C). split; [exact A|]. split.
  - intros id. rewrite B. split; intros (o & X & Y); exists o; (split; [apply H, X|exact Y]).
  - intros o Ho. destruct (C o Ho) as (C1 & C2 & C3). split; [intros; apply C1; [apply H; assumption|assumption]|]. split; [exact C2|].
    intros v. rewrite C3. split; intros (X & Y); (split; [exact X|intros; apply Y; [apply H; assumption|assumption]]).
Qed.

Lemma init_matrix_anim_get : forall j parent name m (d d' : rig), init_matrix_anim j parent name m d = Some d' ->
  len (ra_anims d') = len (ra_anims d) /\ len (ra_parents d') = len (ra_parents d) /\ len (ra_names d') = len (ra_names d) /\
  (parent < j \/ parent = kInvalidBoneIdx) /\
  getz (ra_anims d') j = Some m /\ getz (ra_parents d') j = Some parent /\ (0 < len (ra_names d) -> getz (ra_names d') j = Some name) /\
  forall k, k <> j -> getz (ra_anims d') k = getz (ra_anims d) k /\ getz (ra_parents d') k = getz (ra_parents d) k /\ getz (ra_names d') k = getz (ra_names d) k.
Proof.
  intros j parent name m d d' H. unfold init_matrix_anim in H.
  destruct (j <? len (ra_anims d)); [|discriminate].
  destruct ((parent <? j) || (parent =? kInvalidBoneIdx))%bool eqn:Q; [|discriminate].
  destruct (setz (ra_parents d) j parent) as [ps|] eqn:E1; [|discriminate]. cbn in H.
  destruct (if 0 <? len (ra_names d) then setz (ra_names d) j name else Some (ra_names d)) as [ns|] eqn:E2; [|discriminate]. cbn in H.
  destruct (setz (ra_anims d) j m) as [al|] eqn:E3; [|discriminate]. cbn in H. injection H as <-. cbn.
  pose proof (setz_len _ _ _ _ E1) as L1. pose proof (setz_len _ _ _ _ E3) as L3.
  assert (len ns = len (ra_names d)) as L2 by (destruct (0 <? len (ra_names d)); [exact (setz_len _ _ _ _ E2)|congruence]).
  split; [lia|]. split; [lia|]. split; [lia|].
  split; [apply Bool.orb_true_iff in Q; destruct Q as [Q|Q]; [left|right]; lia|].
  split; [exact (getz_setz_eq _ _ _ _ E3)|]. split; [exact (getz_setz_eq _ _ _ _ E1)|].
  split; [intros P; replace (0 <? len (ra_names d)) with true in E2 by lia; exact (getz_setz_eq _ _ _ _ E2)|].
  intros k Hk. split; [exact (getz_setz_neq _ _ _ _ _ E3 Hk)|]. split; [exact (getz_setz_neq _ _ _ _ _ E1 Hk)|].
  destruct (0 <? len (ra_names d)); [exact (getz_setz_neq _ _ _ _ _ E2 Hk)|congruence].
Qed.

Lemma defining_loop_get : forall fuel al complete j (d d' : rig), defining_loop spline_init fuel al complete j d = Some d' -> 0 < len (ra_names d) \/ fuel = 0%nat ->
  len (ra_anims d') = len (ra_anims d) /\ len (ra_parents d') = len (ra_parents d) /\ len (ra_names d') = len (ra_names d) /\
  forall k, if (j <=? k) && (k <? j + Z.of_nat fuel) then
      exists old m, getz (ra_anims d) k = Some old /\ gather_ops al k [] = Some m /\
        getz (ra_anims d') k = Some (MAnim (ma_sqt old) (ma_ops old ++ map (defining_op spline_init) m)) /\
        getz (ra_parents d') k = getz (ra_parents complete) k /\ getz (ra_names d') k = Some (bone_name complete k)
    else getz (ra_anims d') k = getz (ra_anims d) k /\ getz (ra_parents d') k = getz (ra_parents d) k /\ getz (ra_names d') k = getz (ra_names d) k.
Proof.
  induction fuel as [|fuel IH]; intros al complete j d d' H Hn.
  - cbn in H. injection H as <-. split; [auto|]. split; [auto|]. split; [auto|]. intros k. replace ((j <=? k) && (k <? j + Z.of_nat 0))%bool with false by lia. auto.
  - cbn [defining_loop] in H. destruct Hn as [Hn|Hn]; [|discriminate].
    destruct (getz (ra_parents complete) j) as [p|] eqn:Ep; [|discriminate]. cbn in H. unfold anim_at in H.
    destruct (getz (ra_anims d) j) as [old|] eqn:Eo; [|discriminate]. cbn in H.
    destruct (gather_ops al j []) as [m|] eqn:Em; [|discriminate]. cbn in H.
    match type of H with context [init_matrix_anim ?a ?b ?c ?e ?f] => destruct (init_matrix_anim a b c e f) as [d1|] eqn:Ei; [|discriminate] end. cbn in H.
    apply init_matrix_anim_get in Ei. destruct Ei as (L1 & L2 & L3 & _ & G1 & G2 & G3 & G4).
    apply IH in H; [|left; lia]. destruct H as (M1 & M2 & M3 & HK). split; [lia|]. split; [lia|]. split; [lia|].
    intros k. specialize (HK k). destruct (Z.eq_dec k j) as [->|N].
    + replace ((j + 1 <=? j) && (j <? j + 1 + Z.of_nat fuel))%bool with false in HK by lia.
      replace ((j <=? j) && (j <? j + Z.of_nat (Datatypes.S fuel)))%bool with true by lia.
      destruct HK as (H1 & H2 & H3). exists old, m. split; [exact Eo|]. split; [exact Em|]. rewrite H1, H2, H3, Ep. auto.
    + destruct (G4 k N) as (X1 & X2 & X3).
      replace ((j <=? k) && (k <? j + Z.of_nat (Datatypes.S fuel)))%bool with ((j + 1 <=? k) && (k <? j + 1 + Z.of_nat fuel))%bool by lia.
      destruct ((j + 1 <=? k) && (k <? j + 1 + Z.of_nat fuel))%bool.
      * destruct HK as (o & m' & K1 & K2 & K3 & K4). exists o, m'. rewrite <- X1. auto.
      * rewrite <- X1, <- X2, <- X3. exact HK.
Qed.

(** CreateDefiningAnim on a new animation. *)
Lemma create_get : forall al (d : rig), create_defining_anim spline_init al ra_default = Some d -> (forall j o, drives al j o -> i_type o <> InvalidOp) ->
  exists complete, find_complete_rig al = Some complete /\ In complete al /\ num_bones d = num_bones complete /\
  forall j, 0 <= j < num_bones complete -> getz (ra_parents d) j = getz (ra_parents complete) j /\ bone_name d j = bone_name complete j /\
    exists m, anim_at d j = Some m /\ ma_sqt m = false /\ united (drives al j) (ma_ops m).
Proof.
  intros al d H Hv. unfold create_defining_anim in H.
  destruct (find_complete_rig al) as [complete|] eqn:Ec; [|discriminate]. exists complete. split; [reflexivity|].
  split. { assert (0 < len al) as L by (unfold find_complete_rig in Ec; destruct (Z.ltb_spec 0 (len al)); [assumption|discriminate]).
    destruct (find_complete_some al L) as (b & Eb & Hb). congruence. }
  unfold ra_init in H. destruct (num_bones complete <=? kMaxNumBones) eqn:Q; [|discriminate]. cbn [ra_default ra_anims ra_parents ra_names ra_end ra_repeat] in H.
  pose proof (num_bones_range complete) as Rn. apply Z.leb_le in Q. unfold kMaxNumBones in Q.
  rewrite !resize_grow in H by (unfold len; cbn; lia). cbn [app] in H. replace (num_bones complete - len (@nil (manim (opinit I S)))) with (num_bones complete) in H by (unfold len; cbn; lia).
  replace (num_bones complete - len (@nil Z)) with (num_bones complete) in H by (unfold len; cbn; lia).
  replace (num_bones complete - len (@nil (list Z))) with (num_bones complete) in H by (unfold len; cbn; lia).
  set (n := num_bones complete) in *.
  apply defining_loop_get in H; [|cbn; rewrite len_repeat; lia].
  destruct H as (L1 & L2 & L3 & HK). cbn in L1, L2, L3, HK. rewrite len_repeat in L1. clear L2 L3.
  split; [unfold num_bones; rewrite L1; rewrite Z.mod_small by lia; lia|].
  intros j Hj. specialize (HK j). replace ((0 <=? j) && (j <? Z.of_nat (Z.to_nat n)))%bool with true in HK by lia.
  destruct HK as (old & m & K1 & K2 & K3 & K4 & K5). split; [exact K4|]. split; [unfold bone_name at 1; rewrite K5; reflexivity|].
  rewrite getz_repeat in K1 by lia. injection K1 as <-. cbn in K3. eexists. split; [exact K3|]. split; [reflexivity|]. cbn.
  apply minv_united. apply (gather_ops_inv al j [] [] m); [|exact minv_nil|exact K2].
  cbn. intros x Hx. apply bone_ops_drives in Hx. eauto.
Qed.

(** *** When CreateDefiningAnim succeeds *)
Definition well_formed (a : rig) : Prop :=
  len (ra_anims a) <= kMaxNumBones /\ len (ra_parents a) = len (ra_anims a) /\ forall j p, getz (ra_parents a) j = Some p -> p < j \/ p = kInvalidBoneIdx.
(** Operations of one bone with the same id have the same type, and an operation without an
    init has a constant value. *)
Definition compatible (D : opinit I S -> Prop) : Prop :=
  (forall o, D o -> i_type o <> InvalidOp /\ (i_init o = None -> exists v, i_union o = UValue v)) /\
  forall o o', D o -> D o' -> i_id o = i_id o' -> i_type o = i_type o'.

Lemma add_op_some : forall dn m o, minv dn m -> compatible (fun x => In x (dn ++ [o])) -> exists m', add_op o m = Some m'.
Proof.
  intros dn m o (A & B & C & D & E) (V & T). unfold add_op. destruct (map_get (i_id o) m) as [op r] eqn:G.
  assert (In o (dn ++ [o])) as Io by (apply in_app_iff; cbn; auto).
  assert ((mtype_eqb op InvalidOp || mtype_eqb op (i_type o))%bool = true) as ->.
  { apply Bool.orb_true_iff. rewrite !mtype_eqb_eq. destruct (in_dec Z.eq_dec (i_id o) (keys m)) as [Y|N].
    - right. apply B in Y. destruct Y as (x & Hx & Ix). specialize (C x Hx). rewrite Ix, G in C. cbn in C. subst op. apply T; [apply in_app_iff; auto|exact Io|exact Ix].
    - left. assert ((op, r) = (InvalidOp, Some range_default)) as X; [|congruence]. rewrite <- G. apply D. intros x Hx Ix. apply N, B. eauto. }
  destruct (V o Io) as [_ U]. destruct (i_init o) as [i|]; [cbn; eauto|]. destruct (U eq_refl) as (v & ->). cbn. eauto.
Qed.
Lemma add_ops_some : forall ops dn m, minv dn m -> compatible (fun x => In x (dn ++ ops)) -> exists m', add_ops ops m = Some m'.
Proof.
  induction ops as [|o ops IH]; intros dn m Hm Hc; cbn; [eauto|].
  assert (forall x, In x (dn ++ [o]) -> In x (dn ++ o :: ops)) as Sub by (intros x; rewrite !in_app_iff; cbn; tauto).
  destruct (add_op_some dn m o Hm) as (m1 & E1).
  { destruct Hc as [V T]. split; [intros x Hx; apply V; auto|intros x y Hx Hy; apply T; auto]. }
  rewrite E1. apply (IH (dn ++ [o])).
  - eapply add_op_inv; [| |exact Hm|exact E1].
    + intros x Hx. apply (proj1 Hc). rewrite in_app_iff. auto.
    + apply (proj1 Hc). rewrite in_app_iff. cbn. auto.
  - rewrite <- app_assoc. exact Hc.
Qed.
Lemma gather_ops_some : forall al j dn m, 0 <= j -> minv dn m -> compatible (fun x => In x (dn ++ bone_ops al j)) -> exists m', gather_ops al j m = Some m'.
Proof.
  induction al as [|a al IH]; intros j dn m Hj Hm Hc; cbn [gather_ops]; [eauto|]. unfold bone_ops in Hc. cbn [flat_map] in Hc.
  destruct (Z.leb_spec (num_bones a) j) as [Le|Gt]; [eapply IH; eauto|].
  pose proof (num_bones_le a). destruct (getz_in_range (ra_anims a) j ltac:(lia)) as [ma Ema]. unfold anim_at in *. rewrite Ema in *. cbn.
  rewrite app_assoc in Hc.
  destruct (add_ops_some (ma_ops ma) dn m Hm) as (m1 & E1).
  { destruct Hc as [V T]. split; [intros x Hx; apply V; apply in_app_iff; auto|intros x y Hx Hy; apply T; apply in_app_iff; auto]. }
  rewrite E1. cbn. eapply IH; [exact Hj| |exact Hc]. eapply add_ops_inv; [|exact Hm|exact E1].
  intros x Hx. apply (proj1 Hc). apply in_app_iff. auto.
Qed.
Lemma defining_loop_some : forall fuel al complete j (d : rig), 0 <= j -> j + Z.of_nat fuel <= len (ra_anims d) -> len (ra_parents d) = len (ra_anims d) -> len (ra_names d) = len (ra_anims d) ->
  well_formed complete -> j + Z.of_nat fuel <= len (ra_anims complete) -> (forall k, compatible (drives al k)) ->
  exists d', defining_loop spline_init fuel al complete j d = Some d'.
Proof.
  induction fuel as [|fuel IH]; intros al complete j d Hj L Lp Ln W Lc Hc; [cbn; eauto|]. cbn [defining_loop].
  destruct W as (W1 & W2 & W3). destruct (getz_in_range (ra_parents complete) j ltac:(lia)) as [p Ep]. rewrite Ep.
  unfold anim_at. destruct (getz_in_range (ra_anims d) j ltac:(lia)) as [old Eo]. rewrite Eo.
  destruct (gather_ops_some al j [] []) as (m & Em); [lia|exact minv_nil| |].
  { cbn. destruct (Hc j) as [V T]. split; [intros o Ho; apply V, bone_ops_drives, Ho|intros o o' Ho Ho'; apply T; apply bone_ops_drives; assumption]. }
  rewrite Em.
  assert (exists d1, init_matrix_anim j p (bone_name complete j) (MAnim (ma_sqt old) (ma_ops old ++ map (defining_op spline_init) m)) d = Some d1) as (d1 & E1).
  { unfold init_matrix_anim. replace (j <? len (ra_anims d)) with true by lia.
    replace ((p <? j) || (p =? kInvalidBoneIdx))%bool with true by (destruct (W3 _ _ Ep); lia).
    destruct (setz_Some (ra_parents d) j p ltac:(lia)) as (ps & ->).
    replace (0 <? len (ra_names d)) with true by lia.
    destruct (setz_Some (ra_names d) j (bone_name complete j) ltac:(lia)) as (ns & ->).
    match goal with |- context [setz (ra_anims d) j ?x] => destruct (setz_Some (ra_anims d) j x ltac:(lia)) as (al' & ->) end. eauto. }
  rewrite E1. apply init_matrix_anim_get in E1. destruct E1 as (X1 & X2 & X3 & _).
  apply IH; try lia; [repeat split; assumption|exact Hc].
Qed.

(** *** C62: CreateDefiningAnim succeeds on well-formed and compatible animations. *)
Theorem C62_succeeds : forall al : list rig, al <> [] -> (forall a, In a al -> well_formed a) -> (forall j, compatible (drives al j)) ->
  exists d, create_defining_anim spline_init al ra_default = Some d.
Proof.
  intros al Hn W Hc. unfold create_defining_anim. destruct (find_complete_some al) as (complete & E & Hin).
  { destruct al; [congruence|]. rewrite len_cons. pose proof (len_nonneg al). lia. }
  rewrite E. pose proof (W _ Hin) as Wc. pose proof Wc as (W1 & W2 & W3). pose proof (num_bones_range complete) as Rn. pose proof (num_bones_le complete) as Rl.
  unfold kMaxNumBones in W1. unfold ra_init. replace (num_bones complete <=? kMaxNumBones) with true by (unfold kMaxNumBones; lia). cbn [ra_default ra_anims ra_parents ra_names ra_end ra_repeat].
  apply defining_loop_some; cbn [ra_anims ra_parents ra_names]; rewrite ?len_resize by lia; try lia; try assumption.
Qed.
End Defining.
