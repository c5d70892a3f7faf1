(** Property C122: the reports of rigs for debugging. *)
From Verif Require Import RBase BaseFacts MathfuModel RangeModel AngleModel OvershootModel SimpleModel EvaluatorModel SplineTargetModel MatrixModel RigModel ChildModel MatrixProps SqtProps RigProps OpStepProps ChildProps.
Local Open Scope R_scope.

(** ** Spec *)
Section Spec.
Context {M I S : Type}.
(** The column of operation [j] of bone [i], after the name and the time. *)
Definition column (a : rig_anim (opinit I S)) (i j : Z) : Z := (2 + len (concat (map ma_ops (firstn (Z.to_nat i) (ra_anims a)))) + j)%Z.
(** An animation has operation [o] at place [j] of bone [i]. *)
Definition has_op (a : rig_anim (opinit I S)) (i j : Z) (o : opinit I S) : Prop := exists ma, getz (ra_anims a) i = Some ma /\ getz (ma_ops ma) j = Some o.
(** Rotations are reported in degrees. *)
Definition in_units (t : mtype) (v : R) : R := match t with RotateX | RotateY | RotateZ => v * (180 / PI) | _ => v end.
End Spec.

Lemma multiplier_units t v : multiplier t * v = in_units t v.
Proof. unfold multiplier, in_units. destruct t; cbn [rotate_op]; ring. Qed.

(** ** Positions in concatenated lists *)
Lemma len_nil {A} : len (@nil A) = 0%Z. Proof. reflexivity. Qed.
Lemma getz_cons {A} (x : A) l j : (0 < j)%Z -> getz (x :: l) j = getz l (j - 1).
Proof. intros H. change (x :: l) with ([x] ++ l). rewrite getz_app2 by (cbn; lia). reflexivity. Qed.
Lemma getz_concat {A} : forall (L : list (list A)) i l j, getz L i = Some l -> (0 <= j < len l)%Z -> getz (concat L) (len (concat (firstn (Z.to_nat i) L)) + j) = getz l j.
Proof.
  induction L as [|x L IH]; intros i l j G J; [apply getz_Some in G; cbn in G; lia|]. pose proof (getz_Some _ _ _ G) as R. destruct (Z.eq_dec i 0) as [->|N].
  - cbn in G. injection G as <-. cbn [Z.to_nat firstn concat]. rewrite len_nil. cbn [concat]. now rewrite getz_app1 by lia.
  - rewrite getz_cons in G by lia. replace (Z.to_nat i) with (Datatypes.S (Z.to_nat (i - 1))) by lia. cbn [firstn concat]. rewrite len_app. pose proof (len_nonneg (concat (firstn (Z.to_nat (i - 1)) L))). rewrite getz_app2 by lia. rewrite <- (IH _ _ _ G J). f_equal. lia.
Qed.
Lemma getz_map {A B} (f : A -> B) l j : getz (map f l) j = match getz l j with Some x => Some (f x) | None => None end.
Proof.
  destruct (getz l j) as [x|] eqn:G.
  - destruct (getz_split _ _ _ G) as (X & Y & -> & L). rewrite map_app. cbn [map]. apply getz_app. now rewrite len_map.
  - apply getz_None. rewrite len_map. intros R. destruct (getz_in_range l j R) as [x X]. congruence.
Qed.
Lemma len_concat_map {A B} (f g : A -> list B) : (forall a, len (f a) = len (g a)) -> forall l, len (concat (map f l)) = len (concat (map g l)).
Proof. intros H. induction l as [|a l IH]; [reflexivity|]. cbn [map concat]. rewrite !len_app, H, IH. reflexivity. Qed.

Lemma skipn_skipn' {A} : forall n m (l : list A), skipn n (skipn m l) = skipn (m + n) l.
Proof. intros n m. induction m as [|m IH]; intros [|x l]; cbn [skipn Nat.add]; auto. now destruct n. Qed.

Section Reports.
Context {M I S : Type} (k : mclass M I S).
Notation O := (opinit I S).
Notation bone := (@bone M).

(** ** The header *)
Lemma header_len line name (ops : list O) : len (header_cells line name ops) = len ops.
Proof. unfold header_cells. destruct (line =? 0)%Z; [|apply len_map]. destruct ops as [|o l]; [reflexivity|]. rewrite !len_cons, len_map. reflexivity. Qed.
Lemma header_loop line (a : rig_anim O) : forall fuel i, (0 <= i)%Z -> (i + Z.of_nat fuel = len (ra_anims a))%Z -> exists L, csv_header_loop fuel i line a = Some (concat L) /\ len L = Z.of_nat fuel /\
  forall j ma, (i <= j)%Z -> getz (ra_anims a) j = Some ma -> getz L (j - i) = Some (header_cells line (bone_name a j) (ma_ops ma)).
Proof.
  induction fuel as [|fuel IH]; intros i Hi E; cbn [csv_header_loop].
  - exists []. split; [reflexivity|]. split; [reflexivity|]. intros j ma J G. apply getz_Some in G. lia.
  - destruct (getz_in_range (ra_anims a) i) as [m G]; [lia|]. rewrite G. destruct (IH (i + 1)%Z ltac:(lia) ltac:(lia)) as (L & -> & LL & H). exists (header_cells line (bone_name a i) (ma_ops m) :: L). split; [reflexivity|]. split; [rewrite len_cons; lia|].
    intros j ma J Gj. destruct (Z.eq_dec j i) as [->|N]; [rewrite Z.sub_diag; rewrite G in Gj; injection Gj as <-; reflexivity|]. rewrite getz_cons by lia. replace (j - i - 1)%Z with (j - (i + 1))%Z by lia. apply H; [lia|exact Gj].
Qed.
Lemma same_lens {A B} (f : A -> list B) {C} : forall (L : list (list C)) (l : list A), len L = len l -> (forall j x y, getz l j = Some x -> getz L j = Some y -> len y = len (f x)) ->
  forall n, len (concat (firstn n L)) = len (concat (map f (firstn n l))).
Proof.
  induction L as [|y L IH]; intros [|x l] E H n.
  - now destruct n.
  - pose proof (len_nonneg l). rewrite len_cons, len_nil in E. lia.
  - pose proof (len_nonneg L). rewrite len_cons, len_nil in E. lia.
  - destruct n as [|n]; [reflexivity|]. cbn [firstn map concat]. rewrite !len_app. rewrite (H 0%Z x y eq_refl eq_refl), (IH l); [reflexivity|rewrite !len_cons in E; lia|].
    intros j x' y' G1 G2. pose proof (getz_Some _ _ _ G1). apply (H (j + 1)%Z); rewrite getz_cons by lia; now replace (j + 1 - 1)%Z with j by lia.
Qed.

(** The bones can be counted with a BoneIndex. *)
Definition countable (a : rig_anim O) : Prop := (len (ra_anims a) <= kMaxNumBones)%Z.
Lemma countable_bones (a : rig_anim O) : countable a -> num_bones a = len (ra_anims a).
Proof. unfold countable, kMaxNumBones, num_bones. pose proof (len_nonneg (ra_anims a)). intros. apply Z.mod_small. lia. Qed.
Lemma firstn_len {A} (l : list A) : firstn (Z.to_nat (len l)) l = l.
Proof. apply firstn_all2. unfold len. lia. Qed.

Lemma anim_header line (a : rig_anim O) : countable a -> exists l, anim_csv_header line a = Some l /\ len l = len (concat (map ma_ops (ra_anims a))) /\
  forall i j ma, getz (ra_anims a) i = Some ma -> (0 <= j < len (ma_ops ma))%Z -> getz l (column a i j - 2) = getz (header_cells line (bone_name a i) (ma_ops ma)) j.
Proof.
  intros C. pose proof (len_nonneg (ra_anims a)). unfold anim_csv_header. rewrite (countable_bones _ C). destruct (header_loop line a (Z.to_nat (len (ra_anims a))) 0 ltac:(lia) ltac:(lia)) as (L & E & LL & H'). exists (concat L). split; [exact E|].
  assert (SL : forall n, len (concat (firstn n L)) = len (concat (map ma_ops (firstn n (ra_anims a))))).
  { apply same_lens; [lia|]. intros j x y G1 G2. pose proof (getz_Some _ _ _ G1). specialize (H' j x ltac:(lia) G1). rewrite Z.sub_0_r in H'. rewrite H' in G2. injection G2 as <-. apply header_len. }
  split.
  - specialize (SL (Z.to_nat (len L))). rewrite firstn_len in SL. rewrite SL. rewrite LL, Z2Nat.id by lia. now rewrite firstn_len.
  - intros i j ma G J. pose proof (getz_Some _ _ _ G). specialize (H' i ma ltac:(lia) G). rewrite Z.sub_0_r in H'. unfold column. rewrite <- SL. rewrite <- (getz_concat _ _ _ j H'); [f_equal; lia|]. now rewrite header_len.
Qed.

(** ** The values *)
Definition values_of (b : bone) : list R := map (op_value k) (bone_ops b).
Lemma write_children_ok (ops : list (op M)) : forall n j pre rest, (0 <= j)%Z -> (j + Z.of_nat n = len ops)%Z -> 
  write_children k n j ops (pre ++ rest) (len pre) =
    if (Z.of_nat n <=? len rest)%Z then Some (pre ++ map (op_value k) (skipn (Z.to_nat j) ops) ++ skipn n rest, (len pre + Z.of_nat n)%Z) else None.
Proof.
  induction n as [|n IH]; intros j pre rest Hj E; cbn [write_children].
  - pose proof (len_nonneg rest). destruct (Z.leb_spec (Z.of_nat 0) (len rest)); [|lia]. rewrite skipn_all2 by (unfold len in E; lia). cbn [map app skipn]. do 2 f_equal. lia.
  - unfold child_value, child. destruct (getz_in_range ops j) as [o G]; [lia|]. rewrite G. destruct rest as [|r rest].
    + destruct (setz _ _ _) as [l|] eqn:Z; [|destruct (Z.leb_spec (Z.of_nat (Datatypes.S n)) (len (@nil R))); [rewrite len_nil in *; lia|reflexivity]]. apply setz_split in Z. exfalso. destruct Z as (X & y & Y & Z1 & Z2 & _). rewrite app_nil_r in Z1. rewrite Z1, len_app, len_cons in Z2. pose proof (len_nonneg Y). lia.
    + rewrite setz_app by reflexivity. replace (pre ++ op_value k o :: rest) with ((pre ++ [op_value k o]) ++ rest) by (now rewrite <- app_assoc). replace (len pre + 1)%Z with (len (pre ++ [op_value k o])) by (rewrite len_app; reflexivity). rewrite IH by lia.
      rewrite len_cons, len_app. replace (Z.of_nat (Datatypes.S n) <=? 1 + len rest)%Z with (Z.of_nat n <=? len rest)%Z by (destruct (Z.leb_spec (Z.of_nat n) (len rest)), (Z.leb_spec (Z.of_nat (Datatypes.S n)) (1 + len rest)); lia || reflexivity).
      destruct (Z.of_nat n <=? len rest)%Z; [|reflexivity]. destruct (getz_split _ _ _ G) as (X & Y & -> & LX). replace (Z.to_nat (j + 1)) with (length X + 1)%nat by (unfold len in LX; lia). replace (Z.to_nat j) with (length X) by (unfold len in LX; lia). rewrite skipn_len_app.
      replace (skipn (length X + 1) (X ++ o :: Y)) with Y by (rewrite skipn_app, skipn_all2 by lia; replace (length X + 1 - length X)%nat with 1%nat by lia; reflexivity). cbn [map skipn]. rewrite <- app_assoc. cbn [app]. do 2 f_equal. change (len [op_value k o]) with 1%Z. lia.
Qed.
Lemma write_bones_ok : forall (bs : list bone) i ms pre rest, (0 <= i)%Z -> (forall j b, getz bs j = Some b -> getz ms (i + j) = Some (Some b)) ->
  write_bones k (length bs) i ms (pre ++ rest) (len pre) =
    if (len (concat (map values_of bs)) <=? len rest)%Z then Some (pre ++ concat (map values_of bs) ++ skipn (length (concat (map values_of bs))) rest) else None.
Proof.
  induction bs as [|b bs IH]; intros i ms pre rest Hi H; cbn [length write_bones map concat].
  - pose proof (len_nonneg rest). rewrite len_nil. destruct (Z.leb_spec 0 (len rest)); [reflexivity|lia].
  - pose proof (H 0%Z b eq_refl) as G. rewrite Z.add_0_r in G. rewrite G. pose proof (len_nonneg (bone_ops b)). unfold num_children. rewrite write_children_ok by lia. rewrite Z2Nat.id by lia. cbn [Z.to_nat skipn]. fold (values_of b).
    assert (LV : len (values_of b) = len (bone_ops b)) by apply len_map. rewrite len_app, LV. pose proof (len_nonneg (concat (map values_of bs))).
    destruct (Z.leb_spec (len (bone_ops b)) (len rest)) as [L|L]; [|destruct (Z.leb_spec (len (bone_ops b) + len (concat (map values_of bs))) (len rest)); [lia|reflexivity]]. cbn [fst snd].
    rewrite app_assoc. replace (len pre + len (bone_ops b))%Z with (len (pre ++ values_of b)) by (rewrite len_app; lia). rewrite IH.
    + assert (LS : len (skipn (Z.to_nat (len (bone_ops b))) rest) = (len rest - len (bone_ops b))%Z) by (unfold len in *; rewrite skipn_length; lia). rewrite LS.
      destruct (Z.leb_spec (len (concat (map values_of bs))) (len rest - len (bone_ops b))), (Z.leb_spec (len (bone_ops b) + len (concat (map values_of bs))) (len rest)); try lia; [|reflexivity].
      rewrite <- !app_assoc. do 4 f_equal. rewrite app_length, skipn_skipn'. f_equal. unfold len in *. lia.
    + lia.
    + intros j b' G'. pose proof (getz_Some _ _ _ G'). replace (i + 1 + j)%Z with (i + (j + 1))%Z by lia. apply H. rewrite getz_cons by lia. now replace (j + 1 - 1)%Z with j by lia.
Qed.
(** ** C122 *)
(** The first header line names each bone above its first operation, the second names the
    operations; both have one cell per operation after the first two. *)
Theorem C122_header : forall (d : rig_data bone O), countable (defining d) -> exists l0 l1, csv_header d = Some (l0, l1) /\
  len l0 = (2 + len (concat (map ma_ops (ra_anims (defining d)))))%Z /\ len l1 = len l0 /\
  forall i j o, has_op (defining d) i j o ->
    getz l1 (column (defining d) i j) = Some (COp (i_type o)) /\
    getz l0 (column (defining d) i j) = Some (if (j =? 0)%Z then match getz (ra_names (defining d)) i with Some n => CBone n | None => CUnknown end else CEmpty).
Proof.
  intros d C. destruct (anim_header 0 _ C) as (l0 & E0 & L0 & H0). destruct (anim_header 1 _ C) as (l1 & E1 & L1 & H1). unfold csv_header. rewrite E0, E1. eexists. eexists. split; [reflexivity|]. rewrite !len_cons. split; [lia|]. split; [lia|].
  intros i j o (ma & G & J). pose proof (getz_Some _ _ _ J) as JR. pose proof (H0 i j ma G JR) as X0. pose proof (H1 i j ma G JR) as X1. assert (CP : (2 <= column (defining d) i j)%Z) by (unfold column; pose proof (len_nonneg (concat (map ma_ops (firstn (Z.to_nat i) (ra_anims (defining d)))))); lia).
  rewrite !getz_cons by lia. replace (column (defining d) i j - 1 - 1)%Z with (column (defining d) i j - 2)%Z by lia. rewrite X0, X1. split.
  - unfold header_cells. cbn [Z.eqb]. rewrite getz_map, J. reflexivity.
  - unfold header_cells. cbn [Z.eqb]. destruct (ma_ops ma) as [|x l]; [apply getz_Some in J; cbn in J; lia|]. destruct (Z.eqb_spec j 0) as [->|N]; [reflexivity|]. rewrite getz_cons in J by lia. rewrite getz_cons by lia. rewrite getz_map, J. reflexivity.
Qed.

(** [bs] are the motivators of the first animation's bones, all of them valid. *)
Definition bones_are (d : rig_data bone O) (bs : list bone) : Prop :=
  len bs = num_bones (defining d) /\ forall i b, getz bs i = Some b -> getz (motivators d) i = Some (Some b).
(** ChildValuesForDebugging: the values of all children, bone by bone.  There is room for as
    many as the defining animation has operations; more are written past the end. *)
Theorem C122_values : forall (d : rig_data bone O) bs, countable (defining d) -> bones_are d bs ->
  let room := len (concat (map ma_ops (ra_anims (defining d)))) in
  let values := concat (map values_of bs) in
  child_values_for_debugging k d [] = if (len values <=? room)%Z then Some (values ++ repeat 0 (Z.to_nat (room - len values))) else None.
Proof.
  intros d bs C [L H] room values. unfold child_values_for_debugging. rewrite C64_num_ops by exact C. fold room. replace (Z.to_nat (num_bones (defining d))) with (length bs) by (unfold len in L; lia).
  pose proof (len_nonneg (concat (map ma_ops (ra_anims (defining d))))) as RN. fold room in RN. assert (RS : resize [] room 0 = repeat 0 (Z.to_nat room)). { unfold resize. rewrite firstn_nil. cbn [app length]. f_equal. lia. }
  rewrite RS. pose proof (write_bones_ok bs 0 (motivators d) [] (repeat 0 (Z.to_nat room)) ltac:(lia) H) as W. cbn [app] in W. change (len (@nil R)) with 0%Z in W. rewrite W. fold values. assert (LR : len (repeat 0 (Z.to_nat room)) = room) by (unfold len; rewrite repeat_length; lia). rewrite LR.
  destruct (Z.leb_spec (len values) room) as [LE|]; [|reflexivity]. do 2 f_equal. replace (Z.to_nat room) with (length values + Z.to_nat (room - len values))%nat by (unfold len in *; lia). rewrite repeat_app, skipn_app, skipn_all2 by (rewrite repeat_length; lia). rewrite repeat_length, Nat.sub_diag. reflexivity.
Qed.

Lemma value_cells_app values : forall l1 l2 at_, value_cells (I := I) (S := S) (l1 ++ l2) values at_ = (c <- value_cells l1 values at_ ;; r <- value_cells l2 values (at_ + len l1)%Z ;; Some (c ++ r)).
Proof.
  induction l1 as [|o l1 IH]; intros l2 at_; cbn [app value_cells].
  - rewrite len_nil, Z.add_0_r. now destruct (value_cells l2 values at_).
  - destruct (getz values at_); [|reflexivity]. rewrite IH, len_cons. replace (at_ + (1 + len l1))%Z with (at_ + 1 + len l1)%Z by lia. destruct (value_cells l1 values (at_ + 1)%Z); [|reflexivity]. destruct (value_cells l2 values _); reflexivity.
Qed.
Lemma value_cells_ok values : forall (l : list O) at_, (0 <= at_)%Z -> (at_ + len l <= len values)%Z -> exists c, value_cells l values at_ = Some c /\ len c = len l /\
  forall j o v, getz l j = Some o -> getz values (at_ + j) = Some v -> getz c j = Some (CNumber (in_units (i_type o) v)).
Proof.
  induction l as [|o l IH]; intros at_ A L; cbn [value_cells].
  - exists []. split; [reflexivity|]. split; [reflexivity|]. intros j o v G. apply getz_Some in G. cbn in G. lia.
  - rewrite len_cons in L. pose proof (len_nonneg l). destruct (getz_in_range values at_) as [v G]; [lia|]. rewrite G. destruct (IH (at_ + 1)%Z ltac:(lia) ltac:(lia)) as (c & -> & LC & H'). eexists. split; [reflexivity|]. split; [rewrite !len_cons; lia|].
    intros j x w Gx Gw. pose proof (getz_Some _ _ _ Gx). destruct (Z.eq_dec j 0) as [->|N].
    + rewrite Z.add_0_r in Gw. cbn in Gx. injection Gx as <-. rewrite G in Gw. injection Gw as <-. cbn. now rewrite multiplier_units.
    + rewrite getz_cons in Gx by lia. rewrite getz_cons by lia. apply H'; [exact Gx|]. now replace (at_ + 1 + (j - 1))%Z with (at_ + j)%Z by lia.
Qed.
Lemma csv_loop (a : rig_anim O) values : forall fuel i at_, (0 <= i)%Z -> (i + Z.of_nat fuel = len (ra_anims a))%Z ->
  csv_values_loop fuel i a values at_ = value_cells (concat (map ma_ops (skipn (Z.to_nat i) (ra_anims a)))) values at_.
Proof.
  induction fuel as [|fuel IH]; intros i at_ Hi E; cbn [csv_values_loop].
  - rewrite skipn_all2 by (unfold len in E; lia). reflexivity.
  - unfold anim_at. destruct (getz_in_range (ra_anims a) i) as [m G]; [lia|]. rewrite G, IH by lia. destruct (getz_split _ _ _ G) as (X & Y & Ea & LX). rewrite Ea.
    replace (Z.to_nat (i + 1)) with (length X + 1)%nat by (unfold len in LX; lia). replace (Z.to_nat i) with (length X) by (unfold len in LX; lia). rewrite skipn_len_app.
    replace (skipn (length X + 1) (X ++ m :: Y)) with Y by (rewrite skipn_app, skipn_all2 by lia; replace (length X + 1 - length X)%nat with 1%nat by lia; reflexivity).
    cbn [map concat]. rewrite value_cells_app. reflexivity.
Qed.
(** The row of values fits the header when every bone has as many children as the defining
    animation has operations for it: the cell of an operation is the child's value, and the
    second cell is the time since the animation's start. *)
Theorem C122_row_partial : forall (d : rig_data bone O) bs a now, countable (defining d) -> bones_are d bs -> current d = Some a ->
  (forall i b ma, getz bs i = Some b -> getz (ra_anims (defining d)) i = Some ma -> num_children (bone_ops b) = len (ma_ops ma)) ->
  (-2147483648 <= now - end_time d <= 2147483647)%Z -> (-2147483648 <= now - end_time d + ra_end a <= 2147483647)%Z ->
  exists row, csv_values k now d = Some row /\ len row = (2 + len (concat (map ma_ops (ra_anims (defining d)))))%Z /\
    getz row 0 = Some CAnim /\ getz row 1 = Some (CTime (now - end_time d + ra_end a)) /\
    forall i j o b c, has_op (defining d) i j o -> getz bs i = Some b -> getz (bone_ops b) j = Some c ->
      getz row (column (defining d) i j) = Some (CNumber (in_units (i_type o) (op_value k c))).
Proof.
  intros d bs a now C BA CU NC T1 T2. pose proof BA as [LB HB]. rewrite (countable_bones _ C) in LB.
  assert (SL : forall n, len (concat (firstn n (map values_of bs))) = len (concat (map ma_ops (firstn n (ra_anims (defining d)))))).
  { apply same_lens; [rewrite len_map; exact LB|]. intros j x y G1 G2. rewrite getz_map in G2. destruct (getz bs j) as [b|] eqn:B; [|discriminate]. injection G2 as <-. unfold values_of. rewrite len_map. exact (NC _ _ _ B G1). }
  assert (LT : len (concat (map values_of bs)) = len (concat (map ma_ops (ra_anims (defining d))))).
  { specialize (SL (Z.to_nat (len bs))). rewrite <- (len_map values_of bs) in SL at 1. rewrite firstn_len in SL. rewrite SL, LB. now rewrite firstn_len. }
  unfold csv_values. rewrite (C122_values d bs C BA). cbv zeta. rewrite LT, Z.leb_refl, Z.sub_diag, CU. cbn [Z.to_nat repeat]. rewrite app_nil_r.
  unfold Z.sub in T1, T2. rewrite (add_int_ok _ _ T1), (add_int_ok _ _ T2). rewrite (countable_bones _ C). pose proof (len_nonneg (ra_anims (defining d))). rewrite csv_loop by lia. cbn [Z.to_nat skipn].
  destruct (value_cells_ok (concat (map values_of bs)) (concat (map ma_ops (ra_anims (defining d)))) 0 ltac:(lia) ltac:(lia)) as (c & -> & LC & HC). eexists. split; [reflexivity|]. split; [rewrite !len_cons; lia|]. split; [reflexivity|]. split; [reflexivity|].
  intros i j o b x (ma & G & J) B X. pose proof (getz_Some _ _ _ J) as JR. pose proof (getz_Some _ _ _ X) as XR. assert (CP : (2 <= column (defining d) i j)%Z) by (unfold column; pose proof (len_nonneg (concat (map ma_ops (firstn (Z.to_nat i) (ra_anims (defining d)))))); lia).
  rewrite !getz_cons by lia. apply HC.
  - replace (column (defining d) i j - 1 - 1)%Z with (len (concat (firstn (Z.to_nat i) (map ma_ops (ra_anims (defining d))))) + j)%Z by (unfold column; rewrite firstn_map; lia). rewrite (getz_concat _ i (ma_ops ma)); [exact J| |exact JR]. now rewrite getz_map, G.
  - replace (0 + (column (defining d) i j - 1 - 1))%Z with (len (concat (firstn (Z.to_nat i) (map values_of bs))) + j)%Z by (rewrite SL; unfold column; lia). rewrite (getz_concat _ i (values_of b)); [unfold values_of; now rewrite getz_map, X| |unfold values_of; now rewrite len_map]. now rewrite getz_map, B.
Qed.

(** ** After BlendToAnim on a new rig *)
Lemma merge_fresh fb p : forall new (ops : list (op M)), merge k fb p [] new = Some ops -> map op_type ops = map i_type new /\ map op_id ops = map i_id new.
Proof.
  induction new as [|n new IH]; intros ops E; cbn [merge] in E; [injection E as <-; split; reflexivity|]. fold (merge k fb p []) in E. destruct (make_op k n p) as [o|] eqn:MO; [|discriminate]. destruct (merge k fb p [] new) as [r|] eqn:R0; [|discriminate]. injection E as <-.
  destruct (IH _ eq_refl) as [A B]. destruct (make_op_same k _ _ _ MO) as [C D]. cbn [map]. split; congruence.
Qed.
Lemma align_empty new (d d1 : qdata M) : qd_ops d = [] -> align_quaternion_ops k new d = Some d1 -> qd_ops d1 = [].
Proof. intros E A. destruct (align_ids k _ _ _ A) as [ID _]. rewrite E in ID. now destruct (qd_ops d1). Qed.
Lemma bone_fresh fm (new : list O) p sqt (b b' : bone) : b_init (bone_class k fm) sqt = Some b -> b_blend (bone_class k fm) new p b = Some b' -> map op_type (bone_ops b') = map i_type new /\ map op_id (bone_ops b') = map i_id new.
Proof.
  destruct sqt; intros E1 E2; cbn [b_init bone_class] in E1.
  - unfold qdata_initialize in E1. cbn [append_ops qd_ops qdata_default] in E1. destruct (qdata_update k _) as [q|] eqn:U; [|discriminate]. injection E1 as <-. assert (Q0 : qd_ops q = []). { unfold qdata_update in U. cbn [qd_ops sqt_steps] in U. destruct (qnormalize _); [|discriminate]. now injection U as <-. }
    cbn [b_blend bone_class] in E2. unfold qdata_blend_to_ops in E2. destruct (align_quaternion_ops k new q) as [q1|] eqn:A; [|discriminate]. pose proof (align_empty _ _ _ Q0 A) as Q1. rewrite Q1, merge_ops_ok in E2. destruct (merge k rotate_op p [] new) as [r|] eqn:R0; [|discriminate]. injection E2 as <-. cbn [bone_ops qd_ops]. now apply (merge_fresh rotate_op p).
  - unfold mdata_initialize in E1. cbn [append_ops md_ops mdata_default] in E1. destruct (mdata_update k _) as [q|] eqn:U; [|discriminate]. injection E1 as <-. assert (Q0 : md_ops q = []). { unfold mdata_update in U. destruct (calculate_result_matrix k _); [|discriminate]. now injection U as <-. }
    cbn [b_blend bone_class] in E2. unfold mdata_blend_to_ops in E2. rewrite Q0, merge_ops_ok in E2. destruct (merge k quaternion_op p [] new) as [r|] eqn:R0; [|discriminate]. injection E2 as <-. cbn [bone_ops md_ops]. now apply (merge_fresh quaternion_op p).
Qed.
Lemma bones_blended fm (anim : rig_anim O) p : forall fuel j (ms ms' : list (option bone)), (0 <= j)%Z -> blend_bones (bone_class k fm) fuel Keep 0 j anim p ms = Some ms' ->
  len ms' = len ms /\ (forall i, ~ (j <= i < j + Z.of_nat fuel)%Z -> getz ms' i = getz ms i) /\
  forall i, (j <= i < j + Z.of_nat fuel)%Z -> getz ms i = Some None -> exists ma b, getz (ra_anims anim) i = Some ma /\ getz ms' i = Some (Some b) /\ map op_type (bone_ops b) = map i_type (ma_ops ma) /\ map op_id (bone_ops b) = map i_id (ma_ops ma).
Proof.
  induction fuel as [|fuel IH]; intros j ms ms' J E; cbn [blend_bones] in E.
  - injection E as <-. split; [reflexivity|]. split; [reflexivity|]. intros i Hi. lia.
  - destruct (blend_bone _ Keep 0 j anim p ms) as [ms1|] eqn:B; [|discriminate]. destruct (IH (j + 1)%Z ms1 ms' ltac:(lia) E) as (L & OUT & IN). unfold blend_bone, anim_at in B. destruct (getz (ra_anims anim) j) as [ma|] eqn:GA; [|discriminate]. replace (0 + j)%Z with j in B by lia. destruct (getz ms j) as [m|] eqn:GM; [|discriminate].
    destruct (match m with Some b => Some b | None => b_init (bone_class k fm) (ma_sqt ma) end) as [b|] eqn:SB; [|discriminate]. destruct (b_blend _ _ p b) as [b'|] eqn:BB; [|discriminate]. pose proof (setz_len _ _ _ _ B) as L1. split; [lia|]. split.
    + intros i Hi. rewrite OUT by lia. apply (getz_setz_neq _ _ _ _ _ B). lia.
    + intros i Hi GN. destruct (Z.eq_dec i j) as [->|N].
      * exists ma, b'. split; [exact GA|]. split; [rewrite OUT by lia; apply (getz_setz_eq _ _ _ _ B)|]. rewrite GN in GM. injection GM as <-. eapply bone_fresh; eauto.
      * apply IN; [lia|]. rewrite (getz_setz_neq _ _ _ _ _ B) by lia. exact GN.
Qed.
Lemma getz_repeat {A} (x : A) n i : (0 <= i < Z.of_nat n)%Z -> getz (repeat x n) i = Some x.
Proof. intros H. destruct (getz_in_range (repeat x n) i) as [y G]; [unfold len; rewrite repeat_length; exact H|]. rewrite G. f_equal. destruct (getz_split _ _ _ G) as (X & Y & E & _). apply (repeat_spec n x). rewrite E. apply in_or_app. right. now left. Qed.
(** A new rig that starts an animation: every bone has the animation's operations as children. *)
Theorem C122_children : forall fm def anim root t t' p d0 d1, rig_new (bone_class k fm) def root t = Some d0 -> blend_to_anim (bone_class k fm) anim p t' d0 = Some d1 ->
  defining d1 = def /\ current d1 = Some anim /\ end_time d1 = (t' + ra_end anim)%Z /\
  exists bs, bones_are d1 bs /\ forall i, (0 <= i < num_bones def)%Z -> exists b ma, getz bs i = Some b /\ getz (ra_anims anim) i = Some ma /\ map op_type (bone_ops b) = map i_type (ma_ops ma) /\ map op_id (bone_ops b) = map i_id (ma_ops ma).
Proof.
  intros fm def anim root t t' p d0 d1 E0 E1. unfold rig_new in E0. cbv zeta in E0. unfold update_global_transforms in E0. cbv zeta in E0. cbn [motivators weights defining globals root_bone root_transform current end_time] in E0. destruct (global_loop _ _ _ _ _ _) as [[g r]|]; [|discriminate]. injection E0 as <-.
  unfold blend_to_anim in E1. cbn [motivators weights defining globals root_bone root_transform current end_time] in E1. destruct (add_int t' (ra_end anim)) as [e|] eqn:AI; [|discriminate]. cbv zeta in E1. destruct (fits anim def) as [[|]|]; try discriminate.
  destruct (blend_bones _ _ Keep 0 0 anim p _) as [ms|] eqn:BB; [|discriminate]. injection E1 as <-. cbn [defining current end_time motivators]. split; [reflexivity|]. split; [reflexivity|].
  assert (EE : e = (t' + ra_end anim)%Z) by (unfold add_int in AI; destruct (_ && _)%bool; [now injection AI|discriminate]). split; [exact EE|].
  assert (NB : (0 <= num_bones def)%Z) by (unfold num_bones; pose proof (Z.mod_pos_bound (len (ra_anims def)) 256 ltac:(lia)); lia). pose proof (num_bones_le def) as NL.
  assert (RS : resize (repeat (@None bone) (Z.to_nat (num_bones def))) (num_bones def) None = repeat None (Z.to_nat (num_bones def))). { unfold resize. rewrite firstn_all2 by (rewrite repeat_length; lia). rewrite repeat_length. replace (_ - _)%nat with 0%nat by lia. apply app_nil_r. }
  rewrite RS in BB. destruct (bones_blended _ _ _ _ 0%Z _ _ ltac:(lia) BB) as (L & _ & IN). rewrite Z2Nat.id in IN by lia. assert (LM : len ms = num_bones def) by (rewrite L; unfold len; rewrite repeat_length; lia).
  assert (ALL : forall i, (0 <= i < num_bones def)%Z -> exists ma b, getz (ra_anims anim) i = Some ma /\ getz ms i = Some (Some b) /\ map op_type (bone_ops b) = map i_type (ma_ops ma) /\ map op_id (bone_ops b) = map i_id (ma_ops ma)). { intros i Hi. apply IN; [lia|]. apply getz_repeat. lia. }
  assert (EX : forall l : list (option bone), (forall i, (0 <= i < len l)%Z -> exists b, getz l i = Some (Some b)) -> exists bs, l = map Some bs).
  { induction l as [|x l IHl]; intros A; [exists []; reflexivity|]. pose proof (len_nonneg l). destruct (A 0%Z) as [b B]; [rewrite len_cons; lia|]. cbn in B. injection B as ->. destruct IHl as [bs ->]; [|exists (b :: bs); reflexivity]. intros i Hi. destruct (A (i + 1)%Z) as [b' B]; [rewrite len_cons; lia|]. rewrite getz_cons in B by lia. replace (i + 1 - 1)%Z with i in B by lia. eauto. }
  destruct (EX ms) as [bs EB]. { intros i Hi. destruct (ALL i) as (ma & b & _ & G & _); [lia|eauto]. }
  exists bs. split; [split|].
  - cbn [defining]. rewrite EB, len_map in LM. exact LM.
  - intros i b G. cbn [motivators]. rewrite EB, getz_map, G. reflexivity.
  - intros i Hi. destruct (ALL i Hi) as (ma & b & G1 & G2 & R). exists b, ma. rewrite EB, getz_map in G2. destruct (getz bs i) as [b0|]; [|discriminate]. injection G2 as ->. auto.
Qed.
(** So when the two animations have as many operations for each bone, the rows fit the header
    from then on until the next blend. *)
Theorem C122_fits : forall fm def anim root t t' p d0 d1 now, countable def -> rig_new (bone_class k fm) def root t = Some d0 -> blend_to_anim (bone_class k fm) anim p t' d0 = Some d1 ->
  (forall i x y, getz (ra_anims def) i = Some x -> getz (ra_anims anim) i = Some y -> len (ma_ops x) = len (ma_ops y)) ->
  (-2147483648 <= now - (t' + ra_end anim) <= 2147483647)%Z -> (-2147483648 <= now - t' <= 2147483647)%Z ->
  exists row, csv_values k now d1 = Some row /\ len row = (2 + len (concat (map ma_ops (ra_anims def))))%Z /\ getz row 1 = Some (CTime (now - t')) /\
    forall i j o, has_op def i j o -> exists b c, getz (motivators d1) i = Some (Some b) /\ getz (bone_ops b) j = Some c /\ getz row (column def i j) = Some (CNumber (in_units (i_type o) (op_value k c))).
Proof.
  intros fm def anim root t t' p d0 d1 now C E0 E1 SAME T1 T2. destruct (C122_children _ _ _ _ _ _ _ _ _ E0 E1) as (D & CU & EN & bs & BA & CH).
  assert (NCH : forall i b ma, getz bs i = Some b -> getz (ra_anims (defining d1)) i = Some ma -> num_children (bone_ops b) = len (ma_ops ma)).
  { intros i b ma G1 G2. rewrite D in G2. pose proof (getz_Some _ _ _ G2) as GR. rewrite <- (countable_bones _ C) in GR. destruct (CH i GR) as (b' & mb & B1 & B2 & B3 & _). rewrite G1 in B1. injection B1 as <-. rewrite (SAME _ _ _ G2 B2). unfold num_children. apply (f_equal len) in B3. rewrite !len_map in B3. exact B3. }
  destruct (C122_row_partial d1 bs anim now) as (row & R1 & R2 & _ & R3 & R4); [now rewrite D|exact BA|exact CU|exact NCH|rewrite EN; lia|rewrite EN; lia|].
  exists row. split; [exact R1|]. rewrite D in *. split; [exact R2|]. split; [rewrite R3; do 2 f_equal; lia|]. intros i j o HO. pose proof HO as (ma & G & J). pose proof (getz_Some _ _ _ G) as GR. pose proof (getz_Some _ _ _ J) as JR. rewrite <- (countable_bones _ C) in GR. destruct (CH i GR) as (b & mb & B1 & _).
  pose proof (NCH _ _ _ B1 G) as N. destruct (getz_in_range (bone_ops b) j) as [c GC]; [unfold num_children in N; lia|]. exists b, c. split; [now apply BA|]. split; [exact GC|]. now apply (R4 i j o b c).
Qed.

(** ** LocalTransformsForDebugging *)
Lemma local_ops_ok (ops : list (op M)) : forall (l : list O) i, (0 <= i)%Z -> (i + len l <= len ops)%Z -> exists r, local_ops k l i ops = Some r /\ len r = len l /\
  forall j o c, getz l j = Some o -> getz ops (i + j) = Some c -> getz r j = Some (i_type o, in_units (i_type o) (op_value k c)).
Proof.
  induction l as [|o l IH]; intros i Hi L; cbn [local_ops].
  - exists []. split; [reflexivity|]. split; [reflexivity|]. intros j o c G. apply getz_Some in G. cbn in G. lia.
  - rewrite len_cons in L. pose proof (len_nonneg l). unfold child_value, child. destruct (getz_in_range ops i) as [c G]; [lia|]. rewrite G. destruct (IH (i + 1)%Z ltac:(lia) ltac:(lia)) as (r & -> & LR & H'). eexists. split; [reflexivity|]. split; [rewrite !len_cons; lia|].
    intros j x c' Gx Gc. pose proof (getz_Some _ _ _ Gx). destruct (Z.eq_dec j 0) as [->|N].
    + rewrite Z.add_0_r in Gc. cbn in Gx. injection Gx as <-. rewrite G in Gc. injection Gc as <-. cbn. now rewrite multiplier_units.
    + rewrite getz_cons in Gx by lia. rewrite getz_cons by lia. apply H'; [exact Gx|]. now replace (i + 1 + (j - 1))%Z with (i + j)%Z by lia.
Qed.
(** What is reported of one bone: its name, its matrix, and the operations of the current
    animation, each with the value of the child in the same place. *)
Definition reports (a : rig_anim O) (d : rig_data bone O) (i : Z) (x : cell * mat4 * list (mtype * R)) : Prop :=
  exists b ma l, getz (motivators d) i = Some (Some b) /\ getz (ra_anims a) i = Some ma /\
    x = (match getz (ra_names (defining d)) i with Some n => CBone n | None => CUnknown end, match b with inl m => md_matrix m | inr q => qd_matrix q end, l) /\ len l = len (ma_ops ma) /\
    forall j o c, getz (ma_ops ma) j = Some o -> getz (bone_ops b) j = Some c -> getz l j = Some (i_type o, in_units (i_type o) (op_value k c)).
(** The report goes from the bone to the root; it never fails when no bone has fewer children
    than the current animation has operations for it. *)
Theorem C122_local : forall (d : rig_data bone O) bs a idx now, bones_are d bs -> parents_first (ra_parents (defining d)) (num_bones (defining d)) -> current d = Some a -> (0 <= idx < num_bones (defining d))%Z ->
  (forall i b, getz bs i = Some b -> exists ma, getz (ra_anims a) i = Some ma /\ (len (ma_ops ma) <= num_children (bone_ops b))%Z) ->
  (-2147483648 <= end_time d - now <= 2147483647)%Z -> (-2147483648 <= ra_end a - (end_time d - now) <= 2147483647)%Z ->
  exists path rep, local_transforms k idx now d = Some ((ra_end a - (end_time d - now))%Z, rep) /\ lineage (ra_parents (defining d)) idx path /\ Forall2 (reports a d) (rev path) rep.
Proof.
  intros d bs a idx now [LB HB] PF CU IX CH T1 T2. unfold Z.sub in T1, T2. unfold local_transforms. rewrite (add_int_ok _ _ T1), CU, (add_int_ok _ _ T2).
  assert (NB : (num_bones (defining d) <= 255)%Z) by (unfold num_bones; pose proof (Z.mod_pos_bound (len (ra_anims (defining d))) 256 ltac:(lia)); lia).
  assert (G : forall fuel i, (0 <= i < num_bones (defining d))%Z -> (i < Z.of_nat fuel)%Z -> exists path rep, local_loop k fuel i a d = Some rep /\ lineage (ra_parents (defining d)) i path /\ Forall2 (reports a d) (rev path) rep).
  { induction fuel as [|fuel IH]; intros i Hi F; [lia|]. cbn [local_loop]. destruct (Z.eqb_spec i kInvalidBoneIdx) as [->|NI]; [unfold kInvalidBoneIdx in Hi; lia|]. destruct (getz_in_range bs i) as [b B]; [lia|]. rewrite (HB _ _ B). destruct (CH _ _ B) as (ma & GA & LE). unfold anim_at. rewrite GA.
    destruct (local_ops_ok (bone_ops b) (ma_ops ma) 0 ltac:(lia) LE) as (l & -> & LL & HL). destruct (PF i Hi) as (p & GP & PP). rewrite GP.
    assert (RP : reports a d i (bone_name (defining d) i, match b with inl m => md_matrix m | inr q => qd_matrix q end, l)) by (exists b, ma, l; split; [now apply HB|]; split; [exact GA|]; split; [reflexivity|]; split; [exact LL|exact HL]).
    destruct (Z.eq_dec p kInvalidBoneIdx) as [->|NP].
    - exists [i]. eexists. split; [destruct fuel; reflexivity|]. split; [now constructor|]. cbn [rev app]. constructor; [exact RP|constructor].
    - destruct (IH p) as (path & rep & -> & LN & FO); [lia|lia|]. exists (path ++ [i]). eexists. split; [reflexivity|]. split; [now apply lineage_child with p|]. rewrite rev_app_distr. cbn [rev app]. now constructor. }
  destruct (G 256%nat idx IX) as (path & rep & -> & LN & FO); [lia|]. exists path, rep. split; [reflexivity|]. auto.
Qed.
End Reports.
Print Assumptions C122_header.
Print Assumptions C122_values.
Print Assumptions C122_row_partial.
Print Assumptions C122_children.
Print Assumptions C122_fits.
Print Assumptions C122_local.

(** ** What fails *)
Definition one_op id t (v : R) : opinit unit R := OpInit None id t (UValue v).
Definition two_bones (x y : list (opinit unit R)) : rig_anim (opinit unit R) := RigAnim [MAnim false x; MAnim false y] [255; 0]%Z [[97]; [98]]%Z 10 false.
Section Refuted.
Variable fm : mat3 -> quat.
Notation cls := (bone_class demo_class fm).
(** Both reports of a rig before its first BlendToAnim dereference what is not there. *)
Theorem C122_new_refuted : exists d, rig_new cls (two_bones [one_op 0 TranslateX 1] []) 255 0 = Some d /\ csv_values demo_class 0 d = None /\ local_transforms demo_class 1 0 d = None /\ csv_header d <> None.
Proof. eexists. split; [reflexivity|]. split; [reflexivity|]. split; [reflexivity|]. discriminate. Qed.
(** An animation that fits the rig (MatchesHierarchy) but has more operations for a bone than the
    defining animation: the values are written past the end of the array. *)
Theorem C122_overflow_refuted : exists def anim d0 d1, rig_new cls def 255 0 = Some d0 /\ matches_hierarchy anim def = Some true /\ blend_to_anim cls anim (playback_from 0) 0 d0 = Some d1 /\ child_values_for_debugging demo_class d1 [] = None /\ csv_values demo_class 0 d1 = None.
Proof.
  exists (two_bones [] [one_op 0 TranslateX 1]), (two_bones [one_op 0 TranslateY 4] [one_op 0 TranslateX 1]). eexists. eexists. split; [reflexivity|]. split; [reflexivity|]. split; [reflexivity|]. split; reflexivity.
Qed.
(** One that has fewer for an earlier bone: a value of a later bone is reported under the
    earlier one's heading. *)
Theorem C122_shift_refuted : exists def anim d0 d1 row b c, rig_new cls def 255 0 = Some d0 /\ matches_hierarchy anim def = Some true /\ blend_to_anim cls anim (playback_from 0) 0 d0 = Some d1 /\ csv_values demo_class 0 d1 = Some row /\
  has_op def 1 0 (one_op 0 TranslateY 2) /\ getz (motivators d1) 1 = Some (Some b) /\ getz (bone_ops b) 0 = Some c /\ op_value demo_class c = 5 /\ getz row (column def 0 0) = Some (CNumber (1 * 5)) /\ getz row (column def 1 0) = Some (CNumber (1 * 0)).
Proof.
  exists (two_bones [one_op 0 TranslateX 1] [one_op 0 TranslateY 2]), (two_bones [] [one_op 0 TranslateY 5]). do 5 eexists. split; [reflexivity|]. split; [reflexivity|]. split; [reflexivity|]. split; [reflexivity|].
  split; [eexists; split; reflexivity|]. split; [reflexivity|]. split; [reflexivity|]. split; [reflexivity|]. split; reflexivity.
Qed.
Lemma at_once : to_motive_time 0 = Some 0%Z.
Proof.
  unfold to_motive_time. rewrite Rleb_t by lra. cbv zeta. pose proof (Rfloor_bounds 0) as [F1 F2]. assert (F3 : (Rfloor 0 < 1)%Z) by (apply lt_IZR; lra). assert (F4 : (-1 < Rfloor 0)%Z) by (apply lt_IZR; lra). now replace (Rfloor 0) with 0%Z by lia.
Qed.
(** After a second blend the children of a bone are the operations of both animations, and the
    report takes the child in the same place, not the one of the operation: the value under
    "Translate Y" is that of the x translation. *)
Theorem C122_local_refuted : exists a b d0 d1 d2 t name m v l, rig_new cls a 255 0 = Some d0 /\ matches_hierarchy b a = Some true /\ blend_to_anim cls a (playback_from 0) 0 d0 = Some d1 /\ blend_to_anim cls b (playback_from 0) 0 d1 = Some d2 /\
  local_transforms demo_class 1 0 d2 = Some (t, (name, m, [(TranslateY, v)]) :: l) /\
  (exists x w, getz (motivators d2) 1 = Some (Some (inl x)) /\ map (fun o => (op_type o, op_value demo_class o)) (md_ops x) = [(TranslateX, w); (TranslateY, 7)] /\ v = w) /\ v <> 7.
Proof.
  exists (two_bones [] [one_op 0 TranslateX 1]), (two_bones [] [one_op 1 TranslateY 7]). do 8 eexists. split; [reflexivity|]. split; [reflexivity|]. split; [reflexivity|]. split; [cbv -[to_motive_time IZR Rplus Rmult]; rewrite at_once; reflexivity|]. split; [reflexivity|]. split; [eexists; eexists; split; [reflexivity|]; split; [reflexivity|apply Rmult_1_l]|]. cbn. lra.
Qed.
End Refuted.
Print Assumptions C122_new_refuted.
Print Assumptions C122_overflow_refuted.
Print Assumptions C122_shift_refuted.
Print Assumptions C122_local_refuted.

(** Two bones, the second with a rotation and a scale: the hypotheses of [C122_fits] and
    [C122_local] are met, and the row shows the values. *)
Example C122_case : forall fm : mat3 -> quat, let a := two_bones [one_op 0 TranslateX 1] [one_op 0 RotateY PI; one_op 1 ScaleUniformly 3] in exists d0 d1 row,
  countable a /\ parents_first (ra_parents a) (num_bones a) /\ rig_new (bone_class demo_class fm) a 255 0 = Some d0 /\ blend_to_anim (bone_class demo_class fm) a (playback_from 0) 4 d0 = Some d1 /\
  csv_values demo_class 9 d1 = Some row /\ getz row 1 = Some (CTime 5) /\ getz row (column a 1 0) = Some (CNumber 180) /\
  csv_header d1 = Some ([CTitle; CTimeTitle; CBone [97]%Z; CBone [98]%Z; CEmpty], [CEmpty; CEmpty; COp TranslateX; COp RotateY; COp ScaleUniformly]).
Proof.
  intros fm a. eexists. eexists. eexists. split; [|split; [|split; [reflexivity|split; [reflexivity|split; [reflexivity|split; [reflexivity|split; [|reflexivity]]]]]]].
  - unfold countable, kMaxNumBones. cbn. lia.
  - intros i Hi. change (num_bones a) with 2%Z in Hi. assert (C : (i = 0 \/ i = 1)%Z) by lia. destruct C as [-> | ->].
    + exists 255%Z. split; [reflexivity|now left].
    + exists 0%Z. split; [reflexivity|right; lia].
  - change (Some (CNumber (180 / PI * PI)) = Some (CNumber 180)). pose proof PI_neq0. replace (180 / PI * PI) with 180 by (field; assumption). reflexivity.
Qed.
