(** C133: the program that writes a defining animation. *)
From Coq Require Import Sorted String Ascii.
From Verif Require Import RBase BaseFacts RangeModel CompactSplineModel MatrixModel RigModel RigProps AnimTableModel AnimTableProps DefiningProps AnimTableExamples AnimDataModel
  DescribeModel DescribeProps FlatAnimModel FlatAnimProps DefiningToolModel.
Local Open Scope Z_scope.

Section Tool.
Context {I : Type} (spline_init : range -> I) (parse : list Z -> option fb_rig) (finish : fb_rig -> list Z).
Context (readable : list Z -> option (list Z)).
Notation rig := (rig_anim (opinit I spline)).
Notation main := (defining_main spline_init parse finish readable).

(** *** Specification *)
(** Animation [a] is in one of the files that are named. *)
Definition in_file (inputs : list (list Z)) (a : rig) : Prop :=
  exists n data f, In n inputs /\ n <> [] /\ readable n = Some data /\ parse data = Some f /\ load_rig spline_init f = Some a.
(** Operation [o] drives bone [j] in one of the files. *)
Definition file_drives (inputs : list (list Z)) (j : Z) (o : opinit I spline) : Prop :=
  exists a m, in_file inputs a /\ j < num_bones a /\ anim_at a j = Some m /\ In o (ma_ops m).
(** The characters of a string. *)
Definition characters (s : string) : list Z := map (fun c => Z.of_nat (nat_of_ascii c)) (list_ascii_of_string s).
(** An argument of a program ends before its first zero. *)
Definition argument (s : list Z) : Prop := ~ In 0 s.

(** *** Proofs *)
Lemma getz_in_list : forall A (l : list A) i x, getz l i = Some x -> In x l.
Proof. intros A l i x. unfold getz. destruct (i <? 0); [discriminate|]. apply nth_error_In. Qed.
Lemma c_str_id : forall s, argument s -> c_str s = s.
Proof. induction s as [|x s IH]; intros A; [reflexivity|]. cbn. destruct (Z.eqb_spec x 0) as [->|]; [destruct A; now left|]. f_equal. apply IH. intros X. apply A. now right. Qed.
Lemma c_strs : forall l, Forall argument l -> map (fun n => SFile (F := list Z) (c_str n)) l = map (fun n => SFile n) l.
Proof. intros l A. induction A as [|x l X A IH]; cbn; [reflexivity|]. rewrite c_str_id, IH by assumption. reflexivity. Qed.

Notation fbn := (fun data => f <- parse data ;; Some (fr_name f)).
Notation dec := (decode_file spline_init parse).
Notation lf := (load_file readable).
Notation tload inputs := (load spline_init fbn dec lf [map (fun n => SFile n) inputs] table_empty).

Lemma main_inv : forall writable prog out i inputs, Forall argument (i :: inputs) ->
  main writable (prog :: out :: i :: inputs) =
  (r <- tload (i :: inputs) ;; let '(ok, t, _) := r in if negb ok then Some (-1, None) else d <- defining_anim t 0 ;;
   match export_defining defining_name d with None => Some (-1, None) | Some f => Some (0, if writable out then Some (out, finish f) else None) end).
Proof.
  intros writable prog out i inputs A. unfold defining_main. replace (len (prog :: out :: i :: inputs) <? 3) with false by (symmetry; apply Z.ltb_ge; rewrite !len_cons; pose proof (len_nonneg inputs); lia).
  change (getz (prog :: out :: i :: inputs) 1) with (Some out). cbn [skipn]. unfold init_from. rewrite list_names. cbv beta iota. rewrite c_strs by exact A.
  destruct (tload (i :: inputs)) as [[[ok t] calls]|]; reflexivity.
Qed.

Lemma list_true : forall names s ids s', load_list fbn dec lf (map (fun n => SFile n) names) s = Some (ids, s') -> l_success s = true -> l_success s' = true.
Proof.
  induction names as [|n names IH]; intros s ids s' H T; cbn in H; [injection H as <- <-; exact T|].
  destruct (match n with [] => _ | _ => _ end) as [[i s1]|] eqn:E; [|discriminate]. cbn in H. destruct (load_list _ _ _ _ s1) as [[is s2]|] eqn:E2; [|discriminate]. cbn in H. injection H as <- <-.
  eapply IH; [exact E2|]. destruct n as [|x n]; [injection E as <- <-; exact T|]. destruct (name_find _ _); [injection E as <- <-; exact T|].
  unfold add_anim in E. destruct (dec _); [|discriminate]. cbn in E. injection E as <- <-. exact T.
Qed.

Lemma entries : forall inputs ok t calls, tload inputs = Some (ok, t, calls) -> parse [] = None ->
  ok = true /\ (exists l, getz (AnimTableModel.indices t) 0 = Some l /\ len l = len inputs) /\ len (anims t) <= len inputs /\
  (forall n, In n inputs -> n <> [] -> readable n <> None).
Proof.
  intros inputs ok t calls H P0. pose proof (load_inv _ _ _ _ _ _ _ _ _ H) as (s & E & Em & Ea & Es & _).
  assert (OK : ok = true).
  { rewrite Es. cbn [load_lists] in E. destruct (load_list _ _ _ _ _) as [[is s1]|] eqn:Q in E; [|discriminate]. cbn in E. injection E as _ <-. eapply list_true; [exact Q|reflexivity]. }
  set (P := fun n (a : rig) => In n inputs /\ exists b, readable n = Some b).
  eapply (lists_ok fbn dec P) in E.
  2:{ cbn. split; [constructor|]. split; [constructor|]. intros k nk X. rewrite getz_None in X; [discriminate|]. unfold len; cbn; lia. }
  2:{ intros l src n a [<-|[]] Is L Pr. apply in_map_iff in Is. destruct Is as (n' & <- & In'). destruct n' as [|x n']; [discriminate|]. cbn in L. injection L as <-.
      destruct Pr as (fb & F1 & F2). split; [exact In'|]. unfold load_file in F1. injection F1 as <-. destruct (readable (x :: n')) as [b|]; [now exists b|]. unfold decode_file in F2. rewrite P0 in F2. discriminate. }
  destruct E as ((ND & F2 & _) & _ & FE & _ & _ & _).
  assert (ALL : forall n, In n (map fst (l_map s)) -> In n inputs /\ exists b, readable n = Some b).
  { intros n X. apply in_map_iff in X. destruct X as (nk & <- & X). clear - F2 X. induction F2 as [|y z l l' Hyz F IH]; [destruct X|]. destruct X as [<-|X]; [exact Hyz|auto]. }
  destruct (AnimTableModel.indices t) as [|is ids] eqn:Q; [inversion FE|]. inversion FE as [|? ? ? ? FI FN]; subst. clear FE FN.
  split; [exact OK|]. split; [exists is; split; [reflexivity|]|split].
  - rewrite <- (AnimTableProps.Forall2_len _ _ _ _ _ FI). unfold len. now rewrite map_length.
  - rewrite Ea, <- (AnimTableProps.Forall2_len _ _ _ _ _ F2). assert (length (map fst (l_map s)) <= length inputs)%nat as L by (apply NoDup_incl_length; [exact ND|intros n X; apply ALL, X]). rewrite map_length in L. unfold len. lia.
  - intros n X N R. destruct (In_nth_error _ _ X) as [k K]. assert (G : getz (map (fun n => SFile (F := list Z) n) inputs) (Z.of_nat k) = Some (SFile n)).
    { unfold getz. destruct (Z.ltb_spec (Z.of_nat k) 0); [lia|]. rewrite Nat2Z.id, nth_error_map, K. reflexivity. }
    destruct (AnimTableProps.Forall2_getz _ _ _ _ _ FI _ _ G) as (i & _ & Sp). destruct n as [|x n]; [congruence|]. unfold entry_spec in Sp. cbn in Sp.
    destruct Sp as [Sp|(_ & _ & Y & _)]; [|discriminate Y]. apply name_find_in in Sp. destruct (ALL (x :: n)) as (_ & b & B); [apply in_map_iff; now exists (x :: n, i)|congruence].
Qed.

Lemma table_anims : forall inputs ok t calls, tload inputs = Some (ok, t, calls) -> parse [] = None -> len inputs <= 65535 -> forall a, object_anim t 0 a <-> in_file inputs a.
Proof.
  intros inputs ok t calls H P0 LI a. destruct (entries _ _ _ _ H P0) as (_ & (l & Gl & Ll) & LA & RD).
  assert (LD : loaded spline_init fbn dec [(lf, [map (fun n => SFile n) inputs])] t) by (econstructor; [constructor|exact H]).
  pose proof (C61_query_partial _ _ _ _ _ _ _ LD ltac:(lia) 0) as Q.
  assert (PR : forall n a', provided fbn dec [(lf, [map (fun n => SFile n) inputs])] n a' -> n <> [] -> in_file inputs a' /\ exists data, readable n = Some data /\ dec data = Some a').
  { intros n a' (f & lists & l' & src & [X|[]] & L' & Is & Ln & Pr) N. injection X as <- <-. destruct L' as [<-|[]]. apply in_map_iff in Is. destruct Is as (n' & <- & In').
    destruct n' as [|x n']; [discriminate|]. cbn in Ln. injection Ln as <-. destruct Pr as (fb & F1 & F2). unfold load_file in F1. injection F1 as <-.
    pose proof (RD _ In' N) as R. destruct (readable (x :: n')) as [data|] eqn:RR; [|congruence]. split; [|now exists data].
    unfold decode_file in F2. destruct (parse data) as [f|] eqn:PD; [|discriminate]. exists (x :: n'), data, f. auto. }
  split.
  - intros (idx & p & Qu & Ga). assert (R : 0 <= idx < len inputs).
    { unfold query in Qu. rewrite Gl in Qu. cbn in Qu. destruct (getz l idx) as [i|] eqn:G; [|discriminate]. apply getz_Some in G. lia. }
    destruct (getz_in_range (map (fun n => SFile (F := list Z) n) inputs) idx) as [src Gs]; [unfold len; rewrite map_length; exact R|].
    specialize (Q idx _ src eq_refl Gs). destruct (listed_name fbn src) as [n|] eqn:Ln; [|congruence]. destruct Q as [(p' & a' & Q1 & Q2 & Q3 & Q4)|(Q1 & _)]; [|congruence].
    assert (p' = p) as -> by congruence. assert (a' = a) as -> by congruence. eapply PR; [exact Q4|].
    assert (Is : In src (map (fun n => SFile (F := list Z) n) inputs)) by (eapply getz_in_list; exact Gs). apply in_map_iff in Is. destruct Is as ([|x n'] & <- & _); cbn in Ln; congruence.
  - intros (n & data & f & X & N & R & PD & LR). destruct (In_nth_error _ _ X) as [k K]. assert (G : getz (map (fun n => SFile (F := list Z) n) inputs) (Z.of_nat k) = Some (SFile n)).
    { unfold getz. destruct (Z.ltb_spec (Z.of_nat k) 0); [lia|]. rewrite Nat2Z.id, nth_error_map, K. reflexivity. }
    specialize (Q _ _ _ eq_refl G). destruct n as [|x n]; [congruence|]. cbn in Q. destruct Q as [(p & a' & Q1 & Q2 & Q3 & Q4)|(_ & _ & Y)]; [|discriminate Y].
    destruct (PR _ _ Q4 ltac:(discriminate)) as (_ & data' & R' & D). assert (data' = data) as -> by congruence. unfold decode_file in D. rewrite PD in D. cbn in D.
    assert (a' = a) as -> by congruence. exists (Z.of_nat k), p. auto.
Qed.

Lemma exported : forall name (d : rig) f, export_defining name d = Some f -> len (fr_anims f) = num_bones d /\ fr_name f = name /\
  forall j m, getz (fr_anims f) j = Some m -> 0 <= j < num_bones d /\ bone_name d j = match fr_names f with Some l => match getz l j with Some n => n | None => [] end | None => [] end /\
    getz (ra_parents d) j = getz (fr_parents f) j /\ exists md, anim_at d j = Some md /\ Forall2 (fun o fo => export_defining_op o = Some fo) (ma_ops md) (fm_ops m).
Proof.
  intros name d f. unfold export_defining. assert (NB : 0 <= num_bones d) by (apply Z.mod_pos_bound; lia). destruct (map_opt _ _) as [fa|] eqn:EA; [|discriminate]. destruct (map_opt (getz _) _) as [fp|] eqn:EP; [|discriminate]. intros E. injection E as <-. cbn [fr_anims fr_name fr_names fr_parents].
  apply map_opt_iff in EA, EP.
  assert (IL : forall n st, len (indices n st) = Z.of_nat n). { induction n as [|n IH]; intros st; [reflexivity|]. cbn [indices]. rewrite len_cons, IH. lia. }
  assert (IG : forall n st k, 0 <= k < Z.of_nat n -> getz (indices n st) k = Some (st + k)).
  { induction n as [|n IH]; intros st k R; [lia|]. cbn [indices]. destruct (Z.eq_dec k 0) as [->|N]; [cbn; f_equal; lia|]. change (st :: indices n (st + 1)) with ([st] ++ indices n (st + 1)). rewrite getz_app2 by (change (len [st]) with 1; lia). change (len [st]) with 1. rewrite IH by lia. f_equal. lia. }
  pose proof (AnimTableProps.Forall2_len _ _ _ _ _ EA) as LA. rewrite IL in LA. split; [lia|]. split; [reflexivity|]. intros j m G. pose proof (getz_Some _ _ _ G) as R. assert (RJ : 0 <= j < Z.of_nat (Z.to_nat (num_bones d))) by lia.
  pose proof (IG _ 0 _ RJ) as IJ. rewrite Z.add_0_l in IJ. split; [lia|]. split; [|split].
  - unfold getz in IJ |- *. destruct (j <? 0); [discriminate|]. rewrite nth_error_map, IJ. reflexivity.
  - destruct (AnimTableProps.Forall2_getz _ _ _ _ _ EP _ _ IJ) as (p & G1 & G2). congruence.
  - destruct (AnimTableProps.Forall2_getz _ _ _ _ _ EA _ _ IJ) as (m' & G1 & G2). assert (m' = m) as -> by congruence. destruct (anim_at d j) as [md|]; [|discriminate]. destruct (map_opt export_defining_op _) as [ops|] eqn:MO; [|discriminate]. injection G2 as <-.
    exists md. split; [reflexivity|]. apply map_opt_iff. exact MO.
Qed.
Lemma exported_ops : forall (ops : list (opinit I spline)) fops, Forall2 (fun o fo => export_defining_op o = Some fo) ops fops ->
  map fo_id fops = map i_id ops /\ forall fo, In fo fops -> fo_value fo = FbCompact None /\ exists o, In o ops /\ i_id o = fo_id fo /\ i_type o = fo_type fo.
Proof.
  intros ops fops F. induction F as [|o fo ops fops E F (IH1 & IH2)]; [split; [reflexivity|intros fo []]|].
  assert (FO : fo = FbOp (i_id o) (i_type o) (FbCompact None)) by (unfold export_defining_op in E; destruct (i_union o); congruence). subst fo.
  split; [cbn; now rewrite IH1|]. intros fo [<-|X]; [split; [reflexivity|]; exists o; cbn; auto|]. destruct (IH2 fo X) as (V & o' & I' & A & B). split; [exact V|]. exists o'. split; [now right|auto].
Qed.

(** What RigAnimFromFlatBuffers loads is well formed. *)
Lemma load_bones_parents : forall fuel f rn i e (a a' : rig) t, load_bones spline_init fuel f rn i e a = Some (a', t) -> 0 <= i -> len (ra_parents a) = len (ra_anims a) ->
  (forall j p, j < i -> getz (ra_parents a) j = Some p -> p < j \/ p = kInvalidBoneIdx) ->
  len (ra_anims a') = len (ra_anims a) /\ len (ra_parents a') = len (ra_anims a') /\
  forall j p, j < i + Z.of_nat fuel -> getz (ra_parents a') j = Some p -> p < j \/ p = kInvalidBoneIdx.
Proof.
  induction fuel as [|k IH]; intros f rn i e a a' t H Hi L P; cbn [load_bones] in H.
  - injection H as <- <-. split; [reflexivity|]. split; [exact L|]. intros j p J. apply P. lia.
  - destruct (getz (fr_parents f) i) as [pa|]; [|discriminate]. cbn in H. destruct (if rn then _ else _) as [nm|]; [|discriminate]. cbn in H. destruct (getz (fr_anims f) i) as [m|]; [|discriminate]. cbn in H.
    destruct (load_matrix spline_init m) as [ma|]; [|discriminate]. cbn in H. destruct (init_matrix_anim i pa nm ma a) as [a1|] eqn:E; [|discriminate]. cbn in H. destruct (ops_end_time _ _) as [te|]; [|discriminate]. cbn in H.
    unfold init_matrix_anim in E. destruct (i <? len (ra_anims a)); [|discriminate]. cbn in E. destruct ((pa <? i) || (pa =? kInvalidBoneIdx))%bool eqn:PA; [|discriminate]. cbn in E.
    destruct (setz (ra_parents a) i pa) as [ps|] eqn:SP; [|discriminate]. cbn in E. destruct (if 0 <? len (ra_names a) then _ else _) as [ns|]; [|discriminate]. cbn in E. destruct (setz (ra_anims a) i ma) as [as'|] eqn:SA; [|discriminate]. cbn in E. injection E as <-.
    apply IH in H; [|lia|cbn; rewrite (setz_len _ _ _ _ SP), (setz_len _ _ _ _ SA); exact L|].
    + destruct H as (H1 & H2 & H3). cbn in H1. split; [rewrite H1; exact (setz_len _ _ _ _ SA)|]. split; [exact H2|]. intros j p J. apply H3. lia.
    + cbn. intros j p J G. destruct (Z.eq_dec j i) as [->|N].
      * rewrite (getz_setz_eq _ _ _ _ SP) in G. injection G as <-. apply Bool.orb_true_iff in PA. rewrite Z.ltb_lt, Z.eqb_eq in PA. exact PA.
      * rewrite (getz_setz_neq _ _ _ _ _ SP) in G by congruence. apply P; [lia|exact G].
Qed.
Lemma load_rig_wf : forall f (a : rig), load_rig spline_init f = Some a -> well_formed a.
Proof.
  intros f a H. unfold load_rig in H. destruct (_ =? _); [|discriminate]. cbn in H. unfold ra_init in H. destruct (Z.leb_spec (len (fr_anims f) mod 256) kMaxNumBones) as [LE|]; [|discriminate]. cbn [ra_default ra_anims ra_parents ra_names ra_end ra_repeat] in H.
  pose proof (Z.mod_pos_bound (len (fr_anims f)) 256 ltac:(lia)) as MB. pose proof (len_nonneg (fr_anims f)) as LN. pose proof (Z.mod_le (len (fr_anims f)) 256 LN ltac:(lia)) as ML.
  destruct (load_bones _ _ _ _ _ _ _) as [[a' t]|] eqn:E; [|discriminate]. injection H as <-. apply load_bones_parents in E; [|lia| |].
  - destruct E as (E1 & E2 & E3). cbn in E1. rewrite len_resize in E1 by lia. unfold well_formed. cbn. split; [lia|]. split; [exact E2|]. intros j p G. pose proof (getz_Some _ _ _ G). apply E3; [lia|exact G].
  - cbn. rewrite !len_resize by lia. reflexivity.
  - intros j p J G. apply getz_Some in G. lia.
Qed.

Lemma load_list_some : forall names s, (forall n, In n names -> n <> [] -> exists a, in_file [n] a) -> exists ids s', load_list fbn dec lf (map (fun n => SFile n) names) s = Some (ids, s').
Proof.
  induction names as [|n names IH]; intros s A; cbn; [eauto|].
  assert (E : exists i s1, load_entry fbn dec lf (SFile n) s = Some (i, s1)).
  { unfold load_entry. destruct n as [|x n]; [eauto|]. cbn. destruct (name_find _ _); [eauto|]. destruct (A (x :: n) (or_introl eq_refl) ltac:(discriminate)) as (a & n' & data & f & [<-|[]] & _ & R & P & L).
    unfold add_anim. rewrite R. unfold decode_file. rewrite P, L. cbn. eauto. }
  destruct E as (i & s1 & E). unfold load_entry in E. cbn in E. rewrite E. cbn. destruct (IH s1) as (ids & s2 & E2); [intros; apply A; [now right|assumption]|]. rewrite E2. cbn. eauto.
Qed.

Lemma gather_some : forall (all : list rig) l, (forall i, In i l -> i = kInvalidAnimIndex \/ exists a, getz all i = Some a) -> exists g, gather_anims all l = Some g.
Proof.
  intros all. induction l as [|i l IH]; intros A; cbn; [eauto|]. destruct IH as (g & G); [intros k K; apply A; now right|]. rewrite G.
  destruct (A i (or_introl eq_refl)) as [->|(a & E)]; [rewrite Z.eqb_refl; eauto|]. rewrite E. cbn. destruct (i =? kInvalidAnimIndex); eauto.
Qed.
Lemma tload_some : forall inputs, inputs <> [] -> len inputs <= 65535 -> (forall n, In n inputs -> n <> [] -> exists a, in_file [n] a) -> (forall j, compatible (file_drives inputs j)) ->
  exists ok t calls, tload inputs = Some (ok, t, calls).
Proof.
  intros inputs NE L A C. unfold load. cbn [load_lists]. set (s0 := Loading _ _ _ _). destruct (load_list_some inputs s0 A) as (ids & s & E). rewrite E. cbn [fst snd]. cbv beta iota.
  set (P := fun n (a : rig) => In n inputs /\ in_file inputs a). eapply (list_ok fbn dec P) in E.
  2:{ cbn. split; [constructor|]. split; [constructor|]. intros k nk X. rewrite getz_None in X; [discriminate|]. unfold len; cbn; lia. }
  2:{ intros src n a Is Ln Pr. apply in_map_iff in Is. destruct Is as (n' & <- & In'). destruct n' as [|x n']; [discriminate|]. cbn in Ln. injection Ln as <-.
      destruct Pr as (fb & F1 & F2). split; [exact In'|]. destruct (A _ In' ltac:(discriminate)) as (a' & n1 & data & f & [<-|[]] & N1 & R & PD & LR). unfold load_file in F1. rewrite R in F1. injection F1 as <-. unfold decode_file in F2. rewrite PD in F2. cbn in F2.
      exists (x :: n'), data, f. auto. }
  destruct E as (LI & _ & FI & _). pose proof LI as (ND & F2 & KK). pose proof (AnimTableProps.Forall2_len _ _ _ _ _ FI) as Lids. unfold len in Lids at 1. rewrite map_length in Lids. fold (len inputs) in Lids.
  assert (ALL : forall a, In a (l_anims s) -> in_file inputs a). { intros a X. clear - F2 X. induction F2 as [|y z l l' Hyz F IH]; [destruct X|]. destruct X as [<-|X]; [exact (proj2 Hyz)|auto]. }
  assert (LAN : len (l_anims s) <= 65535).
  { rewrite <- (AnimTableProps.Forall2_len _ _ _ _ _ F2). assert (length (map fst (l_map s)) <= length inputs)%nat as LL; [|rewrite map_length in LL; unfold len in *; lia]. apply NoDup_incl_length; [exact ND|]. intros n X. apply in_map_iff in X. destruct X as (nk & <- & X).
    clear - F2 X. induction F2 as [|y z l l' Hyz F IH]; [destruct X|]. destruct X as [<-|X]; [exact (proj1 Hyz)|auto]. }
  destruct (gather_some (l_anims s) ids) as (g & G).
  { intros i X. assert (SP : exists src, entry_spec fbn lf src i s) by (clear - FI X; induction FI as [|y z l l' Hyz F IH]; [destruct X|]; destruct X as [<-|X]; [now exists y|auto]).
    destruct SP as (src & SP). unfold entry_spec in SP. destruct (listed_name fbn src) as [n|]; [|now left]. destruct SP as [SP|(-> & _)]; [|now left]. right.
    destruct (find_pos _ _ _ _ _ LI LAN SP) as (_ & _ & a & Ha & _). now exists a. }
  unfold calculate_defining_anims. cbn [AnimTableModel.indices AnimTableModel.defining_anims anims name_map max_anim_index].
  replace ((len [ids] =? 0) || (0 <? Z.max (len ids) 0))%bool with true.
  2:{ symmetry. apply Bool.orb_true_iff. right. apply Z.ltb_lt. destruct inputs; [congruence|]. rewrite len_cons in Lids. pose proof (len_nonneg inputs). lia. }
  cbv beta iota. match goal with |- context [resize ?x ?y ?z] => change (resize x y z) with [z] end. cbn [calculate_loop]. rewrite G.
  assert (CR : exists d, match g with [] => Some ra_default | _ :: _ => create_defining_anim spline_init g ra_default end = Some d).
  { destruct g as [|g0 g]; [eauto|]. assert (IN : forall a, In a (g0 :: g) -> in_file inputs a).
    { intros a X. apply (gather_in _ _ _ G) in X. destruct X as (k & p & _ & _ & X). apply ALL. eapply getz_in_list, X. }
    apply C62_succeeds; [discriminate| |].
    - intros a X. destruct (IN a X) as (n & data & f & _ & _ & _ & _ & LR). exact (load_rig_wf _ _ LR).
    - intros j. assert (SUB : forall o, drives (g0 :: g) j o -> file_drives inputs j o) by (intros o (a & m & X & Y); exists a, m; split; [apply IN, X|exact Y]). destruct (C j) as (C1 & C2). split; [intros o X; apply C1, SUB, X|intros o o' X Y; apply C2; apply SUB; assumption]. }
  destruct CR as (d & ->). eexists _, _, _. reflexivity.
Qed.

(** C133: with fewer than two arguments (an output and an input), the program returns -1 and writes nothing. *)
Theorem C133_usage : forall writable argv, len argv < 3 -> main writable argv = Some (-1, None).
Proof. intros writable argv L. unfold defining_main. apply Z.ltb_lt in L. now rewrite L. Qed.

(** C133: a run that returns 0 has read every input that has a name.  It writes nothing but the
    output, and writes it if it can.  What it writes has as many bones as the largest
    animation in the inputs, with the parents and names of one of these, and on each bone an
    empty spline for each operation that drives this bone in some input, in the order of ids.
    (At most 256 inputs, one of them with a name, no input with an operation without a type.) *)
Theorem C133_writes_partial : forall writable prog out inputs file, Forall argument inputs -> inputs <> [] -> len inputs <= 256 -> (exists n, In n inputs /\ n <> []) ->
  parse [] = None -> (forall j o, file_drives inputs j o -> i_type o <> InvalidOp) ->
  main writable (prog :: out :: inputs) = Some (0, file) ->
  (forall n, In n inputs -> n <> [] -> readable n <> None) /\
  exists f big, file = (if writable out then Some (out, finish f) else None) /\ fr_name f = characters "defining_anim" /\
    in_file inputs big /\ (forall a, in_file inputs a -> num_bones a <= num_bones big) /\ len (fr_anims f) = num_bones big /\
    forall j m, getz (fr_anims f) j = Some m ->
      getz (fr_parents f) j = getz (ra_parents big) j /\ match fr_names f with Some l => getz l j = Some (bone_name big j) | None => False end /\
      StronglySorted Z.lt (map fo_id (fm_ops m)) /\
      (forall id, In id (map fo_id (fm_ops m)) <-> exists o, file_drives inputs j o /\ i_id o = id) /\
      (forall fo, In fo (fm_ops m) -> fo_value fo = FbCompact None /\ forall o, file_drives inputs j o -> i_id o = fo_id fo -> i_type o = fo_type fo).
Proof.
  intros writable prog out inputs file A NE L256 (n0 & N1 & N2) P0 V H. destruct inputs as [|i inputs]; [congruence|]. rewrite main_inv in H by exact A. set (ins := i :: inputs) in *. clearbody ins.
  destruct (tload ins) as [[[ok t] calls]|] eqn:T; [|discriminate]. cbn [negb] in H. cbv beta iota in H. destruct (entries _ _ _ _ T P0) as (-> & (l & Gl & Ll) & LA & RD). split; [exact RD|]. cbn [negb] in H.
  destruct (defining_anim t 0) as [d|] eqn:D; [|discriminate]. cbn in H. destruct (export_defining defining_name d) as [f|] eqn:EX; [|discriminate]. injection H as <-.
  pose proof (table_anims _ _ _ _ T P0 ltac:(lia)) as TA.
  assert (TD : forall j o, object_drives t 0 j o <-> file_drives ins j o). { intros j o. unfold object_drives, file_drives. split; intros (a & m & X & Y); exists a, m; (split; [apply TA, X|exact Y]). }
  destruct (C62_defining_anim_partial spline_init fbn dec _ _ _ _ _ T 0 l Gl ltac:(lia)) as (d' & b & D' & B & BM & NB & K).
  { pose proof (RD _ N1 N2) as R. assert (LD : loaded spline_init fbn dec [(lf, [map (fun n => SFile n) ins])] t) by (econstructor; [constructor|exact T]).
    destruct (In_nth_error _ _ N1) as [k K]. assert (G : getz (map (fun n => SFile (F := list Z) n) ins) (Z.of_nat k) = Some (SFile n0)).
    { unfold getz. destruct (Z.ltb_spec (Z.of_nat k) 0); [lia|]. rewrite Nat2Z.id, nth_error_map, K. reflexivity. }
    pose proof (C61_query_partial _ _ _ _ _ _ _ LD ltac:(lia) 0 _ _ _ eq_refl G) as Q. destruct n0 as [|x n0]; [congruence|]. cbn in Q. destruct Q as [(p & a' & Q1 & _ & Q3 & _)|(_ & _ & Y)]; [|discriminate Y]. exists a', (Z.of_nat k), p. auto. }
  { intros j o X. apply (V j), TD, X. }
  assert (d' = d) as -> by congruence. destruct (exported _ _ _ EX) as (X1 & X2 & X3). exists f, b. split; [reflexivity|]. split; [exact X2|]. split; [apply TA, B|]. split; [intros a X; apply BM, TA, X|]. split; [congruence|].
  intros j m G. destruct (X3 j m G) as (R & Nm & Pa & md & AT & FO). destruct (K j R) as (K1 & K2 & md' & K3 & US & UI & UO). assert (md' = md) as -> by congruence. destruct (exported_ops _ _ FO) as (Ids & Ops).
  split; [congruence|]. split.
  { clear - EX R Nm K2. unfold export_defining in EX. destruct (map_opt _ _); [|discriminate]. destruct (map_opt (getz _) _); [|discriminate]. injection EX as <-. cbn [fr_names] in *.
    destruct (getz_in_range (map (bone_name d) (indices (Z.to_nat (num_bones d)) 0)) j) as [n N]; [|rewrite N in *; congruence].
    unfold len. rewrite map_length. assert (IL : forall n st, length (indices n st) = n) by (induction n as [|n IH]; intros st; cbn; auto). rewrite IL. lia. }
  split; [rewrite Ids; exact US|]. split.
  - intros id. rewrite Ids, UI. split; intros (o & X & Y); exists o; (split; [apply TD, X|exact Y]).
  - intros fo X. destruct (Ops fo X) as (Vf & o & Io & Ei & Et). split; [exact Vf|]. intros o' Do' Ei'. destruct (UO o Io) as (U & _). rewrite <- Et. apply U; [apply TD, Do'|congruence].
Qed.

(** C133: the program returns 0 if every input with a name can be read and loads, and operations of
    different inputs that drive the same bone with the same id have the same type. *)
Theorem C133_succeeds_partial : forall writable prog out inputs, Forall argument inputs -> len inputs <= 256 -> (exists n, In n inputs /\ n <> []) -> parse [] = None ->
  (forall n, In n inputs -> n <> [] -> exists data f a, readable n = Some data /\ parse data = Some f /\ load_rig spline_init f = Some a) ->
  (forall j, compatible (file_drives inputs j)) ->
  exists file, main writable (prog :: out :: inputs) = Some (0, file).
Proof.
  intros writable prog out inputs A L256 (n0 & N1 & N2) P0 LD C. destruct inputs as [|i inputs]; [destruct N1|]. rewrite main_inv by exact A. set (ins := i :: inputs) in *. assert (NE : ins <> []) by discriminate. clearbody ins.
  assert (LD' : forall n, In n ins -> n <> [] -> exists a, in_file [n] a). { intros n X N. destruct (LD n X N) as (data & f & a & R & P & LR). exists a, n, data, f. cbn. auto 7. }
  destruct (tload_some ins NE ltac:(lia) LD' C) as (ok & t & calls & T). rewrite T. cbv beta iota. destruct (entries _ _ _ _ T P0) as (-> & (l & Gl & Ll) & LA & RD). cbn [negb].
  pose proof (table_anims _ _ _ _ T P0 ltac:(lia)) as TA.
  assert (TD : forall j o, object_drives t 0 j o <-> file_drives ins j o). { intros j o. unfold object_drives, file_drives. split; intros (a & m & X & Y); exists a, m; (split; [apply TA, X|exact Y]). }
  destruct (C62_defining_anim_partial spline_init fbn dec _ _ _ _ _ T 0 l Gl ltac:(lia)) as (d & b & D & B & BM & NB & K).
  { destruct (LD n0 N1 N2) as (data & f & a & R & P & LR). exists a. apply TA. exists n0, data, f. auto. }
  { intros j o X. apply (proj1 (C j) o). apply TD, X. }
  rewrite D. cbv beta iota. apply TA in B. destruct B as (n & data & f & _ & _ & _ & _ & LR). apply load_rig_wf in LR. destruct LR as (W1 & W2 & _).
  assert (EX : exists f', export_defining defining_name d = Some f').
  { assert (MO : forall A B (g : A -> option B) l, (forall x, In x l -> exists y, g x = Some y) -> exists l', map_opt g l = Some l').
    { intros X Y g. induction l0 as [|x l0 IH]; intros G; cbn; [eauto|]. destruct (G x (or_introl eq_refl)) as (y & ->). destruct IH as (l' & ->); [intros; apply G; now right|]. cbn. eauto. }
    assert (IR : forall n st x, In x (indices n st) -> st <= x < st + Z.of_nat n). { induction n1 as [|n1 IH]; intros st x X; [destruct X|]. destruct X as [<-|X]; [lia|]. apply IH in X. lia. }
    assert (NB0 : 0 <= num_bones d) by (apply Z.mod_pos_bound; lia).
    assert (IR' : forall x, In x (indices (Z.to_nat (num_bones d)) 0) -> 0 <= x < num_bones d) by (intros x X; apply IR in X; lia).
    unfold export_defining. destruct (MO _ _ (fun i0 => m <- anim_at d i0 ;; ops <- map_opt export_defining_op (ma_ops m) ;; Some (FbMatrix false ops)) (indices (Z.to_nat (num_bones d)) 0)) as (fa & ->).
    - intros x X. apply IR' in X. destruct (K x X) as (_ & _ & m & -> & _ & _ & UO). destruct (MO _ _ export_defining_op (ma_ops m)) as (fo & ->); [|eauto].
      intros o O. destruct (UO o O) as (_ & [U|(v & U)] & _); rewrite U; unfold export_defining_op; cbn; eauto.
    - destruct (MO _ _ (getz (ra_parents d)) (indices (Z.to_nat (num_bones d)) 0)) as (fp & ->); [|eauto]. intros x X. apply IR' in X. destruct (K x X) as (-> & _). apply getz_in_range.
      assert (num_bones b <= len (ra_anims b)) by (unfold num_bones; apply Z.mod_le; [apply len_nonneg|lia]). lia. }
  destruct EX as (f' & ->). eauto.
Qed.

(** An input that cannot be read is not reported: LoadFile's answer is never a null pointer, and the program goes on to read a FlatBuffer in an empty string. *)
Theorem C133_missing_refuted : forall writable prog out inputs n, Forall argument inputs -> parse [] = None -> In n inputs -> n <> [] -> readable n = None ->
  main writable (prog :: out :: inputs) = None.
Proof.
  intros writable prog out inputs n A P0 X N R. destruct inputs as [|i inputs]; [destruct X|]. rewrite main_inv by exact A. destruct (tload (i :: inputs)) as [[[ok t] calls]|] eqn:T; [|reflexivity].
  destruct (entries _ _ _ _ T P0) as (_ & _ & _ & RD). destruct (RD n X N R).
Qed.
(** An output that cannot be written is not reported: the program returns the same as if it had been written. *)
Theorem C133_unwritable_refuted : forall writable prog out inputs code file, Forall argument inputs -> inputs <> [] -> writable out = true -> main writable (prog :: out :: inputs) = Some (code, file) ->
  main (fun _ => false) (prog :: out :: inputs) = Some (code, None).
Proof.
  intros writable prog out inputs code file A NE W H. destruct inputs as [|i inputs]; [congruence|]. rewrite main_inv in H |- * by exact A. destruct (tload (i :: inputs)) as [[[ok t] calls]|]; [|discriminate]. cbv beta iota in H |- *.
  destruct (negb ok); [congruence|]. destruct (defining_anim t 0) as [d|]; [|discriminate]. destruct (export_defining defining_name d); congruence.
Qed.
End Tool.
Print Assumptions C133_usage.
Print Assumptions C133_writes_partial.
Print Assumptions C133_succeeds_partial.
Print Assumptions C133_missing_refuted.
Print Assumptions C133_unwritable_refuted.

(** Non-vacuity: files "a" and "b" hold one bone each, driven by operations 3, and 1 and 3;
    the program writes operations 1 and 3.  (A file holds the ids of the operations, here.) *)
Definition ex_parse (data : list Z) : option fb_rig :=
  match data with [] => None | _ => Some (FbRig [FbMatrix false (map (fun i => FbOp i TranslateX (FbCompact None)) data)] [255] (Some [[98]]) false [97]) end.
Definition ex_finish (f : fb_rig) : list Z := match fr_anims f with m :: _ => map fo_id (fm_ops m) | [] => [] end.
Definition ex_readable (n : list Z) : option (list Z) := match n with [97] => Some [3] | [98] => Some [1; 3] | _ => None end.
Example C133_example :
  defining_main (fun _ => tt) ex_parse ex_finish ex_readable (fun _ => true) [[120]; [111]; [97]; [98]] = Some (0, Some ([111], [1; 3])) /\
  defining_main (fun _ => tt) ex_parse ex_finish ex_readable (fun _ => false) [[120]; [111]; [97]; [98]] = Some (0, None) /\
  Forall argument [[97]; [98]] /\ ex_parse [] = None /\
  (forall n, In n [[97]; [98]] -> n <> [] -> exists data f a, ex_readable n = Some data /\ ex_parse data = Some f /\ load_rig (fun _ => tt) f = Some a) /\
  (forall j, compatible (file_drives (fun _ => tt) ex_parse ex_readable [[97]; [98]] j)).
Proof.
  split; [vm_compute; reflexivity|]. split; [vm_compute; reflexivity|]. split; [repeat constructor; intros [X|[]]; discriminate|]. split; [reflexivity|].
  split; [intros n [<-|[<-|[]]] _; (eexists _, _, _; split; [reflexivity|]; split; [reflexivity|]; vm_compute; reflexivity)|].
  assert (K : forall j o, file_drives (fun _ => tt) ex_parse ex_readable [[97]; [98]] j o -> i_type o = TranslateX /\ i_init o = Some tt).
  { intros j o (a & m & (n & data & f & [<-|[<-|[]]] & _ & R & P & L) & Hj & E & O); injection R as <-; injection P as <-; vm_compute in L; injection L as <-.
    - unfold anim_at in E. apply getz_in_list in E. destruct E as [<-|[]]. destruct O as [<-|[]]. split; reflexivity.
    - unfold anim_at in E. apply getz_in_list in E. destruct E as [<-|[]]. destruct O as [<-|[<-|[]]]; split; reflexivity. }
  intros j. split.
  - intros o X. destruct (K j o X) as (T & N). split; congruence.
  - intros o o' X Y _. destruct (K j o X), (K j o' Y). congruence.
Qed.
(** An input "c" that is not there, and too few arguments. *)
Example C133_missing_example : defining_main (fun _ => tt) ex_parse ex_finish ex_readable (fun _ => true) [[120]; [111]; [97]; [99]] = None /\
  defining_main (fun _ => tt) ex_parse ex_finish ex_readable (fun _ => true) [[120]; [111]] = Some (-1, None).
Proof. split; reflexivity. Qed.
