(** Loading exported animations (C85) and defining animations (C86). *)
From Verif Require Import RBase BaseFacts RangeModel RangeProofs RangeProps CurveModel CompactSplineModel CompactSplineSpec CompactSplineProofs CompactSplineAdd CompactSplineProps
  MatrixModel RigModel AnimTableModel AnimDataModel AnimSpec AnimCurveProps AnimPruneProps AnimTimeProps KeyframeSplines FlatAnimModel FlatAnimProps.
From Coq Require Import Sorting.Sorted.
Local Open Scope Z_scope.

(** ** The spline of a channel *)
(** Node [m] of a spline holds the keyframe [x] (times before zero are zero): the time
    within half a grain, the value within one rung below, the slope's angle within one step. *)
Definition stores (g : R) (r : range) (x : snode) (m : node) : Prop :=
  (Rabs (node_x m g - IZR (Z.max 0 (sn_time x))) <= g / 2)%R /\ (0 <= sn_val x - node_y m r <= (end_ r - start_ r) / 65535)%R /\
  (Rabs (atan (sn_der x) - atan (node_derivative m)) < PI / 32768)%R.
(** A spline for the keyframes [n], whose range is the smallest for their values: each is held by a node of [made]; the spline's nodes
    are of these, and where several fall on one grain, the first and the last are there.  The spline ends with the last
    keyframe, at its time.  No node is missing if the times differ and end within 65535. *)
Definition holds_keyframes (n : list snode) (s : spline) : Prop :=
  (0 < x_granularity s)%R /\
  ((forall x, In x n -> (start_ (y_range s) <= sn_val x <= end_ (y_range s))%R) /\
   (forall lo hi, (forall x, In x n -> (lo <= sn_val x <= hi)%R) -> (lo <= start_ (y_range s) /\ end_ (y_range s) <= hi)%R)) /\ 1 <= num_nodes s <= len n /\
  end_x s = Some (IZR (Z.max 0 (sn_time (end_node n)))) /\
  exists made, Forall2 (stores (x_granularity s) (y_range s)) n made /\ (forall m, In m (nodes s) -> In m made) /\
    back s = getz made (len made - 1) /\ StronglySorted Z.le (map nx (nodes s)) /\
    (forall m, In m made -> first_at (nx m) (nodes s) = first_at (nx m) made /\ last_at (nx m) (nodes s) = last_at (nx m) made) /\
    (StronglySorted Z.lt (map sn_time n) -> (forall x, In x n -> 0 <= sn_time x <= 65535) -> nodes s = made).

(** Such a spline has the finest grain on which its end is, and can be played if it is not too long. *)
Definition plays_keyframes (n : list snode) (s : spline) : Prop :=
  x_granularity s = (if sn_time (end_node n) <=? 0 then 1 else IZR (sn_time (end_node n)) / 65535)%R /\ (len n <= 65534 -> spline_ok s).
Definition flat_unode (x : snode) : unode := UNode (IZR (Z.max 0 (sn_time x))) (sn_val x) (sn_der x).
Lemma flat_nodes_eq : forall n s lt, StronglySorted Z.le (map sn_time n) -> (forall l x, lt = Some l -> In x n -> l <= Z.max 0 (sn_time x)) -> add_flat_nodes s lt n = add_uncompressed_nodes s (map flat_unode n).
Proof.
  induction n as [|x n IH]; intros s lt S L; [reflexivity|]. cbn [add_flat_nodes map add_uncompressed_nodes flat_unode ux uy uderivative]. apply StronglySorted_inv in S. destruct S as [S F].
  replace (match lt with Some l => l <=? Z.max 0 (sn_time x) | None => true end) with true.
  2:{ destruct lt as [l|]; [|reflexivity]. specialize (L l x eq_refl (or_introl eq_refl)). symmetry. now apply Z.leb_le. }
  destruct (add_node s _ _ _ _) as [s'|]; [|reflexivity]. apply IH; [exact S|]. intros l y E Y. injection E as <-. rewrite Forall_forall in F. specialize (F (sn_time y) (in_map sn_time n y Y)). lia.
Qed.
Lemma create_eq n b : 1 < len n -> getz n (len n - 1) = Some b -> StronglySorted Z.le (map sn_time n) ->
  create_compact_spline n = init_from_nodes (Spline range_default 0 [] (len n mod 65536)) (map flat_unode n).
Proof.
  intros L B S. unfold create_compact_spline, init_from_nodes. destruct (Z.ltb_spec 1 (len n)); [|lia]. rewrite len_map.
  assert (G : getz (map flat_unode n) (len n - 1) = Some (flat_unode b)) by (unfold getz in *; destruct (len n - 1 <? 0); [discriminate|]; now rewrite nth_error_map, B).
  rewrite B, G. rewrite map_map. cbn [flat_unode uy ux]. change (fun x => sn_val x) with sn_val. destruct (covers (map sn_val n)) as [r|]; [|reflexivity].
  rewrite flat_nodes_eq by (auto; discriminate). f_equal. f_equal. unfold recommend_x_granularity. destruct (Rleb_spec (IZR (sn_time b)) 0) as [T|T].
  - apply le_IZR in T. rewrite Z.max_l by lia. now rewrite Rleb_t by lra.
  - assert (0 < sn_time b) by (apply lt_IZR; lra). rewrite Z.max_r by lia. now rewrite Rleb_f by lra.
Qed.

Lemma append_distinct : forall calls s ms s', (0 < x_granularity s)%R -> Forall (fun c => c_method c = AddWithoutModification) calls -> Forall2 (makes (x_granularity s) (y_range s)) calls ms ->
  StronglySorted Z.lt (map nx ms) -> (forall b m, back s = Some b -> In m ms -> nx b < nx m) -> add_nodes s calls = Some s' -> nodes s' = nodes s ++ ms.
Proof.
  induction calls as [|c calls IH]; intros s ms s' G P F S B E; inversion F as [|? m ? ms' M F']; subst; [injection E as <-; now rewrite app_nil_r|].
  cbn [map] in S. apply StronglySorted_inv in S. destruct S as [S FL]. inversion P as [|? ? PC P']; subst. cbn [add_nodes] in E.
  assert (A : add_node s (c_x c) (c_y c) (c_derivative c) (c_method c) = add_node_verbatim s m).
  { unfold add_node. unfold makes in M. rewrite M. destruct (back s) as [b|] eqn:EB; [|reflexivity]. specialize (B b m eq_refl (or_introl eq_refl)). destruct (Z.leb_spec (nx b) (nx m)); [|lia].
    replace (node_eqb b m) with false. 2:{ unfold node_eqb. destruct (Z.eqb_spec (nx b) (nx m)); [lia|reflexivity]. } destruct (Z.eqb_spec (nx b) (nx m)); [lia|]. now rewrite PC. }
  rewrite A in E. unfold add_node_verbatim in E. destruct (num_nodes s <? max_nodes s); [|discriminate].
  rewrite (IH (with_nodes s (nodes s ++ [m])) ms' s'); auto.
  - cbn [with_nodes nodes]. now rewrite <- app_assoc.
  - intros b k EB K. unfold back, num_nodes in EB. cbn [with_nodes nodes] in EB. rewrite len_app in EB. change (len [m]) with 1 in EB. rewrite getz_app in EB by lia. injection EB as <-. rewrite Forall_forall in FL. apply FL. now apply in_map.
Qed.

Lemma end_node_last n b : getz n (len n - 1) = Some b -> end_node n = b.
Proof.
  unfold end_node. intros G. destruct n as [|a n _] using rev_ind; [apply getz_Some in G; cbn in G; lia|]. rewrite len_app in G. change (len [a]) with 1 in G. rewrite getz_app in G by lia. injection G as <-. apply last_last.
Qed.
Lemma sorted_end n b x : StronglySorted Z.le (map sn_time n) -> getz n (len n - 1) = Some b -> In x n -> sn_time x <= sn_time b.
Proof.
  intros S G I. destruct n as [|a n _] using rev_ind; [destruct I|]. rewrite len_app in G. change (len [a]) with 1 in G. rewrite getz_app in G by lia. injection G as <-.
  apply in_app_or in I. destruct I as [I|[<-|[]]]; [|lia]. revert I. induction n as [|y n IH]; intros I; [destruct I|]. cbn [app map] in S. apply StronglySorted_inv in S. destruct S as [S F]. destruct I as [<-|I]; [|now apply IH].
  rewrite Forall_forall in F. apply F. rewrite map_app. apply in_or_app. right. now left.
Qed.
Lemma Forall2_map_l {A B C} (P : B -> C -> Prop) (f : A -> B) : forall l l', Forall2 P (map f l) l' <-> Forall2 (fun x y => P (f x) y) l l'.
Proof. induction l as [|x l IH]; intros l'; split; intros F; inversion F; subst; constructor; auto; now apply IH. Qed.
Lemma Forall2_in {A B} (P Q : A -> B -> Prop) l l' : (forall x y, In x l -> P x y -> Q x y) -> Forall2 P l l' -> Forall2 Q l l'.
Proof. intros H F. induction F as [|x y l l' E F IH]; constructor; [apply H; [now left|exact E]|]. apply IH. intros a b I. apply H. now right. Qed.

Lemma distinct_grains g a c : (0 < g <= 1)%R -> 0 <= a < c -> Rtrunc (IZR a / g + 1 / 2) < Rtrunc (IZR c / g + 1 / 2).
Proof.
  intros G H. assert (A : (0 <= IZR a)%R) by (apply IZR_le; lia). assert (AC : (IZR a + 1 <= IZR c)%R) by (rewrite <- plus_IZR; apply IZR_le; lia).
  assert (I : (1 <= / g)%R) by (rewrite <- Rinv_1; apply Rinv_le_contravar; lra).
  assert (D : (IZR a / g + 1 <= IZR c / g)%R) by (unfold Rdiv; nra). assert (Q : (0 <= IZR a / g)%R) by (unfold Rdiv; nra).
  destruct (proj1 (Rtrunc_bounds (IZR a / g + 1 / 2)) ltac:(lra)) as [A1 A2]. destruct (proj1 (Rtrunc_bounds (IZR c / g + 1 / 2)) ltac:(lra)) as [C1 C2]. apply lt_IZR. lra.
Qed.
Lemma distinct_made g : (0 < g <= 1)%R -> forall n made, Forall2 (fun x m => nx m = Rtrunc (IZR (sn_time x) / g + 1 / 2)) n made -> StronglySorted Z.lt (map sn_time n) -> (forall x, In x n -> 0 <= sn_time x) -> StronglySorted Z.lt (map nx made).
Proof.
  intros G. induction 1 as [|x m n made E F IH]; intros S P; [constructor|]. cbn [map] in *. apply StronglySorted_inv in S. destruct S as [S FL]. constructor; [apply IH; [exact S|intros; apply P; now right]|].
  rewrite Forall_forall in *. intros k K. apply in_map_iff in K. destruct K as (m' & <- & K). apply in_getz in K. destruct K as [i K]. destruct (Forall2_getz _ _ _ F i m' K) as (y & Y & E'). apply getz_in in Y. rewrite E, E'. apply distinct_grains; [exact G|]. split; [apply P; now left|]. apply FL. now apply in_map.
Qed.

Theorem create_ok : forall n, 1 < len n <= 65535 -> StronglySorted Z.le (map sn_time n) -> exists s, create_compact_spline n = Some s /\ holds_keyframes n s /\ plays_keyframes n s.
Proof.
  intros n L SS. destruct (getz_in_range n (len n - 1)) as [b B]; [lia|]. rewrite (create_eq n b) by (auto; lia). set (s0 := Spline range_default 0 [] (len n mod 65536)).
  assert (M0 : max_nodes s0 = len n) by (cbn; apply Z.mod_small; lia).
  assert (NE : map flat_unode n <> []) by (destruct n; [cbn in L; lia|discriminate]).
  assert (SR : StronglySorted Rle (map ux (map flat_unode n))).
  { rewrite map_map. clear - SS. induction n as [|x n IH]; [constructor|]. cbn [map] in *. apply StronglySorted_inv in SS. destruct SS as [SS F]. constructor; [now apply IH|]. rewrite Forall_forall in *. intros y Y. apply in_map_iff in Y. destruct Y as (z & <- & Z). cbn [flat_unode ux].
    apply IZR_le. specialize (F (sn_time z) (in_map _ _ _ Z)). lia. }
  destruct (C30_init_from_nodes s0 (map flat_unode n)) as (s & _ & E & _); auto.
  { rewrite len_map. lia. }
  { apply Forall_forall. intros u U. apply in_map_iff in U. destruct U as (x & <- & _). cbn [flat_unode ux]. apply IZR_le. lia. }
  exists s. split; [exact E|]. unfold init_from_nodes in E.
  assert (GB : getz (map flat_unode n) (len n - 1) = Some (flat_unode b)) by (unfold getz in *; destruct (len n - 1 <? 0); [discriminate|]; now rewrite nth_error_map, B).
  rewrite len_map, GB in E. pose proof (covers_ok (map uy (map flat_unode n)) None ltac:(discriminate)) as CO. unfold covers in E.
  destruct (covers_loop None _) as [r|]; [|discriminate]. destruct CO as (RV & _ & CI & CT). rewrite uncompressed_calls in E. set (g := recommend_x_granularity (ux (flat_unode b))) in *.
  assert (G : (0 < g)%R /\ ((0 < IZR (Z.max 0 (sn_time b)))%R -> IZR (Z.max 0 (sn_time b)) = (65535 * g)%R)).
  { unfold g, recommend_x_granularity, kMaxX. cbn [flat_unode ux]. rcase1; split; try lra. }
  destruct G as [G GE].
  destruct (C30_nodes s0 r g _ s ltac:(rewrite M0; lia) G E) as (N1 & _ & N3 & F1 & F2 & _ & made & FM & BK & FL & PL).
  split; [|split].
  2:{ rewrite F2, (end_node_last n b B). unfold g, recommend_x_granularity. cbn [flat_unode ux]. change kMaxX with 65535. destruct (Z.leb_spec (sn_time b) 0).
      - rewrite Z.max_l by lia. now rewrite Rleb_t by lra.
      - rewrite Z.max_r by lia. rewrite Rleb_f; [reflexivity|]. apply IZR_lt. lia. }
  2:{ intros L4. assert (FN : forall m, In m made -> 0 <= nx m <= 65535 /\ 0 <= ny m <= 65535 /\ -16384 < nangle m < 16384).
      { intros m M. apply in_getz in M. destruct M as [k M]. destruct (Forall2_getz _ _ _ FM k m M) as (c & _ & MK). exact (make_node_fields _ _ _ _ _ _ G MK). }
      assert (LM : len made = len n) by (apply Forall2_len in FM; rewrite !len_map in FM; exact FM).
      constructor.
      - now rewrite F2.
      - rewrite F1. exact RV.
      - exact N1.
      - apply Forall_forall. intros m M. apply FN. apply PL; [|exact M]. apply Forall_forall. intros c C. rewrite in_map_iff in C. destruct C as (u & <- & _). reflexivity.
      - split; [|rewrite M0 in N3; lia]. destruct (getz_in_range made (len made - 1)) as [mb MB]; [lia|]. rewrite MB in BK. unfold back in BK. apply getz_Some in BK. unfold num_nodes. lia. }
  unfold holds_keyframes. rewrite F1, F2. split; [exact G|]. split.
  { rewrite map_map in CI, CT. change (fun x => uy (flat_unode x)) with sn_val in CI, CT. split; [intros x X; apply CI; now apply in_map|].
    intros lo hi H. apply CT; [|discriminate]. intros v V. apply in_map_iff in V. destruct V as (x & <- & X). now apply H. }
  rewrite !Forall2_map_l in FM. cbn [plain_call] in FM.
  assert (LM : len made = len n) by apply (Forall2_len _ _ _ FM).
  destruct (getz_in_range made (len made - 1)) as [mb MB]; [lia|]. rewrite MB in BK.
  assert (MKB : make_node (IZR (Z.max 0 (sn_time b))) (sn_val b) (sn_der b) g r = Some mb).
  { destruct (Forall2_getz _ _ _ FM _ _ MB) as (x & X & MK). rewrite LM, B in X. injection X as <-. exact MK. }
  split. { split; [|rewrite <- M0; exact N3]. pose proof (getz_Some _ _ _ BK). unfold num_nodes in *. lia. }
  split.
  { unfold end_x. rewrite BK, F2, (end_node_last n b B). f_equal. destruct (Rle_lt_dec (IZR (Z.max 0 (sn_time b))) 0) as [T|T].
    - apply le_IZR in T. apply (proj2 (C31_exact _ _ _ g r mb G MKB) 0 ltac:(lia)). replace (Z.max 0 (sn_time b)) with 0 by lia. ring.
    - apply (proj2 (C31_exact _ _ _ g r mb G MKB) 65535 ltac:(lia)). now rewrite (GE T). }
  exists made. split.
  { apply (Forall2_in _ (stores g r) _ _) in FM; [exact FM|]. intros x m X MK. unfold makes in MK. cbn [flat_unode c_x c_y c_derivative ux uy uderivative] in MK. split; [|split].
    - apply (C31_x_error _ (sn_val x) (sn_der x) g r m G); [|exact MK]. assert (0 <= IZR (Z.max 0 (sn_time x)))%R by (apply IZR_le; lia). lra.
    - apply (C31_y_error _ _ _ _ _ _ MK).
    - apply (C31_derivative_error _ _ _ _ _ _ MK). }
  split; [apply PL; apply Forall_forall; intros c C; rewrite in_map_iff in C; destruct C as (u & <- & _); reflexivity|]. split; [now rewrite MB|]. split; [exact N1|]. split; [exact FL|].
  intros SL BD. assert (G1 : (g <= 1)%R).
  { specialize (BD b (getz_in _ _ _ B)). unfold g, recommend_x_granularity, kMaxX. cbn [flat_unode ux]. rcase1; [lra|]. assert (IZR (Z.max 0 (sn_time b)) <= 65535)%R by (apply IZR_le; lia). lra. }
  assert (SM : StronglySorted Z.lt (map nx made)).
  { apply (distinct_made g (conj G G1) n made); [|exact SL|intros x X; apply BD; exact X]. apply (Forall2_in _ _ _ _) with (2 := FM). intros x m X MK. unfold makes in MK. apply make_node_x in MK; [|exact G]. rewrite MK. cbn [plain_call flat_unode c_x ux]. rewrite Z.max_r by (apply BD; exact X). reflexivity. }
  rewrite (append_distinct (map plain_call (map flat_unode n)) (init s0 r g) made s); auto.
  - apply Forall_forall. intros c C. rewrite in_map_iff in C. destruct C as (u & <- & _). reflexivity.
  - rewrite !Forall2_map_l. exact FM.
  - intros k m EB. discriminate EB.
Qed.

(** ** Loading *)
(** What a channel must be like for the way back: not empty, at most 65535 nodes in order of time, not a quaternion's. *)
Definition channel_ok (c : channel) : Prop :=
  ch_nodes c <> [] /\ len (ch_nodes c) <= 65535 /\ StronglySorted Z.le (map sn_time (ch_nodes c)) /\ (forall x, In x (ch_nodes c) -> sn_time x <= int_max) /\ quaternion_op (ch_op c) = false.

Section Loaded.
Context {I : Type} (spline_init : range -> I).
(** The operation of a channel: a constant for one keyframe, otherwise a spline that holds the keyframes. *)
Definition op_loaded (c : channel) (o : opinit I spline) : Prop :=
  i_id o = ch_id c /\ i_type o = ch_op c /\
  ((len (ch_nodes c) = 1 /\ i_init o = None /\ i_union o = UValue (sn_val (first_node (ch_nodes c)))) \/
   (1 < len (ch_nodes c) /\ i_init o = Some (spline_init (range_of_op (ch_op c))) /\ exists s, i_union o = USpline s /\ holds_keyframes (ch_nodes c) s /\ plays_keyframes (ch_nodes c) s)).
(** The end of an animation: the time of its last keyframe, or 0. *)
Definition end_of (chs : list channel) (t : Z) : Prop :=
  0 <= t /\ (forall c, In c chs -> 1 < len (ch_nodes c) -> sn_time (end_node (ch_nodes c)) <= t) /\
  (t = 0 \/ exists c, In c chs /\ 1 < len (ch_nodes c) /\ sn_time (end_node (ch_nodes c)) = t).

Lemma verbatim_ok : forall n s, len (nodes s) + len n <= max_nodes s -> verbatim_nodes s n = Some (with_nodes s (nodes s ++ n)).
Proof.
  induction n as [|x n IH]; intros s L; [cbn; rewrite app_nil_r; now destruct s|]. cbn [verbatim_nodes]. rewrite len_cons in L. pose proof (len_nonneg n). unfold add_node_verbatim, num_nodes. destruct (Z.ltb_spec (len (nodes s)) (max_nodes s)); [|lia].
  rewrite IH by (cbn [with_nodes nodes max_nodes]; rewrite len_app; change (len [x]) with 1; lia). cbn [with_nodes nodes]. now rewrite <- app_assoc.
Qed.
Lemma load_channel c : channel_ok c -> exists o op, export_channel c = Some o /\ load_op spline_init false o = Some op /\ op_loaded c op.
Proof.
  intros (NE & L & S & _ & Q). unfold export_channel. destruct (ch_nodes c) as [|x n] eqn:N; [congruence|]. change (getz (x :: n) 0) with (Some x). cbv beta iota. destruct (Z.leb_spec (len (x :: n)) 1) as [L1|L1].
  - do 2 eexists. split; [reflexivity|]. unfold load_op. cbn [fo_type fo_value fo_id]. rewrite Q. split; [destruct (rotate_op (ch_op c)); reflexivity|]. split; [reflexivity|]. split; [reflexivity|]. left. rewrite N. rewrite len_cons in *. pose proof (len_nonneg n). split; [lia|]. split; reflexivity.
  - destruct (create_ok (x :: n)) as (s & E & H & HG & HS); [lia|exact S|]. rewrite E. do 2 eexists. split; [reflexivity|]. unfold load_op. cbn [fo_type fo_value fo_id spline_to_fb fs_nodes fs_start fs_end fs_granularity]. rewrite Q.
    assert (NN : 1 <= len (nodes s) <= 65535) by (destruct H as (_ & _ & NN & _); unfold num_nodes in NN; lia).
    assert (V : verbatim_nodes (Spline (Rg (start_ (y_range s)) (end_ (y_range s))) (x_granularity s) [] (len (nodes s) mod 65536)) (nodes s) = Some (Spline (y_range s) (x_granularity s) (nodes s) (len (nodes s)))).
    { rewrite verbatim_ok by (cbn [nodes max_nodes]; rewrite Z.mod_small by lia; change (len (@nil node)) with 0; lia). cbn [with_nodes nodes app y_range x_granularity max_nodes]. rewrite Z.mod_small by lia. now destruct (y_range s). }
    cbn [negb]. assert (RO : (if rotate_op (ch_op c) then true else true) = true) by (destruct (rotate_op (ch_op c)); reflexivity). rewrite RO, V. unfold num_nodes. cbn [nodes max_nodes]. rewrite Z.eqb_refl. split; [reflexivity|].
    split; [reflexivity|]. split; [reflexivity|]. right. rewrite N. split; [exact L1|]. split; [reflexivity|]. eexists. split; [reflexivity|]. split; [exact H|]. split; [exact HG|]. intros L4. destruct (HS L4). constructor; assumption.
Qed.
Lemma load_bone b : (forall c, In c (bn_channels b) -> channel_ok c) -> exists m ma, export_bone b = Some m /\ load_matrix spline_init m = Some ma /\ ma_sqt ma = false /\ Forall2 op_loaded (bn_channels b) (ma_ops ma).
Proof.
  intros H. assert (K : exists ops ops', map_opt export_channel (bn_channels b) = Some ops /\ map_opt (load_op spline_init false) ops = Some ops' /\ Forall2 op_loaded (bn_channels b) ops').
  { induction (bn_channels b) as [|c l IH]; [exists [], []; repeat split; constructor|]. destruct (load_channel c (H c (or_introl eq_refl))) as (o & op & E1 & E2 & P). destruct IH as (os & ops & F1 & F2 & F); [intros k K; apply H; now right|].
    exists (o :: os), (op :: ops). cbn [map_opt]. rewrite E1, F1, E2, F2. repeat split; constructor; assumption. }
  destruct K as (ops & ops' & E1 & E2 & F). exists (FbMatrix false ops), (MAnim false ops'). unfold export_bone, load_matrix. rewrite E1. cbn [fm_ops fm_sqt]. rewrite E2. repeat split; assumption.
Qed.
Lemma end_ok : forall chs ops, Forall2 op_loaded chs ops -> (forall c, In c chs -> channel_ok c) -> forall acc done, end_of done acc -> exists t, ops_end_time ops acc = Some t /\ end_of (done ++ chs) t.
Proof.
  induction 1 as [|c o chs ops H F IH]; intros OK acc done E.
  - exists acc. rewrite app_nil_r. split; [reflexivity|exact E].
  - replace (done ++ c :: chs) with ((done ++ [c]) ++ chs) by (rewrite <- app_assoc; reflexivity). cbn [ops_end_time]. destruct E as (P & M & X). destruct (OK c (or_introl eq_refl)) as (NE & L & S & T & Q).
    destruct H as (_ & _ & [(L1 & _ & U)|(L1 & _ & s & U & HK)]); rewrite U.
    + apply IH; [intros; apply OK; now right|]. split; [exact P|]. split.
      * intros k K KL. apply in_app_or in K. destruct K as [K|[<-|[]]]; [now apply M|lia].
      * destruct X as [X|(k & K & X)]; [now left|]. right. exists k. split; [apply in_or_app; now left|exact X].
    + destruct HK as ((_ & _ & _ & EX & _) & _). rewrite EX. unfold to_int. assert (TE : sn_time (end_node (ch_nodes c)) <= int_max).
      { apply T. unfold end_node. destruct (ch_nodes c) as [|y l _] using rev_ind; [congruence|]. rewrite last_last. apply in_elt. }
      unfold int_max in TE. set (e := sn_time (end_node (ch_nodes c))) in *.
      rewrite (Rtrunc_IZR (Z.max 0 e)) by (try lia; lra). destruct (Z.leb_spec (-2147483648) (Z.max 0 e)); [|lia]. destruct (Z.ltb_spec (Z.max 0 e) 2147483648); [|lia]. cbn [andb].
      apply IH; [intros; apply OK; now right|]. split; [lia|]. split.
      * intros k K KL. apply in_app_or in K. destruct K as [K|[<-|[]]]; [specialize (M k K KL); lia|]. fold e. lia.
      * destruct (Z.le_gt_cases e acc) as [C|C].
        -- rewrite Z.max_l by lia. destruct X as [X|(k & K & X)]; [now left|]. right. exists k. split; [apply in_or_app; now left|exact X].
        -- right. exists c. split; [apply in_or_app; right; now left|]. split; [exact L1|]. fold e. lia.
Qed.
(** The animation of a bone. *)
Definition bone_loaded (b : bone) (m : manim (opinit I spline)) : Prop := ma_sqt m = false /\ Forall2 op_loaded (bn_channels b) (ma_ops m).

Lemma same_len_cons {A B} (l : list A) (y : B) r : len l = len (y :: r) -> exists a l', l = a :: l' /\ len l' = len r.
Proof. destruct l as [|a l]; unfold len; cbn [length]; intros E; [lia|]. exists a, l. split; [reflexivity|lia]. Qed.
Lemma setz_head {A} (X Y : list A) x y i : i = len X -> setz (X ++ x :: Y) i y = Some (X ++ y :: Y).
Proof. apply setz_app. Qed.
Lemma load_bones_ok d f : fr_parents f = map file_parent (ad_bones d) -> fr_names f = Some (map (fun b => bone_base_name (bn_name b)) (ad_bones d)) ->
  Forall2 (fun b m => export_bone b = Some m) (ad_bones d) (fr_anims f) -> parents_loadable (fr_parents f) ->
  (forall b c, In b (ad_bones d) -> In c (bn_channels b) -> channel_ok c) ->
  forall rest before XA XP XN YA YP YN e en rp, ad_bones d = before ++ rest -> len XA = len before -> len XP = len before -> len XN = len before -> len YA = len rest -> len YP = len rest -> len YN = len rest ->
  end_of (flat_map bn_channels before) e ->
  exists ms t, load_bones spline_init (length rest) f true (len before) e (RigAnim (XA ++ YA) (XP ++ YP) (XN ++ YN) en rp) = Some (RigAnim (XA ++ ms) (XP ++ map file_parent rest) (XN ++ map (fun b => bone_base_name (bn_name b)) rest) en rp, t) /\
    Forall2 bone_loaded rest ms /\ end_of (flat_map bn_channels (ad_bones d)) t.
Proof.
  intros FP FN FA PL OK. induction rest as [|b rest IH]; intros before XA XP XN YA YP YN e en rp D LA LP LN YLA YLP YLN E.
  - assert (Z0 : forall A (l : list A), len l = len (@nil bone) -> l = []) by (intros A l Q; apply len_zero; exact Q). rewrite (Z0 _ YA YLA), (Z0 _ YP YLP), (Z0 _ YN YLN). exists [], e. cbn [length load_bones map]. split; [reflexivity|]. split; [constructor|]. rewrite D, app_nil_r. exact E.
  - destruct (same_len_cons YA b rest YLA) as (ya & YA' & -> & YLA'). destruct (same_len_cons YP b rest YLP) as (yp & YP' & -> & YLP'). destruct (same_len_cons YN b rest YLN) as (yn & YN' & -> & YLN'). clear YLA YLP YLN. rename YA' into YA, YP' into YP, YN' into YN. cbn [length load_bones].
    assert (GP : getz (fr_parents f) (len before) = Some (file_parent b)) by (rewrite FP, D, map_app; apply getz_app; now rewrite len_map).
    assert (GN : getz (map (fun b => bone_base_name (bn_name b)) (ad_bones d)) (len before) = Some (bone_base_name (bn_name b))) by (rewrite D, map_app; apply (getz_app (map _ before)); now rewrite len_map).
    destruct (getz_in_range (fr_anims f) (len before)) as [m GM]. { rewrite (Forall2_len _ _ _ FA), D, len_app, len_cons. pose proof (len_nonneg before); pose proof (len_nonneg rest). lia. }
    destruct (Forall2_getz _ _ _ FA _ _ GM) as (b' & B' & EB). rewrite D, getz_app in B' by reflexivity. injection B' as <-.
    assert (INb : In b (ad_bones d)) by (rewrite D; apply in_elt).
    destruct (load_bone b (fun c C => OK b c INb C)) as (m' & ma & EB' & LM & SQ & FO). rewrite EB in EB'. injection EB' as <-.
    rewrite GP, FN, GN, GM, LM. cbv beta iota. unfold init_matrix_anim. cbn [ra_anims ra_parents ra_names ra_end ra_repeat]. rewrite !len_app, !len_cons.
    pose proof (len_nonneg YA); pose proof (len_nonneg YN); pose proof (len_nonneg before). destruct (Z.ltb_spec (len before) (len XA + (1 + len YA))); [|lia].
    replace ((file_parent b <? len before) || (file_parent b =? kInvalidBoneIdx)) with true.
    2:{ destruct (PL _ _ GP) as [-> | [_ P2]]; [rewrite Z.eqb_refl; now rewrite orb_true_r|]. destruct (Z.ltb_spec (file_parent b) (len before)); [reflexivity|lia]. }
    destruct (Z.ltb_spec 0 (len XN + (1 + len YN))); [|lia]. rewrite !setz_head by lia. cbv beta iota.
    destruct (end_ok _ _ FO (fun c C => OK b c INb C) 0 []) as (t & T & TE). { split; [lia|]. split; [intros c []|now left]. } rewrite T.
    destruct (IH (before ++ [b]) (XA ++ [ma]) (XP ++ [file_parent b]) (XN ++ [bone_base_name (bn_name b)]) YA YP YN (Z.max e t) en rp) as (ms & t' & LB & FB & EE); try (rewrite ?len_app; cbn; lia).
    { rewrite D, <- app_assoc. reflexivity. }
    { rewrite flat_map_app. cbn [flat_map]. rewrite app_nil_r. destruct E as (E1 & E2 & E3), TE as (T1 & T2 & T3). split; [lia|]. split.
      - intros c C L. apply in_app_or in C. destruct C as [C|C]; [specialize (E2 c C L)|specialize (T2 c C L)]; lia.
      - destruct (Z.max_spec e t) as [[Q ->]|[Q ->]]; [destruct T3 as [T3|(c & C & T3)]|destruct E3 as [E3|(c & C & E3)]]; try (now left); right; exists c; (split; [apply in_or_app; auto|assumption]). }
    exists (ma :: ms), t'. rewrite len_app in LB. change (len [b]) with 1 in LB. rewrite <- !app_assoc in LB. cbn [app] in LB. rewrite LB. split; [reflexivity|]. split; [constructor; [split; assumption|exact FB]|exact EE].
Qed.
End Loaded.

(** A bone's name without what comes before its last colon (58). *)
Theorem C85_base_name : forall name, (~ In 58 name /\ bone_base_name name = name) \/ exists before, name = before ++ 58 :: bone_base_name name /\ ~ In 58 (bone_base_name name).
Proof.
  intros name. unfold bone_base_name. assert (K : match after_colon name with Some s => exists before, name = before ++ 58 :: s /\ ~ In 58 s | None => ~ In 58 name end).
  { induction name as [|c name IH]; [intros []|]. cbn [after_colon]. destruct (after_colon name) as [s|].
    - destruct IH as (b & E & N). exists (c :: b). split; [cbn; now rewrite <- E|exact N].
    - destruct (Z.eqb_spec c 58) as [->|NC]; [exists []; split; [reflexivity|exact IH]|]. intros [C|C]; [congruence|now apply IH]. }
  destruct (after_colon name) as [s|]; [now right|left; split; [exact K|reflexivity]].
Qed.
Print Assumptions C85_base_name.
(** C85: a whole skeleton of at most 254 bones, with channels that are not empty, in order
    of time and not of quaternions, is exported and loaded, whatever the motivators of its
    splines are made from: with the same bones, parents and base names, each operation with
    its id, type and constant value or keyframes; with the end of the last keyframe, or none if it repeats. *)
Theorem C85_round_trip_partial : forall I (spline_init : range -> I) d p name,
  ad_root_only d = false -> len (ad_bones d) <= 254 -> bones_ordered d -> (forall b c, In b (ad_bones d) -> In c (bn_channels b) -> channel_ok c) ->
  exists r a rep, create_flat_buffer d p name = Some [r] /\ load_rig spline_init r = Some a /\ repeats d p = Some rep /\
    Forall2 (bone_loaded spline_init) (ad_bones d) (ra_anims a) /\
    Forall2 (fun b q => q = if bn_parent b =? -1 then kInvalidBoneIdx else bn_parent b) (ad_bones d) (ra_parents a) /\
    ra_names a = map (fun b => bone_base_name (bn_name b)) (ad_bones d) /\
    ra_repeat a = rep /\ (rep = true -> ra_end a = int_max) /\ (rep = false -> end_of (flat_map bn_channels (ad_bones d)) (ra_end a)).
Proof.
  intros I si d p name RO LB BO OK.
  assert (REP : exists rep, repeats d p = Some rep).
  { destruct (C83_repeats d) as (R1 & R2 & rr & R3 & _); [lia|intros b c B C; apply (OK b c B C)|]. destruct p; eauto. }
  destruct REP as [rep REP].
  assert (EX : exists ms, map_opt export_bone (ad_bones d) = Some ms).
  { destruct (map_opt_ok export_bone (fun _ _ => True) (ad_bones d)) as (ms & E & _); [|exists ms; exact E]. intros b B. destruct (load_bone si b (fun c C => OK b c B C)) as (m & _ & E & _). exists m. split; [exact E|exact Logic.I]. }
  destruct EX as [ms EX]. set (r := FbRig ms (map file_parent (ad_bones d)) (Some (map (fun b => bone_base_name (bn_name b)) (ad_bones d))) rep name).
  assert (CR : create_flat_buffer d p name = Some [r]).
  { unfold create_flat_buffer. unfold kMaxNumBones. destruct (Z.ltb_spec 254 (len (ad_bones d))); [lia|]. rewrite RO. cbn [negb]. rewrite export_whole_eq, EX, REP. reflexivity. }
  pose proof (C72_whole_partial d p name [r] r RO BO CR (or_introl eq_refl)) as [_ PL]. apply map_opt_iff in EX. pose proof (Forall2_len _ _ _ EX) as LM.
  destruct (load_bones_ok si d r eq_refl eq_refl EX PL OK (ad_bones d) [] [] [] [] (repeat (MAnim false []) (length (ad_bones d))) (repeat 0 (length (ad_bones d))) (repeat [] (length (ad_bones d))) 0 0 false) as (mas & t & LD & FB & EE);
    try reflexivity; try (rewrite len_repeat; reflexivity).
  { split; [lia|]. split; [intros c []|now left]. }
  exists r, (RigAnim mas (map file_parent (ad_bones d)) (map (fun b => bone_base_name (bn_name b)) (ad_bones d)) (if rep then int_max else t) rep), rep.
  split; [exact CR|]. split.
  { unfold load_rig. cbn [fr_anims fr_names fr_parents fr_repeat r]. rewrite !len_map, LM, Z.eqb_refl. unfold ra_init. rewrite Z.mod_small by (pose proof (len_nonneg (ad_bones d)); lia). unfold kMaxNumBones. destruct (Z.leb_spec (len (ad_bones d)) 254); [|lia].
    unfold ra_default, resize. cbn [ra_anims ra_parents ra_names ra_end ra_repeat]. rewrite !firstn_nil. cbn [app length]. rewrite len_to_nat, Nat.sub_0_r. fold r. cbn [app] in LD. change (len (@nil bone)) with 0 in LD. rewrite LD. reflexivity. }
  split; [exact REP|]. cbn [ra_anims ra_parents ra_names ra_end ra_repeat]. split; [exact FB|]. split.
  { assert (BB : forall b, In b (ad_bones d) -> -1 <= bn_parent b < 254). { intros b B. apply in_getz in B. destruct B as [i B]. specialize (BO i b B). pose proof (getz_Some _ _ _ B). lia. }
    clear - BB. induction (ad_bones d) as [|b l IH]; [constructor|]. cbn [map]. constructor; [|apply IH; intros; apply BB; now right]. specialize (BB b (or_introl eq_refl)). unfold file_parent. destruct (Z.ltb_spec (bn_parent b) 0), (Z.eqb_spec (bn_parent b) (-1)); lia. }
  split; [reflexivity|]. split; [reflexivity|]. split; intros ->; [reflexivity|exact EE].
Qed.
Print Assumptions C85_round_trip_partial.

(** A skeleton with a constant and a moving channel. *)
Example C85_case : forall t, let d := AnimData [Bone [97; 58; 98] (-1) [Channel ScaleUniformly 3 [SNode 0 2 0]]; Bone [99] 0 [Channel TranslateX 0 [SNode 0 1 0; SNode 500 4 1]]] (-1) t false in
  ad_root_only d = false /\ len (ad_bones d) <= 254 /\ bones_ordered d /\ (forall b c, In b (ad_bones d) -> In c (bn_channels b) -> channel_ok c).
Proof.
  intros t d. split; [reflexivity|]. split; [cbn; lia|]. split; [apply (C72_scene [FbxNode [97; 58; 98] false [FbxNode [99] true []]] t false); reflexivity|].
  intros b c B C. cbn in B. destruct B as [<-|[<-|[]]]; cbn in C; destruct C as [<-|[]]; unfold channel_ok, int_max; cbn [ch_nodes ch_op map sn_time].
  - split; [discriminate|]. split; [cbn; lia|]. split; [constructor; constructor|]. split; [|reflexivity]. intros x [<-|[]]. cbn. lia.
  - split; [discriminate|]. split; [cbn; lia|]. split; [constructor; [constructor; constructor|constructor; [lia|constructor]]|]. split; [|reflexivity]. intros x [<-|[<-|[]]]; cbn; lia.
Qed.

(** Every animation of a bone of a rig that has been loaded has been loaded. *)
Lemma load_bones_all {I} (si : range -> I) f rn : forall k i e a x, load_bones si k f rn i e a = Some x -> forall j, i <= j < i + Z.of_nat k -> exists m ma, getz (fr_anims f) j = Some m /\ load_matrix si m = Some ma.
Proof.
  induction k as [|k IH]; intros i e a x H j J; [lia|]. cbn [load_bones] in H. destruct (getz (fr_parents f) i); [|discriminate]. destruct (if rn then _ else _); [|discriminate]. destruct (getz (fr_anims f) i) as [m|] eqn:G; [|discriminate].
  destruct (load_matrix si m) as [ma|] eqn:M; [|discriminate]. destruct (init_matrix_anim _ _ _ _ _); [|discriminate]. destruct (ops_end_time _ _); [|discriminate].
  destruct (Z.eq_dec i j) as [<-|N]; [exists m, ma; split; assumption|]. apply (IH _ _ _ _ H). lia.
Qed.
Lemma load_rig_all {I} (si : range -> I) f a m o : load_rig si f = Some a -> In m (fr_anims f) -> In o (fm_ops m) -> exists op, load_op si (fm_sqt m) o = Some op.
Proof.
  unfold load_rig. intros H M O. apply in_getz in M. destruct M as [j M]. pose proof (getz_Some _ _ _ M) as J. destruct (_ =? _); [|discriminate]. destruct (ra_init _ _ _) as [a0|]; [|discriminate].
  destruct (load_bones _ _ _ _ _ _ _) as [[a' t]|] eqn:L; [|discriminate]. destruct (load_bones_all si f _ _ _ _ _ _ L j) as (m' & ma & G & LM); [lia|]. rewrite M in G. injection G as <-. unfold load_matrix in LM.
  destruct (map_opt _ _) as [ops|] eqn:MO; [|discriminate]. apply map_opt_iff in MO. clear - MO O. induction MO as [|x y l l' E F IH]; [destruct O|]. destruct O as [<-|O]; [exists y; exact E|now apply IH].
Qed.
(** C85 is false of quaternions: an animation that has a channel for a part of a quaternion is exported as one the loader rejects. *)
Theorem C85_quaternions_refuted : forall I (spline_init : range -> I) d p name rigs r b c, ad_root_only d = false -> create_flat_buffer d p name = Some rigs -> In r rigs ->
  In b (ad_bones d) -> In c (bn_channels b) -> quaternion_op (ch_op c) = true -> load_rig spline_init r = None.
Proof.
  intros I si d p name rigs r b c RO. unfold create_flat_buffer. destruct (kMaxNumBones <? len (ad_bones d)); [intros E; injection E as <-; intros []|]. rewrite RO. cbn [negb]. destruct (export_range _ _ _ _ _) as [q|] eqn:X; [|discriminate].
  intros E. injection E as <-. intros [<-|[]] B C Q. destruct (export_whole _ _ _ _ X) as (FA & _). destruct (load_rig si q) as [a|] eqn:LR; [|reflexivity]. exfalso.
  assert (K : exists m, In m (fr_anims q) /\ export_bone b = Some m). { clear - FA B. induction FA as [|x y l l' E F IH]; [destruct B|]. destruct B as [<-|B]; [exists y; split; [now left|exact E]|]. destruct (IH B) as (m & M & E'). exists m. split; [now right|exact E']. }
  destruct K as (m & M & EB). unfold export_bone in EB. destruct (map_opt export_channel _) as [ops|] eqn:MO; [|discriminate]. injection EB as <-. apply map_opt_iff in MO.
  assert (K : exists o, In o ops /\ export_channel c = Some o). { clear - MO C. induction MO as [|x y l l' E F IH]; [destruct C|]. destruct C as [<-|C]; [exists y; split; [now left|exact E]|]. destruct (IH C) as (o & O & E'). exists o. split; [now right|exact E']. }
  destruct K as (o & O & EC). destruct (load_rig_all si q a _ o LR M O) as [op L]. cbn [fm_sqt] in L. unfold load_op in L.
  assert (T : fo_type o = ch_op c). { unfold export_channel in EC. destruct (getz (ch_nodes c) 0); [|discriminate]. destruct (_ <=? _); [injection EC as <-; reflexivity|]. destruct (create_compact_spline _); [|discriminate]. injection EC as <-. reflexivity. }
  rewrite T, Q in L. discriminate L.
Qed.
Print Assumptions C85_quaternions_refuted.
Example C85_quaternions_case : forall t, exists r, create_flat_buffer (AnimData [Bone [97] (-1) [Channel QuaternionW 0 [SNode 0 1 0]]] (-1) t false) NeverRepeat [98] = Some [r] /\ len (fr_anims r) = 1.
Proof. intros t. eexists. split; reflexivity. Qed.
(** No file with a spline of floats can be loaded: the loader reads past the last node. *)
Theorem C85_float_splines_refuted : forall I (spline_init : range -> I) f m o l, In m (fr_anims f) -> In o (fm_ops m) -> fo_value o = FbFloat (Some l) -> load_rig spline_init f = None.
Proof.
  intros I si f m o l M O V. destruct (load_rig si f) as [a|] eqn:LR; [|reflexivity]. exfalso. destruct (load_rig_all si f a m o LR M O) as [op L]. unfold load_op in L. destruct (if quaternion_op _ then _ else _); [|discriminate]. rewrite V in L.
  rewrite getz_None in L by lia. discriminate L.
Qed.
Print Assumptions C85_float_splines_refuted.

(** ** Defining animations *)
(** An operation and what the file makes of it: an empty spline of the same id and type. *)
Definition emptied {I} (si : range -> I) (o o' : opinit I spline) : Prop := o' = OpInit (Some (si (range_of_op (i_type o)))) (i_id o) (i_type o) UEmpty.
(** What CreateDefiningAnim makes: operations without splines or targets. *)
Definition defining_op {I} (o : opinit I spline) : Prop := (i_union o = UEmpty \/ exists v, i_union o = UValue v) /\ quaternion_op (i_type o) = false.

Lemma load_defining {I} (si : range -> I) f : parents_loadable (fr_parents f) -> forall mas names,
  Forall2 (fun m ma => load_matrix si m = Some ma /\ ops_end_time (ma_ops ma) 0 = Some 0) (fr_anims f) mas -> fr_names f = Some names -> len names = len (fr_anims f) -> len (fr_parents f) = len (fr_anims f) ->
  forall rest done XA XP XN YA YP YN en rp, mas = done ++ rest -> len XA = len done -> len XP = len done -> len XN = len done -> len YA = len rest -> len YP = len rest -> len YN = len rest ->
  load_bones si (length rest) f true (len done) 0 (RigAnim (XA ++ YA) (XP ++ YP) (XN ++ YN) en rp) =
    Some (RigAnim (XA ++ rest) (XP ++ skipn (length done) (fr_parents f)) (XN ++ skipn (length done) names) en rp, 0).
Proof.
  intros PL mas names FA FN LN LP. pose proof (Forall2_len _ _ _ FA) as LM. induction rest as [|ma rest IH]; intros done XA XP XN YA YP YN en rp D LA LP' LN' YLA YLP YLN.
  - rewrite app_nil_r in D. subst done. assert (Z0 : forall A (l : list A), len l = 0 -> l = []) by (intros A l Q; apply len_zero; exact Q). rewrite (Z0 _ YA YLA), (Z0 _ YP YLP), (Z0 _ YN YLN).
    rewrite !skipn_all2 by (unfold len in *; lia). reflexivity.
  - destruct (same_len_cons YA ma rest YLA) as (ya & YA' & -> & YLA'). destruct (same_len_cons YP ma rest YLP) as (yp & YP' & -> & YLP'). destruct (same_len_cons YN ma rest YLN) as (yn & YN' & -> & YLN').
    assert (LT : 0 <= len done < len mas). { rewrite D, len_app, len_cons. pose proof (len_nonneg done); pose proof (len_nonneg rest). lia. }
    assert (SK : forall A (l : list A) x, getz l (len done) = Some x -> skipn (length done) l = x :: skipn (length (done ++ [ma])) l).
    { intros A l x G. apply getz_split in G. destruct G as (P & Q & -> & LPQ). replace (length done) with (length P) by (unfold len in LPQ; lia). rewrite skipn_app, skipn_all, Nat.sub_diag. cbn [app skipn]. f_equal.
      rewrite app_length. cbn [length]. replace (length done + 1)%nat with (length (P ++ [x])) by (rewrite app_length; unfold len in LPQ; cbn [length]; lia). change (P ++ x :: Q) with (P ++ [x] ++ Q). rewrite app_assoc, skipn_app, skipn_all, Nat.sub_diag. reflexivity. }
    destruct (getz_in_range (fr_parents f) (len done)) as [pa GP]; [lia|]. destruct (getz_in_range names (len done)) as [na GN]; [lia|]. destruct (getz_in_range (fr_anims f) (len done)) as [m GM]; [lia|].
    assert (GMA : getz mas (len done) = Some ma) by (rewrite D; now apply getz_app). destruct (Forall2_getz _ _ _ FA _ _ GMA) as (m' & GM' & LMA & TE). rewrite GM in GM'. injection GM' as <-.
    cbn [length load_bones]. rewrite GP, FN, GN, GM, LMA. cbv beta iota. unfold init_matrix_anim. cbn [ra_anims ra_parents ra_names ra_end ra_repeat]. rewrite !len_app, !len_cons.
    pose proof (len_nonneg YA'); pose proof (len_nonneg YN'). destruct (Z.ltb_spec (len done) (len XA + (1 + len YA'))); [|lia].
    replace ((pa <? len done) || (pa =? kInvalidBoneIdx)) with true.
    2:{ destruct (PL _ _ GP) as [-> | [_ P2]]; [rewrite Z.eqb_refl; now rewrite orb_true_r|]. destruct (Z.ltb_spec pa (len done)); [reflexivity|lia]. }
    destruct (Z.ltb_spec 0 (len XN + (1 + len YN'))); [|lia]. rewrite !setz_head by lia. cbv beta iota. rewrite TE.
    specialize (IH (done ++ [ma]) (XA ++ [ma]) (XP ++ [pa]) (XN ++ [na]) YA' YP' YN' en rp). rewrite <- !app_assoc in IH. cbn [app] in IH. change (Z.max 0 0) with 0. replace (len done + 1) with (len (done ++ [ma])) by (rewrite len_app; reflexivity). rewrite IH; try assumption; try (rewrite !len_app; cbn; lia).
    rewrite (SK _ _ _ GP), (SK _ _ _ GN). reflexivity.
Qed.

(** C86: a defining animation of at most 254 bones, with the names of its bones and without
    quaternions, is written to a file that loads, with the same bones, parents, names and
    repetition, each operation an empty spline of the same id and type. *)
Theorem C86_defining_partial : forall I (spline_init : range -> I) name (a : rig_anim (opinit I spline)),
  len (ra_anims a) <= 254 -> len (ra_parents a) = len (ra_anims a) -> len (ra_names a) = len (ra_anims a) -> parents_loadable (ra_parents a) ->
  (forall m o, In m (ra_anims a) -> In o (ma_ops m) -> defining_op o) ->
  exists f a', export_defining name a = Some f /\ load_rig spline_init f = Some a' /\
    Forall2 (fun m m' => ma_sqt m' = false /\ Forall2 (emptied spline_init) (ma_ops m) (ma_ops m')) (ra_anims a) (ra_anims a') /\
    ra_parents a' = ra_parents a /\ ra_names a' = ra_names a /\ ra_repeat a' = ra_repeat a /\ ra_end a' = (if ra_repeat a then int_max else 0).
Proof.
  intros I si name a L LP LN PL OK. pose proof (len_nonneg (ra_anims a)) as L0. assert (NB : num_bones a = len (ra_anims a)) by (apply Z.mod_small; lia).
  assert (OPS : forall l, (forall o, In o l -> defining_op o) -> exists fo lo, map_opt export_defining_op l = Some fo /\ map_opt (load_op si false) fo = Some lo /\ Forall2 (emptied si) l lo /\ ops_end_time lo 0 = Some 0).
  { induction l as [|o l IH]; intros D; [exists [], []; repeat split; constructor|]. destruct IH as (fo & lo & E1 & E2 & F & T); [intros; apply D; now right|]. destruct (D o (or_introl eq_refl)) as [U Q].
    exists (FbOp (i_id o) (i_type o) (FbCompact None) :: fo), (OpInit (Some (si (range_of_op (i_type o)))) (i_id o) (i_type o) UEmpty :: lo).
    assert (EO : export_defining_op o = Some (FbOp (i_id o) (i_type o) (FbCompact None))) by (unfold export_defining_op; destruct U as [-> | [v ->]]; reflexivity).
    assert (LO : load_op si false (FbOp (i_id o) (i_type o) (FbCompact None)) = Some (OpInit (Some (si (range_of_op (i_type o)))) (i_id o) (i_type o) UEmpty)) by (unfold load_op; cbn [fo_type fo_value fo_id]; rewrite Q; destruct (rotate_op (i_type o)); reflexivity).
    cbn [map_opt]. rewrite EO, E1, LO, E2. repeat split; try assumption. constructor; [reflexivity|exact F]. }
  assert (ANIMS : exists fa mas, map_opt (fun m => ops <- map_opt export_defining_op (ma_ops m) ;; Some (FbMatrix false ops)) (ra_anims a) = Some fa /\
    Forall2 (fun m ma => load_matrix si m = Some ma /\ ops_end_time (ma_ops ma) 0 = Some 0) fa mas /\ Forall2 (fun m m' => ma_sqt m' = false /\ Forall2 (emptied si) (ma_ops m) (ma_ops m')) (ra_anims a) mas).
  { clear - OK OPS. induction (ra_anims a) as [|m l IH]; [exists [], []; repeat split; constructor|]. destruct IH as (fa & mas & E & F1 & F2); [intros k o K; apply OK; now right|].
    destruct (OPS (ma_ops m)) as (fo & lo & E1 & E2 & F & T); [intros o O; apply (OK m); [now left|exact O]|]. exists (FbMatrix false fo :: fa), (MAnim false lo :: mas). cbn [map_opt]. rewrite E1, E. split; [reflexivity|]. split.
    - constructor; [|exact F1]. unfold load_matrix. cbn [fm_sqt fm_ops]. rewrite E2. split; [reflexivity|exact T].
    - constructor; [|exact F2]. split; [reflexivity|exact F]. }
  destruct ANIMS as (fa & mas & EA & FL & FE). pose proof (Forall2_len _ _ _ FE) as LM. pose proof (Forall2_len _ _ _ FL) as LF.
  set (f := FbRig fa (ra_parents a) (Some (ra_names a)) (ra_repeat a) name).
  assert (EX : export_defining name a = Some f).
  { unfold export_defining. rewrite NB, len_to_nat. rewrite (map_opt_all (fun m => ops <- map_opt export_defining_op (ma_ops m) ;; Some (FbMatrix false ops)) _ (ra_anims a)) by reflexivity. rewrite EA.
    replace (length (ra_anims a)) with (length (ra_parents a)) at 1 by (unfold len in LP; lia). rewrite (map_opt_all (fun p => Some p) (getz (ra_parents a)) (ra_parents a)) by (intros i; destruct (getz (ra_parents a) i); reflexivity).
    assert (ID : forall A (l : list A), map_opt (fun x => Some x) l = Some l) by (induction l as [|x l IH]; [reflexivity|]; cbn [map_opt]; now rewrite IH). rewrite ID.
    replace (length (ra_anims a)) with (length (ra_names a)) by (unfold len in LN; lia).
    assert (NM : map (bone_name a) (indices (length (ra_names a)) 0) = ra_names a).
    { assert (K : forall Y X, ra_names a = X ++ Y -> map (bone_name a) (indices (length Y) (len X)) = Y).
      { induction Y as [|y Y IH]; intros X E; [reflexivity|]. cbn [length indices map]. unfold bone_name at 1. rewrite E, getz_app by reflexivity. f_equal. replace (len X + 1) with (len (X ++ [y])) by (rewrite len_app; reflexivity). apply IH. now rewrite <- app_assoc. }
      apply (K (ra_names a) []). reflexivity. }
    rewrite NM. reflexivity. }
  exists f, (RigAnim mas (ra_parents a) (ra_names a) (if ra_repeat a then int_max else 0) (ra_repeat a)). split; [exact EX|]. split; [|repeat split; assumption].
  unfold load_rig. cbn [fr_anims fr_names fr_parents fr_repeat f]. replace (len fa) with (len (ra_anims a)) by lia. rewrite LP, LN, Z.eqb_refl. rewrite Z.mod_small by lia. unfold ra_init, kMaxNumBones. destruct (Z.leb_spec (len (ra_anims a)) 254); [|lia].
  unfold ra_default, resize. cbn [ra_anims ra_parents ra_names ra_end ra_repeat]. rewrite !firstn_nil. cbn [app length]. rewrite len_to_nat, Nat.sub_0_r. fold f.
  pose proof (load_defining si f PL mas (ra_names a) FL eq_refl ltac:(cbn [f fr_anims]; lia) ltac:(cbn [f fr_anims fr_parents]; lia) mas [] [] [] [] (repeat (MAnim false []) (length (ra_anims a))) (repeat 0 (length (ra_anims a))) (repeat [] (length (ra_anims a))) 0 false eq_refl eq_refl eq_refl eq_refl
    ltac:(rewrite len_repeat; unfold len in *; lia) ltac:(rewrite len_repeat; unfold len in *; lia) ltac:(rewrite len_repeat; unfold len in *; lia)) as LD.
  cbn [app length skipn fr_parents f] in LD. replace (length mas) with (length (ra_anims a)) in LD by (unfold len in LM; lia). change (len (@nil (manim (opinit I spline)))) with 0 in LD. fold f in LD. rewrite LD. reflexivity.
Qed.
Print Assumptions C86_defining_partial.
Example C86_case : forall I (i : I), let a := RigAnim [MAnim false [OpInit (Some i) 0 RotateX UEmpty; OpInit (@None I) 1 ScaleUniformly (@UValue spline 2%R)]] [255] [[97]] 0 false in
  len (ra_anims a) <= 254 /\ len (ra_parents a) = len (ra_anims a) /\ len (ra_names a) = len (ra_anims a) /\ parents_loadable (ra_parents a) /\ (forall m o, In m (ra_anims a) -> In o (ma_ops m) -> defining_op o).
Proof.
  intros I i a. split; [cbn; lia|]. split; [reflexivity|]. split; [reflexivity|]. split.
  - intros j p G. pose proof (getz_Some _ _ _ G) as J. cbn in J. assert (j = 0) as -> by lia. injection G as <-. now left.
  - intros m o [<-|[]]; cbn. intros [<-|[<-|[]]]; (split; [cbn; eauto|reflexivity]).
Qed.
(** Defining animations lose the values of their constants, which become splines. *)
Theorem C86_constants_refuted : forall I (spline_init : range -> I) name, exists (a : rig_anim (opinit I spline)) f a' o o',
  ra_anims a = [MAnim false [o]] /\ i_union o = UValue 2%R /\ i_init o = None /\ export_defining name a = Some f /\ load_rig spline_init f = Some a' /\ ra_anims a' = [MAnim false [o']] /\ i_union o' = UEmpty /\ i_init o' <> None.
Proof.
  intros I si name. exists (RigAnim [MAnim false [OpInit None 0 ScaleUniformly (UValue 2%R)]] [255] [[97]] 0 false). do 4 eexists. repeat (split; [reflexivity|]). discriminate.
Qed.
Print Assumptions C86_constants_refuted.
(** A defining animation with quaternions is written without the mark that the loader needs. *)
Theorem C86_quaternions_refuted : forall I (spline_init : range -> I) name (a : rig_anim (opinit I spline)) f m o, num_bones a = len (ra_anims a) -> export_defining name a = Some f -> In m (ra_anims a) -> In o (ma_ops m) -> quaternion_op (i_type o) = true -> load_rig spline_init f = None.
Proof.
  intros I si name a f m o NB. unfold export_defining. rewrite NB, len_to_nat. rewrite (map_opt_all (fun m => ops <- map_opt export_defining_op (ma_ops m) ;; Some (FbMatrix false ops)) _ (ra_anims a)) by reflexivity.
  destruct (map_opt _ (ra_anims a)) as [fa|] eqn:EA; [|discriminate]. destruct (map_opt (getz _) _); [|discriminate]. intros E. injection E as <-. intros M O Q. apply map_opt_iff in EA.
  set (f := FbRig _ _ _ _ _). destruct (load_rig si f) as [a'|] eqn:LR; [|reflexivity]. exfalso.
  assert (K : exists fm, In fm fa /\ (ops <- map_opt export_defining_op (ma_ops m) ;; Some (FbMatrix false ops)) = Some fm). { clear - EA M. induction EA as [|x y k k' E F IH]; [destruct M|]. destruct M as [<-|M]; [exists y; split; [now left|exact E]|]. destruct (IH M) as (z & Z & E'). exists z. split; [now right|exact E']. }
  destruct K as (fm & FM & EM). destruct (map_opt export_defining_op _) as [ops|] eqn:MO; [|discriminate]. injection EM as <-. apply map_opt_iff in MO.
  assert (K : exists fo, In fo ops /\ export_defining_op o = Some fo). { clear - MO O. induction MO as [|x y k k' E F IH]; [destruct O|]. destruct O as [<-|O]; [exists y; split; [now left|exact E]|]. destruct (IH O) as (z & Z & E'). exists z. split; [now right|exact E']. }
  destruct K as (fo & FO & EO). destruct (load_rig_all si f a' _ fo LR FM FO) as [op LO]. cbn [fm_sqt] in LO. unfold load_op in LO.
  assert (T : fo_type fo = i_type o) by (unfold export_defining_op in EO; destruct (i_union o); try discriminate; injection EO as <-; reflexivity). rewrite T, Q in LO. discriminate LO.
Qed.
Print Assumptions C86_quaternions_refuted.
