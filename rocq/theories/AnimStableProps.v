(** Pruning the channels of a bone again changes nothing (C103). *)
From Verif Require Import RBase BaseFacts MathfuModel CurveModel MatrixModel MatrixProps RigModel AnimDataModel AnimSpec AnimCurveProps AnimChannelsModel AnimSumProps AnimChannelsProps.
From Coq Require Import Sorting.Sorted.
Local Open Scope Z_scope.

(** ** The specification *)
Definition scales (op : mtype) : Prop := axis_scale op \/ op = ScaleUniformly.
(** How far the id of a scale along an axis is from that of the uniform scale. *)
Definition room (op : mtype) : Z := match op with ScaleX => 3 | ScaleY => 2 | ScaleZ => 1 | _ => 0 end.
(** Channels other than translations are in the order of their ids; there is room for the id of a uniform scale. *)
Definition by_id (c d : channel) : Prop :=
  (translates (ch_op c) /\ translates (ch_op d)) \/ (ch_id c < ch_id d /\ (axis_scale (ch_op d) \/ ch_id c + room (ch_op c) < ch_id d)).
(** Two scales of one bone are along different axes. *)
Definition scale_once (c d : channel) : Prop := scales (ch_op c) -> scales (ch_op d) -> axis_scale (ch_op c) /\ axis_scale (ch_op d) /\ ch_op c <> ch_op d.
Definition pair_ok (c d : channel) : Prop := by_id c d /\ scale_once c d.
(** Channels as they come from an FBX node. *)
Record regular (chs : list channel) : Prop := {
  r_ops : forall c, In c chs -> rotates (ch_op c) \/ translates (ch_op c) \/ scales (ch_op c);
  r_pairs : ForallOrdPairs pair_ok chs;
  r_ids : forall c, In c chs -> scales (ch_op c) -> 0 <= ch_id c <= 255 - room (ch_op c)
}.

(** ** Channels that pruning leaves alone *)
Definition settled (t : tolerances) (nu : bool) (c : channel) (Q : list channel) : Prop :=
  negb nu && uniform_scale_channels t (c :: Q) 0 = false /\ summable_loop (ch_op c) Q 1 = -1 /\ left_out t c = false.
Fixpoint stable (t : tolerances) (nu : bool) (l : list channel) : Prop := match l with [] => True | c :: r => settled t nu c r /\ stable t nu r end.
Lemma stable_suffix t nu B : forall A, stable t nu (A ++ B) -> stable t nu B.
Proof. induction A as [|a A IH]; cbn [app stable]; [easy|]. intros [_ H]. now apply IH. Qed.
Lemma stable_loop t nu : forall P Q, stable t nu (P ++ Q) -> prune_loop t nu (length P) (P ++ Q) = Some (P ++ Q).
Proof.
  induction P as [|c P IH] using rev_ind; intros Q ST; [reflexivity|]. rewrite app_length. cbn [length]. rewrite Nat.add_1_r, <- app_assoc in *. cbn [app prune_loop] in *. change (Z.of_nat (length P)) with (len P). rewrite prune_channel_app.
  destruct (stable_suffix _ _ _ _ ST) as [(U & S & L) _]. rewrite (prune_alone t nu (c :: Q) c Q); [|now rewrite U|exact S]. rewrite L. now apply IH.
Qed.

(** ** The search for a channel to sum with *)
Lemma mtype_eqb_true a b : mtype_eqb a b = true -> a = b.
Proof. destruct a, b; cbn; try discriminate; reflexivity. Qed.
Lemma mtype_eqb_false a b : translates b -> mtype_eqb a b = false -> a <> b.
Proof. intros [-> |[-> | ->]] H ->; discriminate H. Qed.
Lemma summable_index op : forall l i j, 0 <= i -> 0 <= j -> summable_loop op l i = -1 -> summable_loop op l j = -1.
Proof.
  induction l as [|y l IH]; intros i j I J; cbn [summable_loop]; [easy|]. destruct (mtype_eqb (ch_op y) op); [lia|]. destruct (rotate_kind op); [easy|]. destruct (translate_kind op && _); [easy|]. destruct (scale_kind op && _); [easy|]. apply IH; lia.
Qed.
Lemma trans_kinds op : translates op -> rotate_kind op = false /\ translate_kind op = true /\ scale_kind op = false.
Proof. intros [-> |[-> | ->]]; repeat split. Qed.
(** Searching on past a translation. *)
Lemma summable_trans op y l i : 0 <= i -> translates op -> translates (ch_op y) -> (summable_loop op (y :: l) i = -1 <-> ch_op y <> op /\ summable_loop op l i = -1).
Proof.
  intros I T Y. cbn [summable_loop]. destruct (trans_kinds _ T) as (-> & -> & ->). destruct (trans_kinds _ Y) as (_ & -> & _). cbn [andb negb]. destruct (mtype_eqb (ch_op y) op) eqn:E.
  - apply mtype_eqb_true in E. split; [lia|]. intros [N _]. contradiction.
  - apply (mtype_eqb_false _ _ T) in E. split; [intros H; split; [exact E|]|intros [_ H]]; (eapply summable_index; [| |exact H]; lia).
Qed.
(** Past a translation, from a channel that is no translation. *)
Lemma summable_stops op y l i : 0 <= i -> rotates op \/ scales op -> translates (ch_op y) -> summable_loop op (y :: l) i = -1.
Proof.
  intros I O Y. cbn [summable_loop]. destruct (mtype_eqb (ch_op y) op) eqn:E.
  - exfalso. apply mtype_eqb_true in E. rewrite E in Y. destruct O as [[-> |[-> | ->]]|[[-> |[-> | ->]]| ->]], Y as [Y|[Y|Y]]; discriminate Y.
  - destruct O as [[-> |[-> | ->]]|[[-> |[-> | ->]]| ->]], Y as [-> |[-> | ->]]; reflexivity.
Qed.
Lemma no_triple t c Q : translates (ch_op c) \/ rotates (ch_op c) -> uniform_scale_channels t (c :: Q) 0 = false.
Proof.
  intros H. unfold uniform_scale_channels. change (getz (c :: Q) 0) with (Some c). cbv beta iota. destruct (getz _ (0 + 1)) as [c1|]; [|reflexivity]. destruct (getz _ (0 + 2)) as [c2|]; [|reflexivity].
  assert (E : scale_xyz (ch_op c) (ch_op c1) (ch_op c2) = false) by (destruct H as [[-> |[-> | ->]]|[-> |[-> | ->]]], (ch_op c1), (ch_op c2); reflexivity). now rewrite E.
Qed.

(** ** Swapping translations *)
Lemma swap_search op c y B i : 0 <= i -> translates (ch_op c) -> translates (ch_op y) -> rotates op \/ translates op \/ scales op -> summable_loop op (c :: y :: B) i = -1 -> summable_loop op (y :: c :: B) i = -1.
Proof.
  intros I C Y O H. destruct O as [O|[O|O]]; [apply summable_stops; auto| |apply summable_stops; auto]. rewrite !summable_trans in * by auto. tauto.
Qed.
Lemma swap_search_in op c y B : translates (ch_op c) -> translates (ch_op y) -> rotates op \/ translates op \/ scales op -> forall A i, 0 <= i -> summable_loop op (A ++ c :: y :: B) i = -1 -> summable_loop op (A ++ y :: c :: B) i = -1.
Proof.
  intros C Y O. induction A as [|a A IH]; intros i I; cbn [app]; [now apply swap_search|]. cbn [summable_loop]. destruct (mtype_eqb (ch_op a) op); [easy|]. destruct (rotate_kind op); [easy|]. destruct (translate_kind op && _); [easy|]. destruct (scale_kind op && _); [easy|]. apply IH. lia.
Qed.
Lemma xyz_translate a b c : translates a \/ translates b \/ translates c -> scale_xyz a b c = false.
Proof. intros [[-> |[-> | ->]]|[[-> |[-> | ->]]|[-> |[-> | ->]]]]; [destruct b, c|destruct b, c|destruct b, c|destruct a, c|destruct a, c|destruct a, c|destruct a, b|destruct a, b|destruct a, b]; reflexivity. Qed.
Definition triple (t : tolerances) (l : list channel) : bool :=
  match l with
  | c0 :: c1 :: c2 :: _ => scale_xyz (ch_op c0) (ch_op c1) (ch_op c2) && (len (ch_nodes c0) =? len (ch_nodes c1)) && (len (ch_nodes c0) =? len (ch_nodes c2)) && nodes_match (tl_scale t) (tl_angle t) (ch_nodes c0) (ch_nodes c1) (ch_nodes c2)
  | _ => false
  end.
Lemma triple_eq t l : uniform_scale_channels t l 0 = triple t l.
Proof. destruct l as [|c0 [|c1 [|c2 r]]]; reflexivity. Qed.
Lemma triple_swap t a c y B : translates (ch_op c) -> translates (ch_op y) -> forall A, triple t (a :: A ++ c :: y :: B) = triple t (a :: A ++ y :: c :: B).
Proof.
  intros C Y [|a1 [|a2 A]]; cbn [app triple]; [| |reflexivity]; rewrite !xyz_translate by tauto; reflexivity.
Qed.
Definition placed (op : mtype) : Prop := rotates op \/ translates op \/ scales op.
Lemma swap_stable t nu c y B : translates (ch_op c) -> translates (ch_op y) -> forall A, (forall a, In a A -> placed (ch_op a)) -> stable t nu (A ++ c :: y :: B) -> stable t nu (A ++ y :: c :: B).
Proof.
  intros C Y. induction A as [|a A IH]; intros PL; cbn [app stable].
  - intros [(U & S & L) [(U' & S' & L') ST]]. unfold settled. rewrite !no_triple by auto. rewrite andb_false_r. apply (summable_trans (ch_op c) y B 1) in S; [|lia|exact C|exact Y]. destruct S as [N S]. repeat split; auto. apply summable_trans; [lia|exact Y|exact C|]. split; [congruence|exact S'].
  - intros [(U & S & L) ST]. split; [|apply IH; [intros b Ib; apply PL; now right|exact ST]]. split; [|split; [|exact L]].
    + rewrite triple_eq in *. rewrite <- triple_swap by assumption. exact U.
    + apply swap_search_in; auto; [|lia]. apply PL. now left.
Qed.

(** ** Sorting *)
Lemma insert_stable t nu c : placed (ch_op c) -> forall l A, (forall a, In a A -> placed (ch_op a)) -> (forall y, In y l -> placed (ch_op y) /\ by_id c y) -> stable t nu (A ++ c :: l) -> stable t nu (A ++ insert_channel c l).
Proof.
  intros PC. induction l as [|y l IH]; intros A PA H ST; cbn [insert_channel]; [exact ST|]. destruct (Z.leb_spec (ch_id c) (ch_id y)) as [_|LT]; [exact ST|]. destruct (H y (or_introl eq_refl)) as [PY [[C Y]|[LT' _]]]; [|lia].
  change (y :: insert_channel c l) with ([y] ++ insert_channel c l). rewrite app_assoc. apply IH.
  - intros a Ia. apply in_app_or in Ia. destruct Ia as [Ia|[<-|[]]]; [now apply PA|exact PY].
  - intros z Iz. apply H. now right.
  - rewrite <- app_assoc. cbn [app]. now apply swap_stable.
Qed.
Lemma sort_in : forall l c, In c (sort_channels l) <-> In c l.
Proof. induction l as [|a l IH]; intros c; [tauto|]. cbn [sort_channels fold_right]. fold (sort_channels l). rewrite insert_in, IH. cbn [In]. split; intros [E|E]; auto. Qed.
Lemma sort_stable t nu : forall l A, (forall a, In a A -> placed (ch_op a)) -> (forall y, In y l -> placed (ch_op y)) -> ForallOrdPairs by_id l -> stable t nu (A ++ l) -> stable t nu (A ++ sort_channels l).
Proof.
  induction l as [|c l IH]; intros A PA PL OR ST; [exact ST|]. inversion OR as [|? ? F OR']; subst. rewrite Forall_forall in F. cbn [sort_channels fold_right]. fold (sort_channels l). apply insert_stable.
  - apply PL. now left.
  - exact PA.
  - intros y Iy. apply (proj1 (sort_in _ _)) in Iy. split; [apply PL; now right|now apply F].
  - change (A ++ c :: sort_channels l) with (A ++ [c] ++ sort_channels l). rewrite app_assoc. apply IH; [|intros y Iy; apply PL; now right|exact OR'|now rewrite <- app_assoc].
    intros a Ia. apply in_app_or in Ia. destruct Ia as [Ia|[<-|[]]]; [now apply PA|apply PL; now left].
Qed.
Lemma sort_sorted : forall l, Sorted (fun c d => ch_id c <= ch_id d) (sort_channels l).
Proof.
  assert (IN : forall c l, Sorted (fun c d => ch_id c <= ch_id d) l -> Sorted (fun c d => ch_id c <= ch_id d) (insert_channel c l)).
  { intros c. induction 1 as [|a l S IH HD]; cbn [insert_channel]; [repeat constructor|]. destruct (Z.leb_spec (ch_id c) (ch_id a)) as [LE|LT]; [repeat constructor; auto|]. constructor; [exact IH|]. inversion HD as [|? ? LE]; subst; cbn [insert_channel]; [constructor; lia|]. destruct (ch_id c <=? ch_id b); constructor; lia. }
  induction l as [|a l IH]; [constructor|]. cbn [sort_channels fold_right]. now apply IN.
Qed.
Lemma sorted_sort : forall l, Sorted (fun c d => ch_id c <= ch_id d) l -> sort_channels l = l.
Proof.
  induction 1 as [|a l S IH HD]; [reflexivity|]. cbn [sort_channels fold_right]. fold (sort_channels l). rewrite IH. inversion HD as [|? ? LE]; subst; [reflexivity|]. cbn [insert_channel]. destruct (Z.leb_spec (ch_id a) (ch_id b)); [reflexivity|lia].
Qed.

(** ** One step of the loop *)
Lemma pairs_suffix {A} (P : A -> A -> Prop) (B : list A) : forall X, ForallOrdPairs P (X ++ B) -> ForallOrdPairs P B.
Proof. induction X as [|a X IH]; cbn [app]; intros H; [exact H|]. inversion H; subst. now apply IH. Qed.
Lemma regular_remove P d Q : regular (P ++ d :: Q) -> regular (P ++ Q).
Proof.
  intros [O PR ID]. assert (I : forall c, In c (P ++ Q) -> In c (P ++ d :: Q)) by (intros c Ic; apply in_app_or in Ic; apply in_or_app; destruct Ic; [now left|right; now right]).
  constructor; [intros c Ic; now apply O, I|now apply pairs_remove in PR|intros c Ic; now apply ID, I].
Qed.
(** Replacing a channel by another one of the same operation and id. *)
Lemma pairs_replace (R0 : channel -> channel -> Prop) c c' Q : (forall a, R0 a c -> R0 a c') -> (forall a, R0 c a -> R0 c' a) -> forall P, ForallOrdPairs R0 (P ++ c :: Q) -> ForallOrdPairs R0 (P ++ c' :: Q).
Proof.
  intros H1 H2. induction P as [|a P IH]; cbn [app]; intros H; inversion H as [|? ? F H']; subst; rewrite Forall_forall in F.
  - constructor; [|exact H']. rewrite Forall_forall. intros y Y. now apply H2, F.
  - constructor; [|now apply IH]. rewrite Forall_forall. intros y Y. apply in_app_or in Y. destruct Y as [Y|[<-|Y]]; [apply F, in_or_app; now left|apply H1, F, in_elt|apply F, in_or_app; right; now right].
Qed.
Lemma regular_same P c n Q : regular (P ++ c :: Q) -> regular (P ++ Channel (ch_op c) (ch_id c) n :: Q).
Proof.
  intros [O PR ID]. assert (I : forall d, In d (P ++ Channel (ch_op c) (ch_id c) n :: Q) -> exists e, In e (P ++ c :: Q) /\ ch_op d = ch_op e /\ ch_id d = ch_id e).
  { intros d Id. apply in_app_or in Id. destruct Id as [Id|[<-|Id]]; [exists d|exists c|exists d]; (split; [|easy]); [apply in_or_app; now left|apply in_elt|apply in_or_app; right; now right]. }
  constructor.
  - intros d Id. destruct (I d Id) as (e & Ie & -> & _). now apply O.
  - revert PR. apply pairs_replace; intros a Ha; exact Ha.
  - intros d Id. destruct (I d Id) as (e & Ie & -> & ->). now apply ID.
Qed.
Lemma search_removed op : translates op -> forall Q1 d Q2 i, 0 <= i -> (forall y, In y Q1 -> translates (ch_op y)) -> translates (ch_op d) -> summable_loop op (Q1 ++ d :: Q2) i = -1 -> summable_loop op (Q1 ++ Q2) i = -1.
Proof.
  intros T. induction Q1 as [|y Q1 IH]; intros d Q2 i I H D; cbn [app].
  - intros E. apply summable_trans in E; [tauto|lia|exact T|exact D].
  - assert (Y : translates (ch_op y)) by (apply H; now left). rewrite !summable_trans by auto. intros [N E]. split; [exact N|]. apply (IH d); auto. intros z Iz. apply H. now right.
Qed.
Lemma stable_removed t nu d Q2 : translates (ch_op d) -> forall Q1, (forall y, In y Q1 -> translates (ch_op y)) -> stable t nu (Q1 ++ d :: Q2) -> stable t nu (Q1 ++ Q2).
Proof.
  intros D. induction Q1 as [|y Q1 IH]; intros H; cbn [app stable]; [tauto|]. intros [(U & S & L) ST]. assert (Y : translates (ch_op y)) by (apply H; now left). split; [|apply IH; auto; intros z Iz; apply H; now right].
  unfold settled. rewrite no_triple by auto. rewrite andb_false_r. repeat split; auto. apply (search_removed _ Y Q1 d); auto; [lia|]. intros z Iz. apply H. now right.
Qed.
Lemma xyz_all a b c : scale_xyz a b c = true -> (axis_scale a /\ axis_scale b /\ axis_scale c) /\ forall k, axis_scale k -> k = a \/ k = b \/ k = c.
Proof. unfold axis_scale. destruct a, b, c; intros H; try discriminate H; (split; [tauto|]); intros k [-> |[-> | ->]]; tauto. Qed.
Lemma scale_kinds op : scales op -> rotate_kind op = false /\ translate_kind op = false /\ scale_kind op = true.
Proof. intros [[-> |[-> | ->]]| ->]; repeat split. Qed.
Lemma not_translates op : axis_scale op -> ~ translates op.
Proof. intros [-> |[-> | ->]] [H|[H|H]]; discriminate H. Qed.
Lemma pairs_app {A} (P : A -> A -> Prop) : forall X Y, ForallOrdPairs P (X ++ Y) <-> ForallOrdPairs P X /\ ForallOrdPairs P Y /\ forall a b, In a X -> In b Y -> P a b.
Proof.
  induction X as [|x X IH]; intros Y; cbn [app].
  - split; [intros H; repeat split; [constructor|exact H|intros a b []]|tauto].
  - split.
    + intros H. inversion H as [|? ? F H']; subst. apply IH in H'. destruct H' as (H1 & H2 & H3). rewrite Forall_forall in F. split; [constructor; [|exact H1]; rewrite Forall_forall; intros y Iy; apply F, in_or_app; now left|]. split; [exact H2|]. intros a b [<-|Ia] Ib; [apply F, in_or_app; now right|now apply H3].
    + intros (H1 & H2 & H3). inversion H1 as [|? ? F H']; subst. rewrite Forall_forall in F. constructor; [|apply IH; split; [exact H'|split; [exact H2|]]; intros a b Ia Ib; apply H3; [now right|exact Ib]].
      rewrite Forall_forall. intros y Iy. apply in_app_or in Iy. destruct Iy as [Iy|Iy]; [now apply F|apply H3; [now left|exact Iy]].
Qed.
Lemma collapse_regular t P c Q : regular (P ++ c :: Q) -> uniform_scale_channels t (c :: Q) 0 = true ->
  exists c1 c2 Q' c', Q = c1 :: c2 :: Q' /\ collapse_scale (c :: Q) 0 = Some (c' :: Q') /\ ch_op c' = ScaleUniformly /\ regular (P ++ c' :: Q').
Proof.
  intros [O PR ID] U. rewrite triple_eq in U. destruct Q as [|c1 [|c2 Q']]; try discriminate U. cbn [triple] in U. rewrite !andb_true_iff in U. destruct U as [[[U _] _] _]. destruct (xyz_all _ _ _ U) as ((A0 & A1 & A2) & AL).
  assert (I0 : In c (P ++ c :: c1 :: c2 :: Q')) by apply in_elt. pose proof (ID c I0 (or_introl A0)) as B.
  set (c' := Channel ScaleUniformly ((ch_id c + to_uniform (ch_op c)) mod 256) (ch_nodes c)). exists c1, c2, Q', c'. split; [reflexivity|]. split; [reflexivity|]. split; [reflexivity|].
  assert (R0 : to_uniform (ch_op c) = room (ch_op c)) by reflexivity. assert (RN : 0 <= room (ch_op c)) by (destruct (ch_op c); cbn; lia). assert (IC : ch_id c' = ch_id c + room (ch_op c)) by (cbn [ch_id c']; rewrite R0; apply Z.mod_small; lia).
  apply pairs_app in PR. destruct PR as (PP & PQ & PC). inversion PQ as [|? ? F0 PQ1]; subst. inversion PQ1 as [|? ? F1 PQ2]; subst. inversion PQ2 as [|? ? F2 PQ3]; subst. rewrite Forall_forall in F0, F1, F2.
  assert (NP : forall p, In p P -> ~ scales (ch_op p)).
  { intros p Ip S. destruct (PC p c Ip (or_introl eq_refl)) as [_ H0]. destruct (PC p c1 Ip (or_intror (or_introl eq_refl))) as [_ H1]. destruct (PC p c2 Ip (or_intror (or_intror (or_introl eq_refl)))) as [_ H2].
    destruct (H0 S (or_introl A0)) as (AP & _ & N0). destruct (H1 S (or_introl A1)) as (_ & _ & N1). destruct (H2 S (or_introl A2)) as (_ & _ & N2). destruct (AL _ AP) as [E|[E|E]]; contradiction. }
  assert (ND : forall d, In d Q' -> ~ scales (ch_op d)).
  { intros d Id S. destruct (F0 d (or_intror (or_intror Id))) as [_ H0]. destruct (F1 d (or_intror Id)) as [_ H1]. destruct (F2 d Id) as [_ H2].
    destruct (H0 (or_introl A0) S) as (_ & AP & N0). destruct (H1 (or_introl A1) S) as (_ & _ & N1). destruct (H2 (or_introl A2) S) as (_ & _ & N2). destruct (AL _ AP) as [E|[E|E]]; symmetry in E; contradiction. }
  constructor.
  - intros d Id. apply in_app_or in Id. destruct Id as [Id|[<-|Id]]; [apply O, in_or_app; now left|right; right; now right|apply O, in_or_app; right; now right; right; right].
  - apply pairs_app. split; [exact PP|]. split.
    + constructor; [|exact PQ3]. rewrite Forall_forall. intros d Id. split; [|intros _ S; now destruct (ND d Id)]. destruct (F0 d (or_intror (or_intror Id))) as [[[T _]|[L [A|R1]]] _]; [now destruct (not_translates _ A0)|destruct (ND d Id); now left|]. right. split; [lia|]. right. cbn [ch_op c' room]. lia.
    + intros p d Ip [<-|Id]; [|apply PC; [exact Ip|now right; right; right]]. split; [|intros S; now destruct (NP p Ip)]. destruct (PC p c Ip (or_introl eq_refl)) as [[[_ T]|[L _]] _]; [now destruct (not_translates _ A0)|]. right. split; [lia|]. right. assert (room (ch_op p) = 0); [|lia].
      pose proof (NP p Ip) as N. destruct (ch_op p); try reflexivity; destruct N; left; unfold axis_scale; tauto.
  - intros d Id S. apply in_app_or in Id. destruct Id as [Id|[<-|Id]]; [now destruct (NP d Id)|cbn [ch_op c' room]; lia|now destruct (ND d Id)].
Qed.
Lemma step_stable t nu P c Q R0 : regular (P ++ c :: Q) -> stable t nu Q -> prune_channel t nu (c :: Q) 0 = Some R0 -> regular (P ++ R0) /\ stable t nu R0.
Proof.
  intros RG ST E.
  assert (G : exists c' Q', (if negb nu && uniform_scale_channels t (c :: Q) 0 then collapse_scale (c :: Q) 0 else Some (c :: Q)) = Some (c' :: Q') /\ regular (P ++ c' :: Q') /\ stable t nu Q' /\ negb nu && uniform_scale_channels t (c' :: Q') 0 = false).
  { destruct (negb nu && uniform_scale_channels t (c :: Q) 0) eqn:U; [|exists c, Q; auto]. apply andb_true_iff in U. destruct U as [_ U]. destruct (collapse_regular _ _ _ _ RG U) as (c1 & c2 & Q' & c' & -> & CE & OP & RG'). exists c', Q'. split; [exact CE|]. split; [exact RG'|]. destruct ST as [_ [_ ST]]. split; [exact ST|].
    rewrite triple_eq. destruct Q' as [|d [|e Q']]; cbn [triple]; rewrite ?andb_false_r; try reflexivity. rewrite OP. replace (scale_xyz ScaleUniformly (ch_op d) (ch_op e)) with false by (destruct (ch_op d), (ch_op e); reflexivity). now rewrite !andb_false_l, andb_false_r. }
  clear ST. destruct G as (c' & Q' & CE & RG' & ST & U).
  assert (ALONE : summable_loop (ch_op c') Q' 1 = -1 -> regular (P ++ R0) /\ stable t nu R0).
  { intros S. rewrite (prune_alone _ _ _ _ _ CE S) in E. injection E as <-. destruct (left_out t c') eqn:L; [split; [now apply regular_remove in RG'|exact ST]|]. split; [exact RG'|]. split; [|exact ST]. repeat split; auto. }
  destruct (r_ops _ RG' c' (in_elt _ _ _)) as [O|[O|O]].
  - destruct (summable_some (ch_op c') Q' 1 ltac:(lia) (or_introl O)) as [S|(Q1 & d & Q2 & -> & S & D & [[_ ->]|[T _]])]; [now apply ALONE| |destruct O as [O|[O|O]]; rewrite O in T; destruct T as [T|[T|T]]; discriminate T].
    destruct (sum_nodes (ch_nodes c') (ch_nodes d)) as [s|] eqn:SN.
    + rewrite (prune_sum _ _ _ _ _ _ _ _ CE S SN) in E. cbn [app] in *. destruct ST as [(_ & SD & _) ST]. injection E as <-. assert (RR : regular (P ++ c' :: Q2)) by (change (P ++ c' :: Q2) with (P ++ [c'] ++ Q2); rewrite app_assoc; apply (regular_remove _ d); rewrite <- app_assoc; exact RG').
      destruct (left_out t _) eqn:L; [split; [now apply regular_remove in RR|exact ST]|]. split; [now apply regular_same|]. split; [|exact ST]. cbn [ch_op]. split; [rewrite no_triple by (right; exact O); apply andb_false_r|]. split; [cbn [ch_op]; now rewrite <- D|exact L].
    + exfalso. unfold prune_channel in E. rewrite CE in E. unfold summable_channel in E. change (getz (c' :: [] ++ d :: Q2) 0) with (Some c') in E. change (skipn (Z.to_nat (0 + 1)) (c' :: [] ++ d :: Q2)) with ([] ++ d :: Q2) in E. cbv beta iota in E. change (0 + 1) with 1 in E. rewrite S in E. change (1 + len (@nil channel)) with 1 in E. cbn [Z.leb Z.compare app] in E. unfold sum_channels in E. change (getz (c' :: d :: Q2) 0) with (Some c') in E. change (getz (c' :: d :: Q2) 1) with (Some d) in E. cbv beta iota in E. rewrite SN in E. discriminate E.
  - destruct (summable_some (ch_op c') Q' 1 ltac:(lia) (or_intror O)) as [S|(Q1 & d & Q2 & -> & S & D & [[T _]|[_ TQ]])]; [now apply ALONE|destruct O as [O|[O|O]]; rewrite O in T; destruct T as [T|[T|T]]; discriminate T|].
    assert (TD : translates (ch_op d)) by (now rewrite D). destruct (sum_nodes (ch_nodes c') (ch_nodes d)) as [s|] eqn:SN.
    + rewrite (prune_sum _ _ _ _ _ _ _ _ CE S SN) in E. pose proof (stable_removed t nu d Q2 TD Q1 TQ ST) as ST'. injection E as <-. assert (RR : regular (P ++ c' :: Q1 ++ Q2)) by (change (P ++ c' :: Q1 ++ Q2) with (P ++ (c' :: Q1) ++ Q2); rewrite app_assoc; apply (regular_remove _ d); rewrite <- app_assoc; exact RG').
      destruct (left_out t _) eqn:L; [split; [now apply regular_remove in RR|exact ST']|]. split; [now apply regular_same|]. split; [|exact ST']. split; [rewrite no_triple by (left; exact O); apply andb_false_r|]. split; [|exact L]. cbn [ch_op].
      pose proof (stable_suffix _ _ _ _ ST) as [(_ & SD & _) _]. rewrite D in SD.
      assert (NQ : forall y, In y Q1 -> ch_op y <> ch_op c').
      { intros y Iy. rewrite <- D. clear - Iy ST TQ TD D O. induction Q1 as [|z Q1 IH]; [destruct Iy|]. destruct ST as [(_ & SZ & _) ST]. destruct Iy as [<-|Iy]; [|apply IH; auto; intros w Iw; apply TQ; now right]. assert (TZ : translates (ch_op z)) by (apply TQ; now left). assert (TQ' : forall y, In y Q1 -> translates (ch_op y)) by (intros w Iw; apply TQ; now right). clear - SZ TZ TQ' TD. revert SZ. cbn [app].
        intros SZ. induction Q1 as [|w Q1 IH]; cbn [app] in SZ; apply summable_trans in SZ; try lia; auto; [intros EQ; destruct SZ as [N _]; congruence| |apply TQ'; now left]. apply IH; [intros v Iv; apply TQ'; now right|tauto]. }
      clear - SD NQ TQ O. induction Q1 as [|y Q1 IH]; cbn [app]; [exact SD|]. apply summable_trans; [lia|exact O|apply TQ; now left|]. split; [apply NQ; now left|]. apply IH; intros z Iz; [apply TQ|apply NQ]; now right.
    + exfalso. unfold prune_channel in E. rewrite CE in E. unfold summable_channel in E. change (getz (c' :: Q1 ++ d :: Q2) 0) with (Some c') in E. change (skipn (Z.to_nat (0 + 1)) (c' :: Q1 ++ d :: Q2)) with (Q1 ++ d :: Q2) in E. cbv beta iota in E. change (0 + 1) with 1 in E. rewrite S in E. pose proof (len_nonneg Q1). destruct (Z.leb_spec 0 (1 + len Q1)) as [_|]; [|lia]. unfold sum_channels in E. change (getz (c' :: Q1 ++ d :: Q2) 0) with (Some c') in E. cbv beta iota in E.
      assert (GD : getz (c' :: Q1 ++ d :: Q2) (1 + len Q1) = Some d) by (apply (getz_app (c' :: Q1) d Q2); rewrite len_cons; lia). rewrite GD, SN in E. discriminate E.
  - apply ALONE. apply summable_none. intros y Iy EQ. pose proof (r_pairs _ RG') as PR. destruct (pairs_mid _ _ _ _ PR) as (_ & F & _). destruct (F y Iy) as [_ H]. destruct (H O ltac:(now rewrite EQ)) as (_ & _ & N). congruence.
Qed.
Lemma loop_stable t nu : forall P Q L, regular (P ++ Q) -> stable t nu Q -> prune_loop t nu (length P) (P ++ Q) = Some L -> regular L /\ stable t nu L.
Proof.
  induction P as [|c P IH] using rev_ind; intros Q L RG ST E; [cbn in *; injection E as <-; auto|]. rewrite app_length in E. cbn [length] in E. rewrite Nat.add_1_r, <- app_assoc in *. cbn [app prune_loop] in *. change (Z.of_nat (length P)) with (len P) in E. rewrite prune_channel_app in E.
  destruct (prune_channel t nu (c :: Q) 0) as [R0|] eqn:PE; [|discriminate E]. destruct (step_stable _ _ _ _ _ _ RG ST PE) as [RG' ST']. now apply (IH R0).
Qed.
(** Pruning a bone twice gives what pruning it once gives. *)
Theorem C103_prune_again : forall t nu b b', regular (bn_channels b) -> prune_bone t nu b = Some b' -> prune_bone t nu b' = Some b'.
Proof.
  intros t nu b b' RG E. unfold prune_bone in E. destruct (prune_loop t nu _ _) as [L|] eqn:PL; [|discriminate E]. injection E as <-. destruct (loop_stable t nu (bn_channels b) [] L) as [RL SL]; [now rewrite app_nil_r|exact I|now rewrite app_nil_r|].
  assert (SS : stable t nu (sort_channels L)).
  { apply (sort_stable t nu L []); [intros a []|exact (r_ops _ RL)| |exact SL]. pose proof (r_pairs _ RL) as PR. clear - PR. induction PR as [|a l F PR IH]; constructor; [|exact IH]. rewrite Forall_forall in *. intros y Iy. now apply F. }
  unfold prune_bone. cbn [bn_channels bn_name bn_parent]. pose proof (stable_loop t nu (sort_channels L) []) as SL'. rewrite app_nil_r in SL'. rewrite (SL' SS). cbv beta iota. now rewrite (sorted_sort _ (sort_sorted L)).
Qed.
Print Assumptions C103_prune_again.
