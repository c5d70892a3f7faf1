(** The transform of an FBX node (C95). *)
From Verif Require Import RBase BaseFacts MathfuModel CurveModel MatrixModel MatrixProps RigModel AnimDataModel AnimSpec AnimCurveProps AnimChannelsModel AnimSumProps AnimChannelsProps FbxModel.
From Coq Require Import Sorting.Sorted.
Local Open Scope Z_scope.

(** ** The specification *)
(** The parts of the FBX transform, in the order of the product; [true] for an inverse. *)
Definition formula : list (fbx_name * bool) :=
  [(LclTranslation, false); (RotationOffset, false); (RotationPivot, false); (PreRotation, false); (LclRotation, false); (PostRotation, true);
   (RotationPivot, true); (ScalingOffset, false); (ScalingPivot, false); (LclScaling, false); (ScalingPivot, true)].
(** The elementary operation of a property along an axis (0, 1, 2 for x, y, z). *)
Definition operation (n : fbx_name) (axis : Z) : mtype :=
  match n, axis with
  | (PreRotation | LclRotation | PostRotation), 0 => RotateX | (PreRotation | LclRotation | PostRotation), 1 => RotateY | (PreRotation | LclRotation | PostRotation), _ => RotateZ
  | LclScaling, 0 => ScaleX | LclScaling, 1 => ScaleY | LclScaling, _ => ScaleZ
  | _, 0 => TranslateX | _, 1 => TranslateY | _, _ => TranslateZ
  end.
(** Angles are in degrees; the inverse of a turn or a move is by the negated value. *)
Definition amount (n : fbx_name) (inverse : bool) (v : R) : R :=
  let u := match n with PreRotation | LclRotation | PostRotation => (v * (PI / 180))%R | _ => v end in if inverse then (- u)%R else u.
(** The matrices of an angle about an axis, and of three of them: with order XYZ the turn about
    x comes first, so it is the rightmost factor. *)
Definition about (axis : Z) (v : Z -> R) : mat4 := elem (operation LclRotation axis) (v axis).
Definition turn (order : Z) (v : Z -> R) : mat4 :=
  match order with
  | 1 => product [about 1 v; about 2 v; about 0 v] (* XZY *)
  | 2 => product [about 0 v; about 2 v; about 1 v] (* YZX *)
  | 3 => product [about 2 v; about 0 v; about 1 v] (* YXZ *)
  | 4 => product [about 1 v; about 0 v; about 2 v] (* ZXY *)
  | 5 => product [about 0 v; about 1 v; about 2 v] (* ZYX *)
  | _ => product [about 2 v; about 1 v; about 0 v] (* XYZ, SphericXYZ *)
  end.
(** The inverse of a turn by the negated angles: the factors in the opposite order. *)
Definition turn_back (order : Z) (v : Z -> R) : mat4 :=
  match order with
  | 1 => product [about 0 v; about 2 v; about 1 v]
  | 2 => product [about 1 v; about 2 v; about 0 v]
  | 3 => product [about 1 v; about 0 v; about 2 v]
  | 4 => product [about 2 v; about 0 v; about 1 v]
  | 5 => product [about 2 v; about 1 v; about 0 v]
  | _ => product [about 0 v; about 1 v; about 2 v]
  end.
Definition move (v : Z -> R) : mat4 := rows 1 0 0 (v 0) 0 1 0 (v 1) 0 0 1 (v 2) 0 0 0 1.
Definition stretch (v : Z -> R) : mat4 := rows (v 0) 0 0 0 0 (v 1) 0 0 0 0 (v 2) 0 0 0 0 1.
(** T * Roff * Rp * Rpre * R * Rpost_inv * Rp_inv * Soff * Sp * S * Sp_inv, where [w i] are the
    amounts of part [i] of [formula]. *)
Definition fbx_matrix (order : Z) (w : Z -> Z -> R) : mat4 :=
  product [move (w 0); move (w 1); move (w 2); turn order (w 3); turn order (w 4); turn_back order (w 5); move (w 6); move (w 7); move (w 8); stretch (w 9); move (w 10)].

Lemma elem_turn op v : rotates op -> mmul (elem op v) (elem op (- v)) = identity4.
Proof. intros H. rewrite elem_add by (now left). rewrite Rplus_opp_r. pose proof (elem_default op) as D. replace (default_op_value op) with 0%R in D by (destruct H as [-> | [-> | ->]]; reflexivity). apply D. now left. Qed.
(** Turning back undoes a turn, for every order. *)
Theorem C95_turn_back : forall order v, mmul (turn order v) (turn_back order (fun a => - v a)%R) = identity4.
Proof.
  intros order v. assert (H : forall a, mmul (about a v) (about a (fun a => - v a)%R) = identity4).
  { intros a. unfold about. apply elem_turn. unfold operation, rotates. destruct a as [|[?|?|]|?]; auto. }
  assert (K : forall a b c, mmul (product [about a v; about b v; about c v]) (product [about c (fun a => - v a)%R; about b (fun a => - v a)%R; about a (fun a => - v a)%R]) = identity4).
  { intros a b c. cbn [product fold_right]. rewrite !mmul_1_r, !mmul_assoc. rewrite <- (mmul_assoc (about c v)), H, mmul_1_l. rewrite <- (mmul_assoc (about b v)), H, mmul_1_l. apply H. }
  unfold turn, turn_back. destruct order as [|p|p]; try apply K. destruct p as [[[?|?|]|[?|?|]|]|[[?|?|]|[?|?|]|]|]; apply K.
Qed.
Print Assumptions C95_turn_back.

(** ** The channels that are gathered *)
Lemma setz_setz {A} (l : list A) i x l' y : setz l i x = Some l' -> setz l' i y = setz l i y.
Proof. intros H. destruct (setz_split _ _ _ _ H) as (X & z & Y & E1 & E2 & E3). subst l l'. now rewrite !setz_app by (now symmetry). Qed.
Lemma set_cur_facts d0 chs d : set_cur_channels d0 chs = Some d ->
  cur_channels d = Some chs /\ ad_tol d = ad_tol d0 /\ ad_cur d = ad_cur d0 /\ (forall l, set_cur_channels d l = set_cur_channels d0 l).
Proof.
  unfold set_cur_channels, cur_channels. intros H. destruct (getz (ad_bones d0) (ad_cur d0)) as [b|] eqn:B; [|discriminate].
  destruct (setz (ad_bones d0) (ad_cur d0) (Bone (bn_name b) (bn_parent b) chs)) as [bs|] eqn:S1; [|discriminate]. injection H as <-. cbn [with_bones ad_bones ad_cur ad_tol].
  rewrite (getz_setz_eq _ _ _ _ S1). repeat split; try reflexivity. intros l. cbn [bn_name bn_parent ad_bones ad_tol ad_root_only]. rewrite (setz_setz _ _ _ _ _ S1). reflexivity.
Qed.
Lemma set_nodes_last d0 chs o id n d n' : set_cur_channels d0 (chs ++ [Channel o id n]) = Some d -> set_nodes d (len chs) n' = set_cur_channels d0 (chs ++ [Channel o id n']).
Proof.
  intros H. destruct (set_cur_facts _ _ _ H) as (C & _ & _ & SC). unfold set_nodes. rewrite C, getz_app by reflexivity. cbn [ch_op ch_id]. rewrite setz_app by reflexivity. apply SC.
Qed.
Lemma nodes_last d0 chs o id n d : set_cur_channels d0 (chs ++ [Channel o id n]) = Some d -> nodes_of d (len chs) = Some n /\ tolerance d (len chs) = Some (tolerance_for_op (ad_tol d0) o).
Proof. intros H. destruct (set_cur_facts _ _ _ H) as (C & T & _ & _). unfold nodes_of, tolerance. rewrite C, getz_app by reflexivity. cbn [ch_nodes ch_op]. now rewrite T. Qed.

(** The nodes that a curve leaves in a channel. *)
Fixpoint interval_nodes (ms : Z -> Z) (op : mtype) (invert : bool) (c : fbx_curve) (span : Z * Z) (tol : R) (keys : list fbx_key) (n : list snode) : option (list snode) :=
  match keys with
  | a :: ((b :: _) as rest) =>
      n' <- (if (snd span <? fk_time a) || (fk_time b <? fst span) then Some n
             else
               let t0 := Z.max (fst span) (fk_time a) in let t1 := Z.min (snd span) (fk_time b) in
               f0 <- flat_time ms t0 ;; f1 <- flat_time ms t1 ;; curve_nodes (sample_values op invert c t0 t1) (sample_derivatives op invert c t0 t1) 16 f0 f1 tol n) ;;
      interval_nodes ms op invert c span tol rest n'
  | _ => Some n
  end.
Lemma gather_intervals_eq ms op invert c span d0 chs o id : forall keys n d, set_cur_channels d0 (chs ++ [Channel o id n]) = Some d ->
  gather_intervals ms op invert c span (len chs) keys d = (n' <- interval_nodes ms op invert c span (tolerance_for_op (ad_tol d0) o) keys n ;; set_cur_channels d0 (chs ++ [Channel o id n'])).
Proof.
  induction keys as [|a [|b rest] IH]; intros n d H; [cbn; now rewrite H|cbn; now rewrite H|].
  cbn [gather_intervals interval_nodes]. destruct ((snd span <? fk_time a) || (fk_time b <? fst span)) eqn:E.
  - apply (IH n d H).
  - cbv zeta. destruct (flat_time ms (Z.max (fst span) (fk_time a))) as [f0|]; [|reflexivity]. destruct (flat_time ms (Z.min (snd span) (fk_time b))) as [f1|]; [|reflexivity].
    unfold add_curve. destruct (nodes_last _ _ _ _ _ _ H) as [N T]. rewrite N, T. destruct (curve_nodes _ _ _ _ _ _ _) as [n'|]; [|reflexivity].
    rewrite (set_nodes_last _ _ _ _ _ _ _ H). destruct (set_cur_channels d0 (chs ++ [Channel o id n'])) as [d'|] eqn:S'; [apply (IH n' d' S')|].
    exfalso. clear - H S'. unfold set_cur_channels in *. destruct (getz (ad_bones d0) (ad_cur d0)) as [x|] eqn:B; [|discriminate]. apply getz_Some in B. destruct (setz_Some (ad_bones d0) (ad_cur d0) (Bone (bn_name x) (bn_parent x) (chs ++ [Channel o id n'])) B) as [l L]. rewrite L in S'. discriminate.
Qed.
Definition curve_channel (ms : Z -> Z) (t : tolerances) (op : mtype) (invert : bool) (c : fbx_curve) (span : Z * Z) (o : mtype) : option (list snode) :=
  assert (1 <? len (fc_keys c)) ;; n <- interval_nodes ms op invert c span (tolerance_for_op t o) (fc_keys c) [] ;;
  n' <- pruned_nodes t (tolerance_for_op t o) n ;; assert (0 <? len n') ;; Some n'.
(** What a channel of a property adds: nothing, or a channel. *)
Definition added (ms : Z -> Z) (t : tolerances) (p : fbx_property) (op : mtype) (invert : bool) (span : Z * Z) (axis id : Z) : option (list channel) :=
  let o := op_plus op axis in
  let '(const, v) := anim_const p op invert axis (tolerance_for_op t o) (tl_angle t) in
  if const && is_default t o v then Some []
  else if const then Some [Channel o id [SNode 0 v 0]]
  else chs <- fp_anim p ;; fc <- getz chs axis ;; c <- fh_curve fc ;; n <- curve_channel ms t op invert c span o ;; Some [Channel o id n].
Lemma set_cur_total d0 chs d l : set_cur_channels d0 chs = Some d -> exists d', set_cur_channels d0 l = Some d'.
Proof.
  unfold set_cur_channels. intros H. destruct (getz (ad_bones d0) (ad_cur d0)) as [x|] eqn:B; [|discriminate]. apply getz_Some in B.
  destruct (setz_Some (ad_bones d0) (ad_cur d0) (Bone (bn_name x) (bn_parent x) l) B) as [m M]. rewrite M. eauto.
Qed.
Lemma gather_channel_eq ms p op invert span d0 chs axis id d : set_cur_channels d0 chs = Some d ->
  gather_channel ms p op invert span axis id d = (l <- added ms (ad_tol d0) p op invert span axis id ;; set_cur_channels d0 (chs ++ l)).
Proof.
  intros H. destruct (set_cur_facts _ _ _ H) as (C & T & _ & SC). unfold gather_channel, added. rewrite T. cbv zeta. set (o := op_plus op axis).
  destruct (anim_const p op invert axis (tolerance_for_op (ad_tol d0) o) (tl_angle (ad_tol d0))) as [const v]. destruct (const && is_default (ad_tol d0) o v); [now rewrite app_nil_r, H|].
  unfold alloc_channel. rewrite C, SC. destruct (set_cur_total _ _ _ (chs ++ [Channel o id []]) H) as [d1 D1]. rewrite D1. destruct const.
  - unfold add_constant. rewrite (set_nodes_last _ _ _ _ _ _ _ D1). reflexivity.
  - destruct (fp_anim p) as [hs|]; [|reflexivity]. destruct (getz hs axis) as [fc|]; [|reflexivity]. destruct (fh_curve fc) as [c|]; [|reflexivity].
    unfold gather_curve, curve_channel. destruct (1 <? len (fc_keys c)); [|reflexivity]. rewrite (gather_intervals_eq _ _ _ _ _ _ _ _ _ _ _ _ D1).
    destruct (interval_nodes _ _ _ _ _ _ _ _) as [n|]; [|reflexivity]. destruct (set_cur_total _ _ _ (chs ++ [Channel o id n]) H) as [d2 D2]. rewrite D2. unfold prune_nodes. destruct (nodes_last _ _ _ _ _ _ D2) as [N TT]. rewrite N, TT.
    destruct (set_cur_facts _ _ _ D2) as (_ & T2 & _ & _). rewrite T2. destruct (pruned_nodes _ _ n) as [n'|]; [|reflexivity]. rewrite (set_nodes_last _ _ _ _ _ _ _ D2).
    destruct (set_cur_total _ _ _ (chs ++ [Channel o id n']) H) as [d3 D3]. rewrite D3. destruct (nodes_last _ _ _ _ _ _ D3) as [N3 _]. rewrite N3. destruct (0 <? len n'); [now rewrite D3|reflexivity].
Qed.

(** A slot: a channel of a property, with its id. *)
Record slot := Slot { sl_name : fbx_name; sl_op : mtype; sl_inv : bool; sl_axis : Z; sl_id : Z }.
Fixpoint slots_of (name : fbx_name) (op : mtype) (inv : bool) (order : list Z) (id : Z) : list slot :=
  match order with [] => [] | a :: r => Slot name op inv a id :: slots_of name op inv r (id + 1) end.
Definition slots (order : Z) (l : list (fbx_name * Z * mtype * bool)) : list slot :=
  flat_map (fun p => let '(name, id, op, inv) := p in slots_of name op inv (match channel_order order op inv with Some o => o | None => [] end) id) l.
Definition slot_adds (ms : Z -> Z) (t : tolerances) (f : fbx_data) (span : Z * Z) (s : slot) : option (list channel) :=
  added ms t (fd_property f (sl_name s)) (sl_op s) (sl_inv s) span (sl_axis s) (sl_id s).
Lemma map_opt_app {A B} (g : A -> option B) : forall a b, map_opt g (a ++ b) = (x <- map_opt g a ;; y <- map_opt g b ;; Some (x ++ y)).
Proof. induction a as [|x a IH]; intros b; cbn [app map_opt]; [now destruct (map_opt g b)|]. destruct (g x) as [y|]; [|reflexivity]. rewrite IH. destruct (map_opt g a) as [u|]; [|reflexivity]. destruct (map_opt g b); reflexivity. Qed.
Lemma gather_channels_eq ms t f name op inv span d0 : ad_tol d0 = t -> forall order id chs d, set_cur_channels d0 chs = Some d ->
  gather_channels ms (fd_property f name) op inv span order id d = (r <- map_opt (slot_adds ms t f span) (slots_of name op inv order id) ;; set_cur_channels d0 (chs ++ concat r)).
Proof.
  intros <-. induction order as [|a r IH]; intros id chs d H; cbn [gather_channels slots_of map_opt]; [cbn; now rewrite app_nil_r, H|].
  rewrite (gather_channel_eq _ _ _ _ _ _ _ _ _ _ H). unfold slot_adds at 1. cbn [sl_name sl_op sl_inv sl_axis sl_id]. destruct (added _ _ _ _ _ _ _ _) as [l|]; [|reflexivity].
  destruct (set_cur_total _ _ _ (chs ++ l) H) as [d1 D1]. rewrite D1. rewrite (IH _ _ _ D1). destruct (map_opt _ _) as [u|]; [|reflexivity]. cbn [concat]. now rewrite app_assoc.
Qed.
Lemma gather_properties_eq ms t f span d0 : ad_tol d0 = t -> (forall n, three_channels (fd_property f n) = true) -> (forall op inv, channel_order (fd_order f) op inv <> None) -> forall l chs d, set_cur_channels d0 chs = Some d ->
  gather_properties ms f span l d = (r <- map_opt (slot_adds ms t f span) (slots (fd_order f) l) ;; set_cur_channels d0 (chs ++ concat r)).
Proof.
  intros T TH CO. induction l as [|[[[name id] op] inv] r IH]; intros chs d H; cbn [gather_properties slots flat_map]; [cbn; now rewrite app_nil_r, H|].
  rewrite TH. cbv zeta. destruct (channel_order (fd_order f) op inv) as [o|] eqn:O; [|now destruct (CO op inv)]. rewrite (gather_channels_eq ms t f name op inv span d0 T _ _ _ _ H), map_opt_app.
  destruct (map_opt _ (slots_of name op inv o id)) as [u|]; [|reflexivity]. destruct (set_cur_total _ _ _ (chs ++ concat u) H) as [d1 D1]. rewrite D1, (IH _ _ D1). change (flat_map _ r) with (slots (fd_order f) r).
  destruct (map_opt _ (slots _ r)) as [v|]; [|reflexivity]. now rewrite concat_app, app_assoc.
Qed.

(** ** From slots to the matrix *)
Definition slot_mtype (s : slot) : mtype := op_plus (sl_op s) (sl_axis s).
Definition slot_key (s : slot) : channel := Channel (slot_mtype s) (sl_id s) [].
(** The nodes recorded for the curve that drives a channel of a property. *)
Definition recorded_curve (ms : Z -> Z) (t : tolerances) (span : Z * Z) (p : fbx_property) (op : mtype) (invert : bool) (axis : Z) (o : mtype) (n : list snode) : Prop :=
  exists chs fc c, fp_anim p = Some chs /\ getz chs axis = Some fc /\ fh_curve fc = Some c /\ curve_channel ms t op invert c span o = Some n.
Lemma added_cases ms t f span s l : slot_adds ms t f span s = Some l ->
  (exists c, l = [] /\ anim_const (fd_property f (sl_name s)) (sl_op s) (sl_inv s) (sl_axis s) (tolerance_for_op t (slot_mtype s)) (tl_angle t) = (true, c) /\ is_default t (slot_mtype s) c = true) \/
  (exists c, l = [Channel (slot_mtype s) (sl_id s) [SNode 0 c 0]] /\ anim_const (fd_property f (sl_name s)) (sl_op s) (sl_inv s) (sl_axis s) (tolerance_for_op t (slot_mtype s)) (tl_angle t) = (true, c)) \/
  (exists n, l = [Channel (slot_mtype s) (sl_id s) n] /\ fst (anim_const (fd_property f (sl_name s)) (sl_op s) (sl_inv s) (sl_axis s) (tolerance_for_op t (slot_mtype s)) (tl_angle t)) = false /\
    recorded_curve ms t span (fd_property f (sl_name s)) (sl_op s) (sl_inv s) (sl_axis s) (slot_mtype s) n).
Proof.
  unfold slot_adds, added. cbv zeta. fold (slot_mtype s). destruct (anim_const _ _ _ _ _ _) as [[|] v].
  - cbn [andb]. destruct (is_default t (slot_mtype s) v) eqn:E; intros H; injection H as <-; [left; exists v; auto|right; left; exists v; auto].
  - cbn [andb]. intros H. right. right. destruct (fp_anim _) as [hs|] eqn:E1; [|discriminate]. destruct (getz hs _) as [fc|] eqn:E2; [|discriminate]. destruct (fh_curve fc) as [c|] eqn:E3; [|discriminate]. destruct (curve_channel _ _ _ _ _ _ _) as [n|] eqn:E4; [|discriminate]. injection H as <-. exists n. split; [reflexivity|]. split; [reflexivity|]. exists hs, fc, c. auto.
Qed.
Lemma map_opt_Forall2 {A B} (g : A -> option B) : forall a r, map_opt g a = Some r -> Forall2 (fun x y => g x = Some y) a r.
Proof. induction a as [|x a IH]; intros r H; cbn [map_opt] in H; [injection H as <-; constructor|]. destruct (g x) as [y|] eqn:E; [|discriminate]. destruct (map_opt g a) as [u|]; [|discriminate]. injection H as <-. constructor; auto. Qed.
Definition keyed (P : channel -> channel -> Prop) : Prop := forall c c' d d', ch_op c' = ch_op c -> ch_id c' = ch_id c -> ch_op d' = ch_op d -> ch_id d' = ch_id d -> P c d -> P c' d'.
Section Gathered.
Context (ms : Z -> Z) (t : tolerances) (f : fbx_data) (span : Z * Z).
Lemma in_gathered : forall ss r c, Forall2 (fun s l => slot_adds ms t f span s = Some l) ss r -> In c (concat r) -> exists s, In s ss /\ ch_op c = slot_mtype s /\ ch_id c = sl_id s.
Proof.
  intros ss r c F. induction F as [|s l ss r E F IH]; intros C; [destruct C|]. cbn [concat] in C. apply in_app_or in C. destruct C as [C|C].
  - exists s. split; [now left|]. destruct (added_cases _ _ _ _ _ _ E) as [(v & -> & _)|[(v & -> & _)|(n & -> & _)]]; [destruct C|destruct C as [<-|[]]; auto|destruct C as [<-|[]]; auto].
  - destruct (IH C) as (s' & S1 & S2). exists s'. split; [now right|exact S2].
Qed.
Lemma gathered_pairs P : keyed P -> forall ss r, Forall2 (fun s l => slot_adds ms t f span s = Some l) ss r -> ForallOrdPairs P (map slot_key ss) -> ForallOrdPairs P (concat r).
Proof.
  intros K ss r F. induction F as [|s l ss r E F IH]; intros O; [constructor|]. cbn [map] in O. inversion O as [|? ? O1 O2]; subst. specialize (IH O2). cbn [concat].
  assert (H : forall c, ch_op c = slot_mtype s -> ch_id c = sl_id s -> ForallOrdPairs P (c :: concat r)).
  { intros c C1 C2. constructor; [|exact IH]. apply Forall_forall. intros d D. destruct (in_gathered _ _ _ F D) as (s' & S1 & S2 & S3). rewrite Forall_forall in O1. apply (K (slot_key s) c (slot_key s') d); auto. apply O1. now apply in_map. }
  destruct (added_cases _ _ _ _ _ _ E) as [(v & -> & _)|[(v & -> & _)|(n & -> & _)]]; [exact IH|apply H; reflexivity|apply H; reflexivity].
Qed.
(** The slack of C71. *)
Definition slack (op : mtype) : R := match op with RotateX | RotateY | RotateZ => tl_rotate t | TranslateX | TranslateY | TranslateZ => tl_translate t | ScaleX | ScaleY | ScaleZ => 2 * tl_scale t | _ => tl_scale t end.
Definition slot_value (x : R) (s : slot) (w : R) : Prop :=
  (exists c, anim_const (fd_property f (sl_name s)) (sl_op s) (sl_inv s) (sl_axis s) (tolerance_for_op t (slot_mtype s)) (tl_angle t) = (true, c) /\ (Rabs (w - c) < slack (slot_mtype s))%R) \/
  (exists n, fst (anim_const (fd_property f (sl_name s)) (sl_op s) (sl_inv s) (sl_axis s) (tolerance_for_op t (slot_mtype s)) (tl_angle t)) = false /\
    recorded_curve ms t span (fd_property f (sl_name s)) (sl_op s) (sl_inv s) (sl_axis s) (slot_mtype s) n /\ (Rabs (w - played n x) < slack (slot_mtype s))%R).
Lemma default_slack op c : positive t -> basic op -> is_default t op c = true -> (Rabs (default_op_value op - c) < slack op)%R.
Proof.
  intros (P1 & P2 & P3) B D. unfold is_default in D. apply Rltb_true in D. rewrite Rabs_minus_sym. destruct B as [[-> | [-> | ->]]|[[-> | [-> | ->]]|[-> | [-> | ->]]]]; cbn in *; lra.
Qed.
Lemma fill x : positive t -> forall ss r vs, (forall s, In s ss -> basic (slot_mtype s)) -> Forall2 (fun s l => slot_adds ms t f span s = Some l) ss r -> Forall2 (near_played t x) (concat r) vs ->
  exists ws, Forall2 (slot_value x) ss ws /\ total_pose (combine (map slot_mtype ss) ws) = total_pose (combine (map ch_op (concat r)) vs).
Proof.
  intros PT ss r vs B F. revert vs. induction F as [|s l ss r E F IH]; intros vs N.
  - cbn [concat map combine]. inversion N. exists []. split; [constructor|reflexivity].
  - assert (B' : forall s0, In s0 ss -> basic (slot_mtype s0)) by (intros; apply B; now right). assert (Bs : basic (slot_mtype s)) by (apply B; now left).
    assert (CASE : forall c, l = [c] -> ch_op c = slot_mtype s -> ch_id c = sl_id s -> (forall u, near_played t x c u -> slot_value x s u) -> exists ws, Forall2 (slot_value x) (s :: ss) ws /\ total_pose (combine (map slot_mtype (s :: ss)) ws) = total_pose (combine (map ch_op (concat (l :: r))) vs)).
    { intros c -> C1 C2 SV. cbn [concat app] in N |- *. inversion N as [|? u ? us Nu N']; subst. destruct (IH B' us N') as (ws & W1 & W2).
      exists (u :: ws). split; [constructor; [now apply SV|exact W1]|]. cbn [map combine]. rewrite !total_cons, W2, C1. reflexivity. }
    destruct (added_cases _ _ _ _ _ _ E) as [(v & -> & A & D)|[(v & EL & A)|(n & EL & A & RC)]].
    + cbn [concat app] in *. destruct (IH B' vs N) as (ws & W1 & W2). exists (default_op_value (slot_mtype s) :: ws). split.
      * constructor; [|exact W1]. left. exists v. split; [exact A|now apply default_slack].
      * cbn [map combine]. rewrite total_cons, W2. cbn [fst snd]. rewrite elem_default by (now apply basic_geometric). apply mmul_1_l.
    + apply (CASE _ EL); [reflexivity|reflexivity|]. intros u Nu. left. exists v. split; [exact A|]. exact Nu.
    + apply (CASE _ EL); [reflexivity|reflexivity|]. intros u Nu. right. exists n. split; [exact A|]. split; [exact RC|]. exact Nu.
Qed.
End Gathered.

(** The orders of the slots. *)
Fixpoint pairsb {A} (p : A -> A -> bool) (l : list A) : bool := match l with [] => true | a :: r => forallb (p a) r && pairsb p r end.
Lemma pairsb_ok {A} (p : A -> A -> bool) (P : A -> A -> Prop) : (forall a b, p a b = true -> P a b) -> forall l, pairsb p l = true -> ForallOrdPairs P l.
Proof. intros H. induction l as [|a l IH]; intros E; [constructor|]. cbn [pairsb] in E. apply andb_prop in E. destruct E as [E1 E2]. constructor; [|auto]. apply Forall_forall. intros b B. apply H. rewrite forallb_forall in E1. auto. Qed.
Definition is_axis (op : mtype) : bool := match op with ScaleX | ScaleY | ScaleZ => true | _ => false end.
Definition in_orderb (c d : channel) : bool :=
  (translate_kind (ch_op c) && translate_kind (ch_op d)) || (is_axis (ch_op c) && is_axis (ch_op d)) ||
  (ch_id c + match ch_op c with ScaleX => 3 | ScaleY => 2 | ScaleZ => 1 | _ => 0 end <? ch_id d).
Lemma in_orderb_ok c d : in_orderb c d = true -> in_order c d.
Proof.
  unfold in_orderb, in_order, translates, axis_scale. intros H. apply orb_prop in H. destruct H as [H|H]; [apply orb_prop in H; destruct H as [H|H]; apply andb_prop in H; destruct H as [H1 H2]|].
  - left. destruct (ch_op c); try discriminate H1; destruct (ch_op d); try discriminate H2; auto.
  - right. left. destruct (ch_op c); try discriminate H1; destruct (ch_op d); try discriminate H2; auto.
  - right. right. apply Z.ltb_lt in H. destruct (ch_op c); repeat split; try discriminate; lia.
Qed.
Definition onceb (c d : channel) : bool := negb (is_axis (ch_op c)) || negb (mtype_eqb (ch_op c) (ch_op d)).
Lemma onceb_ok c d : onceb c d = true -> axis_scale (ch_op c) -> ch_op c <> ch_op d.
Proof. unfold onceb. intros H A E. rewrite <- E in H. destruct A as [A|[A|A]]; rewrite A in H; discriminate. Qed.
Definition basicb (op : mtype) : bool := rotate_kind op || translate_kind op || is_axis op.
Lemma basicb_ok op : basicb op = true -> basic op.
Proof. unfold basicb, basic, rotates, translates, axis_scale. destruct op; try discriminate; auto 7. Qed.
Lemma slots_shape order : In order [0; 5; 6] -> let ss := slots order kProperties in
  ForallOrdPairs in_order (map slot_key ss) /\ ForallOrdPairs (fun c d => axis_scale (ch_op c) -> ch_op c <> ch_op d) (map slot_key ss) /\ (forall s, In s ss -> basic (slot_mtype s) /\ 0 <= sl_id s <= 252).
Proof.
  intros H ss. split; [|split].
  - apply (pairsb_ok in_orderb); [exact in_orderb_ok|]. destruct H as [<-|[<-|[<-|[]]]]; vm_compute; reflexivity.
  - apply (pairsb_ok onceb); [exact onceb_ok|]. destruct H as [<-|[<-|[<-|[]]]]; vm_compute; reflexivity.
  - assert (E : forallb (fun s => basicb (slot_mtype s) && (0 <=? sl_id s) && (sl_id s <=? 252)) ss = true) by (destruct H as [<-|[<-|[<-|[]]]]; vm_compute; reflexivity).
    rewrite forallb_forall in E. intros s S. specialize (E s S). apply andb_prop in E. destruct E as [E E3]. apply andb_prop in E. destruct E as [E1 E2]. split; [now apply basicb_ok|lia].
Qed.

Lemma move_factors v m : mmul (move v) m = mmul (elem TranslateX (v 0)) (mmul (elem TranslateY (v 1)) (mmul (elem TranslateZ (v 2)) m)).
Proof. rewrite <- !mmul_assoc. f_equal. unfold move, elem, elementary. cbv zeta. mat_eq. Qed.
Lemma stretch_factors v m : mmul (stretch v) m = mmul (elem ScaleX (v 0)) (mmul (elem ScaleY (v 1)) (mmul (elem ScaleZ (v 2)) m)).
Proof. rewrite <- !mmul_assoc. f_equal. unfold stretch, elem, elementary. cbv zeta. mat_eq. Qed.
Lemma product3 a b c m : mmul (product [a; b; c]) m = mmul a (mmul b (mmul c m)).
Proof. cbn [product fold_right]. now rewrite mmul_1_r, !mmul_assoc. Qed.
(** Where the axis [a] of part [i] is among the slots. *)
Definition place (order i a : Z) : nat :=
  Z.to_nat (3 * i + (if (3 <=? i) && (i <=? 5) then if (order =? 5) then if i =? 5 then 2 - a else a else if i =? 5 then a else 2 - a else a)).
Lemma slots_matrix order ws : In order [0; 5; 6] -> length ws = 33%nat -> total_pose (combine (map slot_mtype (slots order kProperties)) ws) = fbx_matrix order (fun i a => nth (place order i a) ws 0%R).
Proof.
  intros O L. do 33 (destruct ws as [|? ws]; [discriminate L|]). destruct ws; [|discriminate L]. clear L. unfold fbx_matrix. cbn [product fold_right]. rewrite !move_factors, stretch_factors.
  destruct O as [<-|[<-|[<-|[]]]]; unfold turn, turn_back; rewrite !product3; unfold about, operation; reflexivity.
Qed.
Lemma slot_places order i a name inv : In order [0; 5; 6] -> getz formula i = Some (name, inv) -> 0 <= a < 3 ->
  exists s, nth_error (slots order kProperties) (place order i a) = Some s /\ sl_name s = name /\ sl_inv s = inv /\ sl_axis s = a /\ slot_mtype s = operation name a /\ rotate_kind (sl_op s) = rotate_kind (operation name a) /\ scale_kind (sl_op s) = scale_kind (operation name a).
Proof.
  intros O G A. assert (I : 0 <= i < 11) by (apply getz_Some in G; exact G). assert (AA : a = 0 \/ a = 1 \/ a = 2) by lia.
  assert (II : i = 0 \/ i = 1 \/ i = 2 \/ i = 3 \/ i = 4 \/ i = 5 \/ i = 6 \/ i = 7 \/ i = 8 \/ i = 9 \/ i = 10) by lia. clear I A.
  destruct O as [<-|[<-|[<-|[]]]]; destruct AA as [-> | [-> | ->]]; repeat (destruct II as [-> | II]; [injection G as <- <-; eexists; split; [vm_compute; reflexivity|repeat split; reflexivity]|]);
   subst; injection G as <- <-; eexists; (split; [vm_compute; reflexivity|repeat split; reflexivity]).
Qed.
Lemma Forall2_nth {A B} (P : A -> B -> Prop) : forall l m, Forall2 P l m -> forall k x d, nth_error l k = Some x -> P x (nth k m d).
Proof. intros l m F. induction F as [|a b l m H F IH]; intros [|k] x d E; cbn in *; try discriminate; [injection E as <-; exact H|eauto]. Qed.

Lemma Forall2_length_eq {A B} (P : A -> B -> Prop) : forall l m, Forall2 P l m -> length l = length m.
Proof. intros l m F. induction F; cbn; auto. Qed.
Lemma in_combine_l_fst {A B} : forall (l : list A) (m : list B) p, In p (combine l m) -> In (fst p) l.
Proof. intros l m [a b] H. exact (in_combine_l _ _ _ _ H). Qed.

(** What is meant by an axis of a part at the time [x]: the constant that is reported for it,
    or what is recorded of the curve that drives it. *)
Definition meant (ms : Z -> Z) (t : tolerances) (span : Z * Z) (f : fbx_data) (x : R) (name : fbx_name) (inverse : bool) (axis : Z) (w : R) : Prop :=
  let op := operation name axis in
  let report := anim_const (fd_property f name) op inverse axis (tolerance_for_op t op) (tl_angle t) in
  (fst report = true /\ (Rabs (w - snd report) < slack t op)%R) \/
  (fst report = false /\ exists n, recorded_curve ms t span (fd_property f name) op inverse axis op n /\ (Rabs (w - played n x) < slack t op)%R).
Lemma flat_kind a b inv v : rotate_kind a = rotate_kind b -> scale_kind a = scale_kind b -> flat_value a inv v = flat_value b inv v.
Proof. intros E1 E2. unfold flat_value, invert_value. now rewrite E1, E2. Qed.
Lemma keys_const_kind a b inv tol angle first : rotate_kind a = rotate_kind b -> scale_kind a = scale_kind b -> forall rest k, keys_const a inv tol angle first k rest = keys_const b inv tol angle first k rest.
Proof. intros E1 E2. induction rest as [|k' r IH]; intros k; [reflexivity|]. cbn [keys_const]. unfold flat_derivative. rewrite !(flat_kind a b inv) by assumption. now rewrite IH. Qed.
Lemma anim_const_kind p a b inv axis tol angle : rotate_kind a = rotate_kind b -> scale_kind a = scale_kind b -> anim_const p a inv axis tol angle = anim_const p b inv axis tol angle.
Proof.
  intros E1 E2. unfold anim_const. destruct (fp_anim p) as [chs|]; [|now rewrite (flat_kind a b)]. destruct (getz chs axis) as [c|]; [|now rewrite (flat_kind a b)].
  destruct (fh_curve c) as [[[|k r] ? ? ?]|]; try (now rewrite (flat_kind a b)). cbv zeta. rewrite !(flat_kind a b inv), (keys_const_kind a b) by assumption. reflexivity.
Qed.
Lemma interval_nodes_kind ms a b inv c span tol : rotate_kind a = rotate_kind b -> scale_kind a = scale_kind b -> forall keys n, interval_nodes ms a inv c span tol keys n = interval_nodes ms b inv c span tol keys n.
Proof.
  intros E1 E2. assert (SV : forall t0 t1, sample_values a inv c t0 t1 = sample_values b inv c t0 t1) by (intros; unfold sample_values; apply map_ext; intros; now apply flat_kind).
  assert (SD : forall t0 t1, sample_derivatives a inv c t0 t1 = sample_derivatives b inv c t0 t1) by (intros; unfold sample_derivatives, flat_derivative; f_equal; [now apply flat_kind|apply map_ext; intros; now apply flat_kind]).
  induction keys as [|k [|k' r] IH]; intros n; [reflexivity|reflexivity|]. cbn [interval_nodes]. cbv zeta. rewrite SV, SD. destruct (_ || _); [apply IH|]. destruct (flat_time ms (Z.max (fst span) (fk_time k))) as [f0|]; [|reflexivity]. destruct (flat_time ms (Z.min (snd span) (fk_time k'))) as [f1|]; [|reflexivity]. destruct (curve_nodes _ _ _ _ _ _ n); [apply IH|reflexivity].
Qed.
Lemma curve_channel_kind ms t a b inv c span o : rotate_kind a = rotate_kind b -> scale_kind a = scale_kind b -> curve_channel ms t a inv c span o = curve_channel ms t b inv c span o.
Proof. intros E1 E2. unfold curve_channel. now rewrite (interval_nodes_kind ms a b). Qed.

(** The other bones are as pruning leaves them. *)
Definition others_pruned (nu : bool) (d : anim_data) : Prop := forall i b, i <> ad_cur d -> getz (ad_bones d) i = Some b -> prune_bone (ad_tol d) nu b = Some b.
Lemma map_opt_fixed {A} (g : A -> option A) : forall l, (forall x, In x l -> g x = Some x) -> map_opt g l = Some l.
Proof. induction l as [|x l IH]; intros H; [reflexivity|]. cbn [map_opt]. rewrite (H x) by (now left). rewrite IH by (intros; apply H; now right). reflexivity. Qed.
Lemma prune_one nu d b b' : getz (ad_bones d) (ad_cur d) = Some b -> others_pruned nu d -> prune_bone (ad_tol d) nu b = Some b' ->
  exists d', prune_channels d nu = Some d' /\ getz (ad_bones d') (ad_cur d) = Some b' /\ ad_cur d' = ad_cur d /\ ad_tol d' = ad_tol d /\ ad_root_only d' = ad_root_only d /\ len (ad_bones d') = len (ad_bones d) /\ forall i, i <> ad_cur d -> getz (ad_bones d') i = getz (ad_bones d) i.
Proof.
  intros B OP PB. destruct (getz_split _ _ _ B) as (X & Y & E & L). unfold prune_channels. rewrite E in *.
  assert (HX : map_opt (prune_bone (ad_tol d) nu) X = Some X).
  { apply map_opt_fixed. intros y Iy. apply In_nth_error in Iy. destruct Iy as (k & K). assert (KL : (k < length X)%nat) by (apply nth_error_Some; congruence). apply (OP (Z.of_nat k)); [unfold len in L; lia|]. rewrite E. unfold getz. replace (Z.of_nat k <? 0) with false by lia. rewrite Nat2Z.id, nth_error_app1 by exact KL. exact K. }
  assert (HY : map_opt (prune_bone (ad_tol d) nu) Y = Some Y).
  { apply map_opt_fixed. intros y Iy. apply In_nth_error in Iy. destruct Iy as (k & K). assert (KL : (k < length Y)%nat) by (apply nth_error_Some; congruence). apply (OP (len X + 1 + Z.of_nat k)); [lia|]. rewrite E. replace (len X + 1 + Z.of_nat k) with (len X + (1 + Z.of_nat k)) by lia. rewrite getz_app_at by lia.
    unfold getz. replace (1 + Z.of_nat k <? 0) with false by lia. replace (Z.to_nat (1 + Z.of_nat k)) with (S k) by lia. exact K. }
  rewrite map_opt_app, HX. cbn [map_opt]. rewrite PB, HY. exists (with_bones d (X ++ b' :: Y)). cbn [with_bones ad_bones ad_cur ad_tol ad_root_only]. split; [reflexivity|]. split; [rewrite getz_app by (now symmetry); reflexivity|]. repeat (split; [reflexivity|]).
  split; [rewrite !len_app, !len_cons; reflexivity|]. intros i I. assert (SZ : setz (X ++ b :: Y) (ad_cur d) b' = Some (X ++ b' :: Y)) by (apply setz_app; now symmetry). exact (getz_setz_neq _ _ _ _ _ SZ I).
Qed.

Definition orders_ok (order : Z) : Prop := order = 0 \/ order = 5 \/ order = 6.
Lemma orders_In order : orders_ok order -> In order [0; 5; 6].
Proof. intros [-> | [-> | ->]]; cbn; auto. Qed.

(** C95.  The matrix of the channels that are exported for a node is the FBX transform, for
    some amounts of its parts that differ from what is reported as constant, or recorded as a
    curve, by no more than the tolerances.  Proved for the rotation orders XYZ, ZYX and
    SphericXYZ, and under the conditions of C71 on the recorded curves. *)
Theorem C95_transform_partial : forall ms nu span f d d1 chs x, positive (ad_tol d) -> orders_ok (fd_order f) -> (forall n, three_channels (fd_property f n) = true) ->
  cur_channels d = Some [] -> others_pruned nu d ->
  gather_properties ms f span kProperties d = Some d1 -> cur_channels d1 = Some chs ->
  (forall c, In c chs -> in_time (ch_nodes c)) ->
  ((forall c, In c chs -> flat_ends (ch_nodes c)) \/ (exists t0 t1, forall c, In c chs -> spans t0 t1 (ch_nodes c))) ->
  (nu = true \/ forall c, In c chs -> axis_scale (ch_op c) -> sampled x (ch_nodes c)) ->
  exists d' b' w, gather_node ms f nu span d = Some d' /\ ad_cur d' = ad_cur d /\ getz (ad_bones d') (ad_cur d) = Some b' /\
    (forall i, i <> ad_cur d -> getz (ad_bones d') i = getz (ad_bones d) i) /\
    posed (bn_channels b') x = Some (fbx_matrix (fd_order f) w) /\
    forall i a name inverse, getz formula i = Some (name, inverse) -> 0 <= a < 3 -> meant ms (ad_tol d) span f x name inverse a (w i a).
Proof.
  intros ms nu span f d d1 chs x PT OK TH CC OP GP C1 IT CU SA. pose proof (orders_In _ OK) as OI.
  assert (D0 : set_cur_channels d [] = Some d).
  { unfold cur_channels in CC. unfold set_cur_channels. destruct (getz (ad_bones d) (ad_cur d)) as [b|] eqn:B; [|discriminate]. injection CC as CC. destruct (getz_split _ _ _ B) as (X & Y & E & L). rewrite E, setz_app by (now symmetry). rewrite <- CC. replace (Bone (bn_name b) (bn_parent b) (bn_channels b)) with b by (now destruct b). rewrite <- E. now destruct d. }
  assert (CO : forall op inv, channel_order (fd_order f) op inv <> None).
  { intros op inv. unfold channel_order. destruct (rotate_kind op); [|discriminate]. destruct OK as [-> | [-> | ->]]; destruct inv; discriminate. }
  pose proof GP as GE. rewrite (gather_properties_eq ms (ad_tol d) f span d eq_refl TH CO kProperties [] d D0) in GE. destruct (map_opt _ _) as [r|] eqn:MO; [|discriminate]. cbn [app] in GE. apply map_opt_Forall2 in MO.
  destruct (set_cur_facts _ _ _ GE) as (C1' & T1 & CU1 & _). assert (chs = concat r) as -> by congruence. destruct (slots_shape _ OI) as (SO & SN & SB).
  unfold cur_channels in C1. destruct (getz (ad_bones d1) (ad_cur d1)) as [b1|] eqn:B1; [|discriminate]. injection C1 as C1.
  assert (PR : prunable nu x (bn_channels b1)).
  { rewrite C1. constructor; auto.
    - intros c C. destruct (in_gathered _ _ _ _ _ _ _ MO C) as (s & S1 & S2 & S3). rewrite S2. exact (proj1 (SB s S1)).
    - refine (gathered_pairs ms (ad_tol d) f span _ _ _ _ MO SN). intros c c' e e' E1 E2 E3 E4 H. rewrite E1, E3. exact H.
    - refine (gathered_pairs ms (ad_tol d) f span _ _ _ _ MO SO). intros c c' e e' E1 E2 E3 E4 H. unfold in_order in *. rewrite E1, E2, E3, E4. exact H.
    - intros c C. destruct (in_gathered _ _ _ _ _ _ _ MO C) as (s & S1 & S2 & S3). rewrite S3. exact (proj2 (SB s S1)). }
  rewrite <- T1 in PT. destruct (C71_pose_partial (ad_tol d1) nu x b1 PT PR) as (b' & vs & m & PB & _ & _ & NV & PO & PD). rewrite C1 in NV, PO.
  assert (OP1 : others_pruned nu d1).
  { intros i b I G. rewrite CU1 in I. rewrite T1. apply (OP i b I). rewrite <- G. symmetry. clear - GE I. unfold set_cur_channels in GE. destruct (getz (ad_bones d) (ad_cur d)) as [y|]; [|discriminate]. destruct (setz _ _ _) as [bs|] eqn:SZ; [|discriminate]. injection GE as <-. cbn [with_bones ad_bones]. exact (getz_setz_neq _ _ _ _ _ SZ I). }
  destruct (prune_one nu d1 b1 b' B1 OP1 PB) as (d' & PC & G' & CU' & T' & _ & _ & OT). rewrite CU1 in *. rewrite T1 in *.
  destruct (fill ms (ad_tol d) f span x PT _ _ vs (fun s S => proj1 (SB s S)) MO NV) as (ws & W1 & W2).
  assert (LW : length ws = 33%nat) by (rewrite <- (Forall2_length_eq _ _ _ W1); destruct OK as [-> | [-> | ->]]; reflexivity).
  exists d', b', (fun i a => nth (place (fd_order f) i a) ws 0%R). split; [unfold gather_node; rewrite GP; exact PC|]. split; [exact CU'|]. split; [exact G'|]. split.
  - intros i I. rewrite (OT i I). clear - GE I. unfold set_cur_channels in GE. destruct (getz (ad_bones d) (ad_cur d)) as [y|]; [|discriminate]. destruct (setz _ _ _) as [bs|] eqn:SZ; [|discriminate]. injection GE as <-. cbn [with_bones ad_bones]. exact (getz_setz_neq _ _ _ _ _ SZ I).
  - split.
    + rewrite PD, <- PO, <- (slots_matrix _ _ OI LW), W2. apply pose_total. intros p Pp. apply in_combine_l_fst in Pp. apply in_map_iff in Pp. destruct Pp as (c & <- & C). destruct (in_gathered _ _ _ _ _ _ _ MO C) as (s & S1 & S2 & _). rewrite S2. apply basic_geometric. exact (proj1 (SB s S1)).
    + intros i a name inverse G A. destruct (slot_places (fd_order f) i a name inverse OI G A) as (s & S1 & S2 & S3 & S4 & S5 & S6 & S7). pose proof (Forall2_nth _ _ _ W1 _ s 0%R S1) as V. unfold slot_value in V. rewrite S2, S3, S4, S5 in V. unfold meant. cbv zeta.
      rewrite (anim_const_kind _ (operation name a) (sl_op s)) by (now symmetry). destruct V as [(c & E & H)|(n & E & (hs & fc & c & E1 & E2 & E3 & E4) & H)]; [left; rewrite E; auto|right; split; [exact E|]]. exists n. split; [|exact H].
      exists hs, fc, c. repeat (split; [assumption|]). rewrite (curve_channel_kind _ _ _ (sl_op s)) by (now symmetry). exact E4.
Qed.
Print Assumptions C95_transform_partial.

(** ** Nodes that are not animated *)
Definition unanimated (f : fbx_data) : Prop := forall n, fp_anim (fd_property f n) = None.
Lemma static_added ms t f span s : unanimated f -> exists l, slot_adds ms t f span s = Some l /\ forall c, In c l -> exists v, ch_nodes c = [SNode 0 v 0].
Proof.
  intros U. unfold slot_adds, added, anim_const. rewrite U. cbv zeta. cbn [andb]. destruct (is_default _ _ _); eexists; (split; [reflexivity|]); [intros c []|]. intros c [<-|[]]. cbn [ch_nodes]. eauto.
Qed.
Lemma static_gathered ms t f span : unanimated f -> forall ss, exists r, map_opt (slot_adds ms t f span) ss = Some r /\ forall c, In c (concat r) -> exists v, ch_nodes c = [SNode 0 v 0].
Proof.
  intros U. induction ss as [|s ss (r & R1 & R2)]; [exists []; split; [reflexivity|intros c []]|]. destruct (static_added ms t f span s U) as (l & L1 & L2). exists (l :: r). cbn [map_opt]. rewrite L1, R1. split; [reflexivity|].
  intros c C. cbn [concat] in C. apply in_app_or in C. destruct C; auto.
Qed.
Lemma amount_report n inverse axis v : (n = LclScaling -> inverse = false) -> flat_value (operation n axis) inverse v = amount n inverse v.
Proof.
  intros H. unfold flat_value, invert_value, amount. destruct n; cbn [operation rotate_kind scale_kind]; try (rewrite H by reflexivity); destruct axis as [|[?|?|]|?]; cbn [rotate_kind scale_kind]; destruct inverse; cbn; try reflexivity; try ring.
Qed.

(** C95 for a node that is not animated: the export succeeds, and the exported channels always play
    the FBX transform of the node's properties, up to the tolerances. *)
Theorem C95_static_partial : forall ms nu span f d, positive (ad_tol d) -> orders_ok (fd_order f) -> unanimated f -> cur_channels d = Some [] -> others_pruned nu d ->
  exists d' b', gather_node ms f nu span d = Some d' /\ ad_cur d' = ad_cur d /\ getz (ad_bones d') (ad_cur d) = Some b' /\
    (forall i, i <> ad_cur d -> getz (ad_bones d') i = getz (ad_bones d) i) /\
    forall x, exists w, posed (bn_channels b') x = Some (fbx_matrix (fd_order f) w) /\
      forall i a name inverse, getz formula i = Some (name, inverse) -> 0 <= a < 3 -> (Rabs (w i a - amount name inverse (fp_value (fd_property f name) a)) < slack (ad_tol d) (operation name a))%R.
Proof.
  intros ms nu span f d PT OK U CC OP.
  assert (TH : forall n, three_channels (fd_property f n) = true) by (intros n; unfold three_channels; now rewrite U).
  assert (D0 : set_cur_channels d [] = Some d).
  { unfold cur_channels in CC. unfold set_cur_channels. destruct (getz (ad_bones d) (ad_cur d)) as [b|] eqn:B; [|discriminate]. injection CC as CC. destruct (getz_split _ _ _ B) as (X & Y & E & L). rewrite E, setz_app by (now symmetry). rewrite <- CC. replace (Bone (bn_name b) (bn_parent b) (bn_channels b)) with b by (now destruct b). rewrite <- E. now destruct d. }
  assert (CO : forall op inv, channel_order (fd_order f) op inv <> None).
  { intros op inv. unfold channel_order. destruct (rotate_kind op); [|discriminate]. destruct OK as [-> | [-> | ->]]; destruct inv; discriminate. }
  pose proof (gather_properties_eq ms (ad_tol d) f span d eq_refl TH CO kProperties [] d D0) as GE. destruct (static_gathered ms (ad_tol d) f span U (slots (fd_order f) kProperties)) as (r & R1 & R2). rewrite R1 in GE. cbn [app] in GE.
  destruct (set_cur_total _ _ _ (concat r) D0) as [d1 D1]. rewrite D1 in GE. destruct (set_cur_facts _ _ _ D1) as (C1 & _ & _ & _).
  assert (ALL : forall x, exists d' b' w, gather_node ms f nu span d = Some d' /\ ad_cur d' = ad_cur d /\ getz (ad_bones d') (ad_cur d) = Some b' /\
    (forall i, i <> ad_cur d -> getz (ad_bones d') i = getz (ad_bones d) i) /\ posed (bn_channels b') x = Some (fbx_matrix (fd_order f) w) /\
    forall i a name inverse, getz formula i = Some (name, inverse) -> 0 <= a < 3 -> meant ms (ad_tol d) span f x name inverse a (w i a)).
  { intros x. apply (C95_transform_partial ms nu span f d d1 (concat r) x); auto.
    - intros c C. destruct (R2 c C) as (v & ->). split; [discriminate|]. split; [repeat constructor|]. intros y [<-|[]]. cbn [sn_time]. lia.
    - left. intros c C. destruct (R2 c C) as (v & ->). now left.
    - right. intros c C _. destruct (R2 c C) as (v & ->). unfold sampled. cbn [first_node end_node hd last sn_time]. right. destruct (Rle_dec x 0); [left; assumption|right; lra]. }
  destruct (ALL 0%R) as (d' & b' & _ & G & CU & B & O & _). exists d', b'. repeat (split; [assumption|]). intros x. destruct (ALL x) as (d2 & b2 & w & G2 & _ & B2 & _ & P & M).
  assert (d2 = d') as -> by congruence. assert (b2 = b') as -> by congruence. exists w. split; [exact P|]. intros i a name inverse F A. specialize (M i a name inverse F A). unfold meant in M. cbv zeta in M. unfold anim_const in M. rewrite U in M. cbn [fst snd] in M.
  destruct M as [[_ M]|[M _]]; [|discriminate]. rewrite amount_report in M; [exact M|]. intros ->. clear - F. assert (I : 0 <= i < 11) by (apply getz_Some in F; exact F).
  assert (II : i = 0 \/ i = 1 \/ i = 2 \/ i = 3 \/ i = 4 \/ i = 5 \/ i = 6 \/ i = 7 \/ i = 8 \/ i = 9 \/ i = 10) by lia. repeat (destruct II as [-> | II]; [discriminate F || (injection F as <-; reflexivity)|]). subst. discriminate F.
Qed.
Print Assumptions C95_static_partial.
