(** Theorems about the animation table: C61 (names and queries). *)
From Coq Require Import Sorted.
From Verif Require Import RBase BaseFacts RangeModel MatrixModel RigModel RigProps AnimTableModel.
Local Open Scope Z_scope.

Section Names.
Context {I S F : Type} (spline_init : range -> I) (fb_name : F -> option (list Z)) (decode : F -> option (rig_anim (opinit I S))).
Notation rig := (rig_anim (opinit I S)).
Notation source := (@source F).
Notation table := (@table I S).
Notation loading := (@loading I S).
Notation load_entry := (load_entry fb_name decode).
Notation load_list := (load_list fb_name decode).
Notation load_lists := (load_lists fb_name decode).
Notation load := (load spline_init fb_name decode).

(** *** Specification *)
(** The name that an entry lists; [None] when it lists no animation. *)
Definition listed_name (src : source) : option (list Z) :=
  match src with
  | SNone => None
  | SFile [] => None
  | SFile n => Some n
  | SEmbedded fb => match fb_name fb with Some [] => None | o => o end
  end.
(** Entry [src] provides animation [a], with load function [f]. *)
Definition provides (f : list Z -> option F) (src : source) (a : rig) : Prop :=
  match src with
  | SNone => False
  | SFile n => exists fb, f n = Some fb /\ decode fb = Some a
  | SEmbedded fb => decode fb = Some a
  end.
(** A sequence of calls of Load: load functions and listings, the last call first. *)
Definition history := list ((list Z -> option F) * list (list source)).
Inductive loaded : history -> table -> Prop :=
| loaded_empty : loaded [] table_empty
| loaded_load : forall h t f lists ok t' calls, loaded h t -> load f lists t = Some (ok, t', calls) -> loaded ((f, lists) :: h) t'.
(** Some entry listed in the history with name [n] provides [a]. *)
Definition provided (h : history) (n : list Z) (a : rig) : Prop :=
  exists f lists l src, In (f, lists) h /\ In l lists /\ In src l /\ listed_name src = Some n /\ provides f src a.

(** *** Proofs *)
Lemma name_find_app : forall n m m', name_find n (m ++ m') = match name_find n m with Some i => Some i | None => name_find n m' end.
Proof. induction m as [|[k i] m IH]; intros; cbn; [reflexivity|]. destruct (list_eq_dec Z.eq_dec k n); auto. Qed.
Lemma name_find_in : forall n m i, name_find n m = Some i -> In (n, i) m.
Proof. induction m as [|[k j] m IH]; cbn; intros i H; [discriminate|]. destruct (list_eq_dec Z.eq_dec k n); [left; congruence|right; auto]. Qed.
Lemma name_find_none : forall n m, name_find n m = None -> ~ In n (map fst m).
Proof. induction m as [|[k j] m IH]; cbn; intros H; [tauto|]. destruct (list_eq_dec Z.eq_dec k n); [discriminate|]. intros [E|E]; [congruence|apply IH; auto]. Qed.

Lemma NoDup_snoc : forall A (l : list A) x, NoDup l -> ~ In x l -> NoDup (l ++ [x]).
Proof.
  intros A l x N. induction N as [|y l Hy N IH]; intros Hx; cbn; [constructor; [tauto|constructor]|].
  constructor; [rewrite in_app_iff; cbn; intros [X|[X|[]]]; [tauto|subst; cbn in Hx; tauto]|apply IH; cbn in Hx; tauto].
Qed.

Definition linv (P : list Z -> rig -> Prop) (m : list (list Z * Z)) (al : list rig) : Prop :=
  NoDup (map fst m) /\ Forall2 (fun nk a => P (fst nk) a) m al /\ (forall k nk, getz m k = Some nk -> snd nk = to_anim_index k).
Definition ext (s s' : loading) : Prop := exists m al, l_map s' = l_map s ++ m /\ l_anims s' = l_anims s ++ al.
Lemma ext_refl : forall s, ext s s.
Proof. intros. exists [], []. rewrite !app_nil_r. auto. Qed.
Lemma ext_trans : forall a b c, ext a b -> ext b c -> ext a c.
Proof. intros a b c (m & l & H1 & H2) (m' & l' & H3 & H4). exists (m ++ m'), (l ++ l'). rewrite H3, H4, H1, H2, !app_assoc. auto. Qed.
Lemma ext_find : forall s s' n i, ext s s' -> name_find n (l_map s) = Some i -> name_find n (l_map s') = Some i.
Proof. intros s s' n i (m & l & H & _) E. rewrite H, name_find_app, E. reflexivity. Qed.

(** What the index [i] of an entry means. *)
Definition entry_spec (f : list Z -> option F) (src : source) (i : Z) (s : loading) : Prop :=
  match listed_name src with
  | None => i = kInvalidAnimIndex
  | Some n => name_find n (l_map s) = Some i \/ (i = kInvalidAnimIndex /\ src = SFile n /\ f n = None /\ l_success s = false)
  end.

Lemma Forall2_len : forall A B (P : A -> B -> Prop) l l', Forall2 P l l' -> len l = len l'.
Proof. intros A B P l l' H. unfold len. f_equal. induction H; cbn; congruence. Qed.

Lemma add_anim_ok : forall P n fb s i s', linv P (l_map s) (l_anims s) -> name_find n (l_map s) = None ->
  add_anim decode n fb s = Some (i, s') -> (forall a, decode fb = Some a -> P n a) ->
  linv P (l_map s') (l_anims s') /\ ext s s' /\ name_find n (l_map s') = Some i /\ l_success s' = l_success s /\ l_calls s' = l_calls s.
Proof.
  intros P n fb s i s' (N & G & K) E H HP. unfold add_anim in H. destruct (decode fb) as [a|] eqn:D; [|discriminate]. cbn in H. injection H as <- <-. cbn.
  pose proof (Forall2_len _ _ _ _ _ G) as L.
  split; [|split; [|split; [|auto]]].
  - split; [|split].
    + rewrite map_app. apply NoDup_snoc; [exact N|]. apply name_find_none, E.
    + apply Forall2_app; [exact G|]. constructor; [apply HP; reflexivity|constructor].
    + intros k nk Hk. destruct (Z_lt_ge_dec k (len (l_map s))) as [Lt|Ge].
      * rewrite getz_app1 in Hk by lia. eauto.
      * rewrite getz_app2 in Hk by lia. destruct (Z.eq_dec (k - len (l_map s)) 0) as [Z0|Z0].
        -- rewrite Z0 in Hk. cbn in Hk. injection Hk as <-. cbn. f_equal. lia.
        -- rewrite getz_None in Hk; [discriminate|]. change (len [(n, to_anim_index (len (l_anims s)))]) with 1. lia.
  - exists [(n, to_anim_index (len (l_anims s)))], [a]. auto.
  - rewrite name_find_app, E. cbn. destruct (list_eq_dec Z.eq_dec n n); congruence.
Qed.

Lemma count_one : forall x n : list Z, (count_occ (list_eq_dec Z.eq_dec) [x] n <= 1)%nat.
Proof. intros x n. pose proof (count_occ_bound (list_eq_dec Z.eq_dec) n [x]) as H. cbn [length] in H. exact H. Qed.
(** The new calls of load_fn. *)
Definition calls_spec (f : list Z -> option F) (s s' : loading) : Prop :=
  exists new, l_calls s' = l_calls s ++ new /\
    forall n, (In n new -> name_find n (l_map s) = None) /\
      (f n <> None -> (count_occ (list_eq_dec Z.eq_dec) new n <= 1)%nat /\ (In n new -> name_find n (l_map s') <> None)).
Lemma calls_refl : forall f s, calls_spec f s s.
Proof. intros. exists []. rewrite app_nil_r. split; [reflexivity|]. intros n. cbn. split; [tauto|]. intros. split; [lia|tauto]. Qed.
Lemma calls_trans : forall f a b c, ext a b -> ext b c -> calls_spec f a b -> calls_spec f b c -> calls_spec f a c.
Proof.
  intros f a b c Eab Ebc (n1 & H1 & G1) (n2 & H2 & G2). exists (n1 ++ n2). split; [rewrite H2, H1, app_assoc; reflexivity|].
  intros n. destruct (G1 n) as [A1 B1], (G2 n) as [A2 B2]. split.
  - rewrite in_app_iff. intros [X|X]; [auto|]. specialize (A2 X). destruct (name_find n (l_map a)) eqn:Q; [|reflexivity].
    erewrite ext_find in A2 by eauto. discriminate.
  - intros Hf. destruct (B1 Hf) as [C1 D1], (B2 Hf) as [C2 D2]. split.
    + rewrite count_occ_app. destruct (count_occ (list_eq_dec Z.eq_dec) n1 n) eqn:Q; [lia|].
      assert (In n n1) as X1 by (apply (count_occ_In (list_eq_dec Z.eq_dec)); lia).
      destruct (count_occ (list_eq_dec Z.eq_dec) n2 n) eqn:Q2; [lia|].
      assert (In n n2) as X2 by (apply (count_occ_In (list_eq_dec Z.eq_dec)); lia).
      exfalso. apply (D1 X1). auto.
    + rewrite in_app_iff. intros [X|X]; [|auto]. specialize (D1 X). destruct (name_find n (l_map b)) eqn:Q; [|congruence].
      erewrite ext_find by eauto. discriminate.
Qed.

Definition success_spec (f : list Z -> option F) (s s' : loading) : Prop := l_success s' = true -> l_success s = true.

Lemma entry_ok : forall P f src s i s', linv P (l_map s) (l_anims s) -> load_entry f src s = Some (i, s') ->
  (forall n a, listed_name src = Some n -> provides f src a -> P n a) ->
  linv P (l_map s') (l_anims s') /\ ext s s' /\ entry_spec f src i s' /\ calls_spec f s s' /\ (l_success s = false -> l_success s' = false) /\
  (l_success s = true -> l_success s' = false -> exists n, src = SFile n /\ listed_name src = Some n /\ i = kInvalidAnimIndex).
Proof.
  intros P f src s i s' Hi H HP. unfold AnimTableModel.load_entry in H. unfold entry_spec.
  assert (forall i0, Some (i0, s) = Some (i, s') -> i = i0 /\ s' = s) as Keep by (intros i0 X; injection X; auto).
  destruct src as [|n|fb]; cbn in H.
  - apply Keep in H. destruct H as [-> ->]. cbn. split; [auto|]. split; [apply ext_refl|]. split; [auto|]. split; [apply calls_refl|]. split; [auto|]. congruence.
  - destruct n as [|x n].
    + apply Keep in H. destruct H as [-> ->]. cbn. split; [auto|]. split; [apply ext_refl|]. split; [auto|]. split; [apply calls_refl|]. split; [auto|]. congruence.
    + destruct (name_find (x :: n) (l_map s)) as [k|] eqn:E.
      * apply Keep in H. destruct H as [-> ->]. cbn. split; [auto|]. split; [apply ext_refl|]. split; [auto|]. split; [apply calls_refl|]. split; [auto|]. congruence.
      * destruct (f (x :: n)) as [fb|] eqn:Ef.
        -- apply (add_anim_ok P) in H; [|exact Hi|exact E|].
           ++ cbn in H. destruct H as (A & (m & al & B1 & B2) & C & D & G). cbn in B1, B2. split; [exact A|]. split; [exists m, al; auto|].
              split; [left; exact C|]. split; [|split; congruence].
              exists [x :: n]. split; [exact G|]. intros y. split.
              ** intros [<-|[]]. exact E.
              ** intros Hy. split; [apply count_one|]. intros [<-|[]]. congruence.
           ++ intros a Da. apply (HP (x :: n) a); [reflexivity|]. cbn. eauto.
        -- injection H as <- <-. cbn. split; [auto|]. split; [exists [], []; cbn; rewrite !app_nil_r; auto|].
           split; [right; auto|]. split; [|split; [auto|intros; exists (x :: n); auto]].
           exists [x :: n]. split; [reflexivity|]. intros y. split.
           ++ intros [<-|[]]. exact E.
           ++ intros Hy. split; [apply count_one|]. intros [<-|[]]. congruence.
  - destruct (fb_name fb) as [n|] eqn:En; [|discriminate]. cbn in H. destruct n as [|x n].
    + apply Keep in H. destruct H as [-> ->]. cbn. rewrite En. split; [auto|]. split; [apply ext_refl|]. split; [auto|]. split; [apply calls_refl|]. split; [auto|]. congruence.
    + cbn in HP |- *. rewrite En in HP |- *. destruct (name_find (x :: n) (l_map s)) as [k|] eqn:E.
      * apply Keep in H. destruct H as [-> ->]. split; [auto|]. split; [apply ext_refl|]. split; [auto|]. split; [apply calls_refl|]. split; [auto|]. congruence.
      * apply (add_anim_ok P) in H; [|exact Hi|exact E|].
        -- destruct H as (A & B & C & D & G). split; [exact A|]. split; [exact B|]. split; [left; exact C|]. split; [|split; congruence].
           exists []. rewrite app_nil_r. split; [exact G|]. intros y. cbn. split; [tauto|]. split; [lia|tauto].
        -- intros a Da. apply (HP (x :: n) a); auto.
Qed.

Lemma entry_spec_ext : forall f src i s s', ext s s' -> (l_success s = false -> l_success s' = false) -> entry_spec f src i s -> entry_spec f src i s'.
Proof.
  intros f src i s s' E Hs. unfold entry_spec. destruct (listed_name src); [|auto]. intros [H|(H1 & H2 & H3 & H4)]; [left; eapply ext_find; eauto|right; auto].
Qed.

Lemma list_ok : forall P f srcs s ids s', linv P (l_map s) (l_anims s) -> load_list f srcs s = Some (ids, s') ->
  (forall src n a, In src srcs -> listed_name src = Some n -> provides f src a -> P n a) ->
  linv P (l_map s') (l_anims s') /\ ext s s' /\ Forall2 (fun src i => entry_spec f src i s') srcs ids /\ calls_spec f s s' /\ (l_success s = false -> l_success s' = false) /\
  (l_success s = true -> l_success s' = false -> exists k n, getz srcs k = Some (SFile n) /\ listed_name (SFile n) = Some n /\ getz ids k = Some kInvalidAnimIndex).
Proof.
  intros P f srcs. induction srcs as [|src srcs IH]; intros s ids s' Hi H HP; cbn in H.
  - injection H as <- <-. split; [auto|]. split; [apply ext_refl|]. split; [constructor|]. split; [apply calls_refl|]. split; [auto|]. congruence.
  - destruct (load_entry f src s) as [[i s1]|] eqn:E1; [|discriminate]. cbn in H.
    destruct (load_list f srcs s1) as [[is s2]|] eqn:E2; [|discriminate]. cbn in H. injection H as <- <-.
    eapply entry_ok in E1; [|eassumption|intros; eapply HP; [left; reflexivity|eassumption|eassumption]].
    destruct E1 as (A1 & B1 & C1 & D1 & G1 & F1).
    eapply IH in E2; [|eassumption|intros; eapply HP; [right; eassumption|eassumption|eassumption]].
    destruct E2 as (A2 & B2 & C2 & D2 & G2 & F2).
    split; [auto|]. split; [eapply ext_trans; eauto|]. split; [constructor; [eapply entry_spec_ext; eauto|auto]|].
    split; [eapply calls_trans; eauto|]. split; [auto|]. intros Hs Hs'.
    destruct (l_success s1) eqn:Q.
    + destruct (F2 eq_refl Hs') as (k & n & X & Y & W). pose proof (getz_Some _ _ _ X). exists (k + 1), n.
      replace (src :: srcs) with ([src] ++ srcs) by reflexivity. replace (i :: is) with ([i] ++ is) by reflexivity.
      rewrite !getz_app2 by (cbn; lia). change (len [src]) with 1. change (len [i]) with 1. replace (k + 1 - 1) with k by lia. auto.
    + destruct (F1 Hs eq_refl) as (n & -> & Y & ->). exists 0, n. split; [reflexivity|]. split; [exact Y|]. reflexivity.
Qed.

Lemma Forall2_impl : forall A B (P Q : A -> B -> Prop) l l', (forall x y, P x y -> Q x y) -> Forall2 P l l' -> Forall2 Q l l'.
Proof. intros A B P Q l l' H G. induction G; constructor; auto. Qed.
Lemma lists_ok : forall P f lists s ids s', linv P (l_map s) (l_anims s) -> load_lists f lists s = Some (ids, s') ->
  (forall l src n a, In l lists -> In src l -> listed_name src = Some n -> provides f src a -> P n a) ->
  linv P (l_map s') (l_anims s') /\ ext s s' /\ Forall2 (fun srcs is => Forall2 (fun src i => entry_spec f src i s') srcs is) lists ids /\ calls_spec f s s' /\
  (l_success s = false -> l_success s' = false) /\
  (l_success s = true -> l_success s' = false -> exists o k srcs is n, getz lists o = Some srcs /\ getz srcs k = Some (SFile n) /\ listed_name (SFile n) = Some n /\ getz ids o = Some is /\ getz is k = Some kInvalidAnimIndex).
Proof.
  intros P f lists. induction lists as [|l lists IH]; intros s ids s' Hi H HP; cbn in H.
  - injection H as <- <-. split; [auto|]. split; [apply ext_refl|]. split; [constructor|]. split; [apply calls_refl|]. split; [auto|]. congruence.
  - destruct (load_list f l s) as [[i s1]|] eqn:E1; [|discriminate]. cbn in H.
    destruct (load_lists f lists s1) as [[is s2]|] eqn:E2; [|discriminate]. cbn in H. injection H as <- <-.
    eapply list_ok in E1; [|eassumption|intros; eapply HP; [left; reflexivity|eassumption|eassumption|eassumption]].
    destruct E1 as (A1 & B1 & C1 & D1 & G1 & F1).
    eapply IH in E2; [|eassumption|intros; eapply HP; [right; eassumption|eassumption|eassumption|eassumption]].
    destruct E2 as (A2 & B2 & C2 & D2 & G2 & F2).
    split; [auto|]. split; [eapply ext_trans; eauto|].
    split; [constructor; [|auto]; eapply Forall2_impl; [|exact C1]; intros; eapply entry_spec_ext; eauto|].
    split; [eapply calls_trans; eauto|]. split; [auto|]. intros Hs Hs'.
    destruct (l_success s1) eqn:Q.
    + destruct (F2 eq_refl Hs') as (o & k & ss & ii & n & X & W). pose proof (getz_Some _ _ _ X). exists (o + 1), k, ss, ii, n.
      replace (l :: lists) with ([l] ++ lists) by reflexivity. replace (i :: is) with ([i] ++ is) by reflexivity.
      rewrite !getz_app2 by (cbn; lia). change (len [l]) with 1. change (len [i]) with 1. replace (o + 1 - 1) with o by lia. auto.
    + destruct (F1 Hs eq_refl) as (k & n & X & Y & W). exists 0, k, l, i, n. split; [reflexivity|]. auto.
Qed.

Lemma Forall2_getz : forall A B (P : A -> B -> Prop) l l', Forall2 P l l' -> forall i x, getz l i = Some x -> exists y, getz l' i = Some y /\ P x y.
Proof.
  intros A B P l l' H. induction H as [|x y l l' Hxy H IH]; intros i z Hz.
  - rewrite getz_None in Hz; [discriminate|]. unfold len; cbn; lia.
  - pose proof (getz_Some _ _ _ Hz) as R0. rewrite len_cons in R0.
    replace (x :: l) with ([x] ++ l) in Hz by reflexivity. replace (y :: l') with ([y] ++ l') by reflexivity.
    destruct (Z.eq_dec i 0) as [->|N].
    + cbn in Hz. injection Hz as <-. exists y. split; [reflexivity|exact Hxy].
    + rewrite getz_app2 in Hz by (cbn; lia). rewrite getz_app2 by (cbn; lia). apply IH in Hz. exact Hz.
Qed.

Lemma load_inv : forall f lists t ok t' calls, load f lists t = Some (ok, t', calls) ->
  exists s', load_lists f lists (Loading (name_map t) (anims t) true []) = Some (indices t', s') /\ name_map t' = l_map s' /\ anims t' = l_anims s' /\ ok = l_success s' /\ calls = l_calls s'.
Proof.
  intros f lists t ok t' calls H. unfold AnimTableModel.load in H.
  destruct (load_lists f lists (Loading (name_map t) (anims t) true [])) as [[ids s]|] eqn:E; [|discriminate]. cbn in H.
  unfold calculate_defining_anims in H. cbn in H. destruct (((len ids =? 0) || (0 <? max_anim_index ids))%bool); [|discriminate]. cbn in H.
  match type of H with context[calculate_loop ?a ?b ?c ?d] => destruct (calculate_loop a b c d); [|discriminate] end. cbn in H. injection H as <- <- <-. cbn.
  exists s. auto.
Qed.

Lemma linv_impl : forall (P Q : list Z -> rig -> Prop) m al, (forall n a, P n a -> Q n a) -> linv P m al -> linv Q m al.
Proof. intros P Q m al H (A & B & C). split; [auto|]. split; [|auto]. eapply Forall2_impl; [|exact B]. cbn. auto. Qed.
Lemma loaded_inv : forall h t, loaded h t -> linv (provided h) (name_map t) (anims t).
Proof.
  intros h t H. induction H as [|h t f lists ok t' calls H IH HL].
  - split; [constructor|]. split; [constructor|]. intros k nk E. cbn in E. rewrite getz_None in E; [discriminate|]. unfold len; cbn; lia.
  - apply load_inv in HL. destruct HL as (s' & E & -> & -> & _).
    eapply (lists_ok (provided ((f, lists) :: h))) in E; [tauto| |].
    + cbn. eapply linv_impl; [|exact IH]. intros n a (f0 & l0 & l & src & X & Y). exists f0, l0, l, src. split; [right; exact X|exact Y].
    + intros l src n a X1 X2 X3 X4. exists f, lists, l, src. split; [left; reflexivity|auto].
Qed.

Lemma In_getz : forall A (l : list A) x, In x l -> exists i, getz l i = Some x.
Proof.
  induction l as [|y l IH]; intros x []; [exists 0; subst; reflexivity|]. destruct (IH x H) as [i Hi]. pose proof (getz_Some _ _ _ Hi).
  exists (i + 1). replace (y :: l) with ([y] ++ l) by reflexivity. rewrite getz_app2 by (cbn; lia). change (len [y]) with 1. rewrite <- Hi. f_equal. lia.
Qed.

(** The index of a name is its position, when there are not too many animations. *)
Lemma find_pos : forall P m al n i, linv P m al -> len al <= 65535 -> name_find n m = Some i ->
  getz m i = Some (n, i) /\ 0 <= i < len al /\ exists a, getz al i = Some a /\ P n a.
Proof.
  intros P m al n i (N & G & K) L E. apply name_find_in in E. apply In_getz in E. destruct E as [k Hk].
  pose proof (getz_Some _ _ _ Hk) as Rk. pose proof (K _ _ Hk) as Ki. cbn in Ki. pose proof (Forall2_len _ _ _ _ _ G) as L'.
  unfold to_anim_index in Ki. rewrite Z.mod_small in Ki by lia. subst i. split; [exact Hk|]. split; [lia|].
  destruct (Forall2_getz _ _ _ _ _ G _ _ Hk) as (a & Ha & Pa). eauto.
Qed.

(** *** C61: after loading, every entry (object, index) yields an animation that was
    provided under its listed name, the same that QueryByName yields; an entry that lists
    nothing, or that lists a file that cannot be read, yields none. *)
Theorem C61_query_partial : forall h t f lists, loaded ((f, lists) :: h) t -> len (anims t) <= 65535 ->
  forall object idx l src, getz lists object = Some l -> getz l idx = Some src ->
  match listed_name src with
  | None => query t object idx = Some None
  | Some n =>
      (exists p a, query t object idx = Some (Some p) /\ query_by_name t n = Some (Some p) /\ getz (anims t) p = Some a /\ provided ((f, lists) :: h) n a) \/
      (query t object idx = Some None /\ src = SFile n /\ f n = None)
  end.
Proof.
  intros h t f lists H L object idx l src Hl Hs. pose proof (loaded_inv _ _ H) as Inv.
  inversion H as [|h0 t0 f0 lists0 ok t' calls H0 HL]; subst. apply load_inv in HL. destruct HL as (s' & E & Em & Ea & _).
  eapply (lists_ok (fun _ _ => True)) in E; [|cbn|auto].
  2:{ eapply linv_impl; [|exact (loaded_inv _ _ H0)]. auto. }
  destruct E as (_ & _ & E & _). destruct (Forall2_getz _ _ _ _ _ E _ _ Hl) as (is & Hi & Fi).
  destruct (Forall2_getz _ _ _ _ _ Fi _ _ Hs) as (i & Hii & Sp). unfold entry_spec in Sp. unfold query. rewrite Hi. cbn. rewrite Hii. cbn.
  destruct (listed_name src) as [n|] eqn:En.
  - destruct Sp as [Sp|(-> & -> & Hf & _)].
    + left. rewrite <- Em in Sp. destruct (find_pos _ _ _ _ _ Inv L Sp) as (_ & Ri & a & Ha & Pa).
      exists i, a. replace (i =? kInvalidAnimIndex) with false by (symmetry; apply Z.eqb_neq; unfold kInvalidAnimIndex; lia).
      unfold query_by_name. rewrite Sp, Ha. cbn. auto.
    + right. rewrite Z.eqb_refl. auto.
  - subst i. rewrite Z.eqb_refl. reflexivity.
Qed.

(** *** C61: different names never yield the same animation object, and there are as many
    animations as names. *)
Theorem C61_distinct_names_partial : forall h t, loaded h t -> len (anims t) <= 65535 ->
  (forall n n' p, query_by_name t n = Some (Some p) -> query_by_name t n' = Some (Some p) -> n = n') /\
  (forall p, 0 <= p < len (anims t) -> exists n, query_by_name t n = Some (Some p)).
Proof.
  intros h t H L. pose proof (loaded_inv _ _ H) as Inv.
  assert (forall n p, query_by_name t n = Some (Some p) -> getz (name_map t) p = Some (n, p)) as X.
  { intros n p Q. unfold query_by_name in Q. destruct (name_find n (name_map t)) as [i|] eqn:E; [|discriminate].
    destruct (getz (anims t) i); [|discriminate]. cbn in Q. injection Q as <-. eapply find_pos in E; [|exact Inv|exact L]. tauto. }
  split.
  - intros n n' p Q Q'. apply X in Q. apply X in Q'. congruence.
  - intros p Hp. destruct Inv as (N & G & K). pose proof (Forall2_len _ _ _ _ _ G) as L'.
    destruct (getz_in_range (name_map t) p ltac:(lia)) as [[n i] Hi].
    pose proof (K _ _ Hi) as Ki. cbn in Ki. unfold to_anim_index in Ki. rewrite Z.mod_small in Ki by lia. subst i.
    exists n. destruct (name_find n (name_map t)) as [i|] eqn:E.
    + destruct (find_pos (provided h) _ _ _ _ (conj N (conj G K)) L E) as (A & B & a & C & _).
      assert (i = p) as ->.
      { clear - N A Hi. apply (f_equal (option_map fst)) in A, Hi. cbn in A, Hi.
        assert (forall k, option_map fst (getz (name_map t) k) = getz (map fst (name_map t)) k) as M.
        { intros k. unfold getz. destruct (k <? 0); [reflexivity|]. rewrite nth_error_map. reflexivity. }
        rewrite M in A, Hi. pose proof (getz_Some _ _ _ A) as R1. pose proof (getz_Some _ _ _ Hi) as R2.
        unfold getz in A, Hi. replace (i <? 0) with false in A by lia. replace (p <? 0) with false in Hi by lia.
        assert (Z.to_nat i = Z.to_nat p) as X; [|lia].
        eapply (proj1 (NoDup_nth_error _) N); [apply nth_error_Some; congruence|congruence]. }
      unfold query_by_name. rewrite E, C. reflexivity.
    + exfalso. apply name_find_none in E. apply E. change n with (fst (n, p)). apply in_map. eapply nth_error_In. unfold getz in Hi.
      destruct (p <? 0); [discriminate|]. exact Hi.
Qed.

(** *** C61: a call of Load asks for a file only when its name is not yet in the table, and
    asks for a file that can be read at most once. *)
Theorem C61_loads_once : forall h t f lists ok t' calls, loaded h t -> load f lists t = Some (ok, t', calls) ->
  forall n, (In n calls -> query_by_name t n = Some None) /\ (f n <> None -> (count_occ (list_eq_dec Z.eq_dec) calls n <= 1)%nat).
Proof.
  intros h t f lists ok t' calls H HL n. apply load_inv in HL. destruct HL as (s' & E & _ & _ & _ & Ec).
  eapply (lists_ok (fun _ _ => True)) in E; [|cbn|auto].
  2:{ eapply linv_impl; [|exact (loaded_inv _ _ H)]. auto. }
  destruct E as (_ & _ & _ & (new & En & Hn) & _). cbn in En, Hn. subst calls. rewrite En. destruct (Hn n) as [A B]. split.
  - intros X. unfold query_by_name. rewrite (A X). reflexivity.
  - intros X. apply (B X).
Qed.

(** *** C61: Load returns false exactly when some listed file could not be read, and then
    that entry yields no animation. *)
Theorem C61_result : forall h t f lists ok t' calls, loaded h t -> load f lists t = Some (ok, t', calls) -> len (anims t') <= 65535 ->
  (ok = false <-> exists object idx l src n, getz lists object = Some l /\ getz l idx = Some src /\ listed_name src = Some n /\ query t' object idx = Some None).
Proof.
  intros h t f lists ok t' calls H HL L. pose proof (loaded_inv _ _ (loaded_load _ _ _ _ _ _ _ H HL)) as Inv.
  apply load_inv in HL. destruct HL as (s' & E & Em & Ea & Eo & _).
  eapply (lists_ok (fun _ _ => True)) in E; [|cbn|auto].
  2:{ eapply linv_impl; [|exact (loaded_inv _ _ H)]. auto. }
  destruct E as (_ & _ & E & _ & _ & Fl). cbn in Fl. subst ok. split.
  - intros X. destruct (Fl eq_refl X) as (o & k & srcs & is & n & Q1 & Q2 & Q3 & Q4 & Q5). exists o, k, srcs, (SFile n), n.
    split; [auto|]. split; [auto|]. split; [auto|]. unfold query. rewrite Q4. cbn. rewrite Q5. cbn. reflexivity.
  - intros (o & k & l & src & n & Q1 & Q2 & Q3 & Q4). destruct (Forall2_getz _ _ _ _ _ E _ _ Q1) as (is & Hi & Fi).
    destruct (Forall2_getz _ _ _ _ _ Fi _ _ Q2) as (i & Hii & Sp). unfold entry_spec in Sp. rewrite Q3 in Sp.
    destruct Sp as [Sp|(_ & _ & _ & X)]; [|exact X]. exfalso. rewrite <- Em in Sp.
    destruct (find_pos _ _ _ _ _ Inv L Sp) as (_ & Ri & a & Ha & _). unfold query in Q4. rewrite Hi in Q4. cbn in Q4. rewrite Hii in Q4. cbn in Q4.
    replace (i =? kInvalidAnimIndex) with false in Q4 by (symmetry; apply Z.eqb_neq; unfold kInvalidAnimIndex; lia). rewrite Ha in Q4. discriminate.
Qed.
End Names.
