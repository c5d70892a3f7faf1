(** Drawing points with characters (C132). *)
From Coq Require Import Ascii Sorted.
From Verif Require Import RBase BaseFacts CompactSplineModel CompactSplineProofs GraphModel.
Local Open Scope Z_scope.

(** The order in which pixels are drawn. *)
Definition after (a b : pixel) : Prop := snd b < snd a \/ snd b = snd a /\ fst a <= fst b.
Lemma before_false a b : before a b = false -> after b a.
Proof. unfold before, after. destruct (Z.eqb_spec (snd a) (snd b)); lia. Qed.
Lemma before_true a b : before a b = true -> after a b.
Proof. unfold before, after. destruct (Z.eqb_spec (snd a) (snd b)); lia. Qed.
Lemma in_insert x y : forall l, In x (insert_pixel y l) <-> x = y \/ In x l.
Proof. induction l as [|z l IH]; cbn [insert_pixel In]; [intuition|]. destruct (before z y); cbn [In]; [rewrite IH|]; intuition. Qed.
Lemma in_sort x : forall l, In x (sort_pixels l) <-> In x l.
Proof. induction l as [|y l IH]; cbn [sort_pixels In]; [reflexivity|]. rewrite in_insert, IH. intuition. Qed.
Lemma insert_sorted x : forall l, StronglySorted after l -> StronglySorted after (insert_pixel x l).
Proof.
  induction l as [|y l IH]; intros S; cbn [insert_pixel]; [repeat constructor|]. inversion S as [|? ? S1 F]; subst. rewrite Forall_forall in F. destruct (before y x) eqn:B.
  - constructor; [now apply IH|]. apply Forall_forall. intros z H. apply in_insert in H. destruct H as [->|H]; [now apply before_true|now apply F].
  - apply before_false in B. constructor; [exact S|]. apply Forall_forall. intros z [<-|H]; [exact B|]. specialize (F z H). unfold after in *. lia.
Qed.
Lemma sort_sorted : forall l, StronglySorted after (sort_pixels l).
Proof. induction l as [|x l IH]; cbn [sort_pixels]; [constructor|now apply insert_sorted]. Qed.
Lemma pix_eqb_spec a b : reflect (a = b) (pix_eqb a b).
Proof. unfold pix_eqb. destruct a as [a1 a2], b as [b1 b2]. cbn. destruct (Z.eqb_spec a1 b1), (Z.eqb_spec a2 b2); cbn; constructor; congruence. Qed.
Lemma filter_sorted f : forall l : list pixel, StronglySorted after l -> StronglySorted after (filter f l).
Proof.
  induction l as [|x l IH]; intros S; cbn [filter]; [constructor|]. inversion S as [|? ? S1 F]; subst. rewrite Forall_forall in F. destruct (f x); [|now apply IH]. constructor; [now apply IH|]. apply Forall_forall. intros z Z. apply filter_In in Z. now apply F.
Qed.

(** The rest of a row is drawn without looking past the end, or with something else there. *)
Definition can_look (past : option pixel) (l : list pixel) : Prop := exists g, past = Some g /\ ~ In g l.
Definition lower (row : Z) (l : list pixel) : list pixel := filter (fun p => snd p <? row) l.

Lemma skip_ok past p : forall l, StronglySorted after l -> (forall x, In x l -> after p x) -> (exists x, In x l /\ x <> p) \/ (exists g, past = Some g /\ g <> p) ->
  skip past p l = Some (filter (fun x => negb (pix_eqb x p)) l).
Proof.
  induction l as [|x l IH]; intros S A C; cbn [skip filter].
  - destruct C as [(x & [] & _)|(g & -> & N)]. destruct (pix_eqb_spec g p); [easy|]. reflexivity.
  - inversion S as [|? ? S1 F]; subst. rewrite Forall_forall in F. destruct (pix_eqb_spec x p) as [->|N]; cbn [negb].
    + apply IH; [exact S1|intros; apply A; now right|]. destruct C as [(y & [<-|Y] & NY)|C]; [easy|left; now exists y|now right].
    + f_equal. f_equal. assert (Q : forall y, In y l -> y <> p). { intros y Y ->. specialize (F p Y). specialize (A x (or_introl eq_refl)). apply N. unfold after in *. destruct x, p; cbn in *; f_equal; lia. }
      clear -Q. induction l as [|y l IH]; [reflexivity|]. cbn [filter]. destruct (pix_eqb_spec y p) as [E|_]; [now destruct (Q y (or_introl eq_refl))|]. cbn [negb]. rewrite IH at 1; [reflexivity|]. intros; apply Q; now right.
Qed.
Lemma skip_fails p : forall l, (forall x, In x l -> x = p) -> skip None p l = None.
Proof. induction l as [|x l IH]; intros A; cbn [skip]; [reflexivity|]. rewrite (A x) by now left. destruct (pix_eqb_spec p p); [|easy]. apply IH. intros; apply A; now right. Qed.
Lemma lower_all row l : (forall x, In x l -> snd x < row) -> lower row l = l.
Proof. unfold lower. induction l as [|x l IH]; intros A; [reflexivity|]. cbn [filter]. rewrite (proj2 (Z.ltb_lt _ _)) by (apply A; now left). f_equal. apply IH. intros; apply A; now right. Qed.
Lemma lower_skip row col l : lower row (filter (fun x => negb (pix_eqb x (col, row))) l) = lower row l.
Proof.
  unfold lower. induction l as [|x l IH]; [reflexivity|]. cbn [filter]. destruct (pix_eqb_spec x (col, row)) as [->|N]; cbn [negb filter snd].
  - rewrite Z.ltb_irrefl. exact IH.
  - destruct (snd x <? row); [f_equal|]; exact IH.
Qed.
(** The character of a pixel that has no point. *)
Definition background (zero row col : Z) : ascii := if col =? 0 then "|"%char else if row =? zero then "-"%char else " "%char.
Lemma background_star zero row col : background zero row col <> "*"%char.
Proof. unfold background. destruct (col =? 0), (row =? zero); discriminate. Qed.
Lemma g_getz_cons {A} (x : A) l k : getz (x :: l) k = if k =? 0 then Some x else if k <? 0 then None else getz l (k - 1).
Proof.
  destruct (Z.eqb_spec k 0) as [->|N]; [reflexivity|]. unfold getz at 1. destruct (Z.ltb_spec k 0) as [KN|KN]; [reflexivity|]. unfold getz. destruct (Z.ltb_spec (k - 1) 0); [lia|]. replace (Z.to_nat k) with (S (Z.to_nat (k - 1))) by lia. reflexivity.
Qed.
Definition drawn (zero row col : Z) (line : list ascii) (l : list pixel) : Prop :=
  (forall k, getz line k = Some "*"%char <-> 0 <= k /\ In (col + k, row) l) /\
  forall k c, getz line k = Some c -> c <> "*"%char -> c = background zero row (col + k).
Lemma drawn_nil zero row col l : (forall k, 0 <= k -> ~ In (col + k, row) l) -> drawn zero row col [] l.
Proof. intros A. split; [|intros k c H; apply getz_Some in H; cbn in H; lia]. intros k. split; [intros H; apply getz_Some in H; cbn in H; lia|]. intros [K I]. now destruct (A k K). Qed.

Lemma columns_ok past zero row : forall n col l, l <> [] -> StronglySorted after l ->
  (forall p, In p l -> snd p < row \/ snd p = row /\ col <= fst p < col + Z.of_nat n) -> lower row l <> [] \/ can_look past l ->
  exists line, columns past zero row n col l = Some (line, lower row l) /\ drawn zero row col line l.
Proof.
  induction n as [|n IH]; intros col l NE S A C.
  - exists []. cbn [columns]. assert (B : forall p, In p l -> snd p < row) by (intros p P; specialize (A p P); lia). rewrite lower_all by exact B. split; [reflexivity|]. apply drawn_nil. intros k _ I. specialize (B _ I). cbn in B. lia.
  - destruct l as [|h l]; [easy|]. pose proof S as SS. inversion S as [|? ? S1 F]; subst. rewrite Forall_forall in F. cbn [columns at_q tl]. destruct (pix_eqb_spec h (col, row)) as [->|N].
    + assert (LO : lower row ((col, row) :: l) = lower row l) by (unfold lower; cbn [filter snd]; rewrite Z.ltb_irrefl; reflexivity). rewrite LO in C |- *.
      assert (CS : (exists x, In x l /\ x <> (col, row)) \/ (exists g, past = Some g /\ g <> (col, row))).
      { destruct C as [C|(g & G & NG)].
        - left. destruct (lower row l) as [|x r] eqn:E; [easy|]. exists x. assert (I : In x (lower row l)) by (rewrite E; now left). apply filter_In in I. destruct I as [I J]. split; [exact I|]. intros ->. cbn in J. lia.
        - right. exists g. split; [exact G|]. intros ->. apply NG. now left. }
      rewrite (skip_ok past (col, row) l S1 F CS). set (l' := filter _ l).
      assert (IN : forall x, In x l' <-> In x l /\ x <> (col, row)). { intros x. unfold l'. rewrite filter_In. destruct (pix_eqb_spec x (col, row)); cbn; intuition discriminate. }
      destruct l' as [|y r] eqn:L'.
      * exists ["*"%char]. assert (E : lower row l = []). { rewrite <- (lower_skip row col). unfold l' in L'. rewrite L'. reflexivity. } rewrite E. split; [reflexivity|]. split.
        -- intros k. rewrite g_getz_cons. destruct (Z.eqb_spec k 0) as [->|NK]; [split; [intros _; split; [lia|left; f_equal; lia]|reflexivity]|]. split.
           ++ destruct (Z.ltb_spec k 0) as [KN|KN]; [discriminate|]. intros H. apply getz_Some in H. cbn in H. lia.
           ++ intros [K [Q|Q]]; [injection Q; lia|]. destruct (proj2 (IN (col + k, row))). split; [exact Q|]. intros E2. injection E2. lia.
        -- intros k c. rewrite g_getz_cons. destruct (Z.eqb_spec k 0) as [KZ|KZ]; [intros H; injection H as <-; easy|]. destruct (Z.ltb_spec k 0) as [KN|KN]; [discriminate|]. intros H. apply getz_Some in H. cbn in H. lia.
      * rewrite <- L' in IN |- *. assert (NL : l' <> []) by (rewrite L'; discriminate).
        assert (SL : StronglySorted after l') by (apply filter_sorted; exact S1).
        assert (AL : forall p, In p l' -> snd p < row \/ snd p = row /\ col + 1 <= fst p < col + 1 + Z.of_nat n).
        { intros p P. apply IN in P. destruct P as [P NP]. destruct (A p (or_intror P)) as [Q|[Q1 Q2]]; [now left|]. right. split; [exact Q1|]. destruct (Z.eq_dec (fst p) col) as [E|]; [|lia]. destruct NP. destruct p; cbn in *; congruence. }
        assert (LL : lower row l' = lower row l) by apply lower_skip.
        destruct (IH (col + 1) l' NL SL AL) as (line & E & D1 & D2).
        { rewrite LL. destruct C as [C|(g & G & NG)]; [now left|]. right. exists g. split; [exact G|]. intros I. apply NG. right. now apply IN. }
        exists ("*"%char :: line). fold l'. rewrite E. cbn [fst snd]. rewrite LL. split; [reflexivity|]. split.
        -- intros k. rewrite g_getz_cons. destruct (Z.eqb_spec k 0) as [->|NK]; [split; [intros _; split; [lia|left; f_equal; lia]|reflexivity]|]. destruct (Z.ltb_spec k 0) as [KN|KN]; [split; [discriminate|lia]|]. rewrite D1. replace (col + 1 + (k - 1)) with (col + k) by lia. rewrite IN. split.
           ++ intros [K [Q _]]. split; [lia|now right].
           ++ intros [K [Q|Q]]; [injection Q; lia|]. split; [lia|]. split; [exact Q|]. intros E2. injection E2. lia.
        -- intros k c. rewrite g_getz_cons. destruct (Z.eqb_spec k 0) as [KZ|KZ]; [intros H; injection H as <-; easy|]. destruct (Z.ltb_spec k 0) as [KN|KN]; [discriminate|]. intros H NC. rewrite (D2 _ _ H NC). f_equal. lia.
    + assert (GT : forall p, In p (h :: l) -> snd p < row \/ snd p = row /\ col + 1 <= fst p < col + 1 + Z.of_nat n).
      { intros p P. destruct (A p P) as [Q|[Q1 Q2]]; [now left|]. right. split; [exact Q1|]. destruct (A h (or_introl eq_refl)) as [H|[H1 H2]].
        - destruct P as [<-|P]; [lia|]. specialize (F p P). unfold after in F. lia.
        - assert (fst h <> col) by (intros E; apply N; destruct h; cbn in *; congruence). destruct P as [<-|P]; [lia|]. specialize (F p P). unfold after in F. lia. }
      destruct (IH (col + 1) (h :: l) NE SS GT C) as (line & E & D1 & D2).
      assert (NI : ~ In (col, row) (h :: l)) by (intros I; specialize (GT _ I); cbn in GT; lia).
      assert (K : forall ch, ch = background zero row col -> drawn zero row col (ch :: line) (h :: l)).
      { intros ch ->. split.
        - intros k. rewrite g_getz_cons. destruct (Z.eqb_spec k 0) as [->|NK].
          + split; [intros Q; injection Q as Q; now apply background_star in Q|]. rewrite Z.add_0_r. intros [_ I]. now apply NI in I.
          + destruct (Z.ltb_spec k 0) as [KN|KN]; [split; [discriminate|lia]|]. rewrite D1. replace (col + 1 + (k - 1)) with (col + k) by lia. split; intros [? ?]; (split; [lia|assumption]).
        - intros k c. rewrite g_getz_cons. destruct (Z.eqb_spec k 0) as [->|NK]; [intros Q; injection Q as <-; intros _; f_equal; lia|]. destruct (Z.ltb_spec k 0) as [KN|KN]; [discriminate|]. intros H NC. rewrite (D2 _ _ H NC). f_equal. lia. }
      unfold background in K. destruct (col =? 0); [exists ("|"%char :: line); rewrite E; split; [reflexivity|now apply K]|]. destruct (row =? zero); [exists ("-"%char :: line); rewrite E; split; [reflexivity|now apply K]|].
      destruct (Z.ltb_spec (snd h) row) as [LT|GE]; [|exists (" "%char :: line); rewrite E; split; [reflexivity|now apply K]].
      exists []. assert (AB : forall p, In p (h :: l) -> snd p < row) by (intros p [<-|P]; [exact LT|]; specialize (F p P); unfold after in F; lia). rewrite (lower_all row) by exact AB. split; [reflexivity|]. apply drawn_nil. intros k _ I. specialize (AB _ I). cbn in AB. lia.
Qed.
Lemma columns_fails zero row : forall n col l, l <> [] -> StronglySorted after l -> (forall p, In p l -> snd p = row /\ col <= fst p < col + Z.of_nat n) ->
  columns None zero row n col l = None.
Proof.
  induction n as [|n IH]; intros col l NE S A; (destruct l as [|h l]; [easy|]); [specialize (A h (or_introl eq_refl)); lia|].
  pose proof S as SS. inversion S as [|? ? S1 F]; subst. rewrite Forall_forall in F. cbn [columns at_q tl]. destruct (pix_eqb_spec h (col, row)) as [->|N].
  - destruct (existsb (fun x => negb (pix_eqb x (col, row))) l) eqn:EX.
    + apply existsb_exists in EX. destruct EX as (x & X & NX). rewrite skip_ok; [|exact S1|exact F|left; exists x; split; [exact X|]; destruct (pix_eqb_spec x (col, row)); easy].
      set (l' := filter _ l). assert (IN : forall x, In x l' <-> In x l /\ x <> (col, row)). { intros y. unfold l'. rewrite filter_In. destruct (pix_eqb_spec y (col, row)); cbn; intuition discriminate. }
      assert (I : In x l') by (apply IN; split; [exact X|]; destruct (pix_eqb_spec x (col, row)); easy). destruct l' as [|y r] eqn:L'; [easy|]. rewrite <- L' in *. rewrite IH; [reflexivity|rewrite L'; discriminate|apply filter_sorted; exact S1|].
      intros p P. apply IN in P. destruct P as [P NP]. destruct (A p (or_intror P)) as [Q1 Q2]. split; [exact Q1|]. destruct (Z.eq_dec (fst p) col) as [E|]; [|lia]. destruct NP. destruct p; cbn in *; congruence.
    + rewrite skip_fails; [reflexivity|]. intros x X. destruct (pix_eqb_spec x (col, row)) as [E|NX]; [exact E|]. assert (Q : existsb (fun x => negb (pix_eqb x (col, row))) l = true) by (apply existsb_exists; exists x; split; [exact X|]; destruct (pix_eqb_spec x (col, row)); easy). congruence.
  - rewrite (IH (col + 1) (h :: l)); [|discriminate|exact SS|].
    + destruct (A h (or_introl eq_refl)) as [HR _]. rewrite (proj2 (Z.ltb_ge (snd h) row)) by lia. destruct (col =? 0), (row =? zero); reflexivity.
    + intros p P. destruct (A p P) as [Q1 Q2]. split; [exact Q1|]. destruct (A h (or_introl eq_refl)) as [H1 H2]. assert (fst h <> col) by (intros E; apply N; destruct h; cbn in *; congruence). destruct P as [<-|P]; [lia|]. specialize (F p P). unfold after in F. lia.
Qed.
Lemma rows_ok past zero sx : 0 <= sx -> forall n row l, Z.of_nat n = row + 1 -> l <> [] -> StronglySorted after l ->
  (forall p, In p l -> 0 <= fst p <= sx /\ 0 <= snd p <= row) -> (exists p, In p l /\ snd p = 0) -> can_look past l ->
  exists lines, rows past zero sx n row l = Some lines /\ len lines = row + 1 /\
    forall r, 0 <= r <= row -> exists line, getz lines (row - r) = Some line /\ drawn zero r 0 line l.
Proof.
  intros SX. induction n as [|n IH]; intros row l N NE S A (p0 & P0 & Z0) C; [specialize (A p0 P0); lia|]. cbn [rows].
  destruct (columns_ok past zero row (Z.to_nat (sx + 1)) 0 l NE S) as (line & E & D).
  { intros p P. destruct (A p P) as [X Y]. destruct (Z.eq_dec (snd p) row) as [Q|Q]; [right; split; [exact Q|lia]|left; lia]. }
  { now right. }
  rewrite E. cbn [fst snd]. assert (LI : forall x, In x (lower row l) <-> In x l /\ snd x < row) by (intros x; unfold lower; rewrite filter_In, Z.ltb_lt; reflexivity).
  destruct (lower row l) as [|y q] eqn:L.
  - assert (R0 : row = 0). { destruct (A p0 P0) as [_ Y]. destruct (Z.eq_dec row 0) as [Q|Q]; [exact Q|]. destruct (proj2 (LI p0)). split; [exact P0|lia]. }
    exists [line]. split; [reflexivity|]. split; [rewrite R0; reflexivity|]. intros r R. replace (row - r) with 0 by lia. exists line. split; [reflexivity|]. now replace r with row by lia.
  - rewrite <- L in *. assert (RP : 0 < row). { assert (I : In y (lower row l)) by (rewrite L; now left). apply LI in I. destruct I as [I J]. specialize (A y I). lia. }
    destruct (IH (row - 1) (lower row l)) as (lines & E2 & LN & DR).
    + lia.
    + rewrite L. discriminate.
    + now apply filter_sorted.
    + intros p P. apply LI in P. destruct P as [P Q]. specialize (A p P). lia.
    + exists p0. split; [apply LI; split; [exact P0|lia]|exact Z0].
    + destruct C as (g & G & NG). exists g. split; [exact G|]. intros I. apply LI in I. now apply NG.
    + rewrite E2. exists (line :: lines). split; [reflexivity|]. split; [rewrite len_cons; lia|]. intros r R. rewrite g_getz_cons. destruct (Z.eqb_spec (row - r) 0) as [Q|Q]; [exists line; split; [reflexivity|now replace r with row by lia]|].
      rewrite (proj2 (Z.ltb_ge (row - r) 0)) by lia. destruct (DR r ltac:(lia)) as (x & X & D1 & D2). exists x. replace (row - r - 1) with (row - 1 - r) by lia. split; [exact X|]. split; [|exact D2]. intros k. rewrite D1, LI. cbn [snd]. intuition lia.
Qed.
Lemma rows_fails zero sx : 0 <= sx -> forall n row l, Z.of_nat n = row + 1 -> l <> [] -> StronglySorted after l ->
  (forall p, In p l -> 0 <= fst p <= sx /\ 0 <= snd p <= row) -> rows None zero sx n row l = None.
Proof.
  intros SX. induction n as [|n IH]; intros row l N NE S A; [destruct l as [|p l]; [easy|]; specialize (A p (or_introl eq_refl)); lia|]. cbn [rows].
  assert (LI : forall x, In x (lower row l) <-> In x l /\ snd x < row) by (intros x; unfold lower; rewrite filter_In, Z.ltb_lt; reflexivity).
  destruct (lower row l) as [|y q] eqn:L.
  - rewrite columns_fails; [reflexivity|exact NE|exact S|]. intros p P. destruct (A p P) as [X Y]. split; [|lia]. destruct (Z.eq_dec (snd p) row) as [Q|Q]; [exact Q|]. destruct (proj2 (LI p)). split; [exact P|lia].
  - destruct (columns_ok None zero row (Z.to_nat (sx + 1)) 0 l NE S) as (line & E & _).
    { intros p P. destruct (A p P) as [X Y]. destruct (Z.eq_dec (snd p) row) as [Q|Q]; [right; split; [exact Q|lia]|left; lia]. }
    { left. rewrite L. discriminate. }
    rewrite E, L. cbn [fst snd]. rewrite <- L in *. rewrite (IH (row - 1) (lower row l)); [try rewrite L; reflexivity|lia|rewrite L; discriminate|now apply filter_sorted|]. intros p P. apply LI in P. destruct P as [P Q]. specialize (A p P). lia.
Qed.

(** Specification.  The smallest and the greatest coordinate of points. *)
Definition lowest (f : R * R -> R) (l : list (R * R)) (m : R) : Prop := (exists p, In p l /\ f p = m) /\ forall p, In p l -> (m <= f p)%R.
Definition highest (f : R * R -> R) (l : list (R * R)) (m : R) : Prop := (exists p, In p l /\ f p = m) /\ forall p, In p l -> (f p <= m)%R.
(** [k] is the cell next to [v] when [lo, hi] is divided by [cells] cells, the first and the last at its ends. *)
Definition in_cell (lo hi : R) (cells : Z) (v : R) (k : Z) : Prop := (IZR k - 1 / 2 <= (v - lo) * IZR (cells - 1) / (hi - lo) < IZR k + 1 / 2)%R.

Lemma least_lowest f p : forall l first, f first = p -> lowest f (first :: l) (least p (map f l)).
Proof.
  intros l. revert p. induction l as [|x l IH]; intros p first E; cbn [map least].
  - split; [exists first; split; [now left|exact E]|]. intros q [<-|[]]. lra.
  - unfold Rmin. destruct (Rle_dec p (f x)) as [L|L].
    + destruct (IH p first E) as [(q & Q & QE) B]. split; [exists q; split; [destruct Q as [Q|Q]; [now left|right; now right]|exact QE]|]. intros r [R|[R|R]]; [apply B; now left| |apply B; now right]. subst. pose proof (B first (or_introl eq_refl)). lra.
    + destruct (IH (f x) x eq_refl) as [(q & Q & QE) B]. split; [exists q; split; [now right|exact QE]|]. intros r [R|[R|R]]; [|apply B; now left|apply B; now right]. subst. pose proof (B x (or_introl eq_refl)). lra.
Qed.
Lemma greatest_highest f p : forall l first, f first = p -> highest f (first :: l) (greatest p (map f l)).
Proof.
  intros l. revert p. induction l as [|x l IH]; intros p first E; cbn [map greatest].
  - split; [exists first; split; [now left|exact E]|]. intros q [<-|[]]. lra.
  - unfold Rmax. destruct (Rle_dec p (f x)) as [L|L].
    + destruct (IH (f x) x eq_refl) as [(q & Q & QE) B]. split; [exists q; split; [now right|exact QE]|]. intros r [R|[R|R]]; [|apply B; now left|apply B; now right]. subst. pose proof (B x (or_introl eq_refl)). lra.
    + destruct (IH p first E) as [(q & Q & QE) B]. split; [exists q; split; [destruct Q as [Q|Q]; [now left|right; now right]|exact QE]|]. intros r [R|[R|R]]; [apply B; now left| |apply B; now right]. subst. pose proof (B first (or_introl eq_refl)). lra.
Qed.
Lemma lowest_unique f l a b : lowest f l a -> lowest f l b -> a = b.
Proof. intros [(p & P & E) A] [(q & Q & F) B]. specialize (A q Q). specialize (B p P). lra. Qed.
Lemma highest_unique f l a b : highest f l a -> highest f l b -> a = b.
Proof. intros [(p & P & E) A] [(q & Q & F) B]. specialize (A q Q). specialize (B p P). lra. Qed.

Lemma ground_cell v : (0 <= v < 2147483647)%R -> exists k, ground v = Some k /\ 0 <= k /\ forall j, (IZR j - 1 / 2 <= v < IZR j + 1 / 2)%R <-> j = k.
Proof.
  intros V. unfold ground, to_int. destruct (Rtrunc_bounds (v + 1 / 2)) as [B _]. specialize (B ltac:(lra)). pose proof (Rtrunc_nonneg (v + 1 / 2) ltac:(lra)) as N. set (k := Rtrunc (v + 1 / 2)) in *.
  assert (K : k < 2147483648) by (apply lt_IZR; lra). rewrite (proj2 (Z.leb_le _ k)) by lia. rewrite (proj2 (Z.ltb_lt k _)) by lia. exists k. split; [reflexivity|]. split; [exact N|]. intros j. split.
  - intros J. assert (IZR j < IZR (k + 1))%R by (rewrite plus_IZR; lra). assert (IZR k < IZR (j + 1))%R by (rewrite plus_IZR; lra). apply lt_IZR in H, H0. lia.
  - intros ->. lra.
Qed.
Lemma fdiv_cell lo hi cells v inc a : (lo <= v <= hi)%R -> 2 <= cells -> fdiv (hi - lo) (IZR cells - 1) = Some inc -> fdiv (v - lo) inc = Some a ->
  (lo < hi)%R /\ (a = (v - lo) * IZR (cells - 1) / (hi - lo))%R /\ (0 <= a <= IZR (cells - 1))%R.
Proof.
  intros V C. apply IZR_le in C. unfold fdiv at 1. destruct (Reqb_spec (IZR cells - 1) 0) as [E|_]; cbn [negb]; [lra|]. intros H. injection H as <-. unfold fdiv. destruct (Reqb_spec ((hi - lo) / (IZR cells - 1)) 0) as [E|NE]; cbn [negb]; [discriminate|]. intros H. injection H as <-.
  assert (LT : (lo < hi)%R). { destruct (Rle_lt_or_eq_dec lo hi) as [L|L]; [lra|exact L|]. destruct NE. rewrite L. unfold Rminus at 1. rewrite Rplus_opp_r. unfold Rdiv. now rewrite Rmult_0_l. }
  rewrite minus_IZR. assert (EQ : ((v - lo) / ((hi - lo) / (IZR cells - 1)) = (v - lo) * (IZR cells - 1) / (hi - lo))%R) by (field; lra). split; [exact LT|]. split; [exact EQ|]. rewrite EQ.
  assert (Q : ((v - lo) * (IZR cells - 1) / (hi - lo) = (v - lo) / (hi - lo) * (IZR cells - 1))%R) by (field; lra). rewrite Q. assert (R1 : (0 <= (v - lo) / (hi - lo) <= 1)%R).
  { split; [apply Rmult_le_pos; [lra|]; left; apply Rinv_0_lt_compat; lra|]. apply Rmult_le_reg_r with (hi - lo)%R; [lra|]. unfold Rdiv. rewrite Rmult_assoc, Rinv_l by lra. lra. }
  split; [apply Rmult_le_pos; lra|]. nra.
Qed.
Lemma pixels_in mx my ix iy : forall l ps, pixels_of mx my ix iy l = Some ps -> forall c, In c ps <-> exists p, In p l /\ pixel_of mx my ix iy p = Some c.
Proof.
  induction l as [|p l IH]; intros ps; cbn [pixels_of].
  - intros H. injection H as <-. intros c. split; [easy|]. intros (p & [] & _).
  - destruct (pixel_of _ _ _ _ p) as [x|] eqn:P; [|discriminate]. destruct (pixels_of mx my ix iy l) as [r|] eqn:E; [|discriminate]. intros H. injection H as <-. intros c. cbn [In]. rewrite (IH r eq_refl c). split.
    + intros [<-|(q & Q & F)]; [exists p; split; [now left|exact P]|exists q; split; [now right|exact F]].
    + intros (q & [<-|Q] & F); [left; congruence|right; exists q; split; assumption].
Qed.
Lemma pixels_some mx my ix iy : forall l, (forall p, In p l -> exists c, pixel_of mx my ix iy p = Some c) -> exists ps, pixels_of mx my ix iy l = Some ps.
Proof.
  induction l as [|p l IH]; intros H; cbn [pixels_of]; [eexists; reflexivity|]. destruct (H p (or_introl eq_refl)) as [c ->]. destruct IH as [ps ->]; [intros; apply H; now right|]. eexists. reflexivity.
Qed.

Lemma sort_nil l : sort_pixels l = [] -> l = [].
Proof. destruct l as [|x l]; [reflexivity|]. intros H. assert (I : In x (sort_pixels (x :: l))) by (apply in_sort; now left). rewrite H in I. destruct I. Qed.

(** C132. The drawing.  If what follows the points in memory may be read and is not one of the cells, a drawing
    has one line for each row from the size down to 0, between the greatest and the smallest y; a character is
    a star if and only if a point is next to its cell; all others are the axis in the first
    column, the line of zero, or blank. *)
Theorem C132_draws : forall points size_x size_y x0 x1 y0 y1 g,
  lowest fst points x0 -> highest fst points x1 -> lowest snd points y0 -> highest snd points y1 -> (x0 < x1)%R -> (y0 < y1)%R ->
  2 <= size_x < 2147483648 -> 2 <= size_y < 2147483648 -> (y0 <= 0)%R -> ((0 - y0) * IZR size_y / (y1 - y0) < 2147483647)%R ->
  (forall p, In p points -> ~ (in_cell x0 x1 size_x (fst p) (fst g) /\ in_cell y0 y1 size_y (snd p) (snd g))) ->
  exists lines zero, graph2d (Some g) points size_x size_y = Some (Drawing y1 lines y0) /\ len lines = size_y + 1 /\
    (IZR zero - 1 / 2 <= (0 - y0) * IZR size_y / (y1 - y0) < IZR zero + 1 / 2)%R /\
    forall row, 0 <= row <= size_y -> exists line, getz lines (size_y - row) = Some line /\
      forall col, (getz line col = Some "*"%char <-> exists p, In p points /\ in_cell x0 x1 size_x (fst p) col /\ in_cell y0 y1 size_y (snd p) row) /\
        forall c, getz line col = Some c -> c <> "*"%char -> c = if col =? 0 then "|"%char else if row =? zero then "-"%char else " "%char.
Proof.
  intros points sx sy x0 x1 y0 y1 g LX HX LY HY X Y SX SY YZ ZB G. destruct points as [|p0 l]; [destruct LX as [(p & [] & _) _]|]. unfold graph2d.
  rewrite (lowest_unique _ _ _ _ (least_lowest fst (fst p0) l p0 eq_refl) LX), (highest_unique _ _ _ _ (greatest_highest fst (fst p0) l p0 eq_refl) HX), (lowest_unique _ _ _ _ (least_lowest snd (snd p0) l p0 eq_refl) LY), (highest_unique _ _ _ _ (greatest_highest snd (snd p0) l p0 eq_refl) HY).
  set (points := p0 :: l) in *. assert (BX : forall p, In p points -> (x0 <= fst p <= x1)%R) by (intros p P; destruct LX as [_ A], HX as [_ B]; specialize (A p P); specialize (B p P); lra). assert (BY : forall p, In p points -> (y0 <= snd p <= y1)%R) by (intros p P; destruct LY as [_ A], HY as [_ B]; specialize (A p P); specialize (B p P); lra).
  assert (SXR : (2 <= IZR sx)%R) by (apply IZR_le; lia). assert (SYR : (2 <= IZR sy)%R) by (apply IZR_le; lia).
  assert (FX : fdiv (x1 - x0) (IZR sx - 1) = Some ((x1 - x0) / (IZR sx - 1))%R) by (unfold fdiv; destruct (Reqb_spec (IZR sx - 1) 0); [lra|reflexivity]). assert (FY : fdiv (y1 - y0) (IZR sy - 1) = Some ((y1 - y0) / (IZR sy - 1))%R) by (unfold fdiv; destruct (Reqb_spec (IZR sy - 1) 0); [lra|reflexivity]).
  rewrite FX, FY. set (ix := ((x1 - x0) / (IZR sx - 1))%R) in *. set (iy := ((y1 - y0) / (IZR sy - 1))%R) in *.
  assert (IX : (0 < ix)%R) by (apply Rdiv_lt_0_compat; lra). assert (IY : (0 < iy)%R) by (apply Rdiv_lt_0_compat; lra).
  unfold fdiv at 1. destruct (Reqb_spec (y1 - y0) 0) as [E|_]; [lra|]. cbn [negb].
  assert (ZP : (0 <= (0 - y0) * IZR sy / (y1 - y0))%R) by (apply Rmult_le_pos; [apply Rmult_le_pos; lra|left; apply Rinv_0_lt_compat; lra]).
  destruct (ground_cell _ (conj ZP ZB)) as (zero & GZ & _ & ZC). rewrite GZ.
  assert (PC : forall p, In p points -> exists c, pixel_of x0 y0 ix iy p = Some c /\ 0 <= fst c <= sx - 1 /\ 0 <= snd c <= sy - 1 /\ forall j k, in_cell x0 x1 sx (fst p) j /\ in_cell y0 y1 sy (snd p) k <-> (j, k) = c).
  { intros p P. unfold pixel_of. assert (F1 : fdiv (fst p - x0) ix = Some ((fst p - x0) / ix)%R) by (unfold fdiv; destruct (Reqb_spec ix 0); [lra|reflexivity]). assert (F2 : fdiv (snd p - y0) iy = Some ((snd p - y0) / iy)%R) by (unfold fdiv; destruct (Reqb_spec iy 0); [lra|reflexivity]).
    destruct (fdiv_cell x0 x1 sx (fst p) ix _ (BX p P) ltac:(lia) FX F1) as (_ & E1 & R1). destruct (fdiv_cell y0 y1 sy (snd p) iy _ (BY p P) ltac:(lia) FY F2) as (_ & E2 & R2). rewrite F1, F2.
    assert (T1 : (IZR (sx - 1) <= 2147483646)%R) by (apply IZR_le; lia). assert (T2 : (IZR (sy - 1) <= 2147483646)%R) by (apply IZR_le; lia).
    destruct (ground_cell ((fst p - x0) / ix) ltac:(lra)) as (a & A1 & A2 & A3). destruct (ground_cell ((snd p - y0) / iy) ltac:(lra)) as (b & B1 & B2 & B3). rewrite A1, B1. exists (a, b). split; [reflexivity|]. cbn [fst snd].
    pose proof (proj2 (A3 a) eq_refl) as A4. pose proof (proj2 (B3 b) eq_refl) as B4. split; [split; [exact A2|]|split; [split; [exact B2|]|]].
    - assert (Q : (IZR a < IZR (sx - 1 + 1))%R) by (rewrite plus_IZR; lra). apply lt_IZR in Q. lia.
    - assert (Q : (IZR b < IZR (sy - 1 + 1))%R) by (rewrite plus_IZR; lra). apply lt_IZR in Q. lia.
    - intros j k. unfold in_cell. rewrite <- E1, <- E2, A3, B3. split; [intros [-> ->]; reflexivity|intros Q; injection Q as -> ->; split; reflexivity]. }
  destruct (pixels_some x0 y0 ix iy points) as [ps PS]; [intros p P; destruct (PC p P) as (c & C & _); now exists c|]. rewrite PS. pose proof (pixels_in _ _ _ _ _ _ PS) as IN.
  assert (INC : forall j k, In (j, k) (sort_pixels ps) <-> exists p, In p points /\ in_cell x0 x1 sx (fst p) j /\ in_cell y0 y1 sy (snd p) k).
  { intros j k. rewrite in_sort, IN. split; intros (p & P & Q); exists p; (split; [exact P|]); destruct (PC p P) as (c & C & _ & _ & D); [apply D; congruence|]. apply D in Q. congruence. }
  destruct (rows_ok (Some g) zero sx ltac:(lia) (Z.to_nat (sy + 1)) sy (sort_pixels ps)) as (lines & E & LN & DR).
  - lia.
  - intros E. apply sort_nil in E. destruct (PC p0 (or_introl eq_refl)) as (c & C & _). assert (I : In c ps) by (apply IN; exists p0; split; [now left|exact C]). rewrite E in I. destruct I.
  - apply sort_sorted.
  - intros c I. rewrite in_sort, IN in I. destruct I as (p & P & C). destruct (PC p P) as (c' & C' & B1 & B2 & _). rewrite C in C'. injection C' as <-. lia.
  - destruct LY as [(p & P & PE) _]. destruct (PC p P) as (c & C & _ & _ & D). exists c. split; [apply in_sort; apply IN; exists p; now split|]. assert (Q := proj2 (D (fst c) (snd c)) ltac:(now destruct c)). destruct Q as [QX QY].
    assert (Q0 : in_cell y0 y1 sy (snd p) 0) by (unfold in_cell; rewrite PE; replace ((y0 - y0) * IZR (sy - 1) / (y1 - y0))%R with 0%R by (field; lra); lra). assert (W := proj1 (D (fst c) 0) (conj QX Q0)). now rewrite <- W.
  - exists g. split; [reflexivity|]. destruct g as [g1 g2]. intros I. apply INC in I. destruct I as (p & P & Q). now apply (G p P).
  - rewrite E. exists lines, zero. split; [reflexivity|]. split; [exact LN|]. split; [apply ZC; reflexivity|]. intros row R. destruct (DR row R) as (line & L & D1 & D2). exists line. split; [exact L|]. intros col. split.
    + rewrite D1. rewrite Z.add_0_l, INC. split; [intros [_ H]; exact H|]. intros H. split; [|exact H]. apply INC in H. rewrite in_sort, IN in H. destruct H as (p & P & C). destruct (PC p P) as (c' & C' & B1 & _ & _). rewrite C in C'. injection C' as <-. cbn in B1. lia.
    + intros c C NC. rewrite (D2 _ _ C NC). reflexivity.
Qed.
(** It always looks past the points: without something that may be read after the last one, no points
    can be drawn at all. *)
Theorem C132_memory_refuted : forall points size_x size_y, points <> [] -> 2 <= size_x -> 2 <= size_y -> graph2d None points size_x size_y = None.
Proof.
  intros points sx sy NE SX SY. destruct points as [|p0 l]; [easy|]. unfold graph2d.
  pose proof (least_lowest fst (fst p0) l p0 eq_refl) as LX. pose proof (greatest_highest fst (fst p0) l p0 eq_refl) as HX. pose proof (least_lowest snd (snd p0) l p0 eq_refl) as LY. pose proof (greatest_highest snd (snd p0) l p0 eq_refl) as HY.
  set (x0 := least (fst p0) (map fst l)) in *. set (x1 := greatest (fst p0) (map fst l)) in *. set (y0 := least (snd p0) (map snd l)) in *. set (y1 := greatest (snd p0) (map snd l)) in *. set (points := p0 :: l) in *.
  assert (BX : forall p, In p points -> (x0 <= fst p <= x1)%R) by (intros p P; destruct LX as [_ A], HX as [_ B]; specialize (A p P); specialize (B p P); lra). assert (BY : forall p, In p points -> (y0 <= snd p <= y1)%R) by (intros p P; destruct LY as [_ A], HY as [_ B]; specialize (A p P); specialize (B p P); lra).
  destruct (fdiv (x1 - x0) (IZR sx - 1)) as [ix|] eqn:FX; [|reflexivity]. destruct (fdiv (y1 - y0) (IZR sy - 1)) as [iy|] eqn:FY; [|reflexivity]. destruct (fdiv ((0 - y0) * IZR sy) (y1 - y0)) as [z|]; [|reflexivity]. destruct (ground z) as [zero|]; [|reflexivity].
  destruct (pixels_of x0 y0 ix iy points) as [ps|] eqn:PS; [|reflexivity]. pose proof (pixels_in _ _ _ _ _ _ PS) as IN. rewrite rows_fails; [reflexivity|lia|lia| |apply sort_sorted|].
  - intros E. apply sort_nil in E. unfold points in PS. cbn [pixels_of] in PS. destruct (pixel_of x0 y0 ix iy p0); [|discriminate]. destruct (pixels_of x0 y0 ix iy l); [|discriminate]. injection PS as <-. discriminate.
  - assert (GB : forall v n k, (0 <= v <= IZR n)%R -> ground v = Some k -> 0 <= k <= n).
    { intros v n k V. unfold ground, to_int. destruct (_ && _)%bool; [|discriminate]. intros H. injection H as <-. split; [apply Rtrunc_nonneg; lra|]. destruct (Rtrunc_bounds (v + 1 / 2)) as [B _]. specialize (B ltac:(lra)). assert (Q : (IZR (Rtrunc (v + 1 / 2)) < IZR (n + 1))%R) by (rewrite plus_IZR; lra). apply lt_IZR in Q. lia. }
    intros c I. rewrite in_sort, IN in I. destruct I as (p & P & C). unfold pixel_of in C. destruct (fdiv (fst p - x0) ix) as [a|] eqn:FA; [|discriminate]. destruct (fdiv (snd p - y0) iy) as [b|] eqn:FB; [|discriminate]. destruct (ground a) as [j|] eqn:GA; [|discriminate]. destruct (ground b) as [k|] eqn:GK; [|discriminate]. injection C as <-.
    destruct (fdiv_cell _ _ _ _ _ _ (BX p P) SX FX FA) as (_ & _ & RA). destruct (fdiv_cell _ _ _ _ _ _ (BY p P) SY FY FB) as (_ & _ & RB). pose proof (GB _ _ _ RA GA). pose proof (GB _ _ _ RB GK). cbn [fst snd]. lia.
Qed.
(** No points give no drawing, and points of one height, the samples of a constant for one, can't be drawn
    whatever follows them. *)
Theorem C132_flat_refuted : forall past, (forall size_x size_y, graph2d past [] size_x size_y = Some Nothing) /\
  forall points size_x size_y y, points <> [] -> (forall p, In p points -> snd p = y) -> graph2d past points size_x size_y = None.
Proof.
  intros past. split; [reflexivity|]. intros points sx sy y NE A. destruct points as [|p0 l]; [easy|]. unfold graph2d.
  destruct (least_lowest snd (snd p0) l p0 eq_refl) as [(a & IA & EA) _]. destruct (greatest_highest snd (snd p0) l p0 eq_refl) as [(b & IB & EB) _]. rewrite <- EA, <- EB, (A a IA), (A b IB).
  destruct (fdiv _ (IZR sx - 1)); [|reflexivity]. destruct (fdiv _ (IZR sy - 1)); [|reflexivity]. unfold fdiv at 1. destruct (Reqb_spec (y - y) 0) as [_|N]; [reflexivity|]. destruct N. lra.
Qed.
(** A curve.  Every column up to the width shows the value of the curve at its place by one star, in the row next
    to it; no other column has a star. *)
Lemma samples_in f : forall n x inc p, In p (samples f n x inc) <-> exists i, 0 <= i < Z.of_nat n /\ p = (x + IZR i * inc, f (x + IZR i * inc))%R.
Proof.
  induction n as [|n IH]; intros x inc p; cbn [samples In]; [split; [easy|intros (i & I & _); lia]|]. rewrite IH. split.
  - intros [<-|(i & I & ->)]; [exists 0; split; [lia|]; replace (x + 0 * inc)%R with x by ring; reflexivity|]. exists (i + 1). split; [lia|]. rewrite plus_IZR. replace (x + (IZR i + 1) * inc)%R with (x + inc + IZR i * inc)%R by ring. reflexivity.
  - intros (i & I & ->). destruct (Z.eq_dec i 0) as [->|N]; [left; replace (x + 0 * inc)%R with x by ring; reflexivity|]. right. exists (i - 1). split; [lia|]. rewrite minus_IZR. replace (x + inc + (IZR i - 1) * inc)%R with (x + IZR i * inc)%R by ring. reflexivity.
Qed.
(** The place of a column. *)
Definition place (start end_ : R) (size_x col : Z) : R := (start + IZR col * (end_ - start) / IZR (size_x - 1))%R.
Theorem C132_curve : forall f start end_ size_x size_y y0 y1 g,
  (start < end_)%R -> 2 <= size_x < 2147483648 -> 2 <= size_y < 2147483648 ->
  (exists col, 0 <= col < size_x /\ f (place start end_ size_x col) = y0) -> (exists col, 0 <= col < size_x /\ f (place start end_ size_x col) = y1) ->
  (forall col, 0 <= col < size_x -> (y0 <= f (place start end_ size_x col) <= y1)%R) -> (y0 < y1)%R -> (y0 <= 0)%R -> ((0 - y0) * IZR size_y / (y1 - y0) < 2147483647)%R ->
  fst g < 0 ->
  exists lines, graph_on_range (Some g) f start end_ size_x size_y = Some (Drawing y1 lines y0) /\ len lines = size_y + 1 /\
    forall row, 0 <= row <= size_y -> exists line, getz lines (size_y - row) = Some line /\
      forall col, getz line col = Some "*"%char <-> 0 <= col < size_x /\ in_cell y0 y1 size_y (f (place start end_ size_x col)) row.
Proof.
  intros f a b sx sy y0 y1 g AB SX SY (c0 & C0 & E0) (c1 & C1 & E1) BD Y YZ ZB G. unfold graph_on_range.
  assert (SR : (1 <= IZR (sx - 1))%R) by (apply IZR_le; lia). unfold fdiv at 1. destruct (Reqb_spec (IZR (sx - 1)) 0) as [E|_]; [lra|]. cbn [negb]. set (inc := ((b - a) / IZR (sx - 1))%R).
  assert (PL : forall i, (a + IZR i * inc)%R = place a b sx i) by (intros i; unfold place, inc; field; lra).
  assert (IN : forall p, In p (samples f (Z.to_nat sx) a inc) <-> exists i, 0 <= i < sx /\ p = (place a b sx i, f (place a b sx i))).
  { intros p. rewrite samples_in. rewrite Z2Nat.id by lia. split; intros (i & I & ->); exists i; (split; [exact I|]); rewrite PL; reflexivity. }
  set (pts := samples f (Z.to_nat sx) a inc) in *. assert (PA : place a b sx 0 = a) by (unfold place; field; lra). assert (PB : place a b sx (sx - 1) = b) by (unfold place; field; lra).
  assert (PM : forall i, 0 <= i < sx -> (a <= place a b sx i <= b)%R).
  { intros i I. unfold place. assert (R0 : (0 <= IZR i <= IZR (sx - 1))%R) by (split; apply IZR_le; lia). assert (Q : (IZR i * (b - a) / IZR (sx - 1) = (b - a) * (IZR i / IZR (sx - 1)))%R) by (field; lra). rewrite Q. assert (U : (0 <= IZR i / IZR (sx - 1) <= 1)%R).
    { split; [apply Rmult_le_pos; [lra|left; apply Rinv_0_lt_compat; lra]|]. apply Rmult_le_reg_r with (IZR (sx - 1)); [lra|]. unfold Rdiv. rewrite Rmult_assoc, Rinv_l by lra. lra. }
    nra. }
  assert (CELL : forall i j, in_cell a b sx (place a b sx i) j <-> j = i).
  { intros i j. unfold in_cell, place. replace ((a + IZR i * (b - a) / IZR (sx - 1) - a) * IZR (sx - 1) / (b - a))%R with (IZR i) by (field; lra). split; [intros H|intros ->; lra].
    assert (H1 : (IZR j < IZR (i + 1))%R) by (rewrite plus_IZR; lra). assert (H2 : (IZR i < IZR (j + 1))%R) by (rewrite plus_IZR; lra). apply lt_IZR in H1, H2. lia. }
  destruct (C132_draws pts sx sy a b y0 y1 g) as (lines & zero & D & LN & _ & DR); try assumption.
  - split; [exists (place a b sx 0, f (place a b sx 0)); split; [apply IN; exists 0; split; [lia|reflexivity]|exact PA]|]. intros p P. apply IN in P. destruct P as (i & I & ->). cbn [fst]. now apply PM.
  - split; [exists (place a b sx (sx - 1), f (place a b sx (sx - 1))); split; [apply IN; exists (sx - 1); split; [lia|reflexivity]|exact PB]|]. intros p P. apply IN in P. destruct P as (i & I & ->). cbn [fst]. now apply PM.
  - split; [exists (place a b sx c0, f (place a b sx c0)); split; [apply IN; exists c0; now split|exact E0]|]. intros p P. apply IN in P. destruct P as (i & I & ->). cbn [snd]. now apply BD.
  - split; [exists (place a b sx c1, f (place a b sx c1)); split; [apply IN; exists c1; now split|exact E1]|]. intros p P. apply IN in P. destruct P as (i & I & ->). cbn [snd]. now apply BD.
  - intros p P [Q _]. apply IN in P. destruct P as (i & I & ->). cbn [fst] in Q. apply CELL in Q. lia.
  - exists lines. split; [exact D|]. split; [exact LN|]. intros row R. destruct (DR row R) as (line & L & W). exists line. split; [exact L|]. intros col. rewrite (proj1 (W col)). split.
    + intros (p & P & Q1 & Q2). apply IN in P. destruct P as (i & I & ->). cbn [fst snd] in *. apply CELL in Q1. subst col. now split.
    + intros [I Q]. exists (place a b sx col, f (place a b sx col)). split; [apply IN; exists col; now split|]. cbn [fst snd]. split; [now apply CELL|exact Q].
Qed.
(** The line from (0, 0) to (1, 1). *)
Example C132_curve_case : exists lines, graph_on_range (Some (-1, 0)) (fun x => x) 0 1 80 30 = Some (Drawing 1 lines 0) /\ exists line, getz lines 1 = Some line /\ getz line 79 = Some "*"%char /\ getz line 0 <> Some "*"%char.
Proof.
  assert (P : forall col, place 0 1 80 col = (IZR col / 79)%R) by (intros col; unfold place; change (80 - 1) with 79; lra).
  destruct (C132_curve (fun x => x) 0 1 80 30 0 1 (-1, 0)) as (lines & D & _ & R); try lra; try lia.
  - exists 0. split; [lia|]. rewrite P. lra.
  - exists 79. split; [lia|]. rewrite P. lra.
  - intros col C. rewrite P. assert (H : (0 <= IZR col <= 79)%R) by (split; apply IZR_le; lia). lra.
  - cbn [fst]. lia.
  - exists lines. split; [exact D|]. destruct (R 29 ltac:(lia)) as (line & L & W). exists line. split; [exact L|]. split.
    + apply W. split; [lia|]. unfold in_cell. rewrite P. change (30 - 1) with 29. lra.
    + intros H. apply W in H. destruct H as [_ H]. unfold in_cell in H. rewrite P in H. change (30 - 1) with 29 in H. lra.
Qed.
(** The default size and three points meet the conditions of [C132_draws]; the memory behind the points holds (-1, -1). *)
Definition three : list (R * R) := [(0, - 3); (1, 1); (2, 0)]%R.
Lemma three_extent : lowest fst three 0 /\ highest fst three 2 /\ lowest snd three (- 3) /\ highest snd three 1.
Proof.
  unfold lowest, highest, three. cbn [In]. repeat split.
  1: exists (0, - 3)%R. 3: exists (2, 0)%R. 5: exists (0, - 3)%R. 7: exists (1, 1)%R.
  all: try (intuition fail). all: intros p H; decompose [or] H; subst; cbn; try lra; easy.
Qed.
Lemma three_drawn : exists lines zero, graph2d (Some (-1, -1)) three 80 30 = Some (Drawing 1 lines (- 3)) /\ len lines = 31 /\
    (IZR zero - 1 / 2 <= (0 - - 3) * IZR 30 / (1 - - 3) < IZR zero + 1 / 2)%R /\
    forall row, 0 <= row <= 30 -> exists line, getz lines (30 - row) = Some line /\
      forall col, (getz line col = Some "*"%char <-> exists p, In p three /\ in_cell 0 2 80 (fst p) col /\ in_cell (- 3) 1 30 (snd p) row) /\
        forall c, getz line col = Some c -> c <> "*"%char -> c = if col =? 0 then "|"%char else if row =? zero then "-"%char else " "%char.
Proof.
  destruct three_extent as (A & B & C & D). apply (C132_draws three 80 30 0 2 (- 3) 1 (-1, -1)); try assumption; try lra; try lia.
  intros p P [Q _]. destruct A as [_ A]. specialize (A p P). unfold in_cell in Q. change (80 - 1) with 79 in Q. cbn [fst] in Q. lra.
Qed.
(** The line of zero is not where points of height zero are: for these three points, the row of the point
    (2, 0) has no dash. *)
Theorem C132_zero_refuted : exists points g lines line row col, In (2, 0)%R points /\ graph2d (Some g) points 80 30 = Some (Drawing 1 lines (- 3)) /\
  getz lines (30 - row) = Some line /\ getz line col = Some "*"%char /\ in_cell 0 2 80 2 col /\ in_cell (- 3) 1 30 0 row /\ forall k, getz line k <> Some "-"%char.
Proof.
  destruct three_drawn as (lines & zero & G & _ & Z & D). destruct (D 22 ltac:(lia)) as (line & L & W). exists three, (-1, -1), lines, line, 22, 79.
  assert (I : In (2, 0)%R three) by (unfold three; cbn [In]; tauto). assert (C1 : in_cell 0 2 80 2 79) by (unfold in_cell; change (80 - 1) with 79; lra). assert (C2 : in_cell (- 3) 1 30 0 22) by (unfold in_cell; change (30 - 1) with 29; lra).
  split; [exact I|]. split; [exact G|]. split; [exact L|]. split; [apply (W 79); exists (2, 0)%R; cbn [fst snd]; split; [exact I|split; [exact C1|exact C2]]|]. split; [exact C1|]. split; [exact C2|]. intros k H. destruct (W k) as [_ W2]. specialize (W2 _ H ltac:(discriminate)).
  assert (Z23 : zero = 23). { assert (22 < zero) by (apply lt_IZR; lra). assert (zero < 24) by (apply lt_IZR; lra). lia. } subst zero. destruct (k =? 0); discriminate.
Qed.
(** The two corners of a drawing of a line. *)
Example C132_case : exists lines zero, graph2d (Some (-1, -1)) three 80 30 = Some (Drawing 1 lines (- 3)) /\ zero = 23 /\ exists top bottom, getz lines 1 = Some top /\ getz lines 30 = Some bottom /\ getz bottom 0 = Some "*"%char /\ getz top 40 = Some "*"%char.
Proof.
  destruct three_drawn as (lines & zero & G & _ & Z & D). destruct (D 29 ltac:(lia)) as (top & T & WT). destruct (D 0 ltac:(lia)) as (bottom & B & WB). exists lines, zero. split; [exact G|].
  split; [assert (22 < zero) by (apply lt_IZR; lra); assert (zero < 24) by (apply lt_IZR; lra); lia|]. exists top, bottom. split; [exact T|]. split; [exact B|]. split.
  - apply (WB 0). exists (0, - 3)%R. cbn [fst snd]. unfold three, in_cell. cbn [In]. split; [tauto|]. change (80 - 1) with 79. change (30 - 1) with 29. lra.
  - apply (WT 40). exists (1, 1)%R. cbn [fst snd]. unfold three, in_cell. cbn [In]. split; [tauto|]. change (80 - 1) with 79. change (30 - 1) with 29. lra.
Qed.
Print Assumptions C132_draws.
Print Assumptions C132_memory_refuted.
Print Assumptions C132_flat_refuted.
Print Assumptions C132_zero_refuted.
Print Assumptions C132_curve.
