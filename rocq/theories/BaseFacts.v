(** Facts about the helpers of Base.v. *)
From Verif Require Import Base.
Ltac Zify.zify_post_hook ::= Z.div_mod_to_equations.

Section Facts.
  Context {A : Type}.
  Implicit Types (l X Y : list A).

  Lemma len_nil : len (@nil A) = 0. Proof. reflexivity. Qed.
  Lemma len_cons x l : len (x :: l) = 1 + len l.
  Proof. unfold len; simpl length; lia. Qed.
  Lemma len_app X Y : len (X ++ Y) = len X + len Y.
  Proof. unfold len; rewrite app_length; lia. Qed.
  Lemma len_nonneg l : 0 <= len l. Proof. unfold len; lia. Qed.
  Lemma len_zero l : len l = 0 -> l = [].
  Proof. destruct l; [auto|rewrite len_cons; pose proof (len_nonneg l); lia]. Qed.
  Lemma len_pos l : l <> [] -> 0 < len l.
  Proof. destruct l; [congruence|rewrite len_cons; pose proof (len_nonneg l); lia]. Qed.
  Lemma len_repeat (x : A) n : len (repeat x n) = Z.of_nat n.
  Proof. unfold len; now rewrite repeat_length. Qed.
  Lemma len_to_nat l : Z.to_nat (len l) = length l. Proof. unfold len; lia. Qed.

  Lemma getz_app X x Y i : i = len X -> getz (X ++ x :: Y) i = Some x.
  Proof.
    intros ->. unfold getz. pose proof (len_nonneg X).
    destruct (Z.ltb_spec (len X) 0); [lia|].
    rewrite len_to_nat, nth_error_app2, Nat.sub_diag by lia. reflexivity.
  Qed.

  Lemma getz_Some l i x : getz l i = Some x -> 0 <= i < len l.
  Proof.
    unfold getz. destruct (Z.ltb_spec i 0); [discriminate|]. intros E.
    assert (nth_error l (Z.to_nat i) <> None) by congruence.
    apply nth_error_Some in H0. unfold len. lia.
  Qed.

  Lemma getz_split l i x : getz l i = Some x ->
    exists X Y, l = X ++ x :: Y /\ len X = i.
  Proof.
    intros E. pose proof (getz_Some _ _ _ E). unfold getz in E.
    destruct (Z.ltb_spec i 0); [lia|].
    apply nth_error_split in E. destruct E as (X & Y & -> & L).
    exists X, Y. split; [reflexivity|]. unfold len; lia.
  Qed.

  Lemma getz_in_range l i : 0 <= i < len l -> exists x, getz l i = Some x.
  Proof.
    intros H. unfold getz. destruct (Z.ltb_spec i 0); [lia|].
    destruct (nth_error l (Z.to_nat i)) eqn:E; [eauto|].
    apply nth_error_None in E. unfold len in H; lia.
  Qed.

  Lemma getz_None l i : ~ (0 <= i < len l) -> getz l i = None.
  Proof.
    intros H. destruct (getz l i) eqn:E; [|reflexivity].
    apply getz_Some in E. tauto.
  Qed.

  Lemma getz_app1 X Y i : i < len X -> getz (X ++ Y) i = getz X i.
  Proof.
    intros H. unfold getz. destruct (Z.ltb_spec i 0); [reflexivity|].
    apply nth_error_app1. unfold len in H; lia.
  Qed.

  Lemma getz_app2 X Y i : len X <= i -> getz (X ++ Y) i = getz Y (i - len X).
  Proof.
    intros H. unfold getz. pose proof (len_nonneg X).
    destruct (Z.ltb_spec i 0); [lia|]. destruct (Z.ltb_spec (i - len X) 0); [lia|].
    rewrite nth_error_app2 by (unfold len in *; lia). f_equal. unfold len in *; lia.
  Qed.

  Lemma setz_app X x Y i y : i = len X -> setz (X ++ x :: Y) i y = Some (X ++ y :: Y).
  Proof.
    intros ->. unfold setz. rewrite len_app, len_cons.
    pose proof (len_nonneg X). pose proof (len_nonneg Y).
    destruct (Z.leb_spec 0 (len X)); [|lia].
    destruct (Z.ltb_spec (len X) (len X + (1 + len Y))); [|lia]. simpl.
    rewrite len_to_nat, firstn_app, firstn_all, Nat.sub_diag; simpl.
    rewrite app_nil_r. f_equal. f_equal.
    change (match X ++ x :: Y with [] => [] | _ :: l => skipn (length X) l end)
      with (skipn (S (length X)) (X ++ x :: Y)).
    rewrite skipn_app, skipn_all2 by lia.
    replace (S (length X) - length X)%nat with 1%nat by lia. reflexivity.
  Qed.

  Lemma setz_split l i y l' : setz l i y = Some l' ->
    exists X x Y, l = X ++ x :: Y /\ len X = i /\ l' = X ++ y :: Y.
  Proof.
    intros E. assert (R : 0 <= i < len l).
    { unfold setz in E. destruct (Z.leb_spec 0 i); [|discriminate].
      destruct (Z.ltb_spec i (len l)); [lia|discriminate]. }
    destruct (getz_in_range _ _ R) as [x G].
    destruct (getz_split _ _ _ G) as (X & Y & -> & L).
    rewrite setz_app in E by lia. injection E as <-. eauto 7.
  Qed.

  Lemma setz_Some l i y : 0 <= i < len l -> exists l', setz l i y = Some l'.
  Proof.
    intros H. unfold setz.
    replace ((0 <=? i) && (i <? len l)) with true by lia. eauto.
  Qed.

  Lemma setz_len l i y l' : setz l i y = Some l' -> len l' = len l.
  Proof.
    intros E. destruct (setz_split _ _ _ _ E) as (X & x & Y & -> & L & ->).
    rewrite !len_app, !len_cons. lia.
  Qed.

  Lemma getz_setz_eq l i y l' : setz l i y = Some l' -> getz l' i = Some y.
  Proof.
    intros E. destruct (setz_split _ _ _ _ E) as (X & x & Y & -> & L & ->).
    now apply getz_app.
  Qed.

  Lemma getz_setz_neq l i j y l' : setz l i y = Some l' -> j <> i -> getz l' j = getz l j.
  Proof.
    intros E N. destruct (setz_split _ _ _ _ E) as (X & x & Y & -> & L & ->).
    destruct (Z.lt_ge_cases j (len X)).
    - rewrite !getz_app1 by lia. reflexivity.
    - rewrite !getz_app2 by lia. unfold getz.
      destruct (Z.ltb_spec (j - len X) 0); [reflexivity|].
      destruct (Z.to_nat (j - len X)) eqn:E'; [lia|]. reflexivity.
  Qed.

  Lemma resize_grow l n (d : A) : len l <= n ->
    resize l n d = l ++ repeat d (Z.to_nat (n - len l)).
  Proof.
    intros H. unfold resize. rewrite firstn_all2 by (unfold len in H; lia).
    do 2 f_equal. unfold len; lia.
  Qed.

  Lemma resize_shrink X Y n (d : A) : n = len X -> resize (X ++ Y) n d = X.
  Proof.
    intros ->. unfold resize. rewrite len_to_nat, firstn_app, firstn_all, Nat.sub_diag.
    rewrite app_length. replace (length X - (length X + length Y))%nat with 0%nat by lia.
    simpl. now rewrite !app_nil_r.
  Qed.

  Lemma firstn_len_app X Y : firstn (length X) (X ++ Y) = X.
  Proof. rewrite firstn_app, firstn_all, Nat.sub_diag. simpl. apply app_nil_r. Qed.
  Lemma skipn_len_app X Y : skipn (length X) (X ++ Y) = Y.
  Proof. rewrite skipn_app, skipn_all, Nat.sub_diag. reflexivity. Qed.

  Lemma memmove_app l P R S U T dst src n :
    l = P ++ R -> l = S ++ U ++ T -> len P = dst -> len S = src -> len U = n ->
    n <= len R -> memmove l dst src n = Some (P ++ U ++ skipn (Z.to_nat n) R).
  Proof.
    intros E1 E2 HP HS HU HR. unfold memmove.
    pose proof (len_nonneg P). pose proof (len_nonneg S). pose proof (len_nonneg U).
    pose proof (len_nonneg T).
    assert (len l = len P + len R) by (subst l; apply len_app).
    assert (len l = len S + (len U + len T)) by (rewrite E2, !len_app; lia).
    replace ((0 <=? dst) && (0 <=? src) && (0 <=? n) && (dst + n <=? len l)
             && (src + n <=? len l)) with true by lia.
    f_equal. f_equal; [|f_equal].
    - rewrite <- HP, len_to_nat, E1. apply firstn_len_app.
    - rewrite <- HS, <- HU, !len_to_nat, E2, skipn_len_app. apply firstn_len_app.
    - rewrite E1, skipn_app, skipn_all2 by (unfold len in *; lia). simpl.
      f_equal. unfold len in *; lia.
  Qed.

  Lemma memmove_len l l' dst src n : memmove l dst src n = Some l' -> len l' = len l.
  Proof.
    unfold memmove. destruct (_ && _) eqn:E; [|discriminate]. intros H; injection H as <-.
    unfold len in *. rewrite !app_length, !firstn_length, !skipn_length. lia.
  Qed.
End Facts.

Lemma len_map {A B} (f : A -> B) l : len (map f l) = len l.
Proof. unfold len; now rewrite map_length. Qed.

Lemma getz_ext {A} (l l' : list A) : (forall i, getz l i = getz l' i) -> l = l'.
Proof.
  intros H. assert (N : forall n, nth_error l n = nth_error l' n).
  { intros n. specialize (H (Z.of_nat n)). unfold getz in H.
    destruct (Z.ltb_spec (Z.of_nat n) 0); [lia|]. now rewrite Nat2Z.id in H. }
  clear H. revert l' N. induction l as [|x l IH]; intros [|y l'] N; auto.
  - specialize (N 0%nat). discriminate.
  - specialize (N 0%nat). discriminate.
  - pose proof (N 0%nat) as N0. injection N0 as ->. f_equal. apply IH. intros n. apply (N (S n)).
Qed.

Lemma getz_firstn {A} (l : list A) n i : getz (firstn n l) i = if i <? Z.of_nat n then getz l i else None.
Proof.
  destruct (Z.ltb_spec i (Z.of_nat n)) as [H|H].
  - destruct (Z.lt_ge_cases i (len l)) as [Hl|Hl].
    + rewrite <- (firstn_skipn n l) at 2. symmetry. apply getz_app1.
      unfold len in *. rewrite firstn_length. lia.
    + rewrite !getz_None; auto; [lia|]. unfold len in *. rewrite firstn_length. lia.
  - apply getz_None. unfold len. rewrite firstn_length. lia.
Qed.

Lemma getz_skipn {A} (l : list A) n i : 0 <= i -> getz (skipn n l) i = getz l (Z.of_nat n + i).
Proof.
  intros H. destruct (Z.lt_ge_cases (Z.of_nat n) (len l)) as [Hl|Hl].
  - rewrite <- (firstn_skipn n l) at 2. rewrite getz_app2.
    + f_equal. unfold len in *. rewrite firstn_length. lia.
    + unfold len in *. rewrite firstn_length. lia.
  - rewrite !getz_None; auto; unfold len in *; [lia|]. rewrite skipn_length. lia.
Qed.

Lemma getz_memmove {A} (l l' : list A) t s n i : memmove l t s n = Some l' ->
  getz l' i = if (t <=? i) && (i <? t + n) then getz l (i - t + s) else getz l i.
Proof.
  unfold memmove. destruct (_ && _) eqn:E; [|discriminate]. intros H; injection H as <-.
  assert (Lt : len (firstn (Z.to_nat t) l) = t) by (unfold len in *; rewrite firstn_length; lia).
  assert (Ln : len (firstn (Z.to_nat n) (skipn (Z.to_nat s) l)) = n)
    by (unfold len in *; rewrite firstn_length, skipn_length; lia).
  destruct (Z.lt_ge_cases i t).
  - replace ((t <=? i) && (i <? t + n)) with false by lia.
    rewrite getz_app1 by lia. rewrite getz_firstn. destruct (Z.ltb_spec i (Z.of_nat (Z.to_nat t))); [auto|].
    lia.
  - rewrite getz_app2 by lia. rewrite Lt. destruct (Z.lt_ge_cases i (t + n)).
    + replace ((t <=? i) && (i <? t + n)) with true by lia.
      rewrite getz_app1 by lia. rewrite getz_firstn.
      destruct (Z.ltb_spec (i - t) (Z.of_nat (Z.to_nat n))); [|lia].
      rewrite getz_skipn by lia. f_equal. lia.
    + replace ((t <=? i) && (i <? t + n)) with false by lia.
      rewrite getz_app2 by lia. rewrite Ln, getz_skipn by lia. f_equal. lia.
Qed.
