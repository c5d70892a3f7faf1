From Verif Require Import RBase BaseFacts RangeModel RangeProofs CurveModel CurveProofs DualCubicModel DualCubicProps CompactSplineModel CompactSplineSpec CompactSplineProofs.
From Coq Require Import Sorting.Sorted.

Lemma getz_last {A} (l : list A) (b : A) : getz (l ++ [b]) (len (l ++ [b]) - 1) = Some b.
Proof. apply getz_app. rewrite len_app. unfold len. simpl. lia. Qed.
Lemma back_some s b : back s = Some b -> exists l, nodes s = l ++ [b].
Proof.
  unfold back, num_nodes. destruct (nodes s) as [|a l] using rev_ind; [discriminate|].
  rewrite getz_last. intros H. injection H as ->. now exists l.
Qed.
Lemma back_none s : back s = None -> nodes s = [].
Proof.
  unfold back, num_nodes. destruct (nodes s) as [|a l] using rev_ind; [reflexivity|]. rewrite getz_last. discriminate.
Qed.
Lemma back_of s l b : nodes s = l ++ [b] -> back s = Some b.
Proof. unfold back, num_nodes. intros ->. apply getz_last. Qed.

Lemma sorted_snoc l z : StronglySorted Z.le l -> Forall (fun y => (y <= z)%Z) l -> StronglySorted Z.le (l ++ [z]).
Proof.
  induction l as [|a l IH]; cbn [app]; intros S F; [repeat constructor|].
  apply StronglySorted_inv in S. destruct S as [S A]. inversion F; subst.
  constructor; [auto|]. apply Forall_app. split; [exact A|]. constructor; [assumption|constructor].
Qed.
Lemma sorted_snoc_inv l z : StronglySorted Z.le (l ++ [z]) -> StronglySorted Z.le l /\ Forall (fun y => (y <= z)%Z) l.
Proof.
  induction l as [|a l IH]; cbn [app]; intros S; [split; constructor|].
  apply StronglySorted_inv in S. destruct S as [S A]. destruct (IH S) as [P Q]. apply Forall_app in A. destruct A as [A1 A2].
  inversion A2; subst. split; constructor; auto.
Qed.
Definition cnt (x : Z) (l : list node) : nat := count_occ Z.eq_dec (map nx l) x.
Lemma cnt_snoc x l n : cnt x (l ++ [n]) = (cnt x l + (if (nx n =? x)%Z then 1 else 0))%nat.
Proof.
  unfold cnt. rewrite map_app, count_occ_app. cbn. destruct (Z.eq_dec (nx n) x) as [E|E].
  - rewrite E, Z.eqb_refl. reflexivity.
  - replace (nx n =? x)%Z with false by lia. reflexivity.
Qed.
Lemma cnt_above x l : Forall (fun n => (nx n < x)%Z) l -> cnt x l = 0%nat.
Proof.
  intros F. apply count_occ_not_In. intros H. apply in_map_iff in H. destruct H as [n [E I]].
  rewrite Forall_forall in F. specialize (F n I). lia.
Qed.
Lemma find_app' {A} (f : A -> bool) l r : find f (l ++ r) = match find f l with Some x => Some x | None => find f r end.
Proof. induction l as [|a l IH]; cbn [find app]; [reflexivity|]. destruct (f a); auto. Qed.
Lemma first_at_none x l : Forall (fun n => nx n <> x) l -> first_at x l = None.
Proof.
  induction 1 as [|a l E F IH]; [reflexivity|]. unfold first_at in *. cbn [find].
  replace (nx a =? x)%Z with false by lia. exact IH.
Qed.
Lemma first_at_some x l n : In n l -> nx n = x -> exists m, first_at x l = Some m.
Proof.
  intros I E. unfold first_at. destruct (find _ l) eqn:F; [eauto|].
  pose proof (find_none _ _ F n I) as H. cbn in H. lia.
Qed.
Lemma first_at_app x l r : first_at x (l ++ r) = match first_at x l with Some m => Some m | None => first_at x r end.
Proof. apply find_app'. Qed.
Lemma last_at_snoc x l n : last_at x (l ++ [n]) = if (nx n =? x)%Z then Some n else last_at x l.
Proof. unfold last_at. rewrite rev_app_distr. reflexivity. Qed.

(** The state after the calls that made [ns]. *)
Record added (s : spline) (ns : list node) (plain : Prop) : Prop := {
  ad_sorted : StronglySorted Z.le (map nx (nodes s));
  ad_fields : Forall (fun n => 0 <= nx n <= 65535 /\ 0 <= ny n <= 65535 /\ -16384 < nangle n < 16384)%Z (nodes s);
  ad_two : forall x, (cnt x (nodes s) <= 2)%nat;
  ad_len : (num_nodes s <= max_nodes s)%Z;
  ad_last : back s = getz ns (len ns - 1);
  ad_below : forall b n, back s = Some b -> In n ns -> (nx n <= nx b)%Z;
  ad_at : forall n, In n ns -> first_at (nx n) (nodes s) = first_at (nx n) ns /\ last_at (nx n) (nodes s) = last_at (nx n) ns;
  ad_plain : plain -> forall n, In n (nodes s) -> In n ns
}.

Lemma make_node_fields x y d g r n : 0 < g -> make_node x y d g r = Some n ->
  (0 <= nx n <= 65535 /\ 0 <= ny n <= 65535 /\ -16384 < nangle n < 16384)%Z.
Proof.
  unfold make_node. intros G. destruct (compact_x x g) eqn:X; [|discriminate]. destruct (compact_y y r) eqn:Y; [|discriminate].
  intros H. injection H as <-. cbn [nx ny nangle]. apply compact_x_inv in X; [|exact G]. apply compact_y_inv in Y.
  pose proof (compact_derivative_ok d). tauto.
Qed.
Lemma make_node_x x y d g r n : 0 < g -> make_node x y d g r = Some n -> nx n = Rtrunc (x / g + 1 / 2).
Proof.
  unfold make_node. intros G. destruct (compact_x x g) eqn:X; [|discriminate]. destruct (compact_y y r) eqn:Y; [|discriminate].
  intros H. injection H as <-. cbn [nx]. now apply compact_x_inv in X.
Qed.

Lemma sorted_all_le s l b n : StronglySorted Z.le (map nx (nodes s)) -> nodes s = l ++ [b] -> In n (nodes s) -> (nx n <= nx b)%Z.
Proof.
  intros S E I. rewrite E in *. rewrite map_app in S. cbn [map] in S. apply sorted_snoc_inv in S. destruct S as [_ F].
  apply in_app_or in I. destruct I as [I|[<-|[]]]; [|lia]. rewrite Forall_forall in F. apply F. now apply in_map.
Qed.

Lemma mid_strict s last new mid mx my md :
  0 < x_granularity s -> (0 <= nx last < nx new)%Z ->
  (let i := create_cubic_between s last new in
   dual_cubic_mid_node (ci_start_y i) (ci_start_derivative i) (ci_end_y i) (ci_end_derivative i) (ci_width_x i)) = Some (mx, (my, md)) ->
  make_node (node_x last (x_granularity s) + mx) my md (x_granularity s) (y_range s) = Some mid ->
  (nx last <= nx mid <= nx new)%Z.
Proof.
  intros G L D M. cbn [create_cubic_between ci_start_y ci_start_derivative ci_end_y ci_end_derivative ci_width_x] in D. cbv zeta in D. set (g := x_granularity s) in *.
  assert (W : 0 < width_x s last new). { unfold width_x. fold g. apply Rmult_lt_0_compat; [apply IZR_lt; lia|exact G]. }
  apply C29_dual_cubic_mid_node in D; [|exact W]. destruct D as [D _].
  apply make_node_x in M; [|exact G]. rewrite M. unfold width_x in D. fold g in D. rewrite minus_IZR in D. unfold node_x.
  assert (0 < (IZR (nx new) - IZR (nx last)) * g) by (unfold width_x in W; fold g in W; rewrite minus_IZR in W; exact W).
  assert (A : IZR (nx last) <= (IZR (nx last) * g + mx) / g <= IZR (nx new)).
  { split; (apply Rmult_le_reg_r with g; [lra|]); unfold Rdiv; rewrite Rmult_assoc, Rinv_l by lra; lra. }
  split.
  - transitivity (Rtrunc (IZR (nx last) + 1 / 2)); [apply Z.eq_le_incl; symmetry; apply Rtrunc_IZR; [lia|lra]|apply Rtrunc_mono; lra].
  - transitivity (Rtrunc (IZR (nx new) + 1 / 2)); [apply Rtrunc_mono; lra|apply Z.eq_le_incl; apply Rtrunc_IZR; [lia|lra]].
Qed.

Lemma added_unfold s x y d m n :
  make_node x y d (x_granularity s) (y_range s) = Some n ->
  add_node s x y d m =
  match back s with
  | None => add_node_verbatim s n
  | Some last =>
      assert (nx last <=? nx n)%Z ;;
      if node_eqb last n then Some s
      else if (nx last =? nx n)%Z then
        let already :=
          match getz (nodes s) (num_nodes s - 2) with Some n => (nx last =? nx n)%Z | None => false end in
        add_node_verbatim (if already then with_nodes s (removelast (nodes s)) else s) n
      else
        s' <- match m with
              | AddWithoutModification => Some s
              | EnsureCubicWellBehaved =>
                  let i := create_cubic_between s last n in
                  if uniform_curvature (cubic_of i) (Rg 0 (width_x s last n)) then Some s
                  else
                    mid <- dual_cubic_mid_node (ci_start_y i) (ci_start_derivative i) (ci_end_y i) (ci_end_derivative i) (ci_width_x i) ;;
                    let '(mid_x, (mid_y, mid_derivative)) := mid in
                    mid_node <- make_node (node_x last (x_granularity s) + mid_x) mid_y mid_derivative (x_granularity s) (y_range s) ;;
                    if (nx mid_node =? nx last)%Z || (nx mid_node =? nx n)%Z then Some s
                    else add_node_verbatim s mid_node
              end ;;
        add_node_verbatim s' n
  end.
Proof. intros E. unfold add_node. rewrite E. reflexivity. Qed.

Lemma verbatim_inv s n s' : add_node_verbatim s n = Some s' ->
  nodes s' = nodes s ++ [n] /\ (num_nodes s' <= max_nodes s')%Z /\
  y_range s' = y_range s /\ x_granularity s' = x_granularity s /\ max_nodes s' = max_nodes s.
Proof.
  unfold add_node_verbatim. destruct (_ <? _)%Z eqn:E; [|discriminate]. intros H. injection H as <-.
  unfold num_nodes in *. cbn [nodes with_nodes y_range x_granularity max_nodes]. rewrite len_app. change (len [n]) with 1%Z. repeat split; lia.
Qed.

Lemma node_eqb_true a b : node_eqb a b = true -> a = b.
Proof. unfold node_eqb. destruct a as [xa ya aa], b as [xb yb ab]. cbn [nx ny nangle]. intros H. f_equal; lia. Qed.

Lemma getz_last_cons {A} (ns : list A) n : getz (ns ++ [n]) (len (ns ++ [n]) - 1) = Some n.
Proof. apply getz_last. Qed.

(** Append a node strictly after all others. *)
Lemma app_after l z : StronglySorted Z.le (map nx l) -> (forall m, In m l -> (nx m < nx z)%Z) ->
  (forall x, (cnt x l <= 2)%nat) ->
  StronglySorted Z.le (map nx (l ++ [z])) /\ (forall x, (cnt x (l ++ [z]) <= 2)%nat).
Proof.
  intros S B C. split.
  - rewrite map_app. cbn [map]. apply sorted_snoc; [exact S|]. apply Forall_forall. intros k K. apply in_map_iff in K.
    destruct K as [m [<- I]]. specialize (B m I). lia.
  - intros x. rewrite cnt_snoc. destruct (Z.eqb_spec (nx z) x) as [E|E]; [|specialize (C x); lia].
    rewrite cnt_above; [lia|]. apply Forall_forall. intros m I. specialize (B m I). lia.
Qed.

Lemma first_at_snoc x l n : first_at x (l ++ [n]) = match first_at x l with Some m => Some m | None => if (nx n =? x)%Z then Some n else None end.
Proof. rewrite first_at_app. reflexivity. Qed.
Lemma last_at_none x l : Forall (fun n => nx n <> x) l -> last_at x l = None.
Proof. intros F. apply first_at_none. rewrite Forall_forall in *. intros n I. apply F. now apply in_rev. Qed.

Lemma add_node_step s ns plain x y d m n s' :
  0 < x_granularity s -> added s ns plain ->
  make_node x y d (x_granularity s) (y_range s) = Some n ->
  add_node s x y d m = Some s' ->
  added s' (ns ++ [n]) (plain /\ m = AddWithoutModification) /\
  y_range s' = y_range s /\ x_granularity s' = x_granularity s /\ max_nodes s' = max_nodes s.
Proof.
  intros G A M H. rewrite (added_unfold _ _ _ _ _ _ M) in H. pose proof (make_node_fields _ _ _ _ _ _ G M) as FN.
  destruct A as [AS AF A2 AL AB ABel AT AP]. destruct (back s) as [b|] eqn:B.
  2:{ (* the first node *)
    pose proof (back_none s B) as N. assert (NS : ns = []).
    { destruct ns as [|a l] using rev_ind; [reflexivity|]. rewrite getz_last in AB. discriminate. }
    subst ns. apply verbatim_inv in H. destruct H as (E & L & F). split; [|exact F]. rewrite N in E. cbn [app] in *.
    split.
    - rewrite E. repeat constructor.
    - rewrite E. repeat constructor; lia.
    - intros z. rewrite E. change [n] with ([] ++ [n]). rewrite cnt_snoc. cbn. destruct (_ =? _)%Z; lia.
    - exact L.
    - rewrite (back_of s' [] n E). reflexivity.
    - intros b' n' B'. rewrite (back_of s' [] n E) in B'. injection B' as <-. intros [<-|[]]. lia.
    - intros n' [<-|[]]. rewrite E. split; reflexivity.
    - intros _ n'. rewrite E. auto. }
  destruct (back_some s b B) as [l E].
  destruct (nx b <=? nx n)%Z eqn:LE; [|discriminate].
  assert (INb : In b ns). { symmetry in AB. apply getz_split in AB. destruct AB as (p & q & Q & _). rewrite Q. apply in_elt. }
  destruct (node_eqb b n) eqn:EQ.
  { (* the same node again *)
    apply node_eqb_true in EQ. subst n. injection H as <-. split; [|auto]. split; auto.
    - rewrite B. symmetry. apply getz_last.
    - intros b' n' B' I. rewrite B in B'. injection B' as <-. apply in_app_or in I. destruct I as [I|[<-|[]]]; [now apply ABel|lia].
    - intros n' I. rewrite first_at_snoc, last_at_snoc. destruct (Z.eqb_spec (nx b) (nx n')) as [D|D].
      + rewrite <- D. destruct (AT b INb) as [T1 T2]. rewrite T1. destruct (first_at_some (nx b) ns b INb eq_refl) as [m' ->].
        split; [reflexivity|]. rewrite E, last_at_snoc, Z.eqb_refl. reflexivity.
      + apply in_app_or in I. destruct I as [I|[<-|[]]]; [|congruence]. destruct (AT n' I) as [T1 T2]. rewrite T1, T2.
        destruct (first_at_some (nx n') ns n' I eq_refl) as [m' ->]. auto.
    - intros P n' I. apply in_or_app. left. now apply AP. }
  assert (ALLb : forall m', In m' (nodes s) -> (nx m' <= nx b)%Z) by (intros m'; apply (sorted_all_le s l b); assumption).
  destruct (nx b =? nx n)%Z eqn:SX.
  { (* the same x *)
    apply Z.eqb_eq in SX. cbv zeta in H.
    set (already := match getz (nodes s) (num_nodes s - 2) with Some n0 => (nx b =? nx n0)%Z | None => false end) in H.
    assert (K : exists l', nodes s' = l' ++ [n] /\ (num_nodes s' <= max_nodes s')%Z /\
        y_range s' = y_range s /\ x_granularity s' = x_granularity s /\ max_nodes s' = max_nodes s /\
        (forall m', In m' l' -> In m' (nodes s)) /\ StronglySorted Z.le (map nx l') /\
        (forall z, z <> nx n -> (cnt z l' = cnt z (nodes s))%nat) /\ (cnt (nx n) l' <= 1)%nat /\
        (forall z, first_at z l' = first_at z (nodes s)) /\
        (forall z, z <> nx n -> last_at z l' = last_at z (nodes s))).
    { subst already. destruct l as [|a l] using rev_ind; [|clear IHl].
      - (* one node *)
        rewrite E in H. unfold num_nodes in H. rewrite E in H. cbn in H. apply verbatim_inv in H. destruct H as (E' & L' & F1 & F2 & F3).
        exists (nodes s). repeat split; auto. rewrite E, cnt_snoc. cbn. destruct (_ =? _)%Z; lia.
      - assert (GA : getz (nodes s) (num_nodes s - 2) = Some a).
        { unfold num_nodes. rewrite E. rewrite <- app_assoc. cbn [app]. apply getz_app. rewrite len_app. unfold len. cbn [length]. lia. }
        rewrite GA in H. assert (SL : StronglySorted Z.le (map nx (l ++ [a]))).
        { rewrite E, map_app in AS. apply sorted_snoc_inv in AS. tauto. }
        destruct (Z.eqb_spec (nx b) (nx a)) as [BA|BA].
        + (* drop the middle one *)
          apply verbatim_inv in H. cbn [nodes with_nodes y_range x_granularity max_nodes] in H. rewrite E, removelast_last in H.
          destruct H as (E' & L' & F1 & F2 & F3). exists (l ++ [a]). repeat split; auto.
          * intros m' I. rewrite E. apply in_or_app. auto.
          * intros z Z. rewrite E, (cnt_snoc z (l ++ [a]) b). replace (nx b =? z)%Z with false by lia. lia.
          * specialize (A2 (nx n)). rewrite E, (cnt_snoc (nx n) (l ++ [a]) b) in A2. replace (nx b =? nx n)%Z with true in A2 by lia. lia.
          * intros z. rewrite E, (first_at_app z (l ++ [a])). destruct (first_at z (l ++ [a])) eqn:FA; [reflexivity|].
            unfold first_at. cbn [find]. destruct (Z.eqb_spec (nx b) z) as [Q|Q]; [|reflexivity].
            destruct (first_at_some z (l ++ [a]) a) as [m' M']; [apply in_elt|congruence|congruence].
          * intros z Z. rewrite E, (last_at_snoc z (l ++ [a])). replace (nx b =? z)%Z with false by lia. reflexivity.
        + apply verbatim_inv in H. destruct H as (E' & L' & F1 & F2 & F3). exists (nodes s). repeat split; auto.
          rewrite E, cnt_snoc, cnt_above; [destruct (_ =? _)%Z; lia|].
          apply Forall_forall. intros m' I. assert (nx a <= nx b)%Z by (apply ALLb; rewrite E; apply in_or_app; left; apply in_elt).
          rewrite map_app in SL. cbn [map] in SL. apply sorted_snoc_inv in SL. destruct SL as [_ SL]. apply in_app_or in I.
          destruct I as [I|[<-|[]]]; [|lia]. rewrite Forall_forall in SL. specialize (SL (nx m') (in_map nx _ _ I)). lia. }
    destruct K as (l' & E' & L' & F1 & F2 & F3 & KI & KS & KC & KC1 & KF & KL). split; [|auto]. split; auto.
    - rewrite E', map_app. cbn [map]. apply sorted_snoc; [exact KS|]. apply Forall_forall. intros z I. apply in_map_iff in I.
      destruct I as [m' [<- I]]. specialize (ALLb m' (KI m' I)). lia.
    - rewrite E'. apply Forall_app. split; [|repeat constructor; lia]. rewrite Forall_forall in *. auto.
    - intros z. rewrite E', cnt_snoc. destruct (Z.eqb_spec (nx n) z) as [<-|Z]; [lia|]. rewrite KC by congruence. specialize (A2 z). lia.
    - rewrite (back_of s' l' n E'). symmetry. apply getz_last.
    - intros b' n' B' I. rewrite (back_of s' l' n E') in B'. injection B' as <-. apply in_app_or in I.
      destruct I as [I|[<-|[]]]; [|lia]. specialize (ABel b n' eq_refl I). lia.
    - intros n' I. rewrite E', !first_at_snoc, !last_at_snoc, KF.
      destruct (Z.eqb_spec (nx n) (nx n')) as [D|D].
      + rewrite <- D, <- SX. destruct (AT b INb) as [T1 T2]. rewrite T1. auto.
      + apply in_app_or in I. destruct I as [I|[<-|[]]]; [|congruence]. destruct (AT n' I) as [T1 T2].
        rewrite KL by congruence. rewrite T1, T2. auto.
    - intros [P _] n'. rewrite E'. intros I. apply in_app_or in I. apply in_or_app. destruct I as [I|I]; [left; auto|now right]. }
  (* a later x *)
  assert (LT : (nx b < nx n)%Z) by lia.
  set (mids := match m with AddWithoutModification => Some s | _ => _ end) in H.
  destruct mids as [s1|] eqn:MID; [|discriminate]. subst mids.
  assert (K : exists l1, nodes s1 = nodes s ++ l1 /\ (forall m', In m' l1 -> (nx b < nx m' < nx n)%Z) /\ (m = AddWithoutModification -> l1 = []) /\
        StronglySorted Z.le (map nx (nodes s1)) /\ (forall z, (cnt z (nodes s1) <= 2)%nat) /\
        Forall (fun n => 0 <= nx n <= 65535 /\ 0 <= ny n <= 65535 /\ -16384 < nangle n < 16384)%Z (nodes s1) /\
        y_range s1 = y_range s /\ x_granularity s1 = x_granularity s /\ max_nodes s1 = max_nodes s).
  { assert (SAME : s1 = s -> exists l1, nodes s1 = nodes s ++ l1 /\ (forall m', In m' l1 -> (nx b < nx m' < nx n)%Z) /\ (m = AddWithoutModification -> l1 = []) /\
        StronglySorted Z.le (map nx (nodes s1)) /\ (forall z, (cnt z (nodes s1) <= 2)%nat) /\
        Forall (fun n => 0 <= nx n <= 65535 /\ 0 <= ny n <= 65535 /\ -16384 < nangle n < 16384)%Z (nodes s1) /\
        y_range s1 = y_range s /\ x_granularity s1 = x_granularity s /\ max_nodes s1 = max_nodes s).
    { intros ->. exists []. rewrite app_nil_r. repeat split; auto; contradiction. }
    destruct m; [injection MID as <-; auto|]. cbv zeta in MID. destruct (uniform_curvature _ _); [injection MID as <-; auto|].
    destruct (dual_cubic_mid_node _ _ _ _ _) as [[mx [my md]]|] eqn:DC; [|discriminate].
    destruct (make_node (node_x b _ + mx) _ _ _ _) as [mid|] eqn:MM; [|discriminate].
    destruct (_ || _) eqn:UX; [injection MID as <-; auto|].
    assert (0 <= nx b)%Z. { rewrite Forall_forall in AF. apply (AF b). rewrite E. apply in_elt. }
    pose proof (mid_strict s b n mid mx my md G ltac:(lia) DC MM) as ST.
    apply verbatim_inv in MID. destruct MID as (E1 & _ & F1 & F2 & F3). exists [mid].
    destruct (app_after (nodes s) mid AS) as [Q1 Q2]; [intros m' I; specialize (ALLb m' I); lia|exact A2|]. rewrite E1.
    split; [reflexivity|]. split; [intros m' [<-|[]]; lia|]. split; [discriminate|]. split; [exact Q1|]. split; [exact Q2|].
    split; [|auto]. apply Forall_app. split; [exact AF|]. constructor; [|constructor]. exact (make_node_fields _ _ _ _ _ _ G MM). }
  destruct K as (l1 & E1 & KM & KP & KS & KC & KF & F1 & F2 & F3).
  apply verbatim_inv in H. destruct H as (E' & L' & G1 & G2 & G3).
  assert (ALL1 : forall m', In m' (nodes s1) -> (nx m' < nx n)%Z).
  { intros m' I. rewrite E1 in I. apply in_app_or in I. destruct I as [I|I]; [specialize (ALLb m' I)|specialize (KM m' I)]; lia. }
  destruct (app_after (nodes s1) n KS ALL1 KC) as [Q1 Q2].
  split; [|repeat split; congruence]. split.
  - now rewrite E'.
  - rewrite E'. apply Forall_app. split; [exact KF|]. repeat constructor; lia.
  - intros z. now rewrite E'.
  - exact L'.
  - rewrite (back_of s' _ n E'). symmetry. apply getz_last.
  - intros b' n' B' I. rewrite (back_of s' _ n E') in B'. injection B' as <-. apply in_app_or in I.
    destruct I as [I|[<-|[]]]; [|lia]. specialize (ABel b n' eq_refl I). lia.
  - intros n' I. rewrite E', !first_at_snoc, !last_at_snoc. destruct (Z.eqb_spec (nx n) (nx n')) as [D|D].
    + rewrite <- D. split; [|reflexivity]. rewrite !first_at_none; [reflexivity| |].
      * apply Forall_forall. intros m' I'. specialize (ABel b m' eq_refl I'). lia.
      * apply Forall_forall. intros m' I'. specialize (ALL1 m' I'). lia.
    + apply in_app_or in I. destruct I as [I|[<-|[]]]; [|congruence]. destruct (AT n' I) as [T1 T2].
      specialize (ABel b n' eq_refl I). rewrite E1, first_at_app, T1.
      destruct (first_at_some (nx n') ns n' I eq_refl) as [m' ->]. split; [reflexivity|].
      rewrite <- T2. unfold last_at. rewrite rev_app_distr, first_at_app, first_at_none; [reflexivity|].
      apply Forall_forall. intros k K. apply in_rev in K. specialize (KM k K). lia.
  - intros [P ->] n'. rewrite E', E1, (KP eq_refl), app_nil_r. intros I. apply in_app_or in I. apply in_or_app. destruct I as [I|I]; [left; auto|now right].
Qed.

Lemma add_nodes_ok calls : forall s ns plain s', 0 < x_granularity s -> added s ns plain -> add_nodes s calls = Some s' ->
  exists ms, Forall2 (makes (x_granularity s) (y_range s)) calls ms /\
    added s' (ns ++ ms) (plain /\ Forall (fun c => c_method c = AddWithoutModification) calls) /\
    y_range s' = y_range s /\ x_granularity s' = x_granularity s /\ max_nodes s' = max_nodes s.
Proof.
  induction calls as [|c calls IH]; intros s ns plain s' G A H; cbn [add_nodes] in H.
  - injection H as <-. exists []. rewrite app_nil_r. split; [constructor|]. split; [|auto].
    destruct A. split; auto. intros [P _]. auto.
  - destruct (add_node s _ _ _ _) as [s1|] eqn:E; [|discriminate].
    destruct (make_node (c_x c) (c_y c) (c_derivative c) (x_granularity s) (y_range s)) as [n|] eqn:M;
      [|unfold add_node in E; rewrite M in E; discriminate].
    destruct (add_node_step _ _ _ _ _ _ _ _ _ G A M E) as (A1 & F1 & F2 & F3).
    destruct (IH s1 _ _ s' ltac:(rewrite F2; exact G) A1 H) as (ms & FM & A2 & G1 & G2 & G3). exists (n :: ms).
    rewrite F1, F2 in FM. split; [constructor; assumption|]. rewrite <- app_assoc in A2. split; [|repeat split; congruence].
    destruct A2. split; auto. intros [P Q]. inversion Q; subst. auto.
Qed.
Lemma added_init s r g : (0 <= max_nodes s)%Z -> added (init s r g) [] True.
Proof.
  intros M. split; cbn [init nodes]; try constructor; auto; try contradiction.
Qed.

Lemma add_plain_succeeds s x y d n : make_node x y d (x_granularity s) (y_range s) = Some n ->
  (forall b, back s = Some b -> (nx b <= nx n)%Z) -> (num_nodes s < max_nodes s)%Z ->
  exists s', add_node s x y d AddWithoutModification = Some s' /\ (num_nodes s' <= num_nodes s + 1)%Z /\
    back s' = Some n /\ y_range s' = y_range s /\ x_granularity s' = x_granularity s /\ max_nodes s' = max_nodes s.
Proof.
  intros M B L. rewrite (added_unfold _ _ _ _ _ _ M).
  assert (V : forall s0, (num_nodes s0 <= num_nodes s)%Z -> max_nodes s0 = max_nodes s -> y_range s0 = y_range s -> x_granularity s0 = x_granularity s ->
     exists s', add_node_verbatim s0 n = Some s' /\ (num_nodes s' <= num_nodes s + 1)%Z /\
    back s' = Some n /\ y_range s' = y_range s /\ x_granularity s' = x_granularity s /\ max_nodes s' = max_nodes s).
  { intros s0 Q1 Q2 Q3 Q4. unfold add_node_verbatim. destruct (_ <? _)%Z eqn:E; [|lia]. eexists. split; [reflexivity|].
    split; [unfold num_nodes in *; cbn; rewrite len_app; change (len [n]) with 1%Z; lia|]. split; [now apply (back_of _ (nodes s0) n)|]. auto. }
  destruct (back s) as [b|] eqn:E; [|apply V; auto; lia]. specialize (B b eq_refl).
  destruct (nx b <=? nx n)%Z eqn:LE; [|lia]. destruct (node_eqb b n) eqn:EQ.
  { apply node_eqb_true in EQ. subst n. exists s. repeat split; auto; lia. }
  destruct (nx b =? nx n)%Z; [|apply V; auto; lia]. cbv zeta. apply V; destruct (getz _ _); try destruct (_ =? _)%Z; auto; try lia.
  destruct (back_some s b E) as [l El]. unfold num_nodes. cbn [with_nodes nodes]. rewrite El, removelast_last, len_app. unfold len. cbn. lia.
Qed.
Lemma add_plain_list_succeeds calls : forall s ns, Forall2 (makes (x_granularity s) (y_range s)) calls ns ->
  Forall (fun c => c_method c = AddWithoutModification) calls ->
  StronglySorted Z.le (map nx ns) -> (forall b n, back s = Some b -> In n ns -> (nx b <= nx n)%Z) ->
  (num_nodes s + len calls <= max_nodes s)%Z -> exists s', add_nodes s calls = Some s'.
Proof.
  induction calls as [|c calls IH]; intros s ns F P S B L; [exists s; reflexivity|].
  inversion F as [|? n ? ns' M F']; subst. inversion P as [|? ? PC P']; subst. rewrite len_cons in L. pose proof (len_nonneg calls).
  cbn [map] in S. apply StronglySorted_inv in S. destruct S as [S A].
  destruct (add_plain_succeeds s (c_x c) (c_y c) (c_derivative c) n M) as (s1 & E & N1 & B1 & F1 & F2 & F3).
  { intros b Eb. apply B; [exact Eb|now left]. } { lia. }
  cbn [add_nodes]. rewrite PC, E. apply (IH s1 ns'); auto.
  - now rewrite F1, F2.
  - intros b n' Eb I. rewrite B1 in Eb. injection Eb as <-. rewrite Forall_forall in A. apply A. now apply in_map.
  - lia.
Qed.
