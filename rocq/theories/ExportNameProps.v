(** C72: the names of the rigs that are exported for single bones. *)
From Verif Require Import RBase BaseFacts RangeModel MatrixModel RigModel AnimDataModel FlatAnimModel FlatAnimProps KeyframeSplines.
From Coq Require Import Lia.
Open Scope Z_scope.

(** The decimal numeral of [n], in characters. *)
Definition numeral (l : list Z) (n : Z) : Prop :=
  fold_left (fun v c => 10 * v + (c - 48)) l 0 = n /\ Forall (fun c => 48 <= c <= 57) l /\ (forall c r, l = c :: r -> c = 48 -> r = []) /\ l <> [].
Lemma digits_numeral i : 0 <= i < 1000 -> numeral (digits i) i.
Proof.
  intros I. unfold digits, numeral. destruct (Z.ltb_spec i 10); [|destruct (Z.ltb_spec i 100)].
  - cbn [fold_left]. split; [lia|]. split; [repeat (apply Forall_cons || apply Forall_nil); lia|]. split; [intros c r [= <- <-]; reflexivity|discriminate].
  - assert (M := Z.div_mod i 10 ltac:(lia)). assert (B := Z.mod_pos_bound i 10 ltac:(lia)). cbn [fold_left]. split; [lia|]. split; [repeat (apply Forall_cons || apply Forall_nil); lia|]. split; [intros c r EQ C; exfalso; apply (f_equal (fun l => hd 0 l)) in EQ; cbn [hd] in EQ; lia|discriminate].
  - assert (M := Z.div_mod i 10 ltac:(lia)). assert (B := Z.mod_pos_bound i 10 ltac:(lia)). assert (M2 := Z.div_mod (i / 10) 10 ltac:(lia)). assert (B2 := Z.mod_pos_bound (i / 10) 10 ltac:(lia)).
    assert (E : i / 100 = i / 10 / 10) by (rewrite Z.div_div by lia; reflexivity). cbn [fold_left]. split; [lia|]. split; [repeat (apply Forall_cons || apply Forall_nil); lia|]. split; [intros c r EQ C; exfalso; apply (f_equal (fun l => hd 0 l)) in EQ; cbn [hd] in EQ; lia|discriminate].
Qed.
Lemma numeral_unique l n m : numeral l n -> numeral l m -> n = m. Proof. unfold numeral. lia. Qed.
Lemma indices_range n : forall s i, In i (indices n s) <-> s <= i < s + Z.of_nat n.
Proof. induction n as [|n IH]; intros s i; cbn [indices In]; [lia|]. rewrite IH. lia. Qed.
Lemma indices_nodup n : forall s, NoDup (indices n s).
Proof. induction n as [|n IH]; intros s; cbn [indices]; constructor; auto. rewrite indices_range. lia. Qed.

(** Each is the given name, an underscore and the number of the bone; so they all differ. *)
Theorem C72_names : forall d p name rigs, ad_root_only d = true -> create_flat_buffer d p name = Some rigs ->
  (forall r, In r rigs -> exists i b ds, getz (ad_bones d) i = Some b /\ fr_names r = Some [bone_base_name (bn_name b)] /\ numeral ds i /\ fr_name r = name ++ 95 :: ds) /\
  NoDup (map fr_name rigs).
Proof.
  intros d p name rigs RO. unfold create_flat_buffer. destruct (Z.ltb_spec kMaxNumBones (len (ad_bones d))) as [M|M]; [intros [= <-]; split; [intros r []|constructor]|]. rewrite RO. cbn [negb]. unfold kMaxNumBones in M.
  assert (R : forall i, In i (indices (length (ad_bones d)) 0) -> 0 <= i < 1000) by (intros i I; apply indices_range in I; unfold len in M; lia).
  pose proof (indices_nodup (length (ad_bones d)) 0) as ND. revert R ND. generalize (indices (length (ad_bones d)) 0) as l. intros l R ND E. apply map_opt_iff in E.
  set (keep := fun i => match getz (ad_bones d) i with Some b => negb (len (bn_channels b) =? 0) | None => false end) in E. assert (R' : forall i, In i (filter keep l) -> 0 <= i < 1000) by (intros i I; apply filter_In in I; apply R; tauto).
  assert (ND' := NoDup_filter keep ND). revert E R' ND'. generalize (filter keep l) as l'. clear -M. intros l' E R ND. split.
  - intros r I. clear ND. induction E as [|i r' l' rigs X E IH]; [destruct I|]. destruct I as [<-|I]; [|apply IH; [intros; apply R; now right|exact I]].
    destruct (export_single _ _ _ _ _ X) as (b & m & B & _ & _ & _ & N & _ & NM). exists i, b, (digits i). split; [exact B|]. split; [exact N|]. split; [apply digits_numeral, R; now left|exact NM].
  - induction E as [|i r l' rigs X E IH]; [constructor|]. apply NoDup_cons_iff in ND. destruct ND as [NI ND]. cbn [map]. constructor; [|apply IH; [intros; apply R; now right|exact ND]].
    destruct (export_single _ _ _ _ _ X) as (_ & _ & _ & _ & _ & _ & _ & _ & NM). intros I. apply in_map_iff in I. destruct I as (r' & EN & I). apply NI.
    assert (J : exists j, In j l' /\ export_range d p j 1 (name ++ 95 :: digits j) = Some r'). { clear -E I. induction E as [|j r0 l' rigs X E IH]; [destruct I|]. destruct I as [<-|I]; [exists j; split; [now left|exact X]|]. destruct (IH I) as (k & K & X'). exists k. split; [now right|exact X']. }
    destruct J as (j & J & X'). destruct (export_single _ _ _ _ _ X') as (_ & _ & _ & _ & _ & _ & _ & _ & NM'). rewrite NM, NM' in EN. apply app_inv_head in EN. injection EN as EN.
    assert (A := digits_numeral i (R i (or_introl eq_refl))). assert (B := digits_numeral j (R j (or_intror J))). rewrite EN in B. now rewrite (numeral_unique _ _ _ A B).
Qed.
Print Assumptions C72_names.
(** Two animated bones among eleven, numbers 0 and 10. *)
Example C72_names_case : exists d rigs, ad_root_only d = true /\ create_flat_buffer d NeverRepeat [97] = Some rigs /\ map fr_name rigs = [[97; 95; 48]; [97; 95; 49; 48]].
Proof.
  exists (AnimData (Bone [98] (-1) [Channel TranslateX 0 [SNode 0 1 0]] :: repeat (Bone [99] 0 []) 9 ++ [Bone [100] (-1) [Channel TranslateX 0 [SNode 0 1 0]]]) (-1) (Tolerances 0 0 0 0 0) true). eexists. split; [reflexivity|]. split; [reflexivity|]. reflexivity.
Qed.
