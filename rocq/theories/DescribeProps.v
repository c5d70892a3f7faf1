(** C99: the ways to describe a table of animations agree. *)
From Verif Require Import RBase BaseFacts RangeModel MatrixModel RigModel AnimTableModel AnimTableProps DescribeModel.
Local Open Scope Z_scope.

Section Describe.
Context {I S F : Type} (spline_init : range -> I) (fb_name : F -> option (list Z)) (decode : F -> option (rig_anim (opinit I S))).
Local Notation table := (@table I S).
Local Notation init_from := (init_from spline_init fb_name decode).
Local Notation load := (load spline_init fb_name decode).

(** *** Specification *)
(** What an entry of the FlatBuffer means.  An embedded animation that is left out is no
    animation; a file name that is left out has no meaning. *)
Definition means (s : anim_source (F := F)) (src : source) : Prop :=
  match s with
  | NoSource => src = SNone
  | Embedded None => src = SNone
  | Embedded (Some fb) => src = SEmbedded fb
  | FileName (Some n) => src = SFile (c_str n)
  | FileName None => False
  end.
(** What a list means: its [anims] if it has them, otherwise its files. *)
Definition list_means (l : list_fb (F := F)) (srcs : list source) : Prop :=
  match fb_anims l, anim_files l with
  | Some a, _ => Forall2 means a srcs
  | None, Some fs => srcs = map (fun n => SFile (c_str n)) fs
  | None, None => srcs = []
  end.
Definition embedded_source (s : anim_source (F := F)) : Prop := exists fb, s = Embedded (Some fb).
Definition all_embedded (l : list_fb (F := F)) : Prop := exists a, fb_anims l = Some a /\ Forall embedded_source a.

(** *** Proofs *)
Lemma each_list_from : forall A B (g : A -> option B) (l pre : list A) r, each (fun i => x <- getz (pre ++ l) i ;; g x) (len pre) (length l) = Some r <-> Forall2 (fun x y => g x = Some y) l r.
Proof.
  intros A B g. induction l as [|x l IH]; intros pre r; cbn [each length].
  - split; [intros [= <-]; constructor|]. intros H. inversion H. reflexivity.
  - rewrite getz_app2 by lia. rewrite Z.sub_diag. change (getz (x :: l) 0) with (Some x). specialize (IH (pre ++ [x])). rewrite <- app_assoc in IH. cbn [app] in IH. rewrite len_app in IH. change (len [x]) with 1 in IH. split.
    + intros E. destruct (g x) as [y|] eqn:G; [|discriminate]. destruct (each _ _ _) as [r'|] eqn:Er; [|discriminate]. cbn in E. injection E as <-. constructor; [exact G|]. apply IH. reflexivity.
    + intros H. inversion H as [|? y ? r' G H' E1 E2]; subst. rewrite G. apply IH in H'. rewrite H'. reflexivity.
Qed.
Lemma each_list : forall A B (g : A -> option B) (l : list A) r, each (fun i => x <- getz l i ;; g x) 0 (Z.to_nat (len l)) = Some r <-> Forall2 (fun x y => g x = Some y) l r.
Proof. intros A B g l r. unfold len. rewrite Nat2Z.id. exact (each_list_from A B g l [] r). Qed.
Lemma each_ext : forall A (f g : Z -> option A) n i, (forall k, i <= k < i + Z.of_nat n -> f k = g k) -> each f i n = each g i n.
Proof. intros A f g. induction n as [|n IH]; intros i H; cbn [each]; [reflexivity|]. rewrite (H i) by lia. rewrite (IH (i + 1)) by (intros; apply H; lia). reflexivity. Qed.

Definition source_of (s : anim_source (F := F)) : option source :=
  match s with
  | NoSource | Embedded None => Some SNone
  | Embedded (Some fb) => Some (SEmbedded fb)
  | FileName (Some n) => Some (SFile (c_str n))
  | FileName None => None
  end.
Lemma means_iff : forall s src, means s src <-> source_of s = Some src.
Proof. intros [|[n|]|[fb|]] src; cbn; split; intros H; try discriminate; try contradiction; congruence. Qed.
(** The entries of one FlatBuffer list. *)
Definition entry_of (l : list_fb (F := F)) (i : Z) : option source :=
  fb <- anim_list_rig_anim l i ;;
  match fb with Some x => Some (SEmbedded x) | None => n <- anim_list_file_name l i ;; Some match n with Some x => SFile x | None => SNone end end.
Lemma entries_iff : forall l srcs, each (entry_of l) 0 (Z.to_nat (anim_list_len l)) = Some srcs <-> list_means l srcs.
Proof.
  intros [fs [a|]] srcs; unfold anim_list_len, list_means; cbn [fb_anims anim_files].
  - rewrite (each_ext _ _ (fun i => s <- getz a i ;; source_of s)).
    + rewrite each_list. split; intros H; (eapply Forall2_impl; [|exact H]); intros x y; apply means_iff.
    + intros k _. unfold entry_of, anim_list_rig_anim, anim_list_file_name. cbn [fb_anims]. destruct (getz a k) as [[|[n|]|[fb|]]|]; reflexivity.
  - destruct fs as [fs|].
    + rewrite (each_ext _ _ (fun i => n <- getz fs i ;; Some (SFile (c_str n)))).
      * rewrite each_list. split.
        -- intros H. induction H as [|x y l r E H IH]; [reflexivity|]. injection E as <-. cbn. now rewrite IH.
        -- intros ->. induction fs; constructor; auto.
      * intros k _. unfold entry_of, anim_list_rig_anim, anim_list_file_name. cbn [fb_anims anim_files]. destruct (getz fs k); reflexivity.
    + cbn. split; [intros [= <-]; reflexivity|intros ->; reflexivity].
Qed.

(** *** C99 *)
(** A FlatBuffer table describes one object for each of its lists. *)
Theorem C99_table : forall t lists, read (table_fb_describer t) = Some lists <->
  match fb_lists t with Some ls => Forall2 list_means ls lists | None => lists = [] end.
Proof.
  intros [[ls|]] lists; unfold read, table_fb_describer; cbn [fb_lists num_objects].
  - rewrite (each_ext _ _ (fun o => l <- getz ls o ;; each (entry_of l) 0 (Z.to_nat (anim_list_len l)))).
    + rewrite each_list. split; intros H; (eapply Forall2_impl; [|exact H]); intros x y; apply entries_iff.
    + intros o _. unfold read_list. cbn [num_anims]. destruct (getz ls o) as [l|] eqn:G; [|reflexivity]. cbn. apply each_ext. intros k _. unfold read_entry, entry_of. cbn [source_rig_anim source_file_name]. rewrite G. reflexivity.
  - cbn. split; [intros [= <-]; reflexivity|intros ->; reflexivity].
Qed.
Print Assumptions C99_table.
(** A FlatBuffer list describes one object, or none if it is empty. *)
Theorem C99_list : forall l lists, read (list_fb_describer l) = Some lists <->
  exists srcs, list_means l srcs /\ lists = match srcs with [] => [] | _ => [srcs] end.
Proof.
  intros l lists. unfold read, list_fb_describer. cbn [num_objects].
  assert (LM : forall srcs, list_means l srcs -> len srcs = anim_list_len l).
  { intros srcs. unfold list_means, anim_list_len. destruct (fb_anims l) as [a|]; [intros H; clear - H; induction H; [reflexivity|rewrite !len_cons; lia]|]. destruct (anim_files l); intros ->; [apply len_map|reflexivity]. }
  assert (RL : read_list (list_fb_describer l) 0 = each (entry_of l) 0 (Z.to_nat (anim_list_len l))) by reflexivity.
  unfold list_fb_describer in RL. destruct (Z.eqb_spec (anim_list_len l) 0) as [Z0|N0].
  - cbn. split.
    + intros [= <-]. exists []. split; [|reflexivity]. apply entries_iff. rewrite Z0. reflexivity.
    + intros (srcs & M & ->). apply LM in M. destruct srcs as [|x srcs]; [reflexivity|]. rewrite len_cons in M. pose proof (len_nonneg srcs). lia.
  - change (Z.to_nat 1) with 1%nat. cbn [each]. rewrite RL. split.
    + intros E. destruct (each _ _ _) as [srcs|] eqn:Es; [|discriminate]. cbn in E. injection E as <-. apply entries_iff in Es. exists srcs. split; [exact Es|]. apply LM in Es. destruct srcs; [rewrite len_nil in Es; lia|reflexivity].
    + intros (srcs & M & ->). pose proof (LM _ M) as L. apply entries_iff in M. rewrite M. cbn. destruct srcs; [rewrite len_nil in L; lia|reflexivity].
Qed.
Print Assumptions C99_list.

(** File names describe themselves. *)
Theorem C99_names : forall tss : list (list (list Z)), read (F := F) (table_names_describer tss) = Some (map (map (fun n => SFile (c_str n))) tss).
Proof.
  intros tss. unfold read, table_names_describer. cbn [num_objects].
  rewrite (each_ext _ _ (fun o => l <- getz tss o ;; Some (map (fun n => SFile (c_str n)) l))).
  - apply each_list. induction tss; constructor; auto.
  - intros o _. unfold read_list. cbn [num_anims]. destruct (getz tss o) as [l|] eqn:G; [|reflexivity]. cbn. unfold read_entry. cbn [source_rig_anim source_file_name]. rewrite G.
    rewrite (each_ext _ _ (fun i => n <- getz l i ;; Some (SFile (c_str n)))).
    + apply each_list. clear. induction l; constructor; auto.
    + intros k _. cbn. destruct (getz l k); reflexivity.
Qed.
Print Assumptions C99_names.
Lemma list_names : forall fs : list (list Z), read (F := F) (list_names_describer fs) = Some match fs with [] => [] | _ => [map (fun n => SFile (c_str n)) fs] end.
Proof.
  intros fs. unfold read, list_names_describer. cbn [num_objects].
  assert (RL : read_list (F := F) (list_names_describer fs) 0 = Some (map (fun n => SFile (c_str n)) fs)).
  { unfold read_list, list_names_describer. cbn. rewrite (each_ext _ _ (fun i => n <- getz fs i ;; Some (SFile (c_str n)))).
    - apply each_list. clear. induction fs; constructor; auto.
    - intros k _. unfold read_entry. cbn. destruct (getz fs k); reflexivity. }
  unfold list_names_describer in RL. destruct fs as [|x fs]; [reflexivity|]. assert (N : len (x :: fs) =? 0 = false) by (rewrite len_cons; pose proof (len_nonneg fs); apply Z.eqb_neq; lia).
  rewrite N in *. change (Z.to_nat 1) with 1%nat. cbn [each]. rewrite RL. reflexivity.
Qed.
Lemma read_eq : forall (d d' : describer (F := F)), (forall r, read d = Some r <-> read d' = Some r) -> read d = read d'.
Proof. intros d d' H. destruct (read d) as [r|] eqn:E; [symmetry; now apply H|]. destruct (read d') as [r'|] eqn:E'; [|reflexivity]. now apply H. Qed.

(** A list of file names is loaded the same from a vector of names, from the field anim_files,
    from the field anims, and, unless it is empty, as the only list of a table. *)
Theorem C99_same_list : forall fs files f (t : table),
  let names := init_from (list_names_describer fs) f t in
  init_from (list_fb_describer (ListFb (Some fs) None)) f t = names /\
  init_from (list_fb_describer (ListFb files (Some (map (fun n => FileName (Some n)) fs)))) f t = names /\
  (fs <> [] -> init_from (table_names_describer [fs]) f t = names).
Proof.
  intros fs files f t. cbv zeta. unfold init_from. rewrite list_names. split; [|split].
  - assert (read (F := F) (list_fb_describer (ListFb (Some fs) None)) = Some match fs with [] => [] | _ => [map (fun n => SFile (c_str n)) fs] end) as ->; [|reflexivity].
    apply C99_list. exists (map (fun n => SFile (c_str n)) fs). split; [reflexivity|]. destruct fs; reflexivity.
  - assert (read (F := F) (list_fb_describer (ListFb files (Some (map (fun n => FileName (Some n)) fs)))) = Some match fs with [] => [] | _ => [map (fun n => SFile (c_str n)) fs] end) as ->; [|reflexivity].
    apply C99_list. exists (map (fun n => SFile (c_str n)) fs). split; [|destruct fs; reflexivity]. unfold list_means. cbn. induction fs; constructor; auto. reflexivity.
  - intros N. rewrite C99_names. destruct fs; [contradiction|reflexivity].
Qed.
Print Assumptions C99_same_list.
(** A table of file names is loaded the same from vectors of names and from a FlatBuffer. *)
Theorem C99_same_table : forall tss f (t : table),
  init_from (table_fb_describer (TableFb (Some (map (fun fs => ListFb (Some fs) None) tss)))) f t = init_from (table_names_describer tss) f t.
Proof.
  intros tss f t. unfold init_from. rewrite C99_names.
  assert (read (F := F) (table_fb_describer (TableFb (Some (map (fun fs => ListFb (Some fs) None) tss)))) = Some (map (map (fun n => SFile (c_str n))) tss)) as ->; [|reflexivity].
  apply C99_table. cbn [fb_lists]. induction tss; constructor; auto. reflexivity.
Qed.
Print Assumptions C99_same_table.

Definition is_embedded (src : source (F := F)) : Prop := match src with SEmbedded _ => True | _ => False end.
Lemma load_list_embedded : forall f g l s, Forall is_embedded l -> load_list (I := I) (S := S) fb_name decode f l s = load_list fb_name decode g l s /\
  forall r, load_list fb_name decode f l s = Some r -> l_calls (snd r) = l_calls s.
Proof.
  intros f g. induction l as [|src l IH]; intros s FA; [split; [reflexivity|intros r [= <-]; reflexivity]|]. apply Forall_cons_iff in FA. destruct FA as [E FA]. destruct src as [| |fb]; try contradiction. cbn [load_list].
  assert (Q : load_entry (I := I) (S := S) fb_name decode f (SEmbedded fb) s = load_entry fb_name decode g (SEmbedded fb) s /\ forall p, load_entry fb_name decode f (SEmbedded fb) s = Some p -> l_calls (snd p) = l_calls s).
  { unfold load_entry, add_anim. destruct (fb_name fb) as [[|c n]|]; cbn; try (split; [reflexivity|intros p [= <-]; reflexivity]); try (split; [reflexivity|discriminate]).
    destruct (name_find (c :: n) (l_map s)); [split; [reflexivity|intros p [= <-]; reflexivity]|]. destruct (decode fb); cbn; (split; [reflexivity|]); intros p X; [injection X as <-; reflexivity|discriminate]. }
  destruct Q as [Q1 Q2]. rewrite <- Q1. destruct (load_entry fb_name decode f (SEmbedded fb) s) as [p|]; [|split; [reflexivity|discriminate]]. cbn. destruct (IH (snd p) FA) as [A B]. rewrite <- A. split; [reflexivity|].
  intros r Hr. destruct (load_list fb_name decode f l (snd p)) as [q|]; [|discriminate]. cbn in Hr. injection Hr as <-. cbn. rewrite (B q eq_refl). apply Q2. reflexivity.
Qed.
Lemma load_lists_embedded : forall f g ls s, Forall (Forall is_embedded) ls -> load_lists (I := I) (S := S) fb_name decode f ls s = load_lists fb_name decode g ls s /\
  forall r, load_lists fb_name decode f ls s = Some r -> l_calls (snd r) = l_calls s.
Proof.
  intros f g. induction ls as [|l ls IH]; intros s FA; [split; [reflexivity|intros r [= <-]; reflexivity]|]. apply Forall_cons_iff in FA. destruct FA as [E FA]. cbn [load_lists].
  destruct (load_list_embedded f g l s E) as [Q1 Q2]. rewrite <- Q1. destruct (load_list fb_name decode f l s) as [p|]; [|split; [reflexivity|discriminate]]. cbn. destruct (IH (snd p) FA) as [A B]. rewrite <- A. split; [reflexivity|].
  intros r Hr. destruct (load_lists fb_name decode f ls (snd p)) as [q|]; [|discriminate]. cbn in Hr. injection Hr as <-. cbn. rewrite (B q eq_refl). apply Q2. reflexivity.
Qed.
(** When all animations are embedded, load_fn is not called, so it may be null. *)
Theorem C99_embedded : forall ls f g (t : table), Forall all_embedded ls ->
  let d := table_fb_describer (TableFb (Some ls)) in
  init_from d f t = init_from d g t /\ forall ok t' calls, init_from d f t = Some (ok, t', calls) -> calls = [].
Proof.
  intros ls f g t FA d. unfold d, init_from. destruct (read (table_fb_describer (TableFb (Some ls)))) as [lists|] eqn:R0; [|split; [reflexivity|discriminate]]. cbn.
  apply C99_table in R0. cbn [fb_lists] in R0.
  assert (FE : Forall (Forall is_embedded) lists).
  { clear - R0 FA. induction R0 as [|l srcs ls lists M R0 IH]; [constructor|]. apply Forall_cons_iff in FA. destruct FA as [(a & A & E) FA]. constructor; [|auto]. unfold list_means in M. rewrite A in M.
    clear - M E. induction M as [|s src a srcs X M IH]; [constructor|]. apply Forall_cons_iff in E. destruct E as [(fb & ->) E]. cbn in X. subst src. constructor; [exact Logic.I|auto]. }
  unfold load. destruct (load_lists_embedded f g lists (Loading (name_map t) (anims t) true []) FE) as [A B]. rewrite <- A. split; [reflexivity|]. intros ok t' calls E.
  destruct (load_lists fb_name decode f lists _) as [p|]; [|discriminate]. cbn in E. destruct (calculate_defining_anims _ _); [|discriminate]. cbn in E. injection E as _ _ <-. apply (B p eq_refl).
Qed.
Print Assumptions C99_embedded.

(** An empty list of names can be loaded, but not as the only list of a table: the number of
    bones of no animation is asked for. *)
Theorem C99_empty : forall f, init_from (list_names_describer []) f table_empty = Some (true, table_empty, []).
Proof. reflexivity. Qed.
Print Assumptions C99_empty.
Theorem C99_empty_refuted : forall f (t : table), init_from (table_names_describer [[]]) f t = None.
Proof. reflexivity. Qed.
Print Assumptions C99_empty_refuted.
(** The files of a list that also has [anims], even no anims, are ignored without a report. *)
Theorem C99_both_refuted : forall fs f, init_from (list_fb_describer (ListFb (Some fs) (Some []))) f table_empty = Some (true, table_empty, []).
Proof. reflexivity. Qed.
Print Assumptions C99_both_refuted.
End Describe.

(** A table with an embedded animation and two files. *)
Example C99_case : exists lists, read (table_fb_describer (TableFb (Some [ListFb None (Some [Embedded (Some 7); FileName (Some [97; 0; 98]); NoSource]); ListFb (Some [[99]]) None]))) = Some lists /\
  lists = [[SEmbedded 7; SFile [97]; SNone]; [SFile [99]]].
Proof. eexists. split; reflexivity. Qed.
Example C99_embedded_case : Forall all_embedded [ListFb None (Some [Embedded (Some 7)]); ListFb (Some [[1]]) (Some [Embedded (Some 8); Embedded (Some 9)])].
Proof. repeat constructor; (eexists; split; [reflexivity|]); repeat constructor; eexists; reflexivity. Qed.
