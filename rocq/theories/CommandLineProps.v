(** C94: the command line of the animation converter. *)
From Verif Require Import CommandLineModel AngleModel AngleProofs RangeQueryProps.
Open Scope string_scope.

(** What the usage text says of each switch (anim_pipeline_main.cpp:26-123): its words, and
    the arguments before and after it. *)
Inductive switch (l : library) : list string -> pipeline_args -> pipeline_args -> Prop :=
| sw_verbose o fb out lv t rp sg ps ro nu ax us db : In o ["-v"; "--verbose"] -> switch l [o]
    (Args fb out lv t rp sg ps ro nu ax us db) (Args fb out LogVerbose t rp sg ps ro nu ax us db)
| sw_details o fb out lv t rp sg ps ro nu ax us db : In o ["-d"; "--details"] -> switch l [o]
    (Args fb out lv t rp sg ps ro nu ax us db) (Args fb out LogImportant t rp sg ps ro nu ax us db)
| sw_info o fb out lv t rp sg ps ro nu ax us db : In o ["-i"; "--info"] -> switch l [o]
    (Args fb out lv t rp sg ps ro nu ax us db) (Args fb out LogInfo t rp sg ps ro nu ax us db)
| sw_out o f fb out lv t rp sg ps ro nu ax us db : In o ["-o"; "--out"] -> switch l [o; f]
    (Args fb out lv t rp sg ps ro nu ax us db) (Args fb f lv t rp sg ps ro nu ax us db)
| sw_scale o v fb out lv rp sg ps ro nu ax us db ts tr tt ta tra : In o ["-st"; "--scale"] -> 0 < atof l v -> switch l [o; v]
    (Args fb out lv (Tolerances ts tr tt ta tra) rp sg ps ro nu ax us db) (Args fb out lv (Tolerances (atof l v) tr tt ta tra) rp sg ps ro nu ax us db)
| sw_rotate o v fb out lv rp sg ps ro nu ax us db ts tr tt ta tra : In o ["-rt"; "--rotate"] -> 0 < atof l v <= 180 -> switch l [o; v]
    (Args fb out lv (Tolerances ts tr tt ta tra) rp sg ps ro nu ax us db) (Args fb out lv (Tolerances ts (atof l v * PI / 180) tt ta tra) rp sg ps ro nu ax us db)
| sw_translate o v fb out lv rp sg ps ro nu ax us db ts tr tt ta tra : In o ["-tt"; "--translate"] -> 0 < atof l v -> switch l [o; v]
    (Args fb out lv (Tolerances ts tr tt ta tra) rp sg ps ro nu ax us db) (Args fb out lv (Tolerances ts tr (atof l v) ta tra) rp sg ps ro nu ax us db)
| sw_angle o v fb out lv rp sg ps ro nu ax us db ts tr tt ta tra : In o ["-at"; "--angle"] -> 0 < atof l v <= 90 -> switch l [o; v]
    (Args fb out lv (Tolerances ts tr tt ta tra) rp sg ps ro nu ax us db) (Args fb out lv (Tolerances ts tr tt (atof l v * PI / 180) tra) rp sg ps ro nu ax us db)
| sw_repeat fb out lv t rp sg ps ro nu ax us db : rp <> NeverRepeat -> switch l ["--repeat"]
    (Args fb out lv t rp sg ps ro nu ax us db) (Args fb out lv t AlwaysRepeat sg ps ro nu ax us db)
| sw_norepeat fb out lv t rp sg ps ro nu ax us db : rp <> AlwaysRepeat -> switch l ["--norepeat"]
    (Args fb out lv t rp sg ps ro nu ax us db) (Args fb out lv t NeverRepeat sg ps ro nu ax us db)
| sw_no_uniform fb out lv t rp sg ps ro nu ax us db : switch l ["--nouniformscale"]
    (Args fb out lv t rp sg ps ro nu ax us db) (Args fb out lv t rp sg ps ro true ax us db)
| sw_stagger o fb out lv t rp sg ps ro nu ax us db : In o ["--stagger"; "--stagger_end_times"] -> switch l [o]
    (Args fb out lv t rp sg ps ro nu ax us db) (Args fb out lv t rp true ps ro nu ax us db)
| sw_start o fb out lv t rp sg ps ro nu ax us db : In o ["--start"; "--preserve_start_time"] -> switch l [o]
    (Args fb out lv t rp sg ps ro nu ax us db) (Args fb out lv t rp sg true ro nu ax us db)
| sw_axes o v fb out lv t rp sg ps ro nu ax us db : In o ["-a"; "--axes"] -> (0 <= axis_from_name l v)%Z -> switch l [o; v]
    (Args fb out lv t rp sg ps ro nu ax us db) (Args fb out lv t rp sg ps ro nu (axis_from_name l v) us db)
| sw_unit o v fb out lv t rp sg ps ro nu ax us db : In o ["-u"; "--unit"] -> 0 < unit_from_name l v -> switch l [o; v]
    (Args fb out lv t rp sg ps ro nu ax us db) (Args fb out lv t rp sg ps ro nu ax (unit_from_name l v) db)
| sw_roots o fb out lv t rp sg ps ro nu ax us db : In o ["--roots"; "--root_bones_only"] -> switch l [o]
    (Args fb out lv t rp sg ps ro nu ax us db) (Args fb out lv t rp sg ps true nu ax us db)
| sw_debug v fb out lv t rp sg ps ro nu ax us db : (0 <= atoi l v)%Z -> switch l ["--debug_time"; v]
    (Args fb out lv t rp sg ps ro nu ax us db) (Args fb out LogInfo t rp sg ps ro nu ax us (atoi l v)).
Inductive legal (l : library) : list string -> pipeline_args -> pipeline_args -> Prop :=
| legal_none a : legal l [] a a
| legal_more s rest a b c : switch l s a b -> legal l rest b c -> legal l (s ++ rest) a c.
(** The arguments before any switch: the defaults of
    anim_pipeline.cpp:56-76 and 560-571, the file, and the output
    file named after it. *)
Definition at_first (file output : string) : pipeline_args :=
  Args file output LogWarning (Tolerances 0.005 0.00873 0.01 0.00873 0.1745) RepeatIfRepeatable false false false false (-1) (-1) (-1).

Lemma degrees_ok d : -180 < d <= 180 -> from_degrees d = Some (d * PI / 180).
Proof.
  intros D. pose proof PI_RGT_0 as P. replace d with (to_degrees (d * PI / 180)) at 1 by (unfold to_degrees; field; lra). apply C88_degrees_back. unfold valid_angle. nra.
Qed.
Lemma is_true a s t : is a s t = true <-> In a [s; t].
Proof. unfold is. rewrite Bool.orb_true_iff, !String.eqb_eq. cbn. intuition. Qed.

(** A legal command line is accepted, and each switch does what it says, in order. *)
Lemma switch_parse l s a b : switch l s a b -> forall rest valid, exists v', parse_switches l (s ++ rest)%list a valid = parse_switches l rest b v' /\ (valid = true -> v' = true).
Proof.
  assert (two : forall o x y : string, In o [x; y] -> o = x \/ o = y) by (intros o x y [H|[H|[]]]; auto).
  intros S rest valid. destruct S; repeat match goal with H : In _ _ |- _ => apply two in H; destruct H as [-> | ->] end; cbn -[Rleb Rltb from_degrees Z.ltb Z.leb];
    try (exists valid; split; [reflexivity|auto]; fail).
  all: try (rewrite (Rleb_f (atof l v) 0) by lra); try (rewrite Rltb_f by lra); cbn [orb]; try (rewrite degrees_ok by lra); try (exists valid; split; [reflexivity|auto]; fail).
  - destruct rp; try contradiction; cbn; exists valid; auto.
  - destruct rp; try contradiction; cbn; exists valid; auto.
  - exists (0 <=? axis_from_name l v)%Z. split; [reflexivity|intros _; lia].
  - exists (0 <=? axis_from_name l v)%Z. split; [reflexivity|intros _; lia].
  - exists (Rltb 0 (unit_from_name l v)). split; [reflexivity|intros _; now apply Rltb_t].
  - exists (Rltb 0 (unit_from_name l v)). split; [reflexivity|intros _; now apply Rltb_t].
  - replace (atoi l v <? 0)%Z with false by lia. exists valid; auto.
Qed.
Theorem C94_legal : forall l opts file b, valid_file file = true -> 
  legal l opts (at_first file (remove_extension l file ++ ".motiveanim")) b -> parse_args l (Some (opts, file)) = Some (b, true).
Proof.
  intros l opts file b V H. cbn [parse_args]. rewrite V. change (remove_extension l file ++ "." ++ kExtension) with (remove_extension l file ++ ".motiveanim").
  clear V. assert (E : with_output (with_fbx args_default file) (remove_extension l file ++ ".motiveanim") = at_first file (remove_extension l file ++ ".motiveanim")) by (unfold with_output, with_fbx, args_default, tolerances_default, at_first; cbn; repeat (f_equal; try lra)). rewrite E. clear E.
  induction H as [a|s rest a c d S _ IH]; [reflexivity|]. destruct (switch_parse l s a c S rest true) as (v' & -> & I). rewrite (I eq_refl). exact IH.
Qed.
Print Assumptions C94_legal.

(** The file has a name, and it does not begin with a dash. *)
Theorem C94_file : forall l file, (exists b, parse_args l (Some ([], file)) = Some (b, true)) <-> file <> "" /\ forall rest, file <> "-" ++ rest.
Proof.
  intros l file. cbn [parse_args parse_switches]. destruct file as [|c rest]; cbn [valid_file].
  - split; [intros [b H]; discriminate|intros [H _]; congruence].
  - destruct (Ascii.eqb_spec c "-"%char) as [->|N]; cbn [negb].
    + split; [intros [b H]; discriminate|intros [_ H]; exfalso; now apply (H rest)].
    + split; [intros _; split; [discriminate|intros r [= E _]; congruence]|eauto].
Qed.
Print Assumptions C94_file.

(** Without axes and units among its words, only a legal command line is accepted. *)
Lemma parse_back l : forall n opts a valid b, (List.length opts <= n)%nat -> Forall (fun o => ~ In o ["-a"; "--axes"; "-u"; "--unit"]) opts -> parse_switches l opts a valid = Some (b, true) -> valid = true /\ legal l opts a b.
Proof.
  induction n as [|n IH]; intros opts a valid b L F H.
  { destruct opts; [|cbn in L; lia]. injection H as <- ->. split; [reflexivity|constructor]. }
  destruct opts as [|arg rest]; [injection H as <- ->; split; [reflexivity|constructor]|]. cbn [List.length] in L. apply Forall_cons_iff in F. destruct F as [F0 F].
  assert (IH1 : forall a' v', parse_switches l rest a' v' = Some (b, true) -> switch l [arg] a a' -> v' = true /\ legal l (arg :: rest) a b).
  { intros a' v' P S. destruct (IH rest a' v' b ltac:(lia) F P) as [-> G]. split; [reflexivity|]. exact (legal_more l [arg] rest a a' b S G). }
  assert (BAD : forall a', parse_switches l rest a' false <> Some (b, true)).
  { intros a' P. destruct (IH rest a' false b ltac:(lia) F P) as [X _]. discriminate X. }
  assert (IH2 : forall v rest', rest = v :: rest' -> forall a' v', parse_switches l rest' a' v' = Some (b, true) -> switch l [arg; v] a a' -> v' = true /\ legal l (arg :: rest) a b).
  { intros v rest' -> a' v' P S. apply Forall_cons_iff in F. assert (L' : (List.length rest' <= n)%nat) by (clear - L; cbn in L; lia). destruct (IH rest' a' v' b L' (proj2 F) P) as [-> G]. split; [reflexivity|]. exact (legal_more l [arg; v] rest' a a' b S G). }
  assert (BAD2 : forall v rest', rest = v :: rest' -> forall a', parse_switches l rest' a' false <> Some (b, true)).
  { intros v rest' -> a' P. apply Forall_cons_iff in F. assert (L' : (List.length rest' <= n)%nat) by (clear - L; cbn in L; lia). destruct (IH rest' a' false b L' (proj2 F) P) as [X _]. discriminate X. }
  destruct a as [fb out lv [ts tr tt ta tra] rp sg ps ro nu ax us db].
  cbn [parse_switches] in H.
  repeat match type of H with
  | (if is ?a ?s ?t then _ else _) = _ => let E := fresh "E" in destruct (is a s t) eqn:E; [apply is_true in E|clear E]
  | (if String.eqb arg ?s then _ else _) = _ => let E := fresh "E" in destruct (String.eqb arg s) eqn:E; [apply String.eqb_eq in E|clear E]
  end.
  - apply (IH1 _ _ H). now constructor.
  - apply (IH1 _ _ H). now constructor.
  - apply (IH1 _ _ H). now constructor.
  - destruct rest as [|v rest']; [destruct (BAD _ H)|]. apply (IH2 v rest' eq_refl _ _ H). now constructor.
  - destruct rest as [|v rest']; [destruct (BAD _ H)|]. cbv zeta in H. destruct (Rleb_spec (atof l v) 0) as [B|B]; [destruct (BAD2 v rest' eq_refl _ H)|]. apply (IH2 v rest' eq_refl _ _ H). constructor; [exact E|lra].
  - destruct rest as [|v rest']; [destruct (BAD _ H)|]. cbv zeta in H. destruct (Rleb_spec (atof l v) 0) as [B|B]; [destruct (BAD _ H)|]. destruct (Rltb_spec 180 (atof l v)) as [C|C]; [destruct (BAD _ H)|]. cbn [orb] in H. rewrite degrees_ok in H by lra. apply (IH2 v rest' eq_refl _ _ H). constructor; [exact E|lra].
  - destruct rest as [|v rest']; [destruct (BAD _ H)|]. cbv zeta in H. destruct (Rleb_spec (atof l v) 0) as [B|B]; [destruct (BAD2 v rest' eq_refl _ H)|]. apply (IH2 v rest' eq_refl _ _ H). constructor; [exact E|lra].
  - destruct rest as [|v rest']; [destruct (BAD _ H)|]. cbv zeta in H. destruct (Rleb_spec (atof l v) 0) as [B|B]; [destruct (BAD2 v rest' eq_refl _ H)|]. destruct (Rltb_spec 90 (atof l v)) as [C|C]; [destruct (BAD2 v rest' eq_refl _ H)|]. cbn [orb] in H. rewrite degrees_ok in H by lra. apply (IH2 v rest' eq_refl _ _ H). constructor; [exact E|lra].
  - cbv zeta in H. destruct E as [<-|[<-|[]]]; cbn [String.eqb Ascii.eqb Bool.eqb] in H; destruct rp eqn:RP; cbn in H; try (destruct (BAD _ H)); apply (IH1 _ _ H); constructor; congruence.
  - subst arg. apply (IH1 _ _ H). constructor.
  - apply (IH1 _ _ H). now constructor.
  - apply (IH1 _ _ H). now constructor.
  - destruct F0. cbn in *. tauto.
  - destruct F0. cbn in *. tauto.
  - apply (IH1 _ _ H). now constructor.
  - subst arg. destruct rest as [|v rest']; [destruct (BAD _ H)|]. cbv zeta in H. destruct (Z.ltb_spec (atoi l v) 0) as [B|B]; [destruct (BAD2 v rest' eq_refl _ H)|]. apply (IH2 v rest' eq_refl _ _ H). apply sw_debug. exact B.
  - destruct (BAD _ H).
Qed.
Theorem C94_only_legal_partial : forall l opts file b, Forall (fun o => ~ In o ["-a"; "--axes"; "-u"; "--unit"]) opts -> parse_args l (Some (opts, file)) = Some (b, true) ->
  valid_file file = true /\ legal l opts (at_first file (remove_extension l file ++ ".motiveanim")) b.
Proof.
  intros l opts file b F H. assert (E : at_first file (remove_extension l file ++ ".motiveanim") = with_output (with_fbx args_default file) (remove_extension l file ++ "." ++ kExtension)) by (unfold with_output, with_fbx, args_default, tolerances_default, at_first; cbn; repeat (f_equal; try lra)).
  rewrite E. exact (parse_back l _ opts _ _ b (le_n _) F H).
Qed.
Print Assumptions C94_only_legal_partial.
(** In full it is false: a unit or an axis system that is known makes up for every mistake
    before it. An unknown switch, a negative tolerance and a missing file name are accepted. *)
Theorem C94_only_legal_refuted : forall l u, 0 < unit_from_name l u ->
  (exists b, parse_args l (Some (["--unknown"; "-u"; u], "a.fbx")) = Some (b, true)) /\
  (forall x, exists b, parse_args l (Some (["-st"; x; "-u"; u], "a.fbx")) = Some (b, true) /\ t_scale (tols b) = atof l x) /\
  (exists b, parse_args l (Some (["-u"; u], "--repeat")) = Some (b, true) /\ fbx_file b = "--repeat" /\ repeat_pref b = RepeatIfRepeatable).
Proof.
  intros l u U. split; [|split].
  - eexists. cbn -[Rltb]. rewrite Rltb_t by exact U. reflexivity.
  - intros x. eexists. cbn -[Rltb Rleb]. rewrite Rltb_t by exact U. split; reflexivity.
  - eexists. cbn -[Rltb Rleb]. rewrite Rltb_t by exact U. repeat split; reflexivity.
Qed.
Print Assumptions C94_only_legal_refuted.
(** Parsing never fails an assert, and without arguments nothing is accepted. *)
Theorem C94_no_failure : forall l argv, parse_args l argv <> None /\ (argv = None -> parse_args l argv = Some (args_default, false)).
Proof.
  assert (G : forall l n opts a valid, (List.length opts <= n)%nat -> parse_switches l opts a valid <> None).
  { intros l. induction n as [|n IH]; intros opts a valid L; [destruct opts; [discriminate|cbn in L; lia]|]. destruct opts as [|arg rest]; [discriminate|]. cbn [List.length] in L. assert (L1 : (List.length rest <= n)%nat) by (clear - L; lia). assert (L2 : forall v rest', rest = v :: rest' -> (List.length rest' <= n)%nat) by (intros v rest' ->; clear - L; cbn in L; lia). clear L. cbn [parse_switches]. cbv zeta.
    repeat match goal with
    | |- (if ?c then _ else _) <> None => destruct c eqn:?
    | |- match rest with _ => _ end <> None => destruct rest as [|v rest']
    | H : (_ || _)%bool = false |- _ => apply Bool.orb_false_elim in H; destruct H
    | |- parse_switches _ _ _ _ <> None => apply IH; first [exact L1 | exact (L2 _ _ eq_refl)]
    end.
    all: match goal with A : Rleb _ 0 = false, B : Rltb _ _ = false |- _ => apply Rleb_false in A; apply Rltb_false in B end; rewrite degrees_ok by (split; lra); apply IH; exact (L2 _ _ eq_refl). }
  intros l [[opts file]|]; (split; [|intros E; try discriminate E; reflexivity]); [|discriminate]. cbn [parse_args]. apply (G l _ opts _ _ (le_n _)).
Qed.
Print Assumptions C94_no_failure.

(** A command line that meets the hypotheses. *)
Example C94_case : forall l, unit_from_name l "m" = 100 -> atof l "2" = 2 -> remove_extension l "walk.fbx" = "walk" ->
  exists b, parse_args l (Some (["-u"; "m"; "--repeat"; "-rt"; "2"; "--roots"], "walk.fbx")) = Some (b, true) /\
    fbx_file b = "walk.fbx" /\ output_file b = "walk.motiveanim" /\ unit_scale b = 100 /\ repeat_pref b = AlwaysRepeat /\ roots_only b = true /\ t_rotate (tols b) = 2 * PI / 180 /\ level b = LogWarning.
Proof.
  intros l U A E. eexists. split.
  - apply C94_legal; [reflexivity|]. eapply (legal_more l ["-u"; "m"]); [apply sw_unit; [left; reflexivity|lra]|].
    eapply (legal_more l ["--repeat"]); [apply sw_repeat; discriminate|]. eapply (legal_more l ["-rt"; "2"]); [apply sw_rotate; [left; reflexivity|lra]|].
    eapply (legal_more l ["--roots"] []); [apply sw_roots; left; reflexivity|]. constructor.
  - cbn. rewrite U, A, E. repeat split; reflexivity.
Qed.
