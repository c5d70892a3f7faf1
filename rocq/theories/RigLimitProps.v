(** The limits on the number of bones of C85. *)
From Verif Require Import RBase Base BaseFacts RangeModel CompactSplineModel MatrixModel RigModel AnimTableModel AnimDataModel FlatAnimModel RigProps.
From Coq Require Import Lia.
Local Open Scope Z_scope.

Lemma init_len {O} idx parent name (m : manim O) a a' : init_matrix_anim idx parent name m a = Some a' -> idx < len (ra_anims a) /\ len (ra_anims a') = len (ra_anims a).
Proof.
  unfold init_matrix_anim. destruct (Z.ltb_spec idx (len (ra_anims a))); [|discriminate]. destruct (_ || _)%bool; [|discriminate]. destruct (setz (ra_parents a) _ _); [|discriminate].
  destruct (if (0 <? len (ra_names a)) then setz (ra_names a) idx name else Some (ra_names a)); [|discriminate]. destruct (setz (ra_anims a) idx m) as [l2|] eqn:E; [|discriminate]. intros [= <-]. cbn [ra_anims]. split; [assumption|]. now apply setz_len in E.
Qed.
Lemma load_bones_fit {I} (si : range -> I) : forall fuel f rec i t a r, load_bones si fuel f rec i t a = Some r -> fuel = O \/ i + Z.of_nat fuel <= len (ra_anims a).
Proof.
  induction fuel as [|fuel IH]; intros f rec i t a r E; [now left|right]. cbn [load_bones] in E.
  destruct (getz (fr_parents f) i); [|discriminate]. destruct (if rec then n <- fr_names f ;; getz n i else Some []); [|discriminate]. destruct (getz (fr_anims f) i); [|discriminate]. destruct (load_matrix si _); [|discriminate].
  destruct (init_matrix_anim _ _ _ _ _) as [a'|] eqn:Q; [|discriminate]. apply init_len in Q as [L1 L2]. destruct (ops_end_time _ _); [|discriminate]. apply IH in E. rewrite L2 in E. destruct E as [-> | E]; lia.
Qed.

(** A file with more bones than kMaxNumBones is not loaded: an assert fails, also where the
    number of bones, as a byte, is small. *)
Theorem C85_bone_limit : forall I (spline_init : range -> I) f, 254 < len (fr_anims f) -> load_rig spline_init f = None.
Proof.
  intros I si f L. destruct (load_rig si f) as [a|] eqn:E; [exfalso|reflexivity]. unfold load_rig in E. destruct (_ =? _); [|discriminate].
  destruct (ra_init _ _ _) as [a0|] eqn:RI; [|discriminate]. destruct (load_bones _ _ _ _ _ _ _) as [r|] eqn:LB; [|discriminate].
  unfold ra_init in RI. destruct (Z.leb_spec (len (fr_anims f) mod 256) kMaxNumBones) as [M|]; [|discriminate]. injection RI as <-.
  apply load_bones_fit in LB. cbn [ra_anims] in LB. pose proof (Z.mod_pos_bound (len (fr_anims f)) 256 ltac:(lia)) as B. rewrite len_resize in LB by lia. unfold kMaxNumBones in M.
  destruct LB as [LB|LB]; lia.
Qed.
Print Assumptions C85_bone_limit.
(** A file of 256 bones without operations, of which the byte is 0, is one of them. *)
Example C85_bone_limit_case : 254 < len (fr_anims (FbRig (repeat (FbMatrix false []) 256) (repeat 255 256) None false [])).
Proof. vm_compute. reflexivity. Qed.

(** A file that is loaded has as many bones as the rig. *)
Theorem C85_bone_count : forall I (spline_init : range -> I) f a, load_rig spline_init f = Some a -> num_bones a = len (fr_anims f) /\ len (fr_anims f) <= 254.
Proof.
  intros I si f a E. destruct (Z.le_gt_cases (len (fr_anims f)) 254) as [L|L]; [|rewrite C85_bone_limit in E by lia; discriminate]. split; [|assumption].
  unfold load_rig in E. destruct (_ =? _); [|discriminate]. destruct (ra_init _ _ _) as [a0|] eqn:RI; [|discriminate]. destruct (load_bones _ _ _ _ _ _ _) as [[a' t]|] eqn:LB; [|discriminate]. injection E as <-.
  unfold ra_init in RI. destruct (_ <=? _); [|discriminate]. injection RI as <-.
  assert (G : forall fuel rec i t a r t', load_bones si fuel f rec i t a = Some (r, t') -> len (ra_anims r) = len (ra_anims a)).
  { clear. induction fuel as [|fuel IH]; intros rec i t a r t' E; cbn [load_bones] in E; [now injection E as <- _|].
    destruct (getz (fr_parents f) i); [|discriminate]. destruct (if rec then n <- fr_names f ;; getz n i else Some []); [|discriminate]. destruct (getz (fr_anims f) i); [|discriminate]. destruct (load_matrix si _); [|discriminate].
    destruct (init_matrix_anim _ _ _ _ _) as [a'|] eqn:Q; [|discriminate]. apply init_len in Q as [_ L2]. destruct (ops_end_time _ _); [|discriminate]. apply IH in E. lia. }
  apply G in LB. unfold num_bones. cbn [ra_anims] in *. rewrite LB, len_resize by (apply Z.mod_pos_bound; lia). unfold len in *. rewrite !Z.mod_small; lia.
Qed.
Print Assumptions C85_bone_count.
