From Verif Require Import RBase RangeModel RangeProofs FloatModel FloatProofs CurveModel.
From Coq Require Import Sorted.

(** ** Derivatives and continuity *)
Lemma qeval_cont q : continuity (qeval q).
Proof. unfold qeval. reg. Qed.
Lemma qderiv_ok q x : derivable_pt_lim (qeval q) x (qderiv q x).
Proof.
  unfold qeval, qderiv. replace (2 * q2 q * x + q1 q) with (((q2 q * 1 + 0) * x + (q2 q * x + q1 q) * 1) + 0) by ring.
  apply derivable_pt_lim_plus; [|apply derivable_pt_lim_const].
  apply (derivable_pt_lim_mult (fun x => q2 q * x + q1 q) id); [|apply derivable_pt_lim_id].
  apply derivable_pt_lim_plus; [|apply derivable_pt_lim_const]. apply derivable_pt_lim_scal, derivable_pt_lim_id.
Qed.
Lemma qderiv2_ok q x : derivable_pt_lim (qderiv q) x (qderiv2 q x).
Proof.
  replace (qderiv2 q x) with (2 * q2 q * 1 + 0) by (unfold qderiv2; ring). unfold qderiv.
  apply derivable_pt_lim_plus; [|apply derivable_pt_lim_const]. apply derivable_pt_lim_scal, derivable_pt_lim_id.
Qed.
Lemma qderiv3_ok q x : derivable_pt_lim (qderiv2 q) x (qderiv3 q x).
Proof. apply derivable_pt_lim_const. Qed.

Lemma keval_expand c x : keval c x = x * qeval (Quad (k3 c) (k2 c) (k1 c)) x + k0 c.
Proof. unfold keval, qeval. simpl. ring. Qed.
Lemma kderiv_ok c x : derivable_pt_lim (keval c) x (kderiv c x).
Proof.
  set (q := Quad (k3 c) (k2 c) (k1 c)).
  assert (H : derivable_pt_lim (fun x => x * qeval q x + k0 c) x (1 * qeval q x + x * qderiv q x + 0)).
  { apply derivable_pt_lim_plus; [|apply derivable_pt_lim_const].
    apply (derivable_pt_lim_mult id (qeval q)); [apply derivable_pt_lim_id|apply qderiv_ok]. }
  replace (kderiv c x) with (1 * qeval q x + x * qderiv q x + 0) by (unfold kderiv, qeval, qderiv, q; simpl; ring).
  intros eps He. destruct (H eps He) as (d & Hd). exists d. intros h Hh Hhd. rewrite !keval_expand. now apply Hd.
Qed.
Lemma kderiv2_ok c x : derivable_pt_lim (kderiv c) x (kderiv2 c x).
Proof.
  set (q := Quad (3 * k3 c) (2 * k2 c) (k1 c)). replace (kderiv2 c x) with (qderiv q x) by (unfold kderiv2, qderiv, q; simpl; ring).
  exact (qderiv_ok q x).
Qed.
Lemma kderiv3_ok c x : derivable_pt_lim (kderiv2 c) x (kderiv3 c x).
Proof.
  replace (kderiv3 c x) with (6 * k3 c * 1 + 0) by (unfold kderiv3; ring). unfold kderiv2.
  apply derivable_pt_lim_plus; [|apply derivable_pt_lim_const]. apply derivable_pt_lim_scal, derivable_pt_lim_id.
Qed.

(** ** Roots *)
Lemma eps_scale_pos : 0 < kEpsilonScale.
Proof. apply Rinv_0_lt_compat, pow2_pos. Qed.
Lemma eps_scale_lt1 : kEpsilonScale < 1.
Proof.
  unfold kEpsilonScale. rewrite <- Rinv_1. apply Rinv_lt_contravar; [pose proof (pow2_pos 22); lra|].
  rewrite <- pow2_0. apply pow2_lt. lia.
Qed.
Lemma max_coeff_ge q : Rabs (q2 q) <= max_coeff q /\ Rabs (q1 q) <= max_coeff q /\ Rabs (q0 q) <= max_coeff q.
Proof. unfold max_coeff. minmax; lra. Qed.

(** No coefficient or discriminant lies in the grey zone where the code treats a
    non-zero number as zero; the curve is not identically zero. *)
Definition well_conditioned (q : quad) : Prop :=
  (q2 q = 0 /\ q1 q = 0 /\ q0 q <> 0) \/
  (q2 q = 0 /\ q1 q <> 0 /\ qepsilon q <= Rabs (q1 q)) \/
  (q2 q <> 0 /\ qepsilon q <= Rabs (q2 q) /\ (discriminant q = 0 \/ qepsilon q < Rabs (discriminant q))).

Lemma qepsilon_nonneg q : 0 <= qepsilon q.
Proof. unfold qepsilon. pose proof eps_scale_pos. destruct (max_coeff_ge q). pose proof (Rabs_pos (q2 q)). nra. Qed.
Lemma qepsilon_pos q : 0 < max_coeff q -> 0 < qepsilon q.
Proof. intros. unfold qepsilon. pose proof eps_scale_pos. nra. Qed.

Lemma qeval_square q x : 4 * q2 q * qeval q x = (2 * q2 q * x + q1 q) * (2 * q2 q * x + q1 q) - discriminant q.
Proof. unfold qeval, discriminant. ring. Qed.

Lemma rwn_ok q : well_conditioned q ->
  exists l, roots_without_normalizing q = Some l /\ Sorted Rlt l /\ (length l <= 2)%nat /\ forall x, In x l <-> qeval q x = 0.
Proof.
  intros W. unfold roots_without_normalizing. destruct (max_coeff_ge q) as (M2 & M1 & M0).
  destruct W as [(E2 & E1 & N0)|[(E2 & N1 & H1)|(N2 & H2 & HD)]].
  - assert (P : 0 < qepsilon q) by (apply qepsilon_pos; pose proof (Rabs_pos_lt _ N0); lra).
    rewrite E2, E1, Rabs_R0, Rltb_t by assumption. exists []. split; [reflexivity|]. split; [constructor|]. split; [cbn; lia|].
    intros x. unfold qeval. rewrite E2, E1. split; [easy|]. intros H. exfalso. apply N0. lra.
  - assert (P : 0 < qepsilon q) by (apply qepsilon_pos; pose proof (Rabs_pos_lt _ N1); lra).
    rewrite E2, Rabs_R0, Rltb_t by assumption. rewrite Rltb_f by assumption. rewrite Reqb_f by assumption.
    eexists. split; [reflexivity|]. split; [repeat constructor|]. split; [cbn; lia|].
    intros x. unfold qeval. rewrite E2. cbn [In]. split.
    + intros [<-|[]]. field. assumption.
    + intros H. left. field_simplify_eq; [lra|assumption].
  - rewrite Rltb_f by assumption. unfold reliable_discriminant, clamp_near_zero.
    pose proof (qeval_square q) as SQ. pose proof (qepsilon_nonneg q) as EN.
    destruct HD as [D0|DN].
    + rewrite D0, Rabs_R0, Rleb_t by assumption. rewrite Rltb_f by lra. rewrite !Reqb_f by assumption. rewrite Reqb_t by reflexivity.
      eexists. split; [reflexivity|]. split; [repeat constructor|]. split; [cbn; lia|].
      intros x. cbn [In]. specialize (SQ x). rewrite D0 in SQ. split.
      * intros [<-|[]]. apply (Rmult_eq_reg_l (4 * q2 q)); [|lra]. rewrite SQ. field. assumption.
      * intros H. left. rewrite H in SQ. assert (S0 : 2 * q2 q * x + q1 q = 0) by nra.
        apply (Rmult_eq_reg_l (2 * q2 q)); [|lra]. field_simplify; [|assumption]. lra.
    + rewrite Rleb_f by assumption. destruct (Rltb_spec (discriminant q) 0) as [DL|DG].
      * exists []. split; [reflexivity|]. split; [constructor|]. split; [cbn; lia|].
        intros x. split; [easy|]. intros H. specialize (SQ x). rewrite H in SQ. pose proof (Rle_0_sqr (2 * q2 q * x + q1 q)) as P. unfold Rsqr in P. lra.
      * assert (DP : 0 < discriminant q).
        { destruct (Req_dec (discriminant q) 0) as [E0|]; [|lra]. rewrite E0, Rabs_R0 in DN. lra. }
        rewrite !Reqb_f by (assumption || lra).
        set (s := sqrt (discriminant q)). assert (S0 : 0 < s) by now apply sqrt_lt_R0.
        assert (SS : s * s = discriminant q) by (apply sqrt_sqrt; lra).
        set (dv := 1 / q2 q * (1 / 2)). assert (DV : dv * (2 * q2 q) = 1) by (unfold dv; field; assumption).
        assert (NE : (- q1 q - s) * dv <> (- q1 q + s) * dv).
        { intros H. assert (s * dv = 0) by lra. assert (s * dv * (2 * q2 q) = 0) by nra. nra. }
        rewrite Reqb_f by assumption. cbn [negb].
        eexists. split; [reflexivity|]. split.
        { repeat constructor. unfold Rmin, Rmax. destruct (Rle_dec _ _); lra. }
        split; [cbn; lia|].
        assert (FR : forall x, qeval q x = 0 <-> x = (- q1 q - s) * dv \/ x = (- q1 q + s) * dv).
        { intros x. specialize (SQ x). rewrite <- SS in SQ. split.
          - intros H. rewrite H in SQ. assert (F : (2 * q2 q * x + q1 q + s) * (2 * q2 q * x + q1 q - s) = 0) by lra.
            assert (X : x = 2 * q2 q * x * dv) by (replace (2 * q2 q * x * dv) with (dv * (2 * q2 q) * x) by ring; rewrite DV; ring).
            apply Rmult_integral in F. destruct F as [F|F]; [left|right]; rewrite X; [replace (2 * q2 q * x) with (- q1 q - s) by lra|replace (2 * q2 q * x) with (- q1 q + s) by lra]; reflexivity.
          - intros H. apply (Rmult_eq_reg_l (4 * q2 q)); [|lra]. rewrite SQ.
            assert (T : forall t, x = t * dv -> 2 * q2 q * x = t).
            { intros t ->. replace (2 * q2 q * (t * dv)) with (dv * (2 * q2 q) * t) by ring. rewrite DV. ring. }
            destruct H as [H|H]; rewrite (T _ H); ring. }
        intros x. rewrite FR. cbn [In]. unfold Rmin, Rmax. destruct (Rle_dec _ _); split; (intros [H|H]; [|try destruct H as [H|[]]]; subst; auto).
Qed.

(** ** Roots with normalisation *)
Lemma x_scale_pos q : 0 < x_scale_reciprocal q.
Proof.
  unfold x_scale_reciprocal. apply Rmin_glb_lt; [|apply r_max_scale_pos; unfold kMaxInvertableExponent; lia].
  destruct (Reqb _ _ || _) eqn:B; [lra|]. apply orb_false_iff in B. destruct B as [_ B]. apply negb_false_iff in B.
  unfold contains, kInvertablePowerOf2Range in B. cbn [start_ end_] in B. apply andb_true_iff in B. destruct B as [B1 B2].
  apply Rleb_true in B1, B2. pose proof (pow2_pos kMinInvertableExponent). pose proof (pow2_lt kMaxInvertableExponent 127 ltac:(unfold kMaxInvertableExponent; lia)).
  destruct (Rleb _ _); [|apply r_sqrt_reciprocal_pos]. apply r_reciprocal_pos. rewrite Rabs_pos_eq; lra.
Qed.

Lemma y_scale_pos q : 0 < y_scale q.
Proof.
  unfold y_scale. apply Rmin_glb_lt; [apply Rmin_glb_lt; apply r_max_scale_pos; unfold kMaxInvertableExponent; lia|].
  apply r_reciprocal_pos. unfold clamp, kInvertablePowerOf2Range. cbn [start_ end_].
  pose proof (pow2_pos kMinInvertableExponent). pose proof (pow2_lt kMaxInvertableExponent 127 ltac:(unfold kMaxInvertableExponent; lia)).
  pose proof (pow2_le kMinInvertableExponent kMaxInvertableExponent ltac:(unfold kMaxInvertableExponent, kMinInvertableExponent; lia)).
  rewrite Rabs_pos_eq; minmax; lra.
Qed.

Lemma normalized_eval q x : exists s, 0 < s /\ qeval (normalized q) x = s * qeval q (x * x_scale_reciprocal q).
Proof.
  unfold normalized. exists (y_scale (qscale_in_x_by_reciprocal q (x_scale_reciprocal q))). split; [apply y_scale_pos|].
  unfold qeval, qscale_in_y, qscale_in_x_by_reciprocal. cbn [q2 q1 q0]. ring.
Qed.

Lemma sorted_map_scale l r : 0 < r -> Sorted Rlt l -> Sorted Rlt (map (fun x => x * r) l).
Proof.
  intros Hr. induction 1 as [|x l S IH H]; cbn; [constructor|]. constructor; [exact IH|]. destruct H as [|y l Hy]; cbn; [constructor|].
  constructor. nra.
Qed.

Lemma roots_ok q : well_conditioned (normalized q) ->
  exists l, roots q = Some l /\ Sorted Rlt l /\ (length l <= 2)%nat /\ forall x, In x l <-> qeval q x = 0.
Proof.
  intros W. destruct (rwn_ok _ W) as (l & E & S & L & H). pose proof (x_scale_pos q) as Hr.
  unfold roots. rewrite E. exists (map (fun x => x * x_scale_reciprocal q) l). split; [reflexivity|].
  split; [now apply sorted_map_scale|]. split; [now rewrite map_length|].
  intros x. rewrite in_map_iff. split.
  - intros (y & <- & Hy). apply H in Hy. destruct (normalized_eval q y) as (s & Hs & Es). rewrite Es in Hy. nra.
  - intros Hx. exists (x / x_scale_reciprocal q). split; [field; lra|]. apply H.
    destruct (normalized_eval q (x / x_scale_reciprocal q)) as (s & _ & Es). rewrite Es.
    replace (x / x_scale_reciprocal q * x_scale_reciprocal q) with x by (field; lra). rewrite Hx. ring.
Qed.

(** ** RootsInRange *)
Lemma firstn_kept {A} (k j : list A) : firstn (Z.to_nat (len k)) (k ++ j) = k.
Proof. unfold len. rewrite Nat2Z.id, firstn_app, Nat.sub_diag, firstn_all, firstn_O. apply app_nil_r. Qed.

Lemma roots_in_range_eq q r l : start_ r <= end_ r -> roots q = Some l ->
  roots_in_range q r = Some (map (clamp r) (filter (fun v => Rleb (Rabs (v - clamp r v)) (length_ r * kEpsilonScale)) l)).
Proof.
  intros Hr E. unfold roots_in_range. rewrite E.
  destruct (values_in_range_ok r (length_ r * kEpsilonScale) l) as (junk & Ev & L). rewrite Ev. cbn [fst snd].
  replace (len (filter (fun v => Rleb (Rabs (v - clamp r v)) (length_ r * kEpsilonScale)) l))
    with (len (map (clamp r) (filter (fun v => Rleb (Rabs (v - clamp r v)) (length_ r * kEpsilonScale)) l)))
    by (unfold len; now rewrite map_length).
  now rewrite firstn_kept.
Qed.

Lemma clamp_in r x : start_ r <= x <= end_ r -> clamp r x = x.
Proof. intros. unfold clamp. minmax; lra. Qed.

(** ** Signs *)
Lemma no_root_same_sign q a b : a <= b -> (forall z, a <= z <= b -> qeval q z <> 0) -> 0 < qeval q a * qeval q b.
Proof.
  intros Hab N. destruct (Rlt_or_le 0 (qeval q a * qeval q b)) as [|H]; [assumption|]. exfalso.
  destruct (IVT_cor (qeval q) a b (qeval_cont q) Hab H) as (z & Hz & E). exact (N z Hz E).
Qed.

Lemma two_roots_factor q r0 r1 : r0 <> r1 -> qeval q r0 = 0 -> qeval q r1 = 0 ->
  forall x, qeval q x = q2 q * (x - r0) * (x - r1).
Proof.
  unfold qeval. intros N E0 E1 x.
  assert (A : q1 q = - q2 q * (r0 + r1)).
  { assert (F : (r0 - r1) * (q2 q * (r0 + r1) + q1 q) = 0) by lra. apply Rmult_integral in F. destruct F; lra. }
  assert (B : q0 q = q2 q * r0 * r1) by (rewrite A in E0; lra). rewrite A, B. ring.
Qed.

Lemma sorted_cases (l : list R) : Sorted Rlt l -> (length l <= 2)%nat ->
  l = [] \/ (exists r, l = [r]) \/ exists r0 r1, l = [r0; r1] /\ r0 < r1.
Proof.
  intros S L. destruct l as [|r0 [|r1 [|]]]; [now left|right; left; now exists r0| |cbn in L; lia].
  right; right. exists r0, r1. split; [reflexivity|]. inversion S as [|? ? _ H]; subst. now inversion H.
Qed.

Lemma filter_sorted (l : list R) f : Sorted Rlt l -> (length l <= 2)%nat ->
  Sorted Rlt (filter f l) /\ (length (filter f l) <= 2)%nat.
Proof.
  intros S L. destruct (sorted_cases l S L) as [->|[(r & ->)|(r0 & r1 & -> & H)]]; cbn; [auto| |].
  - destruct (f r); cbn; auto.
  - destruct (f r0), (f r1); cbn; split; auto; repeat constructor; assumption.
Qed.

(** The roots RangesMatchingSign works with, when no root lies just outside. *)
Lemma rir_exact q r : well_conditioned (normalized q) -> start_ r <= end_ r ->
  (forall z, qeval q z = 0 -> start_ r <= z <= end_ r \/ length_ r * kEpsilonScale < Rabs (z - clamp r z)) ->
  exists l, roots_in_range q r = Some l /\ Sorted Rlt l /\ (length l <= 2)%nat /\
    forall x, In x l <-> qeval q x = 0 /\ start_ r <= x <= end_ r.
Proof.
  intros W Hr F. destruct (roots_ok q W) as (l & E & S & L & H). rewrite (roots_in_range_eq q r l Hr E).
  set (f := fun v => Rleb (Rabs (v - clamp r v)) (length_ r * kEpsilonScale)).
  assert (Hf : forall x, In x (filter f l) <-> qeval q x = 0 /\ start_ r <= x <= end_ r).
  { intros x. rewrite filter_In, H. unfold f. split.
    - intros [E0 B]. split; [assumption|]. apply Rleb_true in B. destruct (F x E0); [assumption|lra].
    - intros [E0 B]. split; [assumption|]. apply Rleb_true. rewrite clamp_in by assumption.
      replace (x - x) with 0 by ring. rewrite Rabs_R0. unfold length_. pose proof eps_scale_pos. nra. }
  assert (Em : map (clamp r) (filter f l) = filter f l).
  { rewrite <- map_id. apply map_ext_in. intros x Hx. apply clamp_in. now apply Hf. }
  rewrite Em. destruct (filter_sorted l f S L) as [S' L']. eexists. repeat split; eauto; now apply Hf.
Qed.

Lemma rms_ok q r sign : well_conditioned (normalized q) -> start_ r < end_ r -> sign <> 0 ->
  qeval q (start_ r) <> 0 -> qeval q (end_ r) <> 0 ->
  (forall z, qeval q z = 0 -> start_ r <= z <= end_ r \/ length_ r * kEpsilonScale < Rabs (z - clamp r z)) ->
  exists l, ranges_matching_sign q r sign = Some l /\ (length l <= 2)%nat /\
    (forall m, In m l -> start_ r <= start_ m <= end_ m /\ end_ m <= end_ r) /\
    forall x, start_ r <= x <= end_ r ->
      (0 <= sign * qeval q x <-> exists m, In m l /\ start_ m <= x <= end_ m).
Proof.
  intros W Hr Hs Na Nb F. destruct (rir_exact q r W ltac:(lra) F) as (l & E & S & L & H).
  unfold ranges_matching_sign. rewrite E. set (a := start_ r) in *. set (b := end_ r) in *.
  assert (Sq : 0 < sign * sign) by nra.
  assert (SN : forall x, 0 <= sign * qeval q x <-> (qeval q x = 0 \/ 0 < sign * qeval q x)).
  { intros x. split; [|intros [->|]; lra]. intros [?|E0]; [now right|]. left. symmetry in E0. apply Rmult_integral in E0. tauto. }
  (* sign carried between two points with no root between them *)
  assert (Carry : forall u v, u <= v -> (forall z, u <= z <= v -> qeval q z <> 0) -> (0 <= sign * qeval q u <-> 0 <= sign * qeval q v)).
  { intros u v Huv Hz. pose proof (no_root_same_sign q u v Huv Hz) as P.
    assert (Hm : 0 < (sign * qeval q u) * (sign * qeval q v)) by nra. split; intros; nra. }
  destruct (sorted_cases l S L) as [->|[(z & ->)|(r0 & r1 & -> & H01)]].
  - assert (NR : forall z, a <= z <= b -> qeval q z <> 0) by (intros z Hz E0; apply (proj2 (H z)); auto).
    pose proof (Carry a b ltac:(lra) NR) as C.
    assert (Cx : forall x, a <= x <= b -> (0 <= sign * qeval q a <-> 0 <= sign * qeval q x)).
    { intros x Hx. apply Carry; [lra|]. intros z Hz. apply NR. lra. }
    destruct (Rleb_spec 0 (sign * qeval q a)), (Rleb_spec 0 (sign * qeval q b)); cbn; try tauto.
    + eexists. split; [reflexivity|]. split; [cbn; lia|]. split.
      * intros m [<-|[]]. cbn. lra.
      * intros x Hx. split; [|intros _; now apply Cx]. intros _. exists (Rg a b). cbn. auto.
    + eexists. split; [reflexivity|]. split; [cbn; lia|]. split; [easy|]. intros x Hx. split; [|intros (m & [] & _)].
      intros G. apply Cx in G; [contradiction|assumption].
  - destruct (proj1 (H z) ltac:(now left)) as [Ez Hz].
    assert (Oz : forall x, qeval q x = 0 -> a <= x <= b -> x = z).
    { intros x E0 Hx. destruct (proj2 (H x) (conj E0 Hx)) as [|[]]; congruence. }
    assert (Az : a < z) by (destruct (Rle_lt_or_eq_dec a z ltac:(lra)); [assumption|congruence]).
    assert (Zb : z < b) by (destruct (Rle_lt_or_eq_dec z b ltac:(lra)); [assumption|congruence]).
    assert (CL : forall x, a <= x < z -> (0 <= sign * qeval q a <-> 0 <= sign * qeval q x)).
    { intros x Hx. apply Carry; [lra|]. intros y Hy E0. apply Oz in E0; lra. }
    assert (CR : forall x, z < x <= b -> (0 <= sign * qeval q x <-> 0 <= sign * qeval q b)).
    { intros x Hx. apply Carry; [lra|]. intros y Hy E0. apply Oz in E0; lra. }
    assert (CZ : forall x, x = z -> 0 <= sign * qeval q x) by (intros x ->; rewrite Ez; lra).
    cbn [length Nat.eqb orb].
    eexists. split; [reflexivity|]. split; [cbn; lia|]. split.
    + intros m [<-|[]]. cbn. destruct (Rleb _ _), (Rleb _ _); lra.
    + intros x Hx. destruct (Rleb_spec 0 (sign * qeval q a)) as [VA|VA], (Rleb_spec 0 (sign * qeval q b)) as [VB|VB];
        destruct (Rtotal_order x z) as [XL|[XE|XG]];
        (split; [intros G|intros (m & [<-|[]] & M); cbn in M]);
        try (eexists; split; [left; reflexivity|cbn; lra]);
        try (now apply CZ); try (now apply (CL x ltac:(lra))); try (now apply (CR x ltac:(lra)));
        try (exfalso; apply (CL x ltac:(lra)) in G; lra); try (exfalso; apply (CR x ltac:(lra)) in G; lra); lra.
  - destruct (proj1 (H r0) ltac:(now left)) as [E0 B0]. destruct (proj1 (H r1) ltac:(right; now left)) as [E1 B1].
    pose proof (two_roots_factor q r0 r1 ltac:(lra) E0 E1) as FT.
    assert (A0 : a < r0) by (destruct (Rle_lt_or_eq_dec a r0 ltac:(lra)); [assumption|congruence]).
    assert (B1' : r1 < b) by (destruct (Rle_lt_or_eq_dec r1 b ltac:(lra)); [assumption|congruence]).
    set (k := sign * q2 q).
    assert (FK : forall x, sign * qeval q x = k * ((x - r0) * (x - r1))) by (intros x; rewrite FT; unfold k; ring).
    assert (Kn : k <> 0).
    { unfold k. intros K0. apply Rmult_integral in K0. destruct K0 as [|K0]; [contradiction|]. rewrite FT, K0 in Na. apply Na. ring. }
    assert (Out : forall x, x < r0 \/ r1 < x -> 0 < (x - r0) * (x - r1)) by (intros x [|]; nra).
    assert (Inn : forall x, r0 < x < r1 -> (x - r0) * (x - r1) < 0) by (intros; nra).
    assert (Oa := Out a ltac:(lra)). assert (Ob := Out b ltac:(lra)).
    assert (Z0 : (r0 - r0) * (r0 - r1) = 0) by ring. assert (Z1 : (r1 - r0) * (r1 - r1) = 0) by ring.
    rewrite !FK. destruct (Rlt_or_le 0 k) as [KP|KP].
    + rewrite !Rleb_t by nra. cbn.
      eexists. split; [reflexivity|]. split; [cbn; lia|]. split.
      * intros m [<-|[<-|[]]]; cbn; lra.
      * intros x Hx. rewrite FK. split.
        -- intros G. destruct (Rle_or_lt x r0); [exists (Rg a r0); cbn; split; [auto|lra]|].
           destruct (Rle_or_lt r1 x); [exists (Rg r1 b); cbn; split; [auto|lra]|].
           exfalso. pose proof (Inn x ltac:(lra)). nra.
        -- intros (m & [<-|[<-|[]]] & M); cbn in M.
           ++ destruct (Req_dec x r0) as [->|]; [rewrite Z0; lra|]. pose proof (Out x ltac:(lra)). nra.
           ++ destruct (Req_dec x r1) as [->|]; [rewrite Z1; lra|]. pose proof (Out x ltac:(lra)). nra.
    + rewrite !Rleb_f by nra. cbn.
      eexists. split; [reflexivity|]. split; [cbn; lia|]. split.
      * intros m [<-|[]]; cbn; lra.
      * intros x Hx. rewrite FK. split.
        -- intros G. exists (Rg r0 r1). cbn. split; [auto|].
           destruct (Rle_or_lt r0 x); [|exfalso; pose proof (Out x ltac:(lra)); nra].
           destruct (Rle_or_lt x r1); [lra|exfalso; pose proof (Out x ltac:(lra)); nra].
        -- intros (m & [<-|[]] & M); cbn in M.
           destruct (Req_dec x r0) as [->|]; [rewrite Z0; lra|]. destruct (Req_dec x r1) as [->|]; [rewrite Z1; lra|].
           pose proof (Inn x ltac:(lra)). nra.
Qed.

(** In terms of the curve alone: coefficients that are zero or between 1/8 and 8 in
    size, with a discriminant that is zero or at least 1/128. *)
Definition moderate (q : quad) : Prop :=
  (forall c, c = q2 q \/ c = q1 q \/ c = q0 q -> c = 0 \/ 1 / 8 <= Rabs c <= 8) /\
  (q2 q <> 0 \/ q1 q <> 0 \/ q0 q <> 0) /\
  (discriminant q = 0 \/ 1 / 128 <= Rabs (discriminant q)).

Lemma r_exp_spec x : pow2 (-126) <= Rabs x < pow2 128 ->
  pow2 (r_exponent x) <= Rabs x < pow2 (r_exponent x + 1) /\ (-126 <= r_exponent x <= 127)%Z.
Proof. intros H. destruct (r_exponent_exists x H) as (k & K & -> & B). auto. Qed.
Lemma pow2_small a : (-10 <= a <= 10)%Z -> pow2 (-10) <= pow2 a <= pow2 10.
Proof. intros. split; apply pow2_le; lia. Qed.
Lemma pow2_m126 : pow2 (-126) < / 4096.
Proof. replace (/ 4096) with (pow2 (-(12))) by (rewrite pow2_neg, pow2_IZR by lia; reflexivity). apply pow2_lt. lia. Qed.
Lemma pow2_big k : (13 <= k)%Z -> 4096 < pow2 k.
Proof. intros. replace 4096 with (pow2 12) by (rewrite pow2_IZR by lia; reflexivity). apply pow2_lt. lia. Qed.

Lemma max_scale_big x m : (125 <= m <= 126)%Z -> Rabs x < 4096 -> pow2 64 < r_max_power_of_2_scale x m.
Proof.
  intros Hm Hx. unfold r_max_power_of_2_scale, r_exponent_from_int, kMaxFloatExponent, kZeroExponent.
  assert (E : (r_exponent x <= 11)%Z).
  { apply r_exponent_le; [lia|]. replace (pow2 (11 + 1)) with 4096 by (rewrite pow2_IZR by lia; reflexivity). assumption. }
  destruct (Z.eqb_spec (Z.min 127 (m - r_exponent x)) (-127)); [lia|]. apply pow2_lt. lia.
Qed.
Lemma contains_inv x : / 4096 <= x <= 4096 -> contains kInvertablePowerOf2Range x = true.
Proof.
  intros. unfold contains, kInvertablePowerOf2Range. cbn [start_ end_]. pose proof pow2_m126. pose proof (pow2_big kMaxInvertableExponent ltac:(unfold kMaxInvertableExponent; lia)).
  unfold kMinInvertableExponent in *. rewrite !Rleb_t by lra. reflexivity.
Qed.
Lemma recip_exp x : / 4096 <= x <= 4096 -> 1 <= r_reciprocal_exponent x * x < 2 /\ 0 < r_reciprocal_exponent x <= 4096.
Proof.
  intros Hx. pose proof pow2_m126. pose proof (pow2_big 128 ltac:(lia)).
  assert (A : Rabs x = x) by (apply Rabs_pos_eq; lra).
  destruct (r_exp_spec x ltac:(rewrite A; lra)) as [B K]. rewrite A in B.
  assert (K' : (-12 <= r_exponent x <= 12)%Z).
  { split.
    - apply Z.lt_pred_le. apply Z.nle_gt. intros G. pose proof (pow2_le (r_exponent x + 1) (-12) ltac:(lia)).
      replace (pow2 (-12)) with (/ 4096) in * by (change (-12)%Z with (-(12))%Z; rewrite pow2_neg, pow2_IZR by lia; reflexivity). lra.
    - apply Z.nlt_ge. intros G. pose proof (pow2_big (r_exponent x) ltac:(lia)). lra. }
  unfold r_reciprocal_exponent, r_exponent_from_int, kZeroExponent. destruct (Z.eqb_spec (- r_exponent x) (-127)); [lia|].
  rewrite pow2_neg. rewrite pow2_succ in B. set (p := pow2 (r_exponent x)) in *. assert (P : 0 < p) by apply pow2_pos.
  pose proof (Rinv_0_lt_compat _ P). split; [|split; [assumption|]].
  - replace 1 with (/ p * p) at 1 by (field; lra). replace 2 with (/ p * (2 * p)) by (field; lra).
    split; [apply Rmult_le_compat_l|apply Rmult_lt_compat_l]; lra.
  - unfold p. rewrite <- pow2_neg. replace 4096 with (pow2 12) by (rewrite pow2_IZR by lia; reflexivity). apply pow2_le. lia.
Qed.
Lemma sqrt_recip_exp x : / 4096 <= x <= 4096 ->
  1 / 2 <= r_sqrt_reciprocal_exponent x * r_sqrt_reciprocal_exponent x * x < 4 /\ 0 < r_sqrt_reciprocal_exponent x <= 64.
Proof.
  intros Hx. pose proof pow2_m126. pose proof (pow2_big 128 ltac:(lia)).
  assert (A : Rabs x = x) by (apply Rabs_pos_eq; lra).
  destruct (r_exp_spec x ltac:(rewrite A; lra)) as [B K]. rewrite A in B.
  assert (K' : (-12 <= r_exponent x)%Z).
  { apply Z.lt_pred_le. apply Z.nle_gt. intros G. pose proof (pow2_le (r_exponent x + 1) (-12) ltac:(lia)).
    replace (pow2 (-12)) with (/ 4096) in * by (change (-12)%Z with (-(12))%Z; rewrite pow2_neg, pow2_IZR by lia; reflexivity). lra. }
  unfold r_sqrt_reciprocal_exponent, r_exponent_from_int, kZeroExponent. set (e := r_exponent x) in *. set (h := Z.quot (- e) 2).
  assert (Hh : (-1 <= 2 * h + e <= 1)%Z).
  { pose proof (Z.quot_rem' (- e) 2). pose proof (Z.rem_bound_abs (- e) 2 ltac:(lia)). fold h in H1. lia. }
  destruct (Z.eqb_spec h (-127)); [lia|].
  rewrite pow2_succ in B. rewrite <- pow2_add.
  assert (P : pow2 (h + h) * pow2 e = pow2 (2 * h + e)) by (rewrite <- pow2_add; f_equal; lia).
  pose proof (pow2_pos (h + h)) as Ph.
  assert (pow2 (-1) <= pow2 (2 * h + e) <= pow2 1) by (split; apply pow2_le; lia).
  assert (P1 : pow2 (-1) = / 2) by (change (-1)%Z with (- (1))%Z; rewrite pow2_neg, pow2_1; reflexivity).
  rewrite pow2_1, P1 in *. split; [nra|]. split; [apply pow2_pos|].
  replace 64 with (pow2 6) by (rewrite pow2_IZR by lia; reflexivity). apply pow2_le. lia.
Qed.

Lemma cond_core a b c r s : 0 < r -> 0 < s -> a <> 0 ->
  (forall t, t = a \/ t = b \/ t = c -> t = 0 \/ 1 / 8 <= Rabs t <= 8) ->
  (b * b - 4 * a * c = 0 \/ 1 / 128 <= Rabs (b * b - 4 * a * c)) ->
  1 <= s * (Rabs a * r * r) < 2 ->
  (Rabs c <= Rabs b /\ b <> 0 /\ Rabs b <= r * Rabs a < 2 * Rabs b) \/
  (Rabs b < Rabs c /\ Rabs c / 2 <= r * r * Rabs a < 4 * Rabs c) \/ (b = 0 /\ c = 0) ->
  well_conditioned (Quad (s * (a * r * r)) (s * (b * r)) (s * c)).
Proof.
  intros Hr Hs Na M HD Hc2 H. right; right. unfold qepsilon, max_coeff, discriminant. cbn [q2 q1 q0].
  assert (S1 : Rabs (s * (a * r * r)) = s * (Rabs a * r * r)) by (rewrite !Rabs_mult, (Rabs_pos_eq s), (Rabs_pos_eq r) by lra; reflexivity).
  assert (S2 : Rabs (s * (b * r)) = s * Rabs b * r) by (rewrite !Rabs_mult, (Rabs_pos_eq s), (Rabs_pos_eq r) by lra; ring).
  assert (S3 : Rabs (s * c) = s * Rabs c) by (rewrite !Rabs_mult, (Rabs_pos_eq s) by lra; ring).
  assert (S4 : s * (b * r) * (s * (b * r)) - 4 * (s * (a * r * r)) * (s * c) = (s * r) * (s * r) * (b * b - 4 * a * c)) by ring.
  rewrite S1, S2, S3, S4.
  assert (Ma : 1 / 8 <= Rabs a <= 8) by (destruct (M a ltac:(auto)); [contradiction|assumption]).
  set (A := Rabs a) in *. pose proof (Rabs_pos b) as Pb. pose proof (Rabs_pos c) as Pc. set (B := Rabs b) in *. set (C := Rabs c) in *.
  assert (Eps : kEpsilonScale = / 4194304) by (unfold kEpsilonScale; rewrite pow2_IZR by lia; reflexivity).
  rewrite Eps. set (mx := Rmax (Rmax (s * (A * r * r)) (s * B * r)) (s * C)).
  split. { intros E. rewrite E, Rabs_R0 in S1. lra. }
  destruct H as [(Hcb & Nb & Hl)|[(Hbc & Hl)|(-> & ->)]].
  - assert (Mb : 1 / 8 <= B <= 8) by (destruct (M b ltac:(auto)); [contradiction|assumption]).
    assert (R64 : 1 / 64 <= r) by nra.
    assert (Psr : 0 < s * r) by nra. assert (PsB : 0 < s * B) by nra.
    assert (X1 : s * B * r < 2) by (pose proof (Rmult_le_compat_l (s * r) _ _ ltac:(lra) (proj1 Hl)); lra).
    assert (X2 : s * B * 1 <= s * B * (64 * r)) by (apply Rmult_le_compat_l; lra).
    assert (X3 : s * C < 128) by (pose proof (Rmult_le_compat_l s _ _ ltac:(lra) Hcb); lra).
    assert (Hmx : mx < 128) by (unfold mx; minmax; lra).
    split; [lra|]. destruct HD as [E|G]; [left; rewrite E; ring|right].
    rewrite Rabs_mult, Rabs_pos_eq by (apply Rle_0_sqr).
    assert (SR : 1 / 16 <= s * r) by (pose proof (Rmult_lt_compat_l (s * r) _ _ Psr (proj2 Hl)); nra).
    assert (SR2 : 1 / 256 <= s * r * (s * r)) by nra. nra.
  - assert (Mc : 1 / 8 <= C <= 8).
    { destruct (M c ltac:(auto)) as [E|]; [|assumption]. unfold C in Hbc. rewrite E, Rabs_R0 in Hbc. lra. }
    assert (X1 : s * C < 4) by nra.
    assert (R2 : r * r < 256) by nra. assert (R1 : r < 16) by nra.
    assert (X2 : s * B * r < 64).
    { assert (s * B <= s * C) by (apply Rmult_le_compat_l; lra). assert (0 <= s * B) by (apply Rmult_le_pos; lra).
      apply Rle_lt_trans with (s * B * 16); [apply Rmult_le_compat_l|]; lra. }
    assert (Hmx : mx < 64) by (unfold mx; minmax; lra).
    split; [lra|]. destruct HD as [E|G]; [left; rewrite E; ring|right].
    rewrite Rabs_mult, Rabs_pos_eq by (apply Rle_0_sqr).
    assert (SR : 1 / 8 <= s * r * r) by nra. assert (S0 : 1 / 32 <= s) by nra.
    assert (SR2 : 1 / 256 <= s * r * (s * r)) by (replace (s * r * (s * r)) with (s * (s * r * r)) by ring; nra). nra.
  - assert (B0 : B = 0) by apply Rabs_R0. assert (C0 : C = 0) by apply Rabs_R0.
    assert (Hmx : mx <= 2) by (unfold mx; rewrite B0, C0; minmax; lra).
    split; [lra|]. left. ring.
Qed.

Lemma moderate_well_conditioned q : moderate q -> well_conditioned (normalized q).
Proof.
  destruct q as [a b c]. unfold moderate, discriminant. cbn [q2 q1 q0]. intros (M & NZ & HD).
  assert (MA : forall t, t = a \/ t = b \/ t = c -> Rabs t <= 8) by (intros t Ht; destruct (M t Ht) as [->|]; [rewrite Rabs_R0|]; lra).
  assert (Ba := MA a ltac:(auto)). assert (Bb := MA b ltac:(auto)). assert (Bc := MA c ltac:(auto)).
  pose proof (Rabs_pos a). pose proof (Rabs_pos b). pose proof (Rabs_pos c).
  assert (P64 : 4096 < pow2 64) by (apply pow2_big; lia).
  pose proof (max_scale_big (Rabs b) 126 ltac:(lia) ltac:(rewrite Rabs_Rabsolu; lra)) as MB.
  unfold normalized. set (q := Quad a b c). set (r := x_scale_reciprocal q).
  assert (Hr : 0 < r) by apply x_scale_pos.
  set (x := qscale_in_x_by_reciprocal q r). set (s := y_scale x). assert (Hs : 0 < s) by apply y_scale_pos.
  assert (Er : r = Rmin (if Reqb (Rmax (Rabs b) (Rabs c)) 0 || negb (contains kInvertablePowerOf2Range (Rabs a / Rmax (Rabs b) (Rabs c))) then 1
     else if Rleb (Rabs c) (Rabs b) then r_reciprocal_exponent (Rabs a / Rmax (Rabs b) (Rabs c))
     else r_sqrt_reciprocal_exponent (Rabs a / Rmax (Rabs b) (Rabs c))) (r_max_power_of_2_scale (Rabs b) kMaxInvertableExponent)) by reflexivity.
  unfold kMaxInvertableExponent in Er.
  destruct (Req_dec a 0) as [Ea|Na].
  - subst a. assert (R1 : r = 1).
    { rewrite Er. rewrite Rabs_R0. replace (0 / Rmax (Rabs b) (Rabs c)) with 0 by (unfold Rdiv; ring).
      replace (contains kInvertablePowerOf2Range 0) with false.
      - rewrite orb_true_r. rewrite Rmin_left; lra.
      - symmetry. unfold contains, kInvertablePowerOf2Range. cbn [start_ end_]. rewrite Rleb_f by apply pow2_pos. reflexivity. }
    unfold well_conditioned, x, q, qscale_in_y, qscale_in_x_by_reciprocal. cbn [q2 q1 q0]. rewrite R1.
    destruct (Req_dec b 0) as [Eb|Nb].
    + left. subst b. repeat split; try ring. assert (c <> 0) by tauto. nra.
    + right; left. split; [ring|]. split; [nra|]. unfold qepsilon, max_coeff. cbn [q2 q1 q0].
      replace (s * (0 * 1 * 1)) with 0 by ring. rewrite Rabs_R0, Rmult_1_r, !Rabs_mult, (Rabs_pos_eq s) by lra.
      assert (Mb : 1 / 8 <= Rabs b <= 8) by (destruct (M b ltac:(auto)); [contradiction|assumption]).
      assert (Eps : kEpsilonScale = / 4194304) by (unfold kEpsilonScale; rewrite pow2_IZR by lia; reflexivity). rewrite Eps.
      assert (Rmax (Rmax 0 (s * Rabs b)) (s * Rabs c) <= s * 8) by (minmax; nra). nra.
  - assert (Ma : 1 / 8 <= Rabs a <= 8) by (destruct (M a ltac:(auto)); [contradiction|assumption]).
    assert (CASES : r <= 4096 /\ / 512 <= r * r * Rabs a <= 4096 /\
      ((Rabs c <= Rabs b /\ b <> 0 /\ Rabs b <= r * Rabs a < 2 * Rabs b) \/
       (Rabs b < Rabs c /\ Rabs c / 2 <= r * r * Rabs a < 4 * Rabs c) \/ (b = 0 /\ c = 0))).
    { destruct (Reqb_spec (Rmax (Rabs b) (Rabs c)) 0) as [EM|NM].
      - assert (b = 0 /\ c = 0).
        { assert (Rabs b = 0 /\ Rabs c = 0) as [Z1 Z2] by (revert EM; minmax; lra). split; (destruct (Req_dec b 0), (Req_dec c 0); auto; exfalso); try (apply (Rabs_no_R0 b); assumption); apply (Rabs_no_R0 c); assumption. }
        rewrite orb_true_l in Er. rewrite Rmin_left in Er by lra. rewrite Er. split; [lra|]. split; [lra|]. tauto.
      - rewrite orb_false_l in Er.
        destruct (Rleb_spec (Rabs c) (Rabs b)) as [Lcb|Lcb].
        + rewrite Rmax_left in * by lra. assert (Nb : b <> 0) by (intros ->; rewrite Rabs_R0 in NM; lra).
          assert (Mb : 1 / 8 <= Rabs b <= 8) by (destruct (M b ltac:(auto)); [contradiction|assumption]).
          assert (Q : Rabs a / Rabs b * Rabs b = Rabs a) by (field; lra).
          assert (QB : / 4096 <= Rabs a / Rabs b <= 4096) by (split; nra).
          rewrite contains_inv in Er by assumption. cbn [negb] in Er. destruct (recip_exp _ QB) as [E1 E2].
          rewrite Rmin_left in Er by lra. rewrite <- Er in E1, E2. set (k := Rabs a / Rabs b) in *.
          assert (K : Rabs b <= r * Rabs a < 2 * Rabs b) by (replace (r * Rabs a) with (r * k * Rabs b) by (rewrite <- Q; ring); nra).
          split; [lra|]. split; [|left; auto].
          assert (r <= 128) by nra. assert (1 / 64 <= r) by nra. rewrite Rmult_assoc. set (ra := r * Rabs a) in *. nra.
        + rewrite Rmax_right in * by lra. assert (Nc : c <> 0) by (intros ->; rewrite Rabs_R0 in Lcb; lra).
          assert (Mc : 1 / 8 <= Rabs c <= 8) by (destruct (M c ltac:(auto)); [contradiction|assumption]).
          assert (Q : Rabs a / Rabs c * Rabs c = Rabs a) by (field; lra).
          assert (QB : / 4096 <= Rabs a / Rabs c <= 4096) by (split; nra).
          rewrite contains_inv in Er by assumption. cbn [negb] in Er. destruct (sqrt_recip_exp _ QB) as [E1 E2].
          rewrite Rmin_left in Er by lra. rewrite <- Er in E1, E2. set (k := Rabs a / Rabs c) in *.
          assert (K : Rabs c / 2 <= r * r * Rabs a < 4 * Rabs c).
          { rewrite <- Q. replace (r * r * (k * Rabs c)) with (r * r * k * Rabs c) by ring. nra. }
          split; [lra|]. split; [lra|]. right; left. split; [lra|assumption]. }
    destruct CASES as (R4 & RA & CASES).
    assert (Hc2 : 1 <= s * (Rabs a * r * r) < 2).
    { unfold s, y_scale, x, q, qscale_in_x_by_reciprocal, qabs. cbn [q2 q1 q0].
      assert (AX : Rabs (a * r * r) = r * r * Rabs a) by (rewrite !Rabs_mult, (Rabs_pos_eq r) by lra; ring).
      assert (BX : Rabs (b * r) = Rabs b * r) by (rewrite !Rabs_mult, (Rabs_pos_eq r) by lra; ring).
      replace (clamp kInvertablePowerOf2Range (Rabs (a * r * r))) with (r * r * Rabs a).
      - destruct (recip_exp (r * r * Rabs a) ltac:(lra)) as [E1 E2].
        pose proof (max_scale_big (Rabs c) 125 ltac:(lia) ltac:(rewrite Rabs_Rabsolu; lra)) as MC.
        assert (BR : Rabs b * r < 4096).
        { destruct CASES as [(Hcb & Nb & Hl)|[(Hbc & Hl)|(-> & _)]]; [| |rewrite Rabs_R0; lra].
          - assert (r <= 128) by nra. nra.
          - assert (r * r < 256) by nra. assert (r < 16) by nra. nra. }
        pose proof (max_scale_big (Rabs (b * r)) 125 ltac:(lia) ltac:(rewrite Rabs_Rabsolu, BX; assumption)) as MBr.
        unfold kMaxInvertableExponent. change (126 - 1)%Z with 125%Z.
        rewrite Rmin_right by (minmax; lra). lra.
      - rewrite AX. symmetry. apply clamp_in. pose proof (contains_inv (r * r * Rabs a) ltac:(lra)) as CI.
        unfold contains in CI. apply andb_true_iff in CI. destruct CI as [C1 C2]. apply Rleb_true in C1, C2. lra. }
    unfold x, q, qscale_in_y, qscale_in_x_by_reciprocal. cbn [q2 q1 q0]. now apply cond_core.
Qed.
