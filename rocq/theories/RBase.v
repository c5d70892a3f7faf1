(** Helpers for the floating point models.  [float] is modelled by Coq's real
    numbers: no rounding, overflow, NaN or signed zero.  Infinity, where the code
    uses it as a sentinel, is [None]. *)
From Verif Require Export Base.
From Coq Require Export Reals Lra.
Open Scope R_scope.

(** C++ comparisons. *)
Definition Rleb (x y : R) : bool := if Rle_dec x y then true else false.
Definition Rltb (x y : R) : bool := if Rlt_dec x y then true else false.
Definition Reqb (x y : R) : bool := if Req_EM_T x y then true else false.

Lemma Rleb_spec x y : reflect (x <= y) (Rleb x y).
Proof. unfold Rleb. destruct (Rle_dec x y); now constructor. Qed.
Lemma Rltb_spec x y : reflect (x < y) (Rltb x y).
Proof. unfold Rltb. destruct (Rlt_dec x y); now constructor. Qed.
Lemma Reqb_spec x y : reflect (x = y) (Reqb x y).
Proof. unfold Reqb. destruct (Req_EM_T x y); now constructor. Qed.

Lemma Rleb_true x y : Rleb x y = true <-> x <= y.
Proof. destruct (Rleb_spec x y); easy. Qed.
Lemma Rltb_true x y : Rltb x y = true <-> x < y.
Proof. destruct (Rltb_spec x y); easy. Qed.
Lemma Rleb_false x y : Rleb x y = false <-> y < x.
Proof. destruct (Rleb_spec x y); split; try easy; lra. Qed.
Lemma Rltb_false x y : Rltb x y = false <-> y <= x.
Proof. destruct (Rltb_spec x y); split; try easy; lra. Qed.

(** Decide the comparisons in a goal (or everywhere) and clear them up. *)
Ltac rcase1 :=
  match goal with
  | |- context [Rleb ?x ?y] => destruct (Rleb_spec x y)
  | |- context [Rltb ?x ?y] => destruct (Rltb_spec x y)
  | |- context [Reqb ?x ?y] => destruct (Reqb_spec x y)
  | H : context [Rleb ?x ?y] |- _ => destruct (Rleb_spec x y)
  | H : context [Rltb ?x ?y] |- _ => destruct (Rltb_spec x y)
  | H : context [Reqb ?x ?y] |- _ => destruct (Reqb_spec x y)
  end.
Ltac rcases := repeat (rcase1; simpl in *; try discriminate; try (exfalso; lra)).

(** Resolve comparisons whose outcome lra can decide. *)
Lemma Rleb_t x y : x <= y -> Rleb x y = true. Proof. apply Rleb_true. Qed.
Lemma Rltb_t x y : x < y -> Rltb x y = true. Proof. apply Rltb_true. Qed.
Lemma Rleb_f x y : y < x -> Rleb x y = false. Proof. apply Rleb_false. Qed.
Lemma Rltb_f x y : y <= x -> Rltb x y = false. Proof. apply Rltb_false. Qed.
Lemma Reqb_t x y : x = y -> Reqb x y = true. Proof. now destruct (Reqb_spec x y). Qed.
Lemma Reqb_f x y : x <> y -> Reqb x y = false. Proof. now destruct (Reqb_spec x y). Qed.

(** std::max, std::min *)
Lemma Rmax_cases x y : (x <= y /\ Rmax x y = y) \/ (y <= x /\ Rmax x y = x).
Proof. unfold Rmax. destruct (Rle_dec x y); [left|right]; split; lra. Qed.
Lemma Rmin_cases x y : (x <= y /\ Rmin x y = x) \/ (y <= x /\ Rmin x y = y).
Proof. unfold Rmin. destruct (Rle_dec x y); [left|right]; split; lra. Qed.
Ltac minmax := repeat match goal with
  | |- context [Rmax ?x ?y] => let E := fresh in destruct (Rmax_cases x y) as [[? E]|[? E]]; rewrite !E in *; clear E
  | |- context [Rmin ?x ?y] => let E := fresh in destruct (Rmin_cases x y) as [[? E]|[? E]]; rewrite !E in *; clear E
  | H : context [Rmax ?x ?y] |- _ => let E := fresh in destruct (Rmax_cases x y) as [[? E]|[? E]]; rewrite !E in *; clear E
  | H : context [Rmin ?x ?y] |- _ => let E := fresh in destruct (Rmin_cases x y) as [[? E]|[? E]]; rewrite !E in *; clear E
  end.
Lemma Rabs_cases x : (0 <= x /\ Rabs x = x) \/ (x <= 0 /\ Rabs x = - x).
Proof. unfold Rabs. destruct (Rcase_abs x); [right|left]; split; lra. Qed.
Ltac rabs := repeat match goal with
  | |- context [Rabs ?x] => let E := fresh in destruct (Rabs_cases x) as [[? E]|[? E]]; rewrite !E in *; clear E
  | H : context [Rabs ?x] |- _ => let E := fresh in destruct (Rabs_cases x) as [[? E]|[? E]]; rewrite !E in *; clear E
  end.

(** floor() *)
Definition Rfloor (x : R) : Z := Int_part x.
Lemma Rfloor_bounds x : IZR (Rfloor x) <= x < IZR (Rfloor x) + 1.
Proof. unfold Rfloor. destruct (base_Int_part x). lra. Qed.
Lemma Rfloor_unique x k : IZR k <= x < IZR k + 1 -> Rfloor x = k.
Proof.
  intros [A B]. destruct (Rfloor_bounds x) as [C D].
  assert (Rfloor x < k + 1)%Z by (apply lt_IZR; rewrite plus_IZR; lra).
  assert (k < Rfloor x + 1)%Z by (apply lt_IZR; rewrite plus_IZR; lra). lia.
Qed.
