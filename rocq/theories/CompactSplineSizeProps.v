(** C36: splines laid out in a buffer. *)
From Verif Require Import RBase BaseFacts CompactSplineModel.
Open Scope Z_scope.

(** The bytes a spline with room for [max] nodes touches from its start: 16 bytes
    of fields, then the nodes. *)
Definition touched (max : Z) : Z := 16 + 6 * max.

Lemma size_eq max : 0 <= max -> size max = 4 * ((18 + 6 * max + 3) / 4).
Proof.
  intros M. unfold size, kBaseSize, kNodeSize. set (x := 60 - 7 * 6 + max * 6 + 3). replace (18 + 6 * max + 3) with x by (unfold x; lia).
  change (Z.lnot 3) with (Z.lnot (Z.ones 2)). rewrite <- Z.ldiff_land, Z.ldiff_ones_r by lia.
  rewrite Z.shiftl_mul_pow2, Z.shiftr_div_pow2 by lia. change (2 ^ 2) with 4. lia.
Qed.

(** Each spline fits in its own size, which keeps float alignment. *)
Theorem C36_size : forall max, 0 <= max -> touched max <= size max /\ size max mod 4 = 0 /\ size max <= touched max + 5.
Proof.
  intros max M. rewrite size_eq by exact M. unfold touched. split; [lia|]. split; [|lia]. rewrite Z.mul_comm. apply Z_mod_mult.
Qed.
Print Assumptions C36_size.

(** The splines of an array do not overlap and lie inside Size(max_nodes) times
    their number, the buffer CreateArray allocates and CreateArrayInPlace asks for. *)
Theorem C36_array : forall max num i j, 0 <= max -> 0 <= i < j -> j < num ->
  spline_offset max i + touched max <= spline_offset max j /\
  0 <= spline_offset max i /\ spline_offset max j + touched max <= num * size max /\ spline_offset max i mod 4 = 0.
Proof.
  intros max num i j M I J. destruct (C36_size max M) as (A & B & _). unfold spline_offset. unfold touched in *.
  repeat split; nia.
Qed.
Print Assumptions C36_array.

(** ArraySize(num_splines, num_nodes), with num_nodes the total, holds the array when
    the capacity is odd, or for at most two splines. *)
Theorem C36_array_size_partial : forall max num i, 0 <= max -> 0 <= i < num -> Z.odd max = true \/ num <= 2 ->
  spline_offset max i + touched max <= array_size num (num * max).
Proof.
  intros max num i M I H. unfold spline_offset, array_size, kBaseSize, kNodeSize, touched. rewrite size_eq by exact M.
  destruct H as [O|N].
  - apply Z.odd_spec in O. destruct O as [k ->]. replace ((18 + 6 * (2 * k + 1) + 3) / 4) with (3 * k + 6) by lia. nia.
  - assert (4 * ((18 + 6 * max + 3) / 4) <= 20 + 6 * max) by lia. assert (i = 0 \/ i = 1) as [-> | ->] by lia; nia.
Qed.
Print Assumptions C36_array_size_partial.

(** It is too small otherwise: every array of three or more splines of even capacity
    is written past the end of a buffer of ArraySize bytes. *)
Theorem C36_array_size_refuted : forall max num, 0 <= max -> Z.even max = true -> 3 <= num ->
  array_size num (num * max) < spline_offset max (num - 1) + touched max.
Proof.
  intros max num M E N. unfold spline_offset, array_size, kBaseSize, kNodeSize, touched. rewrite size_eq by exact M.
  apply Z.even_spec in E. destruct E as [k ->]. replace ((18 + 6 * (2 * k) + 3) / 4) with (3 * k + 5) by lia. nia.
Qed.
Print Assumptions C36_array_size_refuted.

Example C36_case : size 2 = 32 /\ spline_offset 2 2 + touched 2 = 92 /\ array_size 3 6 = 90 /\ 3 * size 2 = 96.
Proof. repeat split. Qed.
