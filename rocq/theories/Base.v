(** Common helpers for the models: partial array access and the option monad.
    [None] always means "the C++ code would fail an assert, read or write out of
    bounds, dereference null, or (where a file says so) run out of fuel". *)
From Coq Require Export List ZArith Bool Lia Permutation.
From Coq Require Export ZifyBool ZifyNat.
Export ListNotations.
Open Scope Z_scope.

Notation "x <- e ;; f" := (match e with Some x => f | None => None end)
  (at level 61, e at next level, right associativity).
Notation "'assert' b ;; f" := (if b then f else None)
  (at level 61, b at next level, right associativity).

(** Length of a std::vector, as a signed integer. *)
Definition len {A} (l : list A) : Z := Z.of_nat (length l).

(** [v[i]] with bounds check. *)
Definition getz {A} (l : list A) (i : Z) : option A :=
  if i <? 0 then None else nth_error l (Z.to_nat i).

(** [v[i] = x] with bounds check. *)
Definition setz {A} (l : list A) (i : Z) (x : A) : option (list A) :=
  if (0 <=? i) && (i <? len l)
  then Some (firstn (Z.to_nat i) l ++ x :: skipn (S (Z.to_nat i)) l)
  else None.

(** [v.resize(n, d)]. *)
Definition resize {A} (l : list A) (n : Z) (d : A) : list A :=
  firstn (Z.to_nat n) l ++ repeat d (Z.to_nat n - length l).

(** [memmove(&v[dst], &v[src], n)] with bounds check. *)
Definition memmove {A} (l : list A) (dst src n : Z) : option (list A) :=
  if (0 <=? dst) && (0 <=? src) && (0 <=? n) && (dst + n <=? len l) && (src + n <=? len l)
  then Some (firstn (Z.to_nat dst) l
             ++ firstn (Z.to_nat n) (skipn (Z.to_nat src) l)
             ++ skipn (Z.to_nat (dst + n)) l)
  else None.
