(** Model of the modular arithmetic of include/motive/math/range.h in single precision.

    RangeModel.v follows the same functions with exact real numbers.  Here every `float`
    operation rounds with [rnd].  A range is given by its [start] and [stop]; a failing
    assert is [None]. *)
From Verif Require Import RBase RoundModel.

Section Operations.
Variable rnd : R -> R.
Variables start stop : R.

(** range.h:67 (Length). *)
Definition f_length : R := rnd (stop - start).
(** range.h:233-235 (ContainsExcludingStart). *)
Definition f_contains (x : R) : bool := Rltb start x && Rleb x stop.
(** range.h:175-179 (ModularAdjustment). *)
Definition f_adjustment (x : R) : R :=
  if Rleb x start then f_length else if Rltb stop x then - f_length else 0.
(** range.h:107-111 (Normalize). *)
Definition f_normalize (x : R) : option R :=
  let normalized := rnd (x + f_adjustment x) in
  assert f_contains normalized ;; Some normalized.
(** range.h:155-169 (NormalizeWildValue); a range of no length divides by zero. *)
Definition f_normalize_wild (x : R) : option R :=
  assert (negb (Reqb f_length 0)) ;;
  let units := rnd (rnd (x - start) / f_length) in
  let close := rnd (x - rnd (IZR (Rfloor units) * f_length)) in
  let normalized := rnd (close + f_adjustment close) in
  assert f_contains normalized ;; Some normalized.
(** range.h:123-150 (NormalizeCloseValue): the two do loops; kMaxAdjustments is 4. *)
Fixpoint f_close_loop (fuel : nat) (below : bool) (x : R) (n : Z) : option R :=
  match fuel with
  | O => None
  | S fuel' =>
    let x' := rnd (if below then x + f_length else x - f_length) in
    if (4 <? n)%Z then f_normalize_wild x'
    else if (if below then Rleb x' start else Rltb stop x') then f_close_loop fuel' below x' (n + 1)
    else Some x'
  end.
Definition f_normalize_close (x : R) : option R :=
  let below := Rleb x start in
  let above := Rltb stop x in
  if negb below && negb above then Some x else f_close_loop 6 below x 0.
End Operations.
