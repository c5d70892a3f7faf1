(** Model of RangeT<float>, include/motive/math/range.h, over the real numbers.
    mathfu::Clamp(x, lo, hi) is max(lo, min(x, hi)) and mathfu::Lerp(a, b, t) is
    (1 - t) a + t b (mathfu is not part of the repository).  Arrays are lists. *)
From Verif Require Import RBase.

Record range := Rg { start_ : R; end_ : R }.

(** range.h:52 (default constructor). *)
Definition range_default := Rg 1 0.
(** range.h:57 (Valid) *)
Definition valid (r : range) : bool := Rleb (start_ r) (end_ r).
(** range.h:61 (Middle) *)
Definition middle (r : range) : R := (start_ r + end_ r) / 2.
(** range.h:65 (Length) *)
Definition length_ (r : range) : R := end_ r - start_ r.
(** range.h:70 (Clamp) *)
Definition clamp (r : range) (x : R) : R := Rmax (start_ r) (Rmin x (end_ r)).
(** range.h:74 (ClampAfterStart) *)
Definition clamp_after_start (r : range) (x : R) : R := Rmax x (start_ r).
(** range.h:78 (ClampBeforeEnd) *)
Definition clamp_before_end (r : range) (x : R) : R := Rmin x (end_ r).
(** range.h:82 (DistanceFrom) *)
Definition distance_from (r : range) (x : R) : R := Rabs (x - clamp r x).
(** range.h:87-89 (Lerp) *)
Definition lerp (r : range) (percent : R) : R := (1 - percent) * start_ r + percent * end_ r.
(** range.h:93 (Percent) *)
Definition percent (r : range) (x : R) : R := (x - start_ r) / length_ r.
(** range.h:97-99 (PercentClamped) *)
Definition percent_clamped (r : range) (x : R) : R := clamp (Rg 0 1) (percent r x).

(** range.h:229 (Contains) *)
Definition contains (r : range) (x : R) : bool := Rleb (start_ r) x && Rleb x (end_ r).
(** range.h:233-235 (ContainsExcludingStart) *)
Definition contains_excl_start (r : range) (x : R) : bool := Rltb (start_ r) x && Rleb x (end_ r).
(** range.h:239 (ContainsExcludingEnd) *)
Definition contains_excl_end (r : range) (x : R) : bool := Rleb (start_ r) x && Rltb x (end_ r).
(** range.h:242 (StrictlyContains) *)
Definition strictly_contains (r : range) (x : R) : bool := Rltb (start_ r) x && Rltb x (end_ r).
(** range.h:246-249 (ContainsWithTolerance) *)
Definition contains_with_tolerance (r : range) (x percent : R) : bool :=
  let tolerance := length_ r * percent in
  Rleb (start_ r - tolerance) x && Rleb x (end_ r + tolerance).

(** range.h:175-179 (ModularAdjustment) *)
Definition modular_adjustment (r : range) (x : R) : R :=
  let length := length_ r in
  if Rleb x (start_ r) then length else if Rltb (end_ r) x then - length else 0.

(** range.h:107-111 (Normalize), [None] when the assert fails. *)
Definition normalize (r : range) (x : R) : option R :=
  let normalized := x + modular_adjustment r x in
  assert (contains_excl_start r normalized) ;; Some normalized.

(** range.h:155-169 (NormalizeWildValue), [None] when the assert fails or the
    length is zero (the division gives infinity or NaN, and the assert fails). *)
Definition normalize_wild (r : range) (x : R) : option R :=
  let length := length_ r in
  if Reqb length 0 then None
  else
    let units := (x - start_ r) / length in
    let whole_units := IZR (Rfloor units) in
    let close := x - whole_units * length in
    let normalized := close + modular_adjustment r close in
    assert (contains_excl_start r normalized) ;; Some normalized.

(** range.h:137-148: the two loops of NormalizeCloseValue; [n] is
    num_adjustments, [below] chooses the loop.  Both leave after at most six
    rounds; [None] if fuel runs out. *)
Fixpoint close_loop (fuel : nat) (r : range) (below : bool) (x : R) (n : Z) : option R :=
  match fuel with
  | O => None
  | S fuel' =>
      let x' := if below then x + length_ r else x - length_ r in
      if (4 <? n)%Z then normalize_wild r x'
      else if (if below then Rleb x' (start_ r) else Rltb (end_ r) x')
           then close_loop fuel' r below x' (n + 1)
           else Some x'
  end.

(** range.h:123-150 (NormalizeCloseValue) *)
Definition normalize_close (r : range) (x : R) : option R :=
  let below := Rleb x (start_ r) in
  let above := Rltb (end_ r) x in
  if negb below && negb above then Some x
  else close_loop 6 r below x 0.

(** range.h:184 (ModDiffClose) *)
Definition mod_diff_close (r : range) (a b : R) : option R := normalize r (b - a).
(** range.h:187-191 (ModDiffFar) *)
Definition mod_diff_far (r : range) (a b : R) : option R :=
  close <- mod_diff_close r a b ;;
  Some (if Rleb 0 close then close - length_ r else close + length_ r).
(** range.h:195-199 (ModDiffPositive) *)
Definition mod_diff_positive (r : range) (a b : R) : option R :=
  close <- mod_diff_close r a b ;;
  Some (if Rleb 0 close then close else close + length_ r).
(** range.h:203-207 (ModDiffNegative) *)
Definition mod_diff_negative (r : range) (a b : R) : option R :=
  close <- mod_diff_close r a b ;;
  Some (if Rleb 0 close then close - length_ r else close).

(** range.h:26-32 (ModularDirection) *)
Inductive direction := Closest | Farthest | Positive | Negative | Direct.
(** range.h:211-226 (ModDiff) *)
Definition mod_diff (r : range) (a b : R) (d : direction) : option R :=
  match d with
  | Closest => mod_diff_close r a b
  | Farthest => mod_diff_far r a b
  | Positive => mod_diff_positive r a b
  | Negative => mod_diff_negative r a b
  | Direct => Some (b - a)
  end.

(** range.h:254 (Invert) *)
Definition invert (r : range) : range := Rg (end_ r) (start_ r).
(** range.h:258-261 (Lengthen) *)
Definition lengthen (r : range) (percent : R) : range :=
  let extra := length_ r * percent * (1 / 2) in Rg (start_ r - extra) (end_ r + extra).
(** range.h:265-267 (Include) *)
Definition include (r : range) (x : R) : range := Rg (Rmin (start_ r) x) (Rmax (end_ r) x).
(** range.h:276 (operator* ) *)
Definition scale (r : range) (s : R) : range := Rg (s * start_ r) (s * end_ r).
(** range.h:288-306 (Intersect) *)
Definition intersect (a b : range) : range := Rg (Rmax (start_ a) (start_ b)) (Rmin (end_ a) (end_ b)).
(** range.h:309-326 (Union) *)
Definition union (a b : range) : range := Rg (Rmin (start_ a) (start_ b)) (Rmax (end_ a) (end_ b)).
(** range.h:510-512 (CreateValidRange) *)
Definition create_valid_range (a b : R) : range := Rg (Rmin a b) (Rmax a b).

(** range.h:336-350 (ValuesInRange): the loop, in place; [i] counts up, [n] is
    num_returned, [k] iterations are left. *)
Fixpoint values_in_range_loop (r : range) (epsilon : R) (values : list R) (i n : Z) (k : nat)
    : option (list R * Z) :=
  match k with
  | O => Some (values, n)
  | S k' =>
      value <- getz values i ;;
      let clamped := clamp r value in
      let dist := Rabs (value - clamped) in
      if Rleb dist epsilon then
        values' <- setz values n clamped ;;
        values_in_range_loop r epsilon values' (i + 1) (n + 1) k'
      else values_in_range_loop r epsilon values (i + 1) n k'
  end.
Definition values_in_range (r : range) (epsilon : R) (values : list R) : option (list R * Z) :=
  values_in_range_loop r epsilon values 0 0 (length values).

(** range.h:361-388 (IntersectRanges): the inner and the outer loop, returning
    the intersections and the gaps appended so far. *)
Fixpoint intersect_one (x : range) (b : list range) (acc : list range * list range) : list range * list range :=
  match b with
  | [] => acc
  | y :: b' =>
      let i := intersect x y in
      intersect_one x b' (if valid i then (fst acc ++ [i], snd acc) else (fst acc, snd acc ++ [invert i]))
  end.
Fixpoint intersect_ranges_loop (a b : list range) (acc : list range * list range) : list range * list range :=
  match a with [] => acc | x :: a' => intersect_ranges_loop a' b (intersect_one x b acc) end.
Definition intersect_ranges (a b : list range) : list range * list range :=
  intersect_ranges_loop a b ([], []).

(** range.h:401-412 (IndexOfLongest): [i] the next index. *)
Fixpoint longest_loop (l : list range) (i : nat) (best : R) (bi : nat) : nat :=
  match l with
  | [] => bi
  | r :: l' => if Rltb best (length_ r) then longest_loop l' (S i) (length_ r) i
               else longest_loop l' (S i) best bi
  end.
Definition index_of_longest (l : list range) : nat := longest_loop l 0 (-1) 0.

(** range.h:420-431 (IndexOfShortest); [None] is infinity. *)
Definition lt_inf (x : R) (y : option R) : bool := match y with None => true | Some y => Rltb x y end.
Fixpoint shortest_loop (l : list range) (i : nat) (best : option R) (bi : nat) : nat :=
  match l with
  | [] => bi
  | r :: l' => if lt_inf (length_ r) best then shortest_loop l' (S i) (Some (length_ r)) i
               else shortest_loop l' (S i) best bi
  end.
Definition index_of_shortest (l : list range) : nat := shortest_loop l 0 None 0.

(** range.h:439-451 (ClampToClosest) *)
Fixpoint closest_loop (x : R) (l : list range) (best : option R) (c : R) : R :=
  match l with
  | [] => c
  | r :: l' =>
      let cl := clamp r x in
      let dist := Rabs (x - cl) in
      if lt_inf dist best then closest_loop x l' (Some dist) cl else closest_loop x l' best c
  end.
Definition clamp_to_closest (x : R) (l : list range) : R := closest_loop x l None x.

(** range.h:465-477 (Covers); [None] is Empty(), Include on Empty() gives [x, x]. *)
Fixpoint covers_loop (acc : option range) (l : list R) : option range :=
  match l with
  | [] => acc
  | x :: l' => covers_loop (Some (match acc with None => Rg x x | Some r => include r x end)) l'
  end.
Definition covers (l : list R) : option range := covers_loop None l.
