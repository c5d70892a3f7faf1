(** Model of include/motive/math/spline_util.h over the real numbers.

    A mathfu vector is the list of its coordinates.  The search loop may not terminate: it
    takes fuel, and [None] is out of fuel, an access out of range, or a division by zero
    (total_time / total_dist, and Normalized() of the zero vector).  Arrays are lists; the
    output arrays are returned. *)
From Verif Require Import RBase.
Local Open Scope Z_scope.

(** mathfu: v - w, v.Length(), s * v, v.Normalized() *)
Fixpoint vsub (v w : list R) : list R := match v, w with x :: v', y :: w' => (x - y)%R :: vsub v' w' | _, _ => [] end.
Fixpoint vsq (v : list R) : R := match v with [] => 0%R | x :: v' => (x * x + vsq v')%R end.
Definition vlen (v : list R) : R := sqrt (vsq v).
Definition vscale (s : R) (v : list R) : list R := map (fun x => (s * x)%R) v.
Definition vnormalized (v : list R) : option (list R) := if Reqb (vlen v) 0 then None else Some (vscale (/ vlen v) v).

(** spline_util.h:24-27 (NormalizeIdx) *)
Definition normalize_idx (idx max : Z) (wraps : bool) : Z :=
  if wraps then (if idx <? 0 then idx + max else if max <=? idx then idx - max else idx)
  else (if idx <? 0 then 0 else if max <=? idx then max - 1 else idx).
(** spline_util.h:39-44: the loop of FindFartherIdx. *)
Fixpoint farther_loop (fuel : nat) (positions : list (list R)) (wraps : bool) (start_position : list R) (end_idx delta_idx : Z) (min_dist : R) (i : Z) : option Z :=
  match fuel with
  | 0%nat => None
  | S f =>
      if i =? end_idx then Some end_idx
      else
        p <- getz positions i ;;
        if Rleb min_dist (vlen (vsub p start_position)) then Some i
        else farther_loop f positions wraps start_position end_idx delta_idx min_dist (normalize_idx (i + delta_idx) (len positions) wraps)
  end.
(** spline_util.h:29-46 (FindFartherIdx) *)
Definition find_farther_idx (fuel : nat) (positions : list (list R)) (wraps : bool) (start_idx delta_idx : Z) (min_dist : R) : option Z :=
  start_position <- getz positions start_idx ;;
  let n := len positions in
  let end_idx := normalize_idx (start_idx + delta_idx * (Z.quot n 2 - 1)) n wraps in
  farther_loop fuel positions wraps start_position end_idx delta_idx min_dist (normalize_idx (start_idx + delta_idx) n wraps).

(** spline_util.h:91-95: dist[i] from dist[i - 1] and the positions. *)
Fixpoint distances (d : R) (prev : list R) (positions : list (list R)) : list R :=
  match positions with
  | [] => []
  | p :: ps => let d' := (d + vlen (vsub p prev))%R in d' :: distances d' p ps
  end.
(** spline_util.h:113-120: the loop over the positions from [i]. *)
Fixpoint derivatives_loop (n : nat) (fuel : nat) (positions : list (list R)) (wraps : bool) (min_dist const_speed : R) (i : Z) : option (list (list R)) :=
  match n with
  | 0%nat => Some []
  | S n' =>
      prev_idx <- find_farther_idx fuel positions wraps i (-1) min_dist ;;
      next_idx <- find_farther_idx fuel positions wraps i 1 min_dist ;;
      next <- getz positions next_idx ;; prev <- getz positions prev_idx ;;
      unit <- vnormalized (vsub next prev) ;;
      rest <- derivatives_loop n' fuel positions wraps min_dist const_speed (i + 1) ;;
      Some (vscale const_speed unit :: rest)
  end.
(** spline_util.h:71-124 (CalculateConstSpeedCurveFromPositions): times and derivatives. *)
Definition const_speed_curve (fuel : nat) (positions : list (list R)) (total_time min_reliable_dist : R) : option (list R * list (list R)) :=
  match positions with
  | [] => Some ([], [])
  | [p] => Some ([0%R], [map (fun _ => 0%R) p])
  | p0 :: ps =>
      let dist := 0%R :: distances 0 p0 ps in
      let n := len positions in
      total_dist <- getz dist (n - 1) ;;
      if Reqb total_dist 0 || Reqb total_time 0 then None
      else
        let const_speed_inv := (total_time / total_dist)%R in
        let const_speed := (total_dist / total_time)%R in
        last <- getz positions (n - 1) ;;
        let wraps := Rltb (vlen (vsub p0 last)) min_reliable_dist in
        derivatives <- derivatives_loop (length positions) fuel positions wraps min_reliable_dist const_speed 0 ;;
        Some (map (fun d => (const_speed_inv * d)%R) dist, derivatives)
  end.
