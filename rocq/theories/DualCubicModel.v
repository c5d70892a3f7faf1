(** Model of src/motive/math/dual_cubic.cpp over the real numbers. *)
From Verif Require Import RBase RangeModel FloatModel CurveModel.

(** dual_cubic.cpp:22-25 *)
Definition kMaxSteepness : R := 4.
Definition kMinMidPercent : R := 1 / 10.
Definition kMaxMidPercent : R := 1 - kMinMidPercent.
Definition kMinYDiff : R := 1 / 10.

(** dual_cubic.cpp:29-41 (SplineControlNode) *)
Record control_node := CNode { cx : R; cy : R; cd : R; cdd : R }.
(** dual_cubic.cpp:43 *)
Definition kZeroToOne : range := Rg 0 1.
(** mathfu::Lerp (not in /repo): a + (b - a) t. *)
Definition mlerp (a b t : R) : R := a + (b - a) * t.

(** dual_cubic.cpp:45-60 (CalculateValidMidRangeSplineForStart) *)
Definition mid_range_spline_for_start (start end' : control_node) : quad :=
  let yd := cy end' - cy start in let sd := cd end' - cd start in let wd := cdd end' - cdd start in
  let w0 := cdd start in let w1 := cdd end' in let s0 := cd start in let s1 := cd end' in
  Quad wd (4 * sd - w0 - 2 * w1) (6 * yd - 2 * s0 - 4 * s1 + w1).
(** dual_cubic.cpp:62-75 (CalculateValidMidRangeSplineForEnd) *)
Definition mid_range_spline_for_end (start end' : control_node) : quad :=
  let yd := cy end' - cy start in let sd := cd end' - cd start in let wd := cdd end' - cdd start in
  let w1 := cdd end' in let s1 := cd end' in
  Quad (- wd) (-4 * sd + 3 * w1) (-6 * yd + 6 * s1 - 2 * w1).

(** dual_cubic.cpp:77-111 (CalculateValidMidRange); is_valid is always null. *)
Definition valid_mid_range (start end' : control_node) : option range :=
  start_ranges <- ranges_matching_sign (mid_range_spline_for_start start end') kZeroToOne (cdd start) ;;
  end_ranges <- ranges_matching_sign (mid_range_spline_for_end start end') kZeroToOne (cdd end') ;;
  let ig := intersect_ranges start_ranges end_ranges in
  match fst ig with
  | _ :: _ => nth_error (fst ig) (index_of_longest (fst ig))
  | [] => match snd ig with
          | _ :: _ => nth_error (snd ig) (index_of_shortest (snd ig))
          | [] => Some kZeroToOne
          end
  end.

(** dual_cubic.cpp:113-130 (CalculateMidPercent) *)
Definition mid_percent (start end' : control_node) : option R :=
  valid_range <- valid_mid_range start end' ;;
  let mid_unclamped := clamp valid_range (1 / 2) in
  Some (Rmax kMinMidPercent (Rmin mid_unclamped kMaxMidPercent)).

(** dual_cubic.cpp:132-162 (CalculateMidNode) *)
Definition mid_node (start end' : control_node) (k : R) : control_node :=
  let y_diff := cy end' - cy start in
  let s_diff := cd end' - cd start in
  let derivative_k := mlerp (cd end') (cd start) k in
  let y_k := mlerp (cy start) (cy end') k in
  let second_k := mlerp (cdd end') (cdd start) k in
  let j := 1 - k in
  let second_k_squared := k * k * cdd start - j * j * cdd end' in
  let s := 3 * y_diff - 2 * derivative_k - 1 / 2 * second_k_squared in
  let y := y_k + k * j * (-2 / 3 * s_diff + 1 / 6 * second_k) in
  CNode (mlerp (cx start) (cx end') k) y s 0.

(** dual_cubic.cpp:165-175 (ExtremeSecondDerivativeForStart) *)
Definition extreme_second_for_start (start end' : control_node) (k : R) : R :=
  (cd end' - cd start) + 1 / k * (3 * (cy end' - cy start) - 2 * cd start - cd end').
(** dual_cubic.cpp:178-188 (ExtremeSecondDerivativeForEnd) *)
Definition extreme_second_for_end (start end' : control_node) (k : R) : R :=
  1 / (k - 1) * ((cd end' - cd start) * k + 3 * (cy end' - cy start) - 3 * cd end').

(** dual_cubic.cpp:191-207 (Log2 on platforms that have it, CalculateSteepness) *)
Definition steepness (derivative : R) : R :=
  if Rleb (Rabs derivative) 1 then 0 else ln (Rabs derivative) / ln 2.

(** dual_cubic.cpp:209-234 (ApproximateMidPercent): the mid percent, start_percent
    and end_percent. *)
Definition approximate_mid_percent (start end' : control_node) : R * (R * R) :=
  let abs_y_diff := Rabs (cy end' - cy start) in
  let y_diff_recip := 1 / Rmax abs_y_diff kMinYDiff in
  let start_steepness := steepness (cd start * y_diff_recip) in
  let end_steepness := steepness (cd end' * y_diff_recip) in
  let diff_steepness := Rabs (start_steepness - end_steepness) in
  let percent_extreme := Rmin (diff_steepness / kMaxSteepness) 1 in
  let start_is_steeper := Rleb end_steepness start_steepness in
  let extreme_percent := if start_is_steeper then kMinMidPercent else kMaxMidPercent in
  (mlerp (1 / 2) extreme_percent percent_extreme,
   (if start_is_steeper then percent_extreme else 1 - percent_extreme,
    if start_is_steeper then 1 - percent_extreme else percent_extreme)).

(** dual_cubic.cpp:236-277 (CalculateDualCubicMidNode): x, y and derivative. *)
Definition dual_cubic_mid_node (start_y start_derivative end_y end_derivative width_x : R) : option (R * (R * R)) :=
  let start := CNode 0 start_y (start_derivative * width_x) 0 in
  let end' := CNode 1 end_y (end_derivative * width_x) 0 in
  let '(approx, (start_percent, end_percent)) := approximate_mid_percent start end' in
  let start2 := CNode 0 start_y (start_derivative * width_x)
                      (mlerp 0 (extreme_second_for_start start end' approx) start_percent) in
  let end2 := CNode 1 end_y (end_derivative * width_x)
                    (mlerp 0 (extreme_second_for_end start end' approx) end_percent) in
  k <- mid_percent start2 end2 ;;
  let mid := mid_node start2 end2 k in
  assert (negb (Reqb width_x 0)) ;;
  Some (cx mid * width_x, (cy mid, cd mid / width_x)).
