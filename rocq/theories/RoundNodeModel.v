(** Model of the quantisation of include/motive/math/compact_spline_node.h in single
    precision.

    CompactSplineModel.v follows the same functions with exact real numbers.  Here every
    `float` operation rounds with [rnd]; a compiler that contracts a * b + c into one
    operation isn't modelled.  float to integer conversions truncate. *)
From Verif Require Import RBase RoundModel CompactSplineModel.

Section Operations.
Variable rnd : R -> R.

(** compact_spline_node.h:87-89 (X).  static_cast<float> of 16 bits is exact. *)
Definition f_x (i : Z) (g : R) : R := rnd (IZR i * g).
(** compact_spline_node.h:109-111 (QuantizeX) *)
Definition f_quantize_x (x g : R) : option Z :=
  assert (negb (Reqb g 0)) ;; to_int (rnd (rnd (x / g) + 1 / 2)).
(** compact_spline_node.h:113-118 (CompactX) *)
Definition f_compact_x (x g : R) : option Z :=
  q <- f_quantize_x x g ;; assert ((0 <=? q) && (q <=? kMaxX))%Z ;; Some q.

(** compact_spline.cpp:36 (kYScale), compact_spline_node.h:150 (YPercent) *)
Definition f_y_scale : R := rnd (1 / IZR kMaxY).
Definition f_y_percent (k : Z) : R := rnd (IZR k * f_y_scale).
(** compact_spline_node.h:90 (Y), range.h:86-90 (Lerp); mathfu::Lerp computes
    start * (1 - percent) + end * percent. *)
Definition f_y (k : Z) (start stop : R) : R :=
  let percent := f_y_percent k in
  rnd (rnd (start * rnd (1 - percent)) + rnd (stop * percent)).
(** compact_spline_node.h:120-132 (CompactY), range.h:67 (Length), 94-101 (Percent,
    PercentClamped), 228 (Contains) *)
Definition f_compact_y (y start stop : R) : option Z :=
  assert (Rleb start y && Rleb y stop) ;;
  if Reqb (rnd (stop - start)) 0 then Some 0%Z
  else
    let percent := rnd (rnd (y - start) / rnd (stop - start)) in
    Some (Rtrunc (rnd (IZR kMaxY * Rmax 0 (Rmin percent 1)))).
End Operations.
