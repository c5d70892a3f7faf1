(** Model of include/motive/math/compact_spline_node.h,
    include/motive/math/compact_spline.h and src/motive/math/compact_spline.cpp over
    the real numbers.  The node array is a list of the nodes in use.  float to
    integer conversions truncate, and are [None] when the integer type cannot hold
    the result.  Comparisons of quantized values are on integers, as in the code. *)
From Verif Require Import RBase RangeModel CurveModel DualCubicModel.

(** static_cast<int>: truncation. *)
Definition Rtrunc (x : R) : Z := if Rleb 0 x then Rfloor x else (- Rfloor (- x))%Z.
Definition to_int (x : R) : option Z :=
  let z := Rtrunc x in assert ((-2147483648 <=? z) && (z <? 2147483648))%Z ;; Some z.

(** compact_spline_node.h:153-162 (members) *)
Record node := Node { nx : Z; ny : Z; nangle : Z }.
(** compact_spline.cpp:30-38 (kMaxX, kMaxY, kYScale, kAngleScale) *)
Definition kMaxX : Z := 65535.
Definition kMaxY : Z := 65535.
Definition kYScale : R := 1 / IZR kMaxY.
Definition kAngleScale : R := PI / 32768.
(** compact_spline_node.h:109-111 (QuantizeX) *)
Definition quantize_x (x g : R) : option Z := assert (negb (Reqb g 0)) ;; to_int (x / g + 1 / 2).
(** compact_spline_node.h:113-118 (CompactX) *)
Definition compact_x (x g : R) : option Z :=
  q <- quantize_x x g ;; assert ((0 <=? q) && (q <=? kMaxX))%Z ;; Some q.
(** compact_spline_node.h:120-132 (CompactY) *)
Definition compact_y (y : R) (r : range) : option Z :=
  assert (contains r y) ;;
  Some (if Reqb (length_ r) 0 then 0%Z else Rtrunc (IZR kMaxY * percent_clamped r y)).
(** compact_spline_node.h:134-139 (CompactDerivative) *)
Definition compact_derivative (d : R) : Z := Rtrunc (atan d / kAngleScale).
(** compact_spline_node.h:67-72 (CompactSplineNode) *)
Definition make_node (x y derivative g : R) (r : range) : option node :=
  qx <- compact_x x g ;; qy <- compact_y y r ;; Some (Node qx qy (compact_derivative derivative)).
(** compact_spline_node.h:87-91 (X, Y, Derivative), 150-151 (YPercent, Angle) *)
Definition node_x (n : node) (g : R) : R := IZR (nx n) * g.
Definition node_y (n : node) (r : range) : R := lerp r (IZR (ny n) * kYScale).
Definition node_derivative (n : node) : R := tan (IZR (nangle n) * kAngleScale).
(** compact_spline_node.h:100-102 (operator==) *)
Definition node_eqb (a b : node) : bool := ((nx a =? nx b) && (ny a =? ny b) && (nangle a =? nangle b))%Z.

(** compact_spline.h:28-41 (kInvalidSplineIndex, kBeforeSplineIndex, kAfterSplineIndex, OutsideSpline) *)
Definition kInvalidSplineIndex : Z := 65535.
Definition kBeforeSplineIndex : Z := 65534.
Definition kAfterSplineIndex : Z := 65533.
Definition outside_spline (i : Z) : bool := (kAfterSplineIndex <=? i)%Z.

(** compact_spline.h:568-588 (members) *)
Record spline := Spline { y_range : range; x_granularity : R; nodes : list node; max_nodes : Z }.
Definition with_nodes (s : spline) (l : list node) : spline := Spline (y_range s) (x_granularity s) l (max_nodes s).
Definition num_nodes (s : spline) : Z := len (nodes s).
(** compact_spline.h:114-118 (Init) *)
Definition init (s : spline) (r : range) (g : R) : spline := Spline r g [] (max_nodes s).
(** compact_spline.h:557-566 (Front, Back) *)
Definition front (s : spline) : option node := getz (nodes s) 0.
Definition back (s : spline) : option node := getz (nodes s) (num_nodes s - 1).
(** compact_spline.h:533-537 (AddNodeVerbatim) *)
Definition add_node_verbatim (s : spline) (n : node) : option spline :=
  assert (num_nodes s <? max_nodes s)%Z ;; Some (with_nodes s (nodes s ++ [n])).
(** compact_spline.h:548-551 (WidthX) *)
Definition width_x (s : spline) (a b : node) : R := IZR (nx b - nx a) * x_granularity s.

(** CubicInit (curve.h) *)
Record cinit := CInit { ci_start_y : R; ci_start_derivative : R; ci_end_y : R; ci_end_derivative : R; ci_width_x : R }.
Definition cubic_of (c : cinit) : cubic :=
  cubic_init (ci_start_y c) (ci_start_derivative c) (ci_end_y c) (ci_end_derivative c) (ci_width_x c).
(** compact_spline.cpp:392-396 (CreateCubicInit from two nodes) *)
Definition create_cubic_between (s : spline) (a b : node) : cinit :=
  CInit (node_y a (y_range s)) (node_derivative a) (node_y b (y_range s)) (node_derivative b) (width_x s a b).

(** compact_spline.h:43-47 (CompactSplineAddMethod) *)
Inductive add_method := AddWithoutModification | EnsureCubicWellBehaved.

(** compact_spline.cpp:122-177 (AddNode) *)
Definition add_node (s : spline) (x y derivative : R) (method : add_method) : option spline :=
  new_node <- make_node x y derivative (x_granularity s) (y_range s) ;;
  match back s with
  | None => add_node_verbatim s new_node
  | Some last =>
      assert (nx last <=? nx new_node)%Z ;;
      if node_eqb last new_node then Some s
      else if (nx last =? nx new_node)%Z then
        (* lines 134-144: a discontinuity *)
        let already :=
          match getz (nodes s) (num_nodes s - 2) with Some n => (nx last =? nx n)%Z | None => false end in
        add_node_verbatim (if already then with_nodes s (removelast (nodes s)) else s) new_node
      else
        (* lines 146-176 *)
        s' <- match method with
              | AddWithoutModification => Some s
              | EnsureCubicWellBehaved =>
                  let i := create_cubic_between s last new_node in
                  if uniform_curvature (cubic_of i) (Rg 0 (width_x s last new_node)) then Some s
                  else
                    mid <- dual_cubic_mid_node (ci_start_y i) (ci_start_derivative i) (ci_end_y i) (ci_end_derivative i) (ci_width_x i) ;;
                    let '(mid_x, (mid_y, mid_derivative)) := mid in
                    mid_node <- make_node (node_x last (x_granularity s) + mid_x) mid_y mid_derivative (x_granularity s) (y_range s) ;;
                    if (nx mid_node =? nx last)%Z || (nx mid_node =? nx new_node)%Z then Some s
                    else add_node_verbatim s mid_node
              end ;;
        add_node_verbatim s' new_node
  end.

(** compact_spline.h:55-59 (UncompressedNode) *)
Record unode := UNode { ux : R; uy : R; uderivative : R }.
(** compact_spline.cpp:179-185 (AddUncompressedNodes) *)
Fixpoint add_uncompressed_nodes (s : spline) (l : list unode) : option spline :=
  match l with
  | [] => Some s
  | n :: l' => s' <- add_node s (ux n) (uy n) (uderivative n) AddWithoutModification ;; add_uncompressed_nodes s' l'
  end.
(** compact_spline.cpp:399-401 (RecommendXGranularity) *)
Definition recommend_x_granularity (max_x : R) : R := if Rleb max_x 0 then 1 else max_x / IZR kMaxX.
(** compact_spline.cpp:99-109 (InitFromNodes); CoversLambda of the y values is [covers]. *)
Definition init_from_nodes (s : spline) (l : list unode) : option spline :=
  last <- getz l (len l - 1) ;;
  r <- covers (map uy l) ;;
  add_uncompressed_nodes (init s r (recommend_x_granularity (ux last))) l.

(** compact_spline.h:252-258 (StartX, StartY, EndX, EndY, EndDerivative) *)
Definition start_x (s : spline) : option R := n <- front s ;; Some (node_x n (x_granularity s)).
Definition start_y (s : spline) : option R := n <- front s ;; Some (node_y n (y_range s)).
Definition end_x (s : spline) : option R := n <- back s ;; Some (node_x n (x_granularity s)).
Definition end_y (s : spline) : option R := n <- back s ;; Some (node_y n (y_range s)).
Definition end_derivative (s : spline) : option R := n <- back s ;; Some (node_derivative n).
(** compact_spline.cpp:187-196 (NodeX) *)
Definition node_x_at (s : spline) (i : Z) : option R :=
  if (i =? kAfterSplineIndex)%Z then end_x s
  else if (i =? kBeforeSplineIndex)%Z then Some 0
  else n <- getz (nodes s) i ;; Some (node_x n (x_granularity s)).
(** compact_spline.cpp:198-203 (NodeY) *)
Definition node_y_at (s : spline) (i : Z) : option R :=
  if (i =? kAfterSplineIndex)%Z then end_y s
  else if (i =? kBeforeSplineIndex)%Z then start_y s
  else n <- getz (nodes s) i ;; Some (node_y n (y_range s)).

(** compact_spline.cpp:342-346 (IndexContainsX) *)
Definition index_contains_x (s : spline) (q i : Z) : option bool :=
  if (i <? num_nodes s - 1)%Z then
    a <- getz (nodes s) i ;; b <- getz (nodes s) (i + 1) ;; Some ((nx a <=? q) && (q <=? nx b))%Z
  else Some false.
(** std::upper_bound: the first position with a greater x. *)
Fixpoint upper_bound (q : Z) (l : list node) : Z :=
  match l with [] => 0%Z | n :: l' => if (q <? nx n)%Z then 0%Z else (1 + upper_bound q l')%Z end.
(** compact_spline.cpp:353-377 (BinarySearchIndexForX) *)
Definition binary_search_index (s : spline) (q : Z) : option Z :=
  let low := (upper_bound q (nodes s) - 1)%Z in
  assert ((0 <=? low) && (low <? num_nodes s - 1))%Z ;; Some low.
(** compact_spline.cpp:275-308 (IndexForX) *)
Definition index_for_x (s : spline) (x : R) (guess : Z) : option Z :=
  q <- quantize_x x (x_granularity s) ;;
  f <- front s ;;
  b <- back s ;;
  if (q <? nx f)%Z then Some kBeforeSplineIndex
  else if ((q =? nx b) && (2 <=? num_nodes s))%Z then Some (num_nodes s - 2)%Z
  else if (nx b <=? q)%Z then Some kAfterSplineIndex
  else
    in_guess <- index_contains_x s q guess ;;
    use_guess <- (if in_guess then
                    n <- getz (nodes s) guess ;; m <- getz (nodes s) (guess + 1) ;;
                    Some (Rltb 0 (width_x s n m))
                  else Some false) ;;
    if use_guess then Some guess
    else
      i <- binary_search_index s q ;;
      ok <- index_contains_x s q i ;;
      assert ok ;; Some i.

(** compact_spline.cpp:310-326 (IndexForXAllowingRepeat): the index and the x used. *)
Definition index_for_x_allowing_repeat (s : spline) (x : R) (guess : Z) (repeat : bool) : option (Z * R) :=
  i <- index_for_x s x guess ;;
  if negb repeat || negb (i =? kAfterSplineIndex)%Z then Some (i, x)
  else
    e <- end_x s ;;
    repeat_x <- normalize_close (Rg 0 e) x ;;
    j <- index_for_x s repeat_x 0 ;;
    Some (j, repeat_x).

(** compact_spline.cpp:328-340 (ClampIndex): the index, and x when it is changed. *)
Definition clamp_index (s : spline) (i : Z) : option (Z * option R) :=
  if (i =? kBeforeSplineIndex)%Z then x <- start_x s ;; Some (0%Z, Some x)
  else if (i =? kAfterSplineIndex)%Z then x <- end_x s ;; Some ((num_nodes s - 1)%Z, Some x)
  else assert (i <? num_nodes s)%Z ;; Some (i, None).

(** compact_spline.cpp:261-273 (RangeX(index)); an end of [None] is infinity. *)
Definition range_x (s : spline) (i : Z) : option (R * option R) :=
  if (i =? kBeforeSplineIndex)%Z then e <- start_x s ;; Some (0, Some e)
  else if (i =? kAfterSplineIndex)%Z then b <- end_x s ;; Some (b, None)
  else
    a <- getz (nodes s) i ;; b <- getz (nodes s) (i + 1) ;;
    Some (node_x a (x_granularity s), Some (node_x b (x_granularity s))).

(** compact_spline.cpp:379-390 (CreateCubicInit(index)) *)
Definition create_cubic_init (s : spline) (i : Z) : option cinit :=
  if outside_spline i then
    n <- (if (i =? kBeforeSplineIndex)%Z then front s else back s) ;;
    let y := node_y n (y_range s) in Some (CInit y 0 y 0 1)
  else
    a <- getz (nodes s) i ;; b <- getz (nodes s) (i + 1) ;; Some (create_cubic_between s a b).

(** curve.h:26-31 (CurveValueType), 460-476 (CurveValue) *)
Inductive value_type := CurveValue | CurveDerivative | CurveSecondDerivative | CurveThirdDerivative.
Definition curve_value (c : cubic) (x : R) (t : value_type) : R :=
  match t with
  | CurveValue => keval c x | CurveDerivative => kderiv c x
  | CurveSecondDerivative => kderiv2 c x | CurveThirdDerivative => kderiv3 c x
  end.
(** compact_spline.cpp:205-221 (CalculatedSlowly) *)
Definition calculated_slowly (s : spline) (x : R) (t : value_type) : option R :=
  i <- index_for_x s x 0 ;;
  if (i =? kBeforeSplineIndex)%Z then (match t with CurveValue => start_y s | _ => Some 0 end)
  else if (i =? kAfterSplineIndex)%Z then (match t with CurveValue => end_y s | _ => Some 0 end)
  else
    c <- create_cubic_init s i ;;
    start <- node_x_at s i ;;
    Some (curve_value (cubic_of c) (x - start) t).

(** compact_spline.cpp:27-29 (kBaseSize): 60 bytes with seven nodes of six bytes, on
    an ABI with 4-byte floats and 2-byte indices. *)
Definition kNodeSize : Z := 6.
Definition kBaseSize : Z := 60 - 7 * kNodeSize.
(** compact_spline.h:453-462 (Size) *)
Definition size (max : Z) : Z := (Z.land (kBaseSize + max * kNodeSize + 3) (Z.lnot 3))%Z.
(** compact_spline.h:469-472 (ArraySize) *)
Definition array_size (num_splines num_nodes : Z) : Z := (num_splines * kBaseSize + num_nodes * kNodeSize)%Z.
(** compact_spline.h:213-222 (NextAtIdx), 429-438 (CreateArrayInPlace): where the
    idx-th spline of an array starts. *)
Definition spline_offset (max idx : Z) : Z := (idx * size max)%Z.
