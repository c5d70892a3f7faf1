(** Model of Graph2DPoints (src/motive/math/curve.cpp:364-449), which draws points with
    characters, as it is with FPL_CURVE_GRAPH_FUNCTIONS defined.

    Numbers are real numbers; a division by zero and a conversion to an int that doesn't hold
    the result are [None].  (Floats divide by zero; the result, an infinity or a NaN, is then
    converted to an int, which is undefined, except that a size of 1 divides by zero without harm.
    The theorems are about sizes of 2 or more.)  The text of the numbers in the heading and at the bottom
    is left out: a drawing has the numbers.  [past] is what lies in memory after the last
    point, [None] if there is nothing that may be read. *)
From Coq Require Import Ascii.
From Verif Require Import RBase CompactSplineModel.
Local Open Scope Z_scope.

Notation pixel := (Z * Z)%type.
Inductive drawing := Nothing | Drawing (top : R) (lines : list (list ascii)) (bottom : R).

(** Division of floats. *)
Definition fdiv (a b : R) : option R := assert negb (Reqb b 0) ;; Some (a / b)%R.
(** curve.cpp:365 (Round) *)
Definition ground (f : R) : option Z := to_int (f + 1 / 2)%R.
(** curve.cpp:371-377 (Min, Max), 389-395: the extents of the points. *)
Fixpoint least (first : R) (l : list R) : R := match l with [] => first | x :: l' => least (Rmin first x) l' end.
Fixpoint greatest (first : R) (l : list R) : R := match l with [] => first | x :: l' => greatest (Rmax first x) l' end.
(** curve.cpp:379-381 (CompareBigYSmallX) *)
Definition before (a b : pixel) : bool := if snd a =? snd b then fst a <? fst b else snd b <? snd a.
(** curve.cpp:410 (std::sort) *)
Fixpoint insert_pixel (x : pixel) (l : list pixel) : list pixel :=
  match l with [] => [x] | y :: l' => if before y x then y :: insert_pixel x l' else x :: l end.
Fixpoint sort_pixels (l : list pixel) : list pixel := match l with [] => [] | x :: l' => insert_pixel x (sort_pixels l') end.
(** curve.cpp:401-406: the points in graph space. *)
Definition pixel_of (min_x min_y inc_x inc_y : R) (p : R * R) : option pixel :=
  a <- fdiv (fst p - min_x) inc_x ;; b <- fdiv (snd p - min_y) inc_y ;; x <- ground a ;; y <- ground b ;; Some (x, y).
Fixpoint pixels_of (min_x min_y inc_x inc_y : R) (l : list (R * R)) : option (list pixel) :=
  match l with [] => Some [] | p :: l' => x <- pixel_of min_x min_y inc_x inc_y p ;; r <- pixels_of min_x min_y inc_x inc_y l' ;; Some (x :: r) end.

Definition pix_eqb (a b : pixel) : bool := (fst a =? fst b) && (snd a =? snd b).
(** The pointer q is the list of the pixels from it to the last one. *)
Definition at_q (past : option pixel) (q : list pixel) : option pixel := match q with [] => past | x :: _ => Some x end.
(** curve.cpp:424: `for (q++; q->x == col && q->y == row; q++) {}`, after the first q++. *)
Fixpoint skip (past : option pixel) (p : pixel) (q : list pixel) : option (list pixel) :=
  match q with
  | [] => g <- past ;; assert negb (pix_eqb g p) ;; Some []
  | x :: q' => if pix_eqb x p then skip past p q' else Some q
  end.
(** curve.cpp:421-435: the columns of a row from [col] on, [n] of them. *)
Fixpoint columns (past : option pixel) (zero row : Z) (n : nat) (col : Z) (q : list pixel) : option (list ascii * list pixel) :=
  match n with
  | O => Some ([], q)
  | S n' =>
      h <- at_q past q ;;
      if pix_eqb h (col, row) then
        r <- skip past (col, row) (tl q) ;;
        match r with
        | [] => Some (["*"%char], [])
        | _ => t <- columns past zero row n' (col + 1) r ;; Some ("*"%char :: fst t, snd t)
        end
      else if col =? 0 then t <- columns past zero row n' (col + 1) q ;; Some ("|"%char :: fst t, snd t)
      else if row =? zero then t <- columns past zero row n' (col + 1) q ;; Some ("-"%char :: fst t, snd t)
      else if snd h <? row then Some ([], q)
      else t <- columns past zero row n' (col + 1) q ;; Some (" "%char :: fst t, snd t)
  end.
(** curve.cpp:420-438: the rows from [row] down, [n] of them. *)
Fixpoint rows (past : option pixel) (zero size_x : Z) (n : nat) (row : Z) (q : list pixel) : option (list (list ascii)) :=
  match n with
  | O => Some []
  | S n' =>
      t <- columns past zero row (Z.to_nat (size_x + 1)) 0 q ;;
      match snd t with
      | [] => Some [fst t]
      | r => l <- rows past zero size_x n' (row - 1) r ;; Some (fst t :: l)
      end
  end.
(** curve.cpp:384-440 (Graph2DPoints) *)
Definition graph2d (past : option pixel) (points : list (R * R)) (size_x size_y : Z) : option drawing :=
  match points with
  | [] => Some Nothing
  | p :: l =>
      let min_x := least (fst p) (map fst l) in let max_x := greatest (fst p) (map fst l) in
      let min_y := least (snd p) (map snd l) in let max_y := greatest (snd p) (map snd l) in
      inc_x <- fdiv (max_x - min_x) (IZR size_x - 1) ;;
      inc_y <- fdiv (max_y - min_y) (IZR size_y - 1) ;;
      z <- fdiv ((0 - min_y) * IZR size_y) (max_y - min_y) ;;
      zero <- ground z ;;
      ps <- pixels_of min_x min_y inc_x inc_y points ;;
      lines <- rows past zero size_x (Z.to_nat (size_y + 1)) size_y (sort_pixels ps) ;;
      Some (Drawing max_y lines min_y)
  end.
(** curve.h:477-495 (GraphCurveOnXRange); [f] is the value of the curve that is drawn. *)
Fixpoint samples (f : R -> R) (n : nat) (x inc : R) : list (R * R) :=
  match n with O => [] | S n' => (x, f x) :: samples f n' (x + inc)%R inc end.
Definition graph_on_range (past : option pixel) (f : R -> R) (start end_ : R) (size_x size_y : Z) : option drawing :=
  inc <- fdiv (end_ - start) (IZR (size_x - 1)) ;;
  graph2d past (samples f (Z.to_nat size_x) start inc) size_x size_y.
