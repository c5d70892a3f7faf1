(** Model of BulkSplineEvaluator (include/motive/math/bulk_spline_evaluator.h,
    src/motive/math/bulk_spline_evaluator.cpp) and of the bulk evaluation in
    compact_spline.cpp.

    Simplifications.  Floats are reals; an infinite segment end is [None].  The
    parallel vectors, which are only ever resized together, are one list of records.
    A pointer to a spline is the spline (splines do not change while they are
    played); the array of consecutive splines is a list.  Only the C++ variants of
    the inner loops are modelled, not the NEON assembly. *)
From Verif Require Import RBase RangeModel CurveModel CompactSplineModel.

(** bulk_spline_evaluator.h:316-358 (Source), 360-366 (YRange), 380-401 (sources_):
    everything that is stored for one index. *)
Record slot := Slot {
  rate : R; offset_y : R; scale_y : R; source : option spline; x_index : Z; repeats : bool;
  modular_range : range;
  cubic_x : R; cubic_x_end : option R; curve : cubic; cur_y : R
}.
Definition evaluator := list slot.
(** bulk_spline_evaluator.h:316-324 (Source), bulk_spline_evaluator.cpp:38-46 (SetNumIndices) *)
Definition slot_default : slot :=
  Slot 1 0 1 None kInvalidSplineIndex false range_default 0 (Some 0) (Cubic 0 0 0 0) 0.

(** compact_spline.h:593-631 (SplinePlayback) *)
Record playback := Playback { start_at : R; blend_x : R; playback_rate : R; y_offset : R; y_scale : R; repeat_ : bool }.
(** compact_spline.h:596-604 (SplinePlayback) *)
Definition playback_from (start : R) : playback := Playback start 0 1 0 1 false.

(** bulk_spline_evaluator.h:49 (NumIndices) *)
Definition num_indices (ev : evaluator) : Z := len ev.
(** bulk_spline_evaluator.cpp:38-46 (SetNumIndices) *)
Definition set_num_indices (ev : evaluator) (n : Z) : evaluator := resize ev n slot_default.

(** Change one slot; the loops over [index, index + count). *)
Definition modify (ev : evaluator) (i : Z) (f : slot -> option slot) : option evaluator :=
  s <- getz ev i ;; s' <- f s ;; setz ev i s'.
Fixpoint modify_range (ev : evaluator) (i : Z) (count : nat) (f : slot -> option slot) : option evaluator :=
  match count with
  | O => Some ev
  | S n => ev' <- modify ev i f ;; modify_range ev' (i + 1) n f
  end.

(** bulk_spline_evaluator.cpp:48-60 (MoveIndices): one index after the other. *)
Fixpoint move_indices (ev : evaluator) (old_index new_index : Z) (count : nat) : option evaluator :=
  match count with
  | O => Some ev
  | S n => s <- getz ev old_index ;; ev' <- setz ev new_index s ;; move_indices ev' (old_index + 1) (new_index + 1) n
  end.

Definition with_source (s : slot) (sp : option spline) : slot :=
  Slot (rate s) (offset_y s) (scale_y s) sp (x_index s) (repeats s) (modular_range s) (cubic_x s) (cubic_x_end s) (curve s) (cur_y s).
(** bulk_spline_evaluator.h:79-85 (CopyIndices) *)
Fixpoint copy_sources (ev : evaluator) (dst src : Z) (count : nat) (alloc : Z -> option spline -> option spline) : option evaluator :=
  match count with
  | O => Some ev
  | S n =>
      s <- getz ev src ;;
      ev' <- modify ev dst (fun t => Some (with_source t (alloc dst (source s)))) ;;
      copy_sources ev' (dst + 1) (src + 1) n alloc
  end.
Definition copy_indices (ev : evaluator) (dst src : Z) (count : nat) (alloc : Z -> option spline -> option spline) : option evaluator :=
  ev' <- move_indices ev src dst count ;; copy_sources ev' dst src count alloc.

(** bulk_spline_evaluator.cpp:62-68 (SetYRanges) *)
Definition slot_set_y_range (r : range) (s : slot) : slot :=
  Slot (rate s) (offset_y s) (scale_y s) (source s) (x_index s) (repeats s) r (cubic_x s) (cubic_x_end s) (curve s) (cur_y s).
Definition set_y_ranges (ev : evaluator) (index : Z) (count : nat) (r : range) : option evaluator :=
  modify_range ev index count (fun s => Some (slot_set_y_range r s)).

(** bulk_spline_evaluator.h:294-298 (CubicStartX): [None] when the assert that there is
    a spline fails. *)
Definition cubic_start_x (s : slot) : option R := sp <- source s ;; node_x_at sp (x_index s).
(** bulk_spline_evaluator.h:129-131 (X) *)
Definition slot_x (s : slot) : option R := a <- cubic_start_x s ;; Some (a + cubic_x s).
(** bulk_spline_evaluator.h:150-152 (Derivative) *)
Definition slot_derivative (s : slot) : R := rate s * kderiv (curve s) (cubic_x s).
(** bulk_spline_evaluator.h:167-169 (DerivativeWithoutPlayback) *)
Definition slot_derivative_without_playback (s : slot) : R := kderiv (curve s) (cubic_x s).
(** bulk_spline_evaluator.h:256-259 (NormalizeY) *)
Definition slot_normalize_y (s : slot) (y : R) : option R :=
  if valid (modular_range s) then normalize_close (modular_range s) y else Some y.
(** bulk_spline_evaluator.h:138-140 (NormalizedY) *)
Definition slot_normalized_y (s : slot) : option R := slot_normalize_y s (cur_y s).
(** bulk_spline_evaluator.h:206 (EndX), 209 (EndY), 220-222 (EndDerivative), 235-237 (EndDerivativeWithoutPlayback) *)
Definition slot_end_x (s : slot) : option R := sp <- source s ;; end_x sp.
Definition slot_end_y (s : slot) : option R := sp <- source s ;; end_y sp.
Definition slot_end_derivative (s : slot) : option R := sp <- source s ;; d <- end_derivative sp ;; Some (rate s * d).
Definition slot_end_derivative_without_playback (s : slot) : option R := sp <- source s ;; end_derivative sp.
(** bulk_spline_evaluator.h:242-244 (YDifferenceToEnd) *)
Definition slot_y_difference_to_end (s : slot) : option R := e <- slot_end_y s ;; slot_normalize_y s (e - cur_y s).

(** bulk_spline_evaluator.cpp:328-332 (EvaluateIndex) *)
Definition evaluate_slot (s : slot) : slot :=
  Slot (rate s) (offset_y s) (scale_y s) (source s) (x_index s) (repeats s) (modular_range s) (cubic_x s) (cubic_x_end s) (curve s)
       (keval (curve s) (cubic_x s)).

(** Range::Length with an infinite end. *)
Definition length_x (r : R * option R) : option R := match snd r with Some e => Some (e - fst r) | None => None end.

(** bulk_spline_evaluator.cpp:298-326 (InitCubic); the guess is a uint16. *)
Definition init_cubic (s : slot) (start_x : R) : option slot :=
  match source s with
  | None => Some s
  | Some sp =>
      p <- index_for_x_allowing_repeat sp start_x ((x_index s + 1) mod 65536)%Z (repeats s) ;;
      let (i, new_start_x) := (p : Z * R) in
      r <- range_x sp i ;;
      c <- create_cubic_init sp i ;;
      Some (Slot (rate s) (offset_y s) (scale_y s) (source s) i (repeats s) (modular_range s)
                 (new_start_x - fst r) (length_x r)
                 (kshift_up (kscale_up (cubic_of c) (scale_y s)) (offset_y s)) (cur_y s))
  end.

(** bulk_spline_evaluator.cpp:70-120 (CalculateBlendInit) *)
Definition calculate_blend_init (s : slot) (sp : spline) (p : playback) : option cinit :=
  let blend_width := blend_x p * playback_rate p in
  q <- index_for_x_allowing_repeat sp (start_at p + blend_width) kInvalidSplineIndex (repeat_ p) ;;
  let (i, blend_end_x) := (q : Z * R) in
  e <- (if outside_spline i then y <- node_y_at sp i ;; Some (y, 0)
        else
          a <- node_x_at sp i ;; c <- create_cubic_init sp i ;;
          Some (keval (cubic_of c) (blend_end_x - a), kderiv (cubic_of c) (blend_end_x - a))) ;;
  let end_y := fst (e : R * R) * y_scale p + y_offset p in
  ys <- (if valid (modular_range s) then
           start <- normalize_close (modular_range s) (cur_y s) ;;
           end_normalized <- normalize_close (modular_range s) end_y ;;
           diff <- normalize (modular_range s) (end_normalized - start) ;;
           Some (start, start + diff)
         else Some (cur_y s, end_y)) ;;
  Some (CInit (fst ys) (slot_derivative s) (snd (ys : R * R)) (snd e) blend_width).

(** bulk_spline_evaluator.cpp:122-151 (BlendToSpline) *)
Definition blend_to_spline (sp : spline) (p : playback) (s : slot) : option slot :=
  c <- calculate_blend_init s sp p ;;
  q <- index_for_x_allowing_repeat sp (start_at p) kInvalidSplineIndex (repeat_ p) ;;
  let (i, blend_start_x) := (q : Z * R) in
  a <- node_x_at sp i ;;
  let start := blend_start_x - a in
  Some (Slot (playback_rate p) (y_offset p) (y_scale p) (Some sp) i (repeat_ p) (modular_range s)
             start (Some (start + blend_x p * playback_rate p)) (kshift_right (cubic_of c) start) (cur_y s)).

(** bulk_spline_evaluator.cpp:153-164 (JumpToSpline) *)
Definition jump_to_spline (sp : spline) (p : playback) (s : slot) : option slot :=
  init_cubic (Slot (playback_rate p) (y_offset p) (y_scale p) (Some sp) kInvalidSplineIndex (repeat_ p) (modular_range s)
                   (cubic_x s) (cubic_x_end s) (curve s) (cur_y s)) (start_at p).

(** bulk_spline_evaluator.cpp:202-209 (ClearSplines) *)
Definition clear_slot (s : slot) : slot :=
  Slot (rate s) (offset_y s) (scale_y s) None (x_index s) (repeats s) (modular_range s)
       0 None (Cubic 0 0 0 (cubic_x s)) (cur_y s).
Definition clear_splines (ev : evaluator) (index : Z) (count : nat) : option evaluator :=
  modify_range ev index count (fun s => Some (clear_slot s)).

(** bulk_spline_evaluator.cpp:166-193 (SetSplines): what happens to one index. *)
Definition set_spline (sp : spline) (p : playback) (s : slot) : option slot :=
  s' <- (match source s with
         | Some _ => if Rltb 0 (blend_x p) then blend_to_spline sp p s else jump_to_spline sp p s
         | None => jump_to_spline sp p s
         end) ;;
  Some (evaluate_slot s').
(** bulk_spline_evaluator.cpp:166-193 (SetSplines): a null pointer is [None]; the list
    holds the splines found by Next, and walking off it is an error. *)
Fixpoint set_each_spline (ev : evaluator) (i : Z) (count : nat) (l : list spline) (p : playback) : option evaluator :=
  match count with
  | O => Some ev
  | S n =>
      match l with
      | [] => None
      | sp :: l' => ev' <- modify ev i (set_spline sp p) ;; set_each_spline ev' (i + 1) n l' p
      end
  end.
Definition set_splines (ev : evaluator) (index : Z) (count : nat) (splines : option (list spline)) (p : playback) : option evaluator :=
  match splines with
  | None => clear_splines ev index count
  | Some l => set_each_spline ev index count l p
  end.

(** bulk_spline_evaluator.cpp:211-217 (SetXs) *)
Definition set_xs (ev : evaluator) (index : Z) (count : nat) (x : R) : option evaluator :=
  modify_range ev index count (fun s => s' <- init_cubic s x ;; Some (evaluate_slot s')).
(** bulk_spline_evaluator.cpp:219-224 (SetPlaybackRates) *)
Definition slot_set_rate (r : R) (s : slot) : slot :=
  Slot r (offset_y s) (scale_y s) (source s) (x_index s) (repeats s) (modular_range s) (cubic_x s) (cubic_x_end s) (curve s) (cur_y s).
Definition set_playback_rates (ev : evaluator) (index : Z) (count : nat) (r : R) : option evaluator :=
  modify_range ev index count (fun s => Some (slot_set_rate r s)).
(** bulk_spline_evaluator.cpp:226-231 (SetRepeating) *)
Definition slot_set_repeat (b : bool) (s : slot) : slot :=
  Slot (rate s) (offset_y s) (scale_y s) (source s) (x_index s) b (modular_range s) (cubic_x s) (cubic_x_end s) (curve s) (cur_y s).
Definition set_repeating (ev : evaluator) (index : Z) (count : nat) (b : bool) : option evaluator :=
  modify_range ev index count (fun s => Some (slot_set_repeat b s)).

(** bulk_spline_evaluator.cpp:281-296 (UpdateCubicXs_OneStep): the new position and
    the test whether the segment has been left. *)
Definition step_x (delta : R) (s : slot) : slot :=
  Slot (rate s) (offset_y s) (scale_y s) (source s) (x_index s) (repeats s) (modular_range s)
       (cubic_x s + delta * rate s) (cubic_x_end s) (curve s) (cur_y s).
Definition past_end (s : slot) : bool := match cubic_x_end s with Some e => Rltb e (cubic_x s) | None => false end.
(** bulk_spline_evaluator.cpp:281-296 (UpdateCubicXs_OneStep) *)
Fixpoint update_one_step (delta : R) (i : Z) (ev : evaluator) : evaluator * list Z :=
  match ev with
  | [] => ([], [])
  | s :: ev' =>
      let s' := step_x delta s in
      let (rest, l) := update_one_step delta (i + 1) ev' in
      (s' :: rest, if past_end s' then i :: l else l)
  end.

(** Writing and reading the scratch buffer as bytes (little endian). *)
Definition int_bytes (v : Z) : list Z := [v mod 256; (v / 256) mod 256; (v / 65536) mod 256; (v / 16777216) mod 256]%Z.
Fixpoint write_bytes (m : list Z) (at_ : Z) (bs : list Z) : option (list Z) :=
  match bs with
  | [] => Some m
  | b :: bs' => m' <- setz m at_ b ;; write_bytes m' (at_ + 1) bs'
  end.
Definition read_int (m : list Z) (at_ : Z) : option Z :=
  a <- getz m at_ ;; b <- getz m (at_ + 1) ;; c <- getz m (at_ + 2) ;; d <- getz m (at_ + 3) ;;
  Some (a + 256 * b + 65536 * c + 16777216 * d)%Z.
(** bulk_spline_evaluator.cpp:233-243 (UpdateCubicXsAndGetMask_C): the mask bytes,
    written from byte [at_] on. *)
Fixpoint update_and_get_mask (delta : R) (ev : evaluator) (m : list Z) (at_ : Z) : option (evaluator * list Z) :=
  match ev with
  | [] => Some ([], m)
  | s :: ev' =>
      let s' := step_x delta s in
      m' <- setz m at_ (if past_end s' then 255 else 0)%Z ;;
      q <- update_and_get_mask delta ev' m' (at_ + 1) ;;
      Some (s' :: fst q, snd q)
  end.
(** bulk_spline_evaluator.cpp:248-258 (ConvertMaskToIndices): mask and indices are two
    pointers into the same buffer [m]; the indices start at its first byte. *)
Fixpoint convert_mask (m : list Z) (mask_at i : Z) (length : nat) (num : Z) : option (list Z * Z) :=
  match length with
  | O => Some (m, num)
  | S n =>
      m' <- write_bytes m (4 * num) (int_bytes (i mod 65536)) ;;
      b <- getz m' (mask_at + i) ;;
      convert_mask m' mask_at (i + 1) n (if (b =? 0)%Z then num else (num + 1)%Z)
  end.
(** The first [n] ints of the buffer. *)
Fixpoint read_ints (m : list Z) (at_ : Z) (n : nat) : option (list Z) :=
  match n with
  | O => Some []
  | S n' => v <- read_int m at_ ;; l <- read_ints m (at_ + 4) n' ;; Some (v :: l)
  end.
(** bulk_spline_evaluator.cpp:263-277 (UpdateCubicXs_TwoSteps); [m] is what the
    scratch buffer (one int per index) held before. *)
Definition update_two_steps (delta : R) (ev : evaluator) (m : list Z) : option (evaluator * list Z) :=
  let mask_at := (4 * (num_indices ev / 2))%Z in
  q <- update_and_get_mask delta ev m mask_at ;;
  r <- convert_mask (snd (q : evaluator * list Z)) mask_at 0 (length ev) 0 ;;
  l <- read_ints (fst (r : list Z * Z)) 0 (Z.to_nat (snd r)) ;;
  Some (fst q, l).

(** bulk_spline_evaluator.cpp:340-355 (AdvanceFrame), from the list of indices on. *)
Definition reinit_slot (s : slot) : option slot := x <- slot_x s ;; init_cubic s x.
Fixpoint reinit (ev : evaluator) (l : list Z) : option evaluator :=
  match l with
  | [] => Some ev
  | i :: l' => ev' <- modify ev i reinit_slot ;; reinit ev' l'
  end.
(** bulk_spline_evaluator.cpp:340-355 (AdvanceFrame), 334-338 (EvaluateCubics_C) *)
Definition advance_frame (delta : R) (ev : evaluator) : option evaluator :=
  let (ev1, l) := update_one_step delta 0 ev in
  ev2 <- reinit ev1 l ;;
  Some (map evaluate_slot ev2).
(** The same with the two-step update, which the NEON build uses. *)
Definition advance_frame_two_steps (delta : R) (ev : evaluator) (m : list Z) : option evaluator :=
  q <- update_two_steps delta ev m ;;
  ev2 <- reinit (fst (q : evaluator * list Z)) (snd q) ;;
  Some (map evaluate_slot ev2).

(** Any number of frames. *)
Fixpoint advance_frames (ev : evaluator) (l : list R) : option evaluator :=
  match l with
  | [] => Some ev
  | d :: l' => ev' <- advance_frame d ev ;; advance_frames ev' l'
  end.

(** bulk_spline_evaluator.cpp:357-360 (Valid) *)
Definition valid_index (ev : evaluator) (i : Z) : bool :=
  match getz ev i with Some s => match source s with Some _ => true | None => false end | None => false end.

(** compact_spline.cpp:231-250 (BulkEvaluate): the evaluator seen by each AddPoint
    call.  The counter is a uint16, so the loop needs fuel. *)
Fixpoint bulk_loop (fuel : nat) (i num_points : Z) (delta : R) (ev : evaluator) : option (list (Z * evaluator)) :=
  if (i <? num_points)%Z then
    match fuel with
    | O => None
    | S f =>
        ev' <- advance_frame delta ev ;;
        l <- bulk_loop f ((i + 1) mod 65536) num_points delta ev' ;;
        Some ((i, ev) :: l)
    end
  else Some [].
Definition bulk_evaluate (fuel : nat) (splines : list spline) (start_x delta : R) (num_points : Z) : option (list (Z * evaluator)) :=
  ev <- set_splines (set_num_indices [] (len splines)) 0 (length splines) (Some splines) (playback_from start_x) ;;
  bulk_loop fuel 0 num_points delta ev.
(** compact_spline.cpp:252-259 (BulkYs), 43-69 (YsBulkOutput): the y and derivative
    recorded for each point and spline.  (Derivative is called with a uint16 index, so
    this is for at most 65536 splines.) *)
Definition bulk_ys (fuel : nat) (splines : list spline) (start_x delta : R) (num_points : Z) : option (list (list (R * R))) :=
  l <- bulk_evaluate fuel splines start_x delta num_points ;;
  Some (map (fun p => map (fun s => (cur_y s, slot_derivative s)) (snd (p : Z * evaluator))) l).
