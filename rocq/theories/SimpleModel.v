(** Model of SimpleProcessorTemplate (include/motive/simple_processor_template.h) and of the
    three processors built on it: const, ease-in-ease-out and spring
    (src/motive/processor/*_processor.cpp, *_data.h).
    Float arithmetic is exact.  [None] is a failed assert, an access outside a vector, a
    null pointer, or an operation without a result. *)
From Verif Require Import RBase RangeModel CurveModel CurveUtilModel OvershootModel.
Local Open Scope R_scope.

(** ** The template *)

(** The functions SimpleVelocity … SimpleTargetTime that a processor defines for its data. *)
Record simple_class (T : Type) := SimpleClass {
  k_velocity : T -> R -> option R; k_target_value : T -> R -> option R;
  k_target_velocity : T -> R -> option R; k_difference : T -> R -> option R; k_target_time : T -> option Z }.
Arguments k_velocity {T}. Arguments k_target_value {T}. Arguments k_target_velocity {T}.
Arguments k_difference {T}. Arguments k_target_time {T}.

(** simple_init_template.h:48-54 (start_values, start_derivatives); [None] is nullptr. *)
Record simple_init := SimpleInit { start_values : option (list R); start_derivatives : option (list R) }.
Definition deref (p : option (list R)) (i : Z) : option R := l <- p ;; getz l i.

Section Template.
Context {T : Type} (k : simple_class T) (dflt : T) (make : simple_init -> Z -> option T).

(** simple_processor_template.h:126-127 (data_, values_) *)
Record sproc := SP { data_ : list T; values_ : list R }.

(** simple_processor_template.h:116-124 (Data): the assert on the index is subsumed by the access. *)
Definition data_at (p : sproc) (i : Z) : option T := getz (data_ p) i.
(** simple_processor_template.h:26-34 (GatherFloats) *)
Definition gather_floats (p : sproc) (index : Z) (dimensions : nat) (f : T -> R -> option R) : option (list R) :=
  gather (fun i => d <- data_at p (index + i) ;; v <- getz (values_ p) (index + i) ;; f d v) 0 dimensions.

(** simple_processor_template.h:40-42 (Values): the pointer, read at [i]. *)
Definition s_values (p : sproc) (index i : Z) : option R := getz (values_ p) (index + i).
(** simple_processor_template.h:44-49 (Velocities) *)
Definition s_velocities p index dimensions := gather_floats p index dimensions (k_velocity k).
(** simple_processor_template.h:51-56 (TargetValues) *)
Definition s_target_values p index dimensions := gather_floats p index dimensions (k_target_value k).
(** simple_processor_template.h:58-63 (TargetVelocities) *)
Definition s_target_velocities p index dimensions := gather_floats p index dimensions (k_target_velocity k).
(** simple_processor_template.h:65-70 (Differences) *)
Definition s_differences p index dimensions := gather_floats p index dimensions (k_difference k).
(** simple_processor_template.h:72-80 (TargetTime) *)
Definition s_target_time (p : sproc) (index : Z) (dimensions : nat) : option Z :=
  ts <- gather (fun i => d <- data_at p (index + i) ;; k_target_time k d) 0 dimensions ;;
  Some (fold_left Z.max ts (-2147483648)%Z).

Definition write_index (p : sproc) (i : Z) (d : T) (v : R) : option sproc :=
  ds <- setz (data_ p) i d ;; vs <- setz (values_ p) i v ;; Some (SP ds vs).
(** The loops over dimensions. *)
Fixpoint for_dims (f : Z -> sproc -> option sproc) (i : Z) (n : nat) (p : sproc) : option sproc :=
  match n with O => Some p | S n' => p' <- f i p ;; for_dims f (i + 1) n' p' end.

(** simple_processor_template.h:83-92 (InitializeIndices) *)
Definition s_initialize (init : simple_init) (index : Z) (dimensions : nat) : sproc -> option sproc :=
  for_dims (fun i p => d <- make init i ;; v <- deref (start_values init) i ;; write_index p (i + index) d v) 0 dimensions.
(** simple_processor_template.h:94-99 (RemoveIndices) *)
Definition s_remove (index : Z) (dimensions : nat) : sproc -> option sproc :=
  for_dims (fun i p => write_index p (index + i) dflt 0) 0 dimensions.
(** simple_processor_template.h:101-109 (MoveIndices) *)
Definition s_move (old_index new_index : Z) (dimensions : nat) : sproc -> option sproc :=
  for_dims (fun i p => d <- getz (data_ p) (old_index + i) ;; v <- getz (values_ p) (old_index + i) ;; write_index p (new_index + i) d v) 0 dimensions.
(** simple_processor_template.h:111-114 (SetNumIndices) *)
Definition s_set_num_indices (p : sproc) (n : Z) : sproc := SP (resize (data_ p) n dflt) (resize (values_ p) n 0).
End Template.
Arguments sproc : clear implicits.

(** static_cast<MotiveTime>(float): truncation; undefined outside int32. *)
Definition to_motive_time (x : R) : option Z :=
  let n := if Rleb 0 x then Rfloor x else (- Rfloor (- x))%Z in
  if ((-2147483648 <=? n) && (n <=? 2147483647))%Z then Some n else None.

(** ** Const *)
(** const_data.h:26-29; the data is the velocity. *)
Definition const_make (init : simple_init) (i : Z) : option R := deref (start_derivatives init) i.
(** const_processor.cpp:26-47 *)
Definition const_class : simple_class R :=
  SimpleClass R (fun d _ => Some d) (fun _ value => Some value) (fun d _ => Some d)
    (fun _ value => Some (value - value)) (fun _ => Some 0%Z).
(** const_processor.cpp:53-55 (AdvanceFrame): nothing but Defragment.  The other setters are
    those of the base class, which do nothing (vector_processor.h:86-125). *)
Definition const_frame (delta_time : Z) (x : R * R) : R * R := x.

(** ** Ease-in-ease-out *)
(** target.h:30-54 (MotiveCurveShape) *)
Record curve_shape := Shape { typical_delta_value : R; typical_total_time : R; shape_bias : R }.
(** The active curve; the flat line has an infinite end (ease_in_ease_out_processor.cpp:100-102). *)
Inductive ecurve := Curve (e : eieo) | Flat (v : R).
Definition ec_eval (q : ecurve) (x : R) : R := match q with Curve e => e_eval e x | Flat v => v end.
Definition ec_deriv (q : ecurve) (x : R) : R := match q with Curve e => e_deriv e x | Flat v => 0 end.
Definition ec_total (q : ecurve) : option R := match q with Curve e => Some (total_x e) | Flat _ => None end.
(** ease_in_ease_out_data.h:40-53 *)
Record edata := EData { e_q : ecurve; e_shape : curve_shape; q_start_time : R; e_target_time : R; e_elapsed : R }.
(** ease_in_ease_out_data.h:25-26 *)
Definition edata_default : edata := EData (Curve (EIEO (Quad 0 0 0) (Quad 0 0 0) 0 0)) (Shape 0 0 0) 0 0 0.
(** ease_in_ease_out_data.h:29-37 *)
Definition ease_make (init : simple_init) (i : Z) : option edata :=
  v <- deref (start_values init) i ;; d <- deref (start_derivatives init) i ;;
  Some (EData (Curve (eieo_single (quad_with_origin v d 0) 0)) (Shape 0 0 0) 0 0 0).

(** ease_in_ease_out_processor.cpp:26-29 (SimpleVelocity): at the elapsed time, not at the
    time since the start of the curve. *)
Definition ease_velocity (d : edata) : R := ec_deriv (e_q d) (e_elapsed d).
(** ease_in_ease_out_processor.cpp:31-45 (SimpleTargetValue), 47-50 (SimpleTargetVelocity) *)
Definition ease_target_value (d : edata) : R := ec_eval (e_q d) (Rmax 0 (e_target_time d - q_start_time d)).
Definition ease_target_velocity (d : edata) : R := ec_deriv (e_q d) (Rmax 0 (e_target_time d - q_start_time d)).
(** ease_in_ease_out_processor.cpp:52-58 *)
Definition ease_class : simple_class edata :=
  SimpleClass edata (fun d _ => Some (ease_velocity d)) (fun d _ => Some (ease_target_value d))
    (fun d _ => Some (ease_target_velocity d)) (fun d value => Some (ease_target_value d - value))
    (fun d => to_motive_time (e_target_time d - e_elapsed d)).

(** ease_in_ease_out_processor.cpp:22 *)
Definition kDerivativeEpsilon : R := 1 / 1000000.

(** The curve for a shape (ease_in_ease_out_processor.cpp:89-98, 121-130). *)
Definition shape_curve (shape : curve_shape) (v0 d0 v1 d1 : R) : option eieo :=
  se <- second_derivatives_from_typical (typical_delta_value shape) (typical_total_time shape) (shape_bias shape) ;;
  ease_in_ease_out v0 d0 (fst se) v1 d1 (snd se) (typical_delta_value shape) (typical_total_time shape).

(** ease_in_ease_out_processor.cpp:65-107 (AdvanceFrame), for one index. *)
Definition ease_frame (delta_time : Z) (x : edata * R) : option (edata * R) :=
  let d := fst x in
  let elapsed := e_elapsed d + IZR delta_time in
  let q_time := elapsed - q_start_time d in
  let keep := Some (EData (e_q d) (e_shape d) (q_start_time d) (e_target_time d) elapsed, ec_eval (e_q d) q_time) in
  match ec_total (e_q d) with
  | None => keep
  | Some total =>
      if Rleb total q_time then
        let target_value := ec_eval (e_q d) total in
        let target_velocity := ec_deriv (e_q d) total in
        let start := q_start_time d + total in
        q <- (if Rltb kDerivativeEpsilon (Rabs target_velocity)
              then e <- shape_curve (e_shape d) target_value target_velocity target_value 0 ;; Some (Curve e)
              else Some (Flat target_value)) ;;
        Some (EData q (e_shape d) start (e_target_time d) elapsed, ec_eval q (elapsed - start))
      else keep
  end.

(** ease_in_ease_out_processor.cpp:112-136 (SetTargetWithShape), for one index. *)
Definition ease_set_target (target_value target_velocity : R) (shape : curve_shape) (x : edata * R) : option (edata * R) :=
  q <- shape_curve shape (snd x) (ease_velocity (fst x)) target_value target_velocity ;;
  Some (EData (Curve q) shape 0 (total_x q) 0, snd x).

Fixpoint ease_frames (dts : list Z) (x : edata * R) : option (edata * R) :=
  match dts with [] => Some x | dt :: dts' => x' <- ease_frame dt x ;; ease_frames dts' x' end.

(** ** Spring *)
(** spring_data.h:26 *)
Definition kNumSpringIterations : Z := 4.
(** spring_data.h:37-47 *)
Record sdata := SData { s_q : spring; s_c : context; s_elapsed : R; s_target_time_ : R }.
(** curve_util.h:325-326 (default Context) *)
Definition context_default : context := Ctx 0 0 0 0 (Some 0).
(** spring_data.h:29 *)
Definition sdata_default : sdata := SData (spring_constant 0) context_default 0 0.
(** spring_data.h:31-34 *)
Definition spring_make (init : simple_init) (i : Z) : option sdata :=
  v <- deref (start_values init) i ;;
  Some (SData (spring_constant v) context_default 0 (iteration_x (spring_constant v) kNumSpringIterations)).

(** spring_processor.cpp:23-25 (SimpleVelocity) *)
Definition spring_velocity (d : sdata) : option R := s_deriv_with (s_q d) (s_elapsed d) (s_c d).
(** spring_processor.cpp:27-42 *)
Definition spring_class : simple_class sdata :=
  SimpleClass sdata (fun d _ => spring_velocity d) (fun d _ => Some (target (s_q d))) (fun _ _ => Some 0)
    (fun d value => Some (target (s_q d) - value)) (fun d => to_motive_time (s_target_time_ d - s_elapsed d)).

(** spring_processor.cpp:48-62 (AdvanceFrame), for one index. *)
Definition spring_frame (delta_time : Z) (x : sdata * R) : option (sdata * R) :=
  let d := fst x in
  let elapsed := s_elapsed d + IZR delta_time in
  c <- increment_context (s_q d) elapsed (s_c d) ;;
  v <- s_eval_with (s_q d) elapsed c ;;
  Some (SData (s_q d) c elapsed (s_target_time_ d), v).

(** spring_processor.cpp:67-82 (SetTargetWithShape), for one index; target_time keeps its value. *)
Definition spring_set_target (target_value : R) (shape : curve_shape) (x : sdata * R) : option (sdata * R) :=
  v <- spring_velocity (fst x) ;;
  q <- spring_init (snd x) v target_value (typical_delta_value shape) (typical_total_time shape) (shape_bias shape) ;;
  c <- calculate_context q 0 ;;
  Some (SData q c 0 (s_target_time_ (fst x)), snd x).

Fixpoint spring_frames (dts : list Z) (x : sdata * R) : option (sdata * R) :=
  match dts with [] => Some x | dt :: dts' => x' <- spring_frame dt x ;; spring_frames dts' x' end.
