(** Model of the sample processor LinearMotiveProcessor and of the program around it,
    src/samples/linear_processor/linear_processor.cpp.

    Floats are reals.  data_ and values_ are resized together (206-209), so they are one list.
    An index outside the list is [None]; Data also asserts that the index is allocated, see
    ProcessorModel.v.  AdvanceFrame does not call Defragment. *)
From Verif Require Import RBase Base RangeModel CompactSplineModel EvaluatorModel SplineTargetModel TargetModel.
Open Scope R_scope.

(** linear_processor.cpp:156-165 (LinearData) with the element of values_. *)
Record lelem := LElem { l_target : R; l_time : R; l_value : R }.
Definition lstate := list lelem.
(** linear_processor.cpp:161-164 (Reset), with values_[i] = 0; one element of
    169-178 (InitializeIndices) and of 182-187 (RemoveIndices). *)
Definition l_reset : lelem := LElem 0 0 0.
(** mathfu::Lerp *)
Definition mlerp (a b percent : R) : R := (1 - percent) * a + percent * b.

(** linear_processor.cpp:60-74: one round of the loop of AdvanceFrame. *)
Definition l_step (dt : Z) (x : lelem) : lelem :=
  let v := if Rltb 0 (l_time x) then mlerp (l_value x) (l_target x) (IZR dt / l_time x) else l_target x in
  LElem (l_target x) (l_time x - IZR dt) v.
(** linear_processor.cpp:58-75 (AdvanceFrame) *)
Definition l_advance_frame (dt : Z) (st : lstate) : lstate := map (l_step dt) st.
(** Frames one after the other. *)
Definition l_run (frames : list Z) (st : lstate) : lstate := fold_left (fun s dt => l_advance_frame dt s) frames st.

(** The loops that fill out[i], i below dimensions. *)
Fixpoint l_each {A} (f : lelem -> A) (st : lstate) (index : Z) (dimensions : nat) : option (list A) :=
  match dimensions with O => Some [] | S n => x <- getz st index ;; r <- l_each f st (index + 1) n ;; Some (f x :: r) end.
(** linear_processor.cpp:81-83 (Values), read in every dimension. *)
Definition l_values (st : lstate) (index : Z) (dimensions : nat) : option (list R) := l_each l_value st index dimensions.
(** linear_processor.cpp:84-92 (Velocities) *)
Definition l_velocities (st : lstate) (index : Z) (dimensions : nat) : option (list R) :=
  l_each (fun x => if Rleb (l_time x) 0 then 0 else (l_target x - l_value x) / l_time x) st index dimensions.
(** linear_processor.cpp:93-99 (TargetValues) *)
Definition l_target_values (st : lstate) (index : Z) (dimensions : nat) : option (list R) := l_each l_target st index dimensions.
(** linear_processor.cpp:106-113 (Differences) *)
Definition l_differences (st : lstate) (index : Z) (dimensions : nat) : option (list R) :=
  l_each (fun x => l_target x - l_value x) st index dimensions.
(** linear_processor.cpp:114-122 (TargetTime): Data(index), not Data(index + i). *)
Fixpoint l_target_time_from (st : lstate) (index : Z) (dimensions : nat) (greatest : Z) : option Z :=
  match dimensions with
  | O => Some greatest
  | S n => x <- getz st index ;; t <- to_int (l_time x) ;; l_target_time_from st index n (Z.max greatest t)
  end.
Definition l_target_time (st : lstate) (index : Z) (dimensions : nat) : option Z := l_target_time_from st index dimensions (-2147483648)%Z.

(** linear_processor.cpp:129-152: one round of the loop of SetTargets. *)
Definition l_set_target (t : list mnode) (x : lelem) : option lelem :=
  node0 <- getz t 0 ;;
  let override_current := (mn_time node0 =? 0)%Z in
  let v := if override_current then mn_value node0 else l_value x in
  target_node <- (if override_current then (if (1 <? len t)%Z then n <- getz t 1 ;; Some (Some n) else Some None) else Some (Some node0)) ;;
  Some (match target_node with
        | Some n => LElem (mn_value n) (IZR (mn_time n)) v
        | None => LElem (l_target x) (l_time x) v
        end).
(** linear_processor.cpp:127-153 (SetTargets): the targets of the dimensions. *)
Fixpoint l_set_targets (st : lstate) (index : Z) (ts : list (list mnode)) : option lstate :=
  match ts with
  | [] => Some st
  | t :: ts' => x <- getz st index ;; x' <- l_set_target t x ;; st' <- setz st index x' ;; l_set_targets st' (index + 1) ts'
  end.

(** linear_processor.cpp:252-255 (main): the loop that collects the points. *)
Fixpoint l_points (fuel : nat) (t end_t : Z) (st : lstate) : option (list (Z * R)) :=
  if (t <=? end_t)%Z then
    match fuel with
    | O => None
    | S f => x <- getz st 0 ;; r <- l_points f (t + 1) end_t (l_advance_frame 1 st) ;; Some ((t, l_value x) :: r)
    end
  else Some [].
(** linear_processor.cpp:232-255 (main), for any numbers in the place of 10, -5 and 100. *)
Definition l_main (fuel : nat) (current target : R) (time : Z) : option (list (Z * R)) :=
  t <- tar_current_to_target current 0 target 0 time Closest ;;
  st <- l_set_targets [l_reset] 0 [t] ;;
  e <- end_time t ;;
  l_points fuel 0 e st.
