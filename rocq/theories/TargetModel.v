(** Model of the functions that make targets, include/motive/target.h.  A target is the list
    of its nodes (SplineTargetModel); a failed assert is [None]. *)
From Verif Require Import RBase RangeModel CurveModel CompactSplineModel EvaluatorModel SplineTargetModel.

(** target.h:109-111 (MotiveTarget1f with one waypoint) *)
Definition target_of1 (n0 : mnode) : list mnode := [n0].
(** target.h:117-122 (two waypoints) *)
Definition target_of2 (n0 n1 : mnode) : option (list mnode) :=
  assert ((0 <=? mn_time n0) && (mn_time n0 <? mn_time n1))%Z ;; Some [n0; n1].
(** target.h:126-133 (three waypoints) *)
Definition target_of3 (n0 n1 n2 : mnode) : option (list mnode) :=
  assert ((0 <=? mn_time n0) && (mn_time n0 <? mn_time n1) && (mn_time n1 <? mn_time n2))%Z ;; Some [n0; n1; n2].

(** target.h:160-163 (EndTime) *)
Definition end_time (t : list mnode) : option Z := n <- getz t (len t - 1) ;; Some (mn_time n).

(** target.h:235-238 (Current1f) *)
Definition tar_current (value velocity : R) : list mnode := target_of1 (MNode value velocity 0 Closest).
(** target.h:243-250 (Target1f) *)
Definition tar_target (value velocity : R) (time : Z) (d : direction) : option (list mnode) :=
  assert (0 <=? time)%Z ;; Some (target_of1 (MNode value velocity time d)).
(** target.h:253-260 (CurrentToTarget1f) *)
Definition tar_current_to_target (value velocity target target_velocity : R) (time : Z) (d : direction) : option (list mnode) :=
  target_of2 (MNode value velocity 0 Closest) (MNode target target_velocity time d).
(** target.h:263-271 (CurrentToTargetConstVelocity1f) *)
Definition tar_const_velocity (value target : R) (time : Z) : option (list mnode) :=
  assert (0 <? time)%Z ;;
  let velocity := (target - value) / IZR time in
  target_of2 (MNode value velocity 0 Closest) (MNode target velocity time Direct).
(** target.h:275-283 (TargetToTarget1f) *)
Definition tar_target_to_target (v1 d1 : R) (t1 : Z) (v2 d2 : R) (t2 : Z) : option (list mnode) :=
  target_of2 (MNode v1 d1 t1 Closest) (MNode v2 d2 t2 Closest).
(** target.h:286-294 (CurrentToTargetToTarget1f) *)
Definition tar_current_to_target_to_target (v0 d0 v1 d1 : R) (t1 : Z) (v2 d2 : R) (t2 : Z) : option (list mnode) :=
  target_of3 (MNode v0 d0 0 Closest) (MNode v1 d1 t1 Closest) (MNode v2 d2 t2 Closest).

(** The loops over the dimensions, target.h:309-319 (Current), 324-336 (Target),
    339-355 (CurrentToTarget), 358-371 (CurrentToTargetConstVelocity).  A vector is the list
    of its coordinates; the parameters of a dimension are the i-th coordinates. *)
Fixpoint each {A} (f : A -> option (list mnode)) (l : list A) : option (list (list mnode)) :=
  match l with [] => Some [] | a :: l' => t <- f a ;; ts <- each f l' ;; Some (t :: ts) end.
Definition vec_current (values velocities : list R) : option (list (list mnode)) :=
  each (fun p => Some (tar_current (fst p) (snd p))) (combine values velocities).
Definition vec_target (values velocities : list R) (time : Z) (d : direction) : option (list (list mnode)) :=
  each (fun p => tar_target (fst p) (snd p) time d) (combine values velocities).
Definition vec_current_to_target (values velocities targets target_velocities : list R) (time : Z) (d : direction) : option (list (list mnode)) :=
  each (fun p => tar_current_to_target (fst (fst p)) (snd (fst p)) (fst (snd p)) (snd (snd p)) time d)
    (combine (combine values velocities) (combine targets target_velocities)).
Definition vec_const_velocity (values targets : list R) (time : Z) : option (list (list mnode)) :=
  each (fun p => tar_const_velocity (fst p) (snd p) time) (combine values targets).
