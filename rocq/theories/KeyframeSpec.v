(** What the keyframe theorems talk about, apart from the model's functions: the keyframes
    in the arrays, in milliseconds. *)
From Verif Require Import RBase CompactSplineModel KeyframeModel.
Local Open Scope Z_scope.

(** Time of a keyframe. *)
Definition key_time (data : keyframe_data) (f : Z) : option R :=
  if f <? kd_count data then t <- getz (kd_times data) f ;; Some (t * kd_ms data)%R else None.
(** Value of channel [c] at a linear or step keyframe: keyframe after keyframe, channel after channel. *)
Definition key_value (data : keyframe_data) (channels f c : Z) : option R :=
  if f <? kd_count data then getz (kd_values data) (f * channels + c) else None.
(** Cubic keyframes: the left tangents, the values and the right tangents of all channels. *)
Definition cubic_left (data : keyframe_data) (channels f c : Z) : option R := getz (kd_values data) (f * (3 * channels) + c).
Definition cubic_value (data : keyframe_data) (channels f c : Z) : option R := getz (kd_values data) (f * (3 * channels) + channels + c).
Definition cubic_right (data : keyframe_data) (channels f c : Z) : option R := getz (kd_values data) (f * (3 * channels) + 2 * channels + c).
(** Times are not negative and do not decrease. *)
Definition chronological (data : keyframe_data) : Prop :=
  (forall f t t', key_time data f = Some t -> key_time data (f + 1) = Some t' -> t <= t')%R /\
  (forall f t, key_time data f = Some t -> 0 <= t)%R.
(** The keyframe's quaternion in the arrays, and the dot product. *)
Definition key_quat (data : keyframe_data) (f : Z) : option (list R) :=
  a <- key_value data 4 f 0 ;; b <- key_value data 4 f 1 ;; c <- key_value data 4 f 2 ;; d <- key_value data 4 f 3 ;; Some [a; b; c; d].
Fixpoint dot (a b : list R) : R := match a, b with x :: a', y :: b' => (x * y + dot a' b')%R | _, _ => 0%R end.
(** The component of channel [c] at a keyframe, when the nodes before and after it agree. *)
Definition node_value (chans : list (list unode)) (f c : Z) : option R :=
  ns <- getz chans c ;; l <- getz ns (2 * f) ;; r <- getz ns (2 * f + 1) ;; assert (Reqb (uy l) (uy r)) ;; Some (uy r).
Definition node_quat (chans : list (list unode)) (f : Z) : option (list R) :=
  a <- node_value chans f 0 ;; b <- node_value chans f 1 ;; c <- node_value chans f 2 ;; d <- node_value chans f 3 ;; Some [a; b; c; d].
