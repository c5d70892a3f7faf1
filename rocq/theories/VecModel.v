(** The few mathfu types the models need (mathfu is an external dependency of
    /repo; its documented behaviour is modelled). Matrices are stored by column,
    as in mathfu. *)
From Verif Require Import RBase.

Record vec3 := V3 { vx : R; vy : R; vz : R }.
Definition vadd (a b : vec3) := V3 (vx a + vx b) (vy a + vy b) (vz a + vz b).
Definition vscale (s : R) (a : vec3) := V3 (s * vx a) (s * vy a) (s * vz a).
Definition vneg (a : vec3) := V3 (- vx a) (- vy a) (- vz a).
Definition vdot (a b : vec3) := vx a * vx b + vy a * vy b + vz a * vz b.
Definition vcross (a b : vec3) :=
  V3 (vy a * vz b - vz a * vy b) (vz a * vx b - vx a * vz b) (vx a * vy b - vy a * vx b).
Definition kAxisX : vec3 := V3 1 0 0.
Definition kAxisY : vec3 := V3 0 1 0.
Definition kAxisZ : vec3 := V3 0 0 1.

(** mathfu::mat3: three columns; the nine-argument constructor is column major. *)
Record mat3 := M3 { c0 : vec3; c1 : vec3; c2 : vec3 }.
Definition mat3_of (a b c d e f g h i : R) : mat3 := M3 (V3 a b c) (V3 d e f) (V3 g h i).
Definition mapply (m : mat3) (v : vec3) : vec3 :=
  vadd (vadd (vscale (vx v) (c0 m)) (vscale (vy v) (c1 m))) (vscale (vz v) (c2 m)).

Lemma vec3_eq a b : vx a = vx b -> vy a = vy b -> vz a = vz b -> a = b.
Proof. destruct a, b; simpl; congruence. Qed.
