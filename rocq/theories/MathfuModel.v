(** The vectors, matrices and quaternions of the mathfu library that the code uses.
    mathfu is a dependency that is not part of /repo: these definitions are assumptions
    about it, taken from its documentation.  Components are reals. *)
From Verif Require Import RBase.
Local Open Scope R_scope.

Record vec3 := V3 { x3 : R; y3 : R; z3 : R }.
Record vec4 := V4 { x4 : R; y4 : R; z4 : R; w4 : R }.
(** Matrices are stored by columns. *)
Record mat3 := M3 { a0 : vec3; a1 : vec3; a2 : vec3 }.
Record mat4 := M4 { c0 : vec4; c1 : vec4; c2 : vec4; c3 : vec4 }.
(** mathfu::AffineTransform: a 4x4 matrix without its last row, which is 0 0 0 1. *)
Record affine := Aff { b0 : vec3; b1 : vec3; b2 : vec3; b3 : vec3 }.
Record quat := Quat { qw : R; qx : R; qy : R; qz : R }.

Definition add3 (a b : vec3) := V3 (x3 a + x3 b) (y3 a + y3 b) (z3 a + z3 b).
Definition scale3 (k : R) (a : vec3) := V3 (k * x3 a) (k * y3 a) (k * z3 a).
Definition add4 (a b : vec4) := V4 (x4 a + x4 b) (y4 a + y4 b) (z4 a + z4 b) (w4 a + w4 b).
Definition scale4 (k : R) (a : vec4) := V4 (k * x4 a) (k * y4 a) (k * z4 a) (k * w4 a).
Definition sub4 (a b : vec4) := add4 a (scale4 (-1) b).
(** mathfu::mat4::Identity, mathfu::kAxisX4f … kAxisW4f *)
Definition identity4 : mat4 := M4 (V4 1 0 0 0) (V4 0 1 0 0) (V4 0 0 1 0) (V4 0 0 0 1).
(** mat4 * vec4, mat4 * mat4 *)
Definition mat_vec (m : mat4) (v : vec4) : vec4 :=
  add4 (add4 (scale4 (x4 v) (c0 m)) (scale4 (y4 v) (c1 m))) (add4 (scale4 (z4 v) (c2 m)) (scale4 (w4 v) (c3 m))).
Definition mmul (m n : mat4) : mat4 := M4 (mat_vec m (c0 n)) (mat_vec m (c1 n)) (mat_vec m (c2 n)) (mat_vec m (c3 n)).
(** mat3 * vec3 *)
Definition mat_vec3 (m : mat3) (v : vec3) : vec3 := add3 (scale3 (x3 v) (a0 m)) (add3 (scale3 (y3 v) (a1 m)) (scale3 (z3 v) (a2 m))).

(** mat4::ToAffineTransform, mat4::FromAffineTransform, AffineTransform::Identity *)
Definition drop4 (v : vec4) : vec3 := V3 (x4 v) (y4 v) (z4 v).
Definition with_w (v : vec3) (w : R) : vec4 := V4 (x3 v) (y3 v) (z3 v) w.
Definition to_affine (m : mat4) : affine := Aff (drop4 (c0 m)) (drop4 (c1 m)) (drop4 (c2 m)) (drop4 (c3 m)).
Definition from_affine (a : affine) : mat4 := M4 (with_w (b0 a) 0) (with_w (b1 a) 0) (with_w (b2 a) 0) (with_w (b3 a) 1).
Definition affine_identity : affine := to_affine identity4.

(** mat4::Transform *)
Definition transform (t : vec3) (r : mat3) (s : vec3) : mat4 :=
  M4 (with_w (scale3 (x3 s) (a0 r)) 0) (with_w (scale3 (y3 s) (a1 r)) 0) (with_w (scale3 (z3 s) (a2 r)) 0) (with_w t 1).
(** mat4::TranslationVector3D *)
Definition translation_of (m : mat4) : vec3 := drop4 (c3 m).

(** quat::identity, DotProduct, scaling of the components *)
Definition qidentity : quat := Quat 1 0 0 0.
Definition qdot (p q : quat) : R := qw p * qw q + qx p * qx q + qy p * qy q + qz p * qz q.
Definition qscale (k : R) (q : quat) : quat := Quat (k * qw q) (k * qx q) (k * qy q) (k * qz q).
Definition qadd (p q : quat) : quat := Quat (qw p + qw q) (qx p + qx q) (qy p + qy q) (qz p + qz q).
(** quat::Normalize: divides by the length; no result for the zero quaternion. *)
Definition qnormalize (q : quat) : option quat :=
  let l := sqrt (qdot q q) in if Reqb l 0 then None else Some (qscale (1 / l) q).
(** quat::ToMatrix *)
Definition to_matrix (q : quat) : mat3 :=
  M3 (V3 (1 - 2 * (qy q * qy q + qz q * qz q)) (2 * (qx q * qy q + qw q * qz q)) (2 * (qx q * qz q - qw q * qy q)))
     (V3 (2 * (qx q * qy q - qw q * qz q)) (1 - 2 * (qx q * qx q + qz q * qz q)) (2 * (qw q * qx q + qy q * qz q)))
     (V3 (2 * (qw q * qy q + qx q * qz q)) (2 * (qy q * qz q - qw q * qx q)) (1 - 2 * (qx q * qx q + qy q * qy q))).
