(** Geometry: vectors, rotations and reflections; independent of the models. *)
From Coq Require Import List Arith Bool ZArith Reals.
From Verif Require Import Base.
Import ListNotations.
Local Open Scope R_scope.

Record vec3 := Vec3 { vx : R; vy : R; vz : R }.
Record quat := Quat { qw : R; qx : R; qy : R; qz : R }.
Record mat33 := Mat33 { e00 : R; e01 : R; e02 : R; e10 : R; e11 : R; e12 : R; e20 : R; e21 : R; e22 : R }.
(** sum, multiple, inner and outer product *)
Definition plus (u v : vec3) : vec3 := Vec3 (vx u + vx v) (vy u + vy v) (vz u + vz v).
Definition times (s : R) (v : vec3) : vec3 := Vec3 (s * vx v) (s * vy v) (s * vz v).
Definition minus (u v : vec3) : vec3 := Vec3 (vx u - vx v) (vy u - vy v) (vz u - vz v).
Definition dot (u v : vec3) : R := vx u * vx v + vy u * vy v + vz u * vz v.
Definition cross (u v : vec3) : vec3 := Vec3 (vy u * vz v - vz u * vy v) (vz u * vx v - vx u * vz v) (vx u * vy v - vy u * vx v).
Definition norm (v : vec3) : R := sqrt (dot v v).
Definition apart (u v : vec3) : R := norm (minus u v).
Definition origin : vec3 := Vec3 0 0 0.
Definition e_x : vec3 := Vec3 1 0 0.
Definition e_y : vec3 := Vec3 0 1 0.
Definition e_z : vec3 := Vec3 0 0 1.
Definition qnorm2 (q : quat) : R := qw q * qw q + qx q * qx q + qy q * qy q + qz q * qz q.
Definition unit_quat (q : quat) : Prop := qnorm2 q = 1.
Definition unit_vec (v : vec3) : Prop := dot v v = 1.
(** the same rotation: equal or opposite *)
Definition opposite (q : quat) : quat := Quat (- qw q) (- qx q) (- qy q) (- qz q).
Definition same_up_to_sign (p q : quat) : Prop := p = q \/ p = opposite q.
(** rotation of [v] by [angle] about the unit axis [a] (Rodrigues) *)
Definition rotated (a : vec3) (angle : R) (v : vec3) : vec3 :=
  plus (plus (times (cos angle) v) (times (sin angle) (cross a v))) (times ((1 - cos angle) * dot a v) a).
(** a map of space that keeps lengths, angles and orientation *)
Definition rigid_rotation (f : vec3 -> vec3) : Prop :=
  (forall u v, f (plus u v) = plus (f u) (f v)) /\ (forall s v, f (times s v) = times s (f v)) /\
  (forall u v, dot (f u) (f v) = dot u v) /\ (forall u v, f (cross u v) = cross (f u) (f v)).
(** reflection in the plane z = 0 *)
Definition reflected (v : vec3) : vec3 := Vec3 (vx v) (vy v) (- vz v).
Definition mat_times (m : mat33) (v : vec3) : vec3 :=
  Vec3 (e00 m * vx v + e01 m * vy v + e02 m * vz v) (e10 m * vx v + e11 m * vy v + e12 m * vz v) (e20 m * vx v + e21 m * vy v + e22 m * vz v).
(** three axes that form a right-handed orthonormal frame *)
Definition frame (x y z : vec3) : Prop := unit_vec x /\ unit_vec y /\ dot x y = 0 /\ z = cross x y.
(** the part of a rotation about [a]: the length of the quaternion after dropping what is perpendicular to [a] *)
Definition twist_len (q : quat) (a : vec3) : R := sqrt (qw q * qw q + dot (Vec3 (qx q) (qy q) (qz q)) a * dot (Vec3 (qx q) (qy q) (qz q)) a).
