(** Euler angles: three rotations about the main axes, one after the other. *)
From Coq Require Import List Arith Bool ZArith Reals.
From Verif Require Import Base GeoSpec.
Import ListNotations.
Local Open Scope R_scope.

Inductive euler_order := XYZ | XZY | YXZ | YZX | ZXY | ZYX.
(** the first, middle and last axis of an order *)
Definition axis_first (o : euler_order) : vec3 := match o with XYZ | XZY => e_x | YXZ | YZX => e_y | ZXY | ZYX => e_z end.
Definition axis_middle (o : euler_order) : vec3 := match o with YXZ | ZXY => e_x | XYZ | ZYX => e_y | XZY | YZX => e_z end.
Definition axis_last (o : euler_order) : vec3 := match o with YZX | ZYX => e_x | XZY | ZXY => e_y | XYZ | YXZ => e_z end.
(** the angle about a main axis *)
Definition angle_about (eu a : vec3) : R := dot eu a.
(** the rotation of an order: each axis turns with the earlier rotations, so the last one acts first *)
Definition turned (o : euler_order) (eu v : vec3) : vec3 :=
  rotated (axis_first o) (angle_about eu (axis_first o)) (rotated (axis_middle o) (angle_about eu (axis_middle o)) (rotated (axis_last o) (angle_about eu (axis_last o)) v)).
(** the two-argument arctangent: the angle of the point (x, y), in (-PI, PI]; at the origin it is zero (C standard, annex F) *)
Definition atan2_contract (atan2 : R -> R -> R) : Prop :=
  (forall r th, 0 < r -> - PI < th <= PI -> atan2 (r * sin th) (r * cos th) = th) /\ atan2 0 0 = 0.
(** [angle] is the direction of the point (x, y) *)
Definition direction (x y angle : R) : Prop := exists r, 0 <= r /\ x = r * cos angle /\ y = r * sin angle.
