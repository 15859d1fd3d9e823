(** Models of the Euler angle functions of /repo/xo/geometry/quat.h, of angle_type.h and of angle.h; numbers are real numbers, angles are in radians unless said otherwise. *)
From Coq Require Import List Arith Bool ZArith Reals.
From Verif Require Import Base GeoSpec GeoModel EulSpec.
Import ListNotations.
Local Open Scope R_scope.

(** quat.h 265-268, 270-273, 275-278 *)
Definition quat_from_x_angle (a : R) : quat := let ha := 0.5 * a in Quat (cos ha) (sin ha) 0 0.
Definition quat_from_y_angle (a : R) : quat := let ha := 0.5 * a in Quat (cos ha) 0 (sin ha) 0.
Definition quat_from_z_angle (a : R) : quat := let ha := 0.5 * a in Quat (cos ha) 0 0 (sin ha).
(** quat.h 282-299 and the switch 302-312 *)
Definition quat_from_euler_xyz (eu : vec3) : quat := qmul (qmul (quat_from_x_angle (vx eu)) (quat_from_y_angle (vy eu))) (quat_from_z_angle (vz eu)).
Definition quat_from_euler_xzy (eu : vec3) : quat := qmul (qmul (quat_from_x_angle (vx eu)) (quat_from_z_angle (vz eu))) (quat_from_y_angle (vy eu)).
Definition quat_from_euler_yxz (eu : vec3) : quat := qmul (qmul (quat_from_y_angle (vy eu)) (quat_from_x_angle (vx eu))) (quat_from_z_angle (vz eu)).
Definition quat_from_euler_yzx (eu : vec3) : quat := qmul (qmul (quat_from_y_angle (vy eu)) (quat_from_z_angle (vz eu))) (quat_from_x_angle (vx eu)).
Definition quat_from_euler_zxy (eu : vec3) : quat := qmul (qmul (quat_from_z_angle (vz eu)) (quat_from_x_angle (vx eu))) (quat_from_y_angle (vy eu)).
Definition quat_from_euler_zyx (eu : vec3) : quat := qmul (qmul (quat_from_z_angle (vz eu)) (quat_from_y_angle (vy eu))) (quat_from_x_angle (vx eu)).
Definition quat_from_euler (eu : vec3) (eo : euler_order) : quat :=
  match eo with XYZ => quat_from_euler_xyz eu | XZY => quat_from_euler_xzy eu | YXZ => quat_from_euler_yxz eu | YZX => quat_from_euler_yzx eu | ZXY => quat_from_euler_zxy eu | ZYX => quat_from_euler_zyx eu end.
Section Atan.
  Context (atan2 : R -> R -> R).
  (** quat.h 339-346 *)
  Definition euler_xyz_from_quat (q : quat) : vec3 := let w := qw q in let x := qx q in let y := qy q in let z := qz q in
    Vec3 (atan2 (- (2) * (y * z - w * x)) (w * w - x * x - y * y + z * z)) (asin (2 * (x * z + w * y))) (atan2 (- (2) * (x * y - w * z)) (w * w + x * x - y * y - z * z)).
  (** quat.h 348-355 *)
  Definition euler_xzy_from_quat (q : quat) : vec3 := let w := qw q in let x := qx q in let y := qy q in let z := qz q in
    Vec3 (atan2 (2 * (y * z + w * x)) (w * w - x * x + y * y - z * z)) (atan2 (2 * (x * z + w * y)) (w * w + x * x - y * y - z * z)) (asin (- (2) * (x * y - w * z))).
  (** quat.h 357-364 *)
  Definition euler_yxz_from_quat (q : quat) : vec3 := let w := qw q in let x := qx q in let y := qy q in let z := qz q in
    Vec3 (asin (- (2) * (y * z - w * x))) (atan2 (2 * (x * z + w * y)) (w * w - x * x - y * y + z * z)) (atan2 (2 * (x * y + w * z)) (w * w - x * x + y * y - z * z)).
  (** quat.h 366-373 *)
  Definition euler_yzx_from_quat (q : quat) : vec3 := let w := qw q in let x := qx q in let y := qy q in let z := qz q in
    Vec3 (atan2 (- (2) * (y * z - w * x)) (w * w - x * x + y * y - z * z)) (atan2 (- (2) * (x * z - w * y)) (w * w + x * x - y * y - z * z)) (asin (2 * (x * y + w * z))).
  (** quat.h 375-382 *)
  Definition euler_zxy_from_quat (q : quat) : vec3 := let w := qw q in let x := qx q in let y := qy q in let z := qz q in
    Vec3 (asin (2 * (y * z + w * x))) (atan2 (- (2) * (x * z - w * y)) (w * w - x * x - y * y + z * z)) (atan2 (- (2) * (x * y - w * z)) (w * w - x * x + y * y - z * z)).
  (** quat.h 384-391 *)
  Definition euler_zyx_from_quat (q : quat) : vec3 := let w := qw q in let x := qx q in let y := qy q in let z := qz q in
    Vec3 (atan2 (2 * (y * z + w * x)) (w * w - x * x - y * y + z * z)) (asin (- (2) * (x * z - w * y))) (atan2 (2 * (x * y + w * z)) (w * w + x * x - y * y - z * z)).
  (** quat.h 394-407 *)
  Definition euler_from_quat (q : quat) (eo : euler_order) : vec3 :=
    match eo with XYZ => euler_xyz_from_quat q | XZY => euler_xzy_from_quat q | YXZ => euler_yxz_from_quat q | YZX => euler_yzx_from_quat q | ZXY => euler_zxy_from_quat q | ZYX => euler_zyx_from_quat q end.
  (** quat.h 319-323, 326-330, 333-337 *)
  Definition pitch (q : quat) : R := let tx := 2 * qx q in let tz := 2 * qz q in
    let twx := tx * qw q in let txx := tx * qx q in let tyz := tz * qy q in let tzz := tz * qz q in atan2 (tyz + twx) (1 - (txx + tzz)).
  Definition yaw (q : quat) : R := let tx := 2 * qx q in let ty := 2 * qy q in let tz := 2 * qz q in
    let twy := ty * qw q in let txx := tx * qx q in let txz := tz * qx q in let tyy := ty * qy q in atan2 (txz + twy) (1 - (txx + tyy)).
  Definition roll (q : quat) : R := let ty := 2 * qy q in let tz := 2 * qz q in
    let twz := tz * qw q in let txy := ty * qx q in let tyy := ty * qy q in let tzz := tz * qz q in atan2 (txy + twz) (1 - (tyy + tzz)).
End Atan.
(** angle_type.h 8, 9; deg_value and rad_value (34-35, 60-61) multiply by the same constants *)
Definition rad_to_deg (v : R) : R := 57.295779513082320877 * v.
Definition deg_to_rad (v : R) : R := 0.017453292519943295769 * v.
(** angle.h 19-21 *)
Definition vec3_from_polar (radius inc azi : R) : vec3 := Vec3 (radius * sin inc * sin azi) (radius * cos inc) (radius * sin inc * cos azi).
