(** Models of vec3.h, quat.h, mat33.h, transform.h, transform_srt.h and mirror_tools.h in /repo/xo/geometry; numbers are real numbers. The constants epsilon and ample_epsilon (numerical/constants.h 19-20) are parameters. *)
From Coq Require Import List Arith Bool ZArith Reals.
From Verif Require Import Base GeoSpec NumModel StatModel.
Import ListNotations.
Local Open Scope R_scope.

(** vec3.h 13-14, 20-21, 27-28, 31-38, 58-59 *)
Definition vadd (v1 v2 : vec3) : vec3 := Vec3 (vx v1 + vx v2) (vy v1 + vy v2) (vz v1 + vz v2).
Definition vsub (v1 v2 : vec3) : vec3 := Vec3 (vx v1 - vx v2) (vy v1 - vy v2) (vz v1 - vz v2).
Definition vneg (v : vec3) : vec3 := Vec3 (- vx v) (- vy v) (- vz v).
Definition vscale (s : R) (v : vec3) : vec3 := Vec3 (vx v * s) (vy v * s) (vz v * s).
Definition vmul (v1 v2 : vec3) : vec3 := Vec3 (vx v1 * vx v2) (vy v1 * vy v2) (vz v1 * vz v2).
(** vec3.h 47-48; inv is 1 / s *)
Definition vdiv (v : vec3) (s : R) : outcome vec3 := do ms <- div_checked 1 s; Ok (Vec3 (vx v * ms) (vy v * ms) (vz v * ms)).
(** vec3.h 69-74, 85-90 *)
Definition length_v (v : vec3) : R := sqrt (vx v * vx v + vy v * vy v + vz v * vz v).
Definition squared_length_v (v : vec3) : R := vx v * vx v + vy v * vy v + vz v * vz v.
Definition distance_v (v1 v2 : vec3) : R := length_v (vsub v1 v2).
Definition squared_distance_v (v1 v2 : vec3) : R := squared_length_v (vsub v1 v2).
(** vec3.h 123-124, 138-139, 151-152 *)
Definition dot_product (v1 v2 : vec3) : R := vx v1 * vx v2 + vy v1 * vy v2 + vz v1 * vz v2.
Definition projection (v1 v2 : vec3) : outcome vec3 := do f <- div_checked (dot_product v1 v2) (squared_length_v v2); Ok (vscale f v2).
Definition cross_product (v1 v2 : vec3) : vec3 := Vec3 (vy v1 * vz v2 - vz v1 * vy v2) (vz v1 * vx v2 - vx v1 * vz v2) (vx v1 * vy v2 - vy v1 * vx v2).
(** vec3_type.h 52-56 *)
Definition vzero : vec3 := Vec3 0 0 0.
Definition unit_x : vec3 := Vec3 1 0 0.

(** quat.h 18-24 *)
Definition qmul (q1 q2 : quat) : quat :=
  Quat (qw q1 * qw q2 - qx q1 * qx q2 - qy q1 * qy q2 - qz q1 * qz q2)
       (qw q1 * qx q2 + qx q1 * qw q2 + qy q1 * qz q2 - qz q1 * qy q2)
       (qw q1 * qy q2 + qy q1 * qw q2 + qz q1 * qx q2 - qx q1 * qz q2)
       (qw q1 * qz q2 + qz q1 * qw q2 + qx q1 * qy q2 - qy q1 * qx q2).
(** quat.h 27-34 *)
Definition qrot (q : quat) (v : vec3) : vec3 :=
  let qv := Vec3 (qx q) (qy q) (qz q) in
  let uv := cross_product qv v in
  let uuv := cross_product qv uv in
  let uv := vscale (2 * qw q) uv in
  let uuv := vscale 2 uuv in
  vadd (vadd v uv) uuv.
(** quat.h 40-41 *)
Definition qscale (q : quat) (s : R) : quat := Quat (qw q * s) (qx q * s) (qy q * s) (qz q * s).
(** quat.h 44-45, 51-52 *)
Definition length_q (q : quat) : R := sqrt (qw q * qw q + qx q * qx q + qy q * qy q + qz q * qz q).
Definition squared_length_q (q : quat) : R := qw q * qw q + qx q * qx q + qy q * qy q + qz q * qz q.
(** quat_type.h 42 *)
Definition qidentity : quat := Quat 1 0 0 0.
(** quat.h 73-77 *)
Definition normalize_q (q : quat) : outcome quat := let len := length_q q in do s <- div_checked 1 len; Ok (qscale q s).
(** quat.h 80-81 *)
Definition normalize_fast (q : quat) : quat := let sl := squared_length_q q in qscale q (2 / (1 + sl)).
(** quat.h 87-92 *)
Definition normalize_try_fast (epsilon : R) (q : quat) : outcome quat :=
  let slen := squared_length_q q in
  if Rlt_dec (Rabs (1 - slen)) epsilon then Ok (qscale q (2 / (1 + slen)))
  else do s <- div_checked 1 (sqrt slen); Ok (qscale q s).
(** quat.h 98 and, as operator-, 101 *)
Definition conjugate (q : quat) : quat := Quat (qw q) (- qx q) (- qy q) (- qz q).
(** quat.h 104-105 *)
Definition inverse (q : quat) : outcome quat := do f <- div_checked (-1) (squared_length_q q); Ok (Quat (qw q) (qx q * f) (qy q * f) (qz q * f)).
(** quat.h 108-109 *)
Definition positive (q : quat) : quat := if Rlt_dec (qw q) 0 then Quat (- qw q) (- qx q) (- qy q) (- qz q) else q.
(** quat.h 112-117; the angle is in radians, the assertion of a unit axis is for debug builds only *)
Definition quat_from_axis_angle (axis : vec3) (ang : R) : quat :=
  let ha := 0.5 * ang in let hs := sin ha in Quat (cos ha) (hs * vx axis) (hs * vy axis) (hs * vz axis).
(** quat.h 143-144 *)
Definition quat_from_quats (source target : quat) : quat := qmul (conjugate source) target.
(** copysign over reals; the sign of zero is positive *)
Definition copysign (v s : R) : R := if Rlt_dec s 0 then - Rabs v else Rabs v.
Section Eps.
  Context (epsilon ample_epsilon : R).
  (** vec3.h 103-104 and 111-112 *)
  Definition normalize_v (v : vec3) : outcome vec3 := let l := length_v v in if Rlt_dec epsilon l then vdiv v l else Ok v.
  (** quat.h 120-129 *)
  Definition quat_from_rotation_vector (v : vec3) : outcome quat :=
    let l := length_v v in
    if Rlt_dec epsilon l then
      do v <- vdiv v l;
      let ha := 0.5 * l in let hs := sin ha in Ok (Quat (cos ha) (hs * vx v) (hs * vy v) (hs * vz v))
    else Ok qidentity.
  (** quat.h 132-140 *)
  Definition quat_from_directions (source target : vec3) : outcome quat :=
    let axis := cross_product source target in
    let d := dot_product source target in
    if Rlt_dec d (- (1) + ample_epsilon) then Ok (Quat 0 1 0 0)
    else normalize_q (Quat (d + 1) (vx axis) (vy axis) (vz axis)).
  (** quat.h 147-154 *)
  Definition rotation_vector_from_quat (q : quat) : outcome vec3 :=
    let l := sqrt (qx q * qx q + qy q * qy q + qz q * qz q) in
    if Rlt_dec ample_epsilon l then if Rlt_dec (qw q) 1 then
      do f <- div_checked (2 * acos (qw q)) l; Ok (Vec3 (f * qx q) (f * qy q) (f * qz q))
    else Ok vzero else Ok vzero.
  (** quat.h 168-175 *)
  Definition axis_angle_from_quat (q : quat) : outcome (vec3 * R) :=
    let l := sqrt (qx q * qx q + qy q * qy q + qz q * qz q) in
    if Rlt_dec ample_epsilon l then if Rlt_dec (qw q) 1 then
      do s <- div_checked 1 l; Ok (Vec3 (s * qx q) (s * qy q) (s * qz q), 2 * acos (qw q))
    else Ok (unit_x, 0) else Ok (unit_x, 0).
  (** quat.h 186-193 *)
  Definition quat_angle_around_axis (q : quat) (a : vec3) : outcome (quat * R) :=
    let d := dot_product (Vec3 (qx q) (qy q) (qz q)) a in
    let qa := Quat (qw q) (d * vx a) (d * vy a) (d * vz a) in
    let l := length_q qa in
    do qa <- (if Rlt_dec epsilon l then do s <- div_checked 1 l; Ok (qscale qa s) else Ok (Quat 1 (qx qa) (qy qa) (qz qa)));
    Ok (qa, copysign (2 * acos (qw qa)) d).
  (** quat.h 197-204 *)
  Definition rotation_around_axis (q : quat) (a : vec3) : outcome R :=
    let d := dot_product (Vec3 (qx q) (qy q) (qz q)) a in
    let qa := Quat (qw q) (d * vx a) (d * vy a) (d * vz a) in
    let l := length_q qa in
    if Rlt_dec ample_epsilon l then do c <- div_checked (qw qa) l; Ok (copysign (2 * acos c) d) else Ok 0.
End Eps.
(** quat.h 208-222 *)
Definition rotation_around_x (q : quat) : outcome R := do c <- div_checked (qw q) (sqrt (qw q * qw q + qx q * qx q)); Ok (copysign (2 * acos c) (qx q)).
Definition rotation_around_y (q : quat) : outcome R := do c <- div_checked (qw q) (sqrt (qw q * qw q + qy q * qy q)); Ok (copysign (2 * acos c) (qy q)).
Definition rotation_around_z (q : quat) : outcome R := do c <- div_checked (qw q) (sqrt (qw q * qw q + qz q * qz q)); Ok (copysign (2 * acos c) (qz q)).
(** quat.h 229-235, 237-243, 245-251 *)
Definition local_x_axis (q : quat) : vec3 :=
  let ty := qy q + qy q in let tz := qz q + qz q in
  let twy := ty * qw q in let twz := tz * qw q in let txy := ty * qx q in let txz := tz * qx q in let tyy := ty * qy q in let tzz := tz * qz q in
  Vec3 (1 - (tyy + tzz)) (txy + twz) (txz - twy).
Definition local_y_axis (q : quat) : vec3 :=
  let tx := qx q + qx q in let ty := qy q + qy q in let tz := qz q + qz q in
  let twx := tx * qw q in let twz := tz * qw q in let txx := tx * qx q in let txy := ty * qx q in let tyz := tz * qy q in let tzz := tz * qz q in
  Vec3 (txy - twz) (1 - (txx + tzz)) (tyz + twx).
Definition local_z_axis (q : quat) : vec3 :=
  let tx := qx q + qx q in let ty := qy q + qy q in let tz := qz q + qz q in
  let twx := tx * qw q in let twy := ty * qw q in let txx := tx * qx q in let txz := tz * qx q in let tyy := ty * qy q in let tyz := tz * qy q in
  Vec3 (txz + twy) (tyz - twx) (1 - (txx + tyy)).
(** quat.h 254-263; the axes as a triple *)
Definition axes_from_quat (q : quat) : vec3 * vec3 * vec3 :=
  let tx := qx q + qx q in let ty := qy q + qy q in let tz := qz q + qz q in
  let twx := tx * qw q in let twy := ty * qw q in let twz := tz * qw q in
  let txx := tx * qx q in let txy := ty * qx q in let txz := tz * qx q in
  let tyy := ty * qy q in let tyz := tz * qy q in let tzz := tz * qz q in
  (Vec3 (1 - (tyy + tzz)) (txy + twz) (txz - twy), Vec3 (txy - twz) (1 - (txx + tzz)) (tyz + twx), Vec3 (txz + twy) (tyz - twx) (1 - (txx + tyy))).

(** mat33.h 10-11 *)
Definition mat33_from_axes (x y z : vec3) : mat33 := Mat33 (vx x) (vx y) (vx z) (vy x) (vy y) (vy z) (vz x) (vz y) (vz z).
(** mat33_type.h 20-21: m[row][col] *)
Definition mat_at (m : mat33) (row col : nat) : R :=
  match row, col with
  | 0%nat, 0%nat => e00 m | 0%nat, 1%nat => e01 m | 0%nat, _ => e02 m
  | 1%nat, 0%nat => e10 m | 1%nat, 1%nat => e11 m | 1%nat, _ => e12 m
  | _, 0%nat => e20 m | _, 1%nat => e21 m | _, _ => e22 m
  end.
(** (&q.x)[i] = v *)
Definition set_xyz (q : quat) (i : nat) (v : R) : quat := match i with 0%nat => Quat (qw q) v (qy q) (qz q) | 1%nat => Quat (qw q) (qx q) v (qz q) | _ => Quat (qw q) (qx q) (qy q) v end.
(** mat33.h 18-45. As written it does not compile when used, because operator[] is not const; this is what it would do. *)
Definition quat_from_mat33 (m : mat33) : outcome quat :=
  let t := e00 m + e11 m + e22 m in
  if Rlt_dec 0 t then
    let root := sqrt (t + 1) in
    let w := 0.5 * root in
    do root <- div_checked 0.5 root;
    Ok (Quat w ((e21 m - e12 m) * root) ((mat_at m 0 2 - mat_at m 2 0) * root) ((mat_at m 1 0 - mat_at m 0 1) * root))
  else
    let i := if Rlt_dec (mat_at m 0 0) (mat_at m 1 1) then 1%nat else 0%nat in
    let i := if Rlt_dec (mat_at m i i) (mat_at m 2 2) then 2%nat else i in
    let j := ((i + 1) mod 3)%nat in
    let k := ((j + 1) mod 3)%nat in
    let root := sqrt (mat_at m i i - mat_at m j j - mat_at m k k + 1) in
    let q := set_xyz qidentity i (0.5 * root) in
    do root <- div_checked 0.5 root;
    let q := Quat ((mat_at m k j - mat_at m j k) * root) (qx q) (qy q) (qz q) in
    let q := set_xyz q j ((mat_at m j i + mat_at m i j) * root) in
    Ok (set_xyz q k ((mat_at m k i + mat_at m i k) * root)).

(** transform.h 10-42 *)
Record transform := Tf { t_p : vec3; t_q : quat }.
Definition tf_mul (a t : transform) : transform := Tf (vadd (t_p a) (qrot (t_q a) (t_p t))) (qmul (t_q a) (t_q t)).
Definition tf_inv (a : transform) : transform := let iq := conjugate (t_q a) in Tf (qrot iq (vneg (t_p a))) iq.
Definition tf_inv_trans (a t : transform) : transform := Tf (qrot (conjugate (t_q a)) (vsub (t_p t) (t_p a))) (qmul (conjugate (t_q a)) (t_q t)).
Definition tf_apply (a : transform) (v : vec3) : vec3 := vadd (t_p a) (qrot (t_q a) v).
Definition tf_inv_apply (a : transform) (v : vec3) : vec3 := qrot (conjugate (t_q a)) (vsub v (t_p a)).
Definition tf_apply_q (a : transform) (o : quat) : quat := qmul (t_q a) o.
Definition tf_inv_apply_q (a : transform) (o : quat) : quat := qmul (conjugate (t_q a)) o.
Definition tf_identity : transform := Tf vzero qidentity.

(** transform_srt.h 12-41; the constructors leave the scale at its default, one *)
Record transform_srt := Srt { s_s : vec3; s_q : quat; s_p : vec3 }.
Definition srt (pos : vec3) (ori : quat) : transform_srt := Srt (Vec3 1 1 1) ori pos.
Definition srt_mul (a t : transform_srt) : transform_srt := srt (vadd (s_p a) (qrot (s_q a) (s_p t))) (qmul (s_q a) (s_q t)).
Definition srt_inv (a : transform_srt) : transform_srt := let iq := conjugate (s_q a) in srt (qrot iq (vneg (s_p a))) iq.
Definition srt_apply (a : transform_srt) (v : vec3) : vec3 := vadd (s_p a) (qrot (s_q a) (vmul (s_s a) v)).

(** mirror_tools.h 15-17, 20-23, 26-29, 32-36, 39-42, 45-48 *)
Definition mirror_vec (v : vec3) : vec3 := Vec3 (vx v) (vy v) (- vz v).
Definition mirror_axis (v : vec3) : vec3 := Vec3 (- vx v) (- vy v) (vz v).
Definition mirror_quat (q : quat) : quat := Quat (qw q) (- qx q) (- qy q) (qz q).
Definition mirror_bounds (b : R * R) : R * R := let upper := - fst b in (- snd b, upper).
Definition mirror_transform (t : transform) : transform := Tf (mirror_vec (t_p t)) (mirror_quat (t_q t)).
Definition mirror_limits (l : (R * R) * (R * R) * (R * R)) : (R * R) * (R * R) * (R * R) := let '(x, y, z) := l in (mirror_bounds x, mirror_bounds y, z).
