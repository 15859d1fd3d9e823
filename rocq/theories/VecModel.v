(** Model of parts of /repo/xo/geometry/vec3.h and quat.h and of /repo/xo/numerical/compare.h for T = float and T = double.
    Numbers are Flocq's binary floating-point numbers of any precision, rounded to nearest even; products are not fused with sums. *)
From Coq Require Import Bool ZArith.
From Flocq Require Import Core IEEE754.BinarySingleNaN.
From Verif Require Import Base DblModel.
Local Open Scope Z_scope.

Section Vectors.
  Context (prec emax : Z) (Hp : Prec_gt_0 prec) (He : Prec_lt_emax prec emax).
  Notation num := (binary_float prec emax).
  Notation add := (DblModel.add prec emax Hp He).
  Notation sub := (DblModel.sub prec emax Hp He).
  Notation mul := (DblModel.mul prec emax Hp He).
  Notation div := (DblModel.div prec emax Hp He).
  Notation const := (DblModel.const prec emax Hp He).
  Notation lt := (DblModel.lt prec emax).
  Notation le := (DblModel.le prec emax).
  (** std::sqrt *)
  Definition sqrt (a : num) : num := @Bsqrt prec emax Hp He mode_NE a.
  (** constants.h 19, 20 *)
  Definition epsilon : num := const 1 (1 - prec).
  Definition ample_epsilon : num := const 1 (4 - prec).
  (** math.h 17, 20 *)
  Definition abs (v : num) : num := if lt v (const 0 0) then Bopp v else v.
  Definition inv (v : num) : num := div (const 1 0) v.
  (** compare.h 10-11 *)
  Definition equal (v1 v2 e : num) : bool := le (abs (sub v1 v2)) (mul (abs v1) e).

  Record vec := Vec { vx : num; vy : num; vz : num }.
  (** vec3.h 13-14, 20-21 *)
  Definition vec_add (a b : vec) : vec := Vec (add (vx a) (vx b)) (add (vy a) (vy b)) (add (vz a) (vz b)).
  Definition vec_sub (a b : vec) : vec := Vec (sub (vx a) (vx b)) (sub (vy a) (vy b)) (sub (vz a) (vz b)).
  (** vec3.h 31-38 *)
  Definition vec_scale (v : vec) (s : num) : vec := Vec (mul (vx v) s) (mul (vy v) s) (mul (vz v) s).
  (** vec3.h 47-48 *)
  Definition vec_div (v : vec) (s : num) : vec := vec_scale v (inv s).
  (** vec3.h 73-74 *)
  Definition vec_squared_length (v : vec) : num := add (add (mul (vx v) (vx v)) (mul (vy v) (vy v))) (mul (vz v) (vz v)).
  (** vec3.h 69-70 *)
  Definition vec_length (v : vec) : num := sqrt (vec_squared_length v).
  (** vec3.h 81-82 *)
  Definition vec_is_normalized (v : vec) : bool := equal (vec_squared_length v) (const 1 0) ample_epsilon.
  (** vec3.h 85-86 *)
  Definition distance (a b : vec) : num := vec_length (vec_sub a b).
  (** vec3.h 104-105: the vector afterwards and the length *)
  Definition vec_normalize (v : vec) : vec * num :=
    let l := vec_length v in if lt epsilon l then (vec_div v l, l) else (v, l).
  (** vec3.h 112-113 *)
  Definition vec_normalized (v : vec) : vec := fst (vec_normalize v).
  (** vec3.h 123-124 *)
  Definition dot (a b : vec) : num := add (add (mul (vx a) (vx b)) (mul (vy a) (vy b))) (mul (vz a) (vz b)).
  (** vec3.h 151-152 *)
  Definition cross (a b : vec) : vec :=
    Vec (sub (mul (vy a) (vz b)) (mul (vz a) (vy b))) (sub (mul (vz a) (vx b)) (mul (vx a) (vz b))) (sub (mul (vx a) (vy b)) (mul (vy a) (vx b))).

  Record quat := Quat { qw : num; qx : num; qy : num; qz : num }.
  (** quat.h 18-24 *)
  Definition quat_mul (p q : quat) : quat := Quat
    (sub (sub (sub (mul (qw p) (qw q)) (mul (qx p) (qx q))) (mul (qy p) (qy q))) (mul (qz p) (qz q)))
    (sub (add (add (mul (qw p) (qx q)) (mul (qx p) (qw q))) (mul (qy p) (qz q))) (mul (qz p) (qy q)))
    (sub (add (add (mul (qw p) (qy q)) (mul (qy p) (qw q))) (mul (qz p) (qx q))) (mul (qx p) (qz q)))
    (sub (add (add (mul (qw p) (qz q)) (mul (qz p) (qw q))) (mul (qx p) (qy q))) (mul (qy p) (qx q))).
  (** quat.h 27-34 *)
  Definition rotate (q : quat) (v : vec) : vec :=
    let qv := Vec (qx q) (qy q) (qz q) in
    let uv := cross qv v in
    let uuv := cross qv uv in
    vec_add (vec_add v (vec_scale uv (mul (const 2 0) (qw q)))) (vec_scale uuv (const 2 0)).
  (** quat.h 40-41 *)
  Definition quat_scale (q : quat) (s : num) : quat := Quat (mul (qw q) s) (mul (qx q) s) (mul (qy q) s) (mul (qz q) s).
  (** quat.h 51-52 *)
  Definition quat_squared_length (q : quat) : num := add (add (add (mul (qw q) (qw q)) (mul (qx q) (qx q))) (mul (qy q) (qy q))) (mul (qz q) (qz q)).
  (** quat.h 44-45 *)
  Definition quat_length (q : quat) : num := sqrt (quat_squared_length q).
  (** quat.h 55-56 *)
  Definition quat_is_normalized (q : quat) : bool := le (Babs (sub (quat_squared_length q) (const 1 0))) ample_epsilon.
  (** quat.h 73-74, 77: the quaternion afterwards and the length *)
  Definition quat_normalize (q : quat) : quat * num := let l := quat_length q in (quat_scale q (inv l), l).
  Definition quat_normalized (q : quat) : quat := fst (quat_normalize q).
  (** quat.h 80-81 *)
  Definition quat_normalize_fast (q : quat) : quat := quat_scale q (div (const 2 0) (add (const 1 0) (quat_squared_length q))).
  (** quat.h 87-92 *)
  Definition quat_normalize_try_fast (tolerance : num) (q : quat) : quat :=
    let s := quat_squared_length q in
    if lt (Babs (sub (const 1 0) s)) tolerance then quat_scale q (div (const 2 0) (add (const 1 0) s))
    else quat_scale q (div (const 1 0) (sqrt s)).
End Vectors.
