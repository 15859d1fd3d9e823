(** Models of the shapes in /repo/xo/shape: sphere.h, box.h, box.cpp, cylinder.h, capsule.h, cone.h, plane.h, shape.h and shape_tools.h; numbers are real numbers. *)
From Coq Require Import List Reals.
From Verif Require Import Base GeoSpec NumModel StatModel GeoModel ShpModel.
Import ListNotations.
Local Open Scope R_scope.

(** shape.h: the variant of the six shapes; sphere.h 12-18, box.h 10-17, cylinder.h 9-16, capsule.h 9-16, cone.h 9-16, plane.h 11-17 *)
Inductive shape := Sphere (radius : R) | Box (half_dim : vec3) | Cylinder (radius height : R) | Capsule (radius height : R) | Cone (radius height : R) | Plane (normal : vec3).
(** box.h 19-21 *)
Definition make_box (x y z : R) : shape := Box (Vec3 (0.5 * x) (0.5 * y) (0.5 * z)).
Definition squared (v : R) : R := v * v.
Definition cubed (v : R) : R := v * v * v.
(** shape.h 40-42 with sphere.h 20-22, box.cpp 9-12, cylinder.h 18-20, capsule.h 18-20, cone.h 18-20, plane.h 19 *)
Definition volume (s : shape) : R :=
  match s with
  | Sphere r => 4 / 3 * PI * cubed r
  | Box h => 8 * vx h * vy h * vz h
  | Cylinder r h => PI * squared r * h
  | Capsule r h => PI * squared r * (4 / 3 * r + h)
  | Cone r h => PI * squared r * h / 3
  | Plane _ => 0
  end.
(** shape.h 44-46 with sphere.h 28-30, box.cpp 23-26, cylinder.h 26-28, capsule.h 22-24, cone.h 22-24, plane.h 21 *)
Definition dim (s : shape) : outcome vec3 :=
  match s with
  | Sphere r => Ok (Vec3 (2 * r) (2 * r) (2 * r))
  | Box h => Ok (vscale 2 h)
  | Cylinder r h | Capsule r h | Cone r h => Ok (Vec3 (2 * r) h (2 * r))
  | Plane _ => Throw
  end.
(** shape.h 48-50 with cylinder.h 22-24, capsule.h 26-28, cone.h 26-28, plane.h 20; ShpModel for boxes and spheres *)
Definition aabb_shape (largest : R) (s : shape) (t : transform) : outcome aabb :=
  match s with Sphere r => Ok (aabb_sphere r t) | Box h => Ok (aabb_box largest h t) | _ => Throw end.
(** shape.h 52-54 with sphere.h 32-34, box.cpp 28-36, cylinder.h 30-36, capsule.h 30-43, cone.h 30-32, plane.h 22 *)
Definition inertia (s : shape) (density : R) : outcome vec3 :=
  match s with
  | Sphere r => let i := 2 / 5 * volume s * density * squared r in Ok (Vec3 i i i)
  | Box h =>
      let m := density * volume s in
      Ok (Vec3 (m / 3 * (squared (vy h) + squared (vz h))) (m / 3 * (squared (vx h) + squared (vz h))) (m / 3 * (squared (vx h) + squared (vy h))))
  | Cylinder r h =>
      let m := density * volume s in
      let i := m / 12 * (3 * squared r + squared h) in
      Ok (Vec3 i (1 / 2 * m * squared r) i)
  | Capsule r h =>
      let r2 := r * r in
      let r3 := r2 * r in
      let m1 := PI * r2 * h * density in
      let m2 := 4 / 3 * PI * r3 * density in
      let Ia := m1 * (1 / 4 * r2 + 1 / 12 * m1 * h * h) + m2 * (2 / 5 * r2 + 3 / 8 * r * h + 1 / 4 * h * h) in
      let Ib := (m1 * (1 / 2) + m2 * (2 / 5)) * r2 in
      Ok (Vec3 Ia Ib Ia)
  | Cone _ _ => Throw
  | Plane _ => Ok vzero
  end.
(** shape.h 56-60 with sphere.h 36-38, box.cpp 38-41, cylinder.h 38-41, capsule.h 45-48, cone.h 34-37, plane.h 23 *)
Definition scaled (s : shape) (f : R) : shape :=
  match s with
  | Sphere r => Sphere (r * f)
  | Box h => Box (vscale f h)
  | Cylinder r h => Cylinder (r * f) (h * f)
  | Capsule r h => Capsule (r * f) (h * f)
  | Cone r h => Cone (r * f) (h * f)
  | Plane n => Plane n
  end.
Section Cbrt.
  (** std::cbrt *)
  Context (cbrt : R -> R).
  (** shape.h 62-66 with sphere.h 40-42, box.cpp 43-48, cylinder.h 43-46, capsule.h 50-53, cone.h 39-42, plane.h 24 *)
  Definition scaled_by (s : shape) (v : vec3) : shape :=
    match s with
    | Sphere r => Sphere (r * cbrt (vx v * vy v * vz v))
    | Box h => Box (vmul h v)
    | Cylinder r h => Cylinder (r * sqrt (vx v * vz v)) (h * vy v)
    | Capsule r h => Capsule (r * sqrt (vx v * vz v)) (h * vy v)
    | Cone r h => Cone (r * sqrt (vx v * vz v)) (h * vy v)
    | Plane n => Plane n
    end.
End Cbrt.
(** shape.h 77-80 *)
Definition is_valid (s : shape) : bool := match s with Sphere r => if Req_EM_T r 0 then false else true | _ => true end.
(** capsule.h 55-57 *)
Definition center_positions (r h : R) (t : transform) : vec3 * vec3 := (t_p t, vadd (t_p t) (vscale h (local_y_axis (t_q t)))).

(** shape_tools.h 9-15 *)
Definition plane_intersection (pos dir normal : vec3) (t : transform) : outcome vec3 :=
  let delta_pos := vsub pos (t_p t) in
  let plane_normal := qrot (t_q t) normal in
  let p1 := dot_product delta_pos plane_normal in
  let p2 := dot_product dir plane_normal in
  do f <- div_checked p1 p2; Ok (vsub pos (vscale f dir)).
(** The quotient of a half size by the absolute value of a direction, as in shape_tools.h 19: with divisor zero it is infinite for a positive half size, here [None]; a half size that is not positive is then left undefined. *)
Definition extent (a b : R) : outcome (option R) :=
  if Req_EM_T b 0 then if Rlt_dec 0 a then Ok None else UB else Ok (Some (a / Rabs b)).
(** math.h min, on numbers or infinity *)
Definition min_inf (a b : option R) : option R :=
  match a, b with Some x, Some y => Some (if Rlt_dec x y then x else y) | Some x, None => Some x | None, y => y end.
(** shape_tools.h 17-47; an infinite result is left undefined *)
Definition distance_from_center (s : shape) (dir : vec3) : outcome R :=
  match s with
  | Sphere r => Ok r
  | Box h =>
      do x <- extent (vx h) (vx dir); do y <- extent (vy h) (vy dir); do z <- extent (vz h) (vz dir);
      match min_inf x (min_inf y z) with Some d => Ok d | None => UB end
  | Cylinder r h =>
      let hh := 1 / 2 * h in
      let vxz := sqrt (vx dir * vx dir + vz dir * vz dir) in
      if Rlt_dec (hh * vxz) (Rabs (vy dir) * r) then Ok (sqrt (hh * hh + vxz * vxz)) else div_checked r vxz
  | Capsule r h =>
      let hh := 1 / 2 * h in
      let vxz := sqrt (vx dir * vx dir + vz dir * vz dir) in
      if Rlt_dec (hh * vxz) (Rabs (vy dir) * r) then
        let b := 2 * vy dir * - copysign hh (vy dir) in
        let c := hh * hh - r * r in
        let det := b * b - 4 * c in
        let sd := sqrt det in
        Ok (Rmax ((- b + sd) / 2) ((- b - sd) / 2))
      else div_checked r vxz
  | Cone _ _ => Throw
  | Plane _ => Ok 0
  end.
(** shape_tools.h 49-51 *)
Definition intersection_from_center (s : shape) (dir : vec3) : outcome vec3 := do d <- distance_from_center s dir; Ok (vscale d dir).
