(** Models of shape/aabb.h, the bounding boxes in shape/box.cpp and shape/sphere.h, geometry/segment.h, geometry/line.h and geometry/path_alg.h in /repo/xo; numbers are real numbers. The largest finite number (constants.h 12-13) and ample_epsilon (constants.h 20) are parameters. *)
From Coq Require Import List Arith Bool Reals.
From Verif Require Import Base GeoSpec NumModel StatModel GeoModel.
Import ListNotations.
Local Open Scope R_scope.

(** aabb.h 39-40 *)
Record aabb := Aabb { lower_bounds : vec3; upper_bounds : vec3 }.
(** math.h 55 and 58: the new value of the first argument *)
Definition set_if_smaller (a b : R) : R := if Rlt_dec b a then b else a.
Definition set_if_bigger (a b : R) : R := if Rlt_dec a b then b else a.
Section Limit.
  Context (largest : R).
  (** aabb.h 12-15; vec3_type.h diagonal *)
  Definition aabb_default : aabb := Aabb (Vec3 largest largest largest) (Vec3 (- largest) (- largest) (- largest)).
  (** aabb.h 16 *)
  Definition aabb_point (p : vec3) : aabb := Aabb p p.
  (** aabb.h 19-27 *)
  Definition aabb_add (b : aabb) (v : vec3) : aabb :=
    Aabb (Vec3 (set_if_smaller (vx (lower_bounds b)) (vx v)) (set_if_smaller (vy (lower_bounds b)) (vy v)) (set_if_smaller (vz (lower_bounds b)) (vz v)))
         (Vec3 (set_if_bigger (vx (upper_bounds b)) (vx v)) (set_if_bigger (vy (upper_bounds b)) (vy v)) (set_if_bigger (vz (upper_bounds b)) (vz v))).
  (** aabb.h 29-37 *)
  Definition aabb_join (b c : aabb) : aabb :=
    Aabb (Vec3 (set_if_smaller (vx (lower_bounds b)) (vx (lower_bounds c))) (set_if_smaller (vy (lower_bounds b)) (vy (lower_bounds c))) (set_if_smaller (vz (lower_bounds b)) (vz (lower_bounds c))))
         (Vec3 (set_if_bigger (vx (upper_bounds b)) (vx (upper_bounds c))) (set_if_bigger (vy (upper_bounds b)) (vy (upper_bounds c))) (set_if_bigger (vz (upper_bounds b)) (vz (upper_bounds c)))).
  (** box.cpp 50-64 *)
  Definition corners (h : vec3) : list vec3 :=
    [Vec3 (- vx h) (- vy h) (- vz h); Vec3 (vx h) (- vy h) (- vz h); Vec3 (- vx h) (vy h) (- vz h); Vec3 (vx h) (vy h) (- vz h);
     Vec3 (- vx h) (- vy h) (vz h); Vec3 (vx h) (- vy h) (vz h); Vec3 (- vx h) (vy h) (vz h); Vec3 (vx h) (vy h) (vz h)].
  (** box.cpp 14-21; a box is given by its half_dim_ *)
  Definition aabb_box (h : vec3) (t : transform) : aabb := fold_left (fun b c => aabb_add b (tf_apply t c)) (corners h) aabb_default.
  (** sphere.h 24-26 *)
  Definition aabb_sphere (radius : R) (t : transform) : aabb :=
    Aabb (vsub (t_p t) (Vec3 radius radius radius)) (vadd (t_p t) (Vec3 radius radius radius)).
End Limit.

(** segment.h 24-37 *)
Definition segment_distance (point p0 p1 : vec3) : outcome R :=
  let v := vsub p1 p0 in
  let w := vsub point p0 in
  let c1 := dot_product w v in
  if Rle_dec c1 0 then Ok (distance_v point p0)
  else
    let c2 := dot_product v v in
    if Rle_dec c2 c1 then Ok (distance_v point p1)
    else do b <- div_checked c1 c2; Ok (distance_v point (vadd p0 (vscale b v))).

Section Eps.
  Context (ample_epsilon : R).
  (** line.h 24-47 *)
  Definition closest_points (pos1 dir1 pos2 dir2 : vec3) : outcome (vec3 * vec3) :=
    let w := vsub pos1 pos2 in
    let a := dot_product dir1 dir1 in
    let b := dot_product dir1 dir2 in
    let c := dot_product dir2 dir2 in
    let d := dot_product dir1 w in
    let e := dot_product dir2 w in
    let D := a * c - b * b in
    do st <- (if Rlt_dec D ample_epsilon then
                do tc <- (if Rlt_dec c b then div_checked d b else div_checked e c); Ok (0, tc)
              else do sc <- div_checked (b * e - c * d) D; do tc <- div_checked (a * e - b * d) D; Ok (sc, tc));
    let '(sc, tc) := st in Ok (vadd pos1 (vscale sc dir1), vadd pos2 (vscale tc dir2)).
  (** line.h 50-53 *)
  Definition line_distance (pos1 dir1 pos2 dir2 : vec3) : outcome R :=
    do p <- closest_points pos1 dir1 pos2 dir2; Ok (distance_v (fst p) (snd p)).

  (** path_alg.h 8-17 *)
  Fixpoint path_loop (prev : vec3) (rest : list vec3) (len : R) : R :=
    match rest with [] => len | p :: rest => path_loop p rest (len + length_v (vsub p prev)) end.
  Definition path_length (path : list vec3) : outcome R :=
    match path with [] => Throw | p :: rest => Ok (path_loop p rest 0) end.
  (** path_alg.h 20-49: the new path and the index; [n] counts the iterations left *)
  Fixpoint insert_loop (n idx : nat) (path : list vec3) (insert_len : R) : outcome (list vec3 * nat) :=
    match n with
    | O => Ok (path, (length path - 1)%nat)
    | S n =>
        do cur <- vec_get path idx; do prev <- vec_get path (idx - 1);
        let svec := vsub cur prev in
        let slen := length_v svec in
        if equal_R insert_len slen ample_epsilon then Ok (path, idx)
        else if Rlt_dec insert_len slen then
          do f <- div_checked insert_len slen; Ok (list_insert path idx (vadd prev (vscale f svec)), idx)
        else insert_loop n (S idx) path (insert_len - slen)
    end.
  Definition insert_path_point (path : list vec3) (insert_len : R) : outcome (list vec3 * nat) :=
    let s := length path in
    if (2 <=? s)%nat then
      if less_than_or_equal insert_len 0 ample_epsilon then Ok (path, 0%nat)
      else insert_loop (s - 1) 1 path insert_len
    else Throw.
End Eps.
