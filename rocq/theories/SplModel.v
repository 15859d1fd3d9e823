(** Model of geometry/catmull_rom.h in /repo/xo, for points in space; numbers are real numbers. *)
From Coq Require Import List Arith Bool Reals.
From Verif Require Import Base GeoSpec NumModel StatModel GeoModel.
Import ListNotations.
Local Open Scope R_scope.

(** catmull_rom.h 11-16 and 20-21 *)
Record segment := Seg { seg_a : vec3; seg_b : vec3; seg_c : vec3; seg_d : vec3 }.
Definition make_segment (p0 p1 p2 p3 : vec3) : segment :=
  Seg (vscale 2 p1) (vadd (vneg p0) p2) (vsub (vadd (vsub (vscale 2 p0) (vscale 5 p1)) (vscale 4 p2)) p3) (vadd (vsub (vadd (vneg p0) (vscale 3 p1)) (vscale 3 p2)) p3).
(** catmull_rom.h 18 *)
Definition seg_at (s : segment) (t : R) : vec3 :=
  vscale (1 / 2) (vadd (vadd (vadd (seg_a s) (vscale t (seg_b s))) (vscale t (vscale t (seg_c s)))) (vscale t (vscale t (vscale t (seg_d s))))).

Section Alpha.
  (** pow *)
  Context (pow : R -> R -> R).
  (** catmull_rom.h 27-33 and 47-48: the four times; t0 is zero *)
  Definition alpha_times (p0 p1 p2 p3 : vec3) (alpha : R) : R * R * R :=
    let t1 := pow (distance_v p0 p1) alpha in
    let t2 := t1 + pow (distance_v p1 p2) alpha in
    let t3 := t2 + pow (distance_v p2 p3) alpha in (t1, t2, t3).
  (** catmull_rom.h 38-43: one mixing step, ( y - t ) / ( y - x ) * p + ( t - x ) / ( y - x ) * q *)
  Definition mix (x y t : R) (p q : vec3) : outcome vec3 :=
    do f <- div_checked (y - t) (y - x); do g <- div_checked (t - x) (y - x); Ok (vadd (vscale f p) (vscale g q)).
  (** catmull_rom.h 35-44 *)
  Definition alpha_at (p0 p1 p2 p3 : vec3) (alpha t : R) : outcome vec3 :=
    let '(t1, t2, t3) := alpha_times p0 p1 p2 p3 alpha in
    let t0 := 0 in
    let t := t1 + t * (t2 - t1) in
    do A1 <- mix t0 t1 t p0 p1; do A2 <- mix t1 t2 t p1 p2; do A3 <- mix t2 t3 t p2 p3;
    do B1 <- mix t0 t2 t A1 A2; do B2 <- mix t1 t3 t A2 A3;
    mix t1 t2 t B1 B2.
End Alpha.

(** catmull_rom.h 51-62; [i] counts the iterations done, [n] those left *)
Fixpoint length_loop (spline : R -> vec3) (t0 t1 : R) (steps i n : nat) (pos : vec3) (dist : R) : R :=
  match n with
  | O => dist
  | S n => let new_pos := spline (t0 + (t1 - t0) * INR (S i) / INR steps) in length_loop spline t0 t1 steps (S i) n new_pos (dist + distance_v pos new_pos)
  end.
Definition compute_spline_length (spline : R -> vec3) (t0 t1 : R) (steps : nat) : R := length_loop spline t0 t1 steps 0 steps (spline t0) 0.

(** catmull_rom.h 68-75 and 91-92; the argument alpha is not used *)
Record spline := Spline { sp_segments : list segment; sp_times : list R }.
Fixpoint segment_loop (pts : list vec3) (n i : nat) : outcome (list segment) :=
  match n with
  | O => Ok []
  | S n =>
      do p0 <- vec_get pts i; do p1 <- vec_get pts (i + 1); do p2 <- vec_get pts (i + 2); do p3 <- vec_get pts (i + 3);
      do rest <- segment_loop pts n (S i); Ok (make_segment p0 p1 p2 p3 :: rest)
  end.
Definition make_spline (pts : list vec3) (times : list R) : outcome spline :=
  if (4 <=? length pts)%nat && (length times =? length pts - 2)%nat then
    do segs <- segment_loop pts (length pts - 3) 0; Ok (Spline segs times)
  else Throw.
(** catmull_rom.h 77-88; std::lower_bound is the binary search of Base.v *)
Definition spline_at (s : spline) (t : R) : outcome vec3 :=
  let times := sp_times s in
  let it := partition_search (fun x => Rltb x t) times in
  let it := if (it =? length times)%nat then (length times - 1)%nat else it in
  let it := if (it =? 0)%nat then 1%nat else it in
  let index := (it - 1)%nat in
  do lo <- vec_get times (it - 1); do hi <- vec_get times it;
  do seg <- vec_get (sp_segments s) index;
  do f <- div_checked (t - lo) (hi - lo); Ok (seg_at seg f).
