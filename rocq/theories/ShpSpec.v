(** Boxes, segments, lines and polylines in space; independent of the models. *)
From Coq Require Import List Arith Bool Reals.
From Verif Require Import Base GeoSpec SigSpec.
Import ListNotations.
Local Open Scope R_scope.

(** [p] is in the axis-aligned box between [lo] and [hi] *)
Definition inside (lo hi p : vec3) : Prop := vx lo <= vx p <= vx hi /\ vy lo <= vy p <= vy hi /\ vz lo <= vz p <= vz hi.
(** the box between [lo] and [hi] is part of the box between [lo'] and [hi'] *)
Definition within (lo hi lo' hi' : vec3) : Prop :=
  (vx lo' <= vx lo /\ vy lo' <= vy lo /\ vz lo' <= vz lo) /\ (vx hi <= vx hi' /\ vy hi <= vy hi' /\ vz hi <= vz hi').
(** the box between [lo] and [hi] is the smallest box around the points in [S] *)
Definition tight_box (S : vec3 -> Prop) (lo hi : vec3) : Prop :=
  (forall p, S p -> inside lo hi p) /\ (forall lo' hi', (forall p, S p -> inside lo' hi' p) -> within lo hi lo' hi').
(** no coordinate is larger in size than [m] *)
Definition bounded (m : R) (p : vec3) : Prop := Rabs (vx p) <= m /\ Rabs (vy p) <= m /\ Rabs (vz p) <= m.
(** the points of the block with half sizes [h], centred at the origin *)
Definition block (h p : vec3) : Prop := Rabs (vx p) <= Rabs (vx h) /\ Rabs (vy p) <= Rabs (vy h) /\ Rabs (vz p) <= Rabs (vz h).
(** the points that a map makes of the points in [S] *)
Definition image (f : vec3 -> vec3) (S : vec3 -> Prop) (p : vec3) : Prop := exists q, S q /\ p = f q.

(** the point at parameter [s] of the line through [a] with direction [d] *)
Definition along (a d : vec3) (s : R) : vec3 := plus a (times s d).
Definition on_segment (a b p : vec3) : Prop := exists s, 0 <= s <= 1 /\ p = along a (minus b a) s.
Definition on_the_line (a d p : vec3) : Prop := exists s, p = along a d s.
(** [r] is the least distance between a point in [S] and a point in [T] *)
Definition least_distance (S T : vec3 -> Prop) (r : R) : Prop :=
  (exists p q, S p /\ T q /\ apart p q = r) /\ forall p q, S p -> T q -> r <= apart p q.
Definition one_point (a : vec3) (p : vec3) : Prop := p = a.
Definition parallel (d e : vec3) : Prop := cross d e = origin.

(** the length of the polyline through the points *)
Definition steps_of (pts : list vec3) : list (vec3 * vec3) := combine pts (tl pts).
Definition polyline_length (pts : list vec3) : R := total (map (fun pq => apart (snd pq) (fst pq)) (steps_of pts)).
(** the distance along the polyline from its start to the point with number [i] *)
Definition travelled (pts : list vec3) (i : nat) : R := polyline_length (firstn (S i) pts).
