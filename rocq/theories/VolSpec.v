(** Solid bodies and their volumes and moments of inertia; independent of the models. *)
From Coq Require Import Reals.
From Coquelicot Require Import Coquelicot.
From Verif Require Import GeoSpec ShpSpec.
Local Open Scope R_scope.

(** A body of revolution about the y axis, between the heights [a] and [b]; [w y] is the square of its radius at height [y]. *)
Definition revolved (w : R -> R) (a b : R) (p : vec3) : Prop := a <= vy p <= b /\ vx p * vx p + vz p * vz p <= w (vy p).
(** Its volume and its moments of inertia about the y axis and about any horizontal axis through the origin, as integrals over discs: a disc of radius s has area pi s^2, moment pi s^4 / 2 about its axis and pi s^4 / 4 about a diameter. *)
Definition revolved_volume (w : R -> R) (a b V : R) : Prop := is_RInt (fun y => PI * w y) a b V.
Definition revolved_inertia_axis (w : R -> R) (a b density I : R) : Prop := is_RInt (fun y => density * (PI / 2 * (w y * w y))) a b I.
Definition revolved_inertia_across (w : R -> R) (a b density I : R) : Prop := is_RInt (fun y => density * (PI / 4 * (w y * w y) + PI * w y * (y * y))) a b I.
(** ball, cylinder and capsule (a cylinder with half balls at both ends) around the origin; a cone with its base at height zero *)
Definition ball_profile (r y : R) : R := r * r - y * y.
Definition cylinder_profile (r y : R) : R := r * r.
Definition beyond (h y : R) : R := Rmax 0 (Rabs y - h / 2).
Definition capsule_profile (r h y : R) : R := r * r - beyond h y * beyond h y.
Definition cone_profile (r h y : R) : R := (r * (1 - y / h)) * (r * (1 - y / h)).
Definition ball (r : R) : vec3 -> Prop := revolved (ball_profile r) (- r) r.
Definition upright_cylinder (r h : R) : vec3 -> Prop := revolved (cylinder_profile r) (- (h / 2)) (h / 2).
Definition upright_capsule (r h : R) : vec3 -> Prop := revolved (capsule_profile r h) (- (h / 2 + r)) (h / 2 + r).
(** the integral of [f] over the block with half sizes [h] *)
Definition block_integral (h : vec3) (f : vec3 -> R) : R :=
  RInt (fun x => RInt (fun y => RInt (fun z => f (Vec3 x y z)) (- vz h) (vz h)) (- vy h) (vy h)) (- vx h) (vx h).
(** the ray from the origin in direction [d] leaves the body exactly at distance [r] *)
Definition leaves_at (S : vec3 -> Prop) (d : vec3) (r : R) : Prop := 0 <= r /\ forall t, 0 <= t -> (S (times t d) <-> t <= r).
