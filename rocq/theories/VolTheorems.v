(** Theorems about shapes. *)
From Coq Require Import List Reals Lra.
From Coquelicot Require Import Coquelicot.
From Verif Require Import Base GeoSpec NumModel StatModel GeoModel GeoProofs ShpSpec ShpModel VolSpec VolModel VolProofs.
Import ListNotations.
Open Scope R_scope.

(** C91: volume and inertia of a sphere are those of the ball, about the y axis and about horizontal axes *)
Theorem C91_sphere : forall r density, let i := 2 / 5 * volume (Sphere r) * density * (r * r) in
  revolved_volume (ball_profile r) (- r) r (volume (Sphere r)) /\ revolved_inertia_axis (ball_profile r) (- r) r density i /\ revolved_inertia_across (ball_profile r) (- r) r density i /\ inertia (Sphere r) density = Ok (Vec3 i i i).
Proof. exact sphere_body_assembled. Qed.
Print Assumptions C91_sphere.
(** C91: volume and inertia of a cylinder *)
Theorem C91_cylinder : forall r h density, exists ix iy,
  revolved_volume (cylinder_profile r) (- (h / 2)) (h / 2) (volume (Cylinder r h)) /\ revolved_inertia_axis (cylinder_profile r) (- (h / 2)) (h / 2) density iy /\ revolved_inertia_across (cylinder_profile r) (- (h / 2)) (h / 2) density ix /\ inertia (Cylinder r h) density = Ok (Vec3 ix iy ix).
Proof. exact cylinder_body_assembled. Qed.
Print Assumptions C91_cylinder.
(** C91: volume of a cone *)
Theorem C91_cone : forall r h, h <> 0 -> revolved_volume (cone_profile r h) 0 h (volume (Cone r h)).
Proof. exact cone_body_assembled. Qed.
Print Assumptions C91_cone.
(** C91: volume and inertia of a box *)
Theorem C91_box : forall h density,
  block_integral h (fun _ => 1) = volume (Box h) /\
  inertia (Box h) density = Ok (Vec3 (block_integral h (fun p => density * (vy p * vy p + vz p * vz p))) (block_integral h (fun p => density * (vx p * vx p + vz p * vz p))) (block_integral h (fun p => density * (vx p * vx p + vy p * vy p)))).
Proof. exact box_body_assembled. Qed.
Print Assumptions C91_box.
Example C91_box_case : inertia (Box (Vec3 1 2 3)) 1 = Ok (Vec3 208 160 80).
Proof. unfold inertia, volume, squared. cbn [vx vy vz]. repeat f_equal; lra. Qed.
(** C91: volume of a capsule, and its inertia about its axis. Missing is the inertia about the other axes, which is wrong. *)
Theorem C91_capsule_partial : forall r h density, 0 <= r -> 0 <= h -> exists ix iy,
  revolved_volume (capsule_profile r h) (- (h / 2 + r)) (h / 2 + r) (volume (Capsule r h)) /\
  revolved_inertia_axis (capsule_profile r h) (- (h / 2 + r)) (h / 2 + r) density iy /\ inertia (Capsule r h) density = Ok (Vec3 ix iy ix).
Proof. exact capsule_body_assembled. Qed.
Print Assumptions C91_capsule_partial.
Example C91_capsule_case : volume (Capsule 3 4) = 72 * PI.
Proof. unfold volume, squared. field. Qed.
(** The inertia of a capsule across its axis is not the integral: the height term has the mass of the cylinder twice. *)
Theorem C91_capsule_refuted : exists r h density ix iy i, 0 < r /\ 0 < h /\ 0 < density /\ inertia (Capsule r h) density = Ok (Vec3 ix iy ix) /\
  revolved_inertia_across (capsule_profile r h) (- (h / 2 + r)) (h / 2 + r) density i /\ ix <> i.
Proof. exact capsule_inertia_refuted_assembled. Qed.
Print Assumptions C91_capsule_refuted.
(** C91: by how much: the excess is m (m - 1) h^2 / 12 for a cylinder part of mass m, so that the result is right exactly for mass 1 (or 0) or height 0 *)
Theorem C91_capsule_excess : forall r h density, 0 <= r -> 0 <= h -> let m := PI * r * r * h * density in exists ix iy i,
  inertia (Capsule r h) density = Ok (Vec3 ix iy ix) /\ revolved_inertia_across (capsule_profile r h) (- (h / 2 + r)) (h / 2 + r) density i /\
  ix = i + m * (m - 1) * (h * h) / 12.
Proof.
  intros r h density Hr Hh m. do 3 eexists. split; [unfold inertia; cbv zeta; reflexivity|]. split; [apply (capsule_body r h density Hr Hh)|]. unfold m, capsule_across. field.
Qed.
Print Assumptions C91_capsule_excess.
Example C91_capsule_excess_case : PI * 1 * 1 * 1 * (1 / PI) = 1 /\ 0 <= 1.
Proof. split; [field; apply PI_neq0|lra]. Qed.
(** C91: a box made with its side lengths has them, and is_valid refuses only the empty sphere *)
Theorem C91_made_box : forall x y z r, volume (make_box x y z) = x * y * z /\ (exists h, make_box x y z = Box h /\ 2 * vx h = x /\ 2 * vy h = y /\ 2 * vz h = z) /\
  (is_valid (Sphere r) = true <-> r <> 0) /\ (is_valid (make_box x y z) = true).
Proof.
  intros x y z r. unfold volume, make_box, is_valid. replace 0.5 with (1 / 2) by lra. cbn [vx vy vz]. split; [field|]. split; [eexists; split; [reflexivity|]; cbn [vx vy vz]; repeat split; lra|].
  split; [|reflexivity]. destruct (Req_EM_T r 0); split; intros; congruence.
Qed.
Print Assumptions C91_made_box.
(** It is not even proportional to the density. *)
Theorem C91_capsule_density_refuted : exists r h density i j, 0 < r /\ 0 < h /\ 0 < density /\ inertia (Capsule r h) density = Ok i /\ inertia (Capsule r h) (2 * density) = Ok j /\ j <> times 2 i.
Proof. exact capsule_density_refuted_assembled. Qed.
Print Assumptions C91_capsule_density_refuted.
(** C91: for the other shapes the inertia is proportional to the density *)
Theorem C91_density : forall s k density i, (forall r h, s <> Capsule r h) -> inertia s density = Ok i -> inertia s (k * density) = Ok (times k i).
Proof. exact inertia_density_assembled. Qed.
Print Assumptions C91_density.
Example C91_density_case : (forall r h, Box (Vec3 1 2 3) <> Capsule r h) /\ inertia (Box (Vec3 1 2 3)) 2 = Ok (Vec3 416 320 160).
Proof. split; [discriminate|]. unfold inertia, volume, squared. cbn [vx vy vz]. repeat f_equal; lra. Qed.

(** C92: scaling by a number scales the volume by its third power and the inertia at the same density by its fifth *)
Theorem C92_volume : forall s f, volume (scaled s f) = f * f * f * volume s.
Proof. exact scaled_volume_assembled. Qed.
Print Assumptions C92_volume.
Theorem C92_inertia_partial : forall s f density i, (forall r h, s <> Capsule r h) -> inertia s density = Ok i -> inertia (scaled s f) density = Ok (times (f * f * f * f * f) i).
Proof. exact scaled_inertia_assembled. Qed.
Print Assumptions C92_inertia_partial.
Example C92_inertia_case : scaled (Cylinder 1 2) 3 = Cylinder (1 * 3) (2 * 3) /\ (forall r h, Cylinder 1 2 <> Capsule r h).
Proof. split; [reflexivity|discriminate]. Qed.
Theorem C92_capsule_inertia_refuted : exists r h f density i j, 0 < r /\ 0 < h /\ 0 < f /\ inertia (Capsule r h) density = Ok i /\ inertia (scaled (Capsule r h) f) density = Ok j /\ j <> times (f * f * f * f * f) i.
Proof. exact capsule_scaled_inertia_refuted_assembled. Qed.
Print Assumptions C92_capsule_inertia_refuted.
(** C92: scaling by a vector scales the volume by the product of its coordinates, except for a capsule; scaling by equal coordinates is scaling by a number *)
Theorem C92_by_vector : forall cbrt s v, (forall x, cbrt x * cbrt x * cbrt x = x) -> (forall r h, s <> Capsule r h) -> 0 <= vx v * vz v ->
  volume (scaled_by cbrt s v) = vx v * vy v * vz v * volume s.
Proof. exact scaled_by_assembled. Qed.
Print Assumptions C92_by_vector.
Theorem C92_uniform : forall cbrt s f, (forall x, cbrt x * cbrt x * cbrt x = x) -> 0 <= f -> scaled_by cbrt s (Vec3 f f f) = scaled s f.
Proof. exact scaled_by_uniform_assembled. Qed.
Print Assumptions C92_uniform.
Example C92_by_vector_case : (forall x, cube_root x * cube_root x * cube_root x = x) /\ 0 <= vx (Vec3 2 3 5) * vz (Vec3 2 3 5) /\ volume (scaled_by cube_root (Box (Vec3 1 1 1)) (Vec3 2 3 5)) = 240.
Proof. split; [exact cube_root_ok|]. cbn. lra. Qed.
Theorem C92_capsule_refuted : exists r h v, 0 < r /\ 0 < h /\ 0 < vx v /\ 0 < vy v /\ 0 < vz v /\ forall cbrt, volume (scaled_by cbrt (Capsule r h) v) <> vx v * vy v * vz v * volume (Capsule r h).
Proof. exact capsule_scaled_by_refuted_assembled. Qed.
Print Assumptions C92_capsule_refuted.

(** C93: dim is the size of the smallest box around the centred sphere, box and cylinder *)
Theorem C93_dim_partial : forall r h b, 0 <= r -> 0 <= h -> 0 <= vx b -> 0 <= vy b -> 0 <= vz b -> exists d1 d2 d3,
  dim (Sphere r) = Ok d1 /\ tight_box (ball r) (times (- (1 / 2)) d1) (times (1 / 2) d1) /\
  dim (Box b) = Ok d2 /\ tight_box (block b) (times (- (1 / 2)) d2) (times (1 / 2) d2) /\
  dim (Cylinder r h) = Ok d3 /\ tight_box (upright_cylinder r h) (times (- (1 / 2)) d3) (times (1 / 2) d3).
Proof. exact dim_assembled. Qed.
Print Assumptions C93_dim_partial.
Example C93_dim_case : dim (Cylinder 1 5) = Ok (Vec3 2 5 2) /\ upright_cylinder 1 5 (Vec3 1 (5 / 2) 0).
Proof. split; [unfold dim; repeat f_equal; lra|]. unfold upright_cylinder, revolved, cylinder_profile. cbn. lra. Qed.
(** The size of a capsule leaves out the caps. *)
Theorem C93_dim_refuted : exists r h d p, 0 < r /\ 0 < h /\ dim (Capsule r h) = Ok d /\ upright_capsule r h p /\ ~ inside (times (- (1 / 2)) d) (times (1 / 2) d) p.
Proof. exact dim_capsule_refuted_assembled. Qed.
Print Assumptions C93_dim_refuted.
(** C93: distance_from_center gives where a ray from the centre leaves the sphere, the box, the capsule, and the side of the cylinder. Missing are rays through the top of a cylinder. *)
Theorem C93_distance_partial : forall d r h b, unit_vec d -> 0 < r -> 0 <= h -> 0 < vx b -> 0 < vy b -> 0 < vz b ->
  (exists l, distance_from_center (Sphere r) d = Ok l /\ leaves_at (ball r) d l) /\
  (exists l, distance_from_center (Box b) d = Ok l /\ leaves_at (block b) d l) /\
  (exists l, distance_from_center (Capsule r h) d = Ok l /\ leaves_at (upright_capsule r h) d l) /\
  (Rabs (vy d) * r <= h / 2 * sqrt (vx d * vx d + vz d * vz d) -> exists l, distance_from_center (Cylinder r h) d = Ok l /\ leaves_at (upright_cylinder r h) d l).
Proof. exact distance_assembled. Qed.
Print Assumptions C93_distance_partial.
(** C93: intersection_from_center is the last point of the ray in the body *)
Theorem C93_intersection : forall s d l (S : vec3 -> Prop), distance_from_center s d = Ok l -> leaves_at S d l ->
  exists p, intersection_from_center s d = Ok p /\ S p /\ forall t, l < t -> ~ S (times t d).
Proof. exact surface_assembled. Qed.
Print Assumptions C93_intersection.
Example C93_distance_case : unit_vec (Vec3 (3 / 5) 0 (4 / 5)) /\ distance_from_center (Box (Vec3 3 1 1)) (Vec3 (3 / 5) 0 (4 / 5)) = Ok (5 / 4).
Proof.
  split; [unfold unit_vec, dot; cbn; lra|]. cbn [distance_from_center vx vy vz]. unfold extent. destruct (Req_EM_T (3 / 5) 0) as [C|_]; [lra|]. destruct (Req_EM_T 0 0) as [_|C]; [|lra]. destruct (Rlt_dec 0 1) as [_|C]; [|lra]. destruct (Req_EM_T (4 / 5) 0) as [C|_]; [lra|]. cbn [obind min_inf].
  rewrite !Rabs_right by lra. destruct (Rlt_dec _ _) as [C|_]; [lra|]. f_equal. lra.
Qed.
(** The ray through the top of a cylinder gets a wrong distance: 5/4 is right here. *)
Theorem C93_cylinder_refuted : exists r h d l, 0 < r /\ 0 < h /\ unit_vec d /\ distance_from_center (Cylinder r h) d = Ok l /\ ~ leaves_at (upright_cylinder r h) d l /\ leaves_at (upright_cylinder r h) d (5 / 4).
Proof. exact cylinder_distance_refuted_assembled. Qed.
Print Assumptions C93_cylinder_refuted.
(** C93: center_positions of a capsule are on its axis, as far apart as its height; they are not around the centre that the other functions use *)
Theorem C93_centers : forall r h t, unit_quat (t_q t) -> 0 <= h -> let '(a, b) := center_positions r h t in a = tf_apply t origin /\ b = tf_apply t (times h e_y) /\ apart a b = h.
Proof. exact centers_assembled. Qed.
Print Assumptions C93_centers.
Theorem C93_centers_refuted : exists r h t a b, unit_quat (t_q t) /\ 0 < r /\ 0 < h /\ center_positions r h t = (a, b) /\ times (1 / 2) (plus a b) <> t_p t.
Proof. exact centers_refuted_assembled. Qed.
Print Assumptions C93_centers_refuted.
(** C93: what is not available fails with an error rather than a value *)
Theorem C93_unsupported : forall largest r h n t d density,
  aabb_shape largest (Cylinder r h) t = Throw /\ aabb_shape largest (Capsule r h) t = Throw /\ aabb_shape largest (Cone r h) t = Throw /\ aabb_shape largest (Plane n) t = Throw /\
  dim (Plane n) = Throw /\ inertia (Cone r h) density = Throw /\ distance_from_center (Cone r h) d = Throw.
Proof. exact unsupported_assembled. Qed.
Print Assumptions C93_unsupported.

(** C94: the intersection of a line with a plane is the only point that is on both *)
Theorem C94_plane : forall pos dir n t, dot dir (qrot (t_q t) n) <> 0 -> exists p, plane_intersection pos dir n t = Ok p /\ on_the_line pos dir p /\ dot (minus p (t_p t)) (qrot (t_q t) n) = 0 /\
  forall p', on_the_line pos dir p' -> dot (minus p' (t_p t)) (qrot (t_q t) n) = 0 -> p' = p.
Proof. exact plane_assembled. Qed.
Print Assumptions C94_plane.
Example C94_plane_case : dot (Vec3 1 (-1) 0) (qrot qidentity e_y) <> 0 /\ plane_intersection (Vec3 0 5 0) (Vec3 1 (-1) 0) e_y (Tf (Vec3 0 2 0) qidentity) = Ok (Vec3 3 2 0).
Proof.
  rewrite qrot_identity. split; [geo; lra|]. unfold plane_intersection. cbn [t_p t_q]. rewrite qrot_identity. geo. unfold div_checked. destruct (Req_EM_T _ 0) as [C|_]; [lra|]. cbn [obind]. f_equal. apply vec_eq; cbn [vx vy vz]; field.
Qed.
Close Scope R_scope.
