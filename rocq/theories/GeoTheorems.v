(** Theorems about vectors, quaternions, matrices, transforms and mirroring. *)
From Coq Require Import List Arith Bool ZArith Reals Lra Lia.
From Verif Require Import Base GeoSpec GeoModel StatModel GeoProofs GeoProofs2.
Import ListNotations.
Open Scope R_scope.

(** C45: a unit quaternion acts on vectors as a rotation: linear, and it keeps inner and outer products *)
Theorem C45_rotation : forall q, unit_quat q -> rigid_rotation (qrot q).
Proof. exact rotation_assembled. Qed.
Print Assumptions C45_rotation.
Example C45_rotation_case : unit_quat (Quat (3/5) 0 (4/5) 0) /\ qrot (Quat (3/5) 0 (4/5) 0) e_x = Vec3 (-7/25) 0 (-24/25).
Proof. split; [unfold unit_quat; geo; lra|vec; lra]. Qed.

(** C45: the product is the composition; it is associative and the identity is neutral *)
Theorem C45_composition : forall p q r v, unit_quat p -> unit_quat q ->
  unit_quat (qmul p q) /\ qrot (qmul p q) v = qrot p (qrot q v) /\ qmul p (qmul q r) = qmul (qmul p q) r /\ qmul qidentity p = p /\ qmul p qidentity = p /\ qrot qidentity v = v.
Proof. exact composition_assembled. Qed.
Print Assumptions C45_composition.
Example C45_composition_case : qmul (Quat (3/5) 0 (4/5) 0) (Quat 0 1 0 0) = Quat 0 (3/5) 0 (-4/5).
Proof. qt; lra. Qed.

(** C45: conjugate, unary minus and inverse undo a unit quaternion; quat_from_quats is the difference of two orientations *)
Theorem C45_conjugate : forall q p v, unit_quat q ->
  qmul (conjugate q) q = qidentity /\ qmul q (conjugate q) = qidentity /\ qrot (conjugate q) (qrot q v) = v /\ qrot q (qrot (conjugate q) v) = v /\ inverse q = Ok (conjugate q) /\ qmul q (quat_from_quats q p) = p.
Proof. exact conjugate_assembled. Qed.
Print Assumptions C45_conjugate.
Example C45_conjugate_case : inverse (Quat (3/5) 0 (4/5) 0) = Ok (Quat (3/5) (- 0) (- (4/5)) (- 0)).
Proof. apply (C45_conjugate (Quat (3/5) 0 (4/5) 0) qidentity origin). unfold unit_quat. geo. lra. Qed.
(** For a quaternion that is not of unit length, [inverse] is not the inverse: the first coordinate is not divided by the squared length. *)
Theorem C45_inverse_refuted : exists q p, q <> Quat 0 0 0 0 /\ inverse q = Ok p /\ qmul q p <> qidentity.
Proof. exact inverse_refuted_assembled. Qed.
Print Assumptions C45_inverse_refuted.

(** C45: local_x_axis and so on, axes_from_quat and the matrix of the axes are all the same rotation *)
Theorem C45_axes : forall q, local_x_axis q = qrot q e_x /\ local_y_axis q = qrot q e_y /\ local_z_axis q = qrot q e_z /\ axes_from_quat q = (qrot q e_x, qrot q e_y, qrot q e_z) /\
  forall v, mat_times (let '(x, y, z) := axes_from_quat q in mat33_from_axes x y z) v = qrot q v.
Proof. exact axes_assembled. Qed.
Print Assumptions C45_axes.
Example C45_axes_case : local_x_axis (Quat (3/5) 0 (4/5) 0) = Vec3 (-7/25) 0 (-24/25).
Proof. apply vec_eq; cbn; lra. Qed.

(** C45: two unit quaternions are the same rotation exactly when they are equal or opposite; [positive] chooses the one with nonnegative first coordinate *)
Theorem C45_representation : forall p q, unit_quat p -> unit_quat q -> ((forall v, qrot p v = qrot q v) <-> same_up_to_sign p q).
Proof. exact representation_assembled. Qed.
Print Assumptions C45_representation.
Theorem C45_positive : forall q, 0 <= qw (positive q) /\ same_up_to_sign (positive q) q /\ forall v, qrot (positive q) v = qrot q v.
Proof. exact positive_assembled. Qed.
Print Assumptions C45_positive.
Example C45_positive_case : positive (Quat (- (3/5)) 0 (4/5) 0) = Quat (3/5) 0 (- (4/5)) 0.
Proof. unfold positive. cbn. destruct (Rlt_dec _ 0); [f_equal; lra|lra]. Qed.

(** C46: transforms compose: the product acts like one after the other, is associative and has the identity as neutral element *)
Theorem C46_composition : forall a b c v, unit_quat (t_q a) -> unit_quat (t_q b) ->
  unit_quat (t_q (tf_mul a b)) /\ tf_apply (tf_mul a b) v = tf_apply a (tf_apply b v) /\ tf_mul a (tf_mul b c) = tf_mul (tf_mul a b) c /\ tf_mul tf_identity c = c /\ tf_mul a tf_identity = a /\ tf_apply tf_identity v = v.
Proof. exact transform_assembled. Qed.
Print Assumptions C46_composition.
Example C46_composition_case : tf_apply (tf_mul (Tf (Vec3 1 2 3) (Quat 0 1 0 0)) (Tf (Vec3 0 1 0) qidentity)) (Vec3 1 1 1) = Vec3 2 0 2.
Proof. unfold tf_apply, tf_mul. cbn [t_p t_q]. vec; lra. Qed.

(** C46: inv is a two-sided inverse, inv_trans undoes trans, for points, orientations and transforms *)
Theorem C46_inverse : forall a b v o, unit_quat (t_q a) ->
  tf_mul a (tf_inv a) = tf_identity /\ tf_mul (tf_inv a) a = tf_identity /\ tf_inv_apply a (tf_apply a v) = v /\ tf_apply a (tf_inv_apply a v) = v /\ tf_inv_apply a v = tf_apply (tf_inv a) v /\
  tf_mul a (tf_inv_trans a b) = b /\ tf_inv_trans a (tf_mul a b) = b /\ tf_inv_apply_q a (tf_apply_q a o) = o /\ tf_apply_q a (tf_inv_apply_q a o) = o.
Proof. exact transform_inverse_assembled. Qed.
Print Assumptions C46_inverse.
Example C46_inverse_case : tf_inv (Tf (Vec3 1 2 3) (Quat 0 1 0 0)) = Tf (Vec3 (-1) 2 3) (Quat 0 (-1) (-0) (-0)).
Proof. unfold tf_inv. cbn [t_p t_q]. cbv zeta. assert (P : qrot (conjugate (Quat 0 1 0 0)) (vneg (Vec3 1 2 3)) = Vec3 (-1) 2 3) by (vec; lra). rewrite P. assert (Q : conjugate (Quat 0 1 0 0) = Quat 0 (-1) (-0) (-0)) by (qt; lra). rewrite Q. reflexivity. Qed.
(** The transforms with a scale form a group action as long as both scales are one; the product and the inverse ignore any other scale. *)
Theorem C46_srt_partial : forall a b v, s_s a = Vec3 1 1 1 -> s_s b = Vec3 1 1 1 -> unit_quat (s_q a) -> unit_quat (s_q b) ->
  srt_apply (srt_mul a b) v = srt_apply a (srt_apply b v) /\ srt_apply (srt_inv a) (srt_apply a v) = v.
Proof. exact srt_unscaled_assembled. Qed.
Print Assumptions C46_srt_partial.
Theorem C46_srt_refuted : exists a b v, unit_quat (s_q a) /\ unit_quat (s_q b) /\ srt_apply (srt_mul a b) v <> srt_apply a (srt_apply b v) /\ srt_apply (srt_inv a) (srt_apply a v) <> v.
Proof. exact srt_refuted_assembled. Qed.
Print Assumptions C46_srt_refuted.

(** C47: the quaternion of any right-handed orthonormal frame turns the main axes into that frame; of the axes of a unit quaternion it is that quaternion or its opposite *)
Theorem C47_frame : forall x y z, frame x y z -> exists q, quat_from_mat33 (mat33_from_axes x y z) = Ok q /\ unit_quat q /\ qrot q e_x = x /\ qrot q e_y = y /\ qrot q e_z = z.
Proof. exact mat33_frame. Qed.
Print Assumptions C47_frame.
Example C47_frame_case : frame (Vec3 0 1 0) (Vec3 0 0 1) (Vec3 1 0 0) /\ frame (Vec3 (-1) 0 0) (Vec3 0 (-1) 0) (Vec3 0 0 1).
Proof. unfold frame, unit_vec. geo. repeat split; try lra; f_equal; lra. Qed.
Theorem C47_round_trip : forall q, unit_quat q -> exists p, quat_from_mat33 (let '(x, y, z) := axes_from_quat q in mat33_from_axes x y z) = Ok p /\ same_up_to_sign p q.
Proof. exact mat33_assembled. Qed.
Print Assumptions C47_round_trip.
Example C47_round_trip_case : exists p, quat_from_mat33 (mat33_from_axes (Vec3 (-1) 0 0) (Vec3 0 (-1) 0) (Vec3 0 0 1)) = Ok p /\ p = Quat 0 0 0 1.
Proof.
  unfold quat_from_mat33, mat33_from_axes. cbn [vx vy vz e00 e01 e02 e10 e11 e12 e20 e21 e22 mat_at]. cbv zeta. destruct (Rlt_dec 0 (-1 + -1 + 1)); [lra|]. destruct (Rlt_dec (-1) (-1)); [lra|]. cbn [mat_at e00 e01 e02 e10 e11 e12 e20 e21 e22]. destruct (Rlt_dec (-1) 1); [|lra].
  change ((2 + 1) mod 3)%nat with 0%nat. change ((0 + 1) mod 3)%nat with 1%nat. cbn [mat_at e00 e01 e02 e10 e11 e12 e20 e21 e22]. replace (1 - -1 - -1 + 1) with (2 * 2) by ring. rewrite sqrt_square by lra. unfold div_checked. destruct (Req_EM_T 2 0); [lra|]. eexists. split; [reflexivity|]. cbn. f_equal; lra.
Qed.

(** C49: mirroring is the reflection in the plane z = 0; twice is the identity, and it carries over from vectors to orientations, transforms and products *)
Theorem C49_mirror : forall v q t1 t2, mirror_vec v = reflected v /\ mirror_vec (mirror_vec v) = v /\ mirror_axis (mirror_axis v) = v /\ mirror_quat (mirror_quat q) = q /\ mirror_transform (mirror_transform t1) = t1 /\
  qrot (mirror_quat q) (mirror_vec v) = mirror_vec (qrot q v) /\ mirror_quat (qmul q (t_q t1)) = qmul (mirror_quat q) (mirror_quat (t_q t1)) /\
  mirror_transform (tf_mul t1 t2) = tf_mul (mirror_transform t1) (mirror_transform t2) /\ tf_apply (mirror_transform t1) (mirror_vec v) = mirror_vec (tf_apply t1 v) /\ (unit_quat q -> unit_quat (mirror_quat q)).
Proof. exact mirror_assembled. Qed.
Print Assumptions C49_mirror.
Example C49_mirror_case : mirror_quat (Quat (3/5) 0 (4/5) 0) = Quat (3/5) (-0) (- (4/5)) 0.
Proof. qt; lra. Qed.
(** C49: an axis of rotation mirrors like the outer product of two mirrored vectors, so that the mirrored rotation is a rotation by the same angle about the mirrored axis *)
Theorem C49_rotation : forall axis u v ang, mirror_quat (quat_from_axis_angle axis ang) = quat_from_axis_angle (mirror_axis axis) ang /\ cross (reflected u) (reflected v) = mirror_axis (cross u v) /\ mirror_quat (quat_from_axis_angle axis ang) = quat_from_axis_angle (reflected axis) (- ang).
Proof. exact mirror_rotation_assembled. Qed.
Print Assumptions C49_rotation.
(** C49: mirrored bounds hold the negated values; limits on the angles about the three axes are mirrored twice to themselves *)
Theorem C49_bounds : forall b v, mirror_bounds (mirror_bounds b) = b /\ (fst b <= v <= snd b <-> fst (mirror_bounds b) <= - v <= snd (mirror_bounds b)).
Proof. exact mirror_bounds_assembled. Qed.
Print Assumptions C49_bounds.
Theorem C49_limits : forall l, mirror_limits (mirror_limits l) = l.
Proof. exact mirror_limits_assembled. Qed.
Print Assumptions C49_limits.
Example C49_limits_case : mirror_limits ((-1, 2), (0, 3), (4, 5)) = ((- (2), - (-1)), (- (3), - 0), (4, 5)).
Proof. reflexivity. Qed.

(** C85: normalize makes a quaternion of unit length in the same direction; without direction the division is by zero *)
Theorem C85_normalize : forall q,
  (q = Quat 0 0 0 0 -> normalize_q q = UB) /\
  (q <> Quat 0 0 0 0 -> exists p k, normalize_q q = Ok p /\ unit_quat p /\ 0 < k /\ p = qscale q k) /\
  (unit_quat q -> normalize_q q = Ok q).
Proof. exact normalize_assembled. Qed.
Print Assumptions C85_normalize.
Example C85_normalize_case : exists p, normalize_q (Quat 3 0 4 0) = Ok p /\ p = Quat (3/5) 0 (4/5) 0.
Proof. unfold normalize_q, length_q, div_checked. cbn [qw qx qy qz]. replace (3 * 3 + 0 * 0 + 4 * 4 + 0 * 0) with (5 * 5) by ring. rewrite sqrt_square by lra. destruct (Req_EM_T 5 0); [lra|]. eexists. split; [reflexivity|]. qt; lra. Qed.
(** C85: normalize_fast keeps the direction, never overshoots, and the error of its length is at most the square of the error before *)
Theorem C85_normalize_fast : forall q, let n := length_q q in let n' := length_q (normalize_fast q) in
  (exists k, 0 < k /\ normalize_fast q = qscale q k) /\ n' <= 1 /\ 1 - n' <= (1 - n) * (1 - n) /\ (unit_quat q -> normalize_fast q = q).
Proof. exact normalize_fast_assembled. Qed.
Print Assumptions C85_normalize_fast.
Example C85_normalize_fast_case : normalize_fast (Quat 2 0 0 0) = Quat (4/5) 0 0 0.
Proof. unfold normalize_fast. qt; lra. Qed.
(** C85: normalize_try_fast gives a length within the square of its tolerance of one *)
Theorem C85_try_fast : forall epsilon q, 0 < epsilon <= 1 -> q <> Quat 0 0 0 0 ->
  exists p k, normalize_try_fast epsilon q = Ok p /\ 0 < k /\ p = qscale q k /\ 1 - epsilon * epsilon <= length_q p <= 1.
Proof. exact normalize_try_fast_assembled. Qed.
Print Assumptions C85_try_fast.
(** C85: normalize of a vector gives the unit vector in its direction, or leaves a vector no longer than epsilon alone *)
Theorem C85_normalize_vec : forall epsilon v, 0 <= epsilon ->
  (epsilon < norm v -> exists u, normalize_v epsilon v = Ok u /\ unit_vec u /\ times (norm v) u = v) /\ (norm v <= epsilon -> normalize_v epsilon v = Ok v).
Proof. exact normalize_v_assembled. Qed.
Print Assumptions C85_normalize_vec.
Example C85_normalize_vec_case : norm (Vec3 3 0 4) = 5.
Proof. unfold norm, dot. cbn [vx vy vz]. replace (3 * 3 + 0 * 0 + 4 * 4) with (5 * 5) by ring. apply sqrt_square. lra. Qed.

(** C86: distance is a metric and the inner product is bounded by the lengths *)
Theorem C86_metric : forall u v w, distance_v u v = distance_v v u /\ (distance_v u v = 0 <-> u = v) /\ distance_v u w <= distance_v u v + distance_v v w /\ 0 <= distance_v u v /\ dot_product u v <= length_v u * length_v v.
Proof. exact metric_assembled. Qed.
Print Assumptions C86_metric.
Example C86_metric_case : distance_v (Vec3 4 1 4) (Vec3 1 1 0) = 5.
Proof. unfold distance_v, length_v, vsub. cbn [vx vy vz]. replace (_ + _ + _) with (5 * 5) by ring. apply sqrt_square. lra. Qed.
(** C86: the squared versions are the squares of the distance and the length *)
Theorem C86_squared : forall u v, squared_distance_v u v = distance_v u v * distance_v u v /\ squared_length_v u = length_v u * length_v u.
Proof.
  assert (L : forall u, squared_length_v u = length_v u * length_v u) by (intros u; unfold squared_length_v, length_v; rewrite sqrt_sqrt; [reflexivity|nra]).
  intros u v. split; [apply (L (vsub u v))|apply L].
Qed.
Print Assumptions C86_squared.
Example C86_squared_case : squared_distance_v (Vec3 4 1 4) (Vec3 1 1 0) = 25.
Proof. unfold squared_distance_v, squared_length_v, vsub. cbn [vx vy vz]. ring. Qed.
(** C86: projection gives the multiple of the second vector nearest to the first; onto a zero vector the division is by zero *)
Theorem C86_projection : forall u v,
  (v = origin -> projection u v = UB) /\ (v <> origin -> exists p s, projection u v = Ok p /\ p = times s v /\ dot (minus u p) v = 0 /\ forall r, norm (minus u p) <= norm (minus u (times r v))).
Proof. exact projection_assembled. Qed.
Print Assumptions C86_projection.
Example C86_projection_case : exists p, projection (Vec3 1 2 3) (Vec3 0 2 0) = Ok p /\ p = Vec3 0 2 0.
Proof. unfold projection, div_checked. geo. destruct (Req_EM_T _ 0); [lra|]. eexists. split; [reflexivity|]. vec; lra. Qed.

(** C87: quat_from_axis_angle is the rotation about the axis by the angle *)
Theorem C87_axis_angle : forall axis ang v, unit_vec axis -> unit_quat (quat_from_axis_angle axis ang) /\ qrot (quat_from_axis_angle axis ang) v = rotated axis ang v.
Proof. exact axis_angle_assembled. Qed.
Print Assumptions C87_axis_angle.
Example C87_axis_angle_case : qrot (quat_from_axis_angle e_z (PI / 2)) e_x = e_y.
Proof. rewrite (proj2 (C87_axis_angle e_z (PI / 2) e_x ltac:(unfold unit_vec; geo; lra))). unfold rotated. rewrite cos_PI2, sin_PI2. vec; ring. Qed.
(** C87: axis_angle_from_quat gives a unit axis and an angle of a full turn at most that make up the quaternion, unless its vector part is no longer than the tolerance *)
Theorem C87_from_quat : forall ample_epsilon, 0 < ample_epsilon -> forall q, unit_quat q ->
  (ample_epsilon < norm (Vec3 (qx q) (qy q) (qz q)) -> exists axis ang, axis_angle_from_quat ample_epsilon q = Ok (axis, ang) /\ unit_vec axis /\ 0 < ang <= 2 * PI /\ quat_from_axis_angle axis ang = q) /\
  (norm (Vec3 (qx q) (qy q) (qz q)) <= ample_epsilon -> axis_angle_from_quat ample_epsilon q = Ok (e_x, 0)).
Proof. exact quat_axis_angle_assembled. Qed.
Print Assumptions C87_from_quat.
(** C87: the same for rotation vectors, in both directions *)
Theorem C87_rotation_vector : forall epsilon ample_epsilon, 0 < ample_epsilon -> epsilon <= 2 * ample_epsilon -> forall q, unit_quat q ->
  (ample_epsilon < norm (Vec3 (qx q) (qy q) (qz q)) -> exists r, rotation_vector_from_quat ample_epsilon q = Ok r /\ 0 < norm r <= 2 * PI /\ quat_from_rotation_vector epsilon r = Ok q) /\
  (norm (Vec3 (qx q) (qy q) (qz q)) <= ample_epsilon -> rotation_vector_from_quat ample_epsilon q = Ok origin).
Proof. exact rotation_vector_assembled. Qed.
Print Assumptions C87_rotation_vector.
Theorem C87_from_vector : forall epsilon ample_epsilon, 0 < epsilon -> 0 < ample_epsilon -> forall v, epsilon < norm v < 2 * PI -> ample_epsilon < sin (norm v / 2) ->
  exists q, quat_from_rotation_vector epsilon v = Ok q /\ unit_quat q /\ (forall u, qrot q u = rotated (times (1 / norm v) v) (norm v) u) /\ rotation_vector_from_quat ample_epsilon q = Ok v.
Proof. exact vector_quat_assembled. Qed.
Print Assumptions C87_from_vector.
Example C87_from_vector_case : norm (Vec3 0 0 PI) < 2 * PI /\ 1 / 1000 < sin (norm (Vec3 0 0 PI) / 2).
Proof. pose proof PI_RGT_0. assert (E : norm (Vec3 0 0 PI) = PI). { unfold norm, dot. cbn [vx vy vz]. replace (0 * 0 + 0 * 0 + PI * PI) with (PI * PI) by ring. apply sqrt_square. lra. } rewrite E. replace (PI / 2) with (PI / 2) by reflexivity. rewrite sin_PI2. lra. Qed.
Theorem C87_short_vector : forall epsilon v, norm v <= epsilon -> quat_from_rotation_vector epsilon v = Ok qidentity.
Proof. exact short_vector_assembled. Qed.
Print Assumptions C87_short_vector.

(** C88: quat_from_directions turns one direction into the other about the axis perpendicular to both, unless they are almost opposite *)
Theorem C88_directions : forall ample_epsilon, 0 < ample_epsilon -> forall s t, unit_vec s -> unit_vec t -> - (1) + ample_epsilon <= dot s t ->
  exists q, quat_from_directions ample_epsilon s t = Ok q /\ unit_quat q /\ qrot q s = t /\ 0 < qw q /\ dot (Vec3 (qx q) (qy q) (qz q)) s = 0 /\ dot (Vec3 (qx q) (qy q) (qz q)) t = 0.
Proof. exact directions_assembled. Qed.
Print Assumptions C88_directions.
Example C88_directions_case : unit_vec e_x /\ unit_vec (Vec3 (-3/5) 0 (4/5)) /\ - (1) + 1 / 100 <= dot e_x (Vec3 (-3/5) 0 (4/5)).
Proof. unfold unit_vec. geo. lra. Qed.
(** For opposite directions the result is a half turn about the x axis, whatever the directions: it does not reverse the x axis itself. *)
Theorem C88_opposite_refuted : forall ample_epsilon, 0 < ample_epsilon -> exists s t q, unit_vec s /\ unit_vec t /\ quat_from_directions ample_epsilon s t = Ok q /\ qrot q s <> t.
Proof. exact directions_refuted_assembled. Qed.
Print Assumptions C88_opposite_refuted.

(** C89: rotation_around_axis is the twist: the rotation about the axis that leaves a rotation perpendicular to the axis *)
Theorem C89_twist : forall ample_epsilon, 0 < ample_epsilon -> forall q a, unit_quat q -> unit_vec a ->
  (ample_epsilon < twist_len q a -> exists ang, rotation_around_axis ample_epsilon q a = Ok ang /\ - (2 * PI) <= ang <= 2 * PI /\
    exists swing, unit_quat swing /\ q = qmul swing (quat_from_axis_angle a ang) /\ dot (Vec3 (qx swing) (qy swing) (qz swing)) a = 0 /\ 0 < qw swing) /\
  (twist_len q a <= ample_epsilon -> rotation_around_axis ample_epsilon q a = Ok 0).
Proof. exact around_axis_assembled. Qed.
Print Assumptions C89_twist.
Example C89_twist_case : unit_quat (Quat (1/2) (1/2) (1/2) (1/2)) /\ 1 / 2 < twist_len (Quat (1/2) (1/2) (1/2) (1/2)) e_y.
Proof. split; [unfold unit_quat; geo; lra|]. unfold twist_len. geo. replace (1/2) with (sqrt (1/2 * (1/2))) at 1 by (apply sqrt_square; lra). apply sqrt_lt_1; lra. Qed.
(** C89: quat_angle_around_axis returns the twist and its angle *)
Theorem C89_quat_angle : forall epsilon, 0 < epsilon -> forall q a, unit_quat q -> unit_vec a -> epsilon < twist_len q a ->
  exists p ang, quat_angle_around_axis epsilon q a = Ok (p, ang) /\ p = quat_from_axis_angle a ang /\ - (2 * PI) <= ang <= 2 * PI /\
    exists swing, unit_quat swing /\ q = qmul swing p /\ dot (Vec3 (qx swing) (qy swing) (qz swing)) a = 0 /\ 0 < qw swing.
Proof. exact angle_around_assembled. Qed.
Print Assumptions C89_quat_angle.
(** C89: a rotation whose axis is perpendicular to the given one and that turns by 180 degrees has no twist: the angle is then 0, and the quaternion is 1 up to the tolerance *)
Theorem C89_no_twist : forall epsilon, 0 < epsilon -> forall q a, unit_vec a -> twist_len q a <= epsilon ->
  exists p, quat_angle_around_axis epsilon q a = Ok (p, 0) /\ qw p = 1 /\ qx p * qx p + qy p * qy p + qz p * qz p <= epsilon * epsilon.
Proof.
  intros epsilon He q a Ua L. unfold quat_angle_around_axis. change dot_product with dot. cbv zeta. rewrite (twist_len_ok q a Ua).
  destruct (Rlt_dec epsilon (twist_len q a)) as [C|_]; [lra|]. cbn [obind qw qx qy qz]. eexists. split.
  - f_equal. f_equal. unfold copysign. rewrite acos_1, Rmult_0_r, Rabs_R0. destruct (Rlt_dec _ 0); lra.
  - cbn [qw qx qy qz]. split; [reflexivity|]. set (d := dot (Vec3 (qx q) (qy q) (qz q)) a) in *.
    unfold unit_vec in Ua. unfold dot in Ua. assert (0 <= twist_len q a) by apply sqrt_pos.
    assert (E : twist_len q a * twist_len q a = qw q * qw q + d * d) by (unfold twist_len; fold d; apply sqrt_sqrt; nra).
    replace (d * vx a * (d * vx a) + d * vy a * (d * vy a) + d * vz a * (d * vz a)) with (d * d * (vx a * vx a + vy a * vy a + vz a * vz a)) by ring.
    rewrite Ua. nra.
Qed.
Print Assumptions C89_no_twist.
Example C89_no_twist_case : unit_vec e_y /\ twist_len (Quat 0 1 0 0) e_y = 0.
Proof. split; [unfold unit_vec; geo; lra|]. unfold twist_len. geo. replace (0 * 0 + _) with 0 by ring. apply sqrt_0. Qed.
(** C89: the angle of a rotation about the axis is recovered *)
Theorem C89_recover : forall ample_epsilon a th, unit_vec a -> - (2 * PI) < th <= 2 * PI -> ample_epsilon < 1 -> rotation_around_axis ample_epsilon (quat_from_axis_angle a th) a = Ok th.
Proof. exact recover_assembled. Qed.
Print Assumptions C89_recover.
Example C89_recover_case : rotation_around_axis (1 / 1000) (quat_from_axis_angle e_y (-1)) e_y = Ok (-1).
Proof. apply C89_recover; [unfold unit_vec; geo; lra| |lra]. pose proof PI2_1. unfold PI2 in *. lra. Qed.
(** C89: the versions for the main axes, for less than a half turn *)
Theorem C89_main_axes : forall q, unit_quat q -> qw q <> 0 ->
  exists x y z, rotation_around_x q = Ok x /\ rotation_around_y q = Ok y /\ rotation_around_z q = Ok z /\
    Forall (fun p : vec3 * R => - (2 * PI) <= snd p <= 2 * PI /\ exists swing, unit_quat swing /\ q = qmul swing (quat_from_axis_angle (fst p) (snd p)) /\ dot (Vec3 (qx swing) (qy swing) (qz swing)) (fst p) = 0) [(e_x, x); (e_y, y); (e_z, z)].
Proof. exact main_axes_assembled. Qed.
Print Assumptions C89_main_axes.
Close Scope R_scope.
