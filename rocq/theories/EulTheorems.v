(** Theorems about Euler angles and angle conversions. *)
From Coq Require Import List Arith Bool ZArith Reals Lra Lia.
From Verif Require Import Base GeoSpec GeoModel GeoProofs EulSpec EulModel EulProofs EulProofs2.
Import ListNotations.
Open Scope R_scope.

(** the contract of atan2 can be met *)
Example atan2_case : exists atan2, atan2_contract atan2.
Proof. exists atan2_R. exact atan2_R_ok. Qed.

(** C48: quat_from_euler is the rotation about the last axis, then the middle, then the first, for each of the six orders *)
Theorem C48_meaning : forall eu o v, unit_quat (quat_from_euler eu o) /\ qrot (quat_from_euler eu o) v = turned o eu v.
Proof. exact euler_assembled. Qed.
Print Assumptions C48_meaning.
Example C48_meaning_case : turned XYZ (Vec3 (PI / 2) 0 (PI / 2)) e_x = e_z.
Proof. unfold turned. cbn [axis_first axis_middle axis_last]. destruct (about_e (Vec3 (PI / 2) 0 (PI / 2))) as (X & Y & Z). rewrite X, Y, Z, rot_x, rot_y, rot_z. cbn [vx vy vz e_x e_z]. rewrite cos_0, sin_0, cos_PI2, sin_PI2. vec; ring. Qed.

(** C48: Euler angles survive the round trip for each of the six orders, with the middle angle less than a quarter turn and the others up to a half turn *)
Theorem C48_round_trip : forall atan2, atan2_contract atan2 -> forall eu o,
  - PI < angle_about eu (axis_first o) <= PI -> - PI / 2 < angle_about eu (axis_middle o) < PI / 2 -> - PI < angle_about eu (axis_last o) <= PI ->
  euler_from_quat atan2 (quat_from_euler eu o) o = eu.
Proof. exact round_trip_assembled. Qed.
Print Assumptions C48_round_trip.
Example C48_round_trip_case : euler_from_quat atan2_R (quat_from_euler (Vec3 (- (PI / 3)) PI 1) ZXY) ZXY = Vec3 (- (PI / 3)) PI 1.
Proof. pose proof PI2_1. unfold PI2 in *. pose proof PI_RGT_0. apply C48_round_trip; [exact atan2_R_ok|..]; cbn [axis_first axis_middle axis_last]; unfold angle_about; geo; lra. Qed.

(** C48: the other way around: the angles of a unit quaternion are in range and make up the same rotation, unless the first axis of the order is turned onto the last *)
Theorem C48_from_quat : forall atan2, atan2_contract atan2 -> forall q o, unit_quat q -> dot (axis_first o) (qrot q (axis_last o)) * dot (axis_first o) (qrot q (axis_last o)) < 1 ->
  let eu := euler_from_quat atan2 q o in
  same_up_to_sign (quat_from_euler eu o) q /\ - PI < angle_about eu (axis_first o) <= PI /\ - PI / 2 < angle_about eu (axis_middle o) < PI / 2 /\ - PI < angle_about eu (axis_last o) <= PI.
Proof. exact back_assembled. Qed.
Print Assumptions C48_from_quat.
Example C48_from_quat_case : unit_quat (Quat (3/5) 0 (4/5) 0) /\ dot (axis_first XYZ) (qrot (Quat (3/5) 0 (4/5) 0) (axis_last XYZ)) * dot (axis_first XYZ) (qrot (Quat (3/5) 0 (4/5) 0) (axis_last XYZ)) < 1.
Proof. cbn [axis_first axis_last]. unfold unit_quat. geo. lra. Qed.
(** In that position (gimbal lock) the outer angles both come out as zero and the rotation is lost. *)
Theorem C48_gimbal_refuted : forall atan2, atan2_contract atan2 -> exists q, unit_quat q /\ ~ same_up_to_sign (quat_from_euler (euler_from_quat atan2 q XYZ) XYZ) q.
Proof. exact gimbal_refuted_assembled. Qed.
Print Assumptions C48_gimbal_refuted.

(** C90: pitch, yaw and roll are the angles at which the y, z and x axis have been turned in the yz, zx and xy plane; of a rotation about x, y or z they are its angle *)
Theorem C90_heading : forall atan2, atan2_contract atan2 -> forall q,
  direction (vy (local_y_axis q)) (vz (local_y_axis q)) (pitch atan2 q) /\ direction (vz (local_z_axis q)) (vx (local_z_axis q)) (yaw atan2 q) /\ direction (vx (local_x_axis q)) (vy (local_x_axis q)) (roll atan2 q).
Proof. exact heading_assembled. Qed.
Print Assumptions C90_heading.
Theorem C90_single : forall atan2, atan2_contract atan2 -> forall a, - PI < a <= PI -> pitch atan2 (quat_from_x_angle a) = a /\ yaw atan2 (quat_from_y_angle a) = a /\ roll atan2 (quat_from_z_angle a) = a.
Proof. exact single_assembled. Qed.
Print Assumptions C90_single.
Example C90_single_case : yaw atan2_R (quat_from_y_angle (-1)) = -1.
Proof. apply C90_single; [exact atan2_R_ok|]. pose proof PI2_1. unfold PI2 in *. lra. Qed.
(** C90: vec3_from_polar gives the point at the radius, at the inclination from the y axis and at the azimuth from the z axis towards the x axis *)
Theorem C90_polar : forall radius inc azi, 0 <= radius -> norm (vec3_from_polar radius inc azi) = radius /\ dot (vec3_from_polar radius inc azi) e_y = radius * cos inc /\
  (0 <= inc <= PI -> direction (vz (vec3_from_polar radius inc azi)) (vx (vec3_from_polar radius inc azi)) azi).
Proof. exact polar_assembled. Qed.
Print Assumptions C90_polar.
Example C90_polar_case : vec3_from_polar 2 0 1 = Vec3 0 2 0.
Proof. unfold vec3_from_polar. rewrite sin_0, cos_0. f_equal; ring. Qed.
(** C90: the conversion constants are exact to twenty decimals (degrees to radians) and within one in 10^16 (radians to degrees); converting back and forth changes a value by less than one in 10^18 *)
Theorem C90_degrees : forall v, Rabs (deg_to_rad v - v * (PI / 180)) <= Rabs v / 10 ^ 20 /\ Rabs (rad_to_deg v - v * (180 / PI)) <= Rabs v / 10 ^ 16 /\ Rabs (rad_to_deg (deg_to_rad v) - v) <= Rabs v / 10 ^ 18 /\ Rabs (deg_to_rad (rad_to_deg v) - v) <= Rabs v / 10 ^ 18.
Proof. exact degrees_assembled. Qed.
Print Assumptions C90_degrees.
Example C90_degrees_case : deg_to_rad 1000 = 17.453292519943295769.
Proof. unfold deg_to_rad. lra. Qed.
Close Scope R_scope.
