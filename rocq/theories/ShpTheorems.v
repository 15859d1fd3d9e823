(** Theorems about bounding boxes, segments, lines and paths. *)
From Coq Require Import List Arith Bool Reals Lra Lia.
From Verif Require Import Base GeoSpec NumModel StatModel GeoModel GeoProofs SigSpec ShpSpec ShpModel ShpProofs.
Import ListNotations.
Open Scope R_scope.

(** C50: adding points to an empty box gives the smallest box around the points, in any number and order; the empty box contains nothing. [largest] is the largest finite number. *)
Theorem C50_points : forall largest pts, (forall p, In p pts -> bounded largest p) ->
  let b := fold_left aabb_add pts (aabb_default largest) in
  (pts <> [] -> tight_box (fun p => In p pts) (lower_bounds b) (upper_bounds b)) /\
  (pts = [] -> 0 < largest -> forall p, ~ inside (lower_bounds b) (upper_bounds b) p).
Proof. exact points_assembled. Qed.
Print Assumptions C50_points.
Example C50_points_case : fold_left aabb_add [Vec3 1 5 0; Vec3 (-2) 3 7] (aabb_default 100) = Aabb (Vec3 (-2) 3 0) (Vec3 1 5 7).
Proof. cbn [fold_left]. unfold aabb_add, aabb_default, set_if_smaller, set_if_bigger. cbn [lower_bounds upper_bounds vx vy vz]. repeat (destruct (Rlt_dec _ _); try lra). reflexivity. Qed.

(** C50: adding a box to a box gives the smallest box around both; the empty box is neutral *)
Theorem C50_join : forall a b, let la := lower_bounds a in let ua := upper_bounds a in let lb := lower_bounds b in let ub := upper_bounds b in
  (exists p, inside la ua p) -> (exists p, inside lb ub p) ->
  tight_box (fun p => inside la ua p \/ inside lb ub p) (lower_bounds (aabb_join a b)) (upper_bounds (aabb_join a b)).
Proof. exact join_assembled. Qed.
Print Assumptions C50_join.
Theorem C50_join_empty : forall largest b, (bounded largest (lower_bounds b) /\ bounded largest (upper_bounds b)) ->
  aabb_join (aabb_default largest) b = b /\ aabb_join b (aabb_default largest) = b.
Proof. exact join_default_assembled. Qed.
Print Assumptions C50_join_empty.
Example C50_join_case : aabb_join (Aabb (Vec3 0 0 0) (Vec3 1 1 1)) (Aabb (Vec3 (-1) 2 0) (Vec3 0 3 (1/2))) = Aabb (Vec3 (-1) 0 0) (Vec3 1 3 1) /\
  inside (Vec3 0 0 0) (Vec3 1 1 1) (Vec3 0 1 (1/2)) /\ inside (Vec3 (-1) 2 0) (Vec3 0 3 (1/2)) (Vec3 0 2 0).
Proof. unfold aabb_join, set_if_smaller, set_if_bigger, inside. cbn [lower_bounds upper_bounds vx vy vz]. split; [|lra]. repeat (destruct (Rlt_dec _ _); try lra). reflexivity. Qed.

(** C50: the bounding box of a block moved by a transform is the smallest box around all of its points, not only its corners *)
Theorem C50_box : forall largest h t, (forall p, block h p -> bounded largest (tf_apply t p)) ->
  tight_box (image (tf_apply t) (block h)) (lower_bounds (aabb_box largest h t)) (upper_bounds (aabb_box largest h t)).
Proof. exact box_assembled. Qed.
Print Assumptions C50_box.
(** C50: the bounding box of a ball is the smallest box around it *)
Theorem C50_sphere : forall r t, 0 <= r -> tight_box (fun p => apart p (t_p t) <= r) (lower_bounds (aabb_sphere r t)) (upper_bounds (aabb_sphere r t)).
Proof. exact sphere_assembled. Qed.
Print Assumptions C50_sphere.
Example C50_box_case : (forall p, block (Vec3 1 2 3) p -> bounded 100 (tf_apply (Tf (Vec3 10 0 0) qidentity) p)) /\ block (Vec3 1 2 3) (Vec3 (-1) (1/2) 3).
Proof.
  split.
  - intros p (A & B & C). unfold tf_apply. cbn [t_p t_q]. rewrite qrot_identity. unfold bounded, vadd. cbn [vx vy vz] in *. revert A B C. unfold Rabs. repeat (destruct (Rcase_abs _)); lra.
  - unfold block. cbn [vx vy vz]. unfold Rabs. repeat (destruct (Rcase_abs _)); lra.
Qed.

(** C51: the distance from a point to a segment is the least distance to a point of the segment, also for a segment of length zero *)
Theorem C51_segment : forall point a b, exists r, segment_distance point a b = Ok r /\ least_distance (one_point point) (on_segment a b) r.
Proof. exact segment_assembled. Qed.
Print Assumptions C51_segment.
Example C51_segment_case : segment_distance (Vec3 5 3 0) (Vec3 0 0 0) (Vec3 10 0 0) = Ok 3.
Proof.
  unfold segment_distance. geo. destruct (Rle_dec _ 0) as [C|C]; [lra|]. destruct (Rle_dec _ _) as [D|D]; [lra|]. unfold div_checked. destruct (Req_EM_T _ 0) as [Z|Z]; [lra|]. cbn [obind]. f_equal. unfold distance_v, length_v. geo.
  match goal with |- sqrt ?x = _ => replace x with (3 * 3) by field end. apply sqrt_square. lra.
Qed.

(** C51: for two lines, closest_points gives a point on each, at the least distance, when the directions are parallel or when their outer product is not tiny *)
Theorem C51_lines : forall ample_epsilon a d b e, 0 < ample_epsilon -> (ample_epsilon <= dot (cross d e) (cross d e) \/ (parallel d e /\ e <> origin)) ->
  exists p q, closest_points ample_epsilon a d b e = Ok (p, q) /\ on_the_line a d p /\ on_the_line b e q /\
    least_distance (on_the_line a d) (on_the_line b e) (apart p q) /\ line_distance ample_epsilon a d b e = Ok (apart p q).
Proof. exact lines_assembled. Qed.
Print Assumptions C51_lines.
Example C51_lines_case : 1/10 <= dot (cross (Vec3 1 0 0) (Vec3 1 2 0)) (cross (Vec3 1 0 0) (Vec3 1 2 0)) /\ parallel (Vec3 1 0 2) (Vec3 (-2) 0 (-4)) /\ Vec3 (-2) 0 (-4) <> origin.
Proof. unfold parallel. geo. repeat split; [lra|f_equal; lra|]. intros [= E]. lra. Qed.
(** Lines with short direction vectors are taken for parallel: two lines that meet get the distance 1. *)
Theorem C51_lines_refuted : forall ample_epsilon, 0 < ample_epsilon -> exists a d b e p q, ~ parallel d e /\ closest_points ample_epsilon a d b e = Ok (p, q) /\
  apart p q = 1 /\ least_distance (on_the_line a d) (on_the_line b e) 0.
Proof. exact lines_short_assembled. Qed.
Print Assumptions C51_lines_refuted.
(** With a zero direction for the second line the result is a division of zero by zero. *)
Theorem C51_zero_direction_refuted : forall ample_epsilon a d b, 0 < ample_epsilon -> closest_points ample_epsilon a d b origin = UB.
Proof. exact lines_point_assembled. Qed.
Print Assumptions C51_zero_direction_refuted.

(** C58: path_length is the sum of the lengths of the parts and needs at least one point *)
Theorem C58_length : forall path, (path = [] -> path_length path = Throw) /\ (path <> [] -> path_length path = Ok (polyline_length path)).
Proof. exact path_length_assembled. Qed.
Print Assumptions C58_length.
Example C58_length_case : path_length [Vec3 0 0 0; Vec3 3 0 0; Vec3 3 4 0] = Ok 7.
Proof.
  unfold path_length. cbn [path_loop]. unfold length_v. geo. f_equal.
  match goal with |- 0 + sqrt ?x + sqrt ?y = _ => replace x with (3 * 3) by ring; replace y with (4 * 4) by ring end. rewrite !sqrt_square by lra. lra.
Qed.

(** C58: insert_path_point returns the number of a point whose distance along the path is the requested one, up to the relative tolerance and limited to the path. The length of the path does not change; at most one point is put in, on the segment where it belongs. *)
Theorem C58_insert : forall eps path len, 0 <= eps < 1 -> (2 <= length path)%nat ->
  exists path' i, insert_path_point eps path len = Ok (path', i) /\ (i < length path')%nat /\ polyline_length path' = polyline_length path /\
    (len <= 0 -> path' = path /\ i = 0%nat) /\
    (0 < len -> Rabs (travelled path' i - Rmin len (polyline_length path)) <= eps * len) /\
    (path' = path \/ exists q, path' = firstn i path ++ q :: skipn i path /\ (0 < i < length path)%nat /\ on_segment (nth (i - 1) path origin) (nth i path origin) q /\ travelled path' i = len).
Proof. exact insert_assembled. Qed.
Print Assumptions C58_insert.
Theorem C58_too_short : forall eps path len, (length path < 2)%nat -> insert_path_point eps path len = Throw.
Proof. exact insert_short_assembled. Qed.
Print Assumptions C58_too_short.
Example C58_insert_case : insert_path_point (1/1000) [Vec3 0 0 0; Vec3 4 0 0] 1 = Ok ([Vec3 0 0 0; Vec3 1 0 0; Vec3 4 0 0], 1%nat).
Proof.
  assert (S : sqrt (4 * 4) = 4) by (apply sqrt_square; lra).
  unfold insert_path_point. cbn [length Nat.leb Nat.sub]. unfold less_than_or_equal, equal_R, Rltb, Rleb. rewrite !abs_R_eq.
  destruct (Rlt_dec 1 0); [lra|]. cbn [orb]. destruct (Rle_dec _ _) as [C|_]; [revert C; unfold Rabs; repeat (destruct (Rcase_abs _)); lra|].
  cbn [insert_loop vec_get nth_error Nat.sub obind]. unfold length_v. geo. replace ((4 - 0) * (4 - 0) + (0 - 0) * (0 - 0) + (0 - 0) * (0 - 0)) with (4 * 4) by ring. rewrite S. unfold equal_R, Rleb. rewrite !abs_R_eq. destruct (Rle_dec _ _) as [C|_]; [revert C; unfold Rabs; repeat (destruct (Rcase_abs _)); lra|].
  destruct (Rlt_dec 1 4) as [_|C]; [|lra]. unfold div_checked. destruct (Req_EM_T 4 0) as [Z|_]; [lra|]. cbn [obind]. unfold list_insert. cbn [firstn skipn app]. repeat f_equal; lra.
Qed.
Close Scope R_scope.
