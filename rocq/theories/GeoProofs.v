(** Lemmas about the models of vectors, quaternions, matrices and transforms. *)
From Coq Require Import List Arith Bool ZArith Reals Lra Lia Psatz.
From Verif Require Import Base NumModel StatModel GeoSpec GeoModel.
Import ListNotations.
Local Open Scope R_scope.

Lemma vec_eq u v : vx u = vx v -> vy u = vy v -> vz u = vz v -> u = v.
Proof. destruct u, v. cbn. intros -> -> ->. reflexivity. Qed.
Lemma quat_eq p q : qw p = qw q -> qx p = qx q -> qy p = qy q -> qz p = qz q -> p = q.
Proof. destruct p, q. cbn. intros -> -> -> ->. reflexivity. Qed.
Ltac geo := unfold plus, times, minus, dot, cross, qmul, qrot, vadd, vsub, vneg, vscale, vmul, cross_product, dot_product, conjugate, qnorm2, qscale, qidentity, vzero, unit_x, origin, e_x, e_y, e_z, opposite, squared_length_q, squared_length_v, mirror_vec, mirror_axis, mirror_quat, reflected in *; cbv zeta; cbn [vx vy vz qw qx qy qz] in *.
Ltac vec := apply vec_eq; geo.
Ltac qt := apply quat_eq; geo.

(** the rotation as a homogeneous polynomial *)
Definition sandwich (q : quat) (v : vec3) : vec3 :=
  let w := qw q in let x := qx q in let y := qy q in let z := qz q in
  Vec3 ((w * w + x * x - y * y - z * z) * vx v + 2 * (x * y - w * z) * vy v + 2 * (x * z + w * y) * vz v)
       (2 * (x * y + w * z) * vx v + (w * w - x * x + y * y - z * z) * vy v + 2 * (y * z - w * x) * vz v)
       (2 * (x * z - w * y) * vx v + 2 * (y * z + w * x) * vy v + (w * w - x * x - y * y + z * z) * vz v).
Lemma qrot_sandwich q v : qrot q v = plus (sandwich q v) (times (1 - qnorm2 q) v).
Proof. unfold sandwich. vec; ring. Qed.
Lemma qrot_unit q v : unit_quat q -> qrot q v = sandwich q v.
Proof. intros H. rewrite qrot_sandwich, H. vec; ring. Qed.
Lemma qnorm2_mul p q : qnorm2 (qmul p q) = qnorm2 p * qnorm2 q.
Proof. geo. ring. Qed.
Lemma unit_mul p q : unit_quat p -> unit_quat q -> unit_quat (qmul p q).
Proof. unfold unit_quat. intros Hp Hq. rewrite qnorm2_mul, Hp, Hq. ring. Qed.
Lemma unit_conj q : unit_quat q -> unit_quat (conjugate q).
Proof. unfold unit_quat. intros H. rewrite <- H. geo. ring. Qed.
Lemma unit_identity : unit_quat qidentity.
Proof. unfold unit_quat. geo. ring. Qed.
Lemma sandwich_mul p q v : sandwich (qmul p q) v = sandwich p (sandwich q v).
Proof. unfold sandwich. vec; ring. Qed.
Lemma qrot_mul p q v : unit_quat p -> unit_quat q -> qrot (qmul p q) v = qrot p (qrot q v).
Proof. intros Hp Hq. rewrite !qrot_unit by (try apply unit_mul; assumption). apply sandwich_mul. Qed.
Lemma sandwich_dot q u v : dot (sandwich q u) (sandwich q v) = qnorm2 q * qnorm2 q * dot u v.
Proof. unfold sandwich. geo. ring. Qed.
Lemma sandwich_cross q u v : cross (sandwich q u) (sandwich q v) = times (qnorm2 q) (sandwich q (cross u v)).
Proof. unfold sandwich. vec; ring. Qed.
Lemma qrot_identity v : qrot qidentity v = v.
Proof. vec; ring. Qed.
Lemma qmul_assoc a b c : qmul a (qmul b c) = qmul (qmul a b) c.
Proof. qt; ring. Qed.
Lemma qmul_id_l q : qmul qidentity q = q.
Proof. qt; ring. Qed.
Lemma qmul_id_r q : qmul q qidentity = q.
Proof. qt; ring. Qed.
Lemma conj_l q : unit_quat q -> qmul (conjugate q) q = qidentity.
Proof. unfold unit_quat. intros H. qt; [rewrite <- H|..]; ring. Qed.
Lemma conj_r q : unit_quat q -> qmul q (conjugate q) = qidentity.
Proof. unfold unit_quat. intros H. qt; [rewrite <- H|..]; ring. Qed.
Lemma conj_rot q v : unit_quat q -> qrot (conjugate q) (qrot q v) = v.
Proof. intros H. rewrite <- qrot_mul, conj_l by (try apply unit_conj; exact H). apply qrot_identity. Qed.
Lemma conj_rot' q v : unit_quat q -> qrot q (qrot (conjugate q) v) = v.
Proof. intros H. rewrite <- qrot_mul, conj_r by (try apply unit_conj; exact H). apply qrot_identity. Qed.
Lemma qrot_add q u v : qrot q (vadd u v) = vadd (qrot q u) (qrot q v).
Proof. vec; ring. Qed.
Lemma qrot_sub q u v : qrot q (vsub u v) = vsub (qrot q u) (qrot q v).
Proof. vec; ring. Qed.
Lemma qrot_neg q v : qrot q (vneg v) = vneg (qrot q v).
Proof. vec; ring. Qed.
Lemma rotation_assembled q : unit_quat q -> rigid_rotation (qrot q).
Proof.
  intros H. split; [intros; vec; ring|]. split; [intros; vec; ring|]. split.
  - intros u v. rewrite !qrot_unit, sandwich_dot, H by exact H. ring.
  - intros u v. rewrite !qrot_unit, sandwich_cross, H by exact H. vec; ring.
Qed.
Lemma qrot_dot q u v : unit_quat q -> dot (qrot q u) (qrot q v) = dot u v.
Proof. intros H. apply (rotation_assembled q H). Qed.
Lemma composition_assembled p q r v : unit_quat p -> unit_quat q ->
  unit_quat (qmul p q) /\ qrot (qmul p q) v = qrot p (qrot q v) /\ qmul p (qmul q r) = qmul (qmul p q) r /\ qmul qidentity p = p /\ qmul p qidentity = p /\ qrot qidentity v = v.
Proof. intros Hp Hq. split; [apply unit_mul; assumption|]. split; [apply qrot_mul; assumption|]. split; [apply qmul_assoc|]. split; [apply qmul_id_l|]. split; [apply qmul_id_r|apply qrot_identity]. Qed.
Lemma conjugate_assembled q p v : unit_quat q ->
  qmul (conjugate q) q = qidentity /\ qmul q (conjugate q) = qidentity /\ qrot (conjugate q) (qrot q v) = v /\ qrot q (qrot (conjugate q) v) = v /\ inverse q = Ok (conjugate q) /\ qmul q (quat_from_quats q p) = p.
Proof.
  intros H. split; [apply conj_l, H|]. split; [apply conj_r, H|]. split; [apply conj_rot, H|]. split; [apply conj_rot', H|]. split.
  - unfold inverse, div_checked, squared_length_q. unfold unit_quat, qnorm2 in H. rewrite H. destruct (Req_EM_T 1 0); [lra|]. cbn [obind]. f_equal. qt; field.
  - unfold quat_from_quats. rewrite qmul_assoc, conj_r by exact H. apply qmul_id_l.
Qed.
Lemma axes_assembled q : local_x_axis q = qrot q e_x /\ local_y_axis q = qrot q e_y /\ local_z_axis q = qrot q e_z /\ axes_from_quat q = (qrot q e_x, qrot q e_y, qrot q e_z) /\
  forall v, mat_times (let '(x, y, z) := axes_from_quat q in mat33_from_axes x y z) v = qrot q v.
Proof.
  assert (X : local_x_axis q = qrot q e_x) by (unfold local_x_axis; vec; ring). assert (Y : local_y_axis q = qrot q e_y) by (unfold local_y_axis; vec; ring). assert (Z : local_z_axis q = qrot q e_z) by (unfold local_z_axis; vec; ring).
  split; [exact X|]. split; [exact Y|]. split; [exact Z|]. assert (A : axes_from_quat q = (qrot q e_x, qrot q e_y, qrot q e_z)) by (rewrite <- X, <- Y, <- Z; reflexivity). split; [exact A|].
  intros v. rewrite A. unfold mat_times, mat33_from_axes. cbn [e00 e01 e02 e10 e11 e12 e20 e21 e22]. vec; ring.
Qed.

(** ** which quaternions are the same rotation *)
Lemma sq_sum0 a b c : a * a + b * b + c * c = 0 -> a = 0 /\ b = 0 /\ c = 0.
Proof. intros H. pose proof (Rle_0_sqr a). pose proof (Rle_0_sqr b). pose proof (Rle_0_sqr c). unfold Rsqr in *. repeat split; nra. Qed.
Definition vpart (q : quat) : vec3 := Vec3 (qx q) (qy q) (qz q).
(** a rotation that keeps [u] has an axis parallel to [u] *)
Lemma fixed_axis p u : qrot p u = u -> cross (vpart p) u = origin.
Proof.
  intros H. assert (D : dot u (qrot p u) = dot u u) by (rewrite H; reflexivity). assert (E : dot (cross (vpart p) u) (cross (vpart p) u) = 0).
  { unfold vpart. geo. destruct p as [w x y z], u as [a b c]. cbn [vx vy vz qw qx qy qz] in *. lra. }
  unfold dot in E. apply sq_sum0 in E. destruct E as (E1 & E2 & E3). apply vec_eq; assumption.
Qed.
Lemma parallel_zero a u v : cross a u = origin -> cross a v = origin -> cross u v <> origin -> a = origin.
Proof.
  intros Hu Hv N. geo. injection Hu as U1 U2 U3. injection Hv as V1 V2 V3. destruct a as [a1 a2 a3], u as [u1 u2 u3], v as [v1 v2 v3]. cbn [vx vy vz] in *.
  assert (L1 : a1 * (u1 * u1 + u2 * u2 + u3 * u3) = (a1 * u1 + a2 * u2 + a3 * u3) * u1) by (assert (X : u2 * (a1 * u2 - a2 * u1) - u3 * (a3 * u1 - a1 * u3) = 0) by (rewrite U2, U3; ring); lra).
  assert (L2 : a2 * (u1 * u1 + u2 * u2 + u3 * u3) = (a1 * u1 + a2 * u2 + a3 * u3) * u2) by (assert (X : u3 * (a2 * u3 - a3 * u2) - u1 * (a1 * u2 - a2 * u1) = 0) by (rewrite U1, U3; ring); lra).
  assert (L3 : a3 * (u1 * u1 + u2 * u2 + u3 * u3) = (a1 * u1 + a2 * u2 + a3 * u3) * u3) by (assert (X : u1 * (a3 * u1 - a1 * u3) - u2 * (a2 * u3 - a3 * u2) = 0) by (rewrite U1, U2; ring); lra).
  set (d := a1 * u1 + a2 * u2 + a3 * u3) in *. set (n := u1 * u1 + u2 * u2 + u3 * u3) in *.
  assert (D : d = 0).
  { destruct (Req_EM_T d 0) as [E|E]; [exact E|]. exfalso. apply N. f_equal; apply (Rmult_eq_reg_l d); try exact E; rewrite Rmult_0_r.
    - transitivity (n * (a2 * v3 - a3 * v2)); [|rewrite V1; ring]. transitivity ((d * u2) * v3 - (d * u3) * v2); [ring|]. rewrite <- L2, <- L3. ring.
    - transitivity (n * (a3 * v1 - a1 * v3)); [|rewrite V2; ring]. transitivity ((d * u3) * v1 - (d * u1) * v3); [ring|]. rewrite <- L1, <- L3. ring.
    - transitivity (n * (a1 * v2 - a2 * v1)); [|rewrite V3; ring]. transitivity ((d * u1) * v2 - (d * u2) * v1); [ring|]. rewrite <- L1, <- L2. ring. }
  assert (Nn : n <> 0). { intros E. unfold n in E. apply sq_sum0 in E. destruct E as (-> & -> & ->). apply N. f_equal; ring. }
  rewrite D in *. f_equal; apply (Rmult_eq_reg_r n); try exact Nn; lra.
Qed.
Lemma sq_one w : w * w = 1 -> w = 1 \/ w = - (1).
Proof. intros H. assert (F : (w - 1) * (w + 1) = 0) by lra. apply Rmult_integral in F. destruct F; [left|right]; lra. Qed.
(** a unit quaternion that keeps two independent vectors is one or minus one *)
Lemma fixes_two p u v : unit_quat p -> qrot p u = u -> qrot p v = v -> cross u v <> origin -> same_up_to_sign p qidentity.
Proof.
  intros U Hu Hv N. assert (Z : vpart p = origin) by (apply (parallel_zero _ u v); [apply fixed_axis, Hu|apply fixed_axis, Hv|exact N]). destruct p as [w x y z]. unfold vpart, origin in Z. cbn in Z. injection Z as -> -> ->.
  unfold unit_quat, qnorm2 in U. cbn in U. assert (W : w * w = 1) by lra. apply sq_one in W. destruct W as [->| ->]; [left; reflexivity|right]. apply quat_eq; cbn; ring.
Qed.
Lemma qrot_opposite q v : qrot (opposite q) v = qrot q v.
Proof. vec; ring. Qed.
Lemma agree_two p q u v : unit_quat p -> unit_quat q -> qrot p u = qrot q u -> qrot p v = qrot q v -> cross u v <> origin -> same_up_to_sign p q.
Proof.
  intros Up Uq Hu Hv N. assert (F : forall w, qrot p w = qrot q w -> qrot (qmul (conjugate q) p) w = w) by (intros w H; rewrite qrot_mul, H by (try apply unit_conj; assumption); apply conj_rot, Uq).
  destruct (fixes_two (qmul (conjugate q) p) u v) as [E|E]; [apply unit_mul; [apply unit_conj|]; assumption|apply F, Hu|apply F, Hv|exact N| |].
  - left. rewrite <- (qmul_id_l p), <- (conj_r q Uq), <- qmul_assoc, E. apply qmul_id_r.
  - right. rewrite <- (qmul_id_l p), <- (conj_r q Uq), <- qmul_assoc, E. qt; ring.
Qed.
Lemma e_xy : cross e_x e_y <> origin.
Proof. geo. intros H. injection H. intros. lra. Qed.
Lemma representation_assembled p q : unit_quat p -> unit_quat q -> ((forall v, qrot p v = qrot q v) <-> same_up_to_sign p q).
Proof.
  intros Up Uq. split.
  - intros H. apply (agree_two p q e_x e_y); try assumption; try apply H. exact e_xy.
  - intros [->| ->] v; [reflexivity|apply qrot_opposite].
Qed.
Lemma positive_assembled q : 0 <= qw (positive q) /\ same_up_to_sign (positive q) q /\ forall v, qrot (positive q) v = qrot q v.
Proof.
  unfold positive. destruct (Rlt_dec (qw q) 0) as [C|C]; cbn [qw].
  - split; [lra|]. split; [right; reflexivity|]. apply qrot_opposite.
  - split; [lra|]. split; [left; reflexivity|reflexivity].
Qed.
Lemma inverse_refuted_assembled : exists q p, q <> Quat 0 0 0 0 /\ inverse q = Ok p /\ qmul q p <> qidentity.
Proof.
  exists (Quat 2 0 0 0). eexists. split; [intros E; injection E; lra|]. split; [unfold inverse, div_checked, squared_length_q; cbn; destruct (Req_EM_T _ 0) as [E|_]; [lra|reflexivity]|].
  geo. intros E. injection E. lra.
Qed.

(** ** lengths *)
Lemma sum4_nonneg a b c d : 0 <= a * a + b * b + c * c + d * d.
Proof. pose proof (Rle_0_sqr a). pose proof (Rle_0_sqr b). pose proof (Rle_0_sqr c). pose proof (Rle_0_sqr d). unfold Rsqr in *. lra. Qed.
Lemma sum4_zero a b c d : a * a + b * b + c * c + d * d = 0 -> a = 0 /\ b = 0 /\ c = 0 /\ d = 0.
Proof. intros H. pose proof (Rle_0_sqr a). pose proof (Rle_0_sqr b). pose proof (Rle_0_sqr c). pose proof (Rle_0_sqr d). unfold Rsqr in *. repeat split; nra. Qed.
Lemma qnorm2_nonneg q : 0 <= qnorm2 q.
Proof. apply sum4_nonneg. Qed.
Lemma qnorm2_pos q : q <> Quat 0 0 0 0 -> 0 < qnorm2 q.
Proof.
  intros N. pose proof (qnorm2_nonneg q) as [H|H]; [exact H|]. exfalso. apply N. symmetry in H. unfold qnorm2 in H. apply sum4_zero in H. destruct q; cbn in *. destruct H as (-> & -> & -> & ->). reflexivity.
Qed.
Lemma length_q_eq q : length_q q = sqrt (qnorm2 q).
Proof. reflexivity. Qed.
Lemma qnorm2_scale q s : qnorm2 (qscale q s) = s * s * qnorm2 q.
Proof. geo. ring. Qed.
Lemma normalize_q_ok q : q <> Quat 0 0 0 0 -> normalize_q q = Ok (qscale q (1 / length_q q)) /\ unit_quat (qscale q (1 / length_q q)) /\ 0 < length_q q.
Proof.
  intros N. pose proof (qnorm2_pos q N) as P. assert (L : 0 < length_q q) by (apply sqrt_lt_R0; exact P). split; [|split; [|exact L]].
  - unfold normalize_q, div_checked. destruct (Req_EM_T (length_q q) 0); [lra|reflexivity].
  - unfold unit_quat. rewrite qnorm2_scale. rewrite <- (sqrt_sqrt (qnorm2 q)) by lra. rewrite <- length_q_eq. field. lra.
Qed.
Lemma normalize_assembled q :
  (q = Quat 0 0 0 0 -> normalize_q q = UB) /\
  (q <> Quat 0 0 0 0 -> exists p k, normalize_q q = Ok p /\ unit_quat p /\ 0 < k /\ p = qscale q k) /\
  (unit_quat q -> normalize_q q = Ok q).
Proof.
  split; [|split].
  - intros ->. unfold normalize_q, div_checked, length_q. cbn. replace (0 * 0 + 0 * 0 + 0 * 0 + 0 * 0) with 0 by ring. rewrite sqrt_0. destruct (Req_EM_T 0 0); [reflexivity|lra].
  - intros N. destruct (normalize_q_ok q N) as (E & U & L). exists (qscale q (1 / length_q q)), (1 / length_q q). split; [exact E|]. split; [exact U|]. split; [|reflexivity]. apply Rdiv_lt_0_compat; lra.
  - intros U. assert (N : q <> Quat 0 0 0 0) by (intros ->; unfold unit_quat, qnorm2 in U; cbn in U; lra). destruct (normalize_q_ok q N) as (E & _ & _). rewrite E. rewrite length_q_eq, U, sqrt_1. f_equal. qt; field.
Qed.
(** the error of the fast version is quadratic in the error of the length *)
Lemma normalize_fast_assembled q : let n := length_q q in let n' := length_q (normalize_fast q) in
  (exists k, 0 < k /\ normalize_fast q = qscale q k) /\ n' <= 1 /\ 1 - n' <= (1 - n) * (1 - n) /\ (unit_quat q -> normalize_fast q = q).
Proof.
  cbv zeta. pose proof (qnorm2_nonneg q) as P. unfold normalize_fast. change (squared_length_q q) with (qnorm2 q). set (k := 2 / (1 + qnorm2 q)). assert (K : 0 < k) by (apply Rdiv_lt_0_compat; lra).
  assert (Ln : length_q (qscale q k) = k * length_q q). { rewrite !length_q_eq, qnorm2_scale. rewrite sqrt_mult by (try apply Rle_0_sqr; lra). rewrite sqrt_square by lra. reflexivity. }
  set (n := length_q q) in *. assert (N0 : 0 <= n) by apply sqrt_pos. assert (Nn : n * n = qnorm2 q) by (apply sqrt_sqrt; exact P).
  assert (E : 1 - k * n = (1 - n) * (1 - n) / (1 + n * n)) by (unfold k; rewrite <- Nn; field; nra). pose proof (Rle_0_sqr (1 - n)) as S. unfold Rsqr in S. pose proof (Rle_0_sqr n) as S'. unfold Rsqr in S'. rewrite Ln.
  split; [exists k; split; [exact K|reflexivity]|]. split; [|split].
  - assert (0 <= (1 - n) * (1 - n) / (1 + n * n)); [|lra]. apply Rmult_le_pos; [exact S|apply Rlt_le, Rinv_0_lt_compat; lra].
  - rewrite E. apply (Rmult_le_reg_r (1 + n * n)); [lra|]. unfold Rdiv. rewrite Rmult_assoc, Rinv_l by lra. nra.
  - intros U. unfold k. rewrite U. qt; field.
Qed.
Lemma normalize_try_fast_assembled epsilon q : 0 < epsilon <= 1 -> q <> Quat 0 0 0 0 ->
  exists p k, normalize_try_fast epsilon q = Ok p /\ 0 < k /\ p = qscale q k /\ 1 - epsilon * epsilon <= length_q p <= 1.
Proof.
  intros He N. pose proof (qnorm2_pos q N) as P. unfold normalize_try_fast. change (squared_length_q q) with (qnorm2 q). destruct (Rlt_dec (Rabs (1 - qnorm2 q)) epsilon) as [C|C].
  - change (qscale q (2 / (1 + qnorm2 q))) with (normalize_fast q). destruct (normalize_fast_assembled q) as ((k & K & E) & H1 & H2 & _). exists (normalize_fast q), k. split; [reflexivity|]. split; [exact K|]. split; [exact E|]. split; [|exact H1].
    assert (B : (1 - length_q q) * (1 - length_q q) <= epsilon * epsilon); [|lra]. set (n := length_q q) in *. assert (N0 : 0 <= n) by apply sqrt_pos. assert (Nn : n * n = qnorm2 q) by (apply sqrt_sqrt; lra). rewrite <- Nn in C.
    apply Rabs_def2 in C. assert (A : - epsilon <= 1 - n <= epsilon) by (split; nra). destruct (Rle_dec 0 (1 - n)); nra.
  - assert (S : 0 < sqrt (qnorm2 q)) by (apply sqrt_lt_R0; exact P). unfold div_checked. destruct (Req_EM_T (sqrt (qnorm2 q)) 0); [lra|]. cbn [obind]. destruct (normalize_q_ok q N) as (_ & U & L). rewrite length_q_eq in U.
    exists (qscale q (1 / sqrt (qnorm2 q))), (1 / sqrt (qnorm2 q)). split; [reflexivity|]. split; [apply Rdiv_lt_0_compat; lra|]. split; [reflexivity|]. rewrite length_q_eq. unfold unit_quat in U. rewrite U, sqrt_1. nra.
Qed.
Lemma length_v_norm v : length_v v = norm v.
Proof. reflexivity. Qed.
Lemma dot_nonneg v : 0 <= dot v v.
Proof. unfold dot. pose proof (Rle_0_sqr (vx v)). pose proof (Rle_0_sqr (vy v)). pose proof (Rle_0_sqr (vz v)). unfold Rsqr in *. lra. Qed.
Lemma norm_sq v : norm v * norm v = dot v v.
Proof. apply sqrt_sqrt, dot_nonneg. Qed.
Lemma norm_nonneg v : 0 <= norm v.
Proof. apply sqrt_pos. Qed.
Lemma norm_zero v : norm v = 0 -> v = origin.
Proof. intros H. pose proof (norm_sq v) as S. rewrite H in S. unfold dot in S. symmetry in S. rewrite Rmult_0_r in S. apply sq_sum0 in S. destruct S as (A & B & C). apply vec_eq; assumption. Qed.
Lemma vdiv_ok v s : s <> 0 -> vdiv v s = Ok (times (1 / s) v).
Proof. intros H. unfold vdiv, div_checked. destruct (Req_EM_T s 0); [contradiction|]. cbn [obind]. f_equal. vec; ring. Qed.
Lemma normalize_v_assembled epsilon v : 0 <= epsilon ->
  (epsilon < norm v -> exists u, normalize_v epsilon v = Ok u /\ unit_vec u /\ times (norm v) u = v) /\ (norm v <= epsilon -> normalize_v epsilon v = Ok v).
Proof.
  intros He. unfold normalize_v. change (length_v v) with (norm v). cbv zeta. split; intros H; destruct (Rlt_dec epsilon (norm v)) as [C|C]; try lra; [|reflexivity].
  rewrite vdiv_ok by lra. eexists. split; [reflexivity|]. split.
  - unfold unit_vec. transitivity (1 / norm v * (1 / norm v) * dot v v); [geo; ring|]. rewrite <- norm_sq. field. lra.
  - vec; field; lra.
Qed.
(** Cauchy-Schwarz and the triangle inequality *)
Lemma cauchy u v : dot u v * dot u v <= dot u u * dot v v.
Proof.
  assert (E : dot u u * dot v v - dot u v * dot u v = dot (cross u v) (cross u v)) by (geo; ring). pose proof (dot_nonneg (cross u v)). lra.
Qed.
Lemma cauchy_abs u v : dot u v <= norm u * norm v.
Proof.
  pose proof (cauchy u v) as C. rewrite <- !norm_sq in C. pose proof (norm_nonneg u). pose proof (norm_nonneg v). destruct (Rle_dec (dot u v) (norm u * norm v)) as [L|L]; [exact L|]. exfalso.
  assert (0 <= norm u * norm v) by (apply Rmult_le_pos; assumption). nra.
Qed.
Lemma triangle u v : norm (plus u v) <= norm u + norm v.
Proof.
  pose proof (norm_nonneg u). pose proof (norm_nonneg v). pose proof (cauchy_abs u v). unfold norm at 1. apply Rsqr_incr_0_var; [|lra]. unfold Rsqr. rewrite sqrt_sqrt by apply dot_nonneg.
  assert (E : dot (plus u v) (plus u v) = dot u u + 2 * dot u v + dot v v) by (geo; ring). rewrite E, <- !norm_sq. nra.
Qed.
Lemma metric_assembled u v w : distance_v u v = distance_v v u /\ (distance_v u v = 0 <-> u = v) /\ distance_v u w <= distance_v u v + distance_v v w /\ 0 <= distance_v u v /\ dot_product u v <= length_v u * length_v v.
Proof.
  unfold distance_v. change length_v with norm. split; [|split; [|split; [|split]]].
  - unfold norm. f_equal. geo. ring.
  - split; [|intros ->; unfold norm; replace (dot _ _) with 0 by (geo; ring); apply sqrt_0]. intros H. apply norm_zero in H. geo. injection H as A B C. apply vec_eq; lra.
  - replace (vsub u w) with (plus (vsub u v) (vsub v w)) by (vec; ring). apply triangle.
  - apply norm_nonneg.
  - apply cauchy_abs.
Qed.
Lemma projection_assembled u v :
  (v = origin -> projection u v = UB) /\ (v <> origin -> exists p s, projection u v = Ok p /\ p = times s v /\ dot (minus u p) v = 0 /\ forall r, norm (minus u p) <= norm (minus u (times r v))).
Proof.
  unfold projection, div_checked. split.
  - intros ->. geo. destruct (Req_EM_T _ 0) as [_|C]; [reflexivity|exfalso; lra].
  - intros N. change (squared_length_v v) with (dot v v). change (dot_product u v) with (dot u v). destruct (Req_EM_T (dot v v) 0) as [E|E]; [exfalso; apply N, norm_zero; unfold norm; rewrite E; apply sqrt_0|]. cbn [obind].
    exists (vscale (dot u v / dot v v) v), (dot u v / dot v v). split; [reflexivity|]. split; [vec; ring|].
    assert (O : dot (minus u (vscale (dot u v / dot v v) v)) v = 0). { transitivity (dot u v - dot u v / dot v v * dot v v); [unfold minus, vscale, dot; cbn [vx vy vz]; ring|]. field. exact E. }
    split; [exact O|]. intros r. unfold norm. apply sqrt_le_1; try apply dot_nonneg. set (p := vscale (dot u v / dot v v) v) in *. set (s := dot u v / dot v v) in *.
    assert (D : dot (minus u (times r v)) (minus u (times r v)) = dot (minus u p) (minus u p) + 2 * (s - r) * dot (minus u p) v + (s - r) * (s - r) * dot v v) by (unfold p; geo; ring).
    rewrite D, O. pose proof (dot_nonneg v). pose proof (Rle_0_sqr (s - r)) as S. unfold Rsqr in S. nra.
Qed.

(** ** transforms *)
Lemma transform_assembled a b c v : unit_quat (t_q a) -> unit_quat (t_q b) ->
  unit_quat (t_q (tf_mul a b)) /\ tf_apply (tf_mul a b) v = tf_apply a (tf_apply b v) /\ tf_mul a (tf_mul b c) = tf_mul (tf_mul a b) c /\ tf_mul tf_identity c = c /\ tf_mul a tf_identity = a /\ tf_apply tf_identity v = v.
Proof.
  intros Ha Hb. assert (A : forall u w x, vadd u (vadd w x) = vadd (vadd u w) x) by (intros; vec; ring).
  split; [apply unit_mul; assumption|]. split; [unfold tf_apply, tf_mul; cbn [t_p t_q]; rewrite qrot_mul, qrot_add, A by assumption; reflexivity|].
  split; [unfold tf_mul; cbn [t_p t_q]; rewrite qrot_mul, qrot_add, A, qmul_assoc by assumption; reflexivity|].
  split; [|split].
  - destruct c as [p q]. unfold tf_mul, tf_identity. cbn [t_p t_q]. f_equal; [vec; ring|apply qmul_id_l].
  - destruct a as [p q]. unfold tf_mul, tf_identity. cbn [t_p t_q]. f_equal; [vec; ring|apply qmul_id_r].
  - vec; unfold tf_apply, tf_identity; geo; cbn [t_p t_q]; geo; ring.
Qed.
Lemma transform_inverse_assembled a b v o : unit_quat (t_q a) ->
  tf_mul a (tf_inv a) = tf_identity /\ tf_mul (tf_inv a) a = tf_identity /\ tf_inv_apply a (tf_apply a v) = v /\ tf_apply a (tf_inv_apply a v) = v /\ tf_inv_apply a v = tf_apply (tf_inv a) v /\
  tf_mul a (tf_inv_trans a b) = b /\ tf_inv_trans a (tf_mul a b) = b /\ tf_inv_apply_q a (tf_apply_q a o) = o /\ tf_apply_q a (tf_inv_apply_q a o) = o.
Proof.
  intros H. destruct a as [p q]. cbn [t_q] in H. unfold tf_mul, tf_inv, tf_inv_trans, tf_apply, tf_inv_apply, tf_apply_q, tf_inv_apply_q, tf_identity. cbn [t_p t_q].
  assert (Sub : forall u w, vsub (vadd u w) u = w) by (intros; vec; ring). assert (Add : forall u w, vadd u (vsub w u) = w) by (intros; vec; ring). assert (Neg : forall u, vadd u (vneg u) = vzero) by (intros; vec; ring). assert (Neg' : forall u, vadd (vneg u) u = vzero) by (intros; vec; ring).
  repeat split.
  - f_equal; [rewrite conj_rot' by exact H; apply Neg|apply conj_r, H].
  - f_equal; [rewrite qrot_neg; apply Neg'|apply conj_l, H].
  - rewrite Sub. apply conj_rot, H.
  - rewrite conj_rot' by exact H. apply Add.
  - rewrite <- qrot_add. f_equal. vec; ring.
  - destruct b as [pb qb]. cbn [t_p t_q]. f_equal; [rewrite conj_rot' by exact H; apply Add|rewrite qmul_assoc, conj_r by exact H; apply qmul_id_l].
  - destruct b as [pb qb]. cbn [t_p t_q]. f_equal; [rewrite Sub; apply conj_rot, H|rewrite qmul_assoc, conj_l by exact H; apply qmul_id_l].
  - rewrite qmul_assoc, conj_l by exact H. apply qmul_id_l.
  - rewrite qmul_assoc, conj_r by exact H. apply qmul_id_l.
Qed.
Lemma srt_refuted_assembled : exists a b v, unit_quat (s_q a) /\ unit_quat (s_q b) /\ srt_apply (srt_mul a b) v <> srt_apply a (srt_apply b v) /\ srt_apply (srt_inv a) (srt_apply a v) <> v.
Proof.
  exists (Srt (Vec3 2 2 2) qidentity vzero), (Srt (Vec3 1 1 1) qidentity vzero), e_x. split; [apply unit_identity|]. split; [apply unit_identity|].
  assert (Q : forall u, qrot qidentity u = u) by (intros; vec; ring).
  split; unfold srt_apply, srt_mul, srt_inv, srt; cbn [s_s s_q s_p]; change (conjugate qidentity) with (Quat 1 (- 0) (- 0) (- 0)); rewrite ?qmul_id_l; replace (Quat 1 (- 0) (- 0) (- 0)) with qidentity by (qt; ring); rewrite !Q; intros E; apply (f_equal vx) in E; cbn in E; lra.
Qed.
(** rotation of the scale is ignored even without a second scale *)
Lemma srt_unscaled_assembled a b v : s_s a = Vec3 1 1 1 -> s_s b = Vec3 1 1 1 -> unit_quat (s_q a) -> unit_quat (s_q b) ->
  srt_apply (srt_mul a b) v = srt_apply a (srt_apply b v) /\ srt_apply (srt_inv a) (srt_apply a v) = v.
Proof.
  intros Sa Sb Ua Ub. assert (M : forall u, vmul (Vec3 1 1 1) u = u) by (intros; vec; ring). unfold srt_apply, srt_mul, srt_inv, srt. cbn [s_s s_q s_p]. rewrite Sa, Sb, !M. split.
  - rewrite qrot_mul, qrot_add by assumption. generalize (qrot (s_q a) (s_p b)), (qrot (s_q a) (qrot (s_q b) v)), (s_p a). intros. vec; ring.
  - rewrite <- qrot_add. assert (C : forall u w, vadd (vneg u) (vadd u w) = w) by (intros; vec; ring). rewrite C. apply conj_rot, Ua.
Qed.

(** ** reflections *)
Lemma mirror_assembled v q t1 t2 : mirror_vec v = reflected v /\ mirror_vec (mirror_vec v) = v /\ mirror_axis (mirror_axis v) = v /\ mirror_quat (mirror_quat q) = q /\ mirror_transform (mirror_transform t1) = t1 /\
  qrot (mirror_quat q) (mirror_vec v) = mirror_vec (qrot q v) /\ mirror_quat (qmul q (t_q t1)) = qmul (mirror_quat q) (mirror_quat (t_q t1)) /\
  mirror_transform (tf_mul t1 t2) = tf_mul (mirror_transform t1) (mirror_transform t2) /\ tf_apply (mirror_transform t1) (mirror_vec v) = mirror_vec (tf_apply t1 v) /\ (unit_quat q -> unit_quat (mirror_quat q)).
Proof.
  split; [reflexivity|]. split; [vec; ring|]. split; [vec; ring|]. split; [qt; ring|]. split; [destruct t1 as [p1 q1]; unfold mirror_transform; cbn [t_p t_q]; f_equal; [vec; ring|qt; ring]|].
  split; [vec; ring|]. split; [qt; ring|]. split; [unfold mirror_transform, tf_mul; cbn [t_p t_q]; f_equal; [vec; ring|qt; ring]|]. split; [unfold mirror_transform, tf_apply; cbn [t_p t_q]; vec; ring|].
  unfold unit_quat. intros <-. geo. ring.
Qed.
Lemma mirror_rotation_assembled axis u v ang : mirror_quat (quat_from_axis_angle axis ang) = quat_from_axis_angle (mirror_axis axis) ang /\ cross (reflected u) (reflected v) = mirror_axis (cross u v) /\ mirror_quat (quat_from_axis_angle axis ang) = quat_from_axis_angle (reflected axis) (- ang).
Proof.
  split; [unfold quat_from_axis_angle; qt; ring|]. split; [vec; ring|]. unfold quat_from_axis_angle. replace (0.5 * - ang) with (- (0.5 * ang)) by ring. rewrite cos_neg, sin_neg. qt; ring.
Qed.
Lemma mirror_bounds_assembled b v : mirror_bounds (mirror_bounds b) = b /\ (fst b <= v <= snd b <-> fst (mirror_bounds b) <= - v <= snd (mirror_bounds b)).
Proof. destruct b as [l u]. unfold mirror_bounds. cbn. split; [f_equal; ring|lra]. Qed.
Lemma mirror_limits_assembled l : mirror_limits (mirror_limits l) = l.
Proof. destruct l as [[x y] z]. unfold mirror_limits. rewrite !(proj1 (mirror_bounds_assembled _ 0)). reflexivity. Qed.

(** ** matrices *)
(** a frame as nine numbers: columns, rows and cofactors *)
Lemma frame_facts a b c d e f g h i : frame (Vec3 a d g) (Vec3 b e h) (Vec3 c f i) ->
  (a * a + d * d + g * g = 1 /\ b * b + e * e + h * h = 1 /\ c * c + f * f + i * i = 1) /\
  (a * b + d * e + g * h = 0 /\ a * c + d * f + g * i = 0 /\ b * c + e * f + h * i = 0) /\
  (a * a + b * b + c * c = 1 /\ d * d + e * e + f * f = 1 /\ g * g + h * h + i * i = 1) /\
  (a * d + b * e + c * f = 0 /\ a * g + b * h + c * i = 0 /\ d * g + e * h + f * i = 0) /\
  (a = e * i - f * h /\ b = f * g - d * i /\ c = d * h - e * g) /\ (d = c * h - b * i /\ e = a * i - c * g /\ f = b * g - a * h) /\ (g = b * f - c * e /\ h = c * d - a * f /\ i = a * e - b * d).
Proof.
  intros (U1 & U2 & O & Z). unfold unit_vec, dot in *. unfold cross in Z. cbn [vx vy vz] in *. injection Z as Hc Hf Hi.
  assert (A1 : a = e * i - f * h). { transitivity (a * (b * b + e * e + h * h) - b * (a * b + d * e + g * h)); [rewrite U2, O; ring|]. rewrite Hi, Hf. ring. }
  assert (A2 : d = c * h - b * i). { transitivity (d * (b * b + e * e + h * h) - e * (a * b + d * e + g * h)); [rewrite U2, O; ring|]. rewrite Hi, Hc. ring. }
  assert (A3 : g = b * f - c * e). { transitivity (g * (b * b + e * e + h * h) - h * (a * b + d * e + g * h)); [rewrite U2, O; ring|]. rewrite Hc, Hf. ring. }
  assert (B1 : b = f * g - d * i). { transitivity (b * (a * a + d * d + g * g) - a * (a * b + d * e + g * h)); [rewrite U1, O; ring|]. rewrite Hi, Hf. ring. }
  assert (B2 : e = a * i - c * g). { transitivity (e * (a * a + d * d + g * g) - d * (a * b + d * e + g * h)); [rewrite U1, O; ring|]. rewrite Hi, Hc. ring. }
  assert (B3 : h = c * d - a * f). { transitivity (h * (a * a + d * d + g * g) - g * (a * b + d * e + g * h)); [rewrite U1, O; ring|]. rewrite Hf, Hc. ring. }
  assert (P1 : a * c + d * f + g * i = 0) by (rewrite Hc, Hf, Hi; ring). assert (P2 : b * c + e * f + h * i = 0) by (rewrite Hc, Hf, Hi; ring).
  assert (D : a * (e * i - f * h) + d * (c * h - b * i) + g * (b * f - c * e) = 1) by (rewrite <- A1, <- A2, <- A3; exact U1).
  assert (G1 : c = d * h - e * g) by lra. assert (G2 : f = b * g - a * h) by lra. assert (G3 : i = a * e - b * d) by lra. clear Hc Hf Hi.
  assert (U3 : c * c + f * f + i * i = 1). { transitivity (c * (d * h - e * g) + f * (b * g - a * h) + i * (a * e - b * d)); [rewrite <- G1, <- G2, <- G3; reflexivity|]. rewrite <- D. ring. }
  assert (R1 : a * a + b * b + c * c = 1). { transitivity (a * (e * i - f * h) + b * (f * g - d * i) + c * (d * h - e * g)); [rewrite <- A1, <- B1, <- G1; reflexivity|]. rewrite <- D. ring. }
  assert (R2 : d * d + e * e + f * f = 1). { transitivity (d * (c * h - b * i) + e * (a * i - c * g) + f * (b * g - a * h)); [rewrite <- A2, <- B2, <- G2; reflexivity|]. rewrite <- D. ring. }
  assert (R3 : g * g + h * h + i * i = 1). { transitivity (g * (b * f - c * e) + h * (c * d - a * f) + i * (a * e - b * d)); [rewrite <- A3, <- B3, <- G3; reflexivity|]. rewrite <- D. ring. }
  assert (S1 : a * d + b * e + c * f = 0). { transitivity (a * (c * h - b * i) + b * (a * i - c * g) + c * (b * g - a * h)); [rewrite <- A2, <- B2, <- G2; reflexivity|ring]. }
  assert (S2 : a * g + b * h + c * i = 0). { transitivity (a * (b * f - c * e) + b * (c * d - a * f) + c * (a * e - b * d)); [rewrite <- A3, <- B3, <- G3; reflexivity|ring]. }
  assert (S3 : d * g + e * h + f * i = 0). { transitivity (d * (b * f - c * e) + e * (c * d - a * f) + f * (a * e - b * d)); [rewrite <- A3, <- B3, <- G3; reflexivity|ring]. }
  repeat split; lra.
Qed.
(** the products of the coordinates of the quaternion of a matrix *)
Definition matches (a b c d e f g h i w x y z : R) : Prop :=
  4 * (w * w) = 1 + (a + e + i) /\ 4 * (x * x) = 1 + a - e - i /\ 4 * (y * y) = 1 - a + e - i /\ 4 * (z * z) = 1 - a - e + i /\
  4 * (w * x) = h - f /\ 4 * (w * y) = c - g /\ 4 * (w * z) = d - b /\ 4 * (x * y) = d + b /\ 4 * (x * z) = g + c /\ 4 * (y * z) = h + f.
Lemma matches_axes a b c d e f g h i w x y z : matches a b c d e f g h i w x y z ->
  unit_quat (Quat w x y z) /\ qrot (Quat w x y z) e_x = Vec3 a d g /\ qrot (Quat w x y z) e_y = Vec3 b e h /\ qrot (Quat w x y z) e_z = Vec3 c f i.
Proof.
  intros (H1 & H2 & H3 & H4 & H5 & H6 & H7 & H8 & H9 & H10). split; [unfold unit_quat; geo; lra|]. split; [|split]; vec; lra.
Qed.
(** products with a factor [v * k] where [k] is half the reciprocal of the root [r] of [s] *)
Lemma half_own r s : r * r = s -> 4 * ((0.5 * r) * (0.5 * r)) = s.
Proof. intros <-. replace 0.5 with (/ 2) by lra. field. Qed.
Lemma half_other r u : r <> 0 -> 4 * ((0.5 * r) * (u * (0.5 / r))) = u.
Proof. intros H. replace 0.5 with (/ 2) by lra. field. exact H. Qed.
Lemma half_both r s u v p : r <> 0 -> r * r = s -> u * v = s * p -> 4 * ((u * (0.5 / r)) * (v * (0.5 / r))) = p.
Proof. intros H <- E. replace 0.5 with (/ 2) by lra. transitivity ((u * v) / (r * r)); [field; exact H|]. rewrite E. field. exact H. Qed.
Ltac halves r s H := lazymatch goal with
  | |- 4 * ((0.5 * _) * (0.5 * _)) = _ => rewrite (half_own r s) by exact H; lra
  | |- 4 * ((0.5 * _) * (_ * _)) = _ => rewrite half_other by assumption; lra
  | |- 4 * ((_ * _) * (0.5 * _)) = _ => rewrite (Rmult_comm (_ * _) (0.5 * _)), half_other by assumption; lra
  | |- 4 * ((_ * _) * (_ * _)) = _ => apply (half_both r s); [assumption|exact H|lra]
  end.
Lemma mat33_frame x y z : frame x y z -> exists q, quat_from_mat33 (mat33_from_axes x y z) = Ok q /\ unit_quat q /\ qrot q e_x = x /\ qrot q e_y = y /\ qrot q e_z = z.
Proof.
  destruct x as [a d g], y as [b e h], z as [c f i]. intros F. apply frame_facts in F. destruct F as ((C1 & C2 & C3) & (C4 & C5 & C6) & (R1 & R2 & R3) & (R4 & R5 & R6) & (K1 & K2 & K3) & (K4 & K5 & K6) & (K7 & K8 & K9)).
  unfold quat_from_mat33, mat33_from_axes. cbn [vx vy vz e00 e01 e02 e10 e11 e12 e20 e21 e22 mat_at]. cbv zeta.
  destruct (Rlt_dec 0 (a + e + i)) as [T|T].
  - assert (Rr : sqrt (a + e + i + 1) * sqrt (a + e + i + 1) = 1 + (a + e + i)) by (rewrite sqrt_sqrt by lra; ring). assert (R0 : 0 < sqrt (a + e + i + 1)) by (apply sqrt_lt_R0; lra). set (r := sqrt (a + e + i + 1)) in *. assert (Rn : r <> 0) by lra.
    unfold div_checked. destruct (Req_EM_T r 0); [contradiction|]. cbn [obind]. eexists. split; [reflexivity|]. apply matches_axes. unfold matches.
    split; [|split; [|split; [|split; [|split; [|split; [|split; [|split; [|split]]]]]]]]; halves r (1 + (a + e + i)) Rr.
  - assert (Big : (e <= a -> i <= a -> 0 < 1 + a - e - i) /\ (a <= e -> i <= e -> 0 < 1 - a + e - i) /\ (a <= i -> e <= i -> 0 < 1 - a - e + i)) by (repeat split; intros; lra). destruct Big as (B0 & B1 & B2).
    assert (I0 : i <= a -> e <= a -> exists q, (do root <- div_checked 0.5 (sqrt (a - e - i + 1)); Ok (Quat ((h - f) * root) (0.5 * sqrt (a - e - i + 1)) ((d + b) * root) ((g + c) * root))) = Ok q /\ unit_quat q /\ qrot q e_x = Vec3 a d g /\ qrot q e_y = Vec3 b e h /\ qrot q e_z = Vec3 c f i).
    { intros L1 L2. specialize (B0 L2 L1). assert (Rr : sqrt (a - e - i + 1) * sqrt (a - e - i + 1) = 1 + a - e - i) by (rewrite sqrt_sqrt by lra; ring). assert (R0 : 0 < sqrt (a - e - i + 1)) by (apply sqrt_lt_R0; lra). set (r := sqrt (a - e - i + 1)) in *. assert (Rn : r <> 0) by lra.
      unfold div_checked. destruct (Req_EM_T r 0); [contradiction|]. cbn [obind]. eexists. split; [reflexivity|]. apply matches_axes. unfold matches.
      split; [|split; [|split; [|split; [|split; [|split; [|split; [|split; [|split]]]]]]]]; halves r (1 + a - e - i) Rr. }
    assert (I1 : i <= e -> a <= e -> exists q, (do root <- div_checked 0.5 (sqrt (e - i - a + 1)); Ok (Quat ((c - g) * root) ((b + d) * root) (0.5 * sqrt (e - i - a + 1)) ((h + f) * root))) = Ok q /\ unit_quat q /\ qrot q e_x = Vec3 a d g /\ qrot q e_y = Vec3 b e h /\ qrot q e_z = Vec3 c f i).
    { intros L1 L2. specialize (B1 L2 L1). assert (Rr : sqrt (e - i - a + 1) * sqrt (e - i - a + 1) = 1 - a + e - i) by (rewrite sqrt_sqrt by lra; ring). assert (R0 : 0 < sqrt (e - i - a + 1)) by (apply sqrt_lt_R0; lra). set (r := sqrt (e - i - a + 1)) in *. assert (Rn : r <> 0) by lra.
      unfold div_checked. destruct (Req_EM_T r 0); [contradiction|]. cbn [obind]. eexists. split; [reflexivity|]. apply matches_axes. unfold matches.
      split; [|split; [|split; [|split; [|split; [|split; [|split; [|split; [|split]]]]]]]]; halves r (1 - a + e - i) Rr. }
    assert (I2 : a <= i -> e <= i -> exists q, (do root <- div_checked 0.5 (sqrt (i - a - e + 1)); Ok (Quat ((d - b) * root) ((c + g) * root) ((f + h) * root) (0.5 * sqrt (i - a - e + 1)))) = Ok q /\ unit_quat q /\ qrot q e_x = Vec3 a d g /\ qrot q e_y = Vec3 b e h /\ qrot q e_z = Vec3 c f i).
    { intros L1 L2. specialize (B2 L1 L2). assert (Rr : sqrt (i - a - e + 1) * sqrt (i - a - e + 1) = 1 - a - e + i) by (rewrite sqrt_sqrt by lra; ring). assert (R0 : 0 < sqrt (i - a - e + 1)) by (apply sqrt_lt_R0; lra). set (r := sqrt (i - a - e + 1)) in *. assert (Rn : r <> 0) by lra.
      unfold div_checked. destruct (Req_EM_T r 0); [contradiction|]. cbn [obind]. eexists. split; [reflexivity|]. apply matches_axes. unfold matches.
      split; [|split; [|split; [|split; [|split; [|split; [|split; [|split; [|split]]]]]]]]; halves r (1 - a - e + i) Rr. }
    destruct (Rlt_dec a e) as [A|A]; cbn [mat_at].
    + cbn [e00 e01 e02 e10 e11 e12 e20 e21 e22]. destruct (Rlt_dec e i) as [B|B]; [apply I2; lra|apply I1; lra].
    + cbn [e00 e01 e02 e10 e11 e12 e20 e21 e22]. destruct (Rlt_dec a i) as [B|B]; [apply I2; lra|apply I0; lra].
Qed.
Lemma axes_frame q : unit_quat q -> frame (qrot q e_x) (qrot q e_y) (qrot q e_z).
Proof.
  intros U. unfold frame, unit_vec. destruct (rotation_assembled q U) as (_ & _ & D & C). rewrite !D, <- C. repeat split; try (geo; lra). f_equal. vec; ring.
Qed.
Lemma mat33_assembled q : unit_quat q -> exists p, quat_from_mat33 (let '(x, y, z) := axes_from_quat q in mat33_from_axes x y z) = Ok p /\ same_up_to_sign p q.
Proof.
  intros U. destruct (axes_assembled q) as (_ & _ & _ & A & _). rewrite A. destruct (mat33_frame _ _ _ (axes_frame q U)) as (p & E & Up & X & Y & _). exists p. split; [exact E|]. apply (agree_two p q e_x e_y); try assumption. exact e_xy.
Qed.
